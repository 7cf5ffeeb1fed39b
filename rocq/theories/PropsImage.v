(** C28-C31: images. *)

From Coq Require Import String Ascii List NArith ZArith Bool Lia ZifyBool ZifyN ZifyNat.
Import ListNotations.
From Verif Require Import Base BaseFacts Num NumFacts Regex RegexFacts KeysModel KeysProofs ImageModel ImageSpec ImageLang ImageProofs.
Open Scope N_scope.

(** ** C31: languages *)

Theorem tag_language : forall s t, tag_new s = Ok t <-> t = s /\ matches TAG_RE s /\ (List.length s <= 128)%nat.
Proof. exact tag_new_ok. Qed.

Theorem digest_language : forall s t, digest_new s = Ok t <-> t = s /\ matches DIGEST_RE s.
Proof. exact digest_new_ok. Qed.

Theorem image_name_language : forall s n,
  iname_new s = Ok n <-> is_name s /\ n_inner n = s /\
    match n_registry_end n with
    | Some e => exists r, is_registry s (Some r) /\ e = blen r
    | None => is_registry s None
    end.
Proof.
  intros s n. rewrite iname_new_ok. split.
  - intros [H ->]. cbn [n_inner n_registry_end]. split; [exact H|]. split; [reflexivity|].
    destruct (registry_of s) as [r|] eqn:E; cbn [option_map].
    + exists r. split; [apply registry_of_spec; auto|reflexivity].
    + apply registry_of_spec. auto.
  - intros [H [H1 H2]]. split; [exact H|]. destruct n as [n e]. cbn [n_inner n_registry_end] in *. subst n. f_equal.
    destruct e as [e|].
    + destruct H2 as [r [H2 ->]]. apply registry_of_spec in H2. rewrite <- H2. reflexivity.
    + apply registry_of_spec in H2. rewrite <- H2. reflexivity.
Qed.

(** [Name::registry] never panics and is the part before the first slash if that has a dot. *)
Theorem image_name_registry : forall s n, iname_new s = Ok n -> exists r, iname_registry n = Ret r /\ is_registry s r.
Proof.
  intros s n H. apply iname_new_ok in H. destruct H as [H ->]. exists (registry_of s).
  split; [|apply registry_of_spec; reflexivity]. unfold iname_registry. cbn [n_registry_end n_inner].
  pose proof (registry_prefix (registry_of s) s [] (name_split_registry s H)) as Hp.
  destruct (registry_of s) as [r|]; [|reflexivity]. cbn [option_map]. destruct Hp as [rest Hp]. rewrite app_nil_r in Hp.
  rewrite Hp, split_at_app. reflexivity.
Qed.

(** Finding: the OCI distribution spec, which [Tag::new] cites, does not allow a tag to start with a dot
    or a dash; [Tag::new] does. *)
Theorem tag_oci_refuted : exists t, tag_new t = Ok t /\ ~ matches OCI_TAG_RE t.
Proof.
  exists $"-x". split; [reflexivity|]. intros H. unfold OCI_TAG_RE in H. apply matches_cls_star in H.
  destruct H as [c [r [E [H _]]]]. injection E as <- _. discriminate.
Qed.

(** ... but every OCI tag is accepted. *)
Theorem tag_oci : forall t, matches OCI_TAG_RE t -> (List.length t <= 128)%nat -> tag_new t = Ok t.
Proof.
  intros t H L. apply tag_new_ok. split; [reflexivity|]. split; [|exact L]. unfold OCI_TAG_RE in H.
  apply matches_cls_star in H. destruct H as [c [r [-> [H1 H2]]]]. unfold TAG_RE. apply matches_plus_cls.
  split; [discriminate|]. cbn [forallb]. rewrite H2, andb_true_r. revert H1.
  unfold in_clsb, LOWER, UPPER, DIGIT, rng, one, between. cbn [existsb fst snd]. cls. lia.
Qed.

(** Finding: a registry port may be written with a plus sign. *)
Theorem name_port_plus_refuted : exists s n, iname_new s = Ok n /\ In (ch "+") s.
Proof. exists $"quay.io:+443/podman". eexists. split; [reflexivity|]. cbn. tauto. Qed.

Example tag_case : tag_new $"latest" = Ok $"latest" /\ tag_new $"a/b" = Err (TECharacter (ch "/")) /\
  tag_new (repeat (ch "a") 129) = Err TELength.
Proof. repeat split. Qed.
Example digest_case : digest_new $"sha256+b64u:AZ_=-" = Ok $"sha256+b64u:AZ_=-" /\
  digest_new $"sha--256:a" = Err DEAlgorithmSeparators.
Proof. split; reflexivity. Qed.
Example name_case :
  iname_new $"quay.io:443/pod__man/hel--lo" = Ok {| n_inner := $"quay.io:443/pod__man/hel--lo"; n_registry_end := Some 11 |} /\
  iname_new $"a___b" = Err NEMultipleSeparators /\ iname_new $"localhost:5000/x" = Err (NECharacter (ch ":")).
Proof. repeat split. Qed.

(** ** C28: accessors *)

Theorem image_accessors : forall s i, image_parse s = Ok i ->
  exists reg name x,
    image_registry i = Ret reg /\ (forall checks, image_name checks i = Ret name) /\
    image_tag i = Ret (match x with Tagged t => Some t | _ => None end) /\
    image_digest i = Ret (match x with Digested d => Some d | _ => None end) /\
    image_tag_or_digest i = Ret (match x with NoSuffix => None | Tagged t => Some (TTag t) | Digested d => Some (TDigest d) end) /\
    i_inner i = s /\ s = name ++ suffix_text x /\ is_registry name reg /\ is_name name /\ is_suffix x.
Proof.
  intros s i H. apply image_parse_ok in H. destruct H as [n [x [-> [Hn [Hx [Hu ->]]]]]].
  exists (registry_of n), n, x. repeat split.
  - rewrite get_registry; [reflexivity|]. split; [apply name_split_registry; exact Hn|exact Hx].
  - intros checks. rewrite get_name. reflexivity.
  - rewrite get_tag. reflexivity.
  - rewrite get_digest. reflexivity.
  - rewrite get_tod. reflexivity.
  - apply registry_of_spec. reflexivity.
  - exact Hn.
  - exact Hx.
Qed.

Example image_accessors_case : exists i, image_parse $"quay.io:443/podman/hello@sha256:0a" = Ok i /\
  image_registry i = Ret (Some $"quay.io:443") /\ image_name true i = Ret $"quay.io:443/podman/hello" /\
  image_tag i = Ret None /\ image_digest i = Ret (Some $"sha256:0a").
Proof. eexists. repeat split. Qed.

(** ** C29: language *)

(** The accepted texts: a name, with a tag or a digest; when there is no tag, a registry port has to be
    followed by a path. *)
Theorem image_language_partial : forall s,
  (exists i, image_parse s = Ok i) <->
  exists n x, s = n ++ suffix_text x /\ is_name n /\ is_suffix x /\ unambiguous n x.
Proof.
  intros s. split.
  - intros [i H]. apply image_parse_ok in H. destruct H as [n [x [H1 [H2 [H3 [H4 _]]]]]]. eauto 6.
  - intros [n [x [H1 [H2 [H3 H4]]]]]. eexists. apply image_parse_ok. exists n, x. repeat split; eauto.
Qed.

(** Finding: the full statement (without [unambiguous]) fails: a valid name with a port and a valid digest
    is rejected as having both a tag and a digest. *)
Theorem image_language_refuted : exists n x,
  is_name n /\ is_suffix x /\ image_parse (n ++ suffix_text x) = Err IETagAndDigest.
Proof.
  exists $"quay.io:443", (Digested $"sha256:0a"). split; [|split; [|reflexivity]].
  - assert (H : iname_new $"quay.io:443" = Ok {| n_inner := $"quay.io:443"; n_registry_end := Some 11 |}) by reflexivity.
    apply iname_new_ok in H. apply H.
  - assert (H : digest_new $"sha256:0a" = Ok $"sha256:0a") by reflexivity. apply digest_new_ok in H. apply H.
Qed.

(** The parts are determined by the text. *)
Theorem image_parts_unique : forall n x n' x',
  is_name n -> is_suffix x -> unambiguous n x -> is_name n' -> is_suffix x' -> unambiguous n' x' ->
  n ++ suffix_text x = n' ++ suffix_text x' -> n = n' /\ x = x'.
Proof.
  intros n x n' x' H1 H2 H3 H4 H5 H6 E.
  assert (P : image_parse (n ++ suffix_text x) = Ok (mk_image {| p_registry := registry_of n; p_name := n; p_suffix := x |}))
    by (apply image_parse_ok; eauto 8).
  assert (P' : image_parse (n ++ suffix_text x) = Ok (mk_image {| p_registry := registry_of n'; p_name := n'; p_suffix := x' |}))
    by (rewrite E; apply image_parse_ok; eauto 8).
  rewrite P in P'. injection P' as P'. clear P.
  pose proof (get_name true {| p_registry := registry_of n; p_name := n; p_suffix := x |}) as G1.
  pose proof (get_tod {| p_registry := registry_of n; p_name := n; p_suffix := x |}) as G2.
  assert (M : mk_image {| p_registry := registry_of n; p_name := n; p_suffix := x |} =
              mk_image {| p_registry := registry_of n'; p_name := n'; p_suffix := x' |}).
  { unfold mk_image. cbn [p_registry p_name p_suffix]. f_equal; assumption. }
  rewrite M, get_name in G1. rewrite M, get_tod in G2. cbn [p_name p_suffix] in *. injection G1 as ->. split; [reflexivity|].
  destruct x, x'; congruence.
Qed.

Example image_language_case :
  is_ok (image_parse $"quay.io/podman/hello:latest") = true /\ is_ok (image_parse $"a:b@sha256:00") = false /\
  is_ok (image_parse $"quay.io:443:443") = true.
Proof. repeat split. Qed.

(** ** C30: setters *)

(** A setter call; names go through [Name::new]. *)
Definition call_op (checks : bool) (i : image) (o : op) : may_panic image :=
  match o with
  | OpRegistry None => image_set_registry checks i None
  | OpRegistry (Some r) => match iname_new r with Ok r => image_set_registry checks i (Some r) | Err _ => Panic end
  | OpName n _ => match iname_new n with Ok n => image_set_name checks i n | Err _ => Panic end
  | OpTag t => image_set_tag checks i t
  | OpDigest d => image_set_digest checks i d
  end.
Fixpoint call_ops (checks : bool) (i : image) (os : list op) : may_panic image :=
  match os with [] => Ret i | o :: os => j <! call_op checks i o ;; call_ops checks j os end.

Lemma call_run : forall checks i o, op_ok o -> call_op checks i o = run_op checks i o.
Proof.
  intros checks i o H. destruct o as [[r|]|n reg|t|d]; cbn [op_ok call_op run_op option_map] in *; try reflexivity.
  - rewrite (proj2 (iname_new_ok r _) (conj H eq_refl)). reflexivity.
  - destruct H as [H1 H2]. rewrite (proj2 (iname_new_ok n _) (conj H1 eq_refl)).
    apply registry_of_spec in H2. subst reg. reflexivity.
Qed.

Lemma calls_run : forall checks os p q i, steps p os q -> call_ops checks i os = run_ops checks i os.
Proof.
  intros checks os. induction os as [|o os IH]; intros p q i H; inversion H; subst; [reflexivity|].
  cbn [call_ops run_ops]. rewrite call_run by assumption. destruct (run_op checks i o); [|reflexivity]. cbn [pbind].
  eapply IH. eassumption.
Qed.

(** After any history of setters on a parsed image in which the registry is never removed from an image
    that is nothing but a registry: no panic, the accessors return the parts last set, and the text
    re-parses to the same image exactly if the cached registry is the one that the name shows and a port is
    not mistaken for a tag. *)
Theorem image_history_partial : forall checks s i, image_parse s = Ok i ->
  exists p, parts_text p = s /\ is_registry (p_name p) (p_registry p) /\ parts_ok p /\
    forall os q, steps p os q ->
    exists j, call_ops checks i os = Ret j /\ i_inner j = parts_text q /\
      image_registry j = Ret (p_registry q) /\ image_name checks j = Ret (p_name q) /\
      is_name (p_name q) /\ parts_ok q /\
      image_tag j = Ret (match p_suffix q with Tagged t => Some t | _ => None end) /\
      image_digest j = Ret (match p_suffix q with Digested d => Some d | _ => None end) /\
      (image_parse (i_inner j) = Ok j <-> is_registry (p_name q) (p_registry q) /\ unambiguous (p_name q) (p_suffix q)).
Proof.
  intros checks s i H. apply image_parse_ok in H. destruct H as [n [x [-> [Hn [Hx [Hu ->]]]]]].
  exists {| p_registry := registry_of n; p_name := n; p_suffix := x |}. split; [reflexivity|].
  assert (Hp : parts_ok {| p_registry := registry_of n; p_name := n; p_suffix := x |}) by (split; [apply name_split_registry; exact Hn|exact Hx]).
  split; [apply registry_of_spec; reflexivity|]. split; [exact Hp|]. intros os q Hs. exists (mk_image q).
  rewrite (calls_run checks os _ q _ Hs).
  destruct (steps_run checks os _ q Hp Hs) as [H1 H2].
  split; [exact H1|]. split; [reflexivity|]. split; [apply get_registry; exact H2|]. split; [apply get_name|].
  split; [eapply registry_inv_name; exact (proj1 H2)|]. split; [exact H2|].
  split; [apply get_tag|]. split; [apply get_digest|]. apply reparse. exact H2.
Qed.

(** Every operation has an outcome in the specification, except removing the registry of an image that is
    nothing but a registry; so the histories of [image_history_partial] are all the others. *)
Theorem image_step_total : forall p o, parts_ok p -> op_ok o ->
  (exists q, step p o q) \/ (o = OpRegistry None /\ p_registry p = Some (p_name p)).
Proof.
  intros [reg name x] o [Hr Hx] Ho. cbn [p_registry p_name p_suffix] in *.
  destruct o as [r|n r|t|d]; try (left; eexists; constructor).
  assert (S : (exists rest, strips reg name (Some rest)) \/ reg = Some name /\ strips reg name None).
  { destruct reg as [r0|]; [|left; eexists; constructor]. destruct Hr as [_ [->|[rest [-> _]]]].
    - right. split; [reflexivity|]. constructor.
    - left. exists rest. constructor. }
  destruct S as [[rest S]|[-> S]].
  - left. destruct r as [r|]; eexists; [apply step_registry; exact S|apply step_no_registry; exact S].
  - destruct r as [r|]; [left; eexists; apply step_registry_only; exact S|right; auto].
Qed.

(** Finding: removing the registry of an image that is nothing but a registry panics, in debug and in
    release builds. *)
Theorem image_set_registry_refuted : exists s i, image_parse s = Ok i /\
  forall checks, image_set_registry checks i None = Panic.
Proof. exists $"quay.io". eexists. split; [reflexivity|]. intros []; reflexivity. Qed.

(** Finding: with a tag the same call succeeds, but leaves an image whose [name] panics. *)
Theorem image_set_registry_tag_refuted : exists s i, image_parse s = Ok i /\
  forall checks, exists j, image_set_registry checks i None = Ret j /\ forall checks', image_name checks' j = Panic.
Proof.
  exists $"quay.io:latest". eexists. split; [reflexivity|]. intros []; (eexists; split; [reflexivity|intros []; reflexivity]).
Qed.

(** Finding: after [set_registry] the cached registry may differ from the registry of the text. *)
Theorem image_set_registry_reparse_refuted : exists s i r j k, image_parse s = Ok i /\
  call_op true i (OpRegistry (Some r)) = Ret j /\ image_parse (i_inner j) = Ok k /\
  image_registry j = Ret (Some r) /\ image_registry k = Ret None.
Proof. exists $"podman/hello". eexists. exists $"localhost". do 2 eexists. repeat split. Qed.

Theorem image_remove_registry_reparse_refuted : exists s i j k, image_parse s = Ok i /\
  call_op true i (OpRegistry None) = Ret j /\ image_parse (i_inner j) = Ok k /\
  image_registry j = Ret None /\ image_registry k = Ret (Some $"b.c").
Proof. exists $"quay.io/b.c/d". do 3 eexists. split; [reflexivity|]. split; [reflexivity|]. repeat split. Qed.

(** Finding: after [set_name] the text may re-parse as another image. *)
Theorem image_set_name_reparse_refuted : exists s i n j k, image_parse s = Ok i /\
  call_op true i (OpName n (Some n)) = Ret j /\ image_tag j = Ret None /\
  image_parse (i_inner j) = Ok k /\ image_tag k = Ret (Some $"443").
Proof.
  exists $"hello". eexists. exists $"quay.io:443". do 2 eexists. repeat split.
Qed.

(** ** C30: [from_parts] *)

(** Without tag or digest [from_parts] is as good as parsing. *)
Theorem image_from_parts_name : forall s n, iname_new s = Ok n -> port_has_path s ->
  image_parse s = Ok (image_from_parts n None).
Proof.
  intros s n H P. apply iname_new_ok in H. destruct H as [H ->]. apply image_parse_ok. exists s, NoSuffix.
  cbn [suffix_text]. rewrite app_nil_r. repeat split; auto. unfold image_from_parts, mk_image, parts_text.
  cbn [n_inner n_registry_end p_name p_suffix p_registry suffix_text start_of]. rewrite app_nil_r. reflexivity.
Qed.

(** The text is always right. *)
Theorem image_from_parts_text : forall n t,
  i_inner (image_from_parts n t) = n_inner n ++ suffix_text (match t with None => NoSuffix | Some (TTag t) => Tagged t | Some (TDigest d) => Digested d end).
Proof. intros n [[t|d]|]; cbn [image_from_parts i_inner suffix_text]; [reflexivity|reflexivity|rewrite app_nil_r; reflexivity]. Qed.

(** Finding: the cached position is one past the end of the text, so for every name and every tag [tag]
    panics, for every name and every digest [digest] panics, and [name] returns the whole text. *)
Theorem image_from_parts_panics : forall n t,
  (match t with TTag _ => image_tag (image_from_parts n (Some t)) | TDigest _ => image_digest (image_from_parts n (Some t)) end) = Panic /\
  image_tag_or_digest (image_from_parts n (Some t)) = Panic /\
  forall checks, image_name checks (image_from_parts n (Some t)) = Ret (i_inner (image_from_parts n (Some t))).
Proof.
  intros n t.
  assert (P : forall s, slice_from s (blen s + 1) = Panic).
  { intros s. unfold slice_from. destruct (split_at (blen s + 1) s) as [[a b]|] eqn:E; [|reflexivity].
    apply split_at_ret in E. destruct E as [E1 E2]. rewrite E1, blen_app in E2. lia. }
  assert (Q : forall checks, image_name checks (image_from_parts n (Some t)) = Ret (i_inner (image_from_parts n (Some t)))).
  { intros checks. unfold image_name, name_end.
    assert (S : exists x, i_start (image_from_parts n (Some t)) = Some x /\ start_pos x = blen (i_inner (image_from_parts n (Some t))) + 1).
    { destruct t; eexists; (split; [reflexivity|reflexivity]). }
    destruct S as [x [-> ->]]. unfold usize_sub. destruct (N.leb_spec 1 (blen (i_inner (image_from_parts n (Some t))) + 1)); [|lia].
    cbn [pbind]. rewrite N.add_sub. generalize (i_inner (image_from_parts n (Some t))). intros s.
    rewrite <- (app_nil_r s) at 1. apply slice_to_app. }
  destruct t as [t|d]; (split; [|split; [|exact Q]]); unfold image_tag, image_digest, image_tag_or_digest, image_from_parts;
    cbn [i_start as_start i_inner]; rewrite P; reflexivity.
Qed.

Theorem image_from_parts_refuted : exists n t, is_name n /\ is_tag t /\
  exists m, iname_new n = Ok m /\ image_tag (image_from_parts m (Some (TTag t))) = Panic.
Proof.
  exists $"quay.io/podman/hello", $"latest".
  assert (H : iname_new $"quay.io/podman/hello" = Ok {| n_inner := $"quay.io/podman/hello"; n_registry_end := Some 7 |}) by reflexivity.
  assert (H2 : tag_new $"latest" = Ok $"latest") by reflexivity. split; [apply iname_new_ok in H; apply H|].
  split; [apply tag_new_ok in H2; apply H2|]. eexists. split; [exact H|]. reflexivity.
Qed.

Example image_history_case : exists i, image_parse $"hello:v1" = Ok i /\
  exists j, call_ops true i [OpRegistry (Some $"docker.io"); OpName $"quay.io:443/a" (Some $"quay.io:443"); OpDigest (Some $"md5:00");
                             OpRegistry (Some $"ghcr.io"); OpTag (Some $"v2")] = Ret j /\
  image_name true j = Ret $"ghcr.io/a" /\ image_tag j = Ret (Some $"v2") /\ image_registry j = Ret (Some $"ghcr.io").
Proof. eexists. split; [reflexivity|]. eexists. split; [reflexivity|]. repeat split. Qed.

Print Assumptions tag_language.
Print Assumptions digest_language.
Print Assumptions image_name_language.
Print Assumptions image_name_registry.
Print Assumptions image_accessors.
Print Assumptions image_language_partial.
Print Assumptions image_parts_unique.
Print Assumptions image_history_partial.
Print Assumptions image_step_total.
Print Assumptions image_from_parts_panics.
Print Assumptions tag_oci_refuted.
Print Assumptions tag_oci.
Print Assumptions name_port_plus_refuted.
Print Assumptions image_language_refuted.
Print Assumptions image_set_registry_refuted.
Print Assumptions image_set_registry_tag_refuted.
Print Assumptions image_set_registry_reparse_refuted.
Print Assumptions image_remove_registry_reparse_refuted.
Print Assumptions image_set_name_reparse_refuted.
Print Assumptions image_from_parts_name.
Print Assumptions image_from_parts_text.
Print Assumptions image_from_parts_refuted.
