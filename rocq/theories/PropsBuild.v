(** C41 and C42: build caches and SSH authentications. *)

From Coq Require Import String Ascii List NArith Bool Lia ZifyBool ZifyN ZifyNat.
Import ListNotations.
From Verif Require Import Base BaseFacts Coll CollFacts KeysModel KeysProofs ImageModel Serde BuildModel BuildProofs.
Open Scope N_scope.

(** * C41 *)

(** The documented text [type=TYPE,KEY=VALUE,...]. *)
Definition typed_text (ty : str) (kvs : list (str * str)) : str := $"type=" ++ join [ch ","] (ty :: map option_text kvs).

(** What is read as a cache: an image, or [type=TYPE] with at least one option. A repeated key keeps its
    last value (see [PropsValues] for the collection rules). *)
Theorem cache_language : forall s c, cache_parse s = Ok c <->
  (exists i, image_parse s = Ok i /\ c = mk_cache (CtRegistry i) []) \/
  (exists ty kvs, s = typed_text ty kvs /\ kvs <> [] /\ Forall pair_ok kvs /\ ~ In (ch ",") ty /\
     ((ty = $"registry" /\ exists r i, imap_get str_eqb (rev kvs) ($"ref") = Some r /\ image_parse r = Ok i /\
         c = mk_cache (CtRegistry i) (without ($"ref") (imap_of str_eqb kvs))) \/
      (ty <> $"registry" /\ is_option ty /\ c = mk_cache (CtOther ty) (imap_of str_eqb kvs)))).
Proof.
  intros s c. unfold cache_parse. destruct (contains (ch ",") s) eqn:Ec.
  - apply contains_In in Ec.
    assert (NI : forall i, image_parse s <> Ok i) by (intros i H; apply image_no_comma in H; contradiction).
    unfold cache_parse_str. pose proof (split_join (ch ",") s) as J. pose proof (split_pieces (ch ",") s) as P.
    destruct (split (ch ",") s) as [|first os] eqn:Es; [exfalso; exact (split_nonempty _ _ Es)|].
    inversion P as [|x l Pf Po]. subst x l.
    assert (No : os <> []) by (intros ->; cbn [join] in J; subst first; contradiction).
    assert (U0 : forall ty' kvs, s = typed_text ty' kvs -> Forall pair_ok kvs -> ~ In (ch ",") ty' ->
      first = $"type=" ++ ty' /\ os = map option_text kvs).
    { intros ty' kvs E F Hn. assert (X : split (ch ",") s = ($"type=" ++ ty') :: map option_text kvs).
      { apply split_iff. split; [discriminate|]. split.
        - constructor.
          + intros X. apply in_app_or in X as [X|X]; [|auto]. repeat (destruct X as [X|X]; [discriminate X|]). destruct X.
          + apply Forall_map. eapply Forall_impl; [|exact F]. exact pair_ok_text.
        - rewrite E. unfold typed_text. destruct (map option_text kvs); cbn [join]; rewrite ?app_assoc; reflexivity. }
      rewrite Es in X. split; congruence. }
    destruct (strip_prefix ($"type=") first) as [ty|] eqn:Ef; cbn [bind].
    + apply strip_prefix_some in Ef. subst first.
      assert (Nty : ~ In (ch ",") ty) by (intros X; apply Pf; apply in_or_app; auto).
      assert (U : forall ty' kvs, s = typed_text ty' kvs -> Forall pair_ok kvs -> ~ In (ch ",") ty' -> ty' = ty /\ os = map option_text kvs).
      { intros ty' kvs E F Hn. destruct (U0 ty' kvs E F Hn) as [X Y]. apply app_inv_head in X. auto. }
      assert (S1 : s = $"type=" ++ join [ch ","] (ty :: os)).
      { rewrite <- J. destruct os; cbn [join]; rewrite ?app_assoc; reflexivity. }
      destruct (collect cache_option_parse os) as [kvs|e] eqn:Eo; cbn [bind].
      * apply options_parse_ok in Eo as [Eo Fo]; [|exact Po].
        assert (Nk : kvs <> []) by (intros ->; auto).
        assert (St : s = typed_text ty kvs) by (rewrite S1, Eo; reflexivity).
        assert (Inj : forall kvs', map option_text kvs' = map option_text kvs -> Forall pair_ok kvs' -> kvs' = kvs).
        { intros kvs' E F. assert (X : collect cache_option_parse os = Ok kvs') by (apply options_parse_ok; [exact Po|split; [congruence|exact F]]).
          assert (Y : collect cache_option_parse os = Ok kvs) by (apply options_parse_ok; auto). congruence. }
        pose proof (imap_of_NoDup str_eqb str_eqb_eq kvs) as ND.
        destruct (str_eqb_spec ty ($"registry")) as [->|Nr].
        -- rewrite shift_remove_eq by exact ND. rewrite (imap_of_get str_eqb str_eqb_eq). split.
           ++ intros H. right. exists ($"registry"), kvs. repeat split; auto. left. split; [reflexivity|].
              destruct (imap_get str_eqb (rev kvs) ($"ref")) as [r|]; [|discriminate]. exists r.
              destruct (image_parse r) as [i|e] eqn:Ei; cbn [map_err bind] in H; [|discriminate]. injection H as <-. eauto.
           ++ intros [[i [H _]]|[ty' [kvs' [E [_ [F [Hn H]]]]]]]; [exfalso; eapply NI; exact H|].
              destruct (U ty' kvs' E F Hn) as [-> E']. rewrite Eo in E'. symmetry in E'. apply Inj in E'; [|exact F]. subst kvs'.
              destruct H as [[_ [r [i [-> [Hi ->]]]]]|[H _]]; [|congruence]. rewrite Hi. reflexivity.
        -- split.
           ++ intros H. right. exists ty, kvs. repeat split; auto. right. split; [exact Nr|].
              destruct (cache_option_new ty) as [t|e] eqn:Et; cbn [map_err bind] in H; [|discriminate]. injection H as <-.
              apply option_new_iff in Et as [-> Et]. auto.
           ++ intros [[i [H _]]|[ty' [kvs' [E [_ [F [Hn H]]]]]]]; [exfalso; eapply NI; exact H|].
              destruct (U ty' kvs' E F Hn) as [-> E']. rewrite Eo in E'. symmetry in E'. apply Inj in E'; [|exact F]. subst kvs'.
              destruct H as [[H _]|[_ [Ho ->]]]; [congruence|]. rewrite (proj2 (option_new_iff ty ty)) by auto. reflexivity.
      * split; [discriminate|]. intros [[i [H _]]|[ty' [kvs' [E [_ [F [Hn H]]]]]]]; [exfalso; eapply NI; exact H|].
        destruct (U ty' kvs' E F Hn) as [-> E'].
        assert (X : collect cache_option_parse os = Ok kvs') by (apply options_parse_ok; auto). congruence.
    + split; [discriminate|]. intros [[i [H _]]|[ty' [kvs' [E [_ [F [Hn _]]]]]]]; [exfalso; eapply NI; exact H|]. exfalso.
      destruct (U0 ty' kvs' E F Hn) as [X _]. exact (proj1 (strip_prefix_none _ _) Ef ty' X).
  - assert (Nc : ~ In (ch ",") s) by (rewrite <- contains_In; congruence). clear Ec.
    destruct (image_parse s) as [i|e] eqn:Ei; cbn [map_err map_ok].
    + split; [intros H; injection H as <-; left; eauto|]. intros [[j [H ->]]|[ty [kvs [E [Hk _]]]]]; [congruence|]. exfalso.
      apply Nc. rewrite E. unfold typed_text. destruct kvs as [|kv kvs]; [congruence|]. cbn [map join].
      apply in_or_app. right. apply in_or_app. right. left. reflexivity.
    + split; [discriminate|]. intros [[j [H _]]|[ty [kvs [E [Hk _]]]]]; [discriminate|]. exfalso.
      apply Nc. rewrite E. unfold typed_text. destruct kvs as [|kv kvs]; [congruence|]. cbn [map join].
      apply in_or_app. right. apply in_or_app. right. left. reflexivity.
Qed.
Print Assumptions cache_language.

(** The values which can be written and read back. *)
Definition cache_canonical (c : cache) : Prop :=
  NoDup (map fst (c_options c)) /\ Forall pair_ok (c_options c) /\
  match c_type c with
  | CtRegistry i => image_parse (i_inner i) = Ok i /\ ~ In ($"ref") (map fst (c_options c))
  | CtOther t => is_option t /\ ~ In (ch ",") t /\ t <> $"registry" /\ c_options c <> []
  end.

(** Everything read is canonical. *)
Theorem cache_parse_canonical : forall s c, cache_parse s = Ok c -> cache_canonical c.
Proof.
  intros s c H. apply cache_language in H.
  destruct H as [[i [H ->]]|[ty [kvs [-> [Hk [F [Hn [[-> [r [i [Hr [Hi ->]]]]]|[Hr [Ho ->]]]]]]]]]]; unfold cache_canonical; cbn [c_options c_type].
  - split; [constructor|]. split; [constructor|]. split; [|intros []]. pose proof (image_text _ _ H) as ->. exact H.
  - pose proof (imap_of_NoDup str_eqb str_eqb_eq kvs) as ND. split; [apply without_NoDup; exact ND|]. split.
    + rewrite Forall_forall in *. intros p Hp. apply filter_In in Hp as [Hp _]. apply F.
      apply (imap_of_sub str_eqb str_eqb_eq) in Hp. exact Hp.
    + split; [pose proof (image_text _ _ Hi) as ->; exact Hi|apply without_In].
  - split; [apply (imap_of_NoDup str_eqb str_eqb_eq)|]. split.
    + rewrite Forall_forall in *. intros p Hp. apply F. apply (imap_of_sub str_eqb str_eqb_eq) in Hp. exact Hp.
    + split; [exact Ho|]. split; [exact Hn|]. split; [exact Hr|]. intros E.
      assert (X := imap_of_keys str_eqb kvs). rewrite E in X. cbn [map] in X.
      destruct kvs as [|[k v] kvs]; [congruence|].
      assert (Y : In k (iset_of str_eqb (map fst ((k, v) :: kvs)))) by (apply (iset_of_In str_eqb str_eqb_eq); left; reflexivity).
      rewrite <- X in Y. destruct Y.
Qed.
Print Assumptions cache_parse_canonical.

(** C41, exactly: what is printed is read back as the same value if and only if the value is canonical. *)
Theorem cache_round_trip : forall c, cache_parse (cache_show c) = Ok c <-> cache_canonical c.
Proof.
  intros c. split; [apply cache_parse_canonical|]. destruct c as [t os]. unfold cache_canonical. cbn [c_options c_type].
  intros [ND [F H]]. apply cache_language. unfold cache_show. cbn [c_options c_type]. destruct t as [i|t].
  - destruct H as [Hi Hr]. destruct os as [|o os]; [left; eauto|]. right.
    exists ($"registry"), (($"ref", i_inner i) :: o :: os). repeat split.
    + rewrite concat_join. unfold typed_text, cache_type_show.
      change (map option_text (($"ref", i_inner i) :: o :: os)) with (($"ref=" ++ i_inner i) :: map option_text (o :: os)).
      cbn [map join]. rewrite <- !app_assoc. reflexivity.
    + discriminate.
    + constructor; [|exact F]. unfold pair_ok. cbn [fst snd].
      assert (R : forall l x, l = $"ref" -> In x l -> x = ch "r" \/ x = ch "e" \/ x = ch "f").
      { intros l x -> [<-|[<-|[<-|[]]]]; auto. }
      split; [split; [discriminate|]; intros c Hc; destruct (R _ _ eq_refl Hc) as [->|[->| ->]]; reflexivity|].
      split; [apply (option_new_iff _ (i_inner i)); eapply image_option; exact Hi|].
      split; [intros X; destruct (R _ _ eq_refl X) as [E|[E|E]]; discriminate E|].
      split; [intros X; destruct (R _ _ eq_refl X) as [E|[E|E]]; discriminate E|]. eapply image_no_comma. exact Hi.
    + intros X. repeat (destruct X as [X|X]; [discriminate X|]). destruct X.
    + left. split; [reflexivity|]. exists (i_inner i), i.
      assert (ND' : NoDup (map fst (($"ref", i_inner i) :: o :: os))) by (cbn [map fst]; constructor; assumption).
      split; [|split; [exact Hi|]].
      * rewrite <- (imap_of_get str_eqb str_eqb_eq). rewrite (imap_of_nodup str_eqb str_eqb_eq) by exact ND'.
        cbn [imap_get]. rewrite str_eqb_refl. reflexivity.
      * rewrite (imap_of_nodup str_eqb str_eqb_eq) by exact ND'. f_equal. unfold without at 1. cbn [filter fst].
        rewrite str_eqb_refl. cbn [negb]. symmetry. apply (without_absent ($"ref") (o :: os)). exact Hr.
  - destruct H as [Ho [Hn [Hr Hk]]]. right. exists t, os. repeat split; auto.
    + rewrite concat_join. unfold typed_text, cache_type_show. destruct os; [congruence|]. cbn [map join]. rewrite <- app_assoc. reflexivity.
    + right. rewrite (imap_of_nodup str_eqb str_eqb_eq) by exact ND. auto.
Qed.
Print Assumptions cache_round_trip.

(** C41 as stated is false: a cache type without options is printed as [type=local], which is read as an
    image name and rejected; an option value with a comma is split; and the string documented as
    [type=TYPE] with no options is not accepted. *)
Theorem cache_round_trip_refuted : exists t,
  cache_option_new t = Ok t /\ exists e, cache_parse (cache_show (mk_cache (CtOther t) [])) = Err e.
Proof. exists ($"local"). split; [reflexivity|]. eexists. vm_compute. reflexivity. Qed.
Print Assumptions cache_round_trip_refuted.

Theorem cache_comma_refuted : exists t k v,
  cache_option_new t = Ok t /\ cache_option_new k = Ok k /\ cache_option_new v = Ok v /\
  cache_parse (cache_show (mk_cache (CtOther t) [(k, v)])) = Ok (mk_cache (CtOther t) [(k, $"a"); ($"b", $"c")]).
Proof. exists ($"local"), ($"src"), ($"a,b=c"). repeat split. Qed.
Print Assumptions cache_comma_refuted.

Theorem cache_registry_type_refuted :
  cache_option_new ($"registry") = Ok ($"registry") /\
  cache_parse (cache_show (mk_cache (CtOther ($"registry")) [($"mode", $"max")])) = Err CeMissingRef.
Proof. split; reflexivity. Qed.
Print Assumptions cache_registry_type_refuted.

(** Serialized caches come back. *)
Theorem cache_serde_round_trip : forall c, cache_canonical c -> cache_deserialize (cache_serialize c) = Ok c.
Proof. intros c H. apply cache_round_trip in H. unfold cache_deserialize, cache_serialize, from_string. rewrite H. reflexivity. Qed.
Print Assumptions cache_serde_round_trip.

(** [into_options] lists the type first (then the image of a registry cache) and loses nothing: the pairs
    joined as text are the long printed form. *)
Theorem cache_into_options_text : forall c, cache_canonical c -> ~ In ($"type") (map fst (c_options c)) ->
  join [ch ","] (map option_text (cache_into_options c)) =
  match c_options c, c_type c with
  | [], CtRegistry i => $"type=registry,ref=" ++ i_inner i
  | _, _ => cache_show c
  end.
Proof.
  intros [t os] [ND [F H]] Ht. cbn [c_options c_type] in *. unfold cache_into_options, imap_shift_insert0. cbn [c_options c_type].
  destruct t as [i|t].
  - destruct H as [Hi Hr]. rewrite (shift_remove_eq os ($"ref")) by exact ND. cbn [snd]. rewrite (without_absent ($"ref") os Hr).
    assert (ND' : NoDup (map fst (($"ref", i_inner i) :: os))) by (cbn [map fst]; constructor; assumption).
    rewrite (shift_remove_eq _ ($"type")) by exact ND'. cbn [snd]. rewrite without_absent.
    + destruct os as [|o os]; [reflexivity|]. unfold cache_show. cbn [c_options c_type]. rewrite concat_join. unfold cache_type_show.
      cbn [map join]. unfold option_text at 1 2. cbn [fst snd]. rewrite <- !app_assoc. reflexivity.
    + cbn [map fst In]. intros [X|X]; [discriminate X|contradiction].
  - rewrite (shift_remove_eq os ($"type")) by exact ND. cbn [snd]. rewrite (without_absent ($"type") os Ht).
    unfold cache_show. cbn [c_options c_type]. destruct os as [|o os]; [destruct H as [_ [_ [_ H]]]; congruence|].
    rewrite concat_join. reflexivity.
Qed.
Print Assumptions cache_into_options_text.

Example cache_example : exists i, image_parse ($"ghcr.io/a/b:1") = Ok i /\
  cache_parse ($"type=registry,mode=max,ref=ghcr.io/a/b:1,x=y=z") = Ok (mk_cache (CtRegistry i) [($"mode", $"max"); ($"x", $"y=z")]) /\
  cache_show (mk_cache (CtRegistry i) [($"mode", $"max"); ($"x", $"y=z")]) = $"type=registry,ref=ghcr.io/a/b:1,mode=max,x=y=z".
Proof. eexists. split; [vm_compute; reflexivity|]. split; vm_compute; reflexivity. Qed.

(** * C42 *)

(** What is read as an SSH authentication: [default], or a non-empty id without an equals sign, an equals
    sign and a non-empty path. *)
Theorem ssh_auth_language : forall s a, ssh_auth_parse s = Ok a <->
  match a with
  | SshDefault => s = $"default"
  | SshId i => s = ssh_id_id i ++ $"=" ++ ssh_id_path i /\ ssh_id_id i <> [] /\ ssh_id_path i <> [] /\ ~ In (ch "=") (ssh_id_id i)
  end.
Proof.
  intros s a. unfold ssh_auth_parse, ssh_id_parse. destruct (str_eqb_spec s ($"default")) as [->|Ns].
  - destruct a as [|[id path]]; [split; reflexivity|]. cbn [ssh_id_id ssh_id_path]. split; [discriminate|]. intros [E _]. exfalso.
    assert (X : In (ch "=") ($"default")) by (rewrite E; apply in_or_app; right; left; reflexivity).
    repeat (destruct X as [X|X]; [discriminate X|]). destruct X.
  - destruct (split_once_case (ch "=") s) as [[N ->]|[x [y [-> [Nx ->]]]]]; cbn [map_ok].
    + destruct a as [|[id path]]; cbn [ssh_id_id ssh_id_path]; split; try discriminate; [congruence|].
      intros [-> _]. exfalso. apply N. apply in_or_app. right. left. reflexivity.
    + assert (B : map_ok SshId (ssh_id_new x y) = Ok a <-> x <> [] /\ y <> [] /\ a = SshId (mk_ssh_id x y)).
      { unfold ssh_id_new. destruct x as [|x0 x]; [split; [discriminate|intros [H _]; congruence]|].
        destruct y as [|y0 y]; [split; [discriminate|intros [_ [H _]]; congruence]|]. cbn [map_ok].
        split; [intros E; injection E as <-; repeat split; discriminate|intros [_ [_ ->]]; reflexivity]. }
      rewrite B. destruct a as [|[id path]]; cbn [ssh_id_id ssh_id_path]; split.
      * intros [_ [_ H]]. discriminate.
      * intros H. exfalso. congruence.
      * intros [H1 [H2 H3]]. injection H3 as -> ->. auto.
      * intros [E [H1 [H2 H3]]].
        assert (X : split_once (ch "=") (x ++ ch "=" :: y) = Some (id, path)) by (apply split_once_some; auto).
        rewrite split_once_app in X by exact Nx. injection X as -> ->. auto.
Qed.
Print Assumptions ssh_auth_language.

(** C42, exactly: for every value [Id::new] can make, what is printed is read back if and only if the id
    has no equals sign. *)
Theorem ssh_auth_round_trip : forall a,
  match a with SshDefault => True | SshId i => ssh_id_new (ssh_id_id i) (ssh_id_path i) = Ok i end ->
  (ssh_auth_parse (ssh_auth_show a) = Ok a <-> match a with SshDefault => True | SshId i => ~ In (ch "=") (ssh_id_id i) end).
Proof.
  intros [|[id path]] H; rewrite ssh_auth_language; cbn [ssh_auth_show ssh_id_show ssh_id_id ssh_id_path] in *; [tauto|].
  unfold ssh_id_new in H. destruct id as [|x id]; [discriminate|]. destruct path as [|y path]; [discriminate|].
  split; [tauto|]. intros H'. repeat split; try discriminate. exact H'.
Qed.
Print Assumptions ssh_auth_round_trip.

Theorem ssh_auth_reprint : forall s a, ssh_auth_parse s = Ok a -> ssh_auth_show a = s.
Proof. intros s [|i] H; apply ssh_auth_language in H; [subst s; reflexivity|]. destruct H as [-> _]. reflexivity. Qed.
Print Assumptions ssh_auth_reprint.

(** C42 as stated is false: an id may hold an equals sign, which moves into the path when read back. *)
Theorem ssh_auth_round_trip_refuted : exists i, ssh_id_new (ssh_id_id i) (ssh_id_path i) = Ok i /\
  ssh_auth_parse (ssh_auth_show (SshId i)) = Ok (SshId (mk_ssh_id ($"a") ($"b=/key"))) /\ ssh_id_id i = $"a=b".
Proof. exists (mk_ssh_id ($"a=b") ($"/key")). repeat split. Qed.
Print Assumptions ssh_auth_round_trip_refuted.

Example ssh_auth_example : ssh_auth_parse ($"my id=./k=v") = Ok (SshId (mk_ssh_id ($"my id") ($"./k=v"))) /\ ssh_auth_parse ($"default=x") = Ok (SshId (mk_ssh_id ($"default") ($"x"))).
Proof. split; reflexivity. Qed.
