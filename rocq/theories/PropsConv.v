(** C84: values put together without being parsed. *)

From Coq Require Import String Ascii List NArith Bool Lia.
Import ListNotations.
From Verif Require Import Base BaseFacts Num Regex RegexFacts KeysModel KeysProofs KeysSpec PathModel PathProofs TextModel UserModel UserProofs
  ImageSpec ImageModel ImageLang ImageProofs PropsImage BuildModel BuildProofs PropsBuild DeviceModel VolumesModel VolumesProofs CodecFacts ScalarCodec ServiceParts ConvModel.
Open Scope N_scope.

(** ** Texts of images *)

(** Everything which the public functions of images can make: names, tags and digests are made by their [new] or taken out of an image;
    images are parsed, put together from parts, or changed by the setters.  A text has less than 2^63 bytes, as every Rust string. *)
Inductive item := AnImage (i : image) | AName (n : iname) | ATag (t : str) | ADigest (d : str).
Inductive made (checks : bool) : item -> Prop :=
| made_name : forall s n, iname_new s = Ok n -> made checks (AName n)
| made_tag : forall s t, tag_new s = Ok t -> made checks (ATag t)
| made_digest : forall s d, digest_new s = Ok d -> made checks (ADigest d)
| made_image : forall s i, image_parse s = Ok i -> made checks (AnImage i)
| made_parts : forall n, made checks (AName n) -> made checks (AnImage (image_from_parts n None))
| made_parts_tag : forall n t, made checks (AName n) -> made checks (ATag t) -> made checks (AnImage (image_from_parts n (Some (TTag t))))
| made_parts_digest : forall n d, made checks (AName n) -> made checks (ADigest d) -> made checks (AnImage (image_from_parts n (Some (TDigest d))))
| made_as_name : forall i n, made checks (AnImage i) -> blen (i_inner i) < 2 ^ 63 -> image_as_name checks i = Ret n -> made checks (AName n)
| made_as_tag : forall i t, made checks (AnImage i) -> image_tag i = Ret (Some t) -> made checks (ATag t)
| made_as_digest : forall i d, made checks (AnImage i) -> image_digest i = Ret (Some d) -> made checks (ADigest d)
| made_set_registry : forall i r j, made checks (AnImage i) -> made checks (AName r) -> image_set_registry checks i (Some r) = Ret j -> made checks (AnImage j)
| made_no_registry : forall i j, made checks (AnImage i) -> image_set_registry checks i None = Ret j -> made checks (AnImage j)
| made_set_name : forall i n j, made checks (AnImage i) -> blen (i_inner i) < 2 ^ 63 -> made checks (AName n) -> image_set_name checks i n = Ret j ->
    made checks (AnImage j)
| made_set_tag : forall i t j, made checks (AnImage i) -> blen (i_inner i) < 2 ^ 63 -> made checks (ATag t) -> image_set_tag checks i (Some t) = Ret j ->
    made checks (AnImage j)
| made_no_tag : forall i j, made checks (AnImage i) -> blen (i_inner i) < 2 ^ 63 -> image_set_tag checks i None = Ret j -> made checks (AnImage j)
| made_set_digest : forall i d j, made checks (AnImage i) -> blen (i_inner i) < 2 ^ 63 -> made checks (ADigest d) -> image_set_digest checks i (Some d) = Ret j ->
    made checks (AnImage j)
| made_no_digest : forall i j, made checks (AnImage i) -> blen (i_inner i) < 2 ^ 63 -> image_set_digest checks i None = Ret j -> made checks (AnImage j).

(** The characters of images. *)
Definition IMAGE_CHARS : cls :=
  [LOWER; UPPER; DIGIT; one "."; one "_"; one "-"; one "="; one "+"; one "/"; one ":"; one "@"].
Definition image_text (s : str) : Prop := s <> [] /\ Forall (in_cls IMAGE_CHARS) s.

Fixpoint classes (r : re) : list cls :=
  match r with Eps => [] | Cls k => [k] | Cat a b | Alt a b => classes a ++ classes b | Star a => classes a end.

Lemma re_chars : forall k r s, matches r s -> Forall (fun k' => incl k' k) (classes r) -> Forall (in_cls k) s.
Proof.
  intros k r s H. induction H as [|k0 c Hc|a b s t H1 IH1 H2 IH2|a b s H IH|a b s H IH|a|a s t H1 IH1 H2 IH2]; cbn [classes]; intros F.
  - constructor.
  - inversion F as [|x y Hx _]; subst. constructor; [|constructor]. destruct Hc as [a [b [Hi Hr]]]. exists a, b. split; [apply Hx; exact Hi|exact Hr].
  - apply Forall_app in F as [F1 F2]. apply Forall_app. auto.
  - apply Forall_app in F as [F1 F2]. auto.
  - apply Forall_app in F as [F1 F2]. auto.
  - constructor.
  - apply Forall_app. split; [apply IH1; exact F|apply IH2; exact F].
Qed.

Ltac chars_of H := eapply (re_chars IMAGE_CHARS _ _ H);
  repeat (apply Forall_cons; [intros x Hx; cbn in Hx |- *; tauto|]); apply Forall_nil.

Lemma parts_chars : forall s, matches PARTS_RE s -> Forall (in_cls IMAGE_CHARS) s.
Proof. intros s H. chars_of H. Qed.
Lemma slash : in_cls IMAGE_CHARS (ch "/"). Proof. exists (ch "/"), (ch "/"). split; [cbn; tauto|lia]. Qed.
Lemma colon : in_cls IMAGE_CHARS (ch ":"). Proof. exists (ch ":"), (ch ":"). split; [cbn; tauto|lia]. Qed.
Lemma at_sign : in_cls IMAGE_CHARS (ch "@"). Proof. exists (ch "@"), (ch "@"). split; [cbn; tauto|lia]. Qed.

Lemma part_not_nil : forall s, matches PART_RE s -> s <> [].
Proof. intros s H ->. revert H. apply comps_not_nil. Qed.
Lemma parts_not_nil : forall s, matches PARTS_RE s -> s <> [].
Proof.
  intros s H ->. apply matches_cat in H as [x [y [E [H _]]]]. symmetry in E. apply app_eq_nil in E as [-> _]. exact (part_not_nil _ H eq_refl).
Qed.

Lemma name_text : forall s, is_name s -> image_text s.
Proof.
  intros s [H|[host [port [rest [-> [H1 [H2 [H3 H4]]]]]]]]; split.
  - apply parts_not_nil. exact H.
  - apply parts_chars. exact H.
  - destruct host; [exact (fun _ => part_not_nil _ H1 eq_refl)|discriminate].
  - apply Forall_app. split; [chars_of H1|]. constructor; [exact colon|]. apply Forall_app. split; [destruct H3 as [H3 _]; chars_of H3|].
    destruct H4 as [->|[r [-> H4]]]; [constructor|]. constructor; [exact slash|apply parts_chars; exact H4].
Qed.
Lemma tag_text : forall s, is_tag s -> image_text s.
Proof.
  intros s [H _]. split; [|chars_of H]. intros ->. apply matches_cat in H as [x [y [E [H _]]]]. symmetry in E. apply app_eq_nil in E as [-> _].
  apply matches_cls in H as [c [E _]]. discriminate E.
Qed.
Lemma digest_text : forall s, is_digest s -> image_text s.
Proof.
  intros s H. unfold is_digest in H. split; [|chars_of H]. intros ->. apply matches_cat in H as [x [y [E [_ H]]]]. symmetry in E. apply app_eq_nil in E as [_ ->].
  apply matches_cat in H as [x' [y' [E [H _]]]]. symmetry in E. apply app_eq_nil in E as [-> _]. apply matches_lit in H. discriminate H.
Qed.

(** The positions: the registry is not empty and ends where the text ends or at least two bytes before; the tag or digest starts past the
    name (which is not empty and does not end within a byte of the registry), or at the very beginning; it is not empty, or it starts one
    past the end. *)
Definition name_fine (len : N) (r : option N) : Prop := 1 <= len /\ match r with Some e => 1 <= e <= len /\ len <> e + 1 | None => True end.
Definition start_fine (len : N) (r : option N) (s : option tod_start) : Prop :=
  match s with
  | Some x => start_pos x <= len + 1 /\ start_pos x <> len /\
      (start_pos x = 0 /\ match r with None => True | Some _ => False end \/ 2 <= start_pos x /\ name_fine (start_pos x - 1) r)
  | None => True
  end.
Definition suffix_fine (s : str) (x : option tod_start) : Prop :=
  match x with
  | Some x => forall a b, s = a ++ b -> blen a = start_pos x -> match x with STag _ => is_tag b | SDigest _ => is_digest b end
  | None => True
  end.
Definition placed (i : image) : Prop :=
  image_text (i_inner i) /\ name_fine (blen (i_inner i)) (i_registry_end i) /\ start_fine (blen (i_inner i)) (i_registry_end i) (i_start i).
Definition fine (x : item) : Prop :=
  match x with
  | AnImage i => placed i /\ suffix_fine (i_inner i) (i_start i)
  | AName n => image_text (n_inner n) /\ name_fine (blen (n_inner n)) (n_registry_end n)
  | ATag t => is_tag t
  | ADigest d => is_digest d
  end.
Definition tod_ok (t : tag_or_digest) : Prop := match t with TTag t => is_tag t | TDigest d => is_digest d end.
Lemma tod_text : forall t, tod_ok t -> image_text (tod_str t).
Proof. intros [t|d]; [apply tag_text|apply digest_text]. Qed.

Lemma app_at : forall (a b c d : str), a ++ b = c ++ d -> blen c <= blen a -> exists x, a = c ++ x /\ d = x ++ b.
Proof.
  intros a b c. revert a. induction c as [|y c IH]; intros a d E L; [exists a; auto|]. destruct a as [|z a].
  - exfalso. change (blen []) with 0 in L. assert (1 <= blen (y :: c)) by (cbn [blen]; pose proof (utf8_width_pos y); lia). lia.
  - injection E as -> E. cbn [blen] in L. destruct (IH a d E ltac:(lia)) as [x [-> ->]]. exists x. auto.
Qed.
Lemma app_same : forall (a b c d : str), a ++ b = c ++ d -> blen a = blen c -> a = c /\ b = d.
Proof.
  intros a b c d E L. destruct (app_at a b c d E ltac:(lia)) as [x [-> ->]]. rewrite blen_app in L.
  destruct x as [|y x]; [rewrite app_nil_r; auto|]. exfalso. cbn [blen] in L. pose proof (utf8_width_pos y). lia.
Qed.

Lemma blen_pos : forall s, s <> [] <-> 1 <= blen s.
Proof.
  intros [|c s]; split; intros H; [congruence|cbn in H; lia| |discriminate].
  cbn [blen]. pose proof (utf8_width_pos c). lia.
Qed.

Lemma text_app : forall a b, Forall (in_cls IMAGE_CHARS) a -> image_text b -> image_text (a ++ b).
Proof.
  intros a b Ha [Hn Hb]. split; [|apply Forall_app; auto]. intros E. apply app_eq_nil in E as [_ E]. auto.
Qed.
Lemma text_of : forall s, 1 <= blen s -> Forall (in_cls IMAGE_CHARS) s -> image_text s.
Proof. intros s H F. split; [apply blen_pos; exact H|exact F]. Qed.

Lemma parts_fine : forall reg name, registry_inv reg name -> name_fine (blen name) (option_map blen reg).
Proof.
  intros reg name H. pose proof (registry_inv_name _ _ H) as Hn. apply name_text in Hn as [Hn _]. apply blen_pos in Hn.
  split; [exact Hn|]. destruct reg as [r|]; [|exact I]. cbn [option_map]. destruct H as [Hr H]. apply name_text in Hr as [Hr _].
  apply blen_pos in Hr. destruct H as [->|[rest [-> H]]]; [lia|]. apply parts_not_nil in H. apply blen_pos in H.
  rewrite blen_app in *. change ($"/" ++ rest) with (ch "/" :: rest) in *. change (blen (ch "/" :: rest)) with (1 + blen rest) in *. lia.
Qed.

Lemma new_name_fine : forall s n, iname_new s = Ok n -> fine (AName n).
Proof.
  intros s n H. apply iname_new_ok in H as [H ->]. cbn [fine n_inner n_registry_end]. split; [apply name_text; exact H|].
  apply parts_fine. apply name_split_registry. exact H.
Qed.

Lemma push_text : forall t s, Forall (in_cls IMAGE_CHARS) s -> image_text (tod_str t) -> image_text (push_tod t s).
Proof.
  intros t s Hs Ht. unfold push_tod. apply text_app; [exact Hs|]. change (tod_separator t :: tod_str t) with ([tod_separator t] ++ tod_str t).
  apply text_app; [|exact Ht]. constructor; [|constructor]. destruct t; [exact colon|exact at_sign].
Qed.
Lemma push_len : forall t s, blen (push_tod t s) = blen s + 1 + blen (tod_str t).
Proof.
  intros t s. unfold push_tod. rewrite blen_app. change (blen (tod_separator t :: tod_str t)) with (utf8_width (tod_separator t) + blen (tod_str t)).
  replace (utf8_width (tod_separator t)) with 1 by (destruct t; reflexivity). lia.
Qed.
Lemma start_as : forall t n, start_pos (as_start t n) = n + 1.
Proof. intros [t|d] n; reflexivity. Qed.

Lemma from_parts_fine : forall n t, fine (AName n) -> image_text (tod_str t) -> placed (image_from_parts n (Some t)).
Proof.
  intros n t [Hc Hn] Ht. unfold placed; cbn [image_from_parts i_inner i_registry_end i_start].
  split; [apply push_text; [apply Hc|exact Ht]|]. rewrite push_len. pose proof (proj1 (blen_pos _) (proj1 Ht)) as Lt.
  unfold start_fine, name_fine in *. rewrite start_as. destruct Hn as [Hn He]. destruct (n_registry_end n) as [e|]; repeat split; lia.
Qed.

Lemma parse_fine : forall s i, image_parse s = Ok i -> placed i.
Proof.
  intros s i H. apply image_parse_ok in H as [n [x [-> [Hn [Hx [_ ->]]]]]]. pose proof (name_split_registry n Hn) as Hr.
  apply parts_fine in Hr. apply name_text in Hn. unfold placed, mk_image, parts_text. cbn [i_inner i_registry_end i_start p_registry p_name p_suffix].
  assert (G : forall t, image_text (tod_str t) -> placed ({| i_inner := push_tod t n; i_registry_end := option_map blen (registry_of n); i_start := Some (as_start t (blen n)) |})).
  { intros t Ht. unfold placed; cbn [i_inner i_registry_end i_start]. split; [apply push_text; [apply Hn|exact Ht]|]. rewrite push_len.
    pose proof (proj1 (blen_pos _) (proj1 Ht)) as Lt. unfold start_fine, name_fine in *. rewrite start_as.
    replace (blen n + 1 - 1) with (blen n) by lia. destruct Hr as [Hl He]. destruct (registry_of n) as [r|]; cbn [option_map] in *; repeat split; lia. }
  destruct x as [|t|d]; cbn [suffix_text start_of].
  - rewrite app_nil_r. split; [exact Hn|]. split; [exact Hr|exact I].
  - exact (G (TTag t) (tag_text _ Hx)).
  - exact (G (TDigest d) (digest_text _ Hx)).
Qed.

(** Slices. *)
Lemma slice_to_ret : forall s n a, slice_to s n = Ret a -> exists b, s = a ++ b /\ n = blen a.
Proof.
  intros s n a H. unfold slice_to in H. destruct (split_at n s) as [[x y]|] eqn:E; cbn [pbind fst] in H; [|discriminate].
  injection H as <-. apply split_at_ret in E. eauto.
Qed.
Lemma slice_from_ret : forall s n b, slice_from s n = Ret b -> exists a, s = a ++ b /\ n = blen a.
Proof.
  intros s n b H. unfold slice_from in H. destruct (split_at n s) as [[x y]|] eqn:E; cbn [pbind snd] in H; [|discriminate].
  injection H as <-. apply split_at_ret in E. eauto.
Qed.
Lemma replace_to_ret : forall s n c r, replace_to s n c = Ret r -> exists a b, s = a ++ b /\ n = blen a /\ r = c ++ b.
Proof.
  intros s n c r H. unfold replace_to in H. destruct (split_at n s) as [[x y]|] eqn:E; cbn [pbind snd] in H; [|discriminate].
  injection H as <-. apply split_at_ret in E as [E1 E2]. eauto.
Qed.
Lemma replace_from_ret : forall s n c r, replace_from s n c = Ret r -> exists a b, s = a ++ b /\ n = blen a /\ r = a ++ c.
Proof.
  intros s n c r H. unfold replace_from in H. destruct (split_at n s) as [[x y]|] eqn:E; cbn [pbind fst] in H; [|discriminate].
  injection H as <-. apply split_at_ret in E as [E1 E2]. eauto.
Qed.
Lemma truncate_ret : forall s n r, truncate s n = Ret r -> (exists b, s = r ++ b /\ n = blen r) \/ r = s /\ blen s < n.
Proof.
  intros s n r H. unfold truncate in H. destruct (N.leb_spec n (blen s)).
  - left. apply slice_to_ret. exact H.
  - right. injection H as <-. auto.
Qed.

Lemma usize_sub_ret : forall checks a b c, usize_sub checks a b = Ret c -> b <= a /\ c = a - b \/ a < b /\ checks = false /\ c = a + 2 ^ 64 - b.
Proof.
  intros checks a b c H. unfold usize_sub in H. destruct (N.leb_spec b a); [left; injection H as <-; auto|]. right.
  destruct checks; [discriminate|]. injection H as <-. auto.
Qed.

(** Where the name of a fine image ends: within the text, or far past its end when the text has no name. *)
Lemma name_end_ret : forall checks i e, start_fine (blen (i_inner i)) (i_registry_end i) (i_start i) -> name_fine (blen (i_inner i)) (i_registry_end i) ->
  name_end checks i = Ret e ->
  match i_start i with
  | None => e = blen (i_inner i)
  | Some x => e + 1 = start_pos x /\ name_fine e (i_registry_end i) \/ start_pos x = 0 /\ i_registry_end i = None /\ e = 2 ^ 64 - 1
  end.
Proof.
  intros checks i e Hs Hn H. unfold name_end in H. destruct (i_start i) as [x|]; [|congruence]. cbn [start_fine] in Hs.
  apply usize_sub_ret in H as [[H1 ->]|[H1 [_ ->]]].
  - left. split; [lia|]. destruct Hs as [_ [_ [[E _]|[_ Hs]]]]; [lia|exact Hs].
  - right. destruct Hs as [_ [_ [[E Hs]|[E _]]]]; [|lia]. rewrite E. destruct (i_registry_end i); [contradiction|auto].
Qed.

Lemma update_ret : forall checks x o n y, update_start checks x o n = Ret y ->
  match x with
  | None => y = None
  | Some x => exists z, y = Some z /\ (o <= start_pos x + n -> start_pos z + o = start_pos x + n)
  end.
Proof.
  intros checks [x|] o n y H; cbn [update_start] in H; [|congruence].
  assert (M : forall f r, map_start f x = Ret r -> f (start_pos x) = Ret (start_pos r)).
  { intros f r Hm. destruct x; cbn [map_start start_pos] in *; destruct (f n0) as [m|] eqn:E; cbn [pbind] in Hm; try discriminate; injection Hm as <-; reflexivity. }
  destruct (N.compare_spec o n) as [E|E|E].
  - cbn [pbind] in H. injection H as <-. exists x. split; [reflexivity|]. intros _. lia.
  - destruct (map_start _ x) as [r|] eqn:R; cbn [pbind] in H; [|discriminate]. injection H as <-. exists r. split; [reflexivity|]. intros _.
    apply M in R. injection R as R. lia.
  - destruct (map_start _ x) as [r|] eqn:R; cbn [pbind] in H; [|discriminate]. injection H as <-. exists r. split; [reflexivity|]. intros L.
    apply M in R. apply usize_sub_ret in R as [[R1 R2]|[R1 _]]; lia.
Qed.

Lemma set_registry_fine : forall checks i r j, placed i -> fine (AName r) -> image_set_registry checks i (Some r) = Ret j -> placed j.
Proof.
  intros checks [s re st] r j [Hc [Hn Hs]] [Hrc Hr] H. cbn [i_inner i_registry_end i_start] in *. unfold image_set_registry in H.
  cbn [i_inner i_registry_end i_start] in H. destruct Hr as [Hr _]. destruct re as [e|].
  - destruct (replace_to s e (n_inner r)) as [inner|] eqn:R; cbn [pbind] in H; [|discriminate].
    destruct (update_start checks st e (blen (n_inner r))) as [st'|] eqn:U; cbn [pbind] in H; [|discriminate]. injection H as <-.
    apply replace_to_ret in R as [a [b [-> [Ee ->]]]]. apply update_ret in U. destruct Hc as [_ Hc]. apply Forall_app in Hc as [Ha Hb].
    rewrite blen_app in *. unfold name_fine in Hn. unfold placed; cbn [i_inner i_registry_end i_start].
    split; [apply text_of; [rewrite blen_app; lia|apply Forall_app; split; [apply Hrc|exact Hb]]|]. rewrite blen_app. unfold start_fine, name_fine in *.
    split; [lia|]. destruct st as [x|]; [|subst st'; exact I]. destruct U as [z [-> U]]. specialize (U ltac:(lia)). lia.
  - destruct (update_start checks st 0 (blen (n_inner r) + 1)) as [st'|] eqn:U; cbn [pbind] in H; [|discriminate]. injection H as <-.
    apply update_ret in U. destruct Hc as [_ Hc]. unfold name_fine in Hn. unfold placed; cbn [i_inner i_registry_end i_start].
    assert (L : blen (n_inner r ++ ch "/" :: s) = blen (n_inner r) + 1 + blen s).
    { rewrite blen_app. change (blen (ch "/" :: s)) with (1 + blen s). lia. }
    change (47 :: s) with (ch "/" :: s). rewrite L.
    split; [apply text_of; [rewrite L; lia|apply Forall_app; split; [apply Hrc|constructor; [exact slash|exact Hc]]]|]. unfold start_fine, name_fine in *.
    split; [lia|]. destruct st as [x|]; [|subst st'; exact I]. destruct U as [z [-> U]]. specialize (U ltac:(lia)). lia.
Qed.

Lemma no_registry_fine : forall checks i j, placed i -> image_set_registry checks i None = Ret j -> placed j.
Proof.
  intros checks [s re st] j [Hc [Hn Hs]] H. cbn [i_inner i_registry_end i_start] in *. unfold image_set_registry in H.
  cbn [i_inner i_registry_end i_start] in H. destruct re as [e|]; [|injection H as <-; exact (conj Hc (conj Hn Hs))].
  destruct (replace_to s (e + 1) []) as [inner|] eqn:R; cbn [pbind] in H; [|discriminate].
  destruct (update_start checks st (e + 1) 0) as [st'|] eqn:U; cbn [pbind] in H; [|discriminate]. injection H as <-.
  apply replace_to_ret in R as [a [b [-> [Ee ->]]]]. cbn [app] in *. apply update_ret in U. destruct Hc as [_ Hc]. apply Forall_app in Hc as [Ha Hb].
  rewrite blen_app in *. unfold name_fine in Hn. unfold placed; cbn [i_inner i_registry_end i_start].
  split; [apply text_of; [lia|exact Hb]|]. unfold start_fine, name_fine in *.
  split; [lia|]. destruct st as [x|]; [|subst st'; exact I]. destruct U as [z [-> U]]. specialize (U ltac:(lia)). lia.
Qed.

Lemma set_name_fine : forall checks i n j, placed i -> blen (i_inner i) < 2 ^ 63 -> fine (AName n) -> image_set_name checks i n = Ret j -> placed j.
Proof.
  intros checks [s re st] n j [Hc [Hn Hs]] B [Hnc Hnn] H. unfold image_set_name in H.
  destruct (name_end checks _) as [e|] eqn:E; cbn [pbind] in H; [|discriminate]. apply name_end_ret in E; [|exact Hs|exact Hn].
  cbn [i_inner i_registry_end i_start] in *.
  destruct (replace_to s e (n_inner n)) as [inner|] eqn:R; cbn [pbind] in H; [|discriminate].
  destruct (update_start checks st e (blen (n_inner n))) as [st'|] eqn:U; cbn [pbind] in H; [|discriminate]. injection H as <-.
  apply replace_to_ret in R as [a [b [-> [Ee ->]]]]. apply update_ret in U. destruct Hc as [_ Hc]. apply Forall_app in Hc as [Ha Hb].
  rewrite blen_app in *. unfold placed; cbn [i_inner i_registry_end i_start].
  split; [apply text_of; [rewrite blen_app; unfold name_fine in Hnn; lia|apply Forall_app; split; [apply Hnc|exact Hb]]|].
  rewrite blen_app. unfold start_fine in *. destruct st as [x|].
  - destruct U as [z [-> U]]. destruct E as [[E _]|[_ [_ E]]]; [|lia]. specialize (U ltac:(lia)). unfold name_fine in *. destruct (n_registry_end n) as [e'|]; [|lia].
    split; [lia|]. split; [lia|]. split; [lia|]. right. replace (start_pos z - 1) with (blen (n_inner n)) by lia. lia.
  - subst st'. assert (b = []) as -> by (destruct b as [|c b]; [reflexivity|]; assert (1 <= blen (c :: b)) by (apply blen_pos; discriminate); lia).
    change (blen []) with 0. rewrite N.add_0_r. split; [exact Hnn|exact I].
Qed.

Lemma set_tod_fine : forall checks i t j, placed i -> blen (i_inner i) < 2 ^ 63 -> image_text (tod_str t) -> image_set_tod checks i (Some t) = Ret j ->
  placed j.
Proof.
  intros checks [s re st] t j [Hc [Hn Hs]] B Ht H. pose proof (proj1 (blen_pos _) (proj1 Ht)) as Lt.
  assert (R : forall p u, st = Some p -> (inner <! replace_from s (start_pos p) u ;; Ret {| i_inner := inner; i_registry_end := re; i_start := st |}) = Ret j -> image_text u -> placed j).
  { intros p u -> H1 Hu. destruct (replace_from s (start_pos p) u) as [inner|] eqn:R; cbn [pbind] in H1; [|discriminate]. injection H1 as <-.
    apply replace_from_ret in R as [a [b [-> [Ee ->]]]]. cbn [i_inner i_registry_end i_start] in *. destruct Hc as [_ Hc]. apply Forall_app in Hc as [Ha Hb].
    unfold placed; cbn [i_inner i_registry_end i_start]. pose proof (proj1 (blen_pos _) (proj1 Hu)) as Lu. split; [apply text_app; assumption|].
    rewrite blen_app in *. unfold start_fine, name_fine in *. destruct re as [e|]; lia. }
  assert (P : (e <! name_end checks {| i_inner := s; i_registry_end := re; i_start := st |} ;; inner <! truncate s e ;;
     Ret {| i_inner := push_tod t inner; i_registry_end := re; i_start := Some (as_start t (blen inner)) |}) = Ret j -> placed j).
  { clear H. intros H. destruct (name_end checks _) as [e|] eqn:E; cbn [pbind] in H; [|discriminate]. apply name_end_ret in E; [|exact Hs|exact Hn].
    cbn [i_inner i_registry_end i_start] in *. destruct (truncate s e) as [inner|] eqn:T; cbn [pbind] in H; [|discriminate]. injection H as <-.
    assert (F : Forall (in_cls IMAGE_CHARS) inner).
    { destruct Hc as [_ Hc]. apply truncate_ret in T as [[b [-> _]]|[-> _]]; [apply Forall_app in Hc; apply Hc|exact Hc]. }
    unfold placed; cbn [i_inner i_registry_end i_start]. split; [apply push_text; assumption|]. rewrite push_len.
    assert (N : name_fine (blen inner) re).
    { destruct st as [x|].
      - destruct E as [[E0 E]|[_ [-> E]]]; apply truncate_ret in T as [[b [-> T]]|[-> T]]; rewrite ?blen_app in *; try (rewrite <- T; exact E).
        + unfold start_fine, name_fine in *. lia.
        + lia.
        + exact Hn.
      - subst e. apply truncate_ret in T as [[b [-> T]]|[-> T]]; [rewrite <- T; exact Hn|lia]. }
    unfold start_fine. rewrite start_as. replace (blen inner + 1 - 1) with (blen inner) by lia. unfold name_fine in *. destruct re as [e'|]; lia. }
  unfold image_set_tod in H. cbn [i_inner i_registry_end i_start] in H. destruct t as [t|d]; destruct st as [[p|p]|]; cbn [tod_str] in *;
    first [exact (P H) | exact (R (STag p) _ eq_refl H Ht) | exact (R (SDigest p) _ eq_refl H Ht)].
Qed.

Lemma no_tod_fine : forall checks i j, placed i -> blen (i_inner i) < 2 ^ 63 -> image_set_tod checks i None = Ret j -> placed j.
Proof.
  intros checks [s re st] j [Hc [Hn Hs]] B H. unfold image_set_tod in H. cbn [i_inner i_registry_end i_start] in *.
  destruct st as [x|]; [|injection H as <-; exact (conj Hc (conj Hn Hs))].
  destruct (usize_sub checks (start_pos x) 1) as [e|] eqn:E; cbn [pbind] in H; [|discriminate].
  destruct (truncate s e) as [inner|] eqn:T; cbn [pbind] in H; [|discriminate]. injection H as <-.
  unfold placed; cbn [i_inner i_registry_end i_start]. apply usize_sub_ret in E. cbn [start_fine] in Hs.
  apply truncate_ret in T as [[b [-> T]]|[-> T]].
  - rewrite blen_app in *. destruct Hc as [_ Hc]. apply Forall_app in Hc as [Ha Hb].
    assert (N : name_fine (blen inner) re). { destruct Hs as [_ [_ [[Hs _]|[Hs N]]]]; [lia|]. replace (start_pos x - 1) with (blen inner) in N by lia. exact N. }
    split; [apply text_of; [apply N|exact Ha]|]. split; [exact N|exact I].
  - split; [exact Hc|]. split; [exact Hn|exact I].
Qed.

(** ** What follows the start is a tag or a digest *)

Lemma suffix_past : forall s x, blen s < start_pos x -> suffix_fine s (Some x).
Proof. intros s x H a b -> E. rewrite blen_app in H. lia. Qed.
Lemma suffix_push : forall t s, tod_ok t -> suffix_fine (push_tod t s) (Some (as_start t (blen s))).
Proof.
  intros t s Ht a b E L. rewrite start_as in L. unfold push_tod in E. change (tod_separator t :: tod_str t) with ([tod_separator t] ++ tod_str t) in E.
  rewrite app_assoc in E. symmetry in E. apply app_same in E as [_ ->].
  - destruct t; exact Ht.
  - rewrite L, blen_app. destruct t; reflexivity.
Qed.

Lemma map_kind : forall f x r, map_start f x = Ret r -> match x, r with STag _, STag _ | SDigest _, SDigest _ => True | _, _ => False end.
Proof. intros f [n|n] r H; cbn [map_start] in H; destruct (f n); cbn [pbind] in H; try discriminate; injection H as <-; exact I. Qed.
Lemma update_kind : forall checks x o n z, update_start checks (Some x) o n = Ret (Some z) ->
  match x, z with STag _, STag _ | SDigest _, SDigest _ => True | _, _ => False end.
Proof.
  intros checks x o n z H. cbn [update_start] in H. destruct (o ?= n).
  - cbn [pbind] in H. injection H as <-. destruct x; exact I.
  - destruct (map_start _ x) as [r|] eqn:R; cbn [pbind] in H; [|discriminate]. injection H as <-. eapply map_kind. exact R.
  - destruct (map_start _ x) as [r|] eqn:R; cbn [pbind] in H; [|discriminate]. injection H as <-. eapply map_kind. exact R.
Qed.

(** Replacing the [o] bytes at the beginning by [c]. *)
Lemma suffix_moved : forall checks a0 b0 c st st', suffix_fine (a0 ++ b0) st -> update_start checks st (blen a0) (blen c) = Ret st' ->
  match st with Some x => blen a0 <= start_pos x | None => True end -> suffix_fine (c ++ b0) st'.
Proof.
  intros checks a0 b0 c st st' Hs U L. pose proof (update_ret _ _ _ _ _ U) as V. destruct st as [x|]; [|subst st'; exact I].
  destruct V as [z [-> V]]. specialize (V ltac:(lia)). apply update_kind in U. intros a b E La. symmetry in E. apply app_at in E as [y [-> ->]]; [|lia].
  rewrite blen_app in La. specialize (Hs (a0 ++ y) b). rewrite blen_app, <- app_assoc in Hs. specialize (Hs eq_refl ltac:(lia)).
  destruct x, z; try contradiction; exact Hs.
Qed.

Lemma set_registry_suffix : forall checks i r j, fine (AnImage i) -> image_set_registry checks i r = Ret j -> suffix_fine (i_inner j) (i_start j).
Proof.
  intros checks [s re st] r j [[Hc [Hn Hs]] Hf] H. unfold image_set_registry in H. cbn [i_inner i_registry_end i_start] in *.
  assert (L : forall e, re = Some e -> match st with Some x => e + 1 <= start_pos x | None => True end).
  { intros e ->. destruct st as [x|]; [|exact I]. unfold start_fine, name_fine in Hs. lia. }
  destruct r as [r|]; destruct re as [e|].
  - destruct (replace_to s e (n_inner r)) as [inner|] eqn:R; cbn [pbind] in H; [|discriminate].
    destruct (update_start checks st e (blen (n_inner r))) as [st'|] eqn:U; cbn [pbind] in H; [|discriminate]. injection H as <-.
    apply replace_to_ret in R as [a [b [-> [-> ->]]]]. cbn [i_inner i_start]. eapply suffix_moved; [exact Hf|exact U|].
    specialize (L _ eq_refl). destruct st; [lia|exact I].
  - destruct (update_start checks st 0 (blen (n_inner r) + 1)) as [st'|] eqn:U; cbn [pbind] in H; [|discriminate]. injection H as <-. cbn [i_inner i_start].
    change (47 :: s) with ([ch "/"] ++ s). rewrite app_assoc. apply (suffix_moved checks [] s (n_inner r ++ [ch "/"]) st); [exact Hf| |].
    + rewrite blen_app. exact U.
    + destruct st; [cbn; lia|exact I].
  - destruct (replace_to s (e + 1) []) as [inner|] eqn:R; cbn [pbind] in H; [|discriminate].
    destruct (update_start checks st (e + 1) 0) as [st'|] eqn:U; cbn [pbind] in H; [|discriminate]. injection H as <-.
    apply replace_to_ret in R as [a [b [-> [E ->]]]]. cbn [i_inner i_start]. rewrite E in U. eapply (suffix_moved checks a b []); [exact Hf|exact U|].
    specialize (L _ eq_refl). destruct st; [lia|exact I].
  - injection H as <-. exact Hf.
Qed.

Lemma set_name_suffix : forall checks i n j, fine (AnImage i) -> blen (i_inner i) < 2 ^ 63 -> image_set_name checks i n = Ret j -> suffix_fine (i_inner j) (i_start j).
Proof.
  intros checks [s re st] n j [[Hc [Hn Hs]] Hf] B H. unfold image_set_name in H.
  destruct (name_end checks _) as [e|] eqn:E; cbn [pbind] in H; [|discriminate]. apply name_end_ret in E; [|exact Hs|exact Hn].
  cbn [i_inner i_registry_end i_start] in *.
  destruct (replace_to s e (n_inner n)) as [inner|] eqn:R; cbn [pbind] in H; [|discriminate].
  destruct (update_start checks st e (blen (n_inner n))) as [st'|] eqn:U; cbn [pbind] in H; [|discriminate]. injection H as <-.
  apply replace_to_ret in R as [a [b [-> [-> ->]]]]. cbn [i_inner i_start]. eapply suffix_moved; [exact Hf|exact U|].
  destruct st as [x|]; [|exact I]. destruct E as [[E _]|[_ [_ E]]]; [lia|]. rewrite blen_app in B. lia.
Qed.

Lemma set_tod_suffix : forall checks i t j, fine (AnImage i) -> tod_ok t -> image_set_tod checks i (Some t) = Ret j -> suffix_fine (i_inner j) (i_start j).
Proof.
  intros checks [s re st] t j [[Hc [Hn Hs]] Hf] Ht H.
  assert (R : forall p u, (match p with STag _ => is_tag u | SDigest _ => is_digest u end) ->
    (inner <! replace_from s (start_pos p) u ;; Ret {| i_inner := inner; i_registry_end := re; i_start := Some p |}) = Ret j -> suffix_fine (i_inner j) (i_start j)).
  { intros p u Hu H1. destruct (replace_from s (start_pos p) u) as [inner|] eqn:R; cbn [pbind] in H1; [|discriminate]. injection H1 as <-.
    apply replace_from_ret in R as [a [b [-> [E ->]]]]. cbn [i_inner i_start]. intros a' b' E' L'. rewrite E in L'. symmetry in E'.
    apply app_same in E' as [_ <-]; [exact Hu|congruence]. }
  assert (P : (e <! name_end checks {| i_inner := s; i_registry_end := re; i_start := st |} ;; inner <! truncate s e ;;
     Ret {| i_inner := push_tod t inner; i_registry_end := re; i_start := Some (as_start t (blen inner)) |}) = Ret j -> suffix_fine (i_inner j) (i_start j)).
  { clear H. intros H. destruct (name_end checks _) as [e|] eqn:E; cbn [pbind] in H; [|discriminate].
    destruct (truncate s e) as [inner|] eqn:T; cbn [pbind] in H; [|discriminate]. injection H as <-. cbn [i_inner i_start]. apply suffix_push. exact Ht. }
  unfold image_set_tod in H. cbn [i_inner i_registry_end i_start] in H. destruct t as [t|d]; destruct st as [[p|p]|]; cbn [tod_ok] in *;
    first [exact (P H) | exact (R (STag p) _ Ht H) | exact (R (SDigest p) _ Ht H)].
Qed.

Lemma no_tod_suffix : forall checks i j, fine (AnImage i) -> image_set_tod checks i None = Ret j -> suffix_fine (i_inner j) (i_start j).
Proof.
  intros checks [s re st] j [_ Hf] H. unfold image_set_tod in H. cbn [i_inner i_registry_end i_start] in *.
  destruct st as [x|]; [|injection H as <-; exact Hf].
  destruct (usize_sub checks (start_pos x) 1) as [e|] eqn:E; cbn [pbind] in H; [|discriminate].
  destruct (truncate s e) as [inner|] eqn:T; cbn [pbind] in H; [|discriminate]. injection H as <-. exact I.
Qed.

Lemma parse_suffix : forall s i, image_parse s = Ok i -> suffix_fine (i_inner i) (i_start i).
Proof.
  intros s i H. apply image_parse_ok in H as [n [x [-> [Hn [Hx [_ ->]]]]]]. unfold mk_image, parts_text. cbn [i_inner i_start p_registry p_name p_suffix].
  destruct x as [|t|d]; cbn [suffix_text start_of]; [exact I| |].
  - exact (suffix_push (TTag t) n Hx).
  - exact (suffix_push (TDigest d) n Hx).
Qed.

Lemma made_fine : forall checks x, made checks x -> fine x.
Proof.
  intros checks x H. induction H as
    [s n H|s t H|s d H|s i H|n _ IH|n t _ IH _ IHt|n d _ IH _ IHd|i n _ IH B H|i t _ IH H|i d _ IH H|i r j _ IH _ IHr H|i j _ IH H
    |i n j _ IH B _ IHn H|i t j _ IH B _ IHt H|i j _ IH B H|i d j _ IH B _ IHd H|i j _ IH B H].
  - eapply new_name_fine. exact H.
  - apply tag_new_ok in H as [-> H]. exact H.
  - apply digest_new_ok in H as [-> H]. exact H.
  - split; [eapply parse_fine; exact H|eapply parse_suffix; exact H].
  - destruct IH as [H1 H2]. split; [|exact I]. split; [exact H1|]. split; [exact H2|exact I].
  - split; [apply from_parts_fine; [exact IH|apply tag_text; exact IHt]|]. apply suffix_past. cbn. lia.
  - split; [apply from_parts_fine; [exact IH|apply digest_text; exact IHd]|]. apply suffix_past. cbn. lia.
  - destruct IH as [[Hc [Hn Hs]] _]. unfold image_as_name, image_name in H. destruct (name_end checks i) as [e|] eqn:E; cbn [pbind] in H; [|discriminate].
    apply name_end_ret in E; [|exact Hs|exact Hn]. destruct (slice_to (i_inner i) e) as [a|] eqn:T; cbn [pbind] in H; [|discriminate]. injection H as <-.
    apply slice_to_ret in T as [b [T Te]]. cbn [fine n_inner n_registry_end].
    assert (N : name_fine (blen a) (i_registry_end i)).
    { destruct (i_start i) as [x|].
      - destruct E as [[_ E]|[_ [_ E]]]; [rewrite <- Te; exact E|]. rewrite T, blen_app in B. lia.
      - rewrite <- Te, E. exact Hn. }
    split; [|exact N]. apply text_of; [apply N|]. destruct Hc as [_ Hc]. rewrite T in Hc. apply Forall_app in Hc. apply Hc.
  - destruct IH as [_ Hf]. unfold image_tag in H. destruct (i_start i) as [[p|p]|]; try discriminate.
    destruct (slice_from (i_inner i) p) as [b|] eqn:T; cbn [pbind] in H; [|discriminate]. injection H as <-. apply slice_from_ret in T as [a [T Te]].
    exact (Hf a b T (eq_sym Te)).
  - destruct IH as [_ Hf]. unfold image_digest in H. destruct (i_start i) as [[p|p]|]; try discriminate.
    destruct (slice_from (i_inner i) p) as [b|] eqn:T; cbn [pbind] in H; [|discriminate]. injection H as <-. apply slice_from_ret in T as [a [T Te]].
    exact (Hf a b T (eq_sym Te)).
  - split; [eapply set_registry_fine; [apply IH|exact IHr|exact H]|eapply set_registry_suffix; eassumption].
  - split; [eapply no_registry_fine; [apply IH|exact H]|eapply set_registry_suffix; eassumption].
  - split; [eapply set_name_fine; [apply IH|exact B|exact IHn|exact H]|eapply set_name_suffix; eassumption].
  - split; [exact (set_tod_fine checks i (TTag t) j (proj1 IH) B (tag_text _ IHt) H)|exact (set_tod_suffix checks i (TTag t) j IH IHt H)].
  - split; [exact (no_tod_fine checks i j (proj1 IH) B H)|exact (no_tod_suffix checks i j IH H)].
  - split; [exact (set_tod_fine checks i (TDigest d) j (proj1 IH) B (digest_text _ IHd) H)|exact (set_tod_suffix checks i (TDigest d) j IH IHd H)].
  - split; [exact (no_tod_fine checks i j (proj1 IH) B H)|exact (no_tod_suffix checks i j IH H)].
Qed.

(** Whatever is done with images, even when their cached positions are wrong, and in both build profiles: the text is not empty and has
    only the characters of images; so it is ASCII, and it has no white space, no comma and no line break. *)
Theorem image_texts : forall checks i, made checks (AnImage i) -> i_inner i <> [] /\ Forall (in_cls IMAGE_CHARS) (i_inner i).
Proof. intros checks i H. apply made_fine in H. apply H. Qed.
Print Assumptions image_texts.

(** Finding: [Name::new_unchecked] gets texts which are not names. [as_name] of an image made by [from_parts] returns the whole text. *)
Theorem unchecked_names_refuted : exists n, made true (AName n) /\ made false (AName n) /\ forall m, iname_new (n_inner n) <> Ok m.
Proof.
  exists {| n_inner := $"hello:v1"; n_registry_end := None |}.
  assert (G : forall checks, made checks (AName {| n_inner := $"hello:v1"; n_registry_end := None |})).
  { intros checks. apply (made_as_name checks (image_from_parts {| n_inner := $"hello"; n_registry_end := None |} (Some (TTag $"v1")))).
    - apply made_parts_tag; [apply (made_name checks $"hello"); reflexivity|apply (made_tag checks $"v1"); reflexivity].
    - reflexivity.
    - destruct checks; reflexivity. }
  split; [apply G|]. split; [apply G|]. intros m. vm_compute. discriminate.
Qed.
Print Assumptions unchecked_names_refuted.

(** For an image that was parsed, [as_name] is what [Name::new] makes of its name; after setters it still is a name (with the histories of
    [image_history_partial], that is, without removing a registry from an image which is nothing else), and the one made by [Name::new]
    exactly if the cached registry is the one that the name shows. *)
Theorem unchecked_names_partial : forall checks s i, image_parse s = Ok i ->
  (exists n, image_as_name checks i = Ret n /\ iname_new (n_inner n) = Ok n) /\
  exists p, parts_text p = s /\ forall os q, steps p os q -> exists j n, call_ops checks i os = Ret j /\ image_as_name checks j = Ret n /\ n_inner n = p_name q /\
    (exists m, iname_new (n_inner n) = Ok m) /\ (iname_new (n_inner n) = Ok n <-> is_registry (p_name q) (p_registry q)).
Proof.
  intros checks s i H. apply image_parse_ok in H. destruct H as [n [x [-> [Hn [Hx [Hu ->]]]]]].
  set (p := {| p_registry := registry_of n; p_name := n; p_suffix := x |}).
  assert (Hp : parts_ok p) by (split; [apply name_split_registry; exact Hn|exact Hx]). split.
  - exists {| n_inner := n; n_registry_end := option_map blen (registry_of n) |}. unfold image_as_name. rewrite get_name. split; [reflexivity|].
    apply iname_new_ok. auto.
  - exists p. split; [reflexivity|]. intros os q Hs. exists (mk_image q), {| n_inner := p_name q; n_registry_end := option_map blen (p_registry q) |}.
    rewrite (calls_run checks os _ q _ Hs). destruct (steps_run checks os _ q Hp Hs) as [H1 H2]. split; [exact H1|].
    unfold image_as_name. rewrite get_name. split; [reflexivity|]. split; [reflexivity|]. cbn [n_inner].
    pose proof (registry_inv_name _ _ (proj1 H2)) as Hq. split; [eexists; apply iname_new_ok; split; [exact Hq|reflexivity]|].
    rewrite iname_new_ok, registry_of_spec. split.
    + intros [_ E]. injection E as E. destruct q as [[r|] name y]; destruct H2 as [H2 _]; cbn [p_registry p_name option_map] in *;
        destruct (registry_of name) as [r'|] eqn:R; cbn [option_map] in E; try discriminate; [|reflexivity]. injection E as E.
      pose proof (registry_prefix (Some r) name [] H2) as [z1 Z1]. pose proof (name_split_registry name Hq) as Hr'. rewrite R in Hr'.
      pose proof (registry_prefix (Some r') name [] Hr') as [z2 Z2]. rewrite Z1 in Z2. apply app_same in Z2 as [-> _]; [reflexivity|exact E].
    + intros ->. split; [exact Hq|reflexivity].
Qed.
Print Assumptions unchecked_names_partial.

(** But [Tag::new_unchecked] and [Digest::new_unchecked] always get tags and digests. *)
Theorem unchecked_tags : forall checks, (forall t, made checks (ATag t) -> tag_new t = Ok t) /\ (forall d, made checks (ADigest d) -> digest_new d = Ok d).
Proof. intros checks. split; intros x H; apply made_fine in H; [apply tag_new_ok|apply digest_new_ok]; auto. Qed.
Print Assumptions unchecked_tags.

(** "Images are never empty or contain whitespace": an image is a cache option. *)
Lemma image_char_plain : forall c, in_cls IMAGE_CHARS c -> is_whitespace c = false /\ c <> ch ",".
Proof.
  intros c [a [b [H L]]]. unfold IMAGE_CHARS in H.
  assert (33 <= c <= 126 /\ c <> 44) as [R N].
  { repeat (destruct H as [H|H]; [injection H as <- <-; revert L; cbn; lia|]). destruct H. }
  split; [|exact N]. destruct (is_whitespace c) eqn:W; [exfalso|reflexivity]. unfold is_whitespace, between in W.
  rewrite !orb_true_iff, !andb_true_iff, !N.leb_le, !N.eqb_eq in W. lia.
Qed.
Theorem image_is_cache_option : forall checks i, made checks (AnImage i) ->
  cache_option_new (cache_option_from_image i) = Ok (cache_option_from_image i) /\
  cache_option_new (fst (cache_option_pair i)) = Ok $"ref".
Proof.
  intros checks i H. split; [|reflexivity]. apply image_texts in H as [H1 H2]. apply cache_option_new_ok. split; [reflexivity|]. split; [exact H1|].
  intros c Hc. rewrite Forall_forall in H2. apply image_char_plain. apply H2. exact Hc.
Qed.
Print Assumptions image_is_cache_option.

(** The options of a cache entry: [into_options] gives cache options if the entry is made of cache options and an image. *)
Theorem into_options_valid : forall checks c,
  Forall (fun kv => cache_option_new (fst kv) = Ok (fst kv) /\ cache_option_new (snd kv) = Ok (snd kv)) (c_options c) ->
  match c_type c with CtRegistry i => made checks (AnImage i) | CtOther t => cache_option_new t = Ok t end ->
  Forall (fun kv => cache_option_new (fst kv) = Ok (fst kv) /\ cache_option_new (snd kv) = Ok (snd kv)) (cache_into_options c).
Proof.
  intros checks [ty os] F H. cbn [c_type c_options] in *.
  assert (R : forall (m : list (str * str)) k P, Forall P m -> Forall P (snd (imap_shift_remove m k))).
  { intros m k P Hm. revert Hm. induction m as [|[a b] m IH]; intros Hm; cbn [imap_shift_remove]; [exact Hm|].
    inversion Hm as [|x y H1 H2]; subst. destruct (str_eqb k a); [exact H2|]. specialize (IH H2). destruct (imap_shift_remove m k) as [v m']. cbn [snd] in *. constructor; assumption. }
  unfold cache_into_options. cbn [c_type c_options]. destruct ty as [i|t]; unfold imap_shift_insert0.
  - apply image_is_cache_option in H as [H _]. constructor; [split; reflexivity|]. apply R. constructor; [split; [reflexivity|exact H]|]. apply R. exact F.
  - constructor; [split; [reflexivity|exact H]|]. apply R. exact F.
Qed.
Print Assumptions into_options_valid.

(** A cache made from an image is written as the text of the image; it is read back as the same cache exactly if the text is read as the
    same image. *)
Theorem cache_from_image_text : forall i, cache_show (cache_from_image i) = i_inner i /\
  (cache_parse (cache_show (cache_from_image i)) = Ok (cache_from_image i) <-> image_parse (i_inner i) = Ok i).
Proof.
  intros i. split; [reflexivity|]. rewrite cache_round_trip. unfold cache_canonical, cache_from_image. cbn [c_options c_type map]. split.
  - intros [_ [_ [H _]]]. exact H.
  - intros H. repeat split; [constructor|constructor|exact H|]. intros [].
Qed.
Print Assumptions cache_from_image_text.

Example conv_image_case : exists i, made true (AnImage i) /\ i_inner i = $"ghcr.io/hello:v2" /\ image_parse (i_inner i) <> Ok i.
Proof.
  eexists. split.
  - apply (made_set_registry true (image_from_parts {| n_inner := $"hello"; n_registry_end := None |} (Some (TTag $"v2"))) {| n_inner := $"ghcr.io"; n_registry_end := Some 7 |}); [|apply (made_name true $"ghcr.io"); reflexivity|reflexivity].
    apply made_parts_tag; [apply (made_name true $"hello"); reflexivity|apply (made_tag true $"v2"); reflexivity].
  - split; [reflexivity|]. vm_compute. discriminate.
Qed.

(** ** Paths *)

(** A host path made from an absolute path is one which [HostPath::new] accepts. *)
Theorem host_path_from_absolute_valid : forall p q, absolute_path_new p = Ok q ->
  host_path_new (host_path_from_absolute q) = Ok (host_path_from_absolute q) /\ source_parse q = Ok (source_from_absolute q).
Proof.
  intros p q H. assert (A : is_absolute q = true /\ q = p).
  { unfold absolute_path_new in H. destruct (is_absolute p) eqn:E; [injection H as <-; auto|discriminate]. }
  destruct A as [A ->]. unfold host_path_from_absolute, source_from_absolute, source_parse, host_path_new. rewrite A, orb_true_r. cbn [orb]. split; reflexivity.
Qed.
Print Assumptions host_path_from_absolute_valid.

(** A source made from a path is the source which the text of the path is read as, if that is a path. *)
Theorem source_from_path_parse : forall p s, source_from_path p = Ok s <-> source_parse p = Ok s /\ exists h, s = HostPath h.
Proof.
  intros p s. unfold source_from_path, source_from_host_path. rewrite source_parse_ok. split.
  - intros H. destruct (host_path_new p) as [q|e] eqn:E; cbn [map_ok] in H; [|discriminate]. injection H as <-. apply host_path_new_ok in E as [-> E].
    split; [|eauto]. split; [reflexivity|exact E].
  - intros [[-> V] [h ->]]. cbn [source_show source_valid] in *. rewrite (proj2 (host_path_new_ok h h) (conj eq_refl V)). reflexivity.
Qed.
Print Assumptions source_from_path_parse.

(** A volume name is the source which its text is read as. *)
Theorem source_from_identifier_parse : forall s id, identifier_new s = Ok id -> source_parse id = Ok (source_from_identifier id).
Proof.
  intros s id H. apply source_parse_ok. split; [reflexivity|]. cbn [source_from_identifier source_valid]. apply identifier_new_ok in H as [-> H]. exact H.
Qed.
Print Assumptions source_from_identifier_parse.

Example source_case : source_from_path $"../data" = Ok (HostPath $"../data") /\ source_from_path $"data" = Err HostPathError /\
  source_parse $"data" = Ok (NamedVolume $"data") /\ source_from_path $".data" = Err HostPathError.
Proof. repeat split. Qed.

(** A build context made from a path is written as the path; it is read back as the same context exactly if the path is not a URL. *)
Theorem context_from_path : forall w p, context_show (CtxPath p) = p /\ (context_parse w p = CtxPath p <-> w_url w p = None).
Proof. intros w p. split; [reflexivity|]. unfold context_parse. destruct (w_url w p) as [u|]; split; congruence. Qed.
Print Assumptions context_from_path.

(** ** Keys, users, weights *)

(** [ExtensionKey::strip_prefix] does not panic, and adding the prefix again gives the key. *)
Theorem extension_key_strips : forall s k, extension_key_new s = Ok k -> exists r, extension_key_strip k = Ret r /\ k = $"x-" ++ r.
Proof. intros s k H. apply extension_key_new_iff in H as [-> [[r ->] _]]. exists r. split; [|reflexivity]. reflexivity. Qed.
Print Assumptions extension_key_strips.

(** A user made from an id or name is the one which its text is read as; with a group, the one which [USER:GROUP] is read as. *)
Theorem user_from_text : forall u g, valid_id_or_name u -> valid_id_or_name g ->
  user_show (user_from u) = id_or_name_show u /\ user_parse (id_or_name_show u) = Ok (user_from u) /\
  user_show (user_from_pair (u, g)) = (id_or_name_show u ++ ch ":" :: id_or_name_show g) /\
  user_parse (id_or_name_show u ++ ch ":" :: id_or_name_show g) = Ok (user_from_pair (u, g)).
Proof.
  intros u g Hu Hg. assert (T : user_show (user_from u) = id_or_name_show u) by apply app_nil_r. split; [exact T|]. rewrite <- T at 1.
  split; [apply user_round_trip_valid; split; cbn; auto|]. split; [reflexivity|]. apply (user_round_trip_valid (user_from_pair (u, g))). split; cbn; auto.
Qed.
Print Assumptions user_from_text.

(** The default weight is one which [Weight::new] accepts. *)
Theorem weight_default_valid : weight_new weight_default = Ok weight_default.
Proof. reflexivity. Qed.
Print Assumptions weight_default_valid.

Example conv_case : extension_key_strip $"x-a" = Ret $"a" /\ extension_key_strip $"a" = Panic /\ user_show (user_from_pair (Id 5, UName $"www")) = $"5:www".
Proof. repeat split. Qed.
