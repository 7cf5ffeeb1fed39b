(** C94: the error message for a value of a wrong kind names the kinds which are accepted. *)

From Coq Require Import String Ascii List NArith ZArith Bool.
Import ListNotations.
From Verif Require Import Base BaseFacts Num ValuesModel Serde Codec ScalarCodec CommonCodec ServiceParts HealthModel ExpectSpec ExpectModel.
Open Scope N_scope.

Definition kind_eqb (a b : kind) : bool :=
  match a, b with
  | KNull, KNull | KBool, KBool | KInteger, KInteger | KFloat, KFloat | KString, KString | KSequence, KSequence | KMap, KMap => true
  | _, _ => false
  end.
Definition namesb (t : str) (k : kind) : bool :=
  existsb (fun w => existsb (str_eqb w) (words t)) (words_for k) || (kind_eqb k KString && match t with c :: _ => c =? 34 | [] => false end).
Lemma kind_eqb_eq : forall a b, kind_eqb a b = true <-> a = b.
Proof. intros [] []; cbn; split; congruence. Qed.
Lemma namesb_names : forall t k, namesb t k = true <-> names t k.
Proof.
  intros t k. unfold namesb, names. rewrite orb_true_iff, andb_true_iff, existsb_exists, kind_eqb_eq. split.
  - intros [(w & I & E)|[E H]]; [left|right].
    + apply existsb_exists in E. destruct E as (x & J & E). apply str_eqb_eq in E. subst x. now exists w.
    + split; [exact E|]. destruct t as [|c t]; [discriminate|]. apply N.eqb_eq in H. now subst c.
  - intros [(w & I & J)|[E H]]; [left|right].
    + exists w. split; [exact I|]. apply existsb_exists. exists w. split; [exact J|]. now apply str_eqb_eq.
    + split; [exact E|]. destruct t as [|c t]; [discriminate|]. injection H as ->. reflexivity.
Qed.

(** Samples of all kinds which are accepted, and no value of another kind is. *)
Definition shown {A : Set} (c : codec A) (samples : list sval) : Prop :=
  Forall (fun v => read_ok (de c v) = true) samples /\ forall v, existsb (kind_eqb (kind_of v)) (map kind_of samples) = false -> read_ok (de c v) = false.
Lemma shown_tells : forall (A : Set) (c : codec A) t samples, shown c samples ->
  forallb (fun k => Bool.eqb (namesb t k) (existsb (kind_eqb k) (map kind_of samples))) [KNull; KBool; KInteger; KFloat; KString; KSequence; KMap] = true -> tells c t.
Proof.
  intros A c t samples [S N] F k. rewrite <- namesb_names.
  assert (E : namesb t k = existsb (kind_eqb k) (map kind_of samples)).
  { rewrite forallb_forall in F. apply Bool.eqb_prop. apply F. destruct k; cbn; tauto. }
  rewrite E. split.
  - intros X. apply existsb_exists in X. destruct X as (k' & I & X). apply kind_eqb_eq in X. subst k'. apply in_map_iff in I. destruct I as (v & K & I).
    rewrite Forall_forall in S. specialize (S v I). destruct (de c v) as [a|] eqn:D; [|discriminate S]. now exists v, a.
  - intros (v & a & K & D). subst k. destruct (existsb _ _) eqn:X; [reflexivity|]. specialize (N v X). rewrite D in N. discriminate N.
Qed.

(** All types which are read from one string. *)
Lemma text_shown : forall E (A : Set) show (parse : str -> result E A) inv s, read_ok (de (text_c show parse inv) (VStr s)) = true -> shown (text_c show parse inv) [VStr s].
Proof. intros E A show parse inv s H. split; [now constructor|]. intros [] X; try reflexivity; discriminate X. Qed.
Theorem strings_tell : forall E (A : Set) show (parse : str -> result E A) inv, (exists s a, parse s = Ok a) -> tells (text_c show parse inv) from_string_text.
Proof.
  intros E A show parse inv (s & a & H). apply (shown_tells _ _ _ [VStr s]); [|vm_compute; reflexivity]. apply text_shown. cbn. now rewrite H.
Qed.
Print Assumptions strings_tell.

Ltac by_samples l := apply (shown_tells _ _ _ l);
  [split; [repeat constructor|intros [] X; first [discriminate X|reflexivity]]|vm_compute; reflexivity].
Ltac by_text s := apply (shown_tells _ _ _ [VStr s]); [apply text_shown; vm_compute; reflexivity|vm_compute; reflexivity].
(** The property is [forall w, Forall (fun e => tells (e_codec e) (e_text e)) (all_expectations w)]. It holds for all but three types. *)
Theorem messages_tell_kinds_partial : forall w, Forall (fun e => tells (e_codec e) (e_text e)) (expectations w).
Proof.
  intros w. unfold expectations. repeat apply Forall_cons; try apply Forall_nil; cbn [e_codec e_text e_type].
  - by_samples [VBool true; VInt 0; VFloat 0; VStr []].
  - by_samples [VInt 0; VFloat 0].
  - by_samples [VSeq []; VMap []].
  - by_samples [VInt 0; VStr $"1s"].
  - by_samples [VInt 0; VStr $"all"].
  - by_samples [VInt 0; VStr $"1kb"].
  - by_samples [VInt 0; VStr $"root"].
  - by_samples [VInt 80; VStr $"80"].
  - by_samples [VInt 80; VStr $"80"].
  - by_samples [VInt 80; VStr $"80"].
  - by_samples [VMap []].
  - by_samples [VStr []; VSeq [VStr $"CMD"]].
  - by_samples [VStr []; VSeq []].
  - by_samples [VStr []; VSeq []].
  - by_samples [VMap [(VStr $"file", VStr $"a")]].
  - by_text $".".
  - by_text $"92:d0:c6:0a:29:33".
  - by_text $"/a".
  - by_text $"busybox".
  - by_text $"default".
Qed.
Print Assumptions messages_tell_kinds_partial.

(** [StringOrNumber] names a boolean but takes none: the text was copied from [Value]. *)
Theorem string_or_number_kinds : forall k, accepts string_or_number_c k <-> names string_or_number_text k /\ k <> KBool.
Proof.
  intros k. rewrite <- namesb_names. split.
  - intros (v & a & <- & D). destruct v; try discriminate D; split; try discriminate; vm_compute; reflexivity.
  - intros [N K]. destruct k; try discriminate N; try congruence.
    + now exists (VInt 0), (SNumber (UnsignedInt 0)).
    + now exists (VFloat 0), (SNumber (Float 0)).
    + now exists (VStr []), (SString []).
Qed.
Print Assumptions string_or_number_kinds.
(** [Cpus] names a number, but no integer is taken: [cpus: 2] fails with "invalid type: integer `2`, expected a number". *)
Theorem cpus_kinds : forall w, names cpus_expects KInteger /\ ~ accepts (cpus_c w) KInteger /\ (forall k, accepts (cpus_c w) k -> k = KFloat \/ k = KString) /\
  accepts (cpus_c w) KFloat /\ ~ names cpus_expects KString /\ ((exists s, is_float_text s = true /\ w_float w s < POS_INF_BITS) <-> accepts (cpus_c w) KString).
Proof.
  intros w. rewrite <- !namesb_names. split; [vm_compute; reflexivity|]. split; [intros ([] & a & K & D); discriminate|].
  split; [intros k ([] & a & K & D); subst k; try discriminate D; cbn; tauto|]. split; [now exists (VFloat 0), 0|]. split; [vm_compute; discriminate|]. split.
  - intros (s & F & B). exists (VStr s), (w_float w s). split; [reflexivity|]. cbn [cpus_c de]. rewrite F. unfold cpus_new. apply N.ltb_lt in B. now rewrite B.
  - intros ([] & a & K & D); try discriminate K. exists s. cbn [cpus_c de] in D. destruct (is_float_text s); [|discriminate D]. split; [reflexivity|]. unfold cpus_new in D.
    destruct (w_float w s <? POS_INF_BITS) eqn:B; [now apply N.ltb_lt|discriminate D].
Qed.
Print Assumptions cpus_kinds.
(** [CpuSet] is a string, but its message asks for a list when it is given a sequence. *)
Theorem cpuset_kinds : forall w k, (accepts (cpuset_c w) k <-> k = KString) /\ (names cpuset_expects k <-> k = KSequence).
Proof.
  intros w k. split.
  - split; [intros ([] & a & K & D); try discriminate D; now subst k|]. intros ->.
    destruct (de (cpuset_c w) (VStr $"0")) as [a|] eqn:D; [now exists (VStr $"0"), a|]. vm_compute in D. discriminate D.
  - rewrite <- namesb_names. destruct k; vm_compute; split; congruence.
Qed.
Print Assumptions cpuset_kinds.
Theorem messages_tell_kinds_refuted : forall w, exists e, In e (all_expectations w) /\ ~ tells (e_codec e) (e_text e).
Proof.
  intros w. exists (expects (cpuset_c w) cpuset_expects). split; [apply in_or_app; right; cbn; tauto|]. cbn [e_codec e_text e_type]. intros T.
  destruct (cpuset_kinds w KSequence) as [A N]. assert (X := proj1 A (proj1 (T KSequence) (proj2 N eq_refl))). discriminate X.
Qed.
Print Assumptions messages_tell_kinds_refuted.

(** Concrete cases. *)
Example words_example : words $"an integer (representing bytes)" = [$"an"; $"integer"; []; $"representing"; $"bytes"; []]. Proof. vm_compute. reflexivity. Qed.
Example integer_told : names $"an integer or string" KInteger /\ ~ names $"an integer or string" KBool /\ ~ names $"a list of strings" KString.
Proof. rewrite <- !namesb_names. vm_compute. repeat split; congruence. Qed.
