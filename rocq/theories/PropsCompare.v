(** C90: comparisons of amounts and addresses follow what is compared. *)

From Coq Require Import String Ascii List NArith ZArith Bool Lia.
Import ListNotations.
From Verif Require Import Base BaseFacts Serde BytesModel TextModel VolumesModel EqModel HashModel HashSpec HashFacts ScalarCodec CompareModel.
Open Scope N_scope.

(** ** Specification *)

(** An amount which a limit allows. *)
Definition allows (l : limit N) (n : N) : Prop := forall m, l = LimitValue m -> n <= m.
(** A MAC address as a number of 48 bits. *)
Definition number (m : list N) : N := fold_left (fun a b => a * 256 + b) m 0.
Definition address (m : list N) : Prop := List.length m = 6%nat /\ Forall (fun b => b <= 255) m.
(** The bytes which a value stands for, with the factors of the documentation of [ByteValue]. *)
Definition stands_for (v : byte_value) : N :=
  match v with Bytes n => n | Kilobytes n => n * 1000 | Megabytes n => n * 1000000 | Gigabytes n => n * 1000000000 end.
(** The floats which a [Cpus] may hold. *)
Definition finite (bits : N) : Prop := bits < 2047 * 2 ^ 52.

(** ** Limits *)

(** An order of amounts gives an order of limits, *)
Theorem limit_ordered : forall T eqb cmp, @ordered T eqb cmp -> ordered (limit_eqb eqb) (limit_cmp cmp).
Proof.
  intros T eqb cmp [E A R]. split.
  - intros [x|] [y|]; cbn; try (split; discriminate); [apply E|tauto].
  - intros [x|] [y|]; cbn; try reflexivity. apply A.
  - intros [x|] [y|] [z|] r; cbn; try congruence. apply R.
Qed.
Print Assumptions limit_ordered.

(** in which a limit is at most another one exactly if it allows no more. *)
Theorem limit_order_meaning : forall a b, limit_cmp N.compare a b <> Gt <-> forall n, allows a n -> allows b n.
Proof.
  intros [x|] [y|]; unfold allows; cbn.
  - change (x <= y <-> forall n, (forall m, LimitValue x = LimitValue m -> n <= m) -> forall m, LimitValue y = LimitValue m -> n <= m). split.
    + intros L n H m E. injection E as <-. specialize (H x eq_refl). lia.
    + intros H. apply (H x); [intros m E; injection E as <-; lia|reflexivity].
  - split; [intros _ n _ m E; discriminate|discriminate].
  - split; [congruence|]. intros H. exfalso. assert (X : y + 1 <= y) by (apply (H (y + 1)); [discriminate|reflexivity]). lia.
  - split; [intros _ n H; exact H|discriminate].
Qed.
Print Assumptions limit_order_meaning.

(** ** Short or long syntax *)

Theorem short_or_long_ordered : forall S L es cs el cl, @ordered S es cs -> @ordered L el cl -> ordered (short_or_long_eqb es el) (short_or_long_cmp cs cl).
Proof.
  intros S L es cs el cl [E A R] [F B Q]. split.
  - intros [x|x] [y|y]; cbn; try (split; discriminate); [apply E|apply F].
  - intros [x|x] [y|y]; cbn; try reflexivity; [apply A|apply B].
  - intros [x|x] [y|y] [z|z] r; cbn; try congruence; [apply R|apply Q].
Qed.
Print Assumptions short_or_long_ordered.

(** ** MAC addresses *)

Lemma fold_number : forall r a, fold_left (fun a b => a * 256 + b) r a = a * 256 ^ N.of_nat (List.length r) + number r.
Proof.
  unfold number. intros r. induction r as [|b r IH]; intros a; cbn [fold_left List.length]; [cbn; lia|].
  rewrite IH, (IH (0 * 256 + b)). rewrite Nnat.Nat2N.inj_succ, N.pow_succ_r'. lia.
Qed.
Lemma number_cons : forall b r, number (b :: r) = b * 256 ^ N.of_nat (List.length r) + number r.
Proof. intros b r. unfold number at 1. cbn [fold_left]. rewrite fold_number. lia. Qed.
Lemma number_bound : forall m, Forall (fun b => b <= 255) m -> number m < 256 ^ N.of_nat (List.length m).
Proof.
  intros m F. induction F as [|b m H F IH]; [cbn; lia|]. rewrite number_cons. cbn [List.length]. rewrite Nnat.Nat2N.inj_succ, N.pow_succ_r'. nia.
Qed.
Lemma str_cmp_number : forall a b, List.length a = List.length b -> Forall (fun b => b <= 255) a -> Forall (fun b => b <= 255) b -> str_cmp a b = (number a ?= number b).
Proof.
  intros a. induction a as [|x a IH]; intros [|y b] L F G; try discriminate; [reflexivity|].
  inversion F as [|? ? Hx Fa]; inversion G as [|? ? Hy Gb]; subst. injection L as L. cbn [str_cmp]. rewrite !number_cons, <- L.
  assert (A := number_bound a Fa). assert (B := number_bound b Gb). rewrite <- L in B. symmetry. destruct (N.compare_spec x y) as [->|H|H].
  - rewrite (IH b L Fa Gb). destruct (N.compare_spec (number a) (number b)); [apply N.compare_eq_iff|apply N.compare_lt_iff|apply N.compare_gt_iff]; lia.
  - apply N.compare_lt_iff. nia.
  - apply N.compare_gt_iff. nia.
Qed.

(** MAC addresses are ordered as numbers, and equal numbers are equal addresses. *)
Theorem mac_order_meaning : forall a b, address a -> address b -> mac_cmp a b = (number a ?= number b) /\ (number a = number b <-> bytes_eqb a b = true).
Proof.
  intros a b [La Fa] [Lb Fb]. assert (C : str_cmp a b = (number a ?= number b)) by (apply str_cmp_number; congruence || assumption). split; [exact C|].
  rewrite <- N.compare_eq_iff, <- C, str_cmp_eq. clear. split.
  - intros <-. induction a as [|x a IH]; cbn; [reflexivity|]. now rewrite N.eqb_refl.
  - revert b. induction a as [|x a IH]; intros [|y b]; cbn; try discriminate; [reflexivity|]. intros H. apply andb_true_iff in H as [X H].
    apply N.eqb_eq in X as ->. f_equal. now apply IH.
Qed.
Print Assumptions mac_order_meaning.

(** ** Byte values *)

(** Equal byte values stand for the same number of bytes, *)
Theorem byte_value_equal : forall a b, byte_value_eqb a b = true -> stands_for a = stands_for b.
Proof. intros [x|x|x|x] [y|y|y|y]; cbn; intros H; try discriminate; apply N.eqb_eq in H; now subst. Qed.
Print Assumptions byte_value_equal.

(** but the same number of bytes may be given by values which are not equal. *)
Theorem byte_value_equal_refuted : exists a b, stands_for a = stands_for b /\ into_bytes a = into_bytes b /\ byte_value_eqb a b = false.
Proof. exists (Kilobytes 1), (Bytes 1000). repeat split. Qed.
Print Assumptions byte_value_equal_refuted.

(** With the same unit it is not so. *)
Theorem byte_value_equal_partial : forall a b, unit_str a = unit_str b -> byte_value_eqb a b = true <-> stands_for a = stands_for b.
Proof. intros [x|x|x|x] [y|y|y|y]; cbn; intros E; try discriminate E; rewrite N.eqb_eq; lia. Qed.
Print Assumptions byte_value_equal_partial.

(** ** Counts and CPUs *)

Theorem count_equal : forall c n, count_eq_u64 c n = true <-> c = CountInteger n.
Proof. intros [|m] n; cbn; [split; discriminate|]. rewrite N.eqb_eq. split; [now intros ->|congruence]. Qed.
Print Assumptions count_equal.

Lemma scaled_parts : forall b, scaled b = let e := b / 2 ^ 52 in let f := b mod 2 ^ 52 in if e =? 0 then f else (2 ^ 52 + f) * 2 ^ (e - 1).
Proof. reflexivity. Qed.
Lemma scaled_less : forall a b, a < b -> scaled a < scaled b.
Proof.
  intros a b L. rewrite !scaled_parts. cbv zeta.
  assert (Da := N.div_mod a (2 ^ 52) ltac:(discriminate)). assert (Db := N.div_mod b (2 ^ 52) ltac:(discriminate)).
  assert (Ma := N.mod_lt a (2 ^ 52) ltac:(discriminate)). assert (Mb := N.mod_lt b (2 ^ 52) ltac:(discriminate)).
  assert (Q : a / 2 ^ 52 <= b / 2 ^ 52) by (apply N.div_le_mono; [discriminate|lia]).
  remember (a / 2 ^ 52) as ea eqn:Ea. remember (b / 2 ^ 52) as eb eqn:Eb. remember (a mod 2 ^ 52) as fa eqn:Fa. remember (b mod 2 ^ 52) as fb eqn:Fb.
  clear Ea Eb Fa Fb. remember (2 ^ 52) as K eqn:EK. assert (KP : 0 < K) by (subst; reflexivity). clear EK.
  assert (P : forall n, 0 < 2 ^ n) by (intros n; apply N.neq_0_lt_0, N.pow_nonzero; discriminate).
  destruct (N.eq_dec ea eb) as [->|N].
  - assert (F : fa < fb) by nia. destruct (eb =? 0); [exact F|]. specialize (P (eb - 1)). nia.
  - assert (E : ea < eb) by lia. destruct (N.eqb_spec eb 0) as [->|Z]; [lia|]. destruct (N.eqb_spec ea 0) as [->|Z'].
    + specialize (P (eb - 1)). nia.
    + assert (X : exists d, eb - 1 = (ea - 1) + 1 + d) by (exists (eb - 1 - (ea - 1) - 1); lia). destruct X as (d & ->).
      rewrite !N.pow_add_r, N.pow_1_r. assert (P1 := P (ea - 1)). assert (P2 := P d). remember (2 ^ (ea - 1)) as p. remember (2 ^ d) as q.
      clear - Ma P1 P2. assert (H1 : (K + fa) * p < (K + K) * p) by (apply N.mul_lt_mono_pos_r; lia).
      assert (H2 : (K + K) * p <= (K + fb) * (p * 2 * q)) by nia. lia.
Qed.
Lemma scaled_cmp : forall a b, (scaled a ?= scaled b) = (a ?= b).
Proof.
  intros a b. destruct (N.compare_spec a b) as [->|H|H]; [apply N.compare_refl|apply N.compare_lt_iff|apply N.compare_gt_iff]; now apply scaled_less.
Qed.

(** The numbers of CPUs which can be made or read are totally ordered, and only the same float is equal, unlike floats in general. *)
Theorem cpus_ordered : ordered cpus_eqb cpus_cmp /\ forall a b x y, cpus_new a = Ok x -> cpus_new b = Ok y -> (cpus_eqb x y = true <-> a = b).
Proof.
  split.
  - unfold cpus_eqb, cpus_cmp. split.
    + intros a b. rewrite N.eqb_eq. apply N.compare_eq_iff.
    + intros a b. apply N.compare_antisym.
    + intros a b c r. rewrite !scaled_cmp. destruct (N.compare_spec a b) as [->|H|H]; intros <-; [auto|intros G|intros G].
      * rewrite N.compare_lt_iff in *. lia.
      * rewrite N.compare_gt_iff in *. lia.
  - intros a b x y A B. unfold cpus_new in A, B. destruct (a <? POS_INF_BITS); [|discriminate]. destruct (b <? POS_INF_BITS); [|discriminate].
    injection A as <-. injection B as <-. unfold cpus_eqb. rewrite N.eqb_eq, <- N.compare_eq_iff, scaled_cmp, N.compare_eq_iff. reflexivity.
Qed.
Print Assumptions cpus_ordered.

(** The sign and the exponent of a double (IEEE 754). Accepted are the numbers which are neither negative nor infinite nor NaN. *)
Definition sign (bits : N) : N := bits / 2 ^ 63.
Definition exponent (bits : N) : N := bits / 2 ^ 52 mod 2048.
Theorem cpus_accepted : forall b x, b < 2 ^ 64 -> (cpus_new b = Ok x <-> x = b /\ sign b = 0 /\ exponent b <> 2047).
Proof.
  intros b x L. unfold cpus_new, sign, exponent, POS_INF_BITS.
  assert (Q : b / 2 ^ 52 < 4096) by (apply N.div_lt_upper_bound; [discriminate|change (2 ^ 52 * 4096) with (2 ^ 64); exact L]).
  assert (S : b / 2 ^ 63 = b / 2 ^ 52 / 2048) by (rewrite N.div_div by discriminate; reflexivity).
  assert (M := N.div_mod (b / 2 ^ 52) 2048 ltac:(discriminate)). assert (R := N.mod_lt (b / 2 ^ 52) 2048 ltac:(discriminate)). rewrite S.
  assert (D := N.div_mod b (2 ^ 52) ltac:(discriminate)). assert (T := N.mod_lt b (2 ^ 52) ltac:(discriminate)). change (2 ^ 52) with 4503599627370496 in *.
  destruct (N.ltb_spec b (2047 * 4503599627370496)) as [B|B]; split.
  - intros E. injection E as <-. split; [reflexivity|]. split; lia.
  - intros (-> & _). reflexivity.
  - discriminate.
  - intros (_ & Z & E). exfalso. lia.
Qed.
Print Assumptions cpus_accepted.
(** The documentation says that the number is positive, but zero is accepted. *)
Theorem cpus_positive_refuted : exists b x, cpus_new b = Ok x /\ scaled x = 0.
Proof. now exists 0, 0. Qed.
Print Assumptions cpus_positive_refuted.

(** A number of CPUs made from an integer is that integer, and valid. *)
Theorem cpus_from_exact : forall n, n <= 4294967295 -> cpus_new (cpus_from n) = Ok (cpus_from n) /\ finite (cpus_from n) /\ scaled (cpus_from n) = n * 2 ^ 1074.
Proof.
  intros n L. unfold cpus_from. destruct (N.eqb_spec n 0) as [->|Z]; [repeat split|]. cbv zeta.
  assert (B := N.log2_spec n ltac:(lia)). remember (N.log2 n) as e eqn:E. destruct B as [B1 B2].
  assert (E31 : e <= 31). { subst e. change 31 with (N.log2 4294967295). now apply N.log2_le_mono. }
  assert (S : 2 ^ 52 = 2 ^ e * 2 ^ (52 - e)) by (rewrite <- N.pow_add_r; f_equal; lia).
  assert (P : 0 < 2 ^ (52 - e)) by (apply N.neq_0_lt_0, N.pow_nonzero; discriminate).
  rewrite N.pow_succ_r' in B2. remember (n * 2 ^ (52 - e) - 2 ^ 52) as f eqn:F.
  assert (F1 : n * 2 ^ (52 - e) = 2 ^ 52 + f) by nia. assert (F2 : f < 2 ^ 52) by nia.
  assert (Q : ((e + 1023) * 2 ^ 52 + f) / 2 ^ 52 = e + 1023).
  { rewrite N.div_add_l by discriminate. rewrite N.div_small by exact F2. lia. }
  assert (M : ((e + 1023) * 2 ^ 52 + f) mod 2 ^ 52 = f).
  { rewrite N.add_comm, N.mod_add by discriminate. now apply N.mod_small. }
  assert (I : finite ((e + 1023) * 2 ^ 52 + f)) by (unfold finite; nia).
  split; [|split; [exact I|]].
  - unfold cpus_new. replace (_ <? POS_INF_BITS) with true; [reflexivity|]. symmetry. apply N.ltb_lt. exact I.
  - rewrite scaled_parts. cbv zeta. rewrite Q, M. destruct (N.eqb_spec (e + 1023) 0) as [X|X]; [lia|]. rewrite <- F1, <- N.mul_assoc, <- N.pow_add_r. f_equal. f_equal. lia.
Qed.
Print Assumptions cpus_from_exact.

Example compare_case : limit_cmp N.compare (LimitValue 4000000000) Unlimited = Lt /\ mac_cmp [0; 1; 0; 0; 0; 0] [0; 0; 255; 0; 0; 0] = Gt /\
  cpus_from 3 = 4613937818241073152 /\ cpus_cmp (cpus_from 3) 4609434218613702656 = Gt.
Proof. repeat split. Qed.
