(** Theorems about scalar values, list-or-map syntax and extra hosts (C32, C33, C34, C47). *)

From Coq Require Import String Ascii List NArith ZArith Bool Lia ZifyBool ZifyN ZifyNat.
Import ListNotations.
From Verif Require Import Base BaseFacts Num NumFacts Regex RegexFacts Serde Coll CollFacts KeysModel KeysSpec
  IpModel IpProofs ValuesModel ValuesSpec ValuesProofs ValuesNumProofs ListMapProofs.
Open Scope N_scope.

(** ** C32 *)

(** What every text is read as. *)
Theorem value_parse_kind : forall float_value s,
  (forall b, value_parse float_value s = VBoolean b <-> s = if b then $"true" else $"false") /\
  (forall n, value_parse float_value s = VNumber (UnsignedInt n) <->
             denotes s (Z.of_N n) /\ n < 2 ^ 64 /\ forall t, s <> ch "-" :: t) /\
  (forall z, value_parse float_value s = VNumber (SignedInt z) <->
             denotes s z /\ (- 2 ^ 63 <= z)%Z /\ exists t, s = ch "-" :: t) /\
  (forall b, value_parse float_value s = VNumber (Float b) <->
             matches FLOAT_RE s /\ ~ matches INT_RE s /\ b = float_value s) /\
  (forall t, value_parse float_value s = VString t -> t = s).
Proof.
  intros fv s. split; [intros; apply value_boolean|]. split; [|split; [|split]].
  - intros n. rewrite value_number, number_unsigned. change (2 ^ 64) with (U64_MAX + 1).
    assert (A : n < U64_MAX + 1 <-> n <= U64_MAX) by lia. rewrite A. tauto.
  - intros z. rewrite value_number, number_signed. change (- Z.of_N I64_MIN_ABS)%Z with (- 2 ^ 63)%Z. tauto.
  - intros b. rewrite value_number. apply number_float.
  - intros t H. apply value_string in H. tauto.
Qed.
Print Assumptions value_parse_kind.

Example value_parse_cases : forall fv,
  map (value_parse fv) [$"true"; $"+18446744073709551615"; $"-9223372036854775808"; $"18446744073709551616"; $"True"; $"1_000"] =
  [VBoolean true; VNumber (UnsignedInt 18446744073709551615); VNumber (SignedInt (-9223372036854775808));
   VString $"18446744073709551616"; VString $"True"; VString $"1_000"] /\
  value_parse fv $"-Infinity" = VNumber (Float (fv $"-Infinity")) /\ value_parse fv $"5." = VNumber (Float (fv $"5.")).
Proof. intros. vm_compute. auto. Qed.

(** Printing and parsing gives back every canonical value. *)
Theorem value_text_round_trip : forall float_value float_show v,
  canonical float_value float_show v -> value_parse float_value (value_show float_show v) = v.
Proof. exact value_round_trip. Qed.
Print Assumptions value_text_round_trip.

Example value_text_case : forall fv fs,
  canonical fv fs (VNumber (SignedInt (-9223372036854775808))) /\ canonical fv fs (VNumber (UnsignedInt 18446744073709551615)) /\
  canonical fv fs (VString $"1.2.3") /\ ~ canonical fv fs (VString $"1.2").
Proof.
  intros fv fs. cbn [canonical]. split; [unfold I64_MIN_ABS; lia|]. split; [unfold U64_MAX; lia|]. split.
  - split; [discriminate|]. split; [discriminate|]. rewrite float_re, int_re. split; [discriminate|]. intros [_ H]. discriminate.
  - intros [_ [_ [H _]]]. apply H. apply float_re. reflexivity.
Qed.

(** Parsing and printing keeps booleans and strings as they are, and the integer denoted by an integer text. *)
Theorem value_parse_print_meaning : forall float_value float_show s,
  (forall z, denotes s z -> denotes (value_show float_show (value_parse float_value s)) z) /\
  (~ matches INT_RE s -> ~ matches FLOAT_RE s -> value_show float_show (value_parse float_value s) = s).
Proof.
  intros fv fs s. split; [intros z H; apply value_keeps_integer; exact H|]. intros H1 H2.
  destruct (value_parse fv s) as [t|[n|z|b]|b] eqn:E; cbn [value_show].
  - apply value_string in E. tauto.
  - apply value_number, number_unsigned in E. destruct E as [E _]. apply denotes_int in E. contradiction.
  - apply value_number, number_signed in E. destruct E as [E _]. apply denotes_int in E. contradiction.
  - apply value_number, number_float in E. tauto.
  - apply value_boolean in E. subst s. destruct b; reflexivity.
Qed.
Print Assumptions value_parse_print_meaning.

Example value_parse_print_case : forall fv fs,
  denotes $"+007" 7 /\ value_show fs (value_parse fv $"+007") = $"7" /\ value_show fs (value_parse fv $"no") = $"no".
Proof.
  intros. split; [|vm_compute; auto]. change $"+007" with (ch "+" :: $"007"). change 7%Z with (horner $"007" 0).
  apply den_plus. apply plus_digits. split; [discriminate|reflexivity].
Qed.

(** The parsed value of a printed value need not be the same: [-0] is a signed integer but prints as [0]. *)
Theorem value_reparse_refuted : forall float_value float_show, exists s,
  value_parse float_value (value_show float_show (value_parse float_value s)) <> value_parse float_value s.
Proof. intros. exists $"-0". vm_compute. discriminate. Qed.
Print Assumptions value_reparse_refuted.

(** A float whose text is an integer text (Rust prints [1.0] as [1]) comes back as an integer. *)
Theorem value_float_text_refuted : forall float_value float_show one,
  float_show one = $"1" ->
  value_parse float_value (value_show float_show (VNumber (Float one))) = VNumber (UnsignedInt 1).
Proof. intros fv fs one H. cbn [value_show number_show]. rewrite H. reflexivity. Qed.
Print Assumptions value_float_text_refuted.

(** ** C33 *)

(** The mathematical integer of an integer number. *)
Definition integer_of (n : number) : option Z :=
  match n with UnsignedInt n => Some (Z.of_N n) | SignedInt z => Some z | Float _ => None end.

(** Numbers within the ranges of the Rust types. *)
Definition number_wf (n : number) : Prop :=
  match n with
  | UnsignedInt n => n < 2 ^ 64
  | SignedInt z => (- 2 ^ 63 <= z < 2 ^ 63)%Z
  | Float b => b < 2 ^ 64
  end.

Theorem number_conversions_exact : forall n, number_wf n ->
  (forall m, number_to_u64 n = Ok m <-> integer_of n = Some (Z.of_N m) /\ m < 2 ^ 64) /\
  (forall z, number_to_i64 n = Ok z <-> integer_of n = Some z /\ (- 2 ^ 63 <= z < 2 ^ 63)%Z).
Proof.
  intros [n|z|b] W; cbn [number_wf integer_of] in *.
  - split.
    + intros m. cbn [number_to_u64]. split; [intros H; injection H as <-; auto|].
      intros [H _]. injection H as H. assert (n = m) by lia. congruence.
    + intros z. cbn [number_to_i64]. change I64_MAX with (2 ^ 63 - 1). destruct (N.leb_spec n (2 ^ 63 - 1)) as [L|L].
      * split; [intros H; injection H as <-; split; [reflexivity|lia]|]. intros [H _]. injection H as <-. reflexivity.
      * split; [discriminate|]. intros [H1 H2]. injection H1 as <-. lia.
  - split.
    + intros m. cbn [number_to_u64]. destruct (Z.leb_spec 0 z) as [L|L].
      * split; [intros H; injection H as <-; split; [f_equal; lia|lia]|]. intros [H _]. injection H as ->. f_equal. lia.
      * split; [discriminate|]. intros [H _]. injection H as ->. lia.
    + intros y. cbn [number_to_i64]. split; [intros H; injection H as <-; auto|]. intros [H _]. congruence.
  - split; [intros m|intros z]; cbn [number_to_u64 number_to_i64]; (split; [discriminate|]); intros [H _]; discriminate.
Qed.
Print Assumptions number_conversions_exact.

Example number_conversions_case :
  number_to_u64 (SignedInt 5) = Ok 5 /\ number_to_u64 (SignedInt (-1)) = Err TFInt /\
  number_to_i64 (UnsignedInt 9223372036854775807) = Ok 9223372036854775807%Z /\
  number_to_i64 (UnsignedInt 9223372036854775808) = Err TFInt.
Proof. vm_compute. auto. Qed.

(** A string converts to an integer type exactly when it denotes an integer of that type. *)
Theorem string_conversions_exact : forall float_value s,
  (forall n, value_to_u64 float_value (VString s) = Ok n <-> denotes s (Z.of_N n) /\ n < 2 ^ 64) /\
  (forall z, value_to_i64 float_value (VString s) = Ok z <-> denotes s z /\ (- 2 ^ 63 <= z < 2 ^ 63)%Z).
Proof.
  intros fv s. change (2 ^ 64) with (U64_MAX + 1). change (2 ^ 63)%Z with (Z.of_N I64_MIN_ABS).
  unfold value_to_u64, value_to_i64, value_to_number.
  destruct (number_parse_spec fv s) as [[ds [H1 [H2 [H3 ->]]]]|[[ds [-> [H2 [H3 ->]]]]|[[H1 [H2 ->]]|[H1 [H2 [e ->]]]]]].
  - assert (Dn := fun z => denotes_plain s ds z H1 H2 H3).
    destruct (N.leb_spec (dec_value ds) U64_MAX) as [L|L]; cbn [map_err bind number_to_u64 number_to_i64].
    + split.
      * intros n. rewrite Dn. split; [intros H; injection H as <-; split; [reflexivity|lia]|].
        intros [H _]. assert (dec_value ds = n) by lia. congruence.
      * intros z. rewrite Dn. change I64_MAX with (I64_MIN_ABS - 1). destruct (N.leb_spec (dec_value ds) (I64_MIN_ABS - 1)) as [M|M].
        -- split; [intros H; injection H as <-; split; [reflexivity|unfold I64_MIN_ABS in *; lia]|]. intros [-> _]. reflexivity.
        -- split; [discriminate|]. intros [-> H]. unfold I64_MIN_ABS in *; lia.
    + split; [intros n|intros z]; rewrite Dn; (split; [discriminate|]); unfold U64_MAX, I64_MIN_ABS in *; lia.
  - assert (Dn := fun z => denotes_minus ds z H2 H3).
    destruct (N.leb_spec (dec_value ds) I64_MIN_ABS) as [L|L]; cbn [map_err bind number_to_u64 number_to_i64].
    + split.
      * intros n. rewrite Dn. destruct (Z.leb_spec 0 (- Z.of_N (dec_value ds))) as [M|M].
        -- split; [intros H; injection H as <-; unfold U64_MAX; split; lia|]. intros [H _]. f_equal. lia.
        -- split; [discriminate|lia].
      * intros z. rewrite Dn. split; [intros H; injection H as <-; unfold I64_MIN_ABS in *; split; [reflexivity|lia]|].
        intros [-> _]. reflexivity.
    + split; [intros n|intros z]; rewrite Dn; (split; [discriminate|]); unfold U64_MAX, I64_MIN_ABS in *; lia.
  - cbn [map_err bind number_to_u64 number_to_i64].
    split; [intros n|intros z]; (split; [discriminate|]); intros [H _]; apply denotes_int in H; contradiction.
  - cbn [map_err bind].
    split; [intros n|intros z]; (split; [discriminate|]); intros [H _]; apply denotes_int in H; contradiction.
Qed.
Print Assumptions string_conversions_exact.

Example string_conversions_case : forall fv,
  value_to_u64 fv (VString $"+12") = Ok 12 /\ value_to_u64 fv (VString $"-0") = Ok 0 /\
  value_to_i64 fv (VString $"-12") = Ok (-12)%Z /\ value_to_u64 fv (VString $"1.0") = Err TFFloatToInt.
Proof. intros. vm_compute. auto. Qed.

(** Booleans and numbers as values. *)
Theorem value_conversions_exact : forall float_value v n, number_wf n -> v = VNumber n \/ (exists b, v = VBoolean b /\ n = UnsignedInt (if b then 1 else 0)) ->
  (forall m, value_to_u64 float_value v = Ok m <-> integer_of n = Some (Z.of_N m) /\ m < 2 ^ 64) /\
  (forall z, value_to_i64 float_value v = Ok z <-> integer_of n = Some z /\ (- 2 ^ 63 <= z < 2 ^ 63)%Z).
Proof.
  intros fv v n W [->|[b [-> ->]]]; apply number_conversions_exact in W; exact W.
Qed.
Print Assumptions value_conversions_exact.

(** The sign bit, exponent and fraction fields of a 64-bit float. *)
Definition f64_sign (b : N) : N := b / 2 ^ 63.
Definition f64_exponent (b : N) : N := b / 2 ^ 52 mod 2 ^ 11.
Definition f64_fraction (b : N) : N := b mod 2 ^ 52.

(** The float [b] is the integer [z]: zero, or a normal number with this value. *)
Definition f64_is (b : N) (z : Z) : Prop :=
  b = 0 /\ z = 0%Z \/
  1023 <= f64_exponent b < 2047 /\ z <> 0%Z /\ (f64_sign b = if (z <? 0)%Z then 1 else 0) /\
  (2 ^ 52 + f64_fraction b) * 2 ^ (f64_exponent b - 1023) = Z.abs_N z * 2 ^ 52.

Lemma f64_of_int_exact : forall z, (Z.abs z < 2 ^ 53)%Z -> f64_is (f64_of_int z) z.
Proof.
  intros z H. destruct (Z.eq_dec z 0) as [->|Hz]; [left; auto|]. right.
  assert (E : f64_of_int z = (if (z <? 0)%Z then 2 ^ 63 else 0) + (N.log2 (Z.abs_N z) + 1023) * 2 ^ 52 + (Z.abs_N z * 2 ^ (52 - N.log2 (Z.abs_N z)) - 2 ^ 52))
    by (destruct z; [congruence|reflexivity|reflexivity]).
  rewrite E. clear E. set (m := Z.abs_N z). set (e := N.log2 m).
  assert (Hm : 0 < m < 2 ^ 53) by (unfold m; lia).
  destruct (N.log2_spec m ltac:(lia)) as [L1 L2]. fold e in L1, L2.
  assert (He : e <= 52).
  { destruct (N.le_gt_cases e 52) as [G|G]; [exact G|]. assert (2 ^ 53 <= 2 ^ e) by (apply N.pow_le_mono_r; lia). lia. }
  assert (P : 2 ^ e * 2 ^ (52 - e) = 2 ^ 52) by (rewrite <- N.pow_add_r; f_equal; lia).
  assert (P2 : 2 ^ (N.succ e) * 2 ^ (52 - e) = 2 ^ 53) by (rewrite <- N.pow_add_r; f_equal; lia).
  assert (F1 : 2 ^ 52 <= m * 2 ^ (52 - e)) by (rewrite <- P; apply N.mul_le_mono_r; exact L1).
  assert (F2 : m * 2 ^ (52 - e) < 2 ^ 53).
  { rewrite <- P2. apply N.mul_lt_mono_pos_r; [|exact L2]. apply N.neq_0_lt_0. apply N.pow_nonzero. lia. }
  set (f := m * 2 ^ (52 - e) - 2 ^ 52). assert (Hf : f < 2 ^ 52) by (unfold f; change (2 ^ 53) with (2 * 2 ^ 52) in F2; lia).
  set (s := if (z <? 0)%Z then 1 else 0).
  assert (S : (if (z <? 0)%Z then 2 ^ 63 else 0) = s * 2 ^ 63) by (unfold s; destruct (z <? 0)%Z; lia).
  assert (S1 : s <= 1) by (unfold s; destruct (z <? 0)%Z; lia). rewrite S.
  assert (X1 : f64_exponent (s * 2 ^ 63 + (e + 1023) * 2 ^ 52 + f) = e + 1023).
  { unfold f64_exponent. replace (s * 2 ^ 63 + (e + 1023) * 2 ^ 52 + f) with (f + (s * 2 ^ 11 + (e + 1023)) * 2 ^ 52) by (change (2 ^ 63) with (2 ^ 11 * 2 ^ 52); lia).
    rewrite N.div_add by (apply N.pow_nonzero; lia). rewrite N.div_small by exact Hf.
    replace (0 + (s * 2 ^ 11 + (e + 1023))) with ((e + 1023) + s * 2 ^ 11) by lia.
    rewrite N.mod_add by (apply N.pow_nonzero; lia). apply N.mod_small. change (2 ^ 11) with 2048. lia. }
  assert (X2 : f64_fraction (s * 2 ^ 63 + (e + 1023) * 2 ^ 52 + f) = f).
  { unfold f64_fraction. replace (s * 2 ^ 63 + (e + 1023) * 2 ^ 52 + f) with (f + (s * 2 ^ 11 + (e + 1023)) * 2 ^ 52) by (change (2 ^ 63) with (2 ^ 11 * 2 ^ 52); lia).
    rewrite N.mod_add by (apply N.pow_nonzero; lia). apply N.mod_small. exact Hf. }
  assert (X3 : f64_sign (s * 2 ^ 63 + (e + 1023) * 2 ^ 52 + f) = s).
  { unfold f64_sign. replace (s * 2 ^ 63 + (e + 1023) * 2 ^ 52 + f) with ((e + 1023) * 2 ^ 52 + f + s * 2 ^ 63) by lia.
    rewrite N.div_add by (apply N.pow_nonzero; lia). rewrite N.div_small; [lia|].
    change (2 ^ 63) with (2048 * 2 ^ 52). nia. }
  rewrite X1, X2, X3. split; [lia|]. split; [exact Hz|]. split; [reflexivity|].
  replace (e + 1023 - 1023) with e by lia. replace (2 ^ 52 + f) with (m * 2 ^ (52 - e)) by (unfold f; lia).
  rewrite <- N.mul_assoc, <- N.pow_add_r. replace (52 - e + e) with 52 by lia. reflexivity.
Qed.

(** Conversion of an integer to a float is exact or an error. *)
Theorem number_to_f64_exact : forall n b, number_to_f64 n = Ok b ->
  match integer_of n with Some z => f64_is b z | None => n = Float b end.
Proof.
  intros [n|z|c] b H; cbn [integer_of number_to_f64] in *.
  - destruct (N.leb_spec n U32_MAX) as [L|L]; [|discriminate]. injection H as <-. apply f64_of_int_exact.
    unfold U32_MAX in L. lia.
  - destruct ((-2147483648 <=? z) && (z <=? 2147483647))%Z eqn:E; [|discriminate]. injection H as <-.
    apply f64_of_int_exact. lia.
  - congruence.
Qed.
Print Assumptions number_to_f64_exact.

Example number_to_f64_case :
  number_to_f64 (SignedInt (-3)) = Ok 13837309855095848960 /\ number_to_f64 (UnsignedInt 4294967296) = Err TFInt.
Proof. vm_compute. auto. Qed.

(** Which integers convert to a float: those which fit [u32] or, with a sign, [i32]; whatever the number is part of. *)
Theorem number_to_f64_domain : forall fv n,
  ((exists b, number_to_f64 n = Ok b) <-> match n with UnsignedInt n => n < 2 ^ 32 | SignedInt z => (- 2 ^ 31 <= z < 2 ^ 31)%Z | Float _ => True end) /\
  value_to_f64 fv (VNumber n) = number_to_f64 n.
Proof.
  intros fv n. split; [|destruct n; reflexivity]. destruct n as [n|z|c]; cbn [number_to_f64].
  - unfold U32_MAX. destruct (N.leb_spec n 4294967295) as [L|L]; (split; [intros [b H]; try discriminate; lia|intros H']); [eauto|lia].
  - destruct ((-2147483648 <=? z) && (z <=? 2147483647))%Z eqn:E; (split; [intros [b H]; try discriminate; lia|intros H']); [eauto|lia].
  - split; [auto|]. eauto.
Qed.
Print Assumptions number_to_f64_domain.
(** Only a boolean converts to a boolean, not a text; a boolean converts to the numbers 0 and 1. *)
Theorem boolean_conversions_exact : forall fv,
  (forall v b, value_to_bool v = Ok b <-> v = VBoolean b) /\
  (forall b, value_to_u64 fv (VBoolean b) = Ok (if b then 1 else 0) /\ value_to_i64 fv (VBoolean b) = Ok (if b then 1 else 0)%Z /\
             value_to_f64 fv (VBoolean b) = Ok (if b then 1023 * 2 ^ 52 else 0)).
Proof.
  intros fv. split.
  - intros [s|n|x] b; cbn [value_to_bool]; split; congruence.
  - intros [|]; vm_compute; auto.
Qed.
Print Assumptions boolean_conversions_exact.
Example boolean_conversions_case : value_to_bool (VString $"true") = Err TFIntoBool. Proof. reflexivity. Qed.

(** ** C34 *)

(** A map whose keys have no [=] and whose values are canonical and not empty survives conversion to a list. *)
Theorem map_to_list_and_back : forall float_value float_show m,
  NoDup (map fst m) -> Forall (entry_ok float_value float_show) m ->
  into_map float_value (LList (into_list float_show (LMap m))) = Ok m /\
  into_list float_show (LMap m) = map (entry_text float_show) m.
Proof. intros fv fs m H1 H2. destruct (map_list_map fv fs m H1 H2). auto. Qed.
Print Assumptions map_to_list_and_back.

Example map_to_list_case : forall fv fs,
  into_list fs (LMap [($"A", Some (VNumber (UnsignedInt 1))); ($"B", None); ($"C", Some (VString $"x=y"))]) =
  [$"A=1"; $"B"; $"C=x=y"] /\
  into_map fv (LList [$"A=1"; $"B"; $"C=x=y"]) = Ok [($"A", Some (VNumber (UnsignedInt 1))); ($"B", None); ($"C", Some (VString $"x=y"))].
Proof. intros. vm_compute. auto. Qed.

(** Without the conditions the map changes: an [=] in a key, an empty value, a string which looks like a number. *)
Theorem map_to_list_refuted : forall float_value float_show,
  (exists k v, into_map float_value (LList (into_list float_show (LMap [(k, v)]))) <> Ok [(k, v)] /\ In (ch "=") k) /\
  (exists k, into_map float_value (LList (into_list float_show (LMap [(k, Some (VString []))]))) = Ok [(k, None)]) /\
  (exists k, into_map float_value (LList (into_list float_show (LMap [(k, Some (VString $"5"))]))) = Ok [(k, Some (VNumber (UnsignedInt 5)))]) /\
  (exists m, NoDup (map fst m) /\ List.length m = 2%nat /\ List.length (into_list float_show (LMap m)) = 1%nat).
Proof.
  intros fv fs. split; [exists $"a=b", None; split; [vm_compute; discriminate|vm_compute; auto]|].
  split; [exists $"a"; reflexivity|]. split; [exists $"a"; reflexivity|].
  exists [($"a=b", None); ($"a", Some (VString $"b"))]. split; [|split; vm_compute; reflexivity].
  constructor; [intros [H|[]]; discriminate|]. constructor; [intros []|constructor].
Qed.
Print Assumptions map_to_list_refuted.

(** Exact meaning of the conversion from a list: one entry per item, in order; a repeated key keeps its first
    position and its last value. *)
Theorem list_to_map_meaning : forall float_value l m, into_map float_value (LList l) = Ok m <->
  exists es, Forall2 (fun item e => item_says float_value item (fst e) (snd e)) l es /\ m = imap_of str_eqb es.
Proof. exact into_map_ok. Qed.
Print Assumptions list_to_map_meaning.

Theorem list_to_map_order : forall float_value l es,
  Forall2 (fun item e => item_says float_value item (fst e) (snd e)) l es -> NoDup (map fst es) ->
  into_map float_value (LList l) = Ok es.
Proof.
  intros fv l es H1 H2. apply into_map_ok. exists es. split; [exact H1|]. symmetry.
  apply (imap_of_nodup str_eqb str_eqb_eq). exact H2.
Qed.
Print Assumptions list_to_map_order.

Theorem list_to_map_duplicates : forall (es : vmap),
  NoDup (map fst (imap_of str_eqb es)) /\
  (forall k, In k (map fst (imap_of str_eqb es)) <-> In k (map fst es)) /\
  (forall k v a b, es = a ++ (k, v) :: b -> ~ In k (map fst b) -> In (k, v) (imap_of str_eqb es)).
Proof.
  intros es. split; [apply (imap_of_NoDup str_eqb str_eqb_eq)|]. split; [|exact (imap_of_last str_eqb str_eqb_eq es)].
  intros k. rewrite (imap_of_keys str_eqb). apply (iset_of_In str_eqb str_eqb_eq).
Qed.
Print Assumptions list_to_map_duplicates.

Example list_to_map_case : forall fv,
  into_map fv (LList [$"A=1"; $"B="; $"A=x"]) = Ok [($"A", Some (VString $"x")); ($"B", None)] /\
  into_map fv (LList [$"=1"]) = Err MapKeyEmpty.
Proof. intros. vm_compute. auto. Qed.

(** ** C47 *)

(** One entry of [extra_hosts]: the host, a delimiter, the address with or without brackets. *)
Definition host_item (e : str * char * bool * str) : str :=
  let '(host, d, b, t) := e in host ++ d :: (if b then ch "[" :: t ++ [ch "]"] else t).

(** Every well-formed list is read as the pairs it spells; a host given twice keeps its first position. *)
Theorem extra_hosts_exact : forall float_value (es : list (str * char * bool * str * ip_addr)),
  Forall (fun e => let '(host, d, b, t, ip) := e in
                   matches HOSTNAME_RE host /\ (d = ch "=" \/ d = ch ":") /\ ip_parse t = Some ip) es ->
  extra_hosts float_value (LList (map (fun e => host_item (fst e)) es)) =
  Ok (imap_of str_eqb (map (fun e => let '(host, d, b, t, ip) := e in (host, ip)) es)).
Proof.
  intros fv es H. unfold extra_hosts, into_map_split_on.
  set (g := fun e : str * char * bool * str * ip_addr =>
              let '(host, d, b, t, ip) := e in (host, Some (VString (bracketed b t)))).
  set (h := fun e : str * char * bool * str * ip_addr => let '(host, d, b, t, ip) := e in (host, ip)).
  assert (A : collect (item_entry fv [ch "="; ch ":"]) (map (fun e => host_item (fst e)) es) = Ok (map g es)).
  { induction H as [|[[[[host d] b] t] ip] es [H1 [H2 H3]] H4 IH]; cbn [map collect]; [reflexivity|].
    destruct (extra_host_entry fv host d b t ip H1 H3) as [E _]; [cbn [In]; destruct H2 as [->| ->]; auto|].
    change (host_item (fst (host, d, b, t, ip))) with (host ++ d :: bracketed b t). rewrite E. cbn [bind]. rewrite IH. reflexivity. }
  rewrite A. cbn [map_ok map_err bind].
  set (f := fun v : option value => match v with
            | Some (VString s) => match ip_parse (strip_brackets s) with Some ip => ip | None => V4 0 0 0 0 end
            | _ => V4 0 0 0 0 end).
  assert (B : forall p, In p (map g es) -> extra_host p = Ok (fst p, f (snd p))).
  { intros p Hp. apply in_map_iff in Hp. destruct Hp as [e [<- He]]. rewrite Forall_forall in H. specialize (H e He).
    destruct e as [[[[host d] b] t] ip]. destruct H as [H1 [H2 H3]].
    destruct (extra_host_entry fv host d b t ip H1 H3) as [_ E]; [cbn [In]; destruct H2 as [->| ->]; auto|].
    unfold g. rewrite E. cbn [fst snd]. f_equal. f_equal. unfold extra_host in E. cbn [fst snd] in E.
    destruct (hostname_new host); [|discriminate]. unfold f. destruct (ip_parse (strip_brackets (bracketed b t))); congruence. }
  assert (C : map h es = map (fun p => (fst p, f (snd p))) (map g es)).
  { rewrite map_map. apply map_ext_in. intros e He.
    assert (Hp : In (g e) (map g es)) by (apply in_map; exact He). specialize (B _ Hp).
    rewrite Forall_forall in H. specialize (H e He). destruct e as [[[[host d] b] t] ip]. destruct H as [H1 [H2 H3]].
    destruct (extra_host_entry fv host d b t ip H1 H3) as [_ E]; [cbn [In]; destruct H2 as [->| ->]; auto|].
    unfold g in B. rewrite E in B. cbn [fst snd] in *. unfold h, g. cbn [fst snd]. congruence. }
  rewrite (collect_all extra_host (fun p => (fst p, f (snd p)))).
  - cbn [bind]. rewrite C, (imap_of_map str_eqb f (map g es)). f_equal. apply (imap_of_nodup str_eqb str_eqb_eq).
    rewrite map_map. cbn [fst]. apply (imap_of_NoDup str_eqb str_eqb_eq).
  - intros p Hp. apply B. apply (imap_of_sub str_eqb str_eqb_eq). exact Hp.
Qed.
Print Assumptions extra_hosts_exact.

(** In particular for every printed address. *)
Theorem extra_hosts_printed : forall float_value compat host d (b : bool) ip,
  matches HOSTNAME_RE host -> d = ch "=" \/ d = ch ":" -> ip_wf ip ->
  extra_hosts float_value (LList [host ++ d :: (if b then ch "[" :: ip_show compat ip ++ [ch "]"] else ip_show compat ip)]) =
  Ok [(host, ip)].
Proof.
  intros fv compat host d b ip H1 H2 H3.
  apply (extra_hosts_exact fv [(host, d, b, ip_show compat ip, ip)]).
  constructor; [|constructor]. split; [exact H1|]. split; [exact H2|]. apply ip_round_trip. exact H3.
Qed.
Print Assumptions extra_hosts_printed.

Example extra_hosts_case : forall fv,
  extra_hosts fv (LList [$"a.b=1.2.3.4"; $"c:[::1]"; $"d:10.0.0.1"]) =
  Ok [($"a.b", V4 1 2 3 4); ($"c", V6 [0; 0; 0; 0; 0; 0; 0; 1]); ($"d", V4 10 0 0 1)].
Proof. intros. vm_compute. reflexivity. Qed.

(** Every host of the list is in the result once, with the last address given for it. *)
Theorem extra_hosts_last : forall float_value (es : list (str * char * bool * str * ip_addr)) r,
  Forall (fun e => let '(host, d, b, t, ip) := e in
                   matches HOSTNAME_RE host /\ (d = ch "=" \/ d = ch ":") /\ ip_parse t = Some ip) es ->
  extra_hosts float_value (LList (map (fun e => host_item (fst e)) es)) = Ok r ->
  NoDup (map fst r) /\
  forall pre host d b t ip post, es = pre ++ (host, d, b, t, ip) :: post ->
    (forall e, In e post -> fst (fst (fst (fst e))) <> host) -> In (host, ip) r.
Proof.
  intros fv es r H E. rewrite (extra_hosts_exact fv es H) in E. injection E as <-.
  split; [apply (imap_of_NoDup str_eqb str_eqb_eq)|]. intros pre host d b t ip post -> Hl.
  eapply (imap_of_last str_eqb str_eqb_eq); [rewrite map_app; cbn [map]; reflexivity|].
  rewrite map_map. intros Hi. apply in_map_iff in Hi. destruct Hi as [[[[[host' d'] b'] t'] ip'] [Ei Hi]].
  cbn [fst] in Ei. subst host'. exact (Hl _ Hi eq_refl).
Qed.
Print Assumptions extra_hosts_last.

Example extra_hosts_duplicate_case : forall fv,
  extra_hosts fv (LList [$"a=1.2.3.4"; $"b=9.9.9.9"; $"a:5.6.7.8"]) = Ok [($"a", V4 5 6 7 8); ($"b", V4 9 9 9 9)].
Proof. intros. vm_compute. reflexivity. Qed.
