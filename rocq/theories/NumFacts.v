(** Facts about integer parsing and printing. *)

From Coq Require Import List NArith ZArith Bool Ascii Lia ZifyBool ZifyN ZifyNat.
Import ListNotations.
From Verif Require Import Base BaseFacts Num.
Open Scope N_scope.

(** The number written by a list of digit values. *)
Fixpoint value (radix : N) (ds : list N) (acc : N) : N :=
  match ds with [] => acc | d :: r => value radix r (acc * radix + d) end.

Lemma value_app : forall radix a b acc, value radix (a ++ b) acc = value radix b (value radix a acc).
Proof. induction a; intros; simpl; auto. Qed.

Lemma value_ge : forall radix ds acc, 1 <= radix -> acc <= value radix ds acc.
Proof.
  intros radix ds. induction ds as [|d ds IH]; intros acc H; simpl; [lia|].
  specialize (IH (acc * radix + d) H). nia.
Qed.

Lemma digits_fuel_value : forall f radix n acc, 2 <= radix -> n < 2 ^ N.of_nat f ->
  value radix (digits_fuel f radix n acc) 0 = value radix acc n.
Proof.
  induction f as [|f IH]; intros radix n acc Hr Hn.
  - simpl in *. replace n with 0 by lia. reflexivity.
  - cbn [digits_fuel]. cbv zeta.
    assert (Hd : n = n / radix * radix + n mod radix).
    { rewrite N.mul_comm. apply N.div_mod. lia. }
    destruct (N.eqb_spec (n / radix) 0) as [E|E].
    + cbn [value]. rewrite E in Hd. f_equal. lia.
    + rewrite IH; try lia.
      * cbn [value]. f_equal. lia.
      * replace (N.of_nat (S f)) with (N.succ (N.of_nat f)) in Hn by lia.
        rewrite N.pow_succ_r' in Hn. apply N.div_lt_upper_bound; nia.
Qed.

Lemma size_nat_bound : forall n, n < 2 ^ N.of_nat (S (N.size_nat n)).
Proof.
  intros n. assert (H : N.of_nat (N.size_nat n) = N.size n).
  { destruct n as [|p]; [reflexivity|]. simpl. induction p; simpl; try reflexivity; rewrite <- ?IHp; lia. }
  replace (N.of_nat (S (N.size_nat n))) with (N.succ (N.size n)) by lia.
  rewrite N.pow_succ_r'. pose proof (N.size_gt n). lia.
Qed.

Lemma digits_value : forall radix n, 2 <= radix -> value radix (digits radix n) 0 = n.
Proof.
  intros. unfold digits. rewrite digits_fuel_value; [reflexivity|assumption|apply size_nat_bound].
Qed.

Lemma digits_fuel_range : forall f radix n acc, 2 <= radix -> Forall (fun d => d < radix) acc ->
  Forall (fun d => d < radix) (digits_fuel f radix n acc).
Proof.
  induction f as [|f IH]; intros radix n acc Hr Ha; cbn [digits_fuel]; [assumption|].
  cbv zeta. assert (n mod radix < radix) by (apply N.mod_lt; lia).
  destruct (n / radix =? 0); [|apply IH]; auto.
Qed.

Lemma digits_range : forall radix n, 2 <= radix -> Forall (fun d => d < radix) (digits radix n).
Proof. intros. apply digits_fuel_range; auto. Qed.

Lemma digits_fuel_nonempty : forall f radix n acc, acc <> [] -> digits_fuel f radix n acc <> [].
Proof.
  induction f as [|f IH]; intros radix n acc Ha; cbn [digits_fuel]; [assumption|].
  cbv zeta. destruct (n / radix =? 0); [|apply IH]; discriminate.
Qed.

Lemma digits_nonempty : forall radix n, digits radix n <> [].
Proof.
  intros. unfold digits. cbn [digits_fuel]. cbv zeta.
  destruct (n / radix =? 0); [discriminate|]. apply digits_fuel_nonempty. discriminate.
Qed.

(** The leading digit is zero only for zero. *)
Lemma digits_fuel_head : forall f radix n acc, 2 <= radix -> n < 2 ^ N.of_nat f -> n <> 0 ->
  exists d r, digits_fuel f radix n acc = d :: r /\ d <> 0.
Proof.
  induction f as [|f IH]; intros radix n acc Hr Hn H0.
  - simpl in Hn. lia.
  - cbn [digits_fuel]. cbv zeta.
    assert (Hd : n = n / radix * radix + n mod radix).
    { rewrite N.mul_comm. apply N.div_mod. lia. }
    destruct (N.eqb_spec (n / radix) 0) as [E|E].
    + rewrite E in Hd. exists (n mod radix), acc. split; [reflexivity|]. lia.
    + apply IH; try assumption.
      replace (N.of_nat (S f)) with (N.succ (N.of_nat f)) in Hn by lia.
      rewrite N.pow_succ_r' in Hn. apply N.div_lt_upper_bound; nia.
Qed.

Lemma digits_head : forall radix n, 2 <= radix -> n <> 0 ->
  exists d r, digits radix n = d :: r /\ d <> 0.
Proof. intros. unfold digits. apply digits_fuel_head; auto. apply size_nat_bound. Qed.

Lemma digits_0 : forall radix, 2 <= radix -> digits radix 0 = [0].
Proof.
  intros radix H. unfold digits. cbn [N.size_nat digits_fuel]. cbv zeta.
  rewrite N.div_0_l, N.mod_0_l by lia. reflexivity.
Qed.

(** ** Digit characters *)

Lemma to_digit_digit_char : forall radix d, d < radix -> radix <= 16 -> to_digit radix (digit_char d) = Some d.
Proof.
  intros radix d H1 H2. unfold to_digit, digit_char. cls.
  destruct (N.ltb_spec d 10).
  - destruct ((48 <=? d + 48) && (d + 48 <=? 57)) eqn:E; [|lia].
    replace (d + 48 - 48) with d by lia. destruct (N.ltb_spec d radix); [reflexivity|lia].
  - destruct ((48 <=? d + 87) && (d + 87 <=? 57)) eqn:E; [lia|].
    destruct ((97 <=? d + 87) && (d + 87 <=? 102)) eqn:E2; [|lia].
    replace (d + 87 - 87) with d by lia. destruct (N.ltb_spec d radix); [reflexivity|lia].
Qed.

Lemma to_digit_10 : forall c d, to_digit 10 c = Some d <-> is_digit c = true /\ d = c - 48.
Proof.
  intros c d. unfold to_digit. destruct (is_digit c) eqn:E.
  - cls. destruct (N.ltb_spec (c - 48) 10); [|lia]. split; [intros H'; inv H'; auto|intros [_ ->]; reflexivity].
  - split; [|intros [H _]; discriminate]. cls.
    destruct ((97 <=? c) && (c <=? 102)) eqn:E1.
    + destruct (N.ltb_spec (c - 87) 10); [lia|discriminate].
    + destruct ((65 <=? c) && (c <=? 70)) eqn:E2; [|discriminate].
      destruct (N.ltb_spec (c - 55) 10); [lia|discriminate].
Qed.

Lemma to_digit_10_none : forall c, to_digit 10 c = None <-> is_digit c = false.
Proof.
  intros c. destruct (to_digit 10 c) as [d|] eqn:E.
  - apply to_digit_10 in E as [E _]. rewrite E. split; discriminate.
  - split; [|reflexivity]. intros _. destruct (is_digit c) eqn:Ed; [|reflexivity].
    assert (to_digit 10 c = Some (c - 48)) by (apply to_digit_10; auto). congruence.
Qed.

(** Value of a string of decimal digits. *)
Definition dec_value (s : str) : N := value 10 (map (fun c => c - 48) s) 0.
Definition all_digits (s : str) : bool := forallb is_digit s.

Lemma value_acc_bound : forall radix ds acc, 1 <= radix -> acc * radix ^ N.of_nat (length ds) <= value radix ds acc.
Proof.
  intros radix ds. induction ds as [|d ds IH]; intros acc H; simpl length.
  - simpl. lia.
  - simpl value. specialize (IH (acc * radix + d) H).
    replace (N.of_nat (S (length ds))) with (N.succ (N.of_nat (length ds))) by lia.
    rewrite N.pow_succ_r'. nia.
Qed.

Lemma accumulate_ok : forall max over s acc n, acc <= max ->
  (accumulate 10 max over s acc = Ok n <->
   all_digits s = true /\ n = value 10 (map (fun c => c - 48) s) acc /\ n <= max).
Proof.
  intros max over s. induction s as [|c s IH]; intros acc n Ha; cbn [accumulate map value].
  - split; [intros H; inv H; repeat split; auto|]. intros [_ [-> _]]. reflexivity.
  - unfold all_digits in *. cbn [forallb]. destruct (to_digit 10 c) as [d|] eqn:Ed.
    + apply to_digit_10 in Ed as [Ed ->]. rewrite Ed. cbn [andb].
      destruct (N.leb_spec (acc * 10 + (c - 48)) max).
      * apply IH. assumption.
      * split; [discriminate|]. intros [_ [-> H']]. exfalso.
        pose proof (value_ge 10 (map (fun c => c - 48) s) (acc * 10 + (c - 48))). lia.
    + apply to_digit_10_none in Ed. rewrite Ed. cbn [andb]. split; [discriminate|]. intros [H _]. discriminate.
Qed.

Lemma is_digit_not_sign : forall c, is_digit c = true -> (c =? 43) || (c =? 45) = false.
Proof. intros c H. cls. lia. Qed.

(** Exact language of unsigned integer parsing. *)
Lemma parse_uint_ok : forall max s n,
  parse_uint max s = Ok n <->
  exists ds, (s = ds \/ s = 43 :: ds) /\ ds <> [] /\ all_digits ds = true /\ n = dec_value ds /\ n <= max.
Proof.
  intros max s n. unfold parse_uint, parse_uint_radix, dec_value. split.
  - destruct s as [|c r]; [discriminate|].
    destruct ((c =? 43) || (c =? 45)) eqn:Es.
    + destruct r as [|c' r]; [discriminate|]. destruct (N.eqb_spec c 43) as [->|Hn].
      * intros H. apply accumulate_ok in H; [|lia]. exists (c' :: r). destruct H as [? [? ?]].
        repeat split; auto. discriminate.
      * intros H. apply accumulate_ok in H; [|lia]. destruct H as [H _].
        unfold all_digits in H. cbn [forallb] in H. cls. lia.
    + intros H. apply accumulate_ok in H; [|lia]. exists (c :: r). destruct H as [? [? ?]].
      repeat split; auto. discriminate.
  - intros [ds [H1 [H2 [H3 [H4 H5]]]]]. destruct ds as [|d ds]; [congruence|].
    assert (Ha : accumulate 10 max IntPosOverflow (d :: ds) 0 = Ok n).
    { apply accumulate_ok; [lia|]. auto. }
    destruct H1 as [->| ->].
    + unfold all_digits in H3. cbn [forallb] in H3. apply andb_true_iff in H3 as [H3 _].
      rewrite is_digit_not_sign by exact H3. exact Ha.
    + change ((43 =? 43) || (43 =? 45)) with true. cbn iota. change (43 =? 43) with true. cbn iota. exact Ha.
Qed.

Lemma parse_uint_digits : forall max s, s <> [] -> all_digits s = true -> dec_value s <= max ->
  parse_uint max s = Ok (dec_value s).
Proof. intros max s H1 H2 H3. apply parse_uint_ok. exists s. auto. Qed.

Lemma parse_uint_bound : forall max s n, parse_uint max s = Ok n -> n <= max.
Proof. intros max s n H. apply parse_uint_ok in H as [ds H]. tauto. Qed.

(** ** Printing *)

Lemma digit_char_digit : forall d, d < 10 -> is_digit (digit_char d) = true /\ digit_char d - 48 = d.
Proof. intros d H. unfold digit_char. destruct (N.ltb_spec d 10); [|lia]. cls. lia. Qed.

Lemma show_N_digits : forall n, all_digits (show_N n) = true.
Proof.
  intros n. unfold all_digits, show_N. rewrite forallb_forall.
  assert (H : Forall (fun d => d < 10) (digits 10 n)) by (apply digits_range; lia).
  rewrite Forall_forall in H. intros c Hc. apply in_map_iff in Hc as [d [<- Hd]].
  apply H in Hd. apply digit_char_digit. exact Hd.
Qed.

Lemma show_N_nonempty : forall n, show_N n <> [].
Proof.
  intros n H. unfold show_N in H. apply map_eq_nil in H. revert H. apply digits_nonempty.
Qed.

Lemma show_N_value : forall n, dec_value (show_N n) = n.
Proof.
  intros n. unfold dec_value, show_N. rewrite map_map.
  rewrite map_ext_in with (g := fun x => x).
  - rewrite map_id. apply digits_value. lia.
  - intros d Hd. assert (H : Forall (fun d => d < 10) (digits 10 n)) by (apply digits_range; lia).
    rewrite Forall_forall in H. apply H in Hd. apply digit_char_digit. exact Hd.
Qed.

Lemma show_N_inj : forall a b, show_N a = show_N b -> a = b.
Proof. intros a b H. rewrite <- (show_N_value a), <- (show_N_value b), H. reflexivity. Qed.

Lemma parse_show : forall max n, n <= max -> parse_uint max (show_N n) = Ok n.
Proof.
  intros max n H. rewrite parse_uint_digits; rewrite ?show_N_value; auto using show_N_nonempty, show_N_digits.
Qed.

Lemma parse_u64_show : forall n, n <= U64_MAX -> parse_u64 (show_N n) = Ok n.
Proof. intros. apply parse_show. assumption. Qed.
Lemma parse_u32_show : forall n, n <= U32_MAX -> parse_u32 (show_N n) = Ok n.
Proof. intros. apply parse_show. assumption. Qed.
Lemma parse_u16_show : forall n, n <= U16_MAX -> parse_u16 (show_N n) = Ok n.
Proof. intros. apply parse_show. assumption. Qed.

(** A printed number consists of digits, so it contains no other character. *)
Lemma show_N_not_In : forall n c, is_digit c = false -> ~ In c (show_N n).
Proof. intros n c H. eapply forallb_not_In; [apply show_N_digits|exact H]. Qed.

Lemma show_N_cons : forall n, exists c r, show_N n = c :: r /\ is_digit c = true /\ all_digits r = true.
Proof.
  intros n. pose proof (show_N_nonempty n) as H1. pose proof (show_N_digits n) as H2.
  destruct (show_N n) as [|c r]; [congruence|]. unfold all_digits in *. cbn [forallb] in H2.
  apply andb_true_iff in H2 as [H2 H3]. eauto 6.
Qed.

(** Canonical decimal: no leading zero except for zero itself. *)
Lemma show_N_no_leading_zero : forall n r, show_N n = 48 :: r -> n = 0 /\ r = [].
Proof.
  intros n r H. destruct (N.eq_dec n 0) as [->|Hn].
  - unfold show_N in H. rewrite digits_0 in H by lia. cbn in H. inv H. auto.
  - destruct (digits_head 10 n) as [d [r' [E Hd]]]; [lia|exact Hn|]. unfold show_N in H. rewrite E in H.
    cbn [map] in H. inv H. exfalso.
    assert (Hf : Forall (fun d => d < 10) (digits 10 n)) by (apply digits_range; lia).
    rewrite E in Hf. inv Hf. destruct (digit_char_digit d); [assumption|].
    rewrite H1 in *. lia.
Qed.

Lemma show_N_0 : show_N 0 = [48].
Proof. unfold show_N. rewrite digits_0 by lia. reflexivity. Qed.

Lemma parse_uint_plus : forall max s, s <> [] -> all_digits s = true ->
  parse_uint max (43 :: s) = parse_uint max s.
Proof.
  intros max s H1 H2. unfold parse_uint, parse_uint_radix. destruct s as [|c r]; [congruence|].
  change ((43 =? 43) || (43 =? 45)) with true. cbn iota. change (43 =? 43) with true. cbn iota.
  unfold all_digits in H2. cbn [forallb] in H2. apply andb_true_iff in H2 as [H2 _].
  rewrite is_digit_not_sign by exact H2. reflexivity.
Qed.

Lemma parse_uint_digits_iff : forall max s, s <> [] -> all_digits s = true ->
  parse_uint max s = if dec_value s <=? max then Ok (dec_value s) else Err IntPosOverflow.
Proof.
  intros max s H1 H2. destruct (N.leb_spec (dec_value s) max).
  - apply parse_uint_digits; assumption.
  - unfold parse_uint, parse_uint_radix. destruct s as [|c r]; [congruence|].
    assert (Hc : is_digit c = true).
    { unfold all_digits in H2. cbn [forallb] in H2. apply andb_true_iff in H2 as [H2 _]. exact H2. }
    rewrite is_digit_not_sign by exact Hc.
    unfold dec_value in H. revert H H2. generalize (c :: r). clear.
    assert (G : forall s acc, acc <= max -> max < value 10 (map (fun c => c - 48) s) acc ->
              all_digits s = true -> accumulate 10 max IntPosOverflow s acc = Err IntPosOverflow).
    { induction s as [|c s IH]; intros acc Ha Hv Hd; cbn [map value accumulate] in *; [lia|].
      unfold all_digits in *. cbn [forallb] in Hd. apply andb_true_iff in Hd as [Hd1 Hd2].
      assert (E : to_digit 10 c = Some (c - 48)) by (apply to_digit_10; auto). rewrite E.
      destruct (N.leb_spec (acc * 10 + (c - 48)) max); [|reflexivity]. apply IH; assumption. }
    intros l H H2. apply G; auto. lia.
Qed.

(** ** Signed integers *)

Lemma parse_i64_show : forall z, (- Z.of_N I64_MIN_ABS <= z <= Z.of_N I64_MAX)%Z -> parse_i64 (show_Z z) = Ok z.
Proof.
  intros z H. destruct z as [|p|p]; cbn [show_Z].
  - change (Z.to_N 0) with 0. rewrite show_N_0. reflexivity.
  - cbn [Z.to_N]. destruct (show_N_cons (N.pos p)) as [c [r [E [Hc Hr]]]].
    assert (Ha : accumulate 10 I64_MAX IntPosOverflow (show_N (N.pos p)) 0 = Ok (N.pos p)).
    { apply accumulate_ok; [lia|]. split; [apply show_N_digits|]. split; [|lia].
      symmetry. apply show_N_value. }
    unfold parse_i64. rewrite E in *. rewrite is_digit_not_sign by exact Hc. rewrite Ha. reflexivity.
  - destruct (show_N_cons (N.pos p)) as [c [r [E [Hc Hr]]]].
    assert (Ha : accumulate 10 I64_MIN_ABS IntNegOverflow (show_N (N.pos p)) 0 = Ok (N.pos p)).
    { apply accumulate_ok; [lia|]. split; [apply show_N_digits|]. split; [|lia].
      symmetry. apply show_N_value. }
    unfold parse_i64. rewrite E in *.
    change ((45 =? 43) || (45 =? 45)) with true. cbn iota. change (45 =? 43) with false. cbn iota.
    rewrite Ha. reflexivity.
Qed.
