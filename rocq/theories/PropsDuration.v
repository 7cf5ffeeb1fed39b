(** Theorems about duration texts (C01, C02, C03). *)

From Coq Require Import String Ascii List NArith ZArith Bool Lia.
Import ListNotations.
From Verif Require Import Base Num DurationModel DurationSpec DurationProofs.
Open Scope N_scope.

(** C01. Printing a duration and parsing the text gives the duration without its sub-microsecond part. *)
Theorem duration_round_trip : forall d,
  secs d < 2 ^ 64 -> nanos d < 10 ^ 9 ->
  parse (to_string d) = OOk (mk_duration (secs d) (nanos d / 1000 * 1000)).
Proof.
  intros d H1 H2. apply (round_trip d). unfold duration_wf, U64_MAX, NANOS_PER_SEC.
  change (2 ^ 64) with 18446744073709551616 in H1. change (10 ^ 9) with 1000000000 in H2. lia.
Qed.
Print Assumptions duration_round_trip.

Example duration_round_trip_case :
  let d := mk_duration 18446744073709551615 999999999 in
  secs d < 2 ^ 64 /\ nanos d < 10 ^ 9 /\ to_string d = $"5124095576030431h15s999ms999us".
Proof. vm_compute. auto. Qed.

(** Corollary: whole-microsecond durations come back unchanged. *)
Theorem duration_round_trip_exact : forall s us,
  s < 2 ^ 64 -> us < 10 ^ 6 ->
  parse (to_string (mk_duration s (us * 1000))) = OOk (mk_duration s (us * 1000)).
Proof.
  intros s us H1 H2. rewrite duration_round_trip; cbn [secs nanos].
  - rewrite N.div_mul by lia. reflexivity.
  - exact H1.
  - change (10 ^ 6) with 1000000 in H2. change (10 ^ 9) with 1000000000. lia.
Qed.
Print Assumptions duration_round_trip_exact.

(** C02. A text is accepted exactly when it is a non-empty sequence of number-unit terms whose numbers
    fit in 64 bits and whose sum is a representable duration; the result is that sum. *)
Theorem duration_parse_meaning : forall s d,
  parse s = OOk d <->
  exists ts, ts <> [] /\ Forall term_ok ts /\ s = terms_text ts /\
             (secs d <= U64_MAX /\ nanos d < NANOS_PER_SEC) /\ in_nanos d = terms_nanos ts.
Proof. exact parse_ok_iff. Qed.
Print Assumptions duration_parse_meaning.

Example duration_parse_meaning_case :
  parse $"1h5m30s20ms" = OOk (mk_duration 3930 20000000) /\
  terms_text [($"1", Hours); ($"5", Minutes); ($"30", Seconds); ($"20", Millis)] = $"1h5m30s20ms".
Proof. vm_compute. auto. Qed.

(** C02. An error is given exactly for the texts where it is the first thing wrong and all before it is right. *)
Theorem duration_parse_errors : forall s e, parse s = OErr e <->
  exists ts rest, s = terms_text ts ++ rest /\ Forall term_ok ts /\ terms_nanos ts <= max_nanos /\ error_at ts rest e.
Proof. exact parse_errors_iff. Qed.
Print Assumptions duration_parse_errors.

Example duration_parse_errors_case :
  parse $"1h20" = OErr (DurMissingUnit $"20") /\ parse $"x1h" = OErr (DurNoDigits $"x1h") /\ parse $"1h2d3s" = OErr (DurInvalidUnit $"d") /\
  parse $"5124095576030431h16s" = OErr DurOverflow.
Proof. vm_compute. auto. Qed.

(** C02. Accepted texts normalize: the printed form of the result means the same. *)
Theorem duration_parse_normalizes : forall s d, parse s = OOk d -> parse (to_string d) = OOk d.
Proof. exact parse_normalizes. Qed.
Print Assumptions duration_parse_normalizes.

Example duration_parse_normalizes_case :
  exists d, parse $"90m61s007us" = OOk d /\ to_string d = $"1h31m1s7us".
Proof. eexists. vm_compute. auto. Qed.

(** C03 is false: a run of digits above [u64::MAX] panics instead of giving the documented error. *)
Theorem duration_parse_total_refuted : exists s, parse s = OPanic.
Proof. exists $"18446744073709551616s". vm_compute. reflexivity. Qed.
Print Assumptions duration_parse_total_refuted.

(** C03. Exactly which texts panic: well-formed terms, then a too large number followed by anything
    which is not a digit. *)
Theorem duration_parse_panics_exactly : forall s,
  parse s = OPanic <->
  exists ts ds c r, Forall term_ok ts /\ terms_nanos ts <= max_nanos /\
     s = terms_text ts ++ ds ++ c :: r /\ ds <> [] /\ Forall (fun x => 48 <= x <= 57) ds /\
     ~ (48 <= c <= 57) /\ 2 ^ 64 <= number ds.
Proof. exact parse_panic_iff. Qed.
Print Assumptions duration_parse_panics_exactly.

Example duration_parse_panics_case : parse $"1h99999999999999999999?" = OPanic.
Proof. vm_compute. reflexivity. Qed.
