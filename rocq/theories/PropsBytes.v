(** Theorems about byte values, limits and ulimits (C15 to C17, part of C44). *)

From Coq Require Import String Ascii List NArith ZArith Bool Lia.
Import ListNotations.
From Verif Require Import Base Num NumFacts Serde BytesModel BytesProofs.
Open Scope N_scope.

(** C15. Printing and parsing any byte value is the identity, as text and through serde. *)
Theorem byte_value_text_round_trip : forall v, bv_num v <= 18446744073709551615 ->
  byte_value_parse (byte_value_show v) = Ok v /\ byte_value_deserialize (byte_value_serialize v) = Ok v.
Proof.
  intros v H. split; [apply byte_value_round_trip; exact H|].
  unfold byte_value_serialize, byte_value_deserialize. rewrite byte_value_round_trip by exact H. reflexivity.
Qed.
Print Assumptions byte_value_text_round_trip.

Example byte_value_case : bv_num (Megabytes 512) <= 18446744073709551615 /\ byte_value_show (Megabytes 512) = $"512mb".
Proof. split; [cbn; lia|vm_compute; reflexivity]. Qed.

(** C15. The number of bytes is exact, or reported as overflow. *)
Theorem byte_value_into_bytes_exact : forall v n, bv_num v <= 18446744073709551615 ->
  (into_bytes v = Some n <-> n = byte_count v /\ n <= 18446744073709551615) /\
  (into_bytes v = None <-> 18446744073709551615 < byte_count v).
Proof.
  intros v n H. rewrite into_bytes_spec by exact H. unfold U64_MAX.
  destruct (N.leb_spec (byte_count v) 18446744073709551615) as [L|L]; split; split; intros E; try discriminate; try lia.
  - injection E as <-. auto.
  - destruct E as [-> _]. reflexivity.
  - reflexivity.
Qed.
Print Assumptions byte_value_into_bytes_exact.

Example byte_value_into_bytes_case :
  into_bytes (Gigabytes 3) = Some 3000000000 /\ into_bytes (Gigabytes 18446744074) = None.
Proof. vm_compute. auto. Qed.

(** C16. A text is accepted exactly if it is a [u64] literal followed by a known suffix, and the suffix decides
    the unit. *)
Theorem byte_value_language : forall s v, byte_value_parse s = Ok v <->
  exists u f m d n, In (u, f, m) unit_table /\ s = d ++ u /\ parse_u64 d = Ok n /\ v = f n.
Proof. exact byte_value_parse_ok. Qed.
Print Assumptions byte_value_language.

(** C16. The multiplier column of the table is the number of bytes of the unit. *)
Theorem byte_value_table_units : forall u f m n, In (u, f, m) unit_table -> byte_count (f n) = n * m.
Proof.
  intros u f m n H. unfold unit_table in H. cbn [In] in H.
  repeat match type of H with _ \/ _ => destruct H as [H|H] end; try contradiction; injection H as <- <- <-;
    unfold byte_count; lia.
Qed.
Print Assumptions byte_value_table_units.

(** C16. The units of equal texts are equal: a text has one meaning. *)
Theorem byte_value_text_injective : forall v w, byte_value_show v = byte_value_show w ->
  bv_num v <= 18446744073709551615 -> bv_num w <= 18446744073709551615 -> v = w.
Proof.
  intros v w E Hv Hw. pose proof (byte_value_round_trip v Hv) as A. pose proof (byte_value_round_trip w Hw) as B.
  congruence.
Qed.
Print Assumptions byte_value_text_injective.

(** C17. [Limit<u32>], [Limit<u64>] ([max] is the largest value): text and serde round trips. *)
Theorem limit_integer_round_trip : forall max l, (forall n, l = LimitValue n -> n <= max) ->
  limit_parse (parse_uint max) (limit_show show_N l) = Ok l /\
  limit_deserialize (uint_deserialize max) (limit_serialize uint_serialize l) = Ok l.
Proof.
  intros max l H. split.
  - apply limit_round_trip. intros v E. split; [apply parse_show; auto|].
    rewrite <- (app_nil_r (show_N v)). apply show_not_minus_one.
  - apply limit_serde_round_trip. intros v E. split.
    + apply int_to_uint_of_N. auto.
    + left. exists v. reflexivity.
Qed.
Print Assumptions limit_integer_round_trip.

(** C17. [Limit<ByteValue>]. *)
Theorem limit_byte_value_round_trip : forall l, (forall v, l = LimitValue v -> bv_num v <= 18446744073709551615) ->
  limit_parse byte_value_parse (limit_show byte_value_show l) = Ok l /\
  limit_deserialize byte_value_deserialize (limit_serialize byte_value_serialize l) = Ok l.
Proof.
  intros l H. assert (S : forall v, byte_value_show v <> $"-1").
  { intros v. unfold byte_value_show. destruct v; apply show_not_minus_one. }
  split.
  - apply limit_round_trip. intros v E. split; [apply byte_value_round_trip; auto|apply S].
  - apply limit_serde_round_trip. intros v E. split; [apply byte_value_text_round_trip; auto|].
    right. eexists. split; [reflexivity|apply S].
Qed.
Print Assumptions limit_byte_value_round_trip.

Example limit_case : limit_show byte_value_show (LimitValue (Gigabytes 2)) = $"2gb" /\
  limit_parse byte_value_parse $"-1" = Ok Unlimited.
Proof. vm_compute. auto. Qed.

(** C17. What a limit deserializes from: integers. [-1] is the only way to write unlimited as an integer. *)
Theorem limit_integer_meaning : forall max z l,
  limit_deserialize (uint_deserialize max) (VInt z) = Ok l <->
  (z = (-1)%Z /\ l = Unlimited) \/ (exists n, z = Z.of_N n /\ n <= max /\ l = LimitValue n).
Proof.
  intros max z l. unfold limit_deserialize, uint_deserialize.
  destruct (Z.leb_spec z (-2)).
  { split; [discriminate|]. intros [[-> _]|[n [-> _]]]; lia. }
  destruct (Z.eqb_spec z (-1)) as [->|Hz].
  { split; [intros E; injection E as <-; auto|]. intros [[_ ->]|[n [E _]]]; [reflexivity|lia]. }
  split.
  - destruct (int_to_uint max z) as [n|] eqn:E; [|discriminate]. intros E'. injection E' as <-.
    apply int_to_uint_ok in E as [-> Hn]. right. eauto.
  - intros [[-> _]|[n [-> [Hn ->]]]]; [lia|]. rewrite int_to_uint_of_N by exact Hn. reflexivity.
Qed.
Print Assumptions limit_integer_meaning.

(** C17. Strings: a string deserializes as the text parser says, except that integer limits only accept "-1". *)
Theorem limit_string_meaning : forall max s (n : limit N) (l : limit byte_value),
  (limit_deserialize (uint_deserialize max) (VStr s) = Ok n <-> s = $"-1" /\ n = Unlimited) /\
  (limit_deserialize byte_value_deserialize (VStr s) = Ok l <-> limit_parse byte_value_parse s = Ok l).
Proof.
  intros max s n l. unfold limit_deserialize, limit_parse, uint_deserialize, byte_value_deserialize.
  destruct (BaseFacts.str_eqb_spec s $"-1") as [->|H]; split.
  - split; [intros E; injection E as <-; auto|intros [_ ->]; reflexivity].
  - split; intros E; injection E as <-; reflexivity.
  - split; [discriminate|]. intros [E _]. contradiction.
  - destruct (byte_value_parse s); cbn; [|split; discriminate]. split; intros E; injection E as <-; reflexivity.
Qed.
Print Assumptions limit_string_meaning.

(** C44, ulimits. A ulimit has a short form exactly when both limits agree and it has no extensions, and then
    the short form expands to it. *)
Theorem ulimit_short_exact : forall u l, ulimit_as_short u = Some l <-> u = ulimit_of_short l.
Proof.
  intros [s h x] l. unfold ulimit_as_short, ulimit_of_short. cbn [ul_soft ul_hard ul_extensions].
  destruct x as [|e x]; [|split; discriminate]. split.
  - destruct (limit_eqb s h) eqn:E; [|discriminate]. apply limit_eqb_eq in E. intros H. congruence.
  - intros H. injection H as -> ->. rewrite (proj2 (limit_eqb_eq l l) eq_refl). reflexivity.
Qed.
Print Assumptions ulimit_short_exact.

Example ulimit_short_case : ulimit_as_short (mk_ulimit (LimitValue 5) (LimitValue 6) []) = None /\
  ulimit_as_short (mk_ulimit Unlimited Unlimited []) = Some Unlimited.
Proof. vm_compute. auto. Qed.
