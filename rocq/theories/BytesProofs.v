(** Lemmas about byte values and limits. *)

From Coq Require Import String Ascii List NArith ZArith Bool Lia ZifyBool ZifyN ZifyNat.
Import ListNotations.
From Verif Require Import Base BaseFacts Num NumFacts Serde BytesModel.
Open Scope N_scope.

(** ** The unit table, as documentation states it *)

(** Multiplier of each suffix accepted in a text. *)
Definition unit_table : list (str * (N -> byte_value) * N) :=
  [($"", Bytes, 1); ($"b", Bytes, 1); ($"B", Bytes, 1);
   ($"k", Kilobytes, 1000); ($"K", Kilobytes, 1000); ($"kb", Kilobytes, 1000);
   ($"m", Megabytes, 1000000); ($"M", Megabytes, 1000000); ($"mb", Megabytes, 1000000);
   ($"g", Gigabytes, 1000000000); ($"G", Gigabytes, 1000000000); ($"gb", Gigabytes, 1000000000)].

Definition byte_count (v : byte_value) : N :=
  match v with Bytes n => n | Kilobytes n => n * 1000 | Megabytes n => n * 1000000 | Gigabytes n => n * 1000000000 end.

Definition bv_num (v : byte_value) : N := match v with Bytes n | Kilobytes n | Megabytes n | Gigabytes n => n end.

(** The last character of a successfully parsed number is a digit. *)
Lemma parse_u64_last : forall s n, Num.parse_u64 s = Ok n -> exists r c, s = r ++ [c] /\ is_digit c = true.
Proof.
  intros s n H. apply parse_uint_ok in H as [ds [Hs [Hn [Hd _]]]].
  destruct (exists_last Hn) as [r [c E]]. subst ds.
  apply forallb_app_iff in Hd as [_ Hd]. cbn [forallb] in Hd. rewrite andb_true_r in Hd.
  destruct Hs as [->| ->]; [exists r, c; auto|exists (43 :: r), c; auto].
Qed.

Lemma parse_u64_suffix : forall r c, is_digit c = false -> exists e, Num.parse_u64 (r ++ [c]) = Err e.
Proof.
  intros r c Hc. destruct (Num.parse_u64 (r ++ [c])) as [n|e] eqn:E; [|eauto].
  apply parse_u64_last in E as [r' [c' [E Hd]]]. apply app_inj_tail in E as [_ ->]. congruence.
Qed.

Lemma strip_suffix1_snoc : forall a r c, strip_suffix [a] (r ++ [c]) = if a =? c then Some r else None.
Proof.
  intros a r c. destruct (N.eqb_spec a c) as [->|H].
  - apply strip_suffix_some. reflexivity.
  - apply strip_suffix_none. intros r' E. apply app_inj_tail in E as [_ ->]. congruence.
Qed.

Lemma strip_suffix2_snoc : forall a b r c, strip_suffix2 a b (r ++ [c]) = if (a =? c) || (b =? c) then Some r else None.
Proof.
  intros a b r c. unfold strip_suffix2. rewrite !strip_suffix1_snoc. destruct (a =? c), (b =? c); reflexivity.
Qed.

(** A two character suffix, seen from the end. *)
Lemma strip_suffix_pair : forall a b r c d, strip_suffix [a; b] (r ++ [c] ++ [d]) =
  if (a =? c) && (b =? d) then Some r else None.
Proof.
  intros a b r c d.
  assert (U : forall r', r ++ [c] ++ [d] = r' ++ [a; b] -> a = c /\ b = d).
  { intros r' E. change (r' ++ [a; b]) with (r' ++ [a] ++ [b]) in E. rewrite !app_assoc in E.
    apply app_inj_tail in E as [E E2]. apply app_inj_tail in E as [_ E]. auto. }
  destruct (N.eqb_spec a c) as [E1|H]; cbn [andb].
  - destruct (N.eqb_spec b d) as [E2|H].
    + apply strip_suffix_some. subst. reflexivity.
    + apply strip_suffix_none. intros r' E. apply U in E as [_ E]. congruence.
  - apply strip_suffix_none. intros r' E. apply U in E as [E _]. congruence.
Qed.

Lemma strip_suffix_pair1 : forall a b c, strip_suffix [a; b] [c] = None.
Proof.
  intros. apply strip_suffix_none. intros r E. apply (f_equal (@List.length N)) in E.
  rewrite app_length in E. cbn [List.length] in E. lia.
Qed.

(** Exact language of the parser. *)
Lemma byte_value_parse_ok : forall s v, byte_value_parse s = Ok v <->
  exists u f m d n, In (u, f, m) unit_table /\ s = d ++ u /\ Num.parse_u64 d = Ok n /\ v = f n.
Proof.
  intros s v. destruct (list_eq_dec N.eq_dec s []) as [->|Hs].
  { split; [discriminate|]. intros [u [f [m [d [n [_ [E [Hp _]]]]]]]]. symmetry in E. apply app_eq_nil in E as [-> _].
    discriminate Hp. }
  destruct (exists_last Hs) as [r [c E]]. subst s. clear Hs.
  unfold byte_value_parse. replace (match r ++ [c] with [] => _ | _ => _ end) with
    (match Num.parse_u64 (r ++ [c]) with
    | Ok n => Ok (Bytes n)
    | Err _ =>
      match or_else (strip_suffix $"gb" (r ++ [c])) (strip_suffix2 (ch "g") (ch "G") (r ++ [c])) with
      | Some r => parse_u64_as Gigabytes r
      | None =>
        match or_else (strip_suffix $"mb" (r ++ [c])) (strip_suffix2 (ch "m") (ch "M") (r ++ [c])) with
        | Some r => parse_u64_as Megabytes r
        | None =>
          match or_else (strip_suffix $"kb" (r ++ [c])) (strip_suffix2 (ch "k") (ch "K") (r ++ [c])) with
          | Some r => parse_u64_as Kilobytes r
          | None =>
            match strip_suffix2 (ch "b") (ch "B") (r ++ [c]) with
            | Some r => parse_u64_as Bytes r
            | None => Err (BvUnknownUnit (r ++ [c]))
            end
          end
        end
      end
    end) by (destruct r; reflexivity).
  assert (D : is_digit c = true -> forall u f m d, In (u, f, m) unit_table -> r ++ [c] = d ++ u -> u = [] /\ f = Bytes /\ d = r ++ [c]).
  { intros Hc u f m d Hi E. unfold unit_table in Hi. cbn [In] in Hi.
    repeat match type of Hi with _ \/ _ => destruct Hi as [Hi|Hi] end; try contradiction; injection Hi as <- <- <-.
    - rewrite app_nil_r in E. auto.
    - apply app_inj_tail in E as [_ ->]. discriminate.
    - apply app_inj_tail in E as [_ ->]. discriminate.
    - apply app_inj_tail in E as [_ ->]. discriminate.
    - apply app_inj_tail in E as [_ ->]. discriminate.
    - change (d ++ $"kb") with (d ++ [107] ++ [98]) in E. rewrite app_assoc in E. apply app_inj_tail in E as [_ ->]. discriminate.
    - apply app_inj_tail in E as [_ ->]. discriminate.
    - apply app_inj_tail in E as [_ ->]. discriminate.
    - change (d ++ $"mb") with (d ++ [109] ++ [98]) in E. rewrite app_assoc in E. apply app_inj_tail in E as [_ ->]. discriminate.
    - apply app_inj_tail in E as [_ ->]. discriminate.
    - apply app_inj_tail in E as [_ ->]. discriminate.
    - change (d ++ $"gb") with (d ++ [103] ++ [98]) in E. rewrite app_assoc in E. apply app_inj_tail in E as [_ ->]. discriminate. }
  split.
  - assert (I : forall u f m d, In (u, f, m) unit_table -> r ++ [c] = d ++ u -> parse_u64_as f d = Ok v ->
                exists u f m d n, In (u, f, m) unit_table /\ r ++ [c] = d ++ u /\ Num.parse_u64 d = Ok n /\ v = f n).
    { intros u f m d Hi E H. unfold parse_u64_as in H. destruct (Num.parse_u64 d) as [n|] eqn:Ed; [|discriminate].
      injection H as <-. exists u, f, m, d, n. auto. }
    destruct (Num.parse_u64 (r ++ [c])) as [n|e] eqn:Ep.
    { intros H. injection H as <-. exists [], Bytes, 1, (r ++ [c]), n. rewrite app_nil_r. repeat split; auto. left. reflexivity. }
    clear Ep e. unfold or_else.
    assert (S2 : forall a b t, strip_suffix2 a b (r ++ [c]) = Some t -> (c = a \/ c = b) /\ t = r).
    { intros a b t. rewrite strip_suffix2_snoc. destruct (N.eqb_spec a c), (N.eqb_spec b c); cbn [orb]; intros H; try discriminate;
        injection H as <-; split; auto. }
    destruct (strip_suffix $"gb" (r ++ [c])) as [t|] eqn:E1.
    { apply strip_suffix_some in E1. intros H. eapply I; [|exact E1|exact H]. cbn; tauto. }
    destruct (strip_suffix2 (ch "g") (ch "G") (r ++ [c])) as [t|] eqn:E2.
    { apply S2 in E2 as [[-> | ->] ->]; intros H; (eapply I; [|reflexivity|exact H]); cbn; tauto. }
    destruct (strip_suffix $"mb" (r ++ [c])) as [t|] eqn:E3.
    { apply strip_suffix_some in E3. intros H. eapply I; [|exact E3|exact H]. cbn; tauto. }
    destruct (strip_suffix2 (ch "m") (ch "M") (r ++ [c])) as [t|] eqn:E4.
    { apply S2 in E4 as [[-> | ->] ->]; intros H; (eapply I; [|reflexivity|exact H]); cbn; tauto. }
    destruct (strip_suffix $"kb" (r ++ [c])) as [t|] eqn:E5.
    { apply strip_suffix_some in E5. intros H. eapply I; [|exact E5|exact H]. cbn; tauto. }
    destruct (strip_suffix2 (ch "k") (ch "K") (r ++ [c])) as [t|] eqn:E6.
    { apply S2 in E6 as [[-> | ->] ->]; intros H; (eapply I; [|reflexivity|exact H]); cbn; tauto. }
    destruct (strip_suffix2 (ch "b") (ch "B") (r ++ [c])) as [t|] eqn:E7.
    { apply S2 in E7 as [[-> | ->] ->]; intros H; (eapply I; [|reflexivity|exact H]); cbn; tauto. }
    discriminate.
  - intros [u [f [m [d [n [Hi [E [Hp ->]]]]]]]].
    destruct (is_digit c) eqn:Hc.
    { destruct (D eq_refl _ _ _ _ Hi E) as [-> [-> ->]]. rewrite Hp. reflexivity. }
    destruct (parse_u64_suffix r c Hc) as [e ->].
    assert (P : forall g, parse_u64_as g d = Ok (g n)) by (intros g; unfold parse_u64_as; rewrite Hp; reflexivity).
    assert (L : exists d' x, d = d' ++ [x] /\ is_digit x = true) by (eapply parse_u64_last; exact Hp).
    destruct L as [d' [x [Ed Hx]]].
    assert (X : forall k, is_digit k = false -> k =? x = false) by (intros k Hk; apply N.eqb_neq; intros ->; congruence).
    assert (Q : forall a b y, is_digit a = false -> strip_suffix [a; b] (d ++ [y]) = None).
    { intros a b y Ha. rewrite Ed, <- app_assoc, strip_suffix_pair, X by exact Ha. reflexivity. }
    unfold unit_table in Hi. cbn [In] in Hi.
    repeat match type of Hi with _ \/ _ => destruct Hi as [Hi|Hi] end; try contradiction; injection Hi as <- <- <-;
      try (change $"kb" with ([107] ++ [98]) in E);
      try (change $"mb" with ([109] ++ [98]) in E);
      try (change $"gb" with ([103] ++ [98]) in E).
    + rewrite app_nil_r in E. rewrite Ed in E. apply app_inj_tail in E as [_ ->]. congruence.
    + apply app_inj_tail in E as [-> ->]. rewrite !strip_suffix2_snoc.
      change $"gb" with [103; 98]; change $"mb" with [109; 98]; change $"kb" with [107; 98].
      rewrite !Q by reflexivity. cbn. apply P.
    + apply app_inj_tail in E as [-> ->]. rewrite !strip_suffix2_snoc.
      change $"gb" with [103; 98]; change $"mb" with [109; 98]; change $"kb" with [107; 98].
      rewrite !Q by reflexivity. cbn. apply P.
    + apply app_inj_tail in E as [-> ->]. rewrite !strip_suffix2_snoc.
      change $"gb" with [103; 98]; change $"mb" with [109; 98]; change $"kb" with [107; 98].
      rewrite !Q by reflexivity. cbn. apply P.
    + apply app_inj_tail in E as [-> ->]. rewrite !strip_suffix2_snoc.
      change $"gb" with [103; 98]; change $"mb" with [109; 98]; change $"kb" with [107; 98].
      rewrite !Q by reflexivity. cbn. apply P.
    + rewrite app_assoc in E. apply app_inj_tail in E as [-> ->]. rewrite !strip_suffix2_snoc. rewrite <- !app_assoc.
      change $"gb" with [103; 98]; change $"mb" with [109; 98]; change $"kb" with [107; 98].
      rewrite !strip_suffix_pair. cbn. apply P.
    + apply app_inj_tail in E as [-> ->]. rewrite !strip_suffix2_snoc.
      change $"gb" with [103; 98]; change $"mb" with [109; 98]; change $"kb" with [107; 98].
      rewrite !Q by reflexivity. cbn. apply P.
    + apply app_inj_tail in E as [-> ->]. rewrite !strip_suffix2_snoc.
      change $"gb" with [103; 98]; change $"mb" with [109; 98]; change $"kb" with [107; 98].
      rewrite !Q by reflexivity. cbn. apply P.
    + rewrite app_assoc in E. apply app_inj_tail in E as [-> ->]. rewrite !strip_suffix2_snoc. rewrite <- !app_assoc.
      change $"gb" with [103; 98]; change $"mb" with [109; 98]; change $"kb" with [107; 98].
      rewrite !strip_suffix_pair. cbn. apply P.
    + apply app_inj_tail in E as [-> ->]. rewrite !strip_suffix2_snoc.
      change $"gb" with [103; 98]; change $"mb" with [109; 98]; change $"kb" with [107; 98].
      rewrite !Q by reflexivity. cbn. apply P.
    + apply app_inj_tail in E as [-> ->]. rewrite !strip_suffix2_snoc.
      change $"gb" with [103; 98]; change $"mb" with [109; 98]; change $"kb" with [107; 98].
      rewrite !Q by reflexivity. cbn. apply P.
    + rewrite app_assoc in E. apply app_inj_tail in E as [-> ->]. rewrite !strip_suffix2_snoc. rewrite <- !app_assoc.
      change $"gb" with [103; 98]; change $"mb" with [109; 98]; change $"kb" with [107; 98].
      rewrite !strip_suffix_pair. cbn. apply P.
Qed.

Lemma byte_value_round_trip : forall v, bv_num v <= U64_MAX -> byte_value_parse (byte_value_show v) = Ok v.
Proof.
  intros v H. apply byte_value_parse_ok.
  destruct v as [n|n|n|n]; cbn [bv_num] in H; unfold byte_value_show, unit_str.
  - exists $"b", Bytes, 1, (show_N n), n. repeat split; auto using parse_u64_show. cbn; tauto.
  - exists $"kb", Kilobytes, 1000, (show_N n), n. repeat split; auto using parse_u64_show. cbn; tauto.
  - exists $"mb", Megabytes, 1000000, (show_N n), n. repeat split; auto using parse_u64_show. cbn; tauto.
  - exists $"gb", Gigabytes, 1000000000, (show_N n), n. repeat split; auto using parse_u64_show. cbn; tauto.
Qed.

Lemma into_bytes_spec : forall v, bv_num v <= U64_MAX ->
  into_bytes v = if byte_count v <=? U64_MAX then Some (byte_count v) else None.
Proof.
  intros [n|n|n|n] H; unfold into_bytes, checked_mul, byte_count; try reflexivity.
  cbn [bv_num] in H. rewrite (proj2 (N.leb_le _ _) H). reflexivity.
Qed.

(** Everything parsed is in range. *)
Lemma byte_value_parse_bound : forall s v, byte_value_parse s = Ok v -> bv_num v <= U64_MAX.
Proof.
  intros s v H. apply byte_value_parse_ok in H as [u [f [m [d [n [Hi [_ [Hp ->]]]]]]]]. apply parse_uint_bound in Hp.
  unfold unit_table in Hi. cbn [In] in Hi.
  repeat match type of Hi with _ \/ _ => destruct Hi as [Hi|Hi] end; try contradiction; injection Hi as <- <- <-; exact Hp.
Qed.

(** ** Limits *)

(** No number or byte value prints as "-1". *)
Lemma show_not_minus_one : forall n u, show_N n ++ u <> $"-1".
Proof.
  intros n u E. destruct (show_N_cons n) as [c [r [H [Hc _]]]]. rewrite H in E. injection E as -> _. discriminate.
Qed.

Lemma limit_round_trip : forall {E T} (show : T -> str) (parse : str -> result E T) l,
  (forall v, l = LimitValue v -> parse (show v) = Ok v /\ show v <> $"-1") ->
  limit_parse parse (limit_show show l) = Ok l.
Proof.
  intros E T show parse [v|] H; unfold limit_parse, limit_show; [|reflexivity].
  destruct (H v eq_refl) as [H1 H2]. apply str_eqb_neq in H2. rewrite H2, H1. reflexivity.
Qed.

Lemma limit_serde_round_trip : forall {T} (ser : T -> sval) (de : sval -> result de_error T) l,
  (forall v, l = LimitValue v -> de (ser v) = Ok v /\
     ((exists n, ser v = VInt (Z.of_N n)) \/ exists s, ser v = VStr s /\ s <> $"-1")) ->
  limit_deserialize de (limit_serialize ser l) = Ok l.
Proof.
  intros T ser de [v|] H; unfold limit_serialize; [|reflexivity].
  destruct (H v eq_refl) as [H1 [[n H2]|[s [H2 H3]]]]; rewrite H2 in *; unfold limit_deserialize.
  - destruct (Z.leb_spec (Z.of_N n) (-2)); [lia|]. destruct (Z.eqb_spec (Z.of_N n) (-1)); [lia|]. rewrite H1. reflexivity.
  - apply str_eqb_neq in H3. rewrite H3, H1. reflexivity.
Qed.

Lemma int_to_uint_of_N : forall max n, n <= max -> int_to_uint max (Z.of_N n) = Ok n.
Proof.
  intros max n H. unfold int_to_uint.
  destruct (Z.leb_spec 0 (Z.of_N n)); [|lia]. destruct (Z.leb_spec (Z.of_N n) (Z.of_N max)); [|lia].
  cbn [andb]. rewrite N2Z.id. reflexivity.
Qed.

Lemma int_to_uint_ok : forall max z n, int_to_uint max z = Ok n <-> z = Z.of_N n /\ n <= max.
Proof.
  intros max z n. unfold int_to_uint. split.
  - destruct (Z.leb_spec 0 z); [|discriminate]. destruct (Z.leb_spec z (Z.of_N max)); [|discriminate].
    cbn [andb]. intros E. injection E as <-. lia.
  - intros [-> H]. apply int_to_uint_of_N. exact H.
Qed.

Lemma limit_eqb_eq : forall a b, limit_eqb a b = true <-> a = b.
Proof.
  intros [x|] [y|]; cbn; split; intros H; try congruence.
  - apply N.eqb_eq in H. congruence.
  - apply N.eqb_eq. congruence.
Qed.
