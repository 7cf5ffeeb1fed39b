(** Proofs about parsing, printing and converting scalar values. *)

From Coq Require Import String Ascii List NArith ZArith Bool Lia ZifyBool ZifyN ZifyNat.
Import ListNotations.
From Verif Require Import Base BaseFacts Num NumFacts Regex RegexFacts ValuesModel ValuesSpec ValuesProofs.
Open Scope N_scope.

Lemma horner_value : forall s acc, all_digits s = true ->
  horner s (Z.of_N acc) = Z.of_N (NumFacts.value 10 (map (fun c => c - 48) s) acc).
Proof.
  intros s. induction s as [|c s IH]; intros acc H; cbn [horner map NumFacts.value]; [reflexivity|].
  unfold all_digits in H. cbn [forallb] in H. apply andb_true_iff in H. destruct H as [H1 H2].
  rewrite <- IH by exact H2. f_equal. cls. lia.
Qed.

Lemma horner_dec : forall s, all_digits s = true -> horner s 0 = Z.of_N (dec_value s).
Proof. intros s H. apply (horner_value s 0 H). Qed.

Lemma strip_sign_digits : forall s, all_digits s = true -> strip_sign s = s.
Proof.
  intros [|c s] H; [reflexivity|]. unfold all_digits in H. cbn [forallb] in H. apply andb_true_iff in H.
  destruct H as [H _]. apply digit_not_sign in H. unfold is_sign in H. cbn [strip_sign]. rewrite H. reflexivity.
Qed.

Lemma not_digits : forall s, existsb (fun c => negb (is_digit c)) s = negb (all_digits s).
Proof.
  intros s. unfold all_digits. induction s as [|c s IH]; cbn [existsb forallb]; [reflexivity|].
  rewrite IH. destruct (is_digit c); reflexivity.
Qed.

Lemma denotes_int : forall s z, denotes s z -> matches INT_RE s.
Proof.
  intros s z H. apply int_re. inversion H as [t H1|t H1|t H1]; subst; apply plus_digits in H1; destruct H1 as [H1 H2].
  - rewrite strip_sign_digits by exact H2. auto.
  - cbn [strip_sign]. change ((ch "+" =? ch "+") || _) with true. auto.
  - cbn [strip_sign]. change ((ch "-" =? ch "+") || _) with true. auto.
Qed.

Lemma int_denotes : forall s, matches INT_RE s -> exists z, denotes s z.
Proof.
  intros s H. apply int_re in H. destruct H as [H1 H2].
  destruct (strip_sign_cases s) as [[c [t [-> [Hc E]]]]|[Hc E]]; rewrite E in *.
  - unfold is_sign in Hc. apply orb_true_iff in Hc. destruct Hc as [Hc|Hc]; apply N.eqb_eq in Hc; subst c.
    + exists (horner t 0). apply den_plus. apply plus_digits. auto.
    + exists (- horner t 0)%Z. apply den_minus. apply plus_digits. auto.
  - exists (horner s 0). apply den_plain. apply plus_digits. auto.
Qed.

Lemma parse_i64_minus : forall s, s <> [] -> all_digits s = true ->
  parse_i64 (45 :: s) = if dec_value s <=? I64_MIN_ABS then Ok (- Z.of_N (dec_value s))%Z else Err IntNegOverflow.
Proof.
  intros s H1 H2. unfold parse_i64. change ((45 =? 43) || (45 =? 45)) with true. change (45 =? 43) with false.
  cbn iota. destruct s as [|c s]; [congruence|].
  destruct (N.leb_spec (dec_value (c :: s)) I64_MIN_ABS) as [H|H].
  - assert (A : accumulate 10 I64_MIN_ABS IntNegOverflow (c :: s) 0 = Ok (dec_value (c :: s))).
    { apply accumulate_ok; [unfold I64_MIN_ABS; lia|]. split; [exact H2|]. split; [reflexivity|exact H]. }
    rewrite A. reflexivity.
  - destruct (accumulate 10 I64_MIN_ABS IntNegOverflow (c :: s) 0) as [n|e] eqn:A.
    + apply accumulate_ok in A; [|unfold I64_MIN_ABS; lia]. destruct A as [_ [-> A]]. unfold dec_value in H. lia.
    + assert (G : forall t acc e, all_digits t = true -> accumulate 10 I64_MIN_ABS IntNegOverflow t acc = Err e -> e = IntNegOverflow).
      { clear. intros t. induction t as [|c t IH]; intros acc e Ht; cbn [accumulate]; [discriminate|].
        unfold all_digits in Ht. cbn [forallb] in Ht. apply andb_true_iff in Ht. destruct Ht as [Hc Ht].
        destruct (to_digit 10 c) as [d|] eqn:Ed; [|apply to_digit_10_none in Ed; congruence].
        destruct (acc * 10 + d <=? I64_MIN_ABS); [apply IH; exact Ht|]. congruence. }
      apply G in A; [subst e; reflexivity|exact H2].
Qed.

Section Floats.
  Variable float_value : str -> N.
  Notation number_parse := (number_parse float_value).
  Notation value_parse := (value_parse float_value).

  Lemma number_parse_plain : forall s, s <> [] -> all_digits s = true ->
    number_parse s = if dec_value s <=? U64_MAX then Ok (UnsignedInt (dec_value s)) else Err (NumInt IntPosOverflow).
  Proof.
    intros s H1 H2. unfold ValuesModel.number_parse. rewrite strip_sign_digits, not_digits, H2 by exact H2. cbn [negb].
    assert (E : starts_with $"-" s = false).
    { destruct (starts_with $"-" s) eqn:E; [|reflexivity]. apply starts_with_iff in E. destruct E as [r ->].
      change ($"-" ++ r) with (45 :: r) in H2. cbn in H2. discriminate. }
    rewrite E. unfold parse_u64. rewrite parse_uint_digits_iff by assumption.
    destruct (dec_value s <=? U64_MAX); reflexivity.
  Qed.

  Lemma number_parse_plus : forall s, s <> [] -> all_digits s = true ->
    number_parse (43 :: s) = if dec_value s <=? U64_MAX then Ok (UnsignedInt (dec_value s)) else Err (NumInt IntPosOverflow).
  Proof.
    intros s H1 H2. unfold ValuesModel.number_parse. cbn [strip_sign]. change ((43 =? ch "+") || _) with true. cbn iota.
    rewrite not_digits, H2. cbn [negb]. change (starts_with $"-" (43 :: s)) with false. cbn iota.
    unfold parse_u64. rewrite parse_uint_plus, parse_uint_digits_iff by assumption.
    destruct (dec_value s <=? U64_MAX); reflexivity.
  Qed.

  Lemma number_parse_minus : forall s, s <> [] -> all_digits s = true ->
    number_parse (45 :: s) = if dec_value s <=? I64_MIN_ABS then Ok (SignedInt (- Z.of_N (dec_value s))) else Err (NumInt IntNegOverflow).
  Proof.
    intros s H1 H2. unfold ValuesModel.number_parse. cbn [strip_sign]. change ((45 =? ch "+") || _) with true. cbn iota.
    rewrite not_digits, H2. cbn [negb].
    assert (E : starts_with $"-" (45 :: s) = true) by (apply starts_with_iff; exists s; reflexivity).
    rewrite E, parse_i64_minus by assumption. destruct (dec_value s <=? I64_MIN_ABS); reflexivity.
  Qed.

  (** What a text is, by its shape. *)
  Lemma number_parse_spec : forall s,
    (exists ds, (s = ds \/ s = 43 :: ds) /\ ds <> [] /\ all_digits ds = true /\
       number_parse s = if dec_value ds <=? U64_MAX then Ok (UnsignedInt (dec_value ds)) else Err (NumInt IntPosOverflow)) \/
    (exists ds, s = 45 :: ds /\ ds <> [] /\ all_digits ds = true /\
       number_parse s = if dec_value ds <=? I64_MIN_ABS then Ok (SignedInt (- Z.of_N (dec_value ds)))
                        else Err (NumInt IntNegOverflow)) \/
    (~ matches INT_RE s /\ matches FLOAT_RE s /\ number_parse s = Ok (Float (float_value s))) \/
    (~ matches INT_RE s /\ ~ matches FLOAT_RE s /\ exists e, number_parse s = Err e).
  Proof.
    intros s. destruct (all_digits (strip_sign s)) eqn:Ed.
    - destruct (strip_sign s) as [|x l] eqn:Es.
      + right. right. right.
        assert (A : ~ matches INT_RE s) by (rewrite int_re, Es; tauto). split; [exact A|].
        assert (B : ~ matches FLOAT_RE s).
        { rewrite float_re. unfold is_float_text. rewrite Es. cbn. discriminate. }
        split; [exact B|]. destruct (strip_sign_cases s) as [[c [t [-> [Hc E]]]]|[Hc E]].
        * rewrite E in Es. subst t. unfold is_sign in Hc. apply orb_true_iff in Hc.
          destruct Hc as [Hc|Hc]; apply N.eqb_eq in Hc; subst c; eexists; reflexivity.
        * rewrite E in Es. subst s. eexists. reflexivity.
      + destruct (strip_sign_cases s) as [[c [t [-> [Hc E]]]]|[Hc E]].
        * rewrite E in Es. subst t. unfold is_sign in Hc. apply orb_true_iff in Hc.
          destruct Hc as [Hc|Hc]; apply N.eqb_eq in Hc; subst c.
          -- left. exists (x :: l). split; [right; reflexivity|]. split; [discriminate|]. split; [exact Ed|].
             apply number_parse_plus; [discriminate|exact Ed].
          -- right. left. exists (x :: l). split; [reflexivity|]. split; [discriminate|]. split; [exact Ed|].
             apply number_parse_minus; [discriminate|exact Ed].
        * rewrite E in Es. subst s. left. exists (x :: l). split; [left; reflexivity|]. split; [discriminate|].
          split; [exact Ed|]. apply number_parse_plain; [discriminate|exact Ed].
    - assert (A : ~ matches INT_RE s) by (rewrite int_re, Ed; intros [_ H]; discriminate).
      right. right. unfold ValuesModel.number_parse. rewrite not_digits, Ed. cbn [negb].
      destruct (is_float_text s) eqn:Ef; [left|right]; (split; [exact A|]); rewrite float_re; eauto.
      split; [congruence|]. eexists. reflexivity.
  Qed.

  Lemma int_shape : forall s ds, (s = ds \/ s = 43 :: ds) \/ s = 45 :: ds -> ds <> [] -> all_digits ds = true -> matches INT_RE s.
  Proof.
    intros s ds H H1 H2. assert (P : matches (Plus D) ds) by (apply plus_digits; auto).
    destruct H as [[->| ->]| ->]; [exact (denotes_int _ _ (den_plain _ P))|exact (denotes_int _ _ (den_plus _ P))|exact (denotes_int _ _ (den_minus _ P))].
  Qed.

  Lemma denotes_plain : forall s ds z, s = ds \/ s = 43 :: ds -> ds <> [] -> all_digits ds = true ->
    (denotes s z <-> z = Z.of_N (dec_value ds)).
  Proof.
    intros s ds z H H1 H2. assert (P : matches (Plus D) ds) by (apply plus_digits; auto).
    rewrite <- horner_dec by exact H2. split.
    - intros Hd. destruct H as [->| ->].
      + inversion Hd as [t Ht E1 E2|t Ht E1 E2|t Ht E1 E2]; subst; [reflexivity| |];
          unfold all_digits in H2; cbn in H2; discriminate.
      + inversion Hd as [t Ht E1 E2|t Ht E1 E2|t Ht E1 E2]; subst; [|reflexivity].
        apply plus_digits in Ht. destruct Ht as [_ Ht]. unfold all_digits in Ht. cbn in Ht. discriminate.
    - intros ->. destruct H as [->| ->]; [apply den_plain|apply den_plus]; exact P.
  Qed.

  Lemma denotes_minus : forall ds z, ds <> [] -> all_digits ds = true ->
    (denotes (45 :: ds) z <-> z = (- Z.of_N (dec_value ds))%Z).
  Proof.
    intros ds z H1 H2. assert (P : matches (Plus D) ds) by (apply plus_digits; auto).
    rewrite <- horner_dec by exact H2. split.
    - intros Hd. inversion Hd as [t Ht E1 E2|t Ht E1 E2|t Ht E1 E2]; subst; [|reflexivity].
      apply plus_digits in Ht. destruct Ht as [_ Ht]. unfold all_digits in Ht. cbn in Ht. discriminate.
    - intros ->. apply den_minus. exact P.
  Qed.

  Lemma plain_not_minus : forall s ds t, s = ds \/ s = 43 :: ds -> all_digits ds = true -> s <> 45 :: t.
  Proof.
    intros s ds t [->| ->] H E; [|discriminate]. subst ds. unfold all_digits in H. cbn in H. discriminate.
  Qed.

  Lemma number_unsigned : forall s n,
    number_parse s = Ok (UnsignedInt n) <-> denotes s (Z.of_N n) /\ n <= U64_MAX /\ forall t, s <> ch "-" :: t.
  Proof.
    intros s n. change (ch "-") with 45.
    destruct (number_parse_spec s) as [[ds [H1 [H2 [H3 ->]]]]|[[ds [-> [H2 [H3 ->]]]]|[[H1 [H2 ->]]|[H1 [H2 [e ->]]]]]].
    - rewrite (denotes_plain s ds _ H1 H2 H3). pose proof (fun t => plain_not_minus s ds t H1 H3) as M.
      destruct (N.leb_spec (dec_value ds) U64_MAX) as [L|L].
      + split; [intros E; injection E as <-; auto|]. intros [E _]. assert (n = dec_value ds) by lia. congruence.
      + split; [discriminate|]. lia.
    - destruct (dec_value ds <=? I64_MIN_ABS); (split; [discriminate|]); intros [_ [_ H]]; exfalso; exact (H ds eq_refl).
    - split; [discriminate|]. intros [H _]. apply denotes_int in H. contradiction.
    - split; [discriminate|]. intros [H _]. apply denotes_int in H. contradiction.
  Qed.

  Lemma number_signed : forall s z,
    number_parse s = Ok (SignedInt z) <-> denotes s z /\ (- Z.of_N I64_MIN_ABS <= z)%Z /\ exists t, s = ch "-" :: t.
  Proof.
    intros s z. change (ch "-") with 45.
    destruct (number_parse_spec s) as [[ds [H1 [H2 [H3 ->]]]]|[[ds [-> [H2 [H3 ->]]]]|[[H1 [H2 ->]]|[H1 [H2 [e ->]]]]]].
    - pose proof (fun t => plain_not_minus s ds t H1 H3) as M.
      destruct (dec_value ds <=? U64_MAX); (split; [discriminate|]); intros [_ [_ [t H]]]; exfalso; exact (M t H).
    - rewrite (denotes_minus ds _ H2 H3). destruct (N.leb_spec (dec_value ds) I64_MIN_ABS) as [L|L].
      + split; [intros E; injection E as <-|].
        * split; [reflexivity|]. split; [lia|]. eauto.
        * intros [-> _]. reflexivity.
      + split; [discriminate|]. lia.
    - split; [discriminate|]. intros [H _]. apply denotes_int in H. contradiction.
    - split; [discriminate|]. intros [H _]. apply denotes_int in H. contradiction.
  Qed.

  Lemma number_float : forall s b,
    number_parse s = Ok (Float b) <-> matches FLOAT_RE s /\ ~ matches INT_RE s /\ b = float_value s.
  Proof.
    intros s b.
    destruct (number_parse_spec s) as [[ds [H1 [H2 [H3 ->]]]]|[[ds [-> [H2 [H3 ->]]]]|[[H1 [H2 ->]]|[H1 [H2 [e ->]]]]]].
    - pose proof (int_shape s ds (or_introl H1) H2 H3). destruct (dec_value ds <=? U64_MAX); (split; [discriminate|tauto]).
    - pose proof (int_shape (45 :: ds) ds (or_intror eq_refl) H2 H3).
      destruct (dec_value ds <=? I64_MIN_ABS); (split; [discriminate|tauto]).
    - split; [intros E; injection E as <-; auto|]. intros [_ [_ ->]]. reflexivity.
    - split; [discriminate|tauto].
  Qed.

  Lemma number_error_iff : forall s, (exists e, number_parse s = Err e) <->
    ~ matches FLOAT_RE s /\ ~ matches INT_RE s \/
    exists z, denotes s z /\ ((exists t, s = ch "-" :: t) /\ (z < - Z.of_N I64_MIN_ABS)%Z \/
                              (forall t, s <> ch "-" :: t) /\ (Z.of_N U64_MAX < z)%Z).
  Proof.
    intros s. change (ch "-") with 45.
    destruct (number_parse_spec s) as [[ds [H1 [H2 [H3 ->]]]]|[[ds [-> [H2 [H3 ->]]]]|[[H1 [H2 ->]]|[H1 [H2 [e ->]]]]]].
    - pose proof (int_shape s ds (or_introl H1) H2 H3). pose proof (fun t => plain_not_minus s ds t H1 H3) as M.
      destruct (N.leb_spec (dec_value ds) U64_MAX) as [L|L].
      + split; [intros [e E]; discriminate|]. intros [[_ H4]|[z [Hz [[[t H4] _]|[_ H4]]]]]; [contradiction|exfalso; exact (M t H4)|].
        apply (denotes_plain s ds z H1 H2 H3) in Hz. lia.
      + split; [|eauto]. intros _. right. exists (Z.of_N (dec_value ds)). split; [apply (denotes_plain s ds); auto|].
        right. split; [exact M|]. lia.
    - pose proof (int_shape (45 :: ds) ds (or_intror eq_refl) H2 H3).
      destruct (N.leb_spec (dec_value ds) I64_MIN_ABS) as [L|L].
      + split; [intros [e E]; discriminate|]. intros [[_ H4]|[z [Hz [[_ H4]|[H4 _]]]]]; [contradiction| |exfalso; exact (H4 ds eq_refl)].
        apply (denotes_minus ds z H2 H3) in Hz. lia.
      + split; [|eauto]. intros _. right. exists (- Z.of_N (dec_value ds))%Z. split; [apply denotes_minus; auto|].
        left. split; [eauto|]. lia.
    - split; [intros [e E]; discriminate|]. intros [[H _]|[z [Hz _]]]; [contradiction|]. apply denotes_int in Hz. contradiction.
    - split; [|eauto]. intros _. left. auto.
  Qed.

  Lemma bool_parse_some : forall s b, bool_parse s = Some b <-> s = if b then $"true" else $"false".
  Proof.
    intros s b. unfold bool_parse. destruct (str_eqb_spec s $"true") as [->|H1].
    - split; [intros E; injection E as <-; reflexivity|]. destruct b; [reflexivity|discriminate].
    - destruct (str_eqb_spec s $"false") as [->|H2].
      + split; [intros E; injection E as <-; reflexivity|]. destruct b; [discriminate|reflexivity].
      + split; [discriminate|]. destruct b; contradiction.
  Qed.

  Lemma bool_parse_none : forall s, bool_parse s = None <-> s <> $"true" /\ s <> $"false".
  Proof.
    intros s. split.
    - intros H. split; intros ->; discriminate.
    - intros [H1 H2]. destruct (bool_parse s) as [b|] eqn:E; [|reflexivity]. apply bool_parse_some in E.
      destruct b; contradiction.
  Qed.

  (** Numbers are not booleans. *)
  Lemma number_not_bool : forall s n, number_parse s = Ok n -> bool_parse s = None.
  Proof.
    intros s n H. apply bool_parse_none. split; intros ->; discriminate.
  Qed.

  Lemma value_number : forall s n, value_parse s = VNumber n <-> number_parse s = Ok n.
  Proof.
    intros s n. unfold ValuesModel.value_parse. destruct (number_parse s) as [m|e] eqn:E.
    - rewrite (number_not_bool s m E). split; congruence.
    - destruct (bool_parse s); split; discriminate.
  Qed.

  Lemma value_boolean : forall s b, value_parse s = VBoolean b <-> s = if b then $"true" else $"false".
  Proof.
    intros s b. rewrite <- bool_parse_some. unfold ValuesModel.value_parse. destruct (bool_parse s) as [c|].
    - split; congruence.
    - destruct (number_parse s); split; discriminate.
  Qed.

  Lemma value_string : forall s t, value_parse s = VString t <->
    t = s /\ s <> $"true" /\ s <> $"false" /\ exists e, number_parse s = Err e.
  Proof.
    intros s t. pose proof (bool_parse_none s) as B. unfold ValuesModel.value_parse. destruct (bool_parse s) as [c|].
    - split; [discriminate|]. intros [_ [H1 [H2 _]]]. assert (X : Some c = None) by (apply B; auto). discriminate.
    - destruct (proj1 B eq_refl) as [B1 B2]. destruct (number_parse s) as [n|e].
      + split; [discriminate|]. intros [_ [_ [_ [e H]]]]. discriminate.
      + split; [intros E; injection E as <-; eauto|]. intros [-> _]. reflexivity.
  Qed.
End Floats.
