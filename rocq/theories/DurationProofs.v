(** Proofs about durations. *)

From Coq Require Import String Ascii List NArith ZArith Bool Lia ZifyBool ZifyN ZifyNat.
Import ListNotations.
From Verif Require Import Base BaseFacts Num NumFacts DurationModel DurationSpec.
Open Scope N_scope.

Lemma is_digit_range : forall c, is_digit c = true <-> 48 <= c <= 57.
Proof. intros c. cls. lia. Qed.

Lemma all_digits_Forall : forall s, all_digits s = true <-> Forall (fun c => 48 <= c <= 57) s.
Proof.
  intros s. unfold all_digits. rewrite forallb_forall, Forall_forall.
  split; intros H c Hc; apply H in Hc; apply is_digit_range; exact Hc.
Qed.

Lemma number_snoc : forall a c, number (a ++ [c]) = number a * 10 + (c - 48).
Proof. intros. unfold number. rewrite rev_app_distr. cbn [rev app number_rev]. lia. Qed.

Lemma number_dec_value : forall s, number s = dec_value s.
Proof.
  intros s. induction s as [|c s IH] using rev_ind; [reflexivity|].
  rewrite number_snoc, IH. unfold dec_value. rewrite map_app, value_app. cbn [map value]. lia.
Qed.

Ltac consts := unfold in_nanos, max_nanos, duration_wf, NANOS_PER_SEC, U64_MAX, SECONDS_PER_HOUR,
  SECONDS_PER_MINUTE, MINUTES_PER_HOUR, MICROSECONDS_PER_MILLISECOND in *;
  change (10 ^ 9) with 1000000000 in *; change (2 ^ 64) with 18446744073709551616 in *;
  change (60 * 60) with 3600 in *.

Lemma in_nanos_inj : forall a b, duration_wf a -> duration_wf b -> in_nanos a = in_nanos b -> a = b.
Proof. intros [s1 n1] [s2 n2]. consts. cbn [secs nanos]. intros. f_equal; lia. Qed.

Lemma in_nanos_bound : forall d, duration_wf d -> in_nanos d <= max_nanos.
Proof. intros [s n]. consts. cbn [secs nanos]. intros. lia. Qed.

Lemma checked_add_spec : forall a b, duration_wf a -> duration_wf b ->
  match checked_add a b with
  | Some r => duration_wf r /\ in_nanos r = in_nanos a + in_nanos b
  | None => max_nanos < in_nanos a + in_nanos b
  end.
Proof.
  intros [s1 n1] [s2 n2]. unfold checked_add. consts. cbn [secs nanos]. intros H1 H2.
  destruct (N.leb_spec (s1 + s2) 18446744073709551615); [|lia].
  destruct (N.ltb_spec (n1 + n2) 1000000000); cbn [secs nanos]; [lia|].
  destruct (N.leb_spec (s1 + s2 + 1) 18446744073709551615); cbn [secs nanos]; lia.
Qed.

Lemma div_mod_bounds : forall a b, b <> 0 -> a = b * (a / b) + a mod b /\ a mod b < b.
Proof. intros. split; [apply N.div_mod; assumption|apply N.mod_lt; assumption]. Qed.

Lemma from_secs_spec : forall n, n <= U64_MAX -> duration_wf (from_secs n) /\ in_nanos (from_secs n) = n * 10 ^ 9.
Proof. intros n H. unfold from_secs. consts. cbn [secs nanos]. lia. Qed.

Lemma from_millis_spec : forall n, n <= U64_MAX -> duration_wf (from_millis n) /\ in_nanos (from_millis n) = n * 1000000.
Proof.
  intros n H. unfold from_millis. consts. cbn [secs nanos].
  destruct (div_mod_bounds n 1000); [lia|]. lia.
Qed.

Lemma from_micros_spec : forall n, n <= U64_MAX -> duration_wf (from_micros n) /\ in_nanos (from_micros n) = n * 1000.
Proof.
  intros n H. unfold from_micros. consts. cbn [secs nanos].
  destruct (div_mod_bounds n 1000000); [lia|]. lia.
Qed.

(** ** Texts *)

Definition digit_or_end (s : str) : Prop := s = [] \/ exists c r, s = c :: r /\ is_digit c = true.

Lemma unit_text_cons : forall u, exists c r, unit_text u = c :: r /\ is_digit c = false.
Proof. destruct u; cbn; eauto. Qed.

Lemma unit_text_nondigit : forall u, forallb (fun c => negb (is_digit c)) (unit_text u) = true.
Proof. destruct u; reflexivity. Qed.

Lemma term_ok_digits : forall t, term_digits t -> fst t <> [] /\ all_digits (fst t) = true.
Proof. intros t [H1 H2]. split; [exact H1|]. apply all_digits_Forall. exact H2. Qed.

Lemma terms_text_start : forall ts, Forall term_digits ts -> digit_or_end (terms_text ts).
Proof.
  intros [|t ts] H; [left; reflexivity|]. right. inv H. apply term_ok_digits in H2 as [H1 H2].
  destruct t as [ds u]. cbn [fst] in *. destruct ds as [|c ds]; [congruence|].
  unfold all_digits in H2. cbn [forallb] in H2. apply andb_true_iff in H2 as [H2 _].
  exists c, ((ds ++ unit_text u) ++ terms_text ts). split; [|exact H2]. reflexivity.
Qed.

Lemma span_term : forall ds u rest, all_digits ds = true ->
  span is_digit (term_text (ds, u) ++ rest) = (ds, unit_text u ++ rest).
Proof.
  intros ds u rest H. unfold term_text. cbn [fst snd]. rewrite <- app_assoc. apply span_intro; [exact H|].
  destruct (unit_text_cons u) as [c [r [E Hc]]]. right. rewrite E. cbn [app]. eauto.
Qed.

Lemma span_unit : forall u rest, digit_or_end rest ->
  span (fun c => negb (is_digit c)) (unit_text u ++ rest) = (unit_text u, rest).
Proof.
  intros u rest H. apply span_intro; [apply unit_text_nondigit|].
  destruct H as [->|[c [r [-> Hc]]]]; [left; reflexivity|right]. exists c, r. rewrite Hc. auto.
Qed.

Lemma term_shrinks : forall t rest c s f, term_ok t -> c :: s = term_text t ++ rest ->
  (List.length (c :: s) <= S f)%nat -> (List.length rest <= f)%nat.
Proof.
  intros [ds u] rest c s f [[H _] _] E Hl. rewrite E in Hl. unfold term_text in Hl. cbn [fst snd] in *.
  destruct ds; [congruence|]. rewrite !app_length in Hl. simpl in Hl. lia.
Qed.

(** Adding one unit's worth. *)
Definition add_unit (d : duration) (v : N) (u : time_unit) : outcome duration_error duration :=
  match u with
  | Hours => match checked_mul_u64 v SECONDS_PER_HOUR with
             | Some v => add_duration d (from_secs v) | None => OErr DurOverflow end
  | Minutes => match checked_mul_u64 v SECONDS_PER_MINUTE with
               | Some v => add_duration d (from_secs v) | None => OErr DurOverflow end
  | Seconds => add_duration d (from_secs v)
  | Millis => add_duration d (from_millis v)
  | Micros => add_duration d (from_micros v)
  end.

Lemma add_duration_spec : forall d r, duration_wf d -> duration_wf r ->
  match add_duration d r with
  | OOk d' => duration_wf d' /\ in_nanos d' = in_nanos d + in_nanos r
  | OErr e => e = DurOverflow /\ max_nanos < in_nanos d + in_nanos r
  | OPanic => False
  end.
Proof.
  intros d r H1 H2. unfold add_duration. pose proof (checked_add_spec d r H1 H2) as H.
  destruct (checked_add d r); auto.
Qed.

Lemma add_unit_spec : forall d v u, duration_wf d -> v <= U64_MAX ->
  match add_unit d v u with
  | OOk d' => duration_wf d' /\ in_nanos d' = in_nanos d + v * unit_nanos u
  | OErr e => e = DurOverflow /\ max_nanos < in_nanos d + v * unit_nanos u
  | OPanic => False
  end.
Proof.
  intros d v u Hd Hv. destruct u; cbn [add_unit unit_nanos].
  - unfold checked_mul_u64. destruct (N.leb_spec (v * SECONDS_PER_HOUR) U64_MAX) as [H|H].
    + destruct (from_secs_spec _ H) as [H1 H2]. pose proof (add_duration_spec d _ Hd H1) as H3.
      destruct (add_duration d (from_secs (v * SECONDS_PER_HOUR))); rewrite ?H2 in H3; [|destruct H3 as [-> H3]; split; [reflexivity|]|exact H3]; consts; lia.
    + split; [reflexivity|]. consts. lia.
  - unfold checked_mul_u64. destruct (N.leb_spec (v * SECONDS_PER_MINUTE) U64_MAX) as [H|H].
    + destruct (from_secs_spec _ H) as [H1 H2]. pose proof (add_duration_spec d _ Hd H1) as H3.
      destruct (add_duration d (from_secs (v * SECONDS_PER_MINUTE))); rewrite ?H2 in H3; [|destruct H3 as [-> H3]; split; [reflexivity|]|exact H3]; consts; lia.
    + split; [reflexivity|]. consts. lia.
  - destruct (from_secs_spec _ Hv) as [H1 H2]. pose proof (add_duration_spec d _ Hd H1) as H3.
    destruct (add_duration d (from_secs v)); rewrite ?H2 in H3; [|destruct H3 as [-> H3]; split; [reflexivity|]|exact H3]; consts; lia.
  - destruct (from_millis_spec _ Hv) as [H1 H2]. pose proof (add_duration_spec d _ Hd H1) as H3.
    destruct (add_duration d (from_millis v)); rewrite ?H2 in H3; [|destruct H3 as [-> H3]; split; [reflexivity|]|exact H3]; consts; lia.
  - destruct (from_micros_spec _ Hv) as [H1 H2]. pose proof (add_duration_spec d _ Hd H1) as H3.
    destruct (add_duration d (from_micros v)); rewrite ?H2 in H3; [|destruct H3 as [-> H3]; split; [reflexivity|]|exact H3]; consts; lia.
Qed.

(** The step on a text which starts with a well-formed term. *)
Lemma parse_step_term : forall t rest d, term_ok t -> digit_or_end rest ->
  parse_step (term_text t ++ rest) d = obind (add_unit d (number (fst t)) (snd t)) (fun d' => OOk (d', rest)).
Proof.
  intros [ds u] rest d [Hd Hn] Hr. apply term_ok_digits in Hd as [Hd1 Hd2]. cbn [fst snd] in *.
  unfold parse_step. rewrite span_term by exact Hd2.
  destruct (unit_text u ++ rest) as [|c r] eqn:E.
  { destruct (unit_text_cons u) as [c [r [E' _]]]. rewrite E' in E. discriminate. }
  rewrite <- E. destruct ds as [|c' ds]; [congruence|].
  assert (Hp : parse_u64 (c' :: ds) = Ok (number (c' :: ds))).
  { rewrite number_dec_value in *. apply parse_uint_digits; auto. consts. lia. }
  rewrite Hp. rewrite span_unit by exact Hr.
  destruct u; reflexivity.
Qed.

Lemma known_unit : forall s,
  (exists u, s = unit_text u) \/
  (str_eqb s $"h" = false /\ str_eqb s $"m" = false /\ str_eqb s $"s" = false /\
   str_eqb s $"ms" = false /\ str_eqb s $"us" = false).
Proof.
  intros s.
  destruct (str_eqb_spec s $"h") as [->|]; [left; exists Hours; reflexivity|].
  destruct (str_eqb_spec s $"m") as [->|]; [left; exists Minutes; reflexivity|].
  destruct (str_eqb_spec s $"s") as [->|]; [left; exists Seconds; reflexivity|].
  destruct (str_eqb_spec s $"ms") as [->|]; [left; exists Millis; reflexivity|].
  destruct (str_eqb_spec s $"us") as [->|]; [left; exists Micros; reflexivity|].
  right. auto.
Qed.

(** What a successful step has read. *)
Lemma parse_step_ok : forall s d d' rest, parse_step s d = OOk (d', rest) ->
  exists t, term_ok t /\ digit_or_end rest /\ s = term_text t ++ rest /\
            add_unit d (number (fst t)) (snd t) = OOk d'.
Proof.
  intros s d d' rest. unfold parse_step.
  destruct (span is_digit s) as [ds r1] eqn:E1.
  pose proof (span_app _ _ _ _ E1) as Hs. pose proof (span_forall _ _ _ _ E1) as Hds.
  destruct r1 as [|c r1]; [discriminate|]. destruct ds as [|x ds]; [discriminate|].
  destruct (parse_u64 (x :: ds)) as [v|e] eqn:Ev; [|discriminate].
  destruct (span (fun c => negb (is_digit c)) (c :: r1)) as [u r2] eqn:E2.
  pose proof (span_app _ _ _ _ E2) as Hu. pose proof (span_rest _ _ _ _ E2) as Hr.
  assert (Hv : v = number (x :: ds) /\ number (x :: ds) < 2 ^ 64).
  { unfold parse_u64 in Ev. rewrite parse_uint_digits_iff in Ev by (auto; discriminate).
    rewrite <- number_dec_value in Ev. destruct (N.leb_spec (number (x :: ds)) U64_MAX); [|discriminate].
    inv Ev. split; [reflexivity|]. consts. lia. }
  destruct Hv as [-> Hn].
  destruct (known_unit u) as [[tu ->]|[H1 [H2 [H3 [H4 H5]]]]].
  - intros H. exists (x :: ds, tu). split; [|split; [|split]].
    + split; [|exact Hn]. split; [discriminate|]. apply all_digits_Forall. exact Hds.
    + assert (r2 = rest).
      { destruct tu; cbn [unit_text] in H; match type of H with obind ?a _ = _ => destruct a end;
          simpl in H; congruence. }
      subst r2. destruct Hr as [->|[c' [r' [-> Hc]]]]; [left; reflexivity|right].
      apply negb_false_iff in Hc. eauto.
    + assert (r2 = rest).
      { destruct tu; cbn [unit_text] in H; match type of H with obind ?a _ = _ => destruct a end;
          simpl in H; congruence. }
      subst r2. unfold term_text. cbn [fst snd]. rewrite <- app_assoc, <- Hu. exact Hs.
    + cbn [fst snd]. destruct tu; cbn [add_unit unit_text] in *;
        match type of H with obind ?a _ = _ => match goal with |- ?b = _ => change a with b in H; destruct b end end;
        simpl in H; congruence.
  - rewrite H1, H2, H3, H4, H5. discriminate.
Qed.

Lemma parse_step_panic : forall s d, parse_step s d = OPanic <->
  exists ds c r, s = ds ++ c :: r /\ ds <> [] /\ all_digits ds = true /\ is_digit c = false /\ 2 ^ 64 <= number ds.
Proof.
  intros s d. split.
  - unfold parse_step. destruct (span is_digit s) as [ds r1] eqn:E1.
    pose proof (span_app _ _ _ _ E1) as Hs. pose proof (span_forall _ _ _ _ E1) as Hds.
    pose proof (span_rest _ _ _ _ E1) as Hr.
    destruct r1 as [|c r1]; [discriminate|]. destruct ds as [|x ds]; [discriminate|].
    destruct Hr as [Hr|[c' [r' [Hr Hc]]]]; [discriminate|]. inv Hr.
    destruct (parse_u64 (x :: ds)) as [v|e] eqn:Ev.
    + destruct (span (fun c => negb (is_digit c)) (c' :: r')) as [u r2] eqn:E2. intros H. exfalso.
      revert H. unfold checked_mul_u64, add_duration.
      repeat (match goal with
              | |- context [if ?b then _ else _] => destruct b
              | |- context [match checked_add ?a ?b with _ => _ end] => destruct (checked_add a b)
              end; simpl); discriminate.
    + intros _. exists (x :: ds), c', r'. split; [reflexivity|]. split; [discriminate|].
      split; [exact Hds|]. split; [exact Hc|].
      unfold parse_u64 in Ev. rewrite parse_uint_digits_iff in Ev by (auto; discriminate).
      rewrite <- number_dec_value in Ev. destruct (N.leb_spec (number (x :: ds)) U64_MAX); [discriminate|].
      consts. lia.
  - intros [ds [c [r [-> [H1 [H2 [H3 H4]]]]]]]. unfold parse_step.
    rewrite span_intro; [|exact H2|eauto]. destruct ds as [|x ds]; [congruence|].
    unfold parse_u64. rewrite parse_uint_digits_iff by (auto; discriminate).
    rewrite <- number_dec_value. destruct (N.leb_spec (number (x :: ds)) U64_MAX); [consts; lia|reflexivity].
Qed.

(** Every iteration consumes input, so the fuel given by [parse] suffices. *)
Lemma parse_loop_fuel : forall f s d, (List.length s <= f)%nat -> parse_loop f s d <> None.
Proof.
  induction f as [|f IH]; intros s d H.
  - destruct s; [discriminate|simpl in H; lia].
  - destruct s as [|c s]; [discriminate|]. cbn [parse_loop].
    destruct (parse_step (c :: s) d) as [[d' rest]|e|] eqn:E; try discriminate.
    apply parse_step_ok in E as [t [Ht [_ [Hs _]]]]. apply IH. eapply term_shrinks; eauto.
Qed.

Lemma parse_loop_ok : forall f s d d', duration_wf d -> (List.length s <= f)%nat ->
  (parse_loop f s d = Some (OOk d') <->
   exists ts, Forall term_ok ts /\ s = terms_text ts /\ duration_wf d' /\
              in_nanos d' = in_nanos d + terms_nanos ts).
Proof.
  induction f as [|f IH]; intros s d d' Hd Hf.
  - destruct s; [|simpl in Hf; lia]. cbn [parse_loop]. split.
    + intros H. inv H. exists []. cbn. repeat split; auto; try apply Hd. lia.
    + intros [ts [H1 [H2 [H3 H4]]]]. destruct ts as [|t ts].
      * cbn in H4. f_equal. f_equal. apply in_nanos_inj; auto. lia.
      * exfalso. inv H1. destruct t as [ds u]. destruct H5 as [[Hx _] _]. cbn in *. destruct ds; [congruence|discriminate].
  - destruct s as [|c s].
    + cbn [parse_loop]. split.
      * intros H. inv H. exists []. cbn. repeat split; auto; try apply Hd. lia.
      * intros [ts [H1 [H2 [H3 H4]]]]. destruct ts as [|t ts].
        -- cbn in H4. f_equal. f_equal. apply in_nanos_inj; auto. lia.
        -- exfalso. inv H1. destruct t as [ds u]. destruct H5 as [[Hx _] _]. cbn in *. destruct ds; [congruence|discriminate].
    + cbn [parse_loop]. split.
      * destruct (parse_step (c :: s) d) as [[d1 rest]|e|] eqn:E; try discriminate.
        apply parse_step_ok in E as [t [Ht [Hr [Hs Ha]]]]. intros H.
        pose proof (add_unit_spec d (number (fst t)) (snd t) Hd) as Hu. rewrite Ha in Hu.
        assert (Hv : number (fst t) <= U64_MAX) by (destruct Ht; consts; lia).
        destruct (Hu Hv) as [Hu1 Hu2].
        assert (Hl : (List.length rest <= f)%nat) by (eapply term_shrinks; eauto).
        apply IH in H; auto. destruct H as [ts [H1 [H2 [H3 H4]]]].
        exists (t :: ts). split; [constructor; auto|]. split; [cbn [terms_text flat_map]; rewrite Hs, H2; reflexivity|].
        split; [exact H3|]. cbn [terms_nanos fold_right]. fold (terms_nanos ts). unfold term_nanos. lia.
      * intros [ts [H1 [H2 [H3 H4]]]]. destruct ts as [|t ts]; [discriminate|]. inv H1.
        cbn [terms_text flat_map] in H2. fold (terms_text ts) in H2. rewrite H2.
        assert (Hd' : Forall term_digits ts).
        { eapply Forall_impl; [|eassumption]. intros a [Ha _]. exact Ha. }
        rewrite parse_step_term; [|assumption|apply terms_text_start; exact Hd'].
        pose proof (add_unit_spec d (number (fst t)) (snd t) Hd) as Hu.
        assert (Hv : number (fst t) <= U64_MAX) by (destruct H5; consts; lia).
        specialize (Hu Hv).
        cbn [terms_nanos fold_right] in H4. fold (terms_nanos ts) in H4. unfold term_nanos in H4.
        pose proof (in_nanos_bound _ H3).
        destruct (add_unit d (number (fst t)) (snd t)) as [d1|e|]; cbn [obind].
        -- destruct Hu as [Hu1 Hu2]. apply IH; auto.
           ++ eapply term_shrinks; eauto.
           ++ exists ts. repeat split; auto; try apply H3. lia.
        -- lia.
        -- destruct Hu.
Qed.

(** ** Meaning of [parse] *)

Lemma parse_nonempty : forall c s o, parse_loop (List.length (c :: s)) (c :: s) duration_zero = Some o ->
  parse (c :: s) = o.
Proof. intros c s o H. unfold parse. rewrite H. reflexivity. Qed.

Lemma zero_wf : duration_wf duration_zero.
Proof. unfold duration_zero. consts. cbn [secs nanos]. lia. Qed.

Lemma terms_text_nil : forall ts, Forall term_digits ts -> terms_text ts = [] -> ts = [].
Proof.
  intros [|t ts] H E; [reflexivity|]. inv H. destruct t as [ds u]. destruct H2 as [H2 _].
  cbn in *. destruct ds; [congruence|discriminate].
Qed.

Lemma parse_ok_iff : forall s d,
  parse s = OOk d <->
  exists ts, ts <> [] /\ Forall term_ok ts /\ s = terms_text ts /\ duration_wf d /\ in_nanos d = terms_nanos ts.
Proof.
  intros s d. destruct s as [|c s].
  - split; [discriminate|]. intros [ts [H1 [H2 [H3 _]]]]. exfalso. apply H1.
    apply terms_text_nil; [|auto]. eapply Forall_impl; [|exact H2]. intros a [Ha _]. exact Ha.
  - pose proof (parse_loop_fuel (List.length (c :: s)) (c :: s) duration_zero (le_n _)) as Hf.
    destruct (parse_loop (List.length (c :: s)) (c :: s) duration_zero) as [o|] eqn:E; [|congruence].
    rewrite (parse_nonempty _ _ _ E).
    pose proof (parse_loop_ok (List.length (c :: s)) (c :: s) duration_zero d zero_wf (le_n _)) as H.
    rewrite E in H. split.
    + intros ->. destruct (proj1 H eq_refl) as [ts [H1 [H2 [H3 H4]]]]. exists ts.
      repeat split; auto; try apply H3. intros ->. discriminate.
    + intros [ts [H1 [H2 [H3 [H4 H5]]]]].
      assert (Hs : Some o = Some (OOk d)); [|congruence]. apply H. exists ts.
      repeat split; auto; try apply H4.
Qed.

Lemma parse_loop_panic : forall f s d, duration_wf d -> (List.length s <= f)%nat ->
  (parse_loop f s d = Some OPanic <->
   exists ts ds c r, Forall term_ok ts /\ in_nanos d + terms_nanos ts <= max_nanos /\
     s = terms_text ts ++ ds ++ c :: r /\ ds <> [] /\ all_digits ds = true /\ is_digit c = false /\ 2 ^ 64 <= number ds).
Proof.
  induction f as [|f IH]; intros s d Hd Hf.
  - destruct s; [|simpl in Hf; lia]. cbn [parse_loop]. split; [discriminate|].
    intros [ts [ds [c [r [_ [_ [H _]]]]]]]. destruct (terms_text ts), ds; discriminate.
  - destruct s as [|c0 s].
    + cbn [parse_loop]. split; [discriminate|].
      intros [ts [ds [c [r [_ [_ [H _]]]]]]]. destruct (terms_text ts), ds; discriminate.
    + cbn [parse_loop]. split.
      * destruct (parse_step (c0 :: s) d) as [[d1 rest]|e|] eqn:E; try discriminate.
        -- apply parse_step_ok in E as [t [Ht [Hr [Hs Ha]]]]. intros H.
           pose proof (add_unit_spec d (number (fst t)) (snd t) Hd) as Hu. rewrite Ha in Hu.
           assert (Hv : number (fst t) <= U64_MAX) by (destruct Ht; consts; lia).
           destruct (Hu Hv) as [Hu1 Hu2].
           assert (Hl : (List.length rest <= f)%nat) by (eapply term_shrinks; eauto).
           apply IH in H; auto. destruct H as [ts [ds [c [r [H1 [H2 [H3 H4]]]]]]].
           exists (t :: ts), ds, c, r. split; [constructor; auto|].
           cbn [terms_nanos fold_right terms_text flat_map]. fold (terms_nanos ts). fold (terms_text ts).
           split; [unfold term_nanos; lia|]. split; [|exact H4].
           rewrite Hs, H3. rewrite <- app_assoc. reflexivity.
        -- intros _. apply parse_step_panic in E as [ds [c [r [H1 H2]]]].
           exists [], ds, c, r. split; [constructor|]. split; [change (terms_nanos []) with 0; pose proof (in_nanos_bound _ Hd); lia|].
           split; [exact H1|exact H2].
      * intros [ts [ds [c [r [H1 [H2 [H3 H4]]]]]]]. destruct ts as [|t ts].
        -- cbn [terms_text flat_map app] in H3.
           assert (E : parse_step (c0 :: s) d = OPanic) by (apply parse_step_panic; exists ds, c, r; auto).
           rewrite E. reflexivity.
        -- inversion H1 as [|? ? Ht Hts]; subst. cbn [terms_text flat_map] in H3. fold (terms_text ts) in H3. rewrite <- app_assoc in H3.
           assert (Hd' : Forall term_digits ts).
           { eapply Forall_impl; [|eassumption]. intros a [Ha _]. exact Ha. }
           assert (Hde : digit_or_end (terms_text ts ++ ds ++ c :: r)).
           { destruct (terms_text_start ts Hd') as [->|[x [y [-> Hx]]]].
             - destruct H4 as [Hn [Ha _]]. destruct ds as [|x ds]; [congruence|].
               unfold all_digits in Ha. cbn [forallb] in Ha. apply andb_true_iff in Ha as [Ha _].
               right. cbn [app]. eauto.
             - right. cbn [app]. eauto. }
           rewrite H3. rewrite parse_step_term; [|assumption|exact Hde].
           pose proof (add_unit_spec d (number (fst t)) (snd t) Hd) as Hu.
           assert (Hv : number (fst t) <= U64_MAX) by (destruct Ht; consts; lia).
           specialize (Hu Hv).
           cbn [terms_nanos fold_right] in H2. fold (terms_nanos ts) in H2. unfold term_nanos in H2.
           destruct (add_unit d (number (fst t)) (snd t)) as [d1|e|]; cbn [obind].
           ++ destruct Hu as [Hu1 Hu2]. apply IH; auto.
              ** eapply term_shrinks; eauto.
              ** exists ts, ds, c, r. repeat split; try tauto. lia.
           ++ lia.
           ++ destruct Hu.
Qed.

Lemma parse_panic_iff : forall s,
  parse s = OPanic <->
  exists ts ds c r, Forall term_ok ts /\ terms_nanos ts <= max_nanos /\
     s = terms_text ts ++ ds ++ c :: r /\ ds <> [] /\ Forall (fun x => 48 <= x <= 57) ds /\
     ~ (48 <= c <= 57) /\ 2 ^ 64 <= number ds.
Proof.
  intros s.
  assert (G : (exists ts ds c r, Forall term_ok ts /\ in_nanos duration_zero + terms_nanos ts <= max_nanos /\
     s = terms_text ts ++ ds ++ c :: r /\ ds <> [] /\ all_digits ds = true /\ is_digit c = false /\ 2 ^ 64 <= number ds)
     <-> (exists ts ds c r, Forall term_ok ts /\ terms_nanos ts <= max_nanos /\
     s = terms_text ts ++ ds ++ c :: r /\ ds <> [] /\ Forall (fun x => 48 <= x <= 57) ds /\
     ~ (48 <= c <= 57) /\ 2 ^ 64 <= number ds)).
  { split; intros [ts [ds [c [r [H1 [H2 [H3 [H4 [H5 [H6 H7]]]]]]]]]]; exists ts, ds, c, r.
    - repeat split; auto; [apply all_digits_Forall; exact H5|]. intros H. apply is_digit_range in H. congruence.
    - repeat split; auto; [apply all_digits_Forall; exact H5|]. destruct (is_digit c) eqn:E; [|reflexivity].
      exfalso. apply H6. apply is_digit_range. exact E. }
  rewrite <- G. clear G. destruct s as [|c0 s].
  - split; [discriminate|]. intros [ts [ds [c [r [_ [_ [H _]]]]]]]. destruct (terms_text ts), ds; discriminate.
  - pose proof (parse_loop_fuel (List.length (c0 :: s)) (c0 :: s) duration_zero (le_n _)) as Hf.
    destruct (parse_loop (List.length (c0 :: s)) (c0 :: s) duration_zero) as [o|] eqn:E; [|congruence].
    rewrite (parse_nonempty _ _ _ E).
    pose proof (parse_loop_panic (List.length (c0 :: s)) (c0 :: s) duration_zero zero_wf (le_n _)) as H.
    rewrite E in H. rewrite <- H. split; congruence.
Qed.

(** ** Errors *)

Lemma forall_not_digit : forall s, forallb (fun c => negb (is_digit c)) s = true -> Forall (fun c => ~ (48 <= c <= 57)) s.
Proof.
  intros s H. rewrite forallb_forall in H. rewrite Forall_forall. intros c I. apply H in I. intros D. apply is_digit_range in D. rewrite D in I. discriminate.
Qed.

Lemma parse_step_err : forall s d e, duration_wf d -> s <> [] -> parse_step s d = OErr e ->
  match e with
  | DurEmpty => False
  | DurMissingUnit t => t = s /\ digits_only s
  | DurNoDigits t => t = s /\ exists c r, s = c :: r /\ ~ (48 <= c <= 57)
  | DurInvalidUnit u => exists ds r, s = ds ++ u ++ r /\ digits_only ds /\ number ds < 2 ^ 64 /\ no_digits u /\ (forall k, u <> unit_text k) /\
                                     (forall c r', r = c :: r' -> 48 <= c <= 57)
  | DurOverflow => exists t r, s = term_text t ++ r /\ term_ok t /\ (forall c r', r = c :: r' -> 48 <= c <= 57) /\ max_nanos < in_nanos d + term_nanos t
  end.
Proof.
  intros s d e Hd Hne. unfold parse_step. destruct (span is_digit s) as [ds r1] eqn:E1.
  pose proof (span_app _ _ _ _ E1) as Hs. pose proof (span_forall _ _ _ _ E1) as Hds. pose proof (span_rest _ _ _ _ E1) as Hr1.
  destruct r1 as [|c1 r1].
  - intros X. injection X as <-. rewrite app_nil_r in Hs. subst ds. split; [reflexivity|]. split; [exact Hne|apply all_digits_Forall; exact Hds].
  - destruct Hr1 as [Hr1|(c' & r' & Hr1 & Hc1)]; [discriminate|]. injection Hr1 as <- <-. destruct ds as [|x ds].
    + intros X. injection X as <-. split; [reflexivity|]. exists c1, r1. split; [exact Hs|].
      intros D. apply is_digit_range in D. congruence.
    + destruct (parse_u64 (x :: ds)) as [v|] eqn:Ev; [|discriminate].
      destruct (span (fun c => negb (is_digit c)) (c1 :: r1)) as [u r2] eqn:E2.
      pose proof (span_app _ _ _ _ E2) as Hu. pose proof (span_rest _ _ _ _ E2) as Hr. pose proof (span_forall _ _ _ _ E2) as Hnd.
      assert (Hv : v = number (x :: ds) /\ number (x :: ds) < 2 ^ 64).
      { unfold parse_u64 in Ev. rewrite parse_uint_digits_iff in Ev by (auto; discriminate).
        rewrite <- number_dec_value in Ev. destruct (N.leb_spec (number (x :: ds)) U64_MAX); [|discriminate].
        inv Ev. split; [reflexivity|]. consts. lia. }
      destruct Hv as [-> Hn].
      assert (Hx : digits_only (x :: ds)) by (split; [discriminate|apply all_digits_Forall; exact Hds]).
      destruct (known_unit u) as [[tu ->]|[H1 [H2 [H3 [H4 H5]]]]].
      * assert (L : number (x :: ds) <= U64_MAX) by (consts; lia).
        pose proof (add_unit_spec d (number (x :: ds)) tu Hd L) as A. intros H.
        assert (Hi : add_unit d (number (x :: ds)) tu = OErr e).
        { destruct tu; cbn [add_unit unit_text] in *;
            match type of H with obind ?a _ = _ => match goal with |- ?b = _ => change a with b in H; destruct b end end; simpl in H; congruence. }
        rewrite Hi in A. destruct A as [-> A]. exists (x :: ds, tu), r2. split; [|split; [|split; [|exact A]]].
        -- unfold term_text. cbn [fst snd]. rewrite <- app_assoc, <- Hu. exact Hs.
        -- split; [exact Hx|exact Hn].
        -- intros c r ->. destruct Hr as [Hr|(c' & r' & Hr & Hc)]; [discriminate|]. injection Hr as <- <-. apply is_digit_range. now apply negb_false_iff.
      * rewrite H1, H2, H3, H4, H5. cbn [obind]. intros X. injection X as <-. exists (x :: ds), r2. split; [now rewrite <- Hu|].
        split; [exact Hx|]. split; [exact Hn|]. split; [split; [|apply forall_not_digit; exact Hnd]|split].
        -- intros ->. cbn [span] in E2. rewrite Hc1 in E2. cbn [negb] in E2. destruct (span (fun c => negb (is_digit c)) r1). discriminate.
        -- intros k ->. destruct k; discriminate.
        -- intros c r ->. destruct Hr as [Hr|(c' & r' & Hr & Hc)]; [discriminate|]. injection Hr as <- <-. apply is_digit_range. now apply negb_false_iff.
Qed.

Lemma parse_loop_err : forall f s d e, duration_wf d -> (List.length s <= f)%nat -> parse_loop f s d = Some (OErr e) ->
  exists ts rest, s = terms_text ts ++ rest /\ Forall term_ok ts /\ in_nanos d + terms_nanos ts <= max_nanos /\
    match e with
    | DurEmpty => False
    | DurMissingUnit t => t = rest /\ digits_only rest
    | DurNoDigits t => t = rest /\ ts = [] /\ exists c r, rest = c :: r /\ ~ (48 <= c <= 57)
    | DurInvalidUnit u => exists ds r, rest = ds ++ u ++ r /\ digits_only ds /\ number ds < 2 ^ 64 /\ no_digits u /\ (forall k, u <> unit_text k) /\
                                       (forall c r', r = c :: r' -> 48 <= c <= 57)
    | DurOverflow => exists t r, rest = term_text t ++ r /\ term_ok t /\ (forall c r', r = c :: r' -> 48 <= c <= 57) /\ max_nanos < in_nanos d + terms_nanos ts + term_nanos t
    end.
Proof.
  induction f as [|f IH]; intros s d e Hd Hf H; (destruct s as [|c0 s]; [discriminate|]); [simpl in Hf; lia|].
  cbn [parse_loop] in H. destruct (parse_step (c0 :: s) d) as [[d1 rest]|e'|] eqn:E; [|injection H as ->|discriminate].
  - apply parse_step_ok in E as [t [Ht [Hr [Hs Ha]]]].
    pose proof (add_unit_spec d (number (fst t)) (snd t) Hd) as Hu. rewrite Ha in Hu.
    assert (Hv : number (fst t) <= U64_MAX) by (destruct Ht; consts; lia).
    destruct (Hu Hv) as [Hu1 Hu2]. assert (Hl : (List.length rest <= f)%nat) by (eapply term_shrinks; eauto).
    destruct (IH rest d1 e Hu1 Hl H) as (ts & r & H1 & H2 & H3 & H4).
    assert (S : terms_nanos (t :: ts) = number (fst t) * unit_nanos (snd t) + terms_nanos ts) by reflexivity.
    exists (t :: ts), r. split; [rewrite Hs, H1; cbn [terms_text flat_map]; now rewrite <- app_assoc|]. split; [constructor; auto|]. split; [lia|].
    destruct e; try exact H4.
    + destruct H4 as (_ & -> & c & r' & -> & Hc). exfalso. cbn [terms_text flat_map app] in H1. destruct Hr as [Hr|(x & y & Hr & Hx)]; rewrite Hr in H1; [discriminate|].
      injection H1 as -> _. apply Hc, is_digit_range, Hx.
    + destruct H4 as (t' & r' & A & B & D & C). exists t', r'. split; [exact A|]. split; [exact B|]. split; [exact D|]. lia.
  - pose proof (in_nanos_bound d Hd). apply parse_step_err in E; [|exact Hd|discriminate]. exists [], (c0 :: s). split; [reflexivity|]. split; [constructor|]. change (terms_nanos []) with 0. split; [lia|].
    destruct e; try exact E; [now destruct E|]. now rewrite N.add_0_r.
Qed.

Lemma parse_errors : forall s e, parse s = OErr e ->
  exists ts rest, s = terms_text ts ++ rest /\ Forall term_ok ts /\ terms_nanos ts <= max_nanos /\ error_at ts rest e.
Proof.
  intros [|c s] e H.
  - injection H as <-. exists [], []. split; [reflexivity|]. split; [constructor|]. split; [discriminate|]. split; reflexivity.
  - unfold parse in H. destruct (parse_loop (List.length (c :: s)) (c :: s) duration_zero) as [o|] eqn:E; [|discriminate]. subst o.
    destruct (parse_loop_err _ _ _ _ zero_wf (le_n _) E) as (ts & r & H1 & H2 & H3 & H4).
    exists ts, r. split; [exact H1|]. split; [exact H2|]. split; [exact H3|]. destruct e; try exact H4. destruct H4.
Qed.

Lemma parse_loop_terms : forall ts f rest d, duration_wf d -> Forall term_ok ts -> digit_or_end rest -> in_nanos d + terms_nanos ts <= max_nanos -> (List.length (terms_text ts ++ rest) <= f)%nat ->
  exists f' d', duration_wf d' /\ in_nanos d' = in_nanos d + terms_nanos ts /\ (List.length rest <= f')%nat /\ parse_loop f (terms_text ts ++ rest) d = parse_loop f' rest d'.
Proof.
  induction ts as [|t ts IH]; intros f rest d Hd F R B L.
  - exists f, d. cbn in *. split; [exact Hd|]. split; [lia|]. auto.
  - inversion F as [|? ? Ht F']; subst. cbn [terms_text flat_map] in *. rewrite <- app_assoc in *. fold (terms_text ts) in *.
    assert (S : terms_nanos (t :: ts) = number (fst t) * unit_nanos (snd t) + terms_nanos ts) by reflexivity.
    assert (DE : digit_or_end (terms_text ts ++ rest)).
    { destruct (terms_text_start ts) as [E|(c & r & E & D)]; [eapply Forall_impl; [|exact F']; intros ? [X _]; exact X|rewrite E; exact R|]. right. rewrite E. exists c, (r ++ rest). auto. }
    pose proof (parse_step_term t (terms_text ts ++ rest) d Ht DE) as P. pose proof (add_unit_spec d (number (fst t)) (snd t) Hd) as A. assert (V : number (fst t) <= U64_MAX) by (destruct Ht; consts; lia). specialize (A V).
    destruct (term_text t ++ terms_text ts ++ rest) as [|c s] eqn:E.
    { exfalso. destruct Ht as [[Z _] _]. apply app_eq_nil in E as [E _]. apply app_eq_nil in E as [E _]. contradiction. }
    destruct f as [|f]; [cbn in L; lia|]. cbn [parse_loop]. rewrite P. destruct (add_unit d (number (fst t)) (snd t)) as [d1|e|]; cbn [obind]; [|destruct A; lia|destruct A].
    destruct A as [W A]. destruct (IH f rest d1 W F' R) as (f' & d' & W' & I & L' & E'); [lia|eapply term_shrinks; [exact Ht|symmetry; exact E|exact L]|]. exists f', d'. split; [exact W'|]. split; [lia|]. auto.
Qed.
Lemma digits_first : forall ds r, digits_only ds -> digit_or_end (ds ++ r).
Proof. intros [|c ds] r [N F]; [now elim N|]. inversion F; subst. right. exists c, (ds ++ r). split; [reflexivity|now apply is_digit_range]. Qed.
Lemma step_error : forall ts rest e d, duration_wf d -> in_nanos d = terms_nanos ts -> rest <> [] -> error_at ts rest e -> parse_step rest d = OErr e.
Proof.
  intros ts rest e d Hd Hn Ne H. destruct e as [|t|t| |u]; cbn [error_at] in H.
  - destruct H as [_ ->]. now elim Ne.
  - destruct H as [-> [_ F]]. unfold parse_step. apply all_digits_Forall in F. rewrite (span_all is_digit rest F). reflexivity.
  - destruct H as (-> & _ & c & r & -> & N). unfold parse_step. cbn [span]. destruct (is_digit c) eqn:D; [apply is_digit_range in D; contradiction|]. reflexivity.
  - destruct H as (t & r & -> & T & R & M). rewrite (parse_step_term t r d T).
    + pose proof (add_unit_spec d (number (fst t)) (snd t) Hd) as A. assert (V : number (fst t) <= U64_MAX) by (destruct T; consts; lia). specialize (A V).
      destruct (add_unit d (number (fst t)) (snd t)) as [d1|e|]; cbn [obind]; [|now destruct A as [-> _]|destruct A]. exfalso. destruct A as [W A]. pose proof (in_nanos_bound d1 W). unfold term_nanos in M. lia.
    + destruct r as [|c r]; [now left|]. right. exists c, r. split; [reflexivity|]. apply is_digit_range. eapply R. reflexivity.
  - destruct H as (ds & r & -> & D & B & [Nu U] & K & R). unfold parse_step. destruct D as [Nd D]. apply all_digits_Forall in D.
    assert (UF : forallb (fun c => negb (is_digit c)) u = true).
    { apply forallb_forall. intros c I. rewrite Forall_forall in U. apply U in I. destruct (is_digit c) eqn:X; [apply is_digit_range in X; contradiction|reflexivity]. }
    rewrite (span_intro is_digit ds (u ++ r) D).
    2: { destruct u as [|c u]; [now elim Nu|]. right. exists c, (u ++ r). split; [reflexivity|]. cbn in UF. apply andb_true_iff in UF as [UF _]. now apply negb_true_iff. }
    destruct (u ++ r) as [|c s] eqn:E; [apply app_eq_nil in E as [E _]; contradiction|]. rewrite <- E. destruct ds as [|x ds]; [now elim Nd|].
    assert (Hp : parse_u64 (x :: ds) = Ok (number (x :: ds))). { rewrite number_dec_value in *. apply parse_uint_digits; auto. consts. lia. }
    rewrite Hp. rewrite (span_intro (fun c => negb (is_digit c)) u r UF).
    2: { destruct r as [|y r]; [now left|]. right. exists y, r. split; [reflexivity|]. apply negb_false_iff, is_digit_range. eapply R. reflexivity. }
    destruct (known_unit u) as [[k ->]|(H1 & H2 & H3 & H4 & H5)]; [now elim (K k)|]. now rewrite H1, H2, H3, H4, H5.
Qed.
Lemma parse_errors_iff : forall s e, parse s = OErr e <->
  exists ts rest, s = terms_text ts ++ rest /\ Forall term_ok ts /\ terms_nanos ts <= max_nanos /\ error_at ts rest e.
Proof.
  intros s e. split; [apply parse_errors|]. intros (ts & rest & -> & F & B & H).
  destruct (terms_text ts ++ rest) as [|c s] eqn:E.
  - apply app_eq_nil in E as [E1 ->]. assert (D : Forall term_digits ts) by (eapply Forall_impl; [|exact F]; intros ? [X _]; exact X). apply (terms_text_nil _ D) in E1 as ->. destruct e as [|t|t| |u]; cbn [error_at] in H; [reflexivity|destruct H as [_ [H _]]; now elim H|destruct H as (_ & _ & ? & ? & X & _); discriminate X| |].
    + destruct H as ([ds u] & r & X & [[N _] _] & _). symmetry in X. apply app_eq_nil in X as [X _]. unfold term_text in X. apply app_eq_nil in X as [X _]. contradiction.
    + destruct H as (ds & r & X & [N _] & _). symmetry in X. apply app_eq_nil in X as [X _]. contradiction.
  - unfold parse. rewrite <- E.
    assert (Ne : rest <> []).
    { intros ->. destruct e as [|t|t| |u]; cbn [error_at] in H; [destruct H as [-> _]; discriminate E|destruct H as [_ [H _]]; now elim H|destruct H as (_ & _ & ? & ? & X & _); discriminate X| |].
      + destruct H as ([ds u] & r & X & [[N _] _] & _). symmetry in X. apply app_eq_nil in X as [X _]. unfold term_text in X. apply app_eq_nil in X as [X _]. contradiction.
      + destruct H as (ds & r & X & [N _] & _). symmetry in X. apply app_eq_nil in X as [X _]. contradiction. }
    assert (DE : ts = [] \/ digit_or_end rest).
    { destruct e as [|t|t| |u]; cbn [error_at] in H; [left; tauto|right|left; tauto|right|right].
      + destruct H as [_ H]. rewrite <- (app_nil_r rest). now apply digits_first.
      + destruct H as (t & r & -> & [T _] & _). unfold term_text. rewrite <- app_assoc. now apply digits_first.
      + destruct H as (ds & r & -> & D & _). now apply digits_first. }
    assert (X : exists f d', duration_wf d' /\ in_nanos d' = terms_nanos ts /\ (List.length rest <= f)%nat /\ parse_loop (List.length (terms_text ts ++ rest)) (terms_text ts ++ rest) duration_zero = parse_loop f rest d').
    { destruct DE as [->|DE]; [exists (List.length rest), duration_zero; split; [apply zero_wf|]; auto|]. destruct (parse_loop_terms ts (List.length (terms_text ts ++ rest)) rest duration_zero zero_wf F DE B (le_n _)) as (f & d' & W & I & L & P). exists f, d'. auto. }
    destruct X as (f & d' & W & I & L & ->). destruct rest as [|x r]; [now elim Ne|]. destruct f as [|f]; [cbn in L; lia|]. cbn [parse_loop]. rewrite (step_error ts _ e d' W I Ne H). reflexivity.
Qed.

(** ** Round trip *)

Definition push_term (v : N) (u : time_unit) : list term := if v =? 0 then [] else [(show_N v, u)].

Lemma push_value_text : forall v u, push_value v (unit_text u) = terms_text (push_term v u).
Proof.
  intros v u. unfold push_value, push_term. destruct (v =? 0); [reflexivity|].
  cbn [terms_text flat_map term_text fst snd]. rewrite app_nil_r. reflexivity.
Qed.

Lemma push_term_ok : forall v u, v <= U64_MAX -> Forall term_ok (push_term v u).
Proof.
  intros v u H. unfold push_term. destruct (v =? 0); [constructor|]. repeat constructor.
  - apply show_N_nonempty.
  - cbn [fst]. apply all_digits_Forall. apply show_N_digits.
  - cbn [fst]. rewrite number_dec_value, show_N_value. consts. lia.
Qed.

Lemma terms_nanos_app : forall a b, terms_nanos (a ++ b) = terms_nanos a + terms_nanos b.
Proof.
  intros a b. induction a as [|t a IH]; [reflexivity|]. cbn [app terms_nanos fold_right].
  fold (terms_nanos (a ++ b)) (terms_nanos a). lia.
Qed.

Lemma push_term_nanos : forall v u, terms_nanos (push_term v u) = v * unit_nanos u.
Proof.
  intros v u. unfold push_term. destruct (N.eqb_spec v 0) as [->|]; [reflexivity|].
  cbn [terms_nanos fold_right term_nanos fst snd]. unfold term_nanos. cbn [fst snd].
  rewrite number_dec_value, show_N_value. lia.
Qed.

Lemma terms_text_app : forall a b, terms_text (a ++ b) = terms_text a ++ terms_text b.
Proof. intros. unfold terms_text. apply flat_map_app. Qed.

Definition truncate_micros (d : duration) : duration := mk_duration (secs d) (nanos d / 1000 * 1000).

Definition to_terms (d : duration) : list term :=
  push_term (secs d / 3600) Hours ++ push_term (secs d mod 3600 / 60) Minutes
  ++ push_term (secs d mod 3600 mod 60) Seconds
  ++ push_term (nanos d / 1000 / 1000) Millis ++ push_term (nanos d / 1000 mod 1000) Micros.

Definition to_terms_nonempty (d : duration) : list term :=
  match to_terms d with [] => [([48], Seconds)] | l => l end.

Lemma to_string_terms : forall d, to_string d = terms_text (to_terms_nonempty d).
Proof.
  intros d. unfold to_string, to_terms_nonempty.
  change (of_string "h") with (unit_text Hours). change (of_string "m") with (unit_text Minutes).
  change (of_string "s") with (unit_text Seconds). change (of_string "ms") with (unit_text Millis).
  change (of_string "us") with (unit_text Micros). rewrite !push_value_text. rewrite <- !terms_text_app.
  unfold subsec_micros. consts. fold (to_terms d).
  assert (Hd : Forall term_digits (to_terms d)).
  { unfold to_terms. rewrite !Forall_app.
    assert (G : forall v u, Forall term_digits (push_term v u)).
    { intros v u. unfold push_term. destruct (v =? 0); repeat constructor; cbn [fst].
      - apply show_N_nonempty.
      - apply all_digits_Forall. apply show_N_digits. }
    auto. }
  destruct (to_terms d) as [|t ts] eqn:E.
  - reflexivity.
  - destruct (terms_text (t :: ts)) eqn:E2; [|reflexivity].
    apply terms_text_nil in E2; [discriminate|exact Hd].
Qed.

Lemma truncate_wf : forall d, duration_wf d -> duration_wf (truncate_micros d).
Proof.
  intros [s n]. unfold truncate_micros. consts. cbn [secs nanos]. intros [H1 H2].
  destruct (div_mod_bounds n 1000); lia.
Qed.

Lemma to_terms_nanos : forall d, terms_nanos (to_terms d) = in_nanos (truncate_micros d).
Proof.
  intros [s n]. unfold to_terms, truncate_micros. rewrite !terms_nanos_app, !push_term_nanos.
  consts. cbn [secs nanos unit_nanos].
  destruct (div_mod_bounds s 3600); [lia|]. destruct (div_mod_bounds (s mod 3600) 60); [lia|].
  destruct (div_mod_bounds (n / 1000) 1000); lia.
Qed.

Lemma to_terms_ok : forall d, duration_wf d -> Forall term_ok (to_terms d).
Proof.
  intros [s n] [H1 H2]. cbn [secs nanos] in *. unfold to_terms. cbn [secs nanos]. rewrite !Forall_app.
  destruct (div_mod_bounds s 3600); [lia|]. destruct (div_mod_bounds (s mod 3600) 60); [lia|].
  destruct (div_mod_bounds (n / 1000) 1000); [lia|]. destruct (div_mod_bounds n 1000); [lia|].
  repeat split; apply push_term_ok; consts; lia.
Qed.

Lemma round_trip : forall d, duration_wf d -> parse (to_string d) = OOk (truncate_micros d).
Proof.
  intros d H. apply parse_ok_iff. exists (to_terms_nonempty d).
  rewrite to_string_terms. pose proof (to_terms_ok d H) as Ho. pose proof (to_terms_nanos d) as Hn.
  unfold to_terms_nonempty. destruct (to_terms d) as [|t ts] eqn:E.
  - split; [discriminate|]. split.
    + repeat constructor; cbn; lia || discriminate.
    + split; [reflexivity|]. split; [apply truncate_wf; exact H|]. rewrite <- Hn. reflexivity.
  - split; [discriminate|]. split; [exact Ho|]. split; [reflexivity|].
    split; [apply truncate_wf; exact H|]. symmetry. exact Hn.
Qed.

(** Whatever is accepted prints back to a text with the same meaning. *)
Lemma parse_normalizes : forall s d, parse s = OOk d -> parse (to_string d) = OOk d.
Proof.
  intros s d H. apply parse_ok_iff in H as [ts [H1 [H2 [H3 [H4 H5]]]]].
  rewrite round_trip by exact H4. f_equal. destruct d as [sc n]. unfold truncate_micros. cbn [secs nanos].
  f_equal. assert (Hm : exists k, terms_nanos ts = k * 1000).
  { clear. induction ts as [|t ts [k Hk]]; [exists 0; reflexivity|].
    cbn [terms_nanos fold_right]. fold (terms_nanos ts). unfold term_nanos. rewrite Hk.
    destruct (snd t); cbn [unit_nanos];
      [exists (number (fst t) * 3600000000 + k)|exists (number (fst t) * 60000000 + k)
      |exists (number (fst t) * 1000000 + k)|exists (number (fst t) * 1000 + k)|exists (number (fst t) + k)]; lia. }
  destruct Hm as [k Hk]. rewrite Hk in H5. consts. cbn [secs nanos] in *.
  destruct (div_mod_bounds n 1000); lia.
Qed.
