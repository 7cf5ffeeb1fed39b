(** Proofs about IP address texts. *)

From Coq Require Import String Ascii List NArith ZArith Bool Lia ZifyBool ZifyN ZifyNat.
Import ListNotations.
From Verif Require Import Base BaseFacts Num NumFacts IpModel.
Open Scope N_scope.

Definition not_digit_head (radix : N) (s : str) : Prop :=
  match s with [] => True | c :: _ => to_digit radix c = None end.

Lemma read_digits_printed : forall radix ds m acc rest,
  radix <= 16 -> Forall (fun d => d < radix) ds -> (List.length ds <= m)%nat -> not_digit_head radix rest ->
  read_digits radix m acc (map digit_char ds ++ rest) = Some (List.length ds, value radix ds acc, rest).
Proof.
  intros radix ds. induction ds as [|d ds IH]; intros m acc rest Hr Hd Hm Hn.
  - cbn [map app List.length value]. destruct rest as [|c r]; cbn [read_digits].
    + destruct m; reflexivity.
    + cbn [not_digit_head] in Hn. destruct m; cbn [read_digits]; rewrite Hn; reflexivity.
  - inversion Hd as [|? ? Hd1 Hd2]; subst. cbn [List.length] in Hm. destruct m as [|m]; [lia|].
    cbn [map app read_digits value]. rewrite to_digit_digit_char by assumption.
    rewrite IH by (auto; lia). reflexivity.
Qed.

Lemma digits_length : forall radix n k, 2 <= radix -> n < radix ^ N.of_nat k -> (0 < k)%nat ->
  (List.length (digits radix n) <= k)%nat.
Proof.
  intros radix n k Hr Hn Hk.
  destruct (N.eq_dec n 0) as [->|Hz]; [rewrite digits_0 by exact Hr; cbn [List.length]; lia|].
  destruct (digits_head radix n Hr Hz) as [d [r [E Hd]]].
  pose proof (digits_value radix n Hr) as Hv. rewrite E in *. cbn [value] in Hv.
  pose proof (value_acc_bound radix r (0 * radix + d)) as Hb. rewrite Hv in Hb.
  cbn [List.length]. destruct (Nat.le_gt_cases (S (List.length r)) k) as [H|H]; [exact H|exfalso].
  assert (radix ^ N.of_nat k <= radix ^ N.of_nat (List.length r)) by (apply N.pow_le_mono_r; lia).
  assert (1 * radix ^ N.of_nat (List.length r) <= (0 * radix + d) * radix ^ N.of_nat (List.length r))
    by (apply N.mul_le_mono_r; lia).
  specialize (Hb ltac:(lia)). lia.
Qed.

Lemma show_leading_zero : forall radix n c r, 2 <= radix -> radix <= 16 ->
  map digit_char (digits radix n) = c :: r -> (c =? 48) = true -> n = 0.
Proof.
  intros radix n c r Hr H16 E Hc. destruct (N.eq_dec n 0) as [->|Hz]; [reflexivity|exfalso].
  destruct (digits_head radix n Hr Hz) as [d [r' [E' Hd]]]. rewrite E' in E. cbn [map] in E.
  injection E as E _. unfold digit_char in E. destruct (N.ltb_spec d 10); lia.
Qed.

Lemma read_number_printed : forall radix m allow max n rest,
  2 <= radix -> radix <= 16 -> n <= max -> n < radix ^ N.of_nat m -> (0 < m)%nat -> not_digit_head radix rest ->
  read_number radix m allow max (map digit_char (digits radix n) ++ rest) = Some (n, rest).
Proof.
  intros radix m allow max n rest Hr H16 Hmax Hn Hm Hh. unfold read_number.
  rewrite read_digits_printed; [|exact H16|apply digits_range; exact Hr|apply digits_length; assumption|exact Hh].
  pose proof (digits_nonempty radix n) as Hne. rewrite digits_value by exact Hr.
  destruct (Nat.eqb_spec (List.length (digits radix n)) 0) as [H0|H0];
    [apply length_zero_iff_nil in H0; congruence|].
  assert (Hz : negb allow && match map digit_char (digits radix n) ++ rest with c :: _ => c =? 48 | [] => false end
               && Nat.ltb 1 (List.length (digits radix n)) = false).
  { destruct (map digit_char (digits radix n)) as [|c r] eqn:E; [apply map_eq_nil in E; congruence|].
    cbn [app]. destruct (c =? 48) eqn:Ec; [|rewrite andb_false_r; reflexivity].
    pose proof (show_leading_zero radix n c r Hr H16 E Ec) as ->. rewrite digits_0 by exact Hr. cbn.
    rewrite andb_false_r. reflexivity. }
  rewrite Hz. destruct (N.leb_spec n max); [reflexivity|lia].
Qed.

Lemma read_octet_printed : forall n rest, n <= 255 -> not_digit_head 10 rest ->
  read_octet (show_N n ++ rest) = Some (n, rest).
Proof. intros. apply read_number_printed; auto; try lia. Qed.

Lemma read_group_printed : forall n rest, n <= 65535 -> not_digit_head 16 rest ->
  read_group (show_hex n ++ rest) = Some (n, rest).
Proof. intros. apply read_number_printed; auto; try lia. Qed.

Lemma read_ipv4_printed : forall a b c d rest,
  a <= 255 -> b <= 255 -> c <= 255 -> d <= 255 -> not_digit_head 10 rest ->
  read_ipv4 (show_ipv4 a b c d ++ rest) = Some ((a, b, c, d), rest).
Proof.
  intros a b c d rest Ha Hb Hc Hd Hr. unfold read_ipv4, show_ipv4, read_separator, read_given_char.
  change ($".") with [46]. change (ch ".") with 46. rewrite <- !app_assoc. cbn [app].
  rewrite read_octet_printed by (auto; reflexivity). rewrite N.eqb_refl.
  rewrite read_octet_printed by (auto; reflexivity). rewrite N.eqb_refl.
  rewrite read_octet_printed by (auto; reflexivity). rewrite N.eqb_refl.
  rewrite read_octet_printed by auto. reflexivity.
Qed.

(** A text without a dot is not an IPv4 address, nor does it start with one. *)
Lemma read_digits_app : forall radix m acc s n v rest, read_digits radix m acc s = Some (n, v, rest) ->
  exists p, s = p ++ rest /\ Forall (fun c => to_digit radix c <> None) p /\ not_digit_head radix rest.
Proof.
  intros radix m acc s. revert m acc. induction s as [|c s IH]; intros m acc n v rest H.
  - destruct m; cbn [read_digits] in H; inv H; exists []; cbn; auto.
  - destruct (to_digit radix c) as [d|] eqn:E.
    + destruct m as [|m]; cbn [read_digits] in H; rewrite E in H; [discriminate|].
      destruct (read_digits radix m (acc * radix + d) s) as [[[n' v'] rest']|] eqn:Er; [|discriminate]. inv H.
      apply IH in Er as [p [-> [H1 H2]]]. exists (c :: p). split; [reflexivity|]. split; [|exact H2].
      constructor; [congruence|exact H1].
    + destruct m as [|m]; cbn [read_digits] in H; rewrite E in H; inv H; exists []; cbn; auto.
Qed.

Lemma read_number_app : forall radix m allow max s n rest, read_number radix m allow max s = Some (n, rest) ->
  n <= max /\ exists p, s = p ++ rest /\ p <> [] /\ Forall (fun c => to_digit radix c <> None) p
                        /\ not_digit_head radix rest.
Proof.
  intros radix m allow max s n rest. unfold read_number.
  destruct (read_digits radix m 0 s) as [[[k v] r]|] eqn:E; [|discriminate].
  destruct (Nat.eqb_spec k 0); [discriminate|].
  destruct (negb allow && _ && _); [discriminate|].
  destruct (N.leb_spec v max); [|discriminate]. intros H'. inv H'. split; [assumption|].
  pose proof E as E0. apply read_digits_app in E as [p [-> [H1 H2]]]. exists p. repeat split; auto.
  intros ->. cbn [app] in E0.
  assert (k = O); [|lia]. destruct rest as [|c r].
  - destruct m; cbn in E0; inv E0; reflexivity.
  - cbn in H2. destruct m; cbn in E0; rewrite H2 in E0; inv E0; reflexivity.
Qed.

Lemma read_ipv4_dot : forall s x rest, read_ipv4 s = Some (x, rest) ->
  exists p q, s = p ++ 46 :: q /\ Forall (fun c => to_digit 10 c <> None) p.
Proof.
  intros s x rest. unfold read_ipv4, read_separator.
  destruct (read_octet s) as [[a s1]|] eqn:E1; [|discriminate].
  destruct (read_given_char (ch ".") s1) as [s2|] eqn:E2; [|discriminate]. intros _.
  unfold read_octet in E1. apply read_number_app in E1 as [_ [p [-> [_ [H _]]]]].
  unfold read_given_char in E2. destruct s1 as [|c r]; [discriminate|].
  destruct (N.eqb_spec c (ch ".")); [|discriminate]. subst c. exists p, r. auto.
Qed.

(** What precedes the first non-digit decides. *)
Lemma read_ipv4_stop : forall p c q, Forall (fun c => to_digit 10 c <> None) p ->
  to_digit 10 c = None -> c <> 46 -> read_ipv4 (p ++ c :: q) = None.
Proof.
  intros p c q Hp Hc Hn. destruct (read_ipv4 (p ++ c :: q)) as [[x rest]|] eqn:E; [exfalso|reflexivity].
  apply read_ipv4_dot in E as [p' [q' [E Hp']]]. revert p' E Hp'.
  induction Hp as [|d p Hd Hp IH]; intros p' E Hp'.
  - destruct p' as [|e p']; cbn [app] in E; injection E as E1 E2; [congruence|].
    inversion Hp'; subst. congruence.
  - destruct p' as [|e p']; cbn [app] in E; injection E as E1 E2.
    + subst d. apply Hd. reflexivity.
    + inversion Hp'; subst. eapply IH; eauto.
Qed.

Lemma read_ipv4_nodot : forall s, ~ In 46 s -> read_ipv4 s = None.
Proof.
  intros s H. destruct (read_ipv4 s) as [[x rest]|] eqn:E; [exfalso|reflexivity].
  apply read_ipv4_dot in E as [p [q [-> _]]]. apply H. apply in_or_app. right. left. reflexivity.
Qed.

(** The longest decimal prefix of a text. *)
Definition is_dec (c : char) : bool := match to_digit 10 c with Some _ => true | None => false end.

Lemma read_ipv4_hex_colon : forall g q, read_ipv4 (show_hex g ++ 58 :: q) = None.
Proof.
  intros g q.
  assert (H : forall l, Forall (fun c => to_digit 16 c <> None) l -> read_ipv4 (l ++ 58 :: q) = None).
  { intros l Hl. destruct (span is_dec l) as [a b] eqn:E.
    pose proof (span_app _ _ _ _ E) as ->. pose proof (span_forall _ _ _ _ E) as Ha.
    assert (Ha' : Forall (fun c => to_digit 10 c <> None) a).
    { rewrite Forall_forall. rewrite forallb_forall in Ha. intros c Hc. apply Ha in Hc. unfold is_dec in Hc.
      destruct (to_digit 10 c); congruence. }
    rewrite <- app_assoc. destruct (span_rest _ _ _ _ E) as [->|[c [r [-> Hc]]]].
    - cbn [app]. apply read_ipv4_stop; [exact Ha'|reflexivity|discriminate].
    - cbn [app]. apply read_ipv4_stop; [exact Ha'| |].
      + unfold is_dec in Hc. destruct (to_digit 10 c); congruence.
      + intros ->. rewrite Forall_forall in Hl. apply (Hl 46); [apply in_or_app; right; left; reflexivity|reflexivity]. }
  apply H. unfold show_hex. rewrite Forall_forall. intros c Hc. apply in_map_iff in Hc as [d [<- Hd]].
  assert (Hr : Forall (fun d => d < 16) (digits 16 g)) by (apply digits_range; lia).
  rewrite Forall_forall in Hr. rewrite to_digit_digit_char by (auto; lia). discriminate.
Qed.

Lemma show_hex_digits : forall g c, In c (show_hex g) -> to_digit 16 c <> None.
Proof.
  intros g c Hc. unfold show_hex in Hc. apply in_map_iff in Hc as [d [<- Hd]].
  assert (Hr : Forall (fun d => d < 16) (digits 16 g)) by (apply digits_range; lia).
  rewrite Forall_forall in Hr. rewrite to_digit_digit_char by (auto; lia). discriminate.
Qed.

Lemma show_hex_nonempty : forall g, show_hex g <> [].
Proof. intros g H. unfold show_hex in H. apply map_eq_nil in H. revert H. apply digits_nonempty. Qed.

(** ** Reading printed groups *)

(** Groups each preceded by a colon. *)
Definition colon_groups (l : list N) : str := flat_map (fun g => 58 :: show_hex g) l.

Lemma fmt_subslice_cons : forall g l, fmt_subslice (g :: l) = show_hex g ++ colon_groups l.
Proof.
  intros g l. unfold fmt_subslice. revert g. induction l as [|h l IH]; intros g; cbn [map].
  - cbn [join colon_groups flat_map]. rewrite app_nil_r. reflexivity.
  - cbn [map] in IH.
    change (join $":" (show_hex g :: show_hex h :: map show_hex l))
      with (show_hex g ++ $":" ++ join $":" (show_hex h :: map show_hex l)).
    rewrite IH. reflexivity.
Qed.

(** What may follow the groups: the end, or a double colon. *)
Definition groups_end (rest : str) : Prop := rest = [] \/ exists q, rest = 58 :: 58 :: q.

Lemma read_sep_ipv4_end : forall rest, groups_end rest -> read_separator (ch ":") false read_ipv4 rest = None.
Proof. intros rest [->|[q ->]]; reflexivity. Qed.

Lemma read_sep_group_end : forall rest, groups_end rest -> read_separator (ch ":") false read_group rest = None.
Proof. intros rest [->|[q ->]]; reflexivity. Qed.

Lemma groups_end_head : forall rest, groups_end rest -> not_digit_head 16 rest.
Proof. intros rest [->|[q ->]]; reflexivity. Qed.

Lemma colon_groups_head : forall l rest, groups_end rest -> not_digit_head 16 (colon_groups l ++ rest).
Proof. intros [|g l] rest H; cbn; [apply groups_end_head; exact H|reflexivity]. Qed.

Lemma read_ipv4_groups : forall g l rest, groups_end rest -> read_ipv4 (show_hex g ++ colon_groups l ++ rest) = None.
Proof.
  intros g l rest H.
  assert (N46 : ~ In 46 (show_hex g)) by (intros Hi; apply show_hex_digits in Hi; apply Hi; reflexivity).
  destruct l as [|h l]; cbn [colon_groups flat_map app].
  - destruct H as [->|[q ->]].
    + rewrite app_nil_r. apply read_ipv4_nodot. exact N46.
    + apply read_ipv4_hex_colon.
  - rewrite <- app_assoc. apply read_ipv4_hex_colon.
Qed.

Lemma read_groups_rest : forall l limit rest,
  Forall (fun g => g <= 65535) l -> (List.length l <= limit)%nat -> groups_end rest ->
  read_groups limit false (colon_groups l ++ rest) = (l, false, rest).
Proof.
  intros l. induction l as [|g l IH]; intros limit rest Hl Hn He.
  - cbn [colon_groups flat_map app]. destruct limit as [|[|limit]]; [reflexivity| |].
    + cbn [read_groups]. rewrite read_sep_group_end by exact He. reflexivity.
    + cbn [read_groups]. rewrite read_sep_ipv4_end, read_sep_group_end by exact He. reflexivity.
  - inversion Hl as [|? ? Hg Hl']; subst. cbn [List.length] in Hn. destruct limit as [|limit]; [lia|].
    specialize (IH limit rest Hl' ltac:(lia) He).
    assert (R : read_separator (ch ":") false read_group (colon_groups (g :: l) ++ rest)
                = Some (g, colon_groups l ++ rest)).
    { unfold read_separator, read_given_char. cbn [colon_groups flat_map app].
      change (58 =? ch ":") with true. cbn iota. rewrite <- app_assoc.
      apply read_group_printed; [exact Hg|]. apply colon_groups_head. exact He. }
    assert (R4 : read_separator (ch ":") false read_ipv4 (colon_groups (g :: l) ++ rest) = None).
    { unfold read_separator, read_given_char. cbn [colon_groups flat_map app].
      change (58 =? ch ":") with true. cbn iota. rewrite <- app_assoc.
      apply read_ipv4_groups. exact He. }
    cbn [read_groups]. rewrite R, R4, IH. destruct limit; reflexivity.
Qed.

Lemma read_first_empty : forall limit rest, groups_end rest -> read_groups limit true rest = ([], false, rest).
Proof. intros limit rest [->|[q ->]]; destruct limit as [|[|limit]]; reflexivity. Qed.

Lemma read_groups_printed : forall l limit rest,
  Forall (fun g => g <= 65535) l -> (List.length l <= limit)%nat -> groups_end rest ->
  read_groups limit true (fmt_subslice l ++ rest) = (l, false, rest).
Proof.
  intros l limit rest Hl Hn He. destruct l as [|g l]; [apply read_first_empty; exact He|].
  inversion Hl as [|? ? Hg Hl']; subst. cbn [List.length] in Hn. destruct limit as [|limit]; [lia|].
  rewrite fmt_subslice_cons, <- app_assoc.
  assert (R : read_separator (ch ":") true read_group (show_hex g ++ colon_groups l ++ rest)
              = Some (g, colon_groups l ++ rest)).
  { unfold read_separator. apply read_group_printed; [exact Hg|]. apply colon_groups_head. exact He. }
  assert (R4 : read_separator (ch ":") true read_ipv4 (show_hex g ++ colon_groups l ++ rest) = None).
  { unfold read_separator. apply read_ipv4_groups. exact He. }
  cbn [read_groups]. rewrite R, R4. rewrite read_groups_rest by (auto; lia). destruct limit; reflexivity.
Qed.

(** ** Zero spans *)

Lemma skipn_skipn_add : forall {A} (a b : nat) (l : list A), skipn a (skipn b l) = skipn (b + a) l.
Proof.
  intros A a b. induction b as [|b IH]; intros l; [reflexivity|]. destruct l as [|x l]; [destruct a; reflexivity|].
  cbn [skipn Nat.add]. apply IH.
Qed.

Definition span_zero (l : list N) (sp : nat * nat) : Prop :=
  (fst sp + snd sp <= List.length l)%nat /\ firstn (snd sp) (skipn (fst sp) l) = repeat 0 (snd sp).

Lemma zero_spans_ok : forall l pre cur longest,
  span_zero (pre ++ l) longest ->
  (snd cur = O \/ (fst cur + snd cur = List.length pre)%nat /\ span_zero pre cur) ->
  span_zero (pre ++ l) (zero_spans (List.length pre) cur longest l).
Proof.
  intros l. induction l as [|g l IH]; intros pre cur longest HL HC; cbn [zero_spans]; [exact HL|].
  destruct (N.eqb_spec g 0) as [->|Hg].
  - set (cur' := if Nat.eqb (snd cur) 0 then (List.length pre, 1%nat) else (fst cur, S (snd cur))).
    assert (HC' : (fst cur' + snd cur' = List.length (pre ++ [0%N]))%nat /\ span_zero (pre ++ [0]) cur').
    { rewrite app_length. cbn [List.length]. unfold cur'. destruct (Nat.eqb_spec (snd cur) 0) as [H0|H0]; cbn [fst snd].
      - split; [lia|]. split; cbn [fst snd]; [rewrite app_length; cbn [List.length]; lia|].
        rewrite skipn_app, Nat.sub_diag, skipn_all. reflexivity.
      - destruct HC as [HC|[HC1 [HC2 HC3]]]; [lia|]. split; [lia|]. split; cbn [fst snd].
        + rewrite app_length. cbn [List.length]. lia.
        + rewrite skipn_app. replace (fst cur - List.length pre)%nat with O by lia. cbn [skipn].
          rewrite firstn_app. rewrite skipn_length.
          replace (S (snd cur) - (List.length pre - fst cur))%nat with 1%nat by lia.
          rewrite firstn_all2 by (rewrite skipn_length; lia).
          assert (E : skipn (fst cur) pre = repeat 0 (snd cur)).
          { rewrite <- HC3. symmetry. apply firstn_all2. rewrite skipn_length. lia. }
          rewrite E. cbn [firstn]. change [0] with (repeat 0 1). rewrite <- repeat_app.
          f_equal. lia. }
    assert (HC'' : span_zero (pre ++ 0 :: l) cur').
    { destruct HC' as [H1 [H2 H3]]. split.
      - rewrite app_length in *. cbn [List.length] in *. lia.
      - change (pre ++ 0 :: l) with (pre ++ [0] ++ l). rewrite app_assoc.
        rewrite skipn_app, firstn_app, skipn_length.
        replace (fst cur' - List.length (pre ++ [0%N]))%nat with O by lia.
        replace (snd cur' - (List.length (pre ++ [0%N]) - fst cur'))%nat with O by lia.
        cbn [skipn firstn]. rewrite app_nil_r. exact H3. }
    cbv zeta. replace (S (List.length pre)) with (List.length (pre ++ [0%N]))
      by (rewrite app_length; cbn [List.length]; lia).
    change (pre ++ 0 :: l) with (pre ++ [0] ++ l) in *. rewrite app_assoc in *.
    apply IH; [|right; exact HC']. fold cur'. destruct (Nat.ltb (snd longest) (snd cur')); assumption.
  - replace (S (List.length pre)) with (List.length (pre ++ [g])) by (rewrite app_length; cbn [List.length]; lia).
    change (pre ++ g :: l) with (pre ++ [g] ++ l) in *. rewrite app_assoc in *.
    apply IH; [exact HL|left; reflexivity].
Qed.

Lemma zero_spans_split : forall l start len, zero_spans 0 (O, O) (O, O) l = (start, len) ->
  l = firstn start l ++ repeat 0 len ++ skipn (start + len) l /\ (start + len <= List.length l)%nat.
Proof.
  intros l start len E.
  assert (H : span_zero l (start, len)).
  { rewrite <- E. apply (zero_spans_ok l [] (O, O) (O, O)); [|left; reflexivity].
    split; cbn; [lia|reflexivity]. }
  destruct H as [H1 H2]. cbn [fst snd] in *. split; [|exact H1].
  rewrite <- H2. rewrite <- (firstn_skipn start l) at 1. f_equal.
  rewrite <- (firstn_skipn len (skipn start l)) at 1. f_equal.
  rewrite skipn_skipn_add. reflexivity.
Qed.

(** ** Round trip *)

Lemma read_colon : forall r, read_given_char (ch ":") (58 :: r) = Some r.
Proof. reflexivity. Qed.

Lemma read_ipv6_double : forall pre post,
  Forall (fun g => g <= 65535) pre -> Forall (fun g => g <= 65535) post ->
  (List.length pre + List.length post <= 7)%nat ->
  read_ipv6 (fmt_subslice pre ++ $"::" ++ fmt_subslice post) =
  Some (pre ++ repeat 0 (8 - List.length pre - List.length post) ++ post, []).
Proof.
  intros pre post Hp Hq Hn. unfold read_ipv6.
  change ($"::") with [58; 58]. cbn [app].
  rewrite read_groups_printed; [|exact Hp|lia|right; eauto].
  destruct (Nat.eqb_spec (List.length pre) 8); [lia|]. rewrite !read_colon.
  rewrite <- (app_nil_r (fmt_subslice post)).
  rewrite read_groups_printed; [|exact Hq|lia|left; reflexivity]. reflexivity.
Qed.

Lemma read_ipv6_full : forall l, Forall (fun g => g <= 65535) l -> List.length l = 8%nat ->
  read_ipv6 (fmt_subslice l) = Some (l, []).
Proof.
  intros l Hl Hn. unfold read_ipv6. rewrite <- (app_nil_r (fmt_subslice l)).
  rewrite read_groups_printed; [|exact Hl|lia|left; reflexivity]. rewrite Hn. reflexivity.
Qed.

Lemma div_bound : forall g, g <= 65535 -> g / 256 <= 255 /\ g mod 256 <= 255 /\ g / 256 * 256 + g mod 256 = g.
Proof. intros g H. pose proof (N.div_mod' g 256). pose proof (N.mod_lt g 256 ltac:(lia)). lia. Qed.

Lemma read_ipv6_mapped : forall g h, g <= 65535 -> h <= 65535 ->
  read_ipv6 ($"::ffff:" ++ show_ipv4 (g / 256) (g mod 256) (h / 256) (h mod 256)) =
  Some ([0; 0; 0; 0; 0; 65535; g; h], []).
Proof.
  intros g h Hg Hh. destruct (div_bound g Hg) as [G1 [G2 G3]]. destruct (div_bound h Hh) as [H1 [H2 H3]].
  set (v4 := show_ipv4 _ _ _ _).
  assert (R : read_ipv4 v4 = Some ((g / 256, g mod 256, h / 256, h mod 256), [])).
  { rewrite <- (app_nil_r v4). apply read_ipv4_printed; auto. exact I. }
  unfold read_ipv6. change ($"::ffff:" ++ v4) with (58 :: 58 :: show_hex 65535 ++ 58 :: v4).
  rewrite read_first_empty by (right; eauto). cbn [List.length Nat.eqb]. rewrite !read_colon.
  change (7 - 0)%nat with 7%nat. cbn [read_groups].
  unfold read_separator at 1 2. rewrite read_ipv4_hex_colon. rewrite read_group_printed by (try lia; reflexivity).
  unfold read_separator at 1. rewrite read_colon.
  rewrite R. cbn [List.length app Nat.sub repeat]. rewrite G3, H3. reflexivity.
Qed.

Lemma read_ipv6_compat : forall g h, g <= 65535 -> h <= 65535 ->
  read_ipv6 ($"::" ++ show_ipv4 (g / 256) (g mod 256) (h / 256) (h mod 256)) =
  Some ([0; 0; 0; 0; 0; 0; g; h], []).
Proof.
  intros g h Hg Hh. destruct (div_bound g Hg) as [G1 [G2 G3]]. destruct (div_bound h Hh) as [H1 [H2 H3]].
  set (v4 := show_ipv4 _ _ _ _).
  assert (R : read_ipv4 v4 = Some ((g / 256, g mod 256, h / 256, h mod 256), [])).
  { rewrite <- (app_nil_r v4). apply read_ipv4_printed; auto. exact I. }
  unfold read_ipv6. change ($"::" ++ v4) with (58 :: 58 :: v4).
  rewrite read_first_empty by (right; eauto). cbn [List.length Nat.eqb]. rewrite !read_colon.
  change (7 - 0)%nat with 7%nat. cbn [read_groups]. unfold read_separator at 1. rewrite R.
  cbn [List.length app Nat.sub repeat]. rewrite G3, H3. reflexivity.
Qed.

Definition general_ipv6 (l : list N) : str :=
  let '(start, len) := zero_spans 0 (O, O) (O, O) l in
  if Nat.ltb 1 len then fmt_subslice (firstn start l) ++ $"::" ++ fmt_subslice (skipn (start + len) l)
  else fmt_subslice l.

Lemma read_general : forall l, List.length l = 8%nat -> Forall (fun g => g <= 65535) l ->
  read_ipv6 (general_ipv6 l) = Some (l, []).
Proof.
  intros l Hn Hl. unfold general_ipv6. destruct (zero_spans 0 (O, O) (O, O) l) as [start len] eqn:E.
  destruct (Nat.ltb_spec 1 len); [|apply read_ipv6_full; assumption].
  apply zero_spans_split in E as [E1 E2].
  assert (HA : Forall (fun g => g <= 65535) (firstn start l)) by (rewrite E1 in Hl; apply Forall_app in Hl; tauto).
  assert (HB : Forall (fun g => g <= 65535) (skipn (start + len) l)).
  { rewrite E1 in Hl. apply Forall_app in Hl as [_ Hl]. apply Forall_app in Hl. tauto. }
  assert (L1 : List.length (firstn start l) = start) by (rewrite firstn_length; lia).
  assert (L2 : List.length (skipn (start + len) l) = (8 - start - len)%nat) by (rewrite skipn_length; lia).
  rewrite read_ipv6_double; [|exact HA|exact HB|lia].
  rewrite L1, L2. replace (8 - start - (8 - start - len))%nat with len by lia. rewrite <- E1. reflexivity.
Qed.

(** The shape of a printed IPv6 address. *)
Lemma show_ipv6_cases : forall compat l,
  (exists g h, l = [0; 0; 0; 0; 0; 65535; g; h] /\
     show_ipv6 compat l = $"::ffff:" ++ show_ipv4 (g / 256) (g mod 256) (h / 256) (h mod 256)) \/
  (exists g h, l = [0; 0; 0; 0; 0; 0; g; h] /\
     show_ipv6 compat l = $"::" ++ show_ipv4 (g / 256) (g mod 256) (h / 256) (h mod 256)) \/
  show_ipv6 compat l = general_ipv6 l.
Proof.
  intros compat l. unfold show_ipv6, general_ipv6.
  destruct l as [|[|?] [|[|?] [|[|?] [|[|?] [|[|?] [|x [|g [|h [|]]]]]]]]]; auto.
  destruct (N.eqb_spec x 65535) as [->|].
  - left. exists g, h. auto.
  - destruct (compat && (x =? 0) && negb ((g =? 0) && ((h =? 0) || (h =? 1)))) eqn:E; auto.
    right. left. assert (x = 0) by lia. subst x. exists g, h. auto.
Qed.

Lemma show_ipv6_not_v4 : forall compat l, List.length l = 8%nat -> read_ipv4 (show_ipv6 compat l) = None.
Proof.
  intros compat l Hn. destruct (show_ipv6_cases compat l) as [[g [h [-> E]]]|[[g [h [-> E]]]|E]]; rewrite E.
  - reflexivity.
  - reflexivity.
  - unfold general_ipv6. destruct (zero_spans 0 (O, O) (O, O) l) as [start len].
    destruct (Nat.ltb 1 len).
    + destruct (firstn start l) as [|a p].
      * reflexivity.
      * rewrite fmt_subslice_cons, <- app_assoc. apply read_ipv4_groups. right.
        exists (fmt_subslice (skipn (start + len) l)). reflexivity.
    + destruct l as [|a l]; [discriminate|]. rewrite fmt_subslice_cons, <- (app_nil_r (colon_groups l)).
      apply read_ipv4_groups. left. reflexivity.
Qed.

Lemma ip_round_trip : forall compat ip, ip_wf ip -> ip_parse (ip_show compat ip) = Some ip.
Proof.
  intros compat [a b c d|l] H; cbn [ip_wf ip_show] in *; unfold ip_parse.
  - rewrite <- (app_nil_r (show_ipv4 a b c d)). rewrite read_ipv4_printed by (tauto || exact I). reflexivity.
  - destruct H as [Hn Hl]. rewrite show_ipv6_not_v4 by exact Hn.
    assert (R : read_ipv6 (show_ipv6 compat l) = Some (l, [])); [|rewrite R; reflexivity].
    destruct (show_ipv6_cases compat l) as [[g [h [-> E]]]|[[g [h [-> E]]]|E]]; rewrite E.
    + apply read_ipv6_mapped; rewrite Forall_forall in Hl; apply Hl; cbn; tauto.
    + apply read_ipv6_compat; rewrite Forall_forall in Hl; apply Hl; cbn; tauto.
    + apply read_general; assumption.
Qed.

(** Whatever is parsed is a real address. *)
Lemma read_octet_bound : forall s n r, read_octet s = Some (n, r) -> n <= 255.
Proof. intros s n r H. apply read_number_app in H. tauto. Qed.

Lemma read_ipv4_bound : forall s a b c d r, read_ipv4 s = Some ((a, b, c, d), r) ->
  a <= 255 /\ b <= 255 /\ c <= 255 /\ d <= 255.
Proof.
  intros s a b c d r. unfold read_ipv4, read_separator.
  destruct (read_octet s) as [[a' s1]|] eqn:E1; [|discriminate].
  destruct (read_given_char (ch ".") s1) as [s1'|]; [|discriminate].
  destruct (read_octet s1') as [[b' s2]|] eqn:E2; [|discriminate].
  destruct (read_given_char (ch ".") s2) as [s2'|]; [|discriminate].
  destruct (read_octet s2') as [[c' s3]|] eqn:E3; [|discriminate].
  destruct (read_given_char (ch ".") s3) as [s3'|]; [|discriminate].
  destruct (read_octet s3') as [[d' s4]|] eqn:E4; [|discriminate].
  intros H. inv H. eauto 10 using read_octet_bound.
Qed.

Lemma read_groups_bound : forall limit first s gs v4 r, read_groups limit first s = (gs, v4, r) ->
  (List.length gs <= limit)%nat /\ Forall (fun g => g <= 65535) gs.
Proof.
  intros limit. induction limit as [|limit IH]; intros first s gs v4 r H; cbn [read_groups] in H.
  - inv H. split; [cbn; lia|constructor].
  - assert (G : forall gs v4 r,
      (match read_separator (ch ":") first read_group s with
       | Some (g, r) => let '(gs, v4, rest) := read_groups limit false r in (g :: gs, v4, rest)
       | None => ([], false, s)
       end) = (gs, v4, r) -> (List.length gs <= S limit)%nat /\ Forall (fun g => g <= 65535) gs).
    { clear H gs v4 r. intros gs v4 r H. destruct (read_separator (ch ":") first read_group s) as [[g r']|] eqn:E.
      - destruct (read_groups limit false r') as [[gs' v4'] rest] eqn:E'. inv H.
        apply IH in E' as [H1 H2]. split; [cbn [List.length]; lia|]. constructor; [|exact H2].
        unfold read_separator in E.
        destruct first; [|destruct (read_given_char (ch ":") s); [|discriminate]];
          apply read_number_app in E; tauto.
      - inv H. split; [cbn; lia|constructor]. }
    destruct limit as [|limit]; [eapply G; exact H|].
    destruct (read_separator (ch ":") first read_ipv4 s) as [[[[[a b] c] d] r']|] eqn:E; [|eapply G; exact H].
    inv H. split; [cbn; lia|].
    assert (B : a <= 255 /\ b <= 255 /\ c <= 255 /\ d <= 255).
    { unfold read_separator in E. destruct first; [|destruct (read_given_char (ch ":") s); [|discriminate]];
        eapply read_ipv4_bound; exact E. }
    repeat constructor; lia.
Qed.

Lemma ip_parse_wf : forall s ip, ip_parse s = Some ip -> ip_wf ip.
Proof.
  intros s ip. unfold ip_parse. destruct (read_ipv4 s) as [[[[[a b] c] d] r]|] eqn:E4.
  - destruct r; [|discriminate]. intros H. inv H. eapply read_ipv4_bound. exact E4.
  - destruct (read_ipv6 s) as [[l [|]]|] eqn:E6; try discriminate. intros H. inv H. cbn [ip_wf].
    unfold read_ipv6 in E6. destruct (read_groups 8 true s) as [[head v4] s1] eqn:E1.
    apply read_groups_bound in E1 as [L1 B1].
    destruct (Nat.eqb_spec (List.length head) 8); [inv E6; auto|]. destruct v4; [discriminate|].
    destruct (read_given_char (ch ":") s1) as [s2|]; [|discriminate].
    destruct (read_given_char (ch ":") s2) as [s3|]; [|discriminate].
    destruct (read_groups (7 - List.length head) true s3) as [[tail v4] s4] eqn:E2.
    apply read_groups_bound in E2 as [L2 B2].
    remember (8 - List.length head - List.length tail)%nat as k eqn:Ek. injection E6 as <- _. split.
    + rewrite !app_length, repeat_length. lia.
    + apply Forall_app. split; [exact B1|]. apply Forall_app. split; [|exact B2].
      rewrite Forall_forall. intros x Hx. apply repeat_spec in Hx. lia.
Qed.

(** The characters of a printed address. *)
Definition ip_char (c : char) : bool :=
  is_digit c || between 97 102 c || (c =? 46) || (c =? 58).

Lemma show_hex_chars : forall g, forallb ip_char (show_hex g) = true.
Proof.
  intros g. rewrite forallb_forall. intros c Hc. unfold show_hex in Hc. apply in_map_iff in Hc as [d [<- Hd]].
  assert (Hr : Forall (fun d => d < 16) (digits 16 g)) by (apply digits_range; lia).
  rewrite Forall_forall in Hr. apply Hr in Hd. unfold ip_char, digit_char. destruct (N.ltb_spec d 10); cls; lia.
Qed.

Lemma show_N_chars : forall n, forallb ip_char (show_N n) = true.
Proof.
  intros n. eapply forallb_impl; [|apply show_N_digits]. intros c H. unfold ip_char. rewrite H. reflexivity.
Qed.

Lemma show_ipv4_chars : forall a b c d, forallb ip_char (show_ipv4 a b c d) = true.
Proof.
  intros. unfold show_ipv4. rewrite !forallb_app, !show_N_chars. reflexivity.
Qed.

Lemma fmt_subslice_chars : forall l, forallb ip_char (fmt_subslice l) = true.
Proof.
  intros [|g l]; [reflexivity|]. rewrite fmt_subslice_cons, forallb_app, show_hex_chars. cbn [andb].
  induction l as [|h l IH]; [reflexivity|]. unfold colon_groups. cbn [flat_map app forallb].
  rewrite forallb_app, show_hex_chars. exact IH.
Qed.

Lemma ip_show_chars : forall compat ip, forallb ip_char (ip_show compat ip) = true.
Proof.
  intros compat [a b c d|l]; cbn [ip_show]; [apply show_ipv4_chars|].
  destruct (show_ipv6_cases compat l) as [[g [h [-> E]]]|[[g [h [-> E]]]|E]]; rewrite E.
  - rewrite forallb_app, show_ipv4_chars. reflexivity.
  - rewrite forallb_app, show_ipv4_chars. reflexivity.
  - unfold general_ipv6. destruct (zero_spans 0 (O, O) (O, O) l) as [start len].
    destruct (Nat.ltb 1 len); rewrite ?forallb_app, ?fmt_subslice_chars; reflexivity.
Qed.

Lemma ip_show_not_In : forall compat ip c, ip_char c = false -> ~ In c (ip_show compat ip).
Proof. intros compat ip c H. eapply forallb_not_In; [apply ip_show_chars|exact H]. Qed.
