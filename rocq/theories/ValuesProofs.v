(** Proofs about scalar values. *)

From Coq Require Import String Ascii List NArith ZArith Bool Lia ZifyBool ZifyN ZifyNat.
Import ListNotations.
From Verif Require Import Base BaseFacts Num NumFacts Regex RegexFacts Coll CollFacts KeysModel KeysProofs
  ValuesModel ValuesSpec.
Open Scope N_scope.

(** ** Texts *)

Lemma in_digit : forall c, in_clsb [DIGIT] c = is_digit c.
Proof. intros c. unfold in_clsb, DIGIT, rng. cbn [existsb fst snd]. rewrite orb_false_r. reflexivity. Qed.

Lemma forallb_digit : forall s, forallb (in_clsb [DIGIT]) s = all_digits s.
Proof. intros s. unfold all_digits. induction s as [|c s IH]; cbn [forallb]; [reflexivity|]. rewrite in_digit, IH. reflexivity. Qed.

Lemma plus_digits : forall s, matches (Plus D) s <-> s <> [] /\ all_digits s = true.
Proof. intros s. unfold D. rewrite matches_plus_cls, forallb_digit. tauto. Qed.

Lemma star_digits : forall s, matches (Star D) s <-> all_digits s = true.
Proof. intros s. unfold D. rewrite matches_star_cls, Forall_in_cls, forallb_digit. tauto. Qed.

Definition is_sign (c : char) : bool := (c =? ch "+") || (c =? ch "-").

Lemma in_sign : forall c, in_cls [one "+"; one "-"] c <-> is_sign c = true.
Proof.
  intros c. rewrite <- in_clsb_iff. unfold in_clsb, one, is_sign, between. cbn [existsb fst snd]. lia.
Qed.

Lemma strip_sign_cases : forall s,
  (exists c r, s = c :: r /\ is_sign c = true /\ strip_sign s = r) \/
  (match s with c :: _ => is_sign c = false | [] => True end /\ strip_sign s = s).
Proof.
  intros [|c r]; cbn [strip_sign]; [right; auto|]. fold (is_sign c). destruct (is_sign c) eqn:E; [left|right]; eauto.
Qed.

(** A sign is optional in front of a text which does not start with a sign. *)
Lemma cat_sign : forall r s, (forall c t, matches r (c :: t) -> is_sign c = false) ->
  (matches (Cat SIGN r) s <-> matches r (strip_sign s)).
Proof.
  intros r s Hr. unfold SIGN, Opt. rewrite matches_cat. split.
  - intros [x [y [-> [H1 H2]]]]. apply matches_alt in H1. destruct H1 as [H1|H1].
    + apply matches_eps in H1. subst x. cbn [app]. destruct y as [|c y]; [exact H2|]. cbn [strip_sign].
      pose proof (Hr c y H2) as E. unfold is_sign in E. rewrite E. exact H2.
    + apply matches_cls in H1. destruct H1 as [c [-> H1]]. apply in_sign in H1. cbn [app strip_sign].
      unfold is_sign in H1. rewrite H1. exact H2.
  - intros H. destruct (strip_sign_cases s) as [[c [t [-> [Hc E]]]]|[Hc E]]; rewrite E in H.
    + exists [c], t. split; [reflexivity|]. split; [|exact H]. apply matches_alt. right. apply matches_cls.
      exists c. split; [reflexivity|]. apply in_sign. exact Hc.
    + exists [], s. split; [reflexivity|]. split; [|exact H]. apply matches_alt. left. constructor.
Qed.

Lemma digit_not_sign : forall c, is_digit c = true -> is_sign c = false.
Proof. intros c H. unfold is_sign. cls. lia. Qed.

Lemma plus_digits_head : forall c t, matches (Plus D) (c :: t) -> is_sign c = false.
Proof.
  intros c t H. apply plus_digits in H. destruct H as [_ H]. unfold all_digits in H. cbn [forallb] in H.
  apply andb_true_iff in H. apply digit_not_sign. tauto.
Qed.

Lemma int_re : forall s, matches INT_RE s <-> strip_sign s <> [] /\ all_digits (strip_sign s) = true.
Proof. intros s. unfold INT_RE. rewrite cat_sign by exact plus_digits_head. apply plus_digits. Qed.

Lemma exponent_re : forall s, matches EXPONENT_RE s <-> is_exponent s = true.
Proof.
  intros s. unfold EXPONENT_RE, Opt. rewrite matches_alt, matches_eps. destruct s as [|c r]; [cbn; tauto|].
  cbn [is_exponent].
  assert (A : matches (Cat (Cls [one "e"; one "E"]) (Cat SIGN (Plus D))) (c :: r) <->
              ((c =? ch "e") || (c =? ch "E")) = true /\ matches (Plus D) (strip_sign r)).
  { rewrite matches_cat, <- (cat_sign (Plus D)) by exact plus_digits_head. split.
    - intros [x [y [E [H1 H2]]]]. apply matches_cls in H1. destruct H1 as [d [-> H1]]. cbn [app] in E.
      injection E as -> ->. split; [|exact H2]. apply in_clsb_iff in H1. unfold in_clsb, one, between in H1.
      cbn [existsb fst snd] in H1. lia.
    - intros [H1 H2]. exists [c], r. split; [reflexivity|]. split; [|exact H2]. apply matches_cls. exists c.
      split; [reflexivity|]. apply in_clsb_iff. unfold in_clsb, one, between. cbn [existsb fst snd]. lia. }
  rewrite A, plus_digits, andb_true_iff. unfold all_digits. destruct (strip_sign r) as [|x l].
  - split; [intros [H|[_ [H _]]]; congruence|]. intros [_ H]. discriminate.
  - split; [intros [H|[H1 [_ H2]]]; [discriminate|auto]|]. intros [H1 H2]. right. split; [exact H1|]. split; [discriminate|exact H2].
Qed.

Lemma mantissa_re : forall s, matches MANTISSA_RE s <->
  exists i, (s = i /\ i <> [] /\ all_digits i = true) \/
  exists f, s = i ++ ch "." :: f /\ i ++ f <> [] /\ all_digits i = true /\ all_digits f = true.
Proof.
  intros s. unfold MANTISSA_RE, Opt. rewrite matches_alt, !matches_cat. split.
  - intros [[x [y [-> [H1 H2]]]]|[x [y [-> [H1 H2]]]]].
    + apply plus_digits in H1. destruct H1 as [H0 H1]. exists x. rewrite matches_alt, matches_eps, matches_cat in H2.
      destruct H2 as [->|[p [q [-> [H2 H3]]]]].
      * left. rewrite app_nil_r. auto.
      * right. apply matches_lit in H2. subst p. apply star_digits in H3. exists q. cbn [app].
        split; [reflexivity|]. split; [destruct x; [congruence|discriminate]|]. auto.
    + apply matches_lit in H1. subst x. apply plus_digits in H2. exists []. right. exists y. cbn [app].
      split; [reflexivity|]. split; [tauto|]. split; [reflexivity|tauto].
  - intros [i [[-> [H1 H2]]|[f [-> [H1 [H2 H3]]]]]].
    + left. exists i, []. rewrite app_nil_r. split; [reflexivity|]. split; [apply plus_digits; auto|].
      apply matches_alt. left. constructor.
    + destruct i as [|c i].
      * right. exists [ch "."], f. split; [reflexivity|]. split; [apply matches_lit; reflexivity|]. apply plus_digits. auto.
      * left. exists (c :: i), (ch "." :: f). split; [reflexivity|]. split; [apply plus_digits; split; [discriminate|exact H2]|].
        apply matches_alt. right. apply matches_cat. exists [ch "."], f. split; [reflexivity|].
        split; [apply matches_lit; reflexivity|]. apply star_digits. exact H3.
Qed.

Lemma exponent_head : forall e, is_exponent e = true ->
  e = [] \/ exists c r, e = c :: r /\ is_digit c = false /\ (c =? ch ".") = false.
Proof.
  intros [|c r]; [auto|]. cbn [is_exponent]. intros H. right. exists c, r. split; [reflexivity|].
  apply andb_true_iff in H. destruct H as [H _]. cls. lia.
Qed.

Lemma decimal_re : forall s, matches (Cat MANTISSA_RE EXPONENT_RE) s <-> is_decimal s = true.
Proof.
  intros s. rewrite matches_cat. split.
  - intros [x [e [-> [H1 H2]]]]. apply exponent_re in H2. apply mantissa_re in H1.
    pose proof (exponent_head e H2) as He.
    destruct H1 as [i [[-> [H3 H4]]|[f [-> [H3 [H4 H5]]]]]]; unfold is_decimal.
    + rewrite span_intro; [|exact H4|destruct He as [->|[c [r [-> [He _]]]]]; [auto|right; eauto]].
      destruct He as [->|[c [r [-> [He Hd]]]]]; [destruct i; [congruence|reflexivity]|].
      rewrite Hd, H2. destruct i; [congruence|reflexivity].
    + rewrite <- app_assoc. cbn [app].
      rewrite span_intro; [|exact H4|right; exists (ch "."), (f ++ e); split; reflexivity].
      rewrite N.eqb_refl, span_intro; [|exact H5|destruct He as [->|[c [r [-> [He _]]]]]; [auto|right; eauto]].
      rewrite H2. destruct (i ++ f); [congruence|reflexivity].
  - unfold is_decimal. destruct (span is_digit s) as [i r] eqn:E1.
    pose proof (span_app _ _ _ _ E1) as ->. pose proof (span_forall _ _ _ _ E1) as Hi.
    destruct r as [|c r].
    + intros H. exists i, []. split; [reflexivity|]. split; [|apply exponent_re; reflexivity]. apply mantissa_re.
      exists i. left. destruct i; [discriminate|]. split; [reflexivity|]. split; [discriminate|exact Hi].
    + destruct (c =? ch ".") eqn:Ec.
      * destruct (span is_digit r) as [f e] eqn:E2. pose proof (span_app _ _ _ _ E2) as ->.
        pose proof (span_forall _ _ _ _ E2) as Hf. intros H. apply andb_true_iff in H. destruct H as [H1 H2].
        apply N.eqb_eq in Ec. subst c. exists (i ++ ch "." :: f), e.
        split; [rewrite <- app_assoc; reflexivity|]. split; [|apply exponent_re; exact H2]. apply mantissa_re.
        exists i. right. exists f. split; [reflexivity|]. split; [destruct (i ++ f); [discriminate|discriminate]|]. auto.
      * intros H. apply andb_true_iff in H. destruct H as [H1 H2]. exists i, (c :: r). split; [reflexivity|].
        split; [|apply exponent_re; exact H2]. apply mantissa_re. exists i. left. destruct i; [discriminate|].
        split; [reflexivity|]. split; [discriminate|exact Hi].
Qed.

(** A word in any case. *)
Lemma anycase_cons : forall l u r s, is_lower (ch l) = true -> ch u = ch l - 32 ->
  (matches (Cat (ANYCASE l u) r) s <-> exists c t, s = c :: t /\ to_lower c = ch l /\ matches r t).
Proof.
  intros l u r s Hl Hu. rewrite matches_cat. split.
  - intros [x [y [-> [H1 H2]]]]. apply matches_cls in H1. destruct H1 as [c [-> H1]]. exists c, y. split; [reflexivity|].
    split; [|exact H2]. apply in_clsb_iff in H1. unfold in_clsb, one, between in H1. cbn [existsb fst snd] in H1.
    unfold to_lower in *.
    unfold is_upper, is_lower, between in *. change (ch "A") with 65 in *. change (ch "Z") with 90 in *.
    change (ch "a") with 97 in *. change (ch "z") with 122 in *. destruct ((65 <=? c) && (c <=? 90)) eqn:E; lia.
  - intros [c [t [-> [H1 H2]]]]. exists [c], t. split; [reflexivity|]. split; [|exact H2]. apply matches_cls.
    exists c. split; [reflexivity|]. apply in_clsb_iff. unfold in_clsb, one, between. cbn [existsb fst snd].
    unfold to_lower in *.
    unfold is_upper, is_lower, between in *. change (ch "A") with 65 in *. change (ch "Z") with 90 in *.
    change (ch "a") with 97 in *. change (ch "z") with 122 in *. destruct ((65 <=? c) && (c <=? 90)) eqn:E; lia.
Qed.

Lemma cat_eps : forall r s, matches r s <-> matches (Cat r Eps) s.
Proof.
  intros r s. rewrite matches_cat. split.
  - intros H. exists s, []. rewrite app_nil_r. repeat split; [exact H|constructor].
  - intros [x [y [-> [H1 H2]]]]. apply matches_eps in H2. subst y. rewrite app_nil_r. exact H1.
Qed.

Lemma word_cons : forall (P : str -> Prop) w l s,
  (forall t, P t <-> map to_lower t = w) ->
  ((exists c t, s = c :: t /\ to_lower c = l /\ P t) <-> map to_lower s = l :: w).
Proof.
  intros P w l s H. split.
  - intros [c [t [-> [H1 H2]]]]. apply H in H2. cbn [map]. congruence.
  - intros E. destruct s as [|c t]; [discriminate|]. cbn [map] in E. injection E as E1 E2. exists c, t.
    split; [reflexivity|]. split; [exact E1|]. apply H. exact E2.
Qed.

Lemma word_last : forall l u s, is_lower (ch l) = true -> ch u = ch l - 32 ->
  (matches (ANYCASE l u) s <-> map to_lower s = [ch l]).
Proof.
  intros l u s H1 H2. rewrite cat_eps, anycase_cons by assumption. apply (word_cons (fun t => matches Eps t) []).
  intros t. rewrite matches_eps. split; [intros ->; reflexivity|]. intros H. apply map_eq_nil in H. exact H.
Qed.

Lemma word_step : forall l u r w s, is_lower (ch l) = true -> ch u = ch l - 32 ->
  (forall t, matches r t <-> map to_lower t = w) ->
  (matches (Cat (ANYCASE l u) r) s <-> map to_lower s = ch l :: w).
Proof. intros l u r w s H1 H2 H. rewrite anycase_cons by assumption. apply (word_cons (matches r) w). exact H. Qed.

Lemma inf_re : forall s, matches INF_RE s <-> map to_lower s = $"inf".
Proof.
  intros s. unfold INF_RE. apply word_step; [reflexivity|reflexivity|]. intros t.
  apply word_step; [reflexivity|reflexivity|]. intros t'. apply word_last; reflexivity.
Qed.

Lemma nan_re : forall s, matches NAN_RE s <-> map to_lower s = $"nan".
Proof.
  intros s. unfold NAN_RE. apply word_step; [reflexivity|reflexivity|]. intros t.
  apply word_step; [reflexivity|reflexivity|]. intros t'. apply word_last; reflexivity.
Qed.

Lemma inity_re : forall s, matches INITY_RE s <-> map to_lower s = $"inity".
Proof.
  intros s. unfold INITY_RE. apply word_step; [reflexivity|reflexivity|]. intros t.
  apply word_step; [reflexivity|reflexivity|]. intros t1. apply word_step; [reflexivity|reflexivity|]. intros t2.
  apply word_step; [reflexivity|reflexivity|]. intros t3. apply word_last; reflexivity.
Qed.

Lemma infinity_re : forall s, matches (Cat INF_RE INITY_RE) s <-> map to_lower s = $"infinity".
Proof.
  intros s. rewrite matches_cat. split.
  - intros [x [y [-> [H1 H2]]]]. apply inf_re in H1. apply inity_re in H2. rewrite map_app, H1, H2. reflexivity.
  - intros H. exists (firstn 3 s), (skipn 3 s). rewrite firstn_skipn. split; [reflexivity|].
    rewrite inf_re, inity_re, <- firstn_map, <- skipn_map, H. split; reflexivity.
Qed.

Lemma float_body_head : forall c t,
  matches (Alt (Cat MANTISSA_RE EXPONENT_RE) (Alt INF_RE (Alt (Cat INF_RE INITY_RE) NAN_RE))) (c :: t) -> is_sign c = false.
Proof.
  intros c t. rewrite !matches_alt, matches_cat, inf_re, infinity_re, nan_re.
  intros [[x [y [E [H1 _]]]]|[H|[H|H]]].
  - apply mantissa_re in H1. destruct H1 as [i [[-> [H2 H3]]|[f [-> [_ [H3 _]]]]]]; (destruct i as [|d i]; [|
      cbn [app] in E; injection E as -> _; unfold all_digits in H3; cbn [forallb] in H3; apply andb_true_iff in H3;
      apply digit_not_sign; tauto]); [congruence|].
    cbn [app] in E. injection E as -> _. reflexivity.
  - cbn [map] in H. apply (f_equal (hd 0)) in H. unfold hd in H. unfold to_lower in H. unfold is_sign. cls.
    destruct ((65 <=? c) && (c <=? 90)) eqn:E; cbn in H; lia.
  - cbn [map] in H. apply (f_equal (hd 0)) in H. unfold hd in H. unfold to_lower in H. unfold is_sign. cls.
    destruct ((65 <=? c) && (c <=? 90)) eqn:E; cbn in H; lia.
  - cbn [map] in H. apply (f_equal (hd 0)) in H. unfold hd in H. unfold to_lower in H. unfold is_sign. cls.
    destruct ((65 <=? c) && (c <=? 90)) eqn:E; cbn in H; lia.
Qed.

Lemma float_re : forall s, matches FLOAT_RE s <-> is_float_text s = true.
Proof.
  intros s. unfold FLOAT_RE. rewrite cat_sign by exact float_body_head.
  unfold is_float_text. rewrite !matches_alt, decimal_re, inf_re, infinity_re, nan_re.
  cbn [existsb]. rewrite !orb_true_iff, !str_eqb_eq. intuition discriminate.
Qed.

(** ** Characters of a language *)

Fixpoint re_char (r : re) (c : char) : bool :=
  match r with
  | Eps => false
  | Cls k => in_clsb k c
  | Cat a b | Alt a b => re_char a c || re_char b c
  | Star a => re_char a c
  end.

Lemma matches_chars : forall r s c, matches r s -> In c s -> re_char r c = true.
Proof.
  intros r s c H. induction H as [|k d H|a b x y H1 IH1 H2 IH2|a b x H1 IH1|a b x H1 IH1|a|a x y H1 IH1 H2 IH2];
    cbn [re_char]; intros Hc.
  - destruct Hc.
  - destruct Hc as [<-|[]]. apply in_clsb_iff. exact H.
  - apply in_app_iff in Hc. apply orb_true_iff. destruct Hc; auto.
  - apply orb_true_iff. auto.
  - apply orb_true_iff. auto.
  - destruct Hc.
  - apply in_app_iff in Hc. destruct Hc; auto.
Qed.

Lemma matches_not_In : forall r s c, matches r s -> re_char r c = false -> ~ In c s.
Proof. intros r s c H E Hc. rewrite (matches_chars r s c H Hc) in E. discriminate. Qed.
