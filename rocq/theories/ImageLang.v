(** Languages of tags, digests and image names. *)

From Coq Require Import String Ascii List NArith ZArith Bool Lia ZifyBool ZifyN ZifyNat.
Import ListNotations.
From Verif Require Import Base BaseFacts Num NumFacts Regex RegexFacts KeysModel KeysProofs ImageModel ImageSpec.
Open Scope N_scope.

(** ** Components separated by something *)

Lemma ends_cons : forall p c s, ends_with_p p (c :: s) = match s with [] => p c | _ => ends_with_p p s end.
Proof.
  intros p c s. destruct s as [|d s]; [reflexivity|]. unfold ends_with_p.
  change (rev (c :: d :: s)) with (rev (d :: s) ++ [c]).
  destruct (rev (d :: s)) as [|x l] eqn:E; [|reflexivity].
  apply (f_equal (@List.length char)) in E. rewrite rev_length in E. discriminate.
Qed.

Definition comps_tail (sep : re) : re := Cat (Star AL) (Star (Cat sep (Plus AL))).

Lemma star_nonempty : forall a c s, matches (Star a) (c :: s) ->
  exists x y, s = x ++ y /\ matches a (c :: x) /\ matches (Star a) y.
Proof.
  intros a c s H. remember (Star a) as r eqn:Er. remember (c :: s) as t eqn:Et. revert c s Et.
  induction H as [|k d H|a' b' x y H1 IH1 H2 IH2|a' b' x H1 IH1|a' b' x H1 IH1|a'|a' x y H1 IH1 H2 IH2];
    intros c s Et; try discriminate.
  inversion Er; subst a'. destruct x as [|d x].
  - cbn [app] in Et. subst y. apply IH2; reflexivity.
  - cbn [app] in Et. injection Et as -> <-. exists x, y. auto.
Qed.

Lemma al_iff : forall s, matches AL s <-> exists c, s = [c] /\ char_is_alnum c = true.
Proof.
  intros s. unfold AL. rewrite matches_cls. split; intros [c [-> H]]; exists c; split; try reflexivity.
  - apply in_clsb_iff in H. unfold in_clsb, LOWER, DIGIT, rng, between in H. cbn [existsb fst snd] in H.
    unfold char_is_alnum, is_lower, is_digit, between. rewrite orb_false_r in H. exact H.
  - apply in_clsb_iff. unfold in_clsb, LOWER, DIGIT, rng, between. cbn [existsb fst snd].
    unfold char_is_alnum, is_lower, is_digit, between in H. rewrite orb_false_r. exact H.
Qed.

Lemma comps_iff : forall sep s,
  matches (components sep) s <-> exists c r, s = c :: r /\ char_is_alnum c = true /\ matches (comps_tail sep) r.
Proof.
  intros sep s. unfold components, comps_tail, Plus. split.
  - intros H. apply matches_cat in H. destruct H as [x [y [-> [H1 H2]]]].
    apply matches_cat in H1. destruct H1 as [a [b [-> [H1 H3]]]]. apply al_iff in H1. destruct H1 as [c [-> Hc]].
    exists c, (b ++ y). split; [reflexivity|]. split; [exact Hc|]. constructor; assumption.
  - intros [c [r [-> [Hc H]]]]. apply matches_cat in H. destruct H as [x [y [-> [H1 H2]]]].
    change (c :: x ++ y) with (([c] ++ x) ++ y). constructor; [|exact H2]. constructor; [|exact H1].
    apply al_iff. eauto.
Qed.

Lemma tail_nil : forall sep, matches (comps_tail sep) [].
Proof. intros sep. apply (m_cat _ _ [] []); apply m_star_nil. Qed.

Lemma tail_cons : forall sep c s, ~ matches sep [] ->
  (matches (comps_tail sep) (c :: s) <->
   char_is_alnum c = true /\ matches (comps_tail sep) s \/ matches (Cat sep (components sep)) (c :: s)).
Proof.
  intros sep c s N0. split.
  - intros H. apply matches_cat in H. destruct H as [x [y [E [H1 H2]]]]. destruct x as [|d x].
    + right. cbn [app] in E. subst y. apply star_nonempty in H2. destruct H2 as [a [b [-> [H2 H3]]]].
      apply matches_cat in H2. destruct H2 as [p [q [E [Hp Hq]]]].
      change (c :: a ++ b) with ((c :: a) ++ b). rewrite E, <- app_assoc. constructor; [exact Hp|].
      unfold components. constructor; assumption.
    + left. cbn [app] in E. injection E as -> ->. apply star_nonempty in H1. destruct H1 as [a [b [-> [H1 H3]]]].
      apply al_iff in H1. destruct H1 as [e [E He]]. injection E as <- ->. split; [exact He|].
      cbn [app]. constructor; assumption.
  - intros [[Hc H]|H].
    + apply matches_cat in H. destruct H as [x [y [-> [H1 H2]]]]. change (c :: x ++ y) with (([c] ++ x) ++ y).
      constructor; [|exact H2]. apply m_star_cons; [apply al_iff; eauto|exact H1].
    + apply matches_cat in H. destruct H as [x [y [E [H1 H2]]]]. rewrite E. unfold components in H2.
      apply matches_cat in H2. destruct H2 as [a [b [-> [H2 H3]]]]. apply (m_cat _ _ [] (x ++ a ++ b)); [apply m_star_nil|].
      rewrite app_assoc. apply m_star_cons; [constructor; assumption|exact H3].
Qed.

Lemma comps_not_nil : forall sep, ~ matches (components sep) [].
Proof. intros sep H. apply comps_iff in H. destruct H as [c [r [H _]]]. discriminate. Qed.

(** Prefix by a fixed character. *)
Lemma cat_lit : forall a r c s, matches (Cat (Lit a) r) (c :: s) <-> c = ch a /\ matches r s.
Proof.
  intros a r c s. rewrite matches_cat. split.
  - intros [x [y [E [H1 H2]]]]. apply matches_lit in H1. subst x. cbn [app] in E. injection E as -> ->. auto.
  - intros [-> H]. exists [ch a], s. split; [reflexivity|]. split; [apply matches_lit; reflexivity|exact H].
Qed.

Lemma cat_alt : forall a b r s, matches (Cat (Alt a b) r) s <-> matches (Cat a r) s \/ matches (Cat b r) s.
Proof.
  intros a b r s. rewrite !matches_cat. split.
  - intros [x [y [E [H1 H2]]]]. apply matches_alt in H1. destruct H1; [left|right]; eauto.
  - intros [[x [y [E [H1 H2]]]]|[x [y [E [H1 H2]]]]]; exists x, y; (split; [exact E|]); split; try exact H2;
      apply matches_alt; auto.
Qed.

Lemma cat_assoc : forall a b r s, matches (Cat (Cat a b) r) s <-> matches (Cat a (Cat b r)) s.
Proof.
  intros a b r s. split; intros H.
  - apply matches_cat in H. destruct H as [x [y [-> [H1 H2]]]]. apply matches_cat in H1.
    destruct H1 as [p [q [-> [H3 H4]]]]. rewrite <- app_assoc. constructor; [exact H3|]. constructor; assumption.
  - apply matches_cat in H. destruct H as [x [y [-> [H1 H2]]]]. apply matches_cat in H2.
    destruct H2 as [p [q [-> [H3 H4]]]]. rewrite app_assoc. constructor; [|exact H4]. constructor; assumption.
Qed.

Lemma cat_star : forall a r c s, ~ matches r [] ->
  (matches (Cat (Star a) r) (c :: s) <->
   matches r (c :: s) \/ exists x y, s = x ++ y /\ matches a (c :: x) /\ matches (Cat (Star a) r) y).
Proof.
  intros a r c s N0. split.
  - intros H. apply matches_cat in H. destruct H as [x [y [E [H1 H2]]]]. destruct x as [|d x].
    + left. cbn [app] in E. rewrite E. exact H2.
    + right. cbn [app] in E. injection E as -> ->. apply star_nonempty in H1. destruct H1 as [p [q [-> [H3 H4]]]].
      exists p, (q ++ y). rewrite <- app_assoc. split; [reflexivity|]. split; [exact H3|]. constructor; assumption.
  - intros [H|[x [y [-> [H1 H2]]]]].
    + apply (m_cat _ _ []); [apply m_star_nil|exact H].
    + apply matches_cat in H2. destruct H2 as [p [q [-> [H3 H4]]]].
      change (c :: x ++ p ++ q) with ((c :: x) ++ p ++ q). rewrite app_assoc. constructor; [|exact H4].
      apply m_star_cons; assumption.
Qed.

(** ** Name parts *)

Lemma part_sep_not_nil : ~ matches PART_SEP [].
Proof.
  intros H. unfold PART_SEP in H. rewrite !matches_alt in H. destruct H as [H|[H|[H|H]]].
  - apply matches_lit in H. discriminate.
  - apply matches_lit in H. discriminate.
  - apply matches_cat in H. destruct H as [x [y [E [H1 H2]]]]. apply matches_lit in H1. subst x. discriminate.
  - apply matches_cat in H. destruct H as [x [y [E [H1 H2]]]]. apply matches_lit in H1. subst x. discriminate.
Qed.

Definition DASHES : re := Cat (Star (Lit "-")) PART_RE.

Lemma part_sep_cons : forall c s,
  matches (Cat PART_SEP PART_RE) (c :: s) <->
  (c = ch "." /\ matches PART_RE s) \/
  (c = ch "_" /\ (matches PART_RE s \/ exists r, s = ch "_" :: r /\ matches PART_RE r)) \/
  (c = ch "-" /\ matches DASHES s).
Proof.
  intros c s. unfold PART_SEP. rewrite !cat_alt, !cat_lit. unfold Plus. rewrite !cat_assoc, !cat_lit.
  assert (E : matches (Cat (Lit "_") PART_RE) s <-> exists r, s = ch "_" :: r /\ matches PART_RE r).
  { destruct s as [|d s].
    - split; [|intros [r [H _]]; discriminate]. intros H. apply matches_cat in H.
      destruct H as [x [y [E [H1 H2]]]]. apply matches_lit in H1. subst x. discriminate.
    - rewrite cat_lit. split; [intros [-> H]; eauto|]. intros [r [H1 H2]]. injection H1 as -> ->. auto. }
  rewrite E. tauto.
Qed.

Lemma dashes_cons : forall c s, matches DASHES (c :: s) <->
  matches PART_RE (c :: s) \/ c = ch "-" /\ matches DASHES s.
Proof.
  intros c s. unfold DASHES. rewrite cat_star by apply comps_not_nil. split.
  - intros [H|[x [y [-> [H1 H2]]]]]; [auto|]. right. apply matches_lit in H1. injection H1 as -> ->. auto.
  - intros [H|[-> H]]; [auto|]. right. exists [], s. split; [reflexivity|]. split; [apply matches_lit; reflexivity|exact H].
Qed.

Lemma dashes_nil : ~ matches DASHES [].
Proof.
  unfold DASHES. intros H. apply matches_cat in H. destruct H as [x [y [E [H1 H2]]]].
  destruct x; [|discriminate]. cbn [app] in E. subst y. exact (comps_not_nil _ H2).
Qed.

Lemma part_cons : forall c s, matches PART_RE (c :: s) <-> char_is_alnum c = true /\ matches (comps_tail PART_SEP) s.
Proof.
  intros c s. unfold PART_RE. rewrite comps_iff. split; [intros [d [r [E H]]]; injection E as -> ->; exact H|]. eauto.
Qed.

Lemma alnum_not : forall c, char_is_alnum c = true -> c <> ch "." /\ c <> ch "_" /\ c <> ch "-".
Proof. intros c. unfold char_is_alnum, is_lower, is_digit, between. cls. lia. Qed.

(** The five states of [validate_part]. *)
Definition fin (s : str) : bool := ends_with_p char_is_alnum s.

Lemma fin_cons : forall c s, fin (c :: s) = match s with [] => char_is_alnum c | _ => fin s end.
Proof. intros. unfold fin. apply ends_cons. Qed.

Lemma part_states : forall s,
  (part_chars 0 0 false s = Ok tt /\ (s = [] \/ fin s = true) <-> matches (comps_tail PART_SEP) s) /\
  (part_chars 1 0 false s = Ok tt /\ fin s = true <-> matches PART_RE s) /\
  (part_chars 0 1 false s = Ok tt /\ fin s = true <->
     matches PART_RE s \/ exists r, s = ch "_" :: r /\ matches PART_RE r) /\
  (part_chars 0 2 false s = Ok tt /\ fin s = true <-> matches PART_RE s) /\
  (part_chars 0 0 true s = Ok tt /\ fin s = true <-> matches DASHES s).
Proof.
  induction s as [|c s [IHa [IHd [IHu [IHv IHs]]]]].
  - assert (F : fin [] = true <-> False) by (unfold fin; cbn; split; [discriminate|tauto]).
    rewrite !F. pose proof (comps_not_nil PART_SEP) as N1. pose proof dashes_nil as N2. pose proof (tail_nil PART_SEP).
    split; [tauto|]. split; [unfold PART_RE; tauto|]. split; [|split; [unfold PART_RE; tauto|tauto]].
    unfold PART_RE. split; [tauto|]. intros [H1|[r [H1 _]]]; [tauto|discriminate].
  - rewrite tail_cons by exact part_sep_not_nil. fold PART_RE. rewrite part_sep_cons, dashes_cons, !part_cons, fin_cons.
    assert (X : (exists r, c :: s = ch "_" :: r /\ matches PART_RE r) <-> c = ch "_" /\ matches PART_RE s)
      by (split; [intros [r [H1 H2]]; injection H1 as -> ->; auto | intros [-> H]; eauto]).
    rewrite X. cbn [part_chars]. change (is_lower c || is_digit c) with (char_is_alnum c).
    assert (Y : c :: s = [] <-> False) by (split; [discriminate|tauto]). rewrite Y. clear X Y.
    destruct (char_is_alnum c) eqn:Ea.
    + pose proof (alnum_not c Ea) as [Na [Nb Nc]].
      assert (Z : (match s with [] => true | _ => fin s end = true) <-> (s = [] \/ fin s = true)).
      { destruct s as [|d s']; [tauto|]. split; [auto|]. intros [H|H]; [discriminate|exact H]. }
      rewrite Z. rewrite IHa. tauto.
    + assert (Z : (match s with [] => false | _ => fin s end = true) <-> fin s = true).
      { destruct s as [|d s']; [unfold fin; cbn; tauto|tauto]. }
      rewrite Z. clear Z. assert (False \/ fin s = true <-> fin s = true) as -> by tauto.
      change (0 + 1 =? 1) with true. change (1 + 1 =? 1) with false. change (0 =? 0) with true.
      change (1 =? 0) with false. change (2 =? 0) with false. change (0 + 1 <=? 2) with true.
      change (1 + 1 <=? 2) with true. change (2 + 1 <=? 2) with false. change (0 + 1) with 1. change (1 + 1) with 2.
      cbn [andb negb].
      destruct (N.eqb_spec c (ch "-")) as [->|Nc].
      { change (ch "-" = ch ".") with (45 = 46). change (ch "-" = ch "_") with (45 = 95).
        assert (Err NEMultipleSeparators = @Ok name_error unit tt <-> False) as -> by (split; [discriminate|tauto]).
        assert (45 = 46 <-> False) as -> by lia. assert (45 = 95 <-> False) as -> by lia.
        assert (false = true <-> False) as -> by (split; [discriminate|tauto]).
        rewrite IHs. tauto. }
      destruct (N.eqb_spec c (ch ".")) as [->|Nd].
      { change (ch "." = ch "-") with (46 = 45). change (ch "." = ch "_") with (46 = 95).
        assert (Err NEMultipleSeparators = @Ok name_error unit tt <-> False) as -> by (split; [discriminate|tauto]).
        assert (46 = 45 <-> False) as -> by lia. assert (46 = 95 <-> False) as -> by lia.
        assert (false = true <-> False) as -> by (split; [discriminate|tauto]).
        rewrite IHd. tauto. }
      destruct (N.eqb_spec c (ch "_")) as [->|Nu].
      { assert (Err NEMultipleSeparators = @Ok name_error unit tt <-> False) as -> by (split; [discriminate|tauto]).
        assert (false = true <-> False) as -> by (split; [discriminate|tauto]).
        rewrite IHu, IHv. tauto. }
      assert (Err (NECharacter c) = @Ok name_error unit tt <-> False) as -> by (split; [discriminate|tauto]).
      assert (false = true <-> False) as -> by (split; [discriminate|tauto]). tauto.
Qed.

Lemma validate_part_ok : forall s, validate_part s = Ok tt <-> matches PART_RE s.
Proof.
  intros s. unfold validate_part. destruct s as [|c s].
  - cbn [part_chars bind]. split; [discriminate|]. intros H. destruct (comps_not_nil _ H).
  - rewrite part_cons. rewrite <- (proj1 (part_states s)). cbn [part_chars starts_with_p].
    change (is_lower c || is_digit c) with (char_is_alnum c).
    fold (fin (c :: s)). rewrite fin_cons. destruct (char_is_alnum c) eqn:Ea; cbn [negb].
    + destruct (part_chars 0 0 false s) as [[]|e] eqn:Ep; cbn [bind].
      * destruct s as [|d s']; cbn [negb]; [split; auto|].
        destruct (fin (d :: s')) eqn:Ef; cbn [negb]; [split; auto|].
        split; [discriminate|]. intros [_ [_ [H|H]]]; discriminate.
      * split; [discriminate|]. intros [_ [H _]]. discriminate.
    + split; [|intros [H _]; discriminate].
      match goal with |- (bind ?x _ = _ -> _) => destruct x as [[]|e]; cbn [bind]; intros H; discriminate end.
Qed.

Lemma validate_parts_ok : forall l, validate_parts l = Ok tt <-> Forall (matches PART_RE) l.
Proof.
  induction l as [|p l IH]; cbn [validate_parts]; [split; auto|].
  destruct (validate_part p) as [[]|e] eqn:E; cbn [bind].
  - apply validate_part_ok in E. rewrite IH. split; [auto|]. intros H. inversion H; assumption.
  - split; [discriminate|]. intros H. inversion H as [|x y Hp Hl]; subst. apply validate_part_ok in Hp. congruence.
Qed.

(** ** Digests *)

Definition ALG_SEP : re := Cls [one "+"; one "."; one "_"; one "-"].
Definition alg_sep (c : char) : bool := (c =? ch "+") || (c =? ch ".") || (c =? ch "_") || (c =? ch "-").

Lemma alg_sep_iff : forall s, matches ALG_SEP s <-> exists c, s = [c] /\ alg_sep c = true.
Proof.
  intros s. unfold ALG_SEP. rewrite matches_cls.
  split; intros [c [-> H]]; exists c; (split; [reflexivity|]).
  - apply in_clsb_iff in H. unfold in_clsb, one, between in H. cbn [existsb fst snd] in H. unfold alg_sep.
    revert H. cls. lia.
  - apply in_clsb_iff. unfold in_clsb, one, between. cbn [existsb fst snd]. unfold alg_sep in H. revert H. cls. lia.
Qed.

Lemma alg_sep_not_nil : ~ matches ALG_SEP [].
Proof. rewrite alg_sep_iff. intros [c [H _]]. discriminate. Qed.

Lemma alg_states : forall s,
  (algorithm_chars 0 s = Ok tt /\ (s = [] \/ fin s = true) <-> matches (comps_tail ALG_SEP) s) /\
  (algorithm_chars 1 s = Ok tt /\ fin s = true <-> matches ALGORITHM_RE s).
Proof.
  induction s as [|c s [IHa IHb]].
  - assert (F : fin [] = true <-> False) by (unfold fin; cbn; split; [discriminate|tauto]).
    rewrite !F. pose proof (comps_not_nil ALG_SEP) as N1. pose proof (tail_nil ALG_SEP).
    split; [tauto|]. unfold ALGORITHM_RE. fold ALG_SEP. tauto.
  - rewrite tail_cons by exact alg_sep_not_nil. unfold ALGORITHM_RE in *. fold ALG_SEP in *.
    assert (A : matches (components ALG_SEP) (c :: s) <-> char_is_alnum c = true /\ matches (comps_tail ALG_SEP) s).
    { rewrite comps_iff. split; [intros [d [r [E H]]]; injection E as -> ->; exact H|eauto]. }
    assert (B : matches (Cat ALG_SEP (components ALG_SEP)) (c :: s) <-> alg_sep c = true /\ matches (components ALG_SEP) s).
    { rewrite matches_cat. split.
      - intros [x [y [E [H1 H2]]]]. apply alg_sep_iff in H1. destruct H1 as [d [-> Hd]]. cbn [app] in E.
        injection E as -> ->. auto.
      - intros [H1 H2]. exists [c], s. split; [reflexivity|]. split; [apply alg_sep_iff; eauto|exact H2]. }
    rewrite A, B, fin_cons. cbn [algorithm_chars]. change (is_lower c || is_digit c) with (char_is_alnum c).
    change ((c =? ch "+") || (c =? ch ".") || (c =? ch "_") || (c =? ch "-")) with (alg_sep c).
    assert (Y : c :: s = [] <-> False) by (split; [discriminate|tauto]). rewrite Y. clear Y.
    change (0 + 1 <=? 1) with true. change (1 + 1 <=? 1) with false. change (0 + 1) with 1. cbv iota.
    destruct (char_is_alnum c) eqn:Ea.
    + assert (Es : alg_sep c = false) by (revert Ea; unfold char_is_alnum, is_lower, is_digit, between, alg_sep; cls; lia).
      rewrite Es.
      assert (Z : (match s with [] => true | _ => fin s end = true) <-> (s = [] \/ fin s = true)).
      { destruct s as [|d s']; [tauto|]. split; [auto|]. intros [H|H]; [discriminate|exact H]. }
      rewrite Z, IHa. assert (false = true <-> False) as -> by (split; [discriminate|tauto]). tauto.
    + assert (Z : (match s with [] => false | _ => fin s end = true) <-> fin s = true).
      { destruct s as [|d s']; [unfold fin; cbn; tauto|tauto]. }
      rewrite Z. clear Z. assert (False \/ fin s = true <-> fin s = true) as -> by tauto.
      assert (false = true <-> False) as R by (split; [discriminate|tauto]).
      destruct (alg_sep c) eqn:Es.
      * rewrite R, IHb. assert (Err DEAlgorithmSeparators = @Ok digest_error unit tt <-> False) as -> by (split; [discriminate|tauto]).
        tauto.
      * rewrite R. assert (Err (DEAlgorithmCharacter c) = @Ok digest_error unit tt <-> False) as -> by (split; [discriminate|tauto]).
        tauto.
Qed.

Lemma algorithm_iff : forall s,
  (algorithm_chars 0 s = Ok tt /\ s <> [] /\ starts_with_p char_is_alnum s = true /\ fin s = true) <->
  matches ALGORITHM_RE s.
Proof.
  intros s. destruct s as [|c s].
  - split; [intros [_ [H _]]; congruence|]. intros H. destruct (comps_not_nil _ H).
  - unfold ALGORITHM_RE. fold ALG_SEP. rewrite comps_iff. cbn [starts_with_p algorithm_chars].
    change (is_lower c || is_digit c) with (char_is_alnum c).
    assert (X : (exists c0 r, c :: s = c0 :: r /\ char_is_alnum c0 = true /\ matches (comps_tail ALG_SEP) r) <->
                char_is_alnum c = true /\ matches (comps_tail ALG_SEP) s).
    { split; [intros [d [r [E H]]]; injection E as -> ->; exact H|eauto]. }
    rewrite X, <- (proj1 (alg_states s)), fin_cons. destruct (char_is_alnum c) eqn:Ea.
    + assert (Z : (match s with [] => true | _ => fin s end = true) <-> (s = [] \/ fin s = true)).
      { destruct s as [|d s']; [tauto|]. split; [auto|]. intros [H|H]; [discriminate|exact H]. }
      rewrite Z. split; [tauto|]. intros [_ [H1 H2]]. repeat split; auto. discriminate.
    + split; [intros [_ [_ [H _]]]; discriminate|intros [H _]; discriminate].
Qed.

Lemma encoded_iff : forall s, s <> [] /\ forallb encode_char s = true <-> matches ENCODED_RE s.
Proof.
  intros s. unfold ENCODED_RE. rewrite matches_plus_cls.
  assert (X : forallb encode_char s = forallb (in_clsb [LOWER; UPPER; DIGIT; one "="; one "_"; one "-"]) s).
  { induction s as [|c s IH]; [reflexivity|]. cbn [forallb]. rewrite IH. f_equal.
    unfold encode_char, in_clsb, LOWER, UPPER, DIGIT, rng, one, is_lower, is_upper, is_digit, between. cbn [existsb fst snd].
    cls. lia. }
  rewrite X. tauto.
Qed.

Lemma part_chars_In : forall s d u p c, part_chars d u p s = Ok tt -> In c s ->
  char_is_alnum c = true \/ c = ch "." \/ c = ch "_" \/ c = ch "-".
Proof.
  induction s as [|x s IH]; intros d u p c H Hc; [destruct Hc|]. cbn [part_chars] in H.
  change (is_lower x || is_digit x) with (char_is_alnum x) in H. destruct Hc as [->|Hc].
  - destruct (char_is_alnum c); [auto|]. destruct (N.eqb_spec c (ch "-")); [auto|].
    destruct (N.eqb_spec c (ch ".")); [auto|]. destruct (N.eqb_spec c (ch "_")); [auto|]. discriminate.
  - destruct (char_is_alnum x); [eapply IH; eassumption|].
    destruct (x =? ch "-"); [destruct ((d =? 0) && (u =? 0)); [eapply IH; eassumption|discriminate]|].
    destruct (x =? ch "."); [destruct ((d + 1 =? 1) && (u =? 0) && negb p); [eapply IH; eassumption|discriminate]|].
    destruct (x =? ch "_"); [destruct ((d =? 0) && (u + 1 <=? 2) && negb p); [eapply IH; eassumption|discriminate]|].
    discriminate.
Qed.

Lemma part_In : forall s c, matches PART_RE s -> In c s ->
  char_is_alnum c = true \/ c = ch "." \/ c = ch "_" \/ c = ch "-".
Proof.
  intros s c H Hc. apply validate_part_ok in H. unfold validate_part in H.
  destruct (part_chars 0 0 false s) as [[]|e] eqn:E; [|discriminate]. eapply part_chars_In; eassumption.
Qed.

Lemma algorithm_In : forall s n c, algorithm_chars n s = Ok tt -> In c s -> char_is_alnum c = true \/ alg_sep c = true.
Proof.
  induction s as [|x s IH]; intros n c H Hc; [destruct Hc|]. cbn [algorithm_chars] in H.
  change (is_lower x || is_digit x) with (char_is_alnum x) in H.
  change ((x =? ch "+") || (x =? ch ".") || (x =? ch "_") || (x =? ch "-")) with (alg_sep x) in H.
  destruct (char_is_alnum x) eqn:E1; [destruct Hc as [->|Hc]; [auto|eapply IH; eassumption]|].
  destruct (alg_sep x) eqn:E2; [|discriminate]. destruct (n + 1 <=? 1); [|discriminate].
  destruct Hc as [->|Hc]; [auto|eapply IH; eassumption].
Qed.

Lemma algorithm_no_colon : forall s, matches ALGORITHM_RE s -> ~ In (ch ":") s.
Proof.
  intros s H Hc. apply algorithm_iff in H. destruct H as [H _]. destruct (algorithm_In s 0 (ch ":") H Hc); discriminate.
Qed.

Lemma digest_new_ok : forall s t, digest_new s = Ok t <-> t = s /\ is_digest s.
Proof.
  intros s t. unfold is_digest, DIGEST_RE, digest_new. split.
  - destruct (split_once (ch ":") s) as [[a e]|] eqn:Es; [|discriminate]. apply split_once_some in Es.
    destruct Es as [-> Na]. destruct (algorithm_chars 0 a) as [[]|] eqn:Ea; cbn [bind]; [|discriminate].
    destruct (encode_chars e) as [[]|] eqn:Ee; cbn [bind]; [|discriminate].
    destruct a as [|c a]; [discriminate|].
    destruct (starts_with_p char_is_alnum (c :: a)) eqn:E1; cbn [negb]; [|discriminate].
    destruct (ends_with_p char_is_alnum (c :: a)) eqn:E2; cbn [negb]; [|discriminate].
    destruct e as [|d e]; [discriminate|]. intros H. injection H as <-. split; [reflexivity|].
    change (c :: a) with ([c] ++ a). constructor.
    + apply algorithm_iff. repeat split; auto; discriminate.
    + change (ch ":" :: d :: e) with ([ch ":"] ++ d :: e). constructor; [apply matches_lit; reflexivity|].
      apply encoded_iff. unfold encode_chars in Ee. apply check_chars_ok in Ee. split; [discriminate|exact Ee].
  - intros [-> H]. apply matches_cat in H. destruct H as [a [y [-> [Ha Hy]]]]. apply matches_cat in Hy.
    destruct Hy as [x [e [-> [Hx He]]]]. apply matches_lit in Hx. subst x.
    pose proof (algorithm_no_colon a Ha) as Nc. change ([ch ":"] ++ e) with (ch ":" :: e).
    rewrite split_once_app by exact Nc.
    apply algorithm_iff in Ha. destruct Ha as [H1 [H2 [H3 H4]]]. rewrite H1. cbn [bind].
    apply encoded_iff in He. destruct He as [H5 H6]. unfold encode_chars.
    rewrite (proj2 (check_chars_ok _ _ _) H6). cbn [bind]. destruct a as [|c a]; [congruence|].
    rewrite H3. unfold fin in H4. rewrite H4. cbn [negb]. destruct e; [congruence|reflexivity].
Qed.

(** ** Tags *)

Lemma tag_char_iff : forall s, forallb tag_char s = forallb (in_clsb [LOWER; UPPER; DIGIT; one "."; one "_"; one "-"]) s.
Proof.
  induction s as [|c s IH]; [reflexivity|]. cbn [forallb]. rewrite IH. f_equal.
  unfold tag_char, in_clsb, LOWER, UPPER, DIGIT, rng, one, is_lower, is_upper, is_digit, between. cbn [existsb fst snd].
  cls. lia.
Qed.

Lemma tag_char_ascii : forall s, forallb tag_char s = true -> forallb (fun c => c <? 128) s = true.
Proof.
  intros s. apply forallb_impl. intros c. unfold tag_char, is_lower, is_upper, is_digit, between. cls. lia.
Qed.

Lemma tag_new_ok : forall s t, tag_new s = Ok t <-> t = s /\ is_tag s.
Proof.
  intros s t. unfold is_tag, TAG_RE. rewrite matches_plus_cls, <- tag_char_iff. unfold tag_new, tag_chars.
  destruct (check_chars tag_char TECharacter s) as [[]|e] eqn:E; cbn [bind].
  - apply check_chars_ok in E. pose proof (blen_ascii s (tag_char_ascii s E)) as Hl. rewrite E.
    destruct s as [|c s]; [split; [discriminate|intros [_ [[H _] _]]; congruence]|]. rewrite Hl.
    destruct (N.ltb_spec 128 (N.of_nat (List.length (c :: s)))) as [L|L].
    + split; [discriminate|]. intros [_ [_ H]]. lia.
    + split; [intros H; injection H as <-; repeat split; auto; [discriminate|lia]|]. intros [-> _]. reflexivity.
  - split; [discriminate|]. intros [_ [[_ H] _]]. apply (check_chars_ok tag_char TECharacter) in H. congruence.
Qed.

(** ** Names *)

Lemma parts_split : forall s, matches PARTS_RE s <-> Forall (matches PART_RE) (split (ch "/") s).
Proof.
  assert (NP : forall p, matches PART_RE p -> ~ In (ch "/") p).
  { intros p H Hc. destruct (part_In p (ch "/") H Hc) as [X|[X|[X|X]]]; discriminate. }
  assert (S : forall s, matches (Star (Cat (Lit "/") PART_RE)) s ->
              s = [] \/ exists r, s = ch "/" :: r /\ Forall (matches PART_RE) (split (ch "/") r)).
  { intros s H. remember (Star (Cat (Lit "/") PART_RE)) as r eqn:Er.
    induction H as [|k d H|a' b' x y H1 IH1 H2 IH2|a' b' x H1 IH1|a' b' x H1 IH1|a'|a' x y H1 IH1 H2 IH2]; try discriminate.
    - left; reflexivity.
    - injection Er as ->. right. apply matches_cat in H1. destruct H1 as [p [q [-> [Hp Hq]]]].
      apply matches_lit in Hp. subst p. cbn [app]. exists (q ++ y). split; [reflexivity|].
      destruct (IH2 eq_refl) as [->|[z [-> Hz]]].
      + rewrite app_nil_r, split_no by (apply NP; exact Hq). auto.
      + rewrite split_app by (apply NP; exact Hq). constructor; assumption. }
  intros s. split.
  - intros H. apply matches_cat in H. destruct H as [p [y [-> [Hp Hy]]]]. destruct (S y Hy) as [->|[z [-> Hz]]].
    + rewrite app_nil_r, split_no by (apply NP; exact Hp). auto.
    + rewrite split_app by (apply NP; exact Hp). constructor; assumption.
  - intros H. rewrite <- (split_join (ch "/") s). pose proof (split_nonempty (ch "/") s) as Ne.
    remember (split (ch "/") s) as l eqn:El. clear El s. destruct l as [|p l]; [congruence|]. clear Ne.
    inversion H as [|x y Hp Hl]; subst x y. clear H. revert p Hp.
    induction l as [|q l IH]; intros p Hp.
    + cbn [join]. rewrite <- (app_nil_r p). constructor; [exact Hp|apply m_star_nil].
    + inversion Hl as [|x y Hq Hl']; subst x y. change (join [ch "/"] (p :: q :: l)) with (p ++ [ch "/"] ++ join [ch "/"] (q :: l)).
      constructor; [exact Hp|]. specialize (IH Hl' q Hq). apply matches_cat in IH. destruct IH as [a [b [-> [Ha Hb]]]].
      rewrite app_assoc. apply m_star_cons; [|exact Hb]. constructor; [apply matches_lit; reflexivity|exact Ha].
Qed.

Lemma no_slash_part : forall p, matches PART_RE p -> ~ In (ch "/") p.
Proof. intros p H Hc. destruct (part_In p (ch "/") H Hc) as [X|[X|[X|X]]]; discriminate. Qed.

Lemma no_colon_part : forall p, matches PART_RE p -> ~ In (ch ":") p.
Proof. intros p H Hc. destruct (part_In p (ch ":") H Hc) as [X|[X|[X|X]]]; discriminate. Qed.

Lemma decimal_fold : forall ds a, all_digits ds = true ->
  fold_left (fun a c => if c =? ch "+" then a else 10 * a + (c - ch "0")) ds a = value 10 (map (fun c => c - 48) ds) a.
Proof.
  induction ds as [|c ds IH]; intros a H; [reflexivity|]. unfold all_digits in H. cbn [forallb] in H.
  apply andb_prop in H. destruct H as [Hc Hd]. cbn [fold_left map value]. rewrite IH by exact Hd.
  assert (E : (c =? ch "+") = false) by (revert Hc; unfold is_digit, between; cls; lia).
  rewrite E. f_equal. change (ch "0") with 48. lia.
Qed.

Lemma port_iff : forall s, (exists n, parse_u16 s = Ok n) <-> is_port s.
Proof.
  assert (D : forall ds, all_digits ds = true <-> forallb (in_clsb [DIGIT]) ds = true).
  { intros ds. unfold all_digits. assert (E : forallb is_digit ds = forallb (in_clsb [DIGIT]) ds); [|rewrite E; tauto].
    induction ds as [|c ds IH]; [reflexivity|]. cbn [forallb]. rewrite IH. f_equal.
    unfold in_clsb, DIGIT, rng, is_digit, between. cbn [existsb fst snd]. cls. lia. }
  intros s. unfold is_port, PORT_RE, parse_u16. split.
  - intros [n H]. apply parse_uint_ok in H. destruct H as [ds [E [Nd [Hd [Hn Hb]]]]].
    assert (Hds : matches (Plus (Cls [DIGIT])) ds) by (apply matches_plus_cls; split; [exact Nd|apply D; exact Hd]).
    assert (Hv : fold_left (fun a c => if c =? ch "+" then a else 10 * a + (c - ch "0")) ds 0 = n)
      by (rewrite decimal_fold by exact Hd; rewrite Hn; reflexivity).
    unfold U16_MAX in Hb.
    destruct E as [->| ->].
    + split; [apply (m_cat _ _ []); [apply m_alt_l; apply m_eps|exact Hds]|]. unfold decimal. rewrite Hv. exact Hb.
    + split.
      * change (43 :: ds) with ([ch "+"] ++ ds). constructor; [apply m_alt_r; apply matches_lit; reflexivity|exact Hds].
      * unfold decimal. cbn [fold_left]. change (43 =? ch "+") with true. cbv iota. rewrite Hv. exact Hb.
  - intros [H Hb]. apply matches_cat in H. destruct H as [x [ds [-> [Hx Hds]]]]. apply matches_plus_cls in Hds.
    destruct Hds as [Nd Hd]. apply D in Hd. exists (dec_value ds). apply parse_uint_ok. exists ds.
    assert (E : decimal (x ++ ds) = dec_value ds /\ (x = [] \/ x = [ch "+"])).
    { unfold Opt in Hx. apply matches_alt in Hx. destruct Hx as [Hx|Hx].
      - apply matches_eps in Hx. subst x. split; [|auto]. unfold decimal. cbn [app]. apply decimal_fold. exact Hd.
      - apply matches_lit in Hx. subst x. split; [|auto]. unfold decimal. cbn [app fold_left].
        change (ch "+" =? ch "+") with true. cbv iota. apply decimal_fold. exact Hd. }
    destruct E as [E Ex]. rewrite E in Hb. split; [destruct Ex as [->| ->]; [left|right]; reflexivity|].
    repeat split; auto.
Qed.

Lemma port_chars : forall p c, is_port p -> In c p -> is_digit c = true \/ c = ch "+".
Proof.
  intros p c [H _] Hc. unfold PORT_RE in H. apply matches_cat in H. destruct H as [x [ds [-> [Hx Hds]]]].
  apply in_app_or in Hc. destruct Hc as [Hc|Hc].
  - unfold Opt in Hx. apply matches_alt in Hx. destruct Hx as [Hx|Hx].
    + apply matches_eps in Hx. subst x. destruct Hc.
    + apply matches_lit in Hx. subst x. destruct Hc as [<-|[]]. auto.
  - apply matches_plus_cls in Hds. destruct Hds as [_ Hd]. rewrite forallb_forall in Hd. apply Hd in Hc. left.
    revert Hc. unfold in_clsb, DIGIT, rng, is_digit, between. cbn [existsb fst snd]. cls. lia.
Qed.

Lemma contains_iff : forall c s, contains c s = true <-> In c s.
Proof. intros. apply contains_In. Qed.

(** The registry of the first part. *)
Definition registry_of (s : str) : option str :=
  match split (ch "/") s with
  | first :: _ => if contains (ch ".") first then Some first else None
  | [] => None
  end.

Lemma first_part : forall s, exists first rest, split (ch "/") s = first :: rest /\ ~ In (ch "/") first /\
  (s = first /\ rest = [] \/ exists r, s = first ++ $"/" ++ r /\ rest = split (ch "/") r).
Proof.
  intros s. destruct (split_once_case (ch "/") s) as [[H1 H2]|[a [b [H1 [H2 H3]]]]].
  - exists s, []. rewrite split_no by exact H1. auto.
  - subst s. exists a, (split (ch "/") b). rewrite split_app by exact H2. split; [reflexivity|]. split; [exact H2|].
    right. exists b. auto.
Qed.

Lemma registry_of_spec : forall s r, is_registry s r <-> r = registry_of s.
Proof.
  intros s r. unfold is_registry, registry_of. destruct (first_part s) as [first [rest [-> [Nf Hs]]]]. split.
  - intros [f [Hf [Nf' Hr]]].
    assert (f = first) as ->.
    { destruct Hs as [[-> _]|[r1 [-> _]]], Hf as [Hf|[r2 Hf]].
      - auto.
      - exfalso. apply Nf. rewrite Hf. apply in_or_app. right. left. reflexivity.
      - exfalso. apply Nf'. rewrite <- Hf. apply in_or_app. right. left. reflexivity.
      - pose proof (split_once_app (ch "/") first r1 Nf) as E1. pose proof (split_once_app (ch "/") f r2 Nf') as E2.
        change ($"/" ++ r1) with (ch "/" :: r1) in Hf. change ($"/" ++ r2) with (ch "/" :: r2) in Hf. congruence. }
    destruct Hr as [[H1 ->]|[H1 ->]].
    + apply contains_iff in H1. rewrite H1. reflexivity.
    + destruct (contains (ch ".") first) eqn:E; [apply contains_iff in E; tauto|reflexivity].
  - intros ->. exists first. split; [destruct Hs as [[-> _]|[r1 [-> _]]]; eauto|]. split; [exact Nf|].
    destruct (contains (ch ".") first) eqn:E; [left; split; [apply contains_iff; exact E|reflexivity]|].
    right. split; [|reflexivity]. intros H. apply contains_iff in H. congruence.
Qed.

Lemma iname_new_ok : forall s n, iname_new s = Ok n <->
  is_name s /\ n = {| n_inner := s; n_registry_end := option_map blen (registry_of s) |}.
Proof.
  intros s n. unfold iname_new, registry_of. destruct (first_part s) as [first [rest [E [Nf Hs]]]]. rewrite E.
  assert (Hparts : forall r, (s = first /\ rest = [] \/ exists r, s = first ++ $"/" ++ r /\ rest = split (ch "/") r) ->
     Forall (matches PART_RE) rest -> s = first ++ r -> r = [] \/ exists r', r = $"/" ++ r' /\ matches PARTS_RE r').
  { intros r [[H1 H2]|[r1 [H1 H2]]] Hf Hr.
    - left. rewrite H1 in Hr. rewrite <- (app_nil_r first) in Hr at 1. apply app_inv_head in Hr. auto.
    - right. exists r1. rewrite H1 in Hr. apply app_inv_head in Hr. split; [auto|]. apply parts_split. rewrite <- H2. exact Hf. }
  split.
  - intros H.
    match type of H with bind ?x _ = _ => destruct x as [[host re]|e] eqn:Ep end; cbn [bind fst snd] in H; [|discriminate].
    destruct (validate_part host) as [[]|] eqn:Eh; cbn [bind] in H; [|discriminate].
    destruct (validate_parts rest) as [[]|] eqn:Er; cbn [bind] in H; [|discriminate].
    injection H as <-. apply validate_part_ok in Eh. apply validate_parts_ok in Er.
    destruct (contains (ch ".") first) eqn:Ec.
    + cbn [option_map]. destruct (split_once (ch ":") first) as [[h p]|] eqn:Eo.
      * destruct (parse_u16 p) as [v|] eqn:Ev; [|discriminate]. injection Ep as -> <-.
        split; [|reflexivity]. apply split_once_some in Eo. destruct Eo as [-> No]. right.
        assert (Hport : is_port p) by (apply port_iff; eauto).
        assert (Hdot : In (ch ".") host).
        { apply contains_iff in Ec. apply in_app_or in Ec. destruct Ec as [Ec|[Ec|Ec]]; [exact Ec|discriminate|].
          destruct (port_chars p _ Hport Ec); discriminate. }
        destruct Hs as [[H1 H2]|[r1 [H1 H2]]].
        -- exists host, p, []. split; [rewrite H1, app_nil_r; reflexivity|]. repeat split; auto; apply Hport.
        -- exists host, p, ($"/" ++ r1). split; [rewrite H1, <- app_assoc; reflexivity|].
           repeat split; auto; try apply Hport. right. exists r1. split; [reflexivity|]. apply parts_split. rewrite <- H2. exact Er.
      * injection Ep as <- <-. split; [|reflexivity]. left. apply parts_split. rewrite E. constructor; assumption.
    + injection Ep as <- <-. split; [|reflexivity]. left. apply parts_split. rewrite E. constructor; assumption.
  - intros [H ->]. destruct H as [H|[host [port [r [H1 [H2 [H3 [H4 H5]]]]]]]].
    + apply parts_split in H. rewrite E in H. inversion H as [|x y Hf Hr]; subst x y.
      assert (No : split_once (ch ":") first = None) by (apply split_once_none; apply no_colon_part; exact Hf).
      rewrite No. apply validate_part_ok in Hf. apply validate_parts_ok in Hr.
      destruct (contains (ch ".") first); cbn [bind fst snd option_map]; rewrite Hf; cbn [bind]; rewrite Hr; reflexivity.
    + assert (Nh : ~ In (ch "/") (host ++ $":" ++ port)).
      { intros Hc. apply in_app_or in Hc. destruct Hc as [Hc|[Hc|Hc]]; [exact (no_slash_part host H2 Hc)|discriminate|].
        destruct (port_chars port _ H4 Hc); discriminate. }
      assert (Hfirst : first = host ++ $":" ++ port /\ Forall (matches PART_RE) rest).
      { destruct H5 as [->|[r' [-> Hr']]].
        - rewrite app_nil_r in H1. rewrite <- H1 in Nh. rewrite (split_no _ _ Nh) in E. injection E as <- <-.
          auto.
        - rewrite !app_assoc in H1. rewrite <- (app_assoc host) in H1. rewrite <- app_assoc in H1.
          change ($"/" ++ r') with (ch "/" :: r') in H1. rewrite H1, (split_app _ _ _ Nh) in E. injection E as <- <-.
          split; [reflexivity|]. apply parts_split. exact Hr'. }
      destruct Hfirst as [-> Hr].
      assert (Ec : contains (ch ".") (host ++ $":" ++ port) = true) by (apply contains_iff; apply in_or_app; auto).
      rewrite Ec. change ($":" ++ port) with (ch ":" :: port).
      rewrite (split_once_app (ch ":") host port) by (apply no_colon_part; exact H2).
      apply port_iff in H4. destruct H4 as [v ->]. cbn [bind fst snd option_map].
      apply validate_part_ok in H2. rewrite H2. cbn [bind]. apply validate_parts_ok in Hr. rewrite Hr. reflexivity.
Qed.
