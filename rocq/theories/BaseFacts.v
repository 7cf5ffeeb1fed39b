(** Facts about the string functions of [Base]. *)

From Coq Require Import List NArith ZArith Bool Ascii Lia ZifyBool ZifyN ZifyNat.
Import ListNotations.
From Verif Require Import Base.
Open Scope N_scope.

Ltac inv H := inversion H; subst; clear H.
Ltac destr e := let E := fresh "E" in destruct e eqn:E.

Lemma str_eqb_refl : forall s, str_eqb s s = true.
Proof. induction s; simpl; [reflexivity|]. rewrite N.eqb_refl. exact IHs. Qed.

Lemma str_eqb_eq : forall a b, str_eqb a b = true <-> a = b.
Proof.
  split.
  - revert b. induction a as [|x a IH]; destruct b as [|y b]; simpl; intros H; try congruence.
    apply andb_true_iff in H as [H1 H2]. apply N.eqb_eq in H1. apply IH in H2. congruence.
  - intros ->. apply str_eqb_refl.
Qed.

Lemma str_eqb_neq : forall a b, str_eqb a b = false <-> a <> b.
Proof.
  intros a b. rewrite <- str_eqb_eq. destruct (str_eqb a b); intuition congruence.
Qed.

Lemma str_eq_dec : forall a b : str, {a = b} + {a <> b}.
Proof. intros. apply list_eq_dec. apply N.eq_dec. Qed.

Lemma str_eqb_spec : forall a b, reflect (a = b) (str_eqb a b).
Proof. intros a b. destruct (str_eqb a b) eqn:E; constructor; [apply str_eqb_eq|apply str_eqb_neq]; exact E. Qed.

Lemma contains_In : forall c s, contains c s = true <-> In c s.
Proof.
  intros c s. unfold contains. rewrite existsb_exists. split.
  - intros [x [H1 H2]]. apply N.eqb_eq in H2. congruence.
  - intros H. exists c. split; [exact H|apply N.eqb_refl].
Qed.

Lemma contains_not_In : forall c s, contains c s = false <-> ~ In c s.
Proof. intros. rewrite <- contains_In. destruct (contains c s); intuition congruence. Qed.

(** ** span *)

Lemma span_app : forall p a b s, span p s = (a, b) -> s = a ++ b.
Proof.
  induction a as [|x a IH]; intros b s; destruct s as [|c s]; simpl; intros H.
  - inv H. reflexivity.
  - destruct (p c); [destruct (span p s)|]; inv H; reflexivity.
  - inv H.
  - destruct (p c); [|inv H]. destruct (span p s) eqn:E; inv H. f_equal. apply IH. exact E.
Qed.

Lemma span_forall : forall p a b s, span p s = (a, b) -> forallb p a = true.
Proof.
  intros p a b s. revert a b. induction s as [|c s IH]; simpl; intros a b H.
  - inv H. reflexivity.
  - destruct (p c) eqn:Ec.
    + destruct (span p s) as [a' b'] eqn:E. inv H. simpl. rewrite Ec. eapply IH. reflexivity.
    + inv H. reflexivity.
Qed.

Lemma span_rest : forall p a b s, span p s = (a, b) ->
  b = [] \/ exists c r, b = c :: r /\ p c = false.
Proof.
  intros p a b s. revert a b. induction s as [|c s IH]; simpl; intros a b H.
  - inv H. left. reflexivity.
  - destruct (p c) eqn:Ec.
    + destruct (span p s) as [a' b'] eqn:E. inv H. eapply IH. reflexivity.
    + inv H. right. eauto.
Qed.

Lemma span_intro : forall p a b, forallb p a = true ->
  (b = [] \/ exists c r, b = c :: r /\ p c = false) -> span p (a ++ b) = (a, b).
Proof.
  intros p a b Ha Hb. induction a as [|x a IH]; simpl in *.
  - destruct Hb as [->|[c [r [-> Hc]]]]; simpl; [reflexivity|]. rewrite Hc. reflexivity.
  - apply andb_true_iff in Ha as [H1 H2]. rewrite H1. rewrite IH by exact H2. reflexivity.
Qed.

Lemma span_all : forall p a, forallb p a = true -> span p a = (a, []).
Proof. intros p a H. rewrite <- (app_nil_r a) at 1. apply span_intro; auto. Qed.

(** ** split_once *)

Lemma split_once_p_some : forall p s a b, split_once_p p s = Some (a, b) <->
  exists c, s = a ++ c :: b /\ p c = true /\ forallb (fun x => negb (p x)) a = true.
Proof.
  intros p s. induction s as [|x s IH]; intros a b; simpl; split.
  - discriminate.
  - intros [c [H _]]. destruct a; discriminate.
  - destruct (p x) eqn:Ex.
    + intros H. inv H. exists x. auto.
    + destruct (split_once_p p s) as [[a' b']|] eqn:E; [|discriminate].
      intros H. inv H. destruct (proj1 (IH a' b) eq_refl) as [c [H1 [H2 H3]]].
      exists c. subst. simpl. rewrite Ex. auto.
  - intros [c [H1 [H2 H3]]]. destruct a as [|y a]; simpl in *.
    + inv H1. rewrite H2. reflexivity.
    + inv H1. apply andb_true_iff in H3 as [H3 H4]. apply negb_true_iff in H3. rewrite H3.
      rewrite (proj2 (IH a b)); [reflexivity|]. eauto.
Qed.

Lemma split_once_p_none : forall p s, split_once_p p s = None <-> forallb (fun x => negb (p x)) s = true.
Proof.
  intros p s. induction s as [|x s IH]; simpl; split; auto.
  - destruct (p x) eqn:Ex; [discriminate|]. destruct (split_once_p p s) as [[a b]|] eqn:E; [discriminate|].
    intros _. simpl. apply IH. reflexivity.
  - intros H. apply andb_true_iff in H as [H1 H2]. apply negb_true_iff in H1. rewrite H1.
    rewrite (proj2 IH H2). reflexivity.
Qed.

Lemma not_In_forallb : forall c s, forallb (fun x => negb (c =? x)) s = true <-> ~ In c s.
Proof.
  intros c s. induction s as [|x s IH]; simpl.
  - tauto.
  - rewrite andb_true_iff, IH. rewrite negb_true_iff, N.eqb_neq. intuition congruence.
Qed.

Lemma split_once_some : forall c s a b, split_once c s = Some (a, b) <-> s = a ++ c :: b /\ ~ In c a.
Proof.
  intros c s a b. unfold split_once. rewrite split_once_p_some. split.
  - intros [x [H1 [H2 H3]]]. apply N.eqb_eq in H2. subst x. rewrite not_In_forallb in H3. auto.
  - intros [H1 H2]. exists c. rewrite not_In_forallb. rewrite N.eqb_refl. auto.
Qed.

Lemma split_once_none : forall c s, split_once c s = None <-> ~ In c s.
Proof. intros. unfold split_once. rewrite split_once_p_none. apply not_In_forallb. Qed.

Lemma split_once_app : forall c a b, ~ In c a -> split_once c (a ++ c :: b) = Some (a, b).
Proof. intros. apply split_once_some. auto. Qed.

Lemma split_once_case : forall c s,
  (~ In c s /\ split_once c s = None) \/
  (exists a b, s = a ++ c :: b /\ ~ In c a /\ split_once c s = Some (a, b)).
Proof.
  intros c s. destruct (split_once c s) as [[a b]|] eqn:E.
  - right. exists a, b. apply split_once_some in E as [? ?]. auto.
  - left. apply split_once_none in E. auto.
Qed.

(** ** rsplit_once *)

Lemma rsplit_once_none : forall c s, rsplit_once c s = None <-> ~ In c s.
Proof.
  intros c s. induction s as [|x s IH]; simpl; [tauto|].
  destruct (rsplit_once c s) as [[a b]|] eqn:E.
  - split; [discriminate|]. intros H. exfalso. apply H. right.
    destruct (in_dec N.eq_dec c s) as [Hi|Hi]; [exact Hi|]. apply IH in Hi. discriminate.
  - destruct (N.eqb_spec c x) as [->|Hn].
    + split; [discriminate|]. intros H. exfalso. auto.
    + split; [|reflexivity]. intros _ [H|H]; [congruence|]. revert H. apply IH. reflexivity.
Qed.

Lemma rsplit_once_some : forall c s a b, rsplit_once c s = Some (a, b) <-> s = a ++ c :: b /\ ~ In c b.
Proof.
  intros c s. induction s as [|x s IH]; intros a b; simpl.
  - split; [discriminate|]. intros [H _]. destruct a; discriminate.
  - destruct (rsplit_once c s) as [[a' b']|] eqn:E.
    + destruct (proj1 (IH a' b') eq_refl) as [H1 H2]. split.
      * intros H. inv H. auto.
      * intros [H H']. destruct a as [|y a]; simpl in H.
        -- inv H. exfalso. apply H'. apply in_or_app. right. left. reflexivity.
        -- inv H. assert (Hs : Some (a', b') = Some (a, b)).
           { rewrite (proj2 (IH a b)); [reflexivity|]. auto. }
           inv Hs. reflexivity.
    + apply rsplit_once_none in E. destruct (N.eqb_spec c x) as [->|Hn]; split.
      * intros H. inv H. auto.
      * intros [H H']. destruct a as [|y a]; simpl in H; inv H; [reflexivity|].
        exfalso. apply E. apply in_or_app. right. left. reflexivity.
      * discriminate.
      * intros [H H']. destruct a as [|y a]; simpl in H; inv H; [congruence|].
        exfalso. apply E. apply in_or_app. right. left. reflexivity.
Qed.

Lemma rsplit_once_app : forall c a b, ~ In c b -> rsplit_once c (a ++ c :: b) = Some (a, b).
Proof. intros. apply rsplit_once_some. auto. Qed.

(** ** split *)

Lemma split_nonempty : forall c s, split c s <> [].
Proof.
  intros c s. destruct s as [|x s]; simpl; [discriminate|].
  destruct (c =? x); [discriminate|]. destruct (split c s); discriminate.
Qed.

Lemma split_no : forall c s, ~ In c s -> split c s = [s].
Proof.
  intros c s. induction s as [|x s IH]; simpl; intros H; [reflexivity|].
  destruct (N.eqb_spec c x) as [->|Hn]; [exfalso; auto|].
  rewrite IH by auto. reflexivity.
Qed.

Lemma split_app : forall c a b, ~ In c a -> split c (a ++ c :: b) = a :: split c b.
Proof.
  intros c a b H. induction a as [|x a IH]; simpl.
  - rewrite N.eqb_refl. reflexivity.
  - destruct (N.eqb_spec c x) as [->|Hn]; [exfalso; apply H; left; reflexivity|].
    rewrite IH; [reflexivity|]. intros Hi. apply H. right. exact Hi.
Qed.

Lemma split_join : forall c s, join [c] (split c s) = s.
Proof.
  intros c s. induction s as [|x s IH]; simpl; [reflexivity|].
  destruct (N.eqb_spec c x) as [->|Hn].
  - pose proof (split_nonempty x s). destruct (split x s) as [|h t] eqn:E; [congruence|].
    change (join [x] ([] :: h :: t)) with ([] ++ [x] ++ join [x] (h :: t)). rewrite IH. reflexivity.
  - destruct (split c s) as [|h t] eqn:E; [exfalso; eapply split_nonempty; eauto|].
    destruct t as [|h' t]; simpl in *; rewrite <- IH; reflexivity.
Qed.

Lemma split_pieces : forall c s, Forall (fun x => ~ In c x) (split c s).
Proof.
  intros c s. induction s as [|x s IH]; simpl.
  - repeat constructor. intros [].
  - destruct (N.eqb_spec c x) as [->|Hn].
    + constructor; [intros []|exact IH].
    + destruct (split c s) as [|h t]; inv IH; constructor; simpl; auto.
      all: intros [H|H]; try congruence; auto.
Qed.

Lemma split_of_join : forall c l, l <> [] -> Forall (fun x => ~ In c x) l -> split c (join [c] l) = l.
Proof.
  intros c l. induction l as [|x l IH]; intros Hn H; [congruence|].
  inv H. destruct l as [|y l]; simpl.
  - apply split_no. assumption.
  - simpl in IH. rewrite split_app by assumption. f_equal. apply IH; [discriminate|assumption].
Qed.

(** [split c s] is the only list of [c]-free pieces which joins to [s]. *)
Lemma split_iff : forall c s l,
  split c s = l <-> l <> [] /\ Forall (fun x => ~ In c x) l /\ join [c] l = s.
Proof.
  intros c s l. split.
  - intros <-. split; [apply split_nonempty|]. split; [apply split_pieces|apply split_join].
  - intros [H1 [H2 H3]]. subst s. apply split_of_join; assumption.
Qed.

(** ** strip_prefix, strip_suffix *)

Lemma strip_prefix_some : forall p s r, strip_prefix p s = Some r <-> s = p ++ r.
Proof.
  induction p as [|x p IH]; intros s r; simpl.
  - split; [intros H; inv H; reflexivity|intros ->; reflexivity].
  - destruct s as [|y s]; [split; discriminate|].
    destruct (N.eqb_spec x y) as [->|Hn].
    + rewrite IH. split; [intros ->; reflexivity|intros H; inv H; reflexivity].
    + split; [discriminate|]. intros H. inv H. congruence.
Qed.

Lemma strip_prefix_app : forall p r, strip_prefix p (p ++ r) = Some r.
Proof. intros. apply strip_prefix_some. reflexivity. Qed.

Lemma strip_prefix_none : forall p s, strip_prefix p s = None <-> forall r, s <> p ++ r.
Proof.
  intros p s. destruct (strip_prefix p s) as [r|] eqn:E.
  - apply strip_prefix_some in E. split; [discriminate|]. intros H. exfalso. eapply H. exact E.
  - split; [|reflexivity]. intros _ r H. apply strip_prefix_some in H. congruence.
Qed.

Lemma strip_suffix_some : forall p s r, strip_suffix p s = Some r <-> s = r ++ p.
Proof.
  intros p s r. unfold strip_suffix. destruct (strip_prefix (rev p) (rev s)) as [q|] eqn:E; simpl.
  - apply strip_prefix_some in E. assert (E' : s = rev q ++ p).
    { rewrite <- (rev_involutive s), E, rev_app_distr, rev_involutive. reflexivity. }
    split.
    + intros H. injection H as <-. exact E'.
    + intros H. rewrite H in E'. apply app_inv_tail in E'. congruence.
  - split; [discriminate|]. intros ->. rewrite rev_app_distr in E.
    rewrite strip_prefix_app in E. discriminate.
Qed.

Lemma strip_suffix_app : forall p r, strip_suffix p (r ++ p) = Some r.
Proof. intros. apply strip_suffix_some. reflexivity. Qed.

Lemma strip_suffix_none : forall p s, strip_suffix p s = None <-> forall r, s <> r ++ p.
Proof.
  intros p s. destruct (strip_suffix p s) as [r|] eqn:E.
  - apply strip_suffix_some in E. split; [discriminate|]. intros H. exfalso. eapply H. exact E.
  - split; [|reflexivity]. intros _ r H. apply strip_suffix_some in H. congruence.
Qed.

Lemma starts_with_iff : forall p s, starts_with p s = true <-> exists r, s = p ++ r.
Proof.
  intros p s. unfold starts_with. destruct (strip_prefix p s) as [r|] eqn:E.
  - apply strip_prefix_some in E. split; eauto.
  - split; [discriminate|]. intros [r ->]. rewrite strip_prefix_app in E. discriminate.
Qed.

Lemma ends_with_iff : forall p s, ends_with p s = true <-> exists r, s = r ++ p.
Proof.
  intros p s. unfold ends_with. destruct (strip_suffix p s) as [r|] eqn:E.
  - apply strip_suffix_some in E. split; eauto.
  - split; [discriminate|]. intros [r ->]. rewrite strip_suffix_app in E. discriminate.
Qed.

(** ** byte lengths *)

Lemma utf8_width_pos : forall c, 1 <= utf8_width c <= 4.
Proof. intros c. unfold utf8_width. repeat (match goal with |- context [if ?b then _ else _] => destruct b end); lia. Qed.

Lemma blen_app : forall a b, blen (a ++ b) = blen a + blen b.
Proof. induction a as [|x a IH]; intros b; simpl; [reflexivity|]. rewrite IH. lia. Qed.

Lemma blen_ge_length : forall s, N.of_nat (length s) <= blen s.
Proof.
  induction s as [|x s IH]; simpl length; simpl blen; [lia|].
  pose proof (utf8_width_pos x). lia.
Qed.

Lemma blen_0 : forall s, blen s = 0 <-> s = [].
Proof.
  intros [|c s]; simpl; [tauto|]. pose proof (utf8_width_pos c). split; [lia|discriminate].
Qed.

Lemma blen_ascii : forall s, forallb (fun c => c <? 128) s = true -> blen s = N.of_nat (length s).
Proof.
  induction s as [|x s IH]; intros H; [reflexivity|].
  change (blen (x :: s)) with (utf8_width x + blen s). change (length (x :: s)) with (S (length s)).
  simpl in H. apply andb_true_iff in H as [H1 H2]. rewrite IH by exact H2.
  unfold utf8_width. rewrite H1. lia.
Qed.

Lemma split_at_app : forall a b, split_at (blen a) (a ++ b) = Ret (a, b).
Proof.
  induction a as [|x a IH]; intros b.
  - destruct b; reflexivity.
  - simpl. pose proof (utf8_width_pos x).
    destruct (N.eqb_spec (utf8_width x + blen a) 0); [lia|].
    destruct (N.ltb_spec (utf8_width x + blen a) (utf8_width x)); [lia|].
    replace (utf8_width x + blen a - utf8_width x) with (blen a) by lia.
    rewrite IH. reflexivity.
Qed.

Lemma split_at_ret : forall s n a b, split_at n s = Ret (a, b) -> s = a ++ b /\ n = blen a.
Proof.
  induction s as [|x s IH]; intros n a b; simpl.
  - destruct (N.eqb_spec n 0); intros H; inv H. auto.
  - destruct (N.eqb_spec n 0); intros H.
    + inv H. auto.
    + destruct (N.ltb_spec n (utf8_width x)); [discriminate|].
      destruct (split_at (n - utf8_width x) s) as [[a' b']|] eqn:E; simpl in H; [|discriminate].
      inv H. apply IH in E as [-> E]. simpl. split; [reflexivity|lia].
Qed.

Lemma split_at_iff : forall s n a b, split_at n s = Ret (a, b) <-> s = a ++ b /\ n = blen a.
Proof.
  intros. split; [apply split_at_ret|]. intros [-> ->]. apply split_at_app.
Qed.

(** ** collect *)

Lemma collect_ok : forall {E A B} (f : A -> result E B) l ys,
  collect f l = Ok ys <-> Forall2 (fun x y => f x = Ok y) l ys.
Proof.
  intros E A B f l. induction l as [|x l IH]; intros ys; simpl.
  - split; intros H; inv H; constructor.
  - destruct (f x) as [y|e] eqn:Ex; simpl.
    + destruct (collect f l) as [r|e] eqn:Er; simpl.
      * split; intros H.
        -- inv H. constructor; [exact Ex|]. apply IH. reflexivity.
        -- inv H. assert (Hy : f x = Ok y0) by assumption. rewrite Ex in Hy. inv Hy.
           f_equal. f_equal. match goal with H : Forall2 _ _ _ |- _ => apply IH in H; inv H end. reflexivity.
      * split; intros H; [inv H|]. inv H. match goal with H : Forall2 _ _ _ |- _ => apply IH in H; inv H end.
    + split; intros H; inv H. congruence.
Qed.

Lemma forallb_app_iff : forall {A} (f : A -> bool) a b, forallb f (a ++ b) = true <-> forallb f a = true /\ forallb f b = true.
Proof. intros. rewrite forallb_app, andb_true_iff. tauto. Qed.

Lemma forallb_not_In : forall (p : char -> bool) c s, forallb p s = true -> p c = false -> ~ In c s.
Proof. intros p c s H Hc Hi. rewrite forallb_forall in H. apply H in Hi. congruence. Qed.

Lemma forallb_impl : forall {A} (p q : A -> bool) l, (forall x, p x = true -> q x = true) ->
  forallb p l = true -> forallb q l = true.
Proof. intros A p q l H. rewrite !forallb_forall. auto. Qed.

(** Classes decided by arithmetic. *)
Ltac cls := unfold is_alnum, is_alpha, is_lower, is_upper, is_digit, between, ch in *; simpl N_of_ascii in *.
