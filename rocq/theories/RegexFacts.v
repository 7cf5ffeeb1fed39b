(** Facts connecting regular expressions with boolean tests. *)

From Coq Require Import List NArith Bool Ascii Lia ZifyBool ZifyN.
Import ListNotations.
From Verif Require Import Base BaseFacts Regex.
Open Scope N_scope.

Definition in_clsb (k : cls) (c : char) : bool := existsb (fun r => between (fst r) (snd r) c) k.

Lemma in_clsb_iff : forall k c, in_clsb k c = true <-> in_cls k c.
Proof.
  intros k c. unfold in_clsb, in_cls. rewrite existsb_exists. split.
  - intros [[a b] [H1 H2]]. unfold between in H2. cbn [fst snd] in H2. exists a, b. split; [exact H1|lia].
  - intros [a [b [H1 H2]]]. exists (a, b). split; [exact H1|]. unfold between. cbn [fst snd]. lia.
Qed.

Lemma matches_cls : forall k s, matches (Cls k) s <-> exists c, s = [c] /\ in_cls k c.
Proof. intros k s. split; [intros H; inv H; eauto|]. intros [c [-> H]]. constructor. exact H. Qed.

Lemma matches_eps : forall s, matches Eps s <-> s = [].
Proof. intros s. split; [intros H; inv H; reflexivity|]. intros ->. constructor. Qed.

Lemma matches_cat : forall a b s, matches (Cat a b) s <-> exists x y, s = x ++ y /\ matches a x /\ matches b y.
Proof. intros a b s. split; [intros H; inv H; eauto|]. intros [x [y [-> [H1 H2]]]]. constructor; assumption. Qed.

Lemma matches_alt : forall a b s, matches (Alt a b) s <-> matches a s \/ matches b s.
Proof. intros a b s. split; [intros H; inv H; auto|]. intros [H|H]; [apply m_alt_l|apply m_alt_r]; exact H. Qed.

Lemma matches_lit : forall a s, matches (Lit a) s <-> s = [ch a].
Proof.
  intros a s. unfold Lit, one. rewrite matches_cls. split.
  - intros [c [-> [x [y [[H|[]] Hc]]]]]. inv H. f_equal. lia.
  - intros ->. exists (ch a). split; [reflexivity|]. exists (ch a), (ch a). split; [left; reflexivity|lia].
Qed.

Lemma matches_star_cls : forall k s, matches (Star (Cls k)) s <-> Forall (in_cls k) s.
Proof.
  intros k s. split.
  - intros H. remember (Star (Cls k)) as r eqn:E. induction H; try discriminate; [constructor|].
    inv E. apply Forall_app. split; [|apply IHmatches2; reflexivity].
    apply matches_cls in H as [c [-> H]]. repeat constructor. exact H.
  - intros H. induction H as [|c s H Hs IH]; [constructor|].
    change (c :: s) with ([c] ++ s). apply m_star_cons; [constructor; exact H|exact IH].
Qed.

Lemma Forall_in_cls : forall k s, Forall (in_cls k) s <-> forallb (in_clsb k) s = true.
Proof.
  intros k s. rewrite Forall_forall, forallb_forall.
  split; intros H c Hc; apply H in Hc; apply in_clsb_iff; exact Hc.
Qed.

Lemma matches_cls_star : forall k1 k2 s,
  matches (Cat (Cls k1) (Star (Cls k2))) s <->
  exists c r, s = c :: r /\ in_clsb k1 c = true /\ forallb (in_clsb k2) r = true.
Proof.
  intros k1 k2 s. rewrite matches_cat. split.
  - intros [x [y [-> [H1 H2]]]]. apply matches_cls in H1 as [c [-> H1]]. apply matches_star_cls in H2.
    exists c, y. rewrite in_clsb_iff, <- Forall_in_cls. auto.
  - intros [c [r [-> [H1 H2]]]]. exists [c], r. split; [reflexivity|].
    rewrite in_clsb_iff in H1. rewrite <- Forall_in_cls in H2.
    split; [constructor; exact H1|apply matches_star_cls; exact H2].
Qed.

Lemma matches_plus_cls : forall k s,
  matches (Plus (Cls k)) s <-> s <> [] /\ forallb (in_clsb k) s = true.
Proof.
  intros k s. unfold Plus. rewrite matches_cls_star. split.
  - intros [c [r [-> [H1 H2]]]]. split; [discriminate|]. cbn [forallb]. rewrite H1. exact H2.
  - intros [H1 H2]. destruct s as [|c r]; [congruence|]. cbn [forallb] in H2.
    apply andb_true_iff in H2 as [H2 H3]. eauto.
Qed.

(** First element of a list which fails a test. *)
Lemma first_bad : forall (p : char -> bool) s,
  forallb p s = true \/ exists a c r, s = a ++ c :: r /\ forallb p a = true /\ p c = false.
Proof.
  intros p s. induction s as [|x s IH]; [left; reflexivity|]. destruct (p x) eqn:E.
  - destruct IH as [IH|[a [c [r [-> [H1 H2]]]]]].
    + left. cbn [forallb]. rewrite E. exact IH.
    + right. exists (x :: a), c, r. cbn [forallb app]. rewrite E. auto.
  - right. exists [], x, s. auto.
Qed.

Lemma first_bad_unique : forall (p : char -> bool) a c r a' c' r',
  a ++ c :: r = a' ++ c' :: r' -> forallb p a = true -> forallb p a' = true -> p c = false -> p c' = false ->
  a = a' /\ c = c' /\ r = r'.
Proof.
  intros p a. induction a as [|x a IH]; intros c r a' c' r' E H1 H2 H3 H4; destruct a' as [|y a'];
    cbn [app forallb] in *.
  - inv E. auto.
  - inv E. apply andb_true_iff in H2 as [H2 _]. congruence.
  - inv E. apply andb_true_iff in H1 as [H1 _]. congruence.
  - inv E. apply andb_true_iff in H1 as [_ H1]. apply andb_true_iff in H2 as [_ H2].
    destruct (IH c r a' c' r') as [-> [-> ->]]; auto.
Qed.
