(** Facts about ordered sets and maps. *)

From Coq Require Import List Bool.
Import ListNotations.
From Verif Require Import Base BaseFacts Coll.

Section Facts.
  Context {K V : Type} (eqb : K -> K -> bool) (eqb_spec : forall a b, eqb a b = true <-> a = b).

  Lemma eqb_refl' : forall a, eqb a a = true.
  Proof. intros a. apply eqb_spec. reflexivity. Qed.

  Lemma eqb_neq' : forall a b, a <> b -> eqb a b = false.
  Proof. intros a b H. destruct (eqb a b) eqn:E; [apply eqb_spec in E; contradiction|reflexivity]. Qed.

  Lemma K_dec : forall a b : K, a = b \/ a <> b.
  Proof. intros a b. destruct (eqb a b) eqn:E; [left; apply eqb_spec; exact E|right; intros H; apply eqb_spec in H; congruence]. Qed.

  Lemma existsb_eqb : forall x l, existsb (eqb x) l = true <-> In x l.
  Proof.
    intros x l. rewrite existsb_exists. split; [intros [y [H1 H2]]; apply eqb_spec in H2; subst; exact H1|].
    intros H. exists x. split; [exact H|apply eqb_refl'].
  Qed.

  Lemma iset_insert_new : forall l x, ~ In x l -> iset_insert eqb l x = l ++ [x].
  Proof.
    intros l x H. unfold iset_insert. destruct (existsb (eqb x) l) eqn:E; [|reflexivity].
    apply existsb_eqb in E. contradiction.
  Qed.

  Lemma iset_insert_old : forall l x, In x l -> iset_insert eqb l x = l.
  Proof. intros l x H. unfold iset_insert. apply existsb_eqb in H. rewrite H. reflexivity. Qed.

  Lemma iset_insert_In : forall l x y, In y (iset_insert eqb l x) <-> y = x \/ In y l.
  Proof.
    intros l x y. unfold iset_insert. destruct (existsb (eqb x) l) eqn:E.
    - apply existsb_eqb in E. split; [auto|]. intros [->|H]; assumption.
    - rewrite in_app_iff. cbn [In]. split; [intros [H|[H|[]]]; auto|]. intros [->|H]; auto.
  Qed.

  Lemma iset_fold : forall l acc, NoDup (acc ++ l) -> fold_left (iset_insert eqb) l acc = acc ++ l.
  Proof.
    intros l. induction l as [|x l IH]; intros acc H; cbn [fold_left]; [rewrite app_nil_r; reflexivity|].
    assert (Hx : ~ In x acc).
    { intros Hc. apply NoDup_remove_2 in H. apply H. apply in_or_app. auto. }
    rewrite iset_insert_new by exact Hx. rewrite IH; rewrite <- app_assoc; [reflexivity|exact H].
  Qed.

  (** A list without duplicates is the set collected from it. *)
  Lemma iset_of_nodup : forall l, NoDup l -> iset_of eqb l = l.
  Proof. intros l H. unfold iset_of. apply (iset_fold l []). exact H. Qed.

  Lemma iset_insert_nodup : forall l x, NoDup l -> NoDup (iset_insert eqb l x).
  Proof.
    intros l x H. unfold iset_insert. destruct (existsb (eqb x) l) eqn:E; [exact H|].
    assert (Hx : ~ In x l) by (intros Hc; apply existsb_eqb in Hc; congruence).
    clear E. induction l as [|y l IH]; cbn [app]; [repeat constructor; auto|].
    inversion H as [|a b H1 H2]; subst a b. constructor.
    - rewrite in_app_iff. cbn [In]. intros [H3|[H3|[]]]; [contradiction|]. apply Hx. subst. left. reflexivity.
    - apply IH; [exact H2|]. intros Hc. apply Hx. right. exact Hc.
  Qed.

  Lemma iset_of_facts : forall l acc, NoDup acc ->
    NoDup (fold_left (iset_insert eqb) l acc) /\ forall y, In y (fold_left (iset_insert eqb) l acc) <-> In y acc \/ In y l.
  Proof.
    intros l. induction l as [|x l IH]; intros acc H; cbn [fold_left]; [cbn [In]; split; [exact H|tauto]|].
    destruct (IH (iset_insert eqb acc x) (iset_insert_nodup acc x H)) as [H1 H2]. split; [exact H1|].
    intros y. rewrite H2, iset_insert_In. cbn [In]. split; [intros [[->|Hy]|Hy]; auto|]. intros [Hy|[->|Hy]]; auto.
  Qed.

  Lemma iset_of_NoDup : forall l, NoDup (iset_of eqb l).
  Proof. intros l. apply (iset_of_facts l []). constructor. Qed.

  Lemma iset_of_In : forall l y, In y (iset_of eqb l) <-> In y l.
  Proof. intros l y. unfold iset_of. rewrite (proj2 (iset_of_facts l [] (NoDup_nil K))). cbn [In]. tauto. Qed.

  (** ** Maps *)

  Lemma imap_insert_new : forall (m : list (K * V)) k v, ~ In k (map fst m) -> imap_insert eqb m k v = m ++ [(k, v)].
  Proof.
    intros m k v. induction m as [|[k' v'] m IH]; intros H; cbn [imap_insert app]; [reflexivity|].
    cbn [map fst In] in H. rewrite eqb_neq' by (intros E; apply H; left; auto). rewrite IH by tauto. reflexivity.
  Qed.

  Lemma imap_insert_keys : forall (m : list (K * V)) k v, map fst (imap_insert eqb m k v) = iset_insert eqb (map fst m) k.
  Proof.
    intros m k v. induction m as [|[k' v'] m IH]; cbn [imap_insert map fst]; [reflexivity|].
    destruct (eqb k k') eqn:E.
    - cbn [map fst]. unfold iset_insert. cbn [existsb]. rewrite E. reflexivity.
    - cbn [map fst]. rewrite IH. unfold iset_insert. cbn [existsb]. rewrite E. cbn [orb].
      destruct (existsb (eqb k) (map fst m)); reflexivity.
  Qed.

  Lemma imap_fold : forall (l acc : list (K * V)), NoDup (map fst (acc ++ l)) ->
    fold_left (fun m p => imap_insert eqb m (fst p) (snd p)) l acc = acc ++ l.
  Proof.
    intros l. induction l as [|[k v] l IH]; intros acc H; cbn [fold_left fst snd]; [rewrite app_nil_r; reflexivity|].
    assert (Hx : ~ In k (map fst acc)).
    { rewrite map_app in H. cbn [map fst] in H. apply NoDup_remove_2 in H. intros Hc. apply H. apply in_or_app. auto. }
    rewrite imap_insert_new by exact Hx. rewrite IH; rewrite <- app_assoc; [reflexivity|exact H].
  Qed.

  (** Entries with distinct keys are the map collected from them. *)
  Lemma imap_of_nodup : forall l : list (K * V), NoDup (map fst l) -> imap_of eqb l = l.
  Proof. intros l H. unfold imap_of. apply (imap_fold l []). exact H. Qed.

  Lemma imap_of_keys_fold : forall (l acc : list (K * V)),
    map fst (fold_left (fun m p => imap_insert eqb m (fst p) (snd p)) l acc) =
    fold_left (iset_insert eqb) (map fst l) (map fst acc).
  Proof.
    intros l. induction l as [|[k v] l IH]; intros acc; cbn [fold_left map fst snd]; [reflexivity|].
    rewrite IH, imap_insert_keys. reflexivity.
  Qed.

  (** The keys are in order of first occurrence. *)
  Lemma imap_of_keys : forall l : list (K * V), map fst (imap_of eqb l) = iset_of eqb (map fst l).
  Proof. intros l. apply (imap_of_keys_fold l []). Qed.

  Lemma imap_of_NoDup : forall l : list (K * V), NoDup (map fst (imap_of eqb l)).
  Proof. intros l. rewrite imap_of_keys. apply iset_of_NoDup. Qed.

  Lemma imap_get_insert : forall (m : list (K * V)) k v j,
    imap_get eqb (imap_insert eqb m k v) j = if eqb j k then Some v else imap_get eqb m j.
  Proof.
    intros m k v j. induction m as [|[k' v'] m IH]; cbn [imap_insert imap_get]; [reflexivity|].
    destruct (eqb k k') eqn:E.
    - apply eqb_spec in E. subst k'. cbn [imap_get]. destruct (eqb j k); reflexivity.
    - cbn [imap_get]. rewrite IH. destruct (eqb j k') eqn:E2; [|reflexivity].
      apply eqb_spec in E2. subst k'. destruct (eqb j k) eqn:E3; [|reflexivity]. apply eqb_spec in E3. subst k.
      rewrite eqb_refl' in E. discriminate.
  Qed.

  Lemma imap_get_fold : forall (l acc : list (K * V)) j,
    imap_get eqb (fold_left (fun m p => imap_insert eqb m (fst p) (snd p)) l acc) j =
    match imap_get eqb (rev l) j with Some v => Some v | None => imap_get eqb acc j end.
  Proof.
    assert (A : forall (a b : list (K * V)) j, imap_get eqb (a ++ b) j =
                match imap_get eqb a j with Some v => Some v | None => imap_get eqb b j end).
    { intros a b j. induction a as [|[k v] a IH]; cbn [app imap_get]; [reflexivity|]. destruct (eqb j k); auto. }
    intros l. induction l as [|[k v] l IH]; intros acc j; cbn [fold_left rev fst snd]; [reflexivity|].
    rewrite IH, imap_get_insert, A. destruct (imap_get eqb (rev l) j); [reflexivity|]. cbn [imap_get].
    destruct (eqb j k); reflexivity.
  Qed.

  (** The value of a key is the last one given for it. *)
  Lemma imap_of_get : forall (l : list (K * V)) j, imap_get eqb (imap_of eqb l) j = imap_get eqb (rev l) j.
  Proof.
    intros l j. unfold imap_of. rewrite imap_get_fold. destruct (imap_get eqb (rev l) j); reflexivity.
  Qed.

  Lemma imap_get_In : forall (m : list (K * V)) k v, NoDup (map fst m) -> (imap_get eqb m k = Some v <-> In (k, v) m).
  Proof.
    intros m k v H. induction m as [|[k' v'] m IH]; cbn [imap_get In]; [split; [discriminate|tauto]|].
    cbn [map fst] in H. inversion H as [|a b H1 H2]; subst a b. destruct (eqb k k') eqn:E.
    - apply eqb_spec in E. subst k'. split; [intros G; injection G as ->; auto|].
      intros [G|G]; [injection G as ->; reflexivity|]. exfalso. apply H1. apply in_map_iff. exists (k, v). auto.
    - rewrite (IH H2). split; [auto|]. intros [G|G]; [injection G as -> ->; rewrite eqb_refl' in E; discriminate|exact G].
  Qed.

  Lemma imap_get_none : forall (m : list (K * V)) k, imap_get eqb m k = None <-> ~ In k (map fst m).
  Proof.
    intros m k. induction m as [|[k' v'] m IH]; cbn [imap_get map fst In]; [tauto|]. destruct (eqb k k') eqn:E.
    - apply eqb_spec in E. subst k'. split; [discriminate|]. intros H. exfalso. apply H. auto.
    - rewrite IH. split; [|tauto]. intros H [G|G]; [subst k'; rewrite eqb_refl' in E; discriminate|contradiction].
  Qed.

  Lemma imap_insert_sub : forall (m : list (K * V)) k v p, In p (imap_insert eqb m k v) -> p = (k, v) \/ In p m.
  Proof.
    intros m k v p. induction m as [|[k' v'] m IH]; cbn [imap_insert In]; [intros [<-|[]]; auto|].
    destruct (eqb k k') eqn:E; cbn [In].
    - apply eqb_spec in E. subst k'. intros [<-|H]; auto.
    - intros [<-|H]; auto. destruct (IH H); auto.
  Qed.

  Lemma imap_of_sub : forall (l : list (K * V)) p, In p (imap_of eqb l) -> In p l.
  Proof.
    assert (G : forall (l acc : list (K * V)) p,
              In p (fold_left (fun m p => imap_insert eqb m (fst p) (snd p)) l acc) -> In p acc \/ In p l).
    { intros l. induction l as [|[k v] l IH]; intros acc p; cbn [fold_left fst snd]; [auto|]. intros H. apply IH in H.
      destruct H as [H|H]; [|right; right; exact H]. apply imap_insert_sub in H. destruct H as [->|H]; [right; left; reflexivity|auto]. }
    intros l p H. apply G in H. destruct H as [[]|H]. exact H.
  Qed.

  (** The last entry of a key is the one kept. *)
  Lemma imap_of_last : forall (l : list (K * V)) k v a b, l = a ++ (k, v) :: b -> ~ In k (map fst b) -> In (k, v) (imap_of eqb l).
  Proof.
    intros l k v a b -> Hb. apply imap_get_In; [apply imap_of_NoDup|]. rewrite imap_of_get, rev_app_distr. cbn [rev].
    rewrite <- app_assoc.
    assert (A : forall c d : list (K * V), ~ In k (map fst c) -> imap_get eqb (c ++ d) k = imap_get eqb d k).
    { intros c d. induction c as [|[k' v'] c IH]; intros Hc; [reflexivity|]. cbn [app imap_get map fst In] in *.
      rewrite eqb_neq' by (intros ->; apply Hc; auto). apply IH. tauto. }
    rewrite A; [cbn [app imap_get]; rewrite eqb_refl'; reflexivity|]. rewrite map_rev, <- in_rev. exact Hb.
  Qed.
End Facts.

(** Changing the values does not change which entries are kept. *)
Lemma imap_of_map : forall {K V W} (eqb : K -> K -> bool) (f : V -> W) (l : list (K * V)),
  imap_of eqb (map (fun p => (fst p, f (snd p))) l) = map (fun p => (fst p, f (snd p))) (imap_of eqb l).
Proof.
  intros K V W eqb f.
  assert (I : forall (m : list (K * V)) k v,
            imap_insert eqb (map (fun p => (fst p, f (snd p))) m) k (f v) = map (fun p => (fst p, f (snd p))) (imap_insert eqb m k v)).
  { intros m k v. induction m as [|[k' v'] m IH]; cbn [map imap_insert fst snd]; [reflexivity|].
    destruct (eqb k k'); cbn [map fst snd]; [reflexivity|]. rewrite IH. reflexivity. }
  assert (G : forall (l acc : list (K * V)),
            fold_left (fun m p => imap_insert eqb m (fst p) (snd p)) (map (fun p => (fst p, f (snd p))) l) (map (fun p => (fst p, f (snd p))) acc) =
            map (fun p => (fst p, f (snd p))) (fold_left (fun m p => imap_insert eqb m (fst p) (snd p)) l acc)).
  { intros l. induction l as [|[k v] l IH]; intros acc; cbn [map fold_left fst snd]; [reflexivity|]. rewrite I. apply IH. }
  intros l. apply (G l []).
Qed.
