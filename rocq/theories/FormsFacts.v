(** Facts on documents that a reader takes for the same thing in another form. *)

From Coq Require Import String Ascii List NArith ZArith Bool Lia.
Import ListNotations.
From Verif Require Import Base BaseFacts Num Coll CollFacts VolumesModel Serde Codec CodecFacts ScalarCodec CommonCodec ServiceParts ServiceCodec SchemaFacts Schema NamesSpec PropsDefault PanicSpec ChangeSpec ChangeFacts ChangeLoads
  FormsSpec FormsModel FormsSame.
Open Scope N_scope.

(** Both fail or both give related values. *)
Definition rrel {A : Type} (R : A -> A -> Prop) (r r' : result de_error A) : Prop :=
  match r, r' with Ok a, Ok b => R a b | Err _, Err _ => True | _, _ => False end.
Definition sees {A : Set} (c : codec A) (R : A -> A -> Prop) (Q : relation) : Prop := forall v v', yaml_ok v = true -> Q v v' -> rrel R (de c v) (de c v').
Definition not_null (Q : relation) : Prop := forall v v', Q v v' -> is_null v = false /\ is_null v' = false.

Lemma rrel_map : forall {A B : Type} (f : A -> B) (S : A -> A -> Prop) (R : B -> B -> Prop) r r', rrel S r r' -> (forall a a', S a a' -> R (f a) (f a')) -> rrel R (map_ok f r) (map_ok f r').
Proof. intros A B f S R [a|] [a'|] H I; cbn [map_ok rrel] in *; auto. Qed.
Lemma rrel_eq : forall {A : Type} (R : A -> A -> Prop) r, (forall a, R a a) -> rrel R r r.
Proof. intros A R [a|] H; cbn [rrel]; auto. Qed.
Lemma sees_impl : forall {A : Set} (c : codec A) (R S : A -> A -> Prop) Q, sees c R Q -> (forall a b, R a b -> S a b) -> sees c S Q.
Proof. intros A c R S Q H I v v' Y D. specialize (H v v' Y D). destruct (de c v), (de c v'); cbn [rrel] in *; auto. Qed.

Lemma sees_option : forall {A : Set} (c : codec A) R Q, not_null Q -> sees c R Q -> sees (option_c c) (both R) Q.
Proof.
  intros A c R Q N H v v' Y D. destruct (N _ _ D) as [X X']. specialize (H v v' Y D). cbn [de option_c].
  destruct v, v'; try discriminate; now apply (rrel_map Some R).
Qed.
Lemma sees_some : forall {A : Set} (c : codec A) R Q, sees c R Q -> sees (some_c c) (both R) Q.
Proof. intros A c R Q H v v' Y D. cbn [de some_c]. apply (rrel_map Some R); [|auto]. now apply H. Qed.
Lemma collect_rrel : forall {A B : Type} (f : A -> result de_error B) (R : B -> B -> Prop) l y y' r, (forall b, R b b) -> rrel R (f y) (f y') -> rrel (Forall2 R) (collect f (l ++ y :: r)) (collect f (l ++ y' :: r)).
Proof.
  intros A B f R l y y' r X H. rewrite !collect_app. cbn [collect]. destruct (collect f l) as [a|]; cbn [bind]; [|exact I].
  destruct (f y) as [b|], (f y') as [b'|]; cbn [bind rrel] in *; try contradiction; [|exact I]. destruct (collect f r) as [c|]; cbn [bind rrel]; [|exact I].
  apply Forall2_app; [clear -X; induction a; constructor; auto|]. constructor; [exact H|clear -X; induction c; constructor; auto].
Qed.
Lemma sees_list : forall {A : Set} (c : codec A) (R : A -> A -> Prop) Q, (forall a, R a a) -> sees c R Q -> sees (list_c c) (Forall2 R) (under_item Q).
Proof. intros A c R Q X H v v' Y (l & y & y' & r & -> & -> & D). cbn [de list_c]. apply collect_rrel; [exact X|]. apply H; [now apply yaml_item in Y|exact D]. Qed.

Section Insert.
Context {K V : Type} (eqb : K -> K -> bool) (R : V -> V -> Prop).
Lemma insert_same : forall (m m' : list (K * V)) k v v', same_map R m m' -> R v v' -> same_map R (imap_insert eqb m k v) (imap_insert eqb m' k v').
Proof.
  intros m m' k v v' F H. induction F as [|[a x] [b y] m m' [E G] F IH]; cbn [imap_insert]; [constructor; [now split|constructor]|].
  cbn [fst snd] in *. subst b. destruct (eqb k a); constructor; try assumption; now split.
Qed.
Lemma imap_of_same : forall m m' : list (K * V), same_map R m m' -> same_map R (imap_of eqb m) (imap_of eqb m').
Proof.
  intros m m' F. unfold imap_of.
  assert (G : forall acc acc', same_map R acc acc' ->
    same_map R (fold_left (fun a e => imap_insert eqb a (fst e) (snd e)) m acc) (fold_left (fun a e => imap_insert eqb a (fst e) (snd e)) m' acc')).
  { induction F as [|e e' m m' [E H] F IH]; intros acc acc' A; cbn [fold_left]; [exact A|]. apply IH. rewrite E. now apply insert_same. }
  apply G. constructor.
Qed.
End Insert.
Lemma sees_imap : forall {K V : Set} eqb (k : codec K) (c : codec V) (R : V -> V -> Prop) Q, (forall a, R a a) -> sees c R Q -> sees (imap_c eqb k c) (same_map R) (under_any_key Q).
Proof.
  intros K V eqb k c R Q X H v v' Y (l & x & y & y' & r & -> & -> & D). cbn [de imap_c].
  apply (rrel_map (imap_of eqb) (same_map R)); [|intros a a'; apply imap_of_same]. apply collect_rrel; [intros e; now split|].
  specialize (H _ _ (yaml_value _ _ _ _ Y) D). unfold entry_de. cbn [fst snd]. destruct (de k x); cbn [bind]; [|exact I].
  destruct (de c y), (de c y'); cbn [bind rrel fst snd] in *; auto.
Qed.

Definition long_related {S L : Type} (R : L -> L -> Prop) (x y : short_or_long S L) : Prop := match x, y with Long a, Long b => R a b | _, _ => False end.
Lemma sees_long : forall {S L : Set} (s : codec S) (l : codec L) R Q, between_maps Q -> sees l R Q -> sees (short_or_long_c s l) (long_related R) Q.
Proof. intros S L s l R Q M H v v' Y D. destruct (M _ _ D) as (es & es' & -> & ->). cbn [de short_or_long_c]. apply (rrel_map Long R); [now apply H|auto]. Qed.
Definition items_related {A B : Set} (R : B -> B -> Prop) (x y : item_or_list A B) : Prop := match x, y with Items a, Items b => R a b | _, _ => False end.
Lemma sees_items : forall {A B : Set} (i : codec A) (l : codec B) R Q, between_lists Q -> sees l R Q -> sees (item_or_list_c i l) (items_related R) Q.
Proof. intros A B i l R Q M H v v' Y D. destruct (M _ _ D) as (x & x' & -> & ->). cbn [de item_or_list_c]. apply (rrel_map Items R); [now apply H|auto]. Qed.

(** ** Structs *)

Definition m_sees (n : str) (Q : relation) (m : member) (R : m_type m -> m_type m -> Prop) : Prop := forall es es', yaml_ok (VMap es) = true -> under_key n Q (VMap es) (VMap es') ->
  rrel R (m_de m es) (m_de m es').
Lemma m_sees_field : forall n Q {A : Set} (c : codec A) d s (R : A -> A -> Prop), sees c R Q -> m_sees n Q (field n c d s) R.
Proof.
  intros n Q A c d s R H es es' Y (l & y & y' & r & E & E' & D). injection E as ->. injection E' as ->. cbn [m_de field]. rewrite !lookup_values, !values_app, !values_key.
  destruct (values_of n l) as [|a [|b t]]; cbn [app]; [|destruct (values_of n r); exact I|exact I]. destruct (values_of n r); [|exact I]. cbn [bind].
  apply H; [now apply yaml_value in Y|exact D].
Qed.
Fixpoint nth_sees (i : nat) (ms : list member) (n : str) (Q : relation) {struct ms} : (nth_type i ms -> nth_type i ms -> Prop) -> Prop :=
  match ms return (nth_type i ms -> nth_type i ms -> Prop) -> Prop with
  | [] => fun _ => False
  | m :: r => match i return (nth_type i (m :: r) -> nth_type i (m :: r) -> Prop) -> Prop with
              | O => fun R => In n (m_names m) /\ m_sees n Q m R
              | S i => fun R => nth_sees i r n Q R
              end
  end.
Lemma nth_sees_name : forall ms i n Q R, nth_sees i ms n Q R -> In n (names ms).
Proof.
  induction ms as [|m ms IH]; intros i n Q R H; [destruct H|]. unfold names. cbn [flat_map]. apply in_or_app. destruct i as [|i]; [destruct H as [H _]; now left|]. right. exact (IH i n Q R H).
Qed.
Definition only_at (i : nat) (ms : list member) (R : nth_type i ms -> nth_type i ms -> Prop) (a a' : vals ms) : Prop :=
  (forall k, k <> i -> nth_val k ms a = nth_val k ms a') /\ R (nth_val i ms a) (nth_val i ms a').
Lemma nth_sees_members : forall ms, Forall local ms -> once_each (names ms) = true -> forall i n Q R, nth_sees i ms n Q R ->
  forall es es', yaml_ok (VMap es) = true -> under_key n Q (VMap es) (VMap es') -> rrel (only_at i ms R) (de_members ms es) (de_members ms es').
Proof.
  intros ms L. induction L as [|m ms Lm L IH]; intros O i n Q R H es es' Y D; [destruct H|].
  pose proof (once_each_NoDup _ O) as N. unfold names in N. cbn [flat_map] in N. fold (names ms) in N. apply NoDup_parts in N as [N1 N2].
  assert (O' : once_each (names ms) = true).
  { clear -O. unfold names in O. cbn [flat_map] in O. fold (names ms) in O. induction (m_names m) as [|x l IHl]; [exact O|]. cbn [app once_each] in O. apply andb_true_iff in O as [_ O]. auto. }
  pose proof (key_others n Q es es' D) as S. destruct i as [|i]; cbn [nth_sees] in H; [destruct H as [J H]|pose proof (nth_sees_name _ _ _ _ _ H) as J].
  - cbn [de_members]. pose proof (keeps_members ms es es' (keeps_others ms n es es' L (N2 n J) S)) as E. rewrite E. specialize (H es es' Y D).
    destruct (m_de m es) as [a|], (m_de m es') as [a'|]; cbn [bind rrel] in *; try contradiction; [|exact I]. destruct (de_members ms es) as [v|]; cbn [bind rrel]; [|exact I].
    split; [|exact H]. intros [|k] K; [now elim K|reflexivity].
  - cbn [de_members]. assert (E : m_de m es = m_de m es').
    { apply Lm. intros k K. apply S. intros ->. exact (N2 n K J). }
    rewrite <- E. destruct (m_de m es) as [a|]; cbn [bind]; [|exact I]. specialize (IH O' i n Q R H es es' Y D).
    destruct (de_members ms es) as [v|], (de_members ms es') as [v'|]; cbn [bind rrel] in *; try contradiction; [|exact I]. destruct IH as [A B].
    split; [|exact B]. intros [|k] K; [reflexivity|]. cbn [nth_val snd]. apply A. congruence.
Qed.
Definition ext_related {ms : list member} (R : vals ms -> vals ms -> Prop) (x y : vals ms * extensions) : Prop := R (fst x) (fst y) /\ snd x = snd y.
Lemma sees_struct_ext : forall ms, tidy ms -> forall i n Q R, nth_sees i ms n Q R -> sees (struct_ext_c ms) (ext_related (only_at i ms R)) (under_key n Q).
Proof.
  intros ms (L & O & _) i n Q R H v v' Y D. destruct (maps_under_key n Q _ _ D) as (es & es' & -> & ->). cbn [de struct_ext_c].
  rewrite (key_unknown n Q es es' (names ms) D (nth_sees_name _ _ _ _ _ H)). pose proof (nth_sees_members ms L O i n Q R H es es' Y D) as G.
  destruct (de_members ms es) as [a|], (de_members ms es') as [a'|]; cbn [bind rrel] in *; try contradiction; [|exact I]. destruct (ext_de _); cbn [bind rrel]; [|exact I]. now split.
Qed.
Lemma sees_struct : forall ms, tidy ms -> forall i n Q R, nth_sees i ms n Q R -> sees (struct_c ms) (only_at i ms R) (under_key n Q).
Proof.
  intros ms (L & O & _) i n Q R H v v' Y D. destruct (maps_under_key n Q _ _ D) as (es & es' & -> & ->). cbn [de struct_c].
  rewrite (key_strings n Q es es' D). destruct (string_keys es); [|exact I]. exact (nth_sees_members ms L O i n Q R H es es' Y D).
Qed.

(** ** Sets *)

Section Sets.
Context {A : Set} {M : Type} (eqb : A -> A -> bool) (meqb : M -> M -> bool) (f : A -> list M).
Hypothesis apart : forall x y m, eqb x y = true -> In m (f x) -> exists m', In m' (f y) /\ (m = m' \/ meqb m m' = true).
Lemma iset_fold_sub : forall l acc x, In x (fold_left (iset_insert eqb) l acc) -> In x acc \/ In x l.
Proof.
  induction l as [|y l IH]; intros acc x H; cbn [fold_left] in H; [auto|]. apply IH in H as [H|H]; [|right; now right]. unfold iset_insert in H.
  destruct (existsb (eqb y) acc); [auto|]. apply in_app_or in H as [H|[<-|[]]]; [auto|]. right. now left.
Qed.
Lemma iset_fold_acc : forall l acc x, In x acc -> In x (fold_left (iset_insert eqb) l acc).
Proof. induction l as [|y l IH]; intros acc x H; cbn [fold_left]; [exact H|]. apply IH. unfold iset_insert. destruct (existsb (eqb y) acc); [exact H|]. apply in_or_app. now left. Qed.
Lemma iset_fold_covers : forall l acc x, In x l -> exists y, In y (fold_left (iset_insert eqb) l acc) /\ (x = y \/ eqb x y = true).
Proof.
  induction l as [|z l IH]; intros acc x H; [destruct H|]. cbn [fold_left]. destruct H as [->|H]; [|now apply IH]. unfold iset_insert. destruct (existsb (eqb x) acc) eqn:E.
  - apply existsb_exists in E as (y & I & E). exists y. split; [now apply iset_fold_acc|now right].
  - exists x. split; [|now left]. apply iset_fold_acc. apply in_or_app. right. now left.
Qed.
Lemma covered : forall l l', (forall m, In m (flat_map f l) -> In m (flat_map f l')) -> Forall (counterpart meqb (flat_map f (iset_of eqb l'))) (flat_map f (iset_of eqb l)).
Proof.
  intros l l' H. apply Forall_forall. intros m I. apply in_flat_map in I as (x & I & J). apply iset_fold_sub in I as [[]|I].
  assert (K : In m (flat_map f l')) by (apply H, in_flat_map; eauto). apply in_flat_map in K as (x' & K & L). destruct (iset_fold_covers l' [] x' K) as (y & Y & [->|E]).
  - exists m. split; [apply in_flat_map; eauto|now left].
  - destruct (apart _ _ _ E L) as (m' & I' & E'). exists m'. split; [apply in_flat_map; eauto|exact E'].
Qed.
Lemma sees_iset : forall (c : codec A) (F : sval -> list sval -> Prop),
  (forall v vs, F v vs -> rrel (fun l l' => flat_map f l = flat_map f l') (map_ok (fun a => [a]) (de c v)) (collect (de c) vs)) ->
  sees (iset_c eqb c) (fun l l' => same_set meqb (flat_map f l) (flat_map f l')) (item_becomes F).
Proof.
  intros c F H v v' _ (l & y & ys & r & -> & -> & J). specialize (H y ys J). cbn [de iset_c]. rewrite !collect_app. cbn [collect].
  destruct (collect (de c) l) as [a|[]]; cbn [bind map_ok rrel]; [|exact I].
  destruct (de c y) as [b|[]], (collect (de c) ys) as [bs|[]]; cbn [bind map_ok rrel] in H |- *; try contradiction; [|exact I].
  destruct (collect (de c) r) as [d|[]]; cbn [bind map_ok rrel]; [|exact I].
  assert (E : flat_map f (a ++ b :: d) = flat_map f (a ++ bs ++ d)) by (rewrite !flat_map_app, <- H; cbn [flat_map]; now rewrite app_nil_r).
  split; apply covered; rewrite E; auto.
Qed.
End Sets.
