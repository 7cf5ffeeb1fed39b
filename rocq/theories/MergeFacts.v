(** Lemmas about merging. *)

From Coq Require Import String Ascii List NArith ZArith Bool Lia Permutation.
Import ListNotations.
From Verif Require Import Base BaseFacts Num Coll CollFacts Serde Codec ScalarCodec ServiceCodec ComposeCodec ComposeProofs OptionsModel MergeSpec.
Open Scope N_scope.

Lemma sval_eqb_eq : forall a b, sval_eqb a b = true -> a = b.
Proof.
  fix rec 1. intros [| | | | |l|es] [| | | | |l'|es'] H; try discriminate H; cbn [sval_eqb] in H.
  - reflexivity.
  - f_equal. now apply Bool.eqb_prop.
  - f_equal. now apply Z.eqb_eq.
  - f_equal. now apply N.eqb_eq.
  - f_equal. now apply str_eqb_eq.
  - f_equal. revert l' H. induction l as [|a l IH]; intros [|b l'] H; try discriminate H; [reflexivity|].
    apply andb_true_iff in H as [H1 H2]. f_equal; [exact (rec a b H1)|exact (IH l' H2)].
  - f_equal. revert es' H. induction es as [|[k a] es IH]; intros [|[k' b] es'] H; try discriminate H; [reflexivity|].
    apply andb_true_iff in H as [H1 H2]. apply andb_true_iff in H1 as [H0 H1]. f_equal; [f_equal; [exact (rec k k' H0)|exact (rec a b H1)]|exact (IH es' H2)].
Qed.
Lemma sval_dec : forall a b : sval, {a = b} + {a <> b}.
Proof.
  intros a b. destruct (sval_eqb a b) eqn:E; [left; now apply sval_eqb_eq|right]. intros ->. now rewrite sval_eqb_refl in E.
Qed.
Lemma has_keys : forall es k, has es k <-> In k (map fst es).
Proof.
  intros es k. split.
  - intros [v I]. apply in_map_iff. now exists (k, v).
  - intros I. apply in_map_iff in I as ([k' v] & E & I). cbn in E. subst. now exists v.
Qed.
Lemma has_dec : forall es k, {has es k} + {~ has es k}.
Proof.
  intros es k. destruct (in_dec sval_dec k (map fst es)) as [I|I]; [left|right]; now rewrite has_keys.
Qed.
Lemma has_one : forall (es : entries) k x y, NoDup (map fst es) -> In (k, x) es -> In (k, y) es -> x = y.
Proof.
  intros es k x y N I J. induction es as [|[k' z] es IH]; [destruct I|]. cbn [map fst] in N. apply NoDup_cons_iff in N as [A N].
  assert (B : forall u, In (k, u) es -> k' <> k) by (intros u U ->; apply A, has_keys; now exists u).
  destruct I as [E|I], J as [F|J].
  - congruence.
  - elim (B y J). congruence.
  - elim (B x I). congruence.
  - auto.
Qed.

(** ** One mapping *)

Lemma last_first_perm : forall l, Permutation l (last_first l).
Proof.
  intros l. unfold last_first. destruct (rev l) as [|e r] eqn:E.
  - apply (f_equal (@rev _)) in E. rewrite rev_involutive in E. subst. constructor.
  - apply (f_equal (@rev _)) in E. rewrite rev_involutive in E. subst. cbn [rev]. apply Permutation_sym, Permutation_cons_append.
Qed.
Lemma take_out_none : forall k es, take_out k es = None <-> ~ has es k.
Proof.
  intros k es. rewrite has_keys. induction es as [|[k' v] es IH]; cbn [take_out map fst In]; [tauto|].
  destruct (sval_eqb k k') eqn:E.
  - apply sval_eqb_eq in E. subst. split; [discriminate|]. intros N. elim N. now left.
  - destruct (take_out k es) as [[x r]|]; (split; [try discriminate|intros N]).
    + assert (X : Some (x, r) = None) by (apply IH; tauto). discriminate.
    + intros _ [->|I]; [now rewrite sval_eqb_refl in E|now apply IH].
    + reflexivity.
Qed.
Lemma take_out_some : forall k es v r, take_out k es = Some (v, r) -> Permutation es ((k, v) :: r).
Proof.
  intros k es. induction es as [|[k' u] es IH]; intros v r H; cbn [take_out] in H; [discriminate|].
  destruct (sval_eqb k k') eqn:E.
  - apply sval_eqb_eq in E. subst. injection H as -> <-. constructor. apply last_first_perm.
  - destruct (take_out k es) as [[x q]|]; [|discriminate]. injection H as -> <-. rewrite (IH v q eq_refl). apply perm_swap.
Qed.

Lemma or_insert_in : forall es e, or_insert es e = if has_dec es (fst e) then es else es ++ [e].
Proof.
  intros es e. unfold or_insert. destruct (existsb _ es) eqn:X; destruct (has_dec es (fst e)) as [H|H]; try reflexivity.
  - elim H. apply existsb_exists in X as ([k v] & I & E). apply sval_eqb_eq in E. cbn in E. exists v. now rewrite E.
  - destruct H as [v I]. assert (Y : existsb (fun x => sval_eqb (fst e) (fst x)) es = true).
    { apply existsb_exists. exists (fst e, v). split; [exact I|apply sval_eqb_refl]. }
    congruence.
Qed.
Lemma or_insert_nodup : forall (es : entries) e, NoDup (map fst es) -> NoDup (map fst (or_insert es e)).
Proof.
  intros es e N. rewrite or_insert_in. destruct (has_dec es (fst e)) as [H|H]; [exact N|]. rewrite map_app. cbn [map].
  apply (Permutation_NoDup (Permutation_cons_append _ _)). constructor; [now rewrite <- has_keys|exact N].
Qed.
(** The first entry of a list with the key. *)
Fixpoint first_in (m : list (sval * sval)) (k x : sval) : Prop :=
  match m with [] => False | e :: r => (fst e = k /\ snd e = x) \/ (fst e <> k /\ first_in r k x) end.
Lemma first_in_has : forall m k x, first_in m k x -> In (k, x) m.
Proof. induction m as [|[k' y] m IH]; intros k x H; [destruct H|]. destruct H as [[E F]|[_ H]]; [left|right; auto]. cbn in *. congruence. Qed.
Lemma fold_in : forall m es k x, In (k, x) (fold_left or_insert m es) <-> In (k, x) es \/ (~ has es k /\ first_in m k x).
Proof.
  induction m as [|[k' y] m IH]; intros es k x; cbn [fold_left first_in fst snd]; [tauto|].
  rewrite IH, or_insert_in. cbn [fst]. destruct (has_dec es k') as [H|H].
  - split; (intros [I|[N F]]; [now left|right; split; [exact N|]]).
    + right. split; [|exact F]. intros ->. contradiction.
    + destruct F as [[-> _]|[_ F]]; [contradiction|exact F].
  - assert (A : forall z, has (es ++ [(k', y)]) z <-> has es z \/ z = k').
    { intros z. rewrite !has_keys, map_app, in_app_iff. cbn [map fst In]. intuition congruence. }
    rewrite A, in_app_iff. cbn [In]. split.
    + intros [[I|[E|[]]]|[N F]].
      * now left.
      * injection E as -> ->. right. split; [exact H|]. now left.
      * right. split; [tauto|]. right. split; [|exact F]. intros ->. tauto.
    + intros [I|[N [[-> ->]|[E F]]]].
      * left. now left.
      * left. right. now left.
      * right. split; [|exact F]. intros [I|I]; [now apply N|congruence].
Qed.
Lemma fold_nodup : forall (m es : entries), NoDup (map fst es) -> NoDup (map fst (fold_left or_insert m es)).
Proof. induction m as [|e m IH]; intros es N; cbn [fold_left]; [exact N|]. apply IH, or_insert_nodup, N. Qed.
Lemma first_in_app : forall (a b : entries) k x, NoDup (map fst a) -> (first_in (a ++ b) k x <-> In (k, x) a \/ (~ has a k /\ first_in b k x)).
Proof.
  induction a as [|[k' y] a IH]; intros b k x N.
  - cbn [app In]. split; [intros H; right; split; [intros [v []]|exact H]|intros [[]|[_ H]]; exact H].
  - cbn [map fst] in N. apply NoDup_cons_iff in N as [M N]. cbn [app first_in fst snd In]. rewrite (IH b k x N).
    assert (A : has ((k', y) :: a) k <-> k' = k \/ has a k) by (rewrite !has_keys; reflexivity).
    split.
    + intros [[-> ->]|[E [I|[H F]]]]; [now left; left|now left; right|right; split; [|exact F]]. rewrite A. tauto.
    + intros [[E|I]|[H F]].
      * injection E as -> ->. now left.
      * destruct (sval_dec k' k) as [->|E]; [|right; split; [exact E|now left]]. elim M. apply has_keys. now exists x.
      * rewrite A in H. right. split; [intros ->; tauto|]. right. split; [tauto|exact F].
Qed.
Lemma first_in_concat : forall (ms : list entries) k x, (forall m, In m ms -> NoDup (map fst m)) -> (first_in (concat ms) k x <-> first_has ms k x).
Proof.
  induction ms as [|m ms IH]; intros k x N; cbn [concat first_has]; [reflexivity|].
  rewrite first_in_app by (apply N; now left). rewrite (IH k x) by (intros q I; apply N; now right). reflexivity.
Qed.

(** ** Sources *)

Lemma collect_mapping : forall l ms, collect mapping l = Ok ms <-> l = map VMap ms.
Proof.
  induction l as [|v l IH]; intros ms; cbn [collect].
  - split; [intros E; injection E as <-; reflexivity|]. intros E. destruct ms; [reflexivity|discriminate].
  - destruct v as [| | | | |q|m]; cbn [mapping bind]; try (split; [discriminate|intros E; destruct ms; discriminate]).
    destruct (collect mapping l) as [r|e]; cbn [bind].
    + split; intros E.
      * injection E as <-. cbn [map]. f_equal. now apply IH.
      * destruct ms as [|m' ms]; [discriminate|]. cbn [map] in E. injection E as -> E. f_equal. f_equal. assert (X : Ok r = Ok ms) by now apply IH. congruence.
    + split; [discriminate|]. intros E. destruct ms as [|m' ms]; [discriminate|]. cbn [map] in E. injection E as _ E. assert (X : Err e = Ok ms) by now apply IH. discriminate.
Qed.
Lemma sources_ok : forall v ms, sources v = Ok ms <-> (exists m, v = VMap m /\ ms = [m]) \/ v = VSeq (map VMap ms).
Proof.
  intros v ms. destruct v as [| | | | |l|m]; cbn [sources]; try (split; [discriminate|intros [(m & E & _)|E]; discriminate]).
  - rewrite collect_mapping. split; [intros ->; now right|intros [(m & E & _)|E]; [discriminate|now injection E]].
  - split; [intros E; injection E as <-; left; now exists m|intros [(m' & E & ->)|E]; [now injection E as ->|discriminate]].
Qed.
Lemma merges_fun : forall (es : entries) ms ms', NoDup (map fst es) -> merges es ms -> merges es ms' -> ms = ms'.
Proof.
  intros es ms ms' N A B. destruct A as [A|m A|ms A], B as [B|m' B|ms' B]; try reflexivity; try (elim A; eexists; eassumption); try (elim B; eexists; eassumption);
    assert (E := has_one es _ _ _ N A B); try discriminate; [congruence|]. injection E as E. clear - E. revert ms' E.
  induction ms as [|m ms IH]; intros [|m' ms'] E; try discriminate; [reflexivity|]. cbn [map] in E. injection E as -> E. f_equal. auto.
Qed.

Definition sorted_out (es : entries) : Prop :=
  NoDup (map fst es) /\ forall ms m, merges es ms -> In m ms -> NoDup (map fst m).
Lemma merge_mapping_ok : forall es es', sorted_out es -> merge_mapping es = Ok es' ->
  NoDup (map fst es') /\ forall k x, In (k, x) es' <-> entry_after es k x.
Proof.
  intros es es' [N S] H. unfold merge_mapping in H. destruct (take_out MERGE es) as [[v rest]|] eqn:T.
  - apply take_out_some in T. destruct (sources v) as [ms|] eqn:E; [|discriminate]. cbn [bind] in H. injection H as <-.
    assert (V : In (MERGE, v) es) by (apply (Permutation_in _ (Permutation_sym T)); now left).
    assert (M : merges es ms).
    { apply sources_ok in E as [(m & -> & ->)| ->]; [now apply merges_one|now apply merges_many]. }
    assert (N' := Permutation_NoDup (Permutation_map fst T) N). cbn [map fst] in N'. apply NoDup_cons_iff in N' as [A N'].
    split; [now apply fold_nodup|]. intros k x. rewrite fold_in, first_in_concat by (intros m; exact (S ms m M)).
    assert (I : forall z, In (k, z) rest <-> k <> merge_key /\ In (k, z) es).
    { intros z. split.
      - intros I. split; [|apply (Permutation_in _ (Permutation_sym T)); now right]. intros ->. elim A. apply has_keys. now exists z.
      - intros [Ne I]. apply (Permutation_in _ T) in I. destruct I as [I|I]; [injection I as E' _; elim Ne; now symmetry|exact I]. }
    assert (Hh : has rest k <-> k <> merge_key /\ has es k).
    { split; [intros [z Z]; apply I in Z as [Ne Z]; split; [exact Ne|now exists z]|intros [Ne [z Z]]; exists z; now apply I]. }
    rewrite I, Hh. split.
    + intros C. exists ms. split; [exact M|]. destruct C as [C|[C F]]; [now left|right]. split; [|exact F].
      destruct (sval_dec k merge_key) as [->|Ne]; [now left|right]. tauto.
    + intros (ms' & M' & C). rewrite (merges_fun es ms' ms N M' M) in C. destruct C as [C|[C F]]; [now left|right]. split; [|exact F]. tauto.
  - apply take_out_none in T. injection H as <-. split; [exact N|]. intros k x. split.
    + intros I. exists []. split; [now apply merges_none|]. left. split; [|exact I]. intros ->. apply T. now exists x.
    + intros (ms & M & C). destruct M as [M|m M|ms M]; try (elim T; eexists; eassumption). destruct C as [[_ C]|[_ []]]. exact C.
Qed.
Lemma merge_mapping_some : forall es : entries, NoDup (map fst es) -> ((exists ms, merges es ms) <-> exists es', merge_mapping es = Ok es').
Proof.
  intros es N. unfold merge_mapping. destruct (take_out MERGE es) as [[v rest]|] eqn:T.
  - apply take_out_some in T. assert (V : In (MERGE, v) es) by (apply (Permutation_in _ (Permutation_sym T)); now left).
    split.
    + intros [ms M]. assert (E : sources v = Ok ms).
      { apply sources_ok. destruct M as [M|m M|ms M].
        - elim M. now exists v.
        - left. exists m. split; [exact (has_one es _ _ _ N V M)|reflexivity].
        - right. exact (has_one es _ _ _ N V M). }
      rewrite E. now eexists.
    + intros [es' H]. destruct (sources v) as [ms|] eqn:E; [|discriminate]. exists ms.
      apply sources_ok in E as [(m & -> & ->)| ->]; [now apply merges_one|now apply merges_many].
  - apply take_out_none in T. split; [now eexists|]. intros _. exists []. now apply merges_none.
Qed.

(** ** Depth *)

Lemma max_in : forall {A : Type} (f : A -> nat) l a, In a l -> (f a <= list_max (map f l))%nat.
Proof.
  intros A f l a I. assert (X := proj1 (list_max_le (map f l) (list_max (map f l))) (le_n _)). rewrite Forall_forall in X. apply X, in_map, I.
Qed.
Lemma seq_depth : forall l v, In v l -> (depth v < depth (VSeq l))%nat.
Proof. intros l v I. cbn [depth]. apply (max_in depth) in I. lia. Qed.
Lemma map_depth : forall es k v, In (k, v) es -> (depth v < depth (VMap es))%nat.
Proof. intros es k v I. cbn [depth]. apply (max_in (fun e => depth (snd e))) in I. cbn [snd] in I. lia. Qed.
Lemma source_depth : forall v ms m k x, sources v = Ok ms -> In m ms -> In (k, x) m -> (depth x < depth v)%nat.
Proof.
  intros v ms m k x E M I. apply sources_ok in E as [(m' & -> & ->)| ->].
  - destruct M as [->|[]]. exact (map_depth m k x I).
  - assert (A := map_depth m k x I). assert (B := seq_depth (map VMap ms) (VMap m) (in_map VMap ms m M)). lia.
Qed.
Lemma merge_mapping_depth : forall es es' k x, merge_mapping es = Ok es' -> In (k, x) es' -> (depth x < depth (VMap es))%nat.
Proof.
  intros es es' k x H I. unfold merge_mapping in H. destruct (take_out MERGE es) as [[v rest]|] eqn:T.
  - apply take_out_some in T. destruct (sources v) as [ms|] eqn:E; [|discriminate]. cbn [bind] in H. injection H as <-.
    apply fold_in in I as [I|[_ F]].
    + apply (map_depth es k). apply (Permutation_in _ (Permutation_sym T)). now right.
    + apply first_in_has, in_concat in F as (m & M & F). assert (A := source_depth v ms m k x E M F).
      assert (B : (depth v < depth (VMap es))%nat) by (apply (map_depth es MERGE); apply (Permutation_in _ (Permutation_sym T)); now left). lia.
  - injection H as <-. exact (map_depth es k x I).
Qed.
Lemma collect_ext_in : forall {E A B} (f g : A -> result E B) l, (forall a, In a l -> f a = g a) -> collect f l = collect g l.
Proof.
  intros E A B f g l. induction l as [|a l IH]; intros H; [reflexivity|]. cbn [collect]. rewrite (H a), IH; [reflexivity| |now left].
  intros b I. apply H. now right.
Qed.
Lemma merge_nodes_bound : forall n m v, (depth v <= n)%nat -> (depth v <= m)%nat -> merge_nodes n v = merge_nodes m v.
Proof.
  induction n as [|n IH]; intros m v A B.
  - destruct v; destruct m; try reflexivity; cbn [depth] in A; lia.
  - destruct m as [|m]; [destruct v; try reflexivity; cbn [depth] in B; lia|].
    destruct v as [| | | | |l|es]; try reflexivity; cbn [merge_nodes].
    + f_equal. apply collect_ext_in. intros v I. apply seq_depth in I. apply IH; lia.
    + destruct (merge_mapping es) as [es'|] eqn:E; [|reflexivity]. cbn [bind]. f_equal. apply collect_ext_in. intros [k x] I.
      assert (D := merge_mapping_depth es es' k x E I). cbn [fst snd]. f_equal. apply IH; lia.
Qed.
Lemma apply_merge_seq : forall l, apply_merge (VSeq l) = map_ok VSeq (collect apply_merge l).
Proof.
  intros l. unfold apply_merge. cbn [depth merge_nodes]. f_equal. apply collect_ext_in. intros v I. apply seq_depth in I. cbn [depth] in I. apply merge_nodes_bound; lia.
Qed.
Lemma apply_merge_map : forall es, apply_merge (VMap es) =
  bind (merge_mapping es) (fun es => map_ok VMap (collect (fun e => map_ok (fun x => (fst e, x)) (apply_merge (snd e))) es)).
Proof.
  intros es. unfold apply_merge. cbn [depth merge_nodes]. destruct (merge_mapping es) as [es'|] eqn:E; [|reflexivity]. cbn [bind].
  f_equal. apply collect_ext_in. intros [k x] I. assert (D := merge_mapping_depth es es' k x E I). cbn [fst snd depth] in *. f_equal. apply merge_nodes_bound; lia.
Qed.
Lemma apply_merge_leaf : forall v, is_leaf v -> apply_merge v = Ok v.
Proof. intros [] H; try reflexivity; destruct H. Qed.
