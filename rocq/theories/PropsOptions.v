(** C69: what [apply_merge] makes of a document, and when options change what is loaded. *)

From Coq Require Import String Ascii List NArith ZArith Bool Lia Permutation.
Import ListNotations.
From Verif Require Import Base BaseFacts Num Coll CollFacts Serde Codec ScalarCodec ServiceCodec ComposeCodec ComposeProofs HealthProofs OptionsModel MergeSpec MergeFacts PropsCompose.
Open Scope N_scope.

(** ** Helpers *)

Lemma tidy_source : forall es ms m, tidy (VMap es) -> merges es ms -> In m ms -> tidy (VMap m).
Proof.
  intros es ms m T M I. inversion T as [| | | | | |? N E]; subst. destruct M as [M|q M|ms M]; [destruct I| |].
  - destruct I as [->|[]]. exact (proj2 (E _ _ M)).
  - assert (S := proj2 (E _ _ M)). inversion S as [| | | | |? S'|]; subst. apply S', in_map, I.
Qed.
Lemma tidy_sorted : forall es, tidy (VMap es) -> sorted_out es.
Proof.
  intros es T. split; [now inversion T|]. intros ms m M I. assert (X := tidy_source es ms m T M I). now inversion X.
Qed.
Lemma first_has_in : forall ms k x, first_has ms k x -> exists m, In m ms /\ In (k, x) m.
Proof.
  induction ms as [|m ms IH]; intros k x H; [destruct H|]. destruct H as [H|[_ H]]; [exists m; now split; [left|]|].
  apply IH in H as (q & I & J). exists q. split; [now right|exact J].
Qed.
Lemma tidy_entry : forall es k x, tidy (VMap es) -> entry_after es k x -> tidy k /\ tidy x.
Proof.
  intros es k x T (ms & M & [[_ I]|[_ F]]).
  - inversion T as [| | | | | |? N E]; subst. exact (E k x I).
  - apply first_has_in in F as (m & I & J). assert (S := tidy_source es ms m T M I). inversion S as [| | | | | |? N E]; subst. exact (E k x J).
Qed.
Lemma map_ok_ok : forall {E A B} (f : A -> B) (r : result E A) b, map_ok f r = Ok b <-> exists a, r = Ok a /\ b = f a.
Proof.
  intros E A B f r b. destruct r as [a|e]; cbn [map_ok].
  - split; [intros X; injection X as <-; now exists a|intros (c & X & ->); now injection X as ->].
  - split; [discriminate|intros (c & X & _); discriminate].
Qed.
Lemma collect_Forall2 : forall {E A B} (f : A -> result E B) l r, collect f l = Ok r <-> Forall2 (fun a b => f a = Ok b) l r.
Proof.
  intros E A B f. induction l as [|a l IH]; intros r; cbn [collect].
  - split; [intros X; injection X as <-; constructor|intros X; inversion X; reflexivity].
  - destruct (f a) as [b|e] eqn:F; cbn [bind].
    + destruct (collect f l) as [s|e] eqn:C; cbn [bind]; split; intros X.
      * injection X as <-. constructor; [exact F|now apply IH].
      * inversion X as [|? b' ? r' Hb Hr]; subst. apply IH in Hr. congruence.
      * discriminate.
      * inversion X as [|? b' ? r' Hb Hr]; subst. apply IH in Hr. congruence.
    + split; [discriminate|]. intros X. inversion X as [|? b' ? r' Hb Hr]; subst. congruence.
Qed.
Lemma collect_all_ok : forall {E A B} (f : A -> result E B) l, (forall a, In a l -> exists b, f a = Ok b) -> exists r, collect f l = Ok r.
Proof.
  intros E A B f l. induction l as [|a l IH]; intros H; [now exists []|]. cbn [collect]. destruct (H a (or_introl eq_refl)) as [b ->]. cbn [bind].
  destruct IH as [r ->]; [intros c I; apply H; now right|]. now eexists.
Qed.
Definition node (e : sval * sval) : result de_error (sval * sval) := map_ok (fun x => (fst e, x)) (apply_merge (snd e)).
Lemma nodes_keys : forall es r, Forall2 (fun a b => node a = Ok b) es r -> map fst r = map fst es.
Proof.
  induction 1 as [|a b es r H F IH]; [reflexivity|]. cbn [map]. rewrite IH. apply map_ok_ok in H as (x & _ & ->). reflexivity.
Qed.
Lemma nodes_left : forall es r k x, Forall2 (fun a b => node a = Ok b) es r -> In (k, x) es -> exists x', In (k, x') r /\ apply_merge x = Ok x'.
Proof.
  intros es r k x F I. induction F as [|a b es r H F IH]; [destruct I|]. destruct I as [->|I].
  - apply map_ok_ok in H as (x' & H & ->). exists x'. split; [now left|exact H].
  - destruct (IH I) as (x' & J & H'). exists x'. split; [now right|exact H'].
Qed.
Lemma nodes_right : forall es r k x', Forall2 (fun a b => node a = Ok b) es r -> In (k, x') r -> exists x, In (k, x) es /\ apply_merge x = Ok x'.
Proof.
  intros es r k x' F I. induction F as [|[k' y] b es r H F IH]; [destruct I|]. destruct I as [->|I].
  - apply map_ok_ok in H as (x & H & E). cbn [fst snd] in *. injection E as -> ->. exists y. split; [now left|exact H].
  - destruct (IH I) as (x & J & H'). exists x. split; [now right|exact H'].
Qed.
Lemma merged_in : forall es es' v', merge_mapping es = Ok es' -> apply_merge (VMap es) = Ok v' -> exists r, v' = VMap r /\ Forall2 (fun a b => node a = Ok b) es' r.
Proof.
  intros es es' v' E H. rewrite apply_merge_map, E in H. cbn [bind] in H. apply map_ok_ok in H as (r & H & ->). exists r. split; [reflexivity|]. now apply collect_Forall2.
Qed.

(** ** Merging *)

(** The result of merging is what [merged] says, and has no key twice. *)
Theorem merge_meaning : forall v v', tidy v -> apply_merge v = Ok v' -> merged v v' /\ tidy v'.
Proof.
  intros v. remember (depth v) as n eqn:Hn. revert v Hn. induction n as [n IH] using lt_wf_ind. intros v -> v' T H.
  destruct v as [| | | | |l|es]; try (injection H as <-; split; [now apply merged_leaf|exact T]).
  - rewrite apply_merge_seq in H. apply map_ok_ok in H as (l' & H & ->). apply collect_Forall2 in H. inversion T as [| | | | |? T'|]; subst.
    assert (A : forall a b, In a l -> apply_merge a = Ok b -> merged a b /\ tidy b).
    { intros a b I E. exact (IH (depth a) (seq_depth l a I) a eq_refl b (T' a I) E). }
    clear IH T T'. split.
    + apply merged_seq. induction H as [|a b l l' E F IHF]; constructor; [now apply A; [left|]|]. apply IHF. intros x y I. apply A. now right.
    + apply tidy_seq. induction H as [|a b l l' E F IHF]; intros y I; [destruct I|destruct I as [<-|I]]; [exact (proj2 (A a b (or_introl eq_refl) E))|].
      apply IHF; [|exact I]. intros p q J. apply A. now right.
  - destruct (merge_mapping es) as [es'|] eqn:M; [|rewrite apply_merge_map, M in H; discriminate].
    destruct (merged_in es es' v' M H) as (r & -> & F). destruct (merge_mapping_ok es es' (tidy_sorted es T) M) as [N E].
    assert (A : forall k x x', entry_after es k x -> apply_merge x = Ok x' -> merged x x' /\ tidy x').
    { intros k x x' I X. assert (D := merge_mapping_depth es es' k x M (proj2 (E k x) I)). exact (IH (depth x) D x eq_refl x' (proj2 (tidy_entry es k x T I)) X). }
    split; [apply merged_map|apply tidy_map].
    + now rewrite (nodes_keys es' r F).
    + intros k x' I. destruct (nodes_right es' r k x' F I) as (x & J & X). apply E in J. exists x. split; [exact J|exact (proj1 (A k x x' J X))].
    + intros k x J. apply E in J. destruct (nodes_left es' r k x F J) as (x' & I & _). now exists x'.
    + now rewrite (nodes_keys es' r F).
    + intros k x' I. destruct (nodes_right es' r k x' F I) as (x & J & X). apply E in J. split; [exact (proj1 (tidy_entry es k x T J))|exact (proj2 (A k x x' J X))].
Qed.
Print Assumptions merge_meaning.

(** It fails exactly if some [<<] that is met holds something else than mappings. *)
Theorem merge_accepts : forall v, tidy v -> (mergeable v <-> exists v', apply_merge v = Ok v').
Proof.
  intros v T. split.
  - intros H. induction H as [v L|l H IH|es ms M H IH].
    + exists v. now apply apply_merge_leaf.
    + inversion T as [| | | | |? T'|]; subst. rewrite apply_merge_seq. destruct (collect_all_ok apply_merge l) as [r ->]; [|now eexists].
      intros a I. exact (IH a I (T' a I)).
    + destruct (proj1 (merge_mapping_some es (proj1 (tidy_sorted es T)))) as [es' E]; [now exists ms|]. rewrite apply_merge_map, E. cbn [bind].
      destruct (merge_mapping_ok es es' (tidy_sorted es T) E) as [_ Q].
      destruct (collect_all_ok (fun e => map_ok (fun x => (fst e, x)) (apply_merge (snd e))) es') as [r ->]; [|now eexists].
      intros [k x] I. apply Q in I. destruct (IH k x I (proj2 (tidy_entry es k x T I))) as [x' X]. cbn [fst snd]. rewrite X. now eexists.
  - revert T. remember (depth v) as n eqn:Hn. revert v Hn. induction n as [n IH] using lt_wf_ind. intros v -> T [v' H].
    destruct v as [| | | | |l|es]; try now apply mergeable_leaf.
    + apply mergeable_seq. intros a I. inversion T as [| | | | |? T'|]; subst. apply (IH (depth a) (seq_depth l a I) a eq_refl (T' a I)).
      rewrite apply_merge_seq in H. apply map_ok_ok in H as (l' & H & _). apply collect_Forall2 in H.
      clear - H I. induction H as [|x y l l' E F IHF]; [destruct I|]. destruct I as [->|I]; [now exists y|auto].
    + destruct (merge_mapping es) as [es'|] eqn:M; [|rewrite apply_merge_map, M in H; discriminate].
      destruct (proj2 (merge_mapping_some es (proj1 (tidy_sorted es T)))) as [ms Q]; [now exists es'|].
      apply (mergeable_map es ms Q). intros k x I. destruct (merged_in es es' v' M H) as (r & _ & F).
      destruct (merge_mapping_ok es es' (tidy_sorted es T) M) as [_ E]. assert (J := proj2 (E k x) I).
      apply (IH (depth x) (merge_mapping_depth es es' k x M J) x eq_refl (proj2 (tidy_entry es k x T I))).
      destruct (nodes_left es' r k x F J) as (x' & _ & X). now exists x'.
Qed.
Print Assumptions merge_accepts.

(** A document without [<<] stays as it is, in the same order. *)
Theorem merge_plain : forall v, plain v -> apply_merge v = Ok v.
Proof.
  induction 1 as [v L|l H IH|es N H IH].
  - now apply apply_merge_leaf.
  - rewrite apply_merge_seq. replace (collect apply_merge l) with (@Ok de_error _ l); [reflexivity|]. symmetry. apply collect_Forall2.
    clear H. induction l as [|a l IHl]; constructor; [apply IH; now left|]. apply IHl. intros b I. apply IH. now right.
  - rewrite apply_merge_map. unfold merge_mapping. rewrite (proj2 (take_out_none MERGE es) N). cbn [bind].
    match goal with |- map_ok VMap (collect ?f es) = _ => replace (collect f es) with (@Ok de_error _ es); [reflexivity|] end.
    symmetry. apply collect_Forall2. clear H N. induction es as [|[k x] es IHl]; constructor; [cbn [fst snd]; rewrite (IH k x (or_introl eq_refl)); reflexivity|].
    apply IHl. intros k' y I. apply (IH k'). now right.
Qed.
Print Assumptions merge_plain.

(** When no merged mapping has a [<<] of its own, none is left. *)
Theorem merge_removes_partial : forall v v', tidy v -> flat_merges v -> apply_merge v = Ok v' -> plain v'.
Proof.
  intros v v' T H. revert v' T. induction H as [v L|l H IH|es N H IH]; intros v' T X.
  - rewrite (apply_merge_leaf v L) in X. injection X as <-. now apply plain_leaf.
  - rewrite apply_merge_seq in X. apply map_ok_ok in X as (l' & X & ->). apply collect_Forall2 in X. inversion T as [| | | | |? T'|]; subst. apply plain_seq.
    intros y I. clear H T. induction X as [|a b l l' E F IHF]; [destruct I|]. destruct I as [->|I]; [exact (IH a (or_introl eq_refl) y (T' a (or_introl eq_refl)) E)|].
    apply IHF; [|intros c J; apply T'; now right|exact I]. intros c J. apply IH. now right.
  - destruct (merge_mapping es) as [es'|] eqn:M; [|rewrite apply_merge_map, M in X; discriminate].
    destruct (merged_in es es' v' M X) as (r & -> & F). destruct (merge_mapping_ok es es' (tidy_sorted es T) M) as [_ E]. apply plain_map.
    + intros [x' I]. destruct (nodes_right es' r merge_key x' F I) as (x & J & _). apply E in J as (ms & Q & [[C _]|[_ C]]); [now apply C|].
      apply first_has_in in C as (m & J & C). apply (N ms m Q J). now exists x.
    + intros k x' I. destruct (nodes_right es' r k x' F I) as (x & J & Y). apply E in J. exact (IH k x J x' (proj2 (tidy_entry es k x T J)) Y).
Qed.
Print Assumptions merge_removes_partial.

(** A mapping merged from another which itself merges a third: the inner [<<] is put into the outer mapping and stays there. *)
Definition base_entries : sval := VMap [(VStr $"tty", VBool true)].
Definition middle_entries : sval := VMap [(MERGE, base_entries); (VStr $"init", VBool true)].
Definition outer_entries : sval := VMap [(MERGE, middle_entries); (VStr $"privileged", VBool true)].
Theorem merge_nested_refuted : exists v v', tidy v /\ apply_merge v = Ok v' /\ ~ plain v'.
Proof.
  exists outer_entries. eexists. split; [|split; [reflexivity|]].
  - apply yaml_ok_tidy. reflexivity.
  - intros P. inversion P as [? L| |? N E]; subst; [destruct L|]. apply N. exists base_entries. cbn. auto.
Qed.
Print Assumptions merge_nested_refuted.

(** ** Options *)

Lemma rejected_err : forall {A : Type} (r : result de_error A), accepted r = false -> r = Err DeError.
Proof. intros A [a|[]]; [discriminate|reflexivity]. Qed.

(** Without an option the document is read as it is, whatever was set before. *)
Theorem options_off : forall w o doc,
  from_yaml w compose_options doc = load w doc /\ from_yaml w (set_apply_merge o false) doc = load w doc /\
  from_yaml_value w compose_options doc = load w doc /\ from_yaml_value w (set_apply_merge o false) doc = load w doc.
Proof. intros w o doc. repeat split. Qed.
Print Assumptions options_off.

(** With merging, a document loads exactly if it repeats no key, can be merged, and the merged document loads. *)
Theorem options_merge : forall w o doc c, from_yaml w (set_apply_merge o true) doc = Ok c <->
  exists v, yaml_ok doc = true /\ apply_merge doc = Ok v /\ load w v = Ok c.
Proof.
  intros w o doc c. unfold from_yaml, from_yaml_value. cbn [any set_apply_merge opt_apply_merge de yaml_c]. destruct (yaml_ok doc); cbn [bind].
  - destruct (apply_merge doc) as [v|]; cbn [bind].
    + split; [intros H; exists v; auto|intros (u & _ & E & H); injection E as ->; exact H].
    + split; [discriminate|intros (u & _ & E & _); discriminate].
  - split; [discriminate|intros (u & E & _); discriminate].
Qed.
Print Assumptions options_merge.

(** On documents without [<<] and without repeated keys the option makes no difference. *)
Theorem options_plain_partial : forall w o doc, plain doc -> yaml_ok doc = true -> from_yaml w o doc = load w doc.
Proof.
  intros w [[]] doc P Y; [|reflexivity]. unfold from_yaml, from_yaml_value. cbn [any opt_apply_merge de yaml_c]. rewrite Y. cbn [bind]. now rewrite (merge_plain doc P).
Qed.
Print Assumptions options_plain_partial.

(** With repeated keys it does: such a document loads without the option and is rejected with it, although there is nothing to merge. *)
Theorem options_plain_refuted : forall w, exists doc c, plain doc /\ load w doc = Ok c /\ from_yaml w (set_apply_merge compose_options true) doc = Err DeError.
Proof.
  intros w. set (doc := VMap [(VStr $"services", VMap [(VStr $"a", VMap []); (VStr $"a", VMap [])])]).
  destruct (accepted_ok (load w doc)) as [c C]; [vm_compute; reflexivity|]. exists doc, c. split; [|split; [exact C|reflexivity]].
  apply plain_map.
  - intros [v [E|[]]]. discriminate E.
  - intros k v [E|[]]. injection E as _ <-. apply plain_map.
    + intros [v [E|[E|[]]]]; discriminate E.
    + intros k' v [E|[E|[]]]; injection E as _ <-; apply plain_map; [intros [? []]|intros ? ? []|intros [? []]|intros ? ? []].
Qed.
Print Assumptions options_plain_refuted.

(** Nested merging of services: the document can be merged, but is not accepted. *)
Theorem options_nested_refuted : forall w, exists doc, yaml_ok doc = true /\ mergeable doc /\ from_yaml w (set_apply_merge compose_options true) doc = Err DeError /\
  accepted (load w (file [(VStr $"a", base_entries)] [])) = true.
Proof.
  intros w. exists (file [(VStr $"a", outer_entries)] []). split; [reflexivity|]. split; [|split; [|vm_compute; reflexivity]].
  2: { apply rejected_err. vm_compute. reflexivity. }
  apply merge_accepts; [now apply yaml_ok_tidy|]. eexists. reflexivity.
Qed.
Print Assumptions options_nested_refuted.

(** The example of the documentation (options.rs 22-45): own entries win. *)
Example merge_ex : apply_merge (VMap [(MERGE, VMap [(VStr $"FOO", VStr $"foo"); (VStr $"BAR", VStr $"bar")]); (VStr $"BAR", VStr $"baz")]) =
  Ok (VMap [(VStr $"BAR", VStr $"baz"); (VStr $"FOO", VStr $"foo")]).
Proof. reflexivity. Qed.
Example merge_list_ex : apply_merge (VMap [(MERGE, VSeq [VMap [(VStr $"A", VInt 1)]; VMap [(VStr $"A", VInt 2); (VStr $"B", VInt 3)]])]) =
  Ok (VMap [(VStr $"A", VInt 1); (VStr $"B", VInt 3)]).
Proof. reflexivity. Qed.
