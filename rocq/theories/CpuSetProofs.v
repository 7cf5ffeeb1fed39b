(** Lemmas about CPU sets. *)

From Coq Require Import String Ascii List NArith ZArith Bool Lia Sorted ZifyBool ZifyN ZifyNat.
Import ListNotations.
From Verif Require Import Base BaseFacts Num NumFacts CpuSetModel.
Open Scope N_scope.

(** ** Sorted lists as sets *)

Lemma set_insert_In : forall n l x, In x (set_insert n l) <-> x = n \/ In x l.
Proof.
  induction l as [|y l IH]; intros x; cbn [set_insert In].
  - intuition.
  - destruct (N.compare_spec n y) as [->|H|H]; cbn [In]; [|intuition|rewrite IH]; intuition.
Qed.

Lemma set_insert_sorted : forall n l, StronglySorted N.lt l -> StronglySorted N.lt (set_insert n l).
Proof.
  induction l as [|y l IH]; intros H; cbn [set_insert].
  - repeat constructor.
  - apply StronglySorted_inv in H as [H1 H2]. destruct (N.compare_spec n y) as [->|H|H].
    + constructor; assumption.
    + constructor; [constructor; assumption|]. constructor; [exact H|].
      eapply Forall_impl; [|exact H2]. intros a Ha. lia.
    + constructor; [apply IH; exact H1|]. apply Forall_forall. intros x Hx. apply set_insert_In in Hx as [->|Hx]; [exact H|].
      eapply Forall_forall in H2; [|exact Hx]. exact H2.
Qed.

Lemma set_extend_In : forall ns l x, In x (set_extend l ns) <-> In x ns \/ In x l.
Proof.
  unfold set_extend. induction ns as [|n ns IH]; intros l x; cbn [fold_left In]; [intuition|].
  rewrite IH, set_insert_In. intuition.
Qed.

Lemma set_extend_sorted : forall ns l, StronglySorted N.lt l -> StronglySorted N.lt (set_extend l ns).
Proof.
  unfold set_extend. induction ns as [|n ns IH]; intros l H; cbn [fold_left]; [exact H|].
  apply IH, set_insert_sorted, H.
Qed.

Lemma inclusive_In : forall a b x, In x (inclusive a b) <-> a <= x <= b.
Proof.
  intros a b x. unfold inclusive. rewrite in_map_iff. split.
  - intros [k [<- Hk]]. apply in_seq in Hk. lia.
  - intros H. exists (N.to_nat (x - a)). split; [lia|]. apply in_seq. lia.
Qed.

Lemma sorted_ext : forall l m, StronglySorted N.lt l -> StronglySorted N.lt m ->
  (forall x, In x l <-> In x m) -> l = m.
Proof.
  induction l as [|a l IH]; intros [|b m] Hl Hm H.
  - reflexivity.
  - exfalso. apply (H b). left. reflexivity.
  - exfalso. apply (H a). left. reflexivity.
  - apply StronglySorted_inv in Hl as [Hl1 Hl2]. apply StronglySorted_inv in Hm as [Hm1 Hm2].
    rewrite Forall_forall in Hl2, Hm2.
    assert (a = b).
    { destruct (proj1 (H a) (or_introl eq_refl)) as [E|E]; [auto|].
      destruct (proj2 (H b) (or_introl eq_refl)) as [E'|E']; [auto|].
      specialize (Hm2 _ E). specialize (Hl2 _ E'). lia. }
    subst b. f_equal. apply IH; auto. intros x. split; intros Hx.
    + destruct (proj1 (H x) (or_intror Hx)) as [E|E]; [|exact E]. subst x. specialize (Hl2 _ Hx). lia.
    + destruct (proj2 (H x) (or_intror Hx)) as [E|E]; [|exact E]. subst x. specialize (Hm2 _ Hx). lia.
Qed.

(** ** Meaning of one item *)

(** [item_means item x]: the item of a CPU list names [x], alone or inside a range. *)
Definition item_means (item : str) (x : N) : Prop :=
  parse_u64 item = Ok x \/
  exists a b m n, item = a ++ ch "-" :: b /\ parse_u64 a = Ok m /\ parse_u64 b = Ok n /\ m <= x <= n.

(** An item is well formed: a number, or two numbers around a dash. *)
Definition item_wf (item : str) : Prop :=
  (exists n, parse_u64 item = Ok n) \/
  exists a b m n, item = a ++ ch "-" :: b /\ parse_u64 a = Ok m /\ parse_u64 b = Ok n.

Lemma parse_u64_not_In : forall s n c, parse_u64 s = Ok n -> is_digit c = false -> c <> 43 -> ~ In c s.
Proof.
  intros s n c H Hc Hp. apply parse_uint_ok in H as [ds [Hs [_ [Hd _]]]].
  assert (~ In c ds) by (eapply forallb_not_In; eassumption).
  destruct Hs as [->| ->]; [assumption|]. intros [E|E]; [congruence|contradiction].
Qed.

Lemma cpuset_item_ok : forall acc item l, cpuset_item acc item = Ok l ->
  item_wf item /\ (StronglySorted N.lt acc -> StronglySorted N.lt l) /\ (forall x, In x l <-> In x acc \/ item_means item x).
Proof.
  intros acc item l. unfold cpuset_item.
  destruct (split_once_case (ch "-") item) as [[Hn ->]|[a [b [-> [Hn ->]]]]].
  - destruct (parse_u64 item) as [n|] eqn:E; cbn [map_err bind]; [|discriminate].
    intros H. injection H as <-. split; [left; eauto|]. split; [apply set_insert_sorted|].
    intros x. rewrite set_insert_In. unfold item_means. rewrite E. split.
    + intros [->|H]; auto.
    + intros [H|[H|[a [b [m [k [E' _]]]]]]]; [auto|injection H as <-; auto|].
      exfalso. apply Hn. rewrite E'. apply in_or_app. right. left. reflexivity.
  - destruct (parse_u64 a) as [m|] eqn:Ea; cbn [map_err bind]; [|discriminate].
    destruct (parse_u64 b) as [n|] eqn:Eb; cbn [map_err bind]; [|discriminate].
    intros H. injection H as <-. split; [right; exists a, b, m, n; auto|]. split; [apply set_extend_sorted|].
    intros x. rewrite set_extend_In, inclusive_In. unfold item_means. split.
    + intros [H|H]; [|auto]. right. right. exists a, b, m, n. auto.
    + intros [H|[H|[a' [b' [m' [n' [E [Ha [Hb H]]]]]]]]]; [auto| |].
      * exfalso. refine (parse_u64_not_In _ _ (ch "-") H _ _ _); [reflexivity|discriminate|].
        apply in_or_app. right. left. reflexivity.
      * left. assert (Hn' : ~ In (ch "-") a') by (eapply parse_u64_not_In; [exact Ha|reflexivity|discriminate]).
        assert (S : split_once (ch "-") (a ++ ch "-" :: b) = Some (a', b')) by (rewrite E; apply split_once_app; exact Hn').
        rewrite split_once_app in S by exact Hn. injection S as <- <-.
        rewrite Ea in Ha. rewrite Eb in Hb. injection Ha as <-. injection Hb as <-. exact H.
Qed.

Lemma cpuset_item_total : forall acc item, item_wf item -> exists l, cpuset_item acc item = Ok l.
Proof.
  intros acc item [[n H]|[a [b [m [n [-> [Ha Hb]]]]]]]; unfold cpuset_item.
  - assert (Hn : ~ In (ch "-") item) by (eapply parse_u64_not_In; [exact H|reflexivity|discriminate]).
    apply split_once_none in Hn. rewrite Hn, H. cbn. eauto.
  - assert (Hn : ~ In (ch "-") a) by (eapply parse_u64_not_In; [exact Ha|reflexivity|discriminate]).
    rewrite split_once_app by exact Hn. rewrite Ha, Hb. cbn. eauto.
Qed.

Lemma cpuset_items_ok : forall items acc l, StronglySorted N.lt acc ->
  (cpuset_items acc items = Ok l <->
   Forall item_wf items /\ StronglySorted N.lt l /\
   forall x, In x l <-> In x acc \/ exists i, In i items /\ item_means i x).
Proof.
  induction items as [|i items IH]; intros acc l Ha; cbn [cpuset_items].
  - split.
    + intros H. injection H as <-. split; [constructor|]. split; [exact Ha|]. intros x. split; [auto|].
      intros [H|[i [H _]]]; [exact H|contradiction].
    + intros [_ [Hl H]]. f_equal. apply sorted_ext; auto. intros x. rewrite H. split; [auto|].
      intros [H'|[i [H' _]]]; [exact H'|contradiction].
  - destruct (cpuset_item acc i) as [acc'|] eqn:E; cbn [bind].
    + apply cpuset_item_ok in E as [W [S M]]. rewrite IH by auto. split.
      * intros [F [Hl H]]. split; [constructor; assumption|]. split; [exact Hl|]. intros x. rewrite H, M. cbn [In].
        split.
        -- intros [[H'|H']|[j [H1 H2]]]; [auto|right; exists i; auto|right; exists j; auto].
        -- intros [H'|[j [[->|H1] H2]]]; [auto|auto|right; exists j; auto].
      * intros [F [Hl H]]. inversion F; subst. split; [assumption|]. split; [exact Hl|]. intros x. rewrite H, M. cbn [In].
        split.
        -- intros [H'|[j [[->|H1] H2']]]; [auto|auto|right; exists j; auto].
        -- intros [[H'|H']|[j [H1 H2']]]; [auto|right; exists i; auto|right; exists j; auto].
    + split; [discriminate|]. intros [F _]. inversion F; subst.
      destruct (cpuset_item_total acc i H1) as [l' E']. congruence.
Qed.

Lemma cpuset_parse_ok : forall s l, cpuset_parse s = Ok l <->
  Forall item_wf (split_terminator (ch ",") s) /\ StronglySorted N.lt l /\
  forall x, In x l <-> exists i, In i (split_terminator (ch ",") s) /\ item_means i x.
Proof.
  intros s l. unfold cpuset_parse. rewrite cpuset_items_ok by constructor.
  split; intros [H1 [H2 H3]]; (split; [exact H1|split; [exact H2|]]); intros x; rewrite H3; cbn [In]; tauto.
Qed.

(** ** Printing *)

Definition piece (p : N * N) : str := write_range true (fst p) (snd p).

(** The maximal runs of consecutive numbers. *)
Fixpoint runs (start end_ : N) (l : list N) : list (N * N) :=
  match l with
  | [] => [(start, end_)]
  | x :: r => if x =? end_ + 1 then runs start x r else (start, end_) :: runs x x r
  end.

Lemma runs_nonempty : forall l a b, runs a b l <> [].
Proof. induction l as [|x l IH]; intros a b; cbn [runs]; [discriminate|]. destruct (x =? b + 1); [apply IH|discriminate]. Qed.

Lemma write_range_false : forall a b, write_range false a b = ch "," :: write_range true a b.
Proof. reflexivity. Qed.

Lemma cpuset_loop_runs : forall checks l first a b, StronglySorted N.lt (b :: l) -> Forall (fun x => x <= U64_MAX) l ->
  cpuset_loop checks first a b l =
  Ret ((if first then [] else [ch ","]) ++ join [ch ","] (map piece (runs a b l))).
Proof.
  induction l as [|x l IH]; intros first a b Hs Hm; cbn [cpuset_loop runs].
  - cbn [map join]. unfold piece. cbn [fst snd]. destruct first; reflexivity.
  - apply StronglySorted_inv in Hs as [Hs Hb]. inversion Hm as [|y m Hx Hl]; subst.
    assert (Hbx : b < x) by (inversion Hb; assumption).
    unfold u64_succ. destruct (N.leb_spec (b + 1) U64_MAX) as [L|L]; [|lia]. cbn [pbind].
    destruct (N.eqb_spec x (b + 1)) as [->|Hne].
    + apply IH; assumption.
    + rewrite IH by assumption. cbn [pbind]. f_equal.
      cbn [map]. destruct (map piece (runs x x l)) as [|p ps] eqn:E.
      { apply map_eq_nil in E. exfalso. exact (runs_nonempty _ _ _ E). }
      change (join [ch ","] (piece (a, b) :: p :: ps)) with (piece (a, b) ++ [ch ","] ++ join [ch ","] (p :: ps)).
      unfold piece at 1. cbn [fst snd]. destruct first; [reflexivity|]. rewrite write_range_false. reflexivity.
Qed.

Lemma runs_cover : forall l a b x, a <= b -> ((exists p, In p (runs a b l) /\ fst p <= x <= snd p) <-> a <= x <= b \/ In x l).
Proof.
  induction l as [|y l IH]; intros a b x Hab; cbn [runs In].
  - split.
    + intros [p [[<-|[]] H]]. cbn in H. auto.
    + intros [H|[]]. exists (a, b). auto.
  - destruct (N.eqb_spec y (b + 1)) as [->|Hne].
    + rewrite IH by lia. split.
      * intros [H|H]; [|auto]. destruct (N.eq_dec x (b + 1)) as [->|]; [auto|left; lia].
      * intros [H|[<-|H]]; [left; lia|left; lia|auto].
    + cbn [In]. split.
      * intros [p [[<-|Hp] H]]; [cbn in H; auto|]. right.
        assert (X : y <= x <= y \/ In x l) by (apply IH; [lia|eauto]). destruct X as [X|X]; [left; lia|auto].
      * intros [H|H]; [exists (a, b); auto|].
        assert (X : exists p, In p (runs y y l) /\ fst p <= x <= snd p).
        { apply IH; [lia|]. destruct H as [->|H]; [left; lia|auto]. }
        destruct X as [p [X1 X2]]. exists p. auto.
Qed.

Lemma runs_bound : forall l a b p, a <= b -> b <= U64_MAX -> Forall (fun x => x <= U64_MAX) l -> In p (runs a b l) ->
  fst p <= snd p /\ snd p <= U64_MAX.
Proof.
  induction l as [|y l IH]; intros a b p Hab Hb Hl Hp; cbn [runs In] in Hp.
  - destruct Hp as [<-|[]]. auto.
  - inversion Hl as [|z m Hy Hl']; subst. destruct (N.eqb_spec y (b + 1)) as [->|Hne].
    + eapply IH; [| | |exact Hp]; auto. lia.
    + destruct Hp as [<-|Hp]; [auto|]. eapply IH; [| | |exact Hp]; auto. lia.
Qed.

Lemma piece_chars : forall p, ~ In (ch ",") (piece p).
Proof.
  intros [a b]. unfold piece, write_range. cbn [fst snd app].
  assert (D : forall n, ~ In (ch ",") (show_N n)) by (intros n; apply show_N_not_In; reflexivity).
  rewrite in_app_iff. intros [H|H]; [exact (D _ H)|].
  destruct (a =? b); [contradiction|]. destruct H as [H|H]; [discriminate|exact (D _ H)].
Qed.

Lemma piece_nonempty : forall p, piece p <> [].
Proof.
  intros [a b]. unfold piece, write_range. cbn [fst snd app]. destruct (show_N_cons a) as [c [r [-> _]]]. discriminate.
Qed.

Lemma piece_means : forall p x, fst p <= snd p -> snd p <= U64_MAX -> (item_means (piece p) x <-> fst p <= x <= snd p).
Proof.
  intros [a b] x Hab Hb. cbn [fst snd] in *. unfold piece, write_range. cbn [fst snd app]. unfold item_means.
  assert (Pa : parse_u64 (show_N a) = Ok a) by (apply parse_u64_show; lia).
  assert (Pb : parse_u64 (show_N b) = Ok b) by (apply parse_u64_show; lia).
  assert (Hn : forall n, ~ In (ch "-") (show_N n)) by (intros n; apply show_N_not_In; reflexivity).
  destruct (N.eqb_spec a b) as [->|Hne].
  - rewrite app_nil_r, Pb. split.
    + intros [H|[a' [b' [m [n [E _]]]]]]; [injection H as ->; lia|].
      exfalso. apply (Hn b). rewrite E. apply in_or_app. right. left. reflexivity.
    + intros H. left. f_equal. lia.
  - split.
    + intros [H|[a' [b' [m [n [E [Ha [Hb' H]]]]]]]].
      * exfalso. refine (parse_u64_not_In _ _ (ch "-") H _ _ _); [reflexivity|discriminate|].
        apply in_or_app. right. left. reflexivity.
      * assert (Hn' : ~ In (ch "-") a') by (eapply parse_u64_not_In; [exact Ha|reflexivity|discriminate]).
        assert (S : split_once (ch "-") (show_N a ++ ch "-" :: show_N b) = Some (a', b')) by (rewrite E; apply split_once_app; exact Hn').
        rewrite split_once_app in S by apply Hn. injection S as <- <-. rewrite Pa in Ha. rewrite Pb in Hb'.
        injection Ha as <-. injection Hb' as <-. exact H.
    + intros H. right. exists (show_N a), (show_N b), a, b. auto.
Qed.

Lemma piece_wf : forall p, fst p <= snd p -> snd p <= U64_MAX -> item_wf (piece p).
Proof.
  intros [a b] Hab Hb. cbn [fst snd] in *. unfold item_wf, piece, write_range. cbn [fst snd app].
  destruct (N.eqb_spec a b) as [->|Hne].
  - left. exists b. rewrite app_nil_r. apply parse_u64_show. exact Hb.
  - right. exists (show_N a), (show_N b), a, b. repeat split; apply parse_u64_show; lia.
Qed.

Lemma split_terminator_join : forall l, l <> [] -> Forall (fun x => x <> [] /\ ~ In (ch ",") x) l ->
  split_terminator (ch ",") (join [ch ","] l) = l.
Proof.
  intros l Hn H. unfold split_terminator. rewrite split_of_join; [|exact Hn|eapply Forall_impl; [|exact H]; cbv beta; tauto].
  destruct (exists_last Hn) as [r [x ->]]. rewrite last_last.
  apply Forall_app in H as [_ H]. inversion H as [|y m [Hx _] _]; subst. destruct x; [congruence|reflexivity].
Qed.

Lemma cpuset_round_trip : forall checks l, StronglySorted N.lt l -> Forall (fun x => x <= U64_MAX) l ->
  exists s, cpuset_show checks l = Ret s /\ cpuset_parse s = Ok l.
Proof.
  intros checks [|x l] Hs Hm; [exists []; split; reflexivity|]. cbn [cpuset_show].
  rewrite cpuset_loop_runs; [|exact Hs|inversion Hm; assumption]. eexists. split; [reflexivity|]. cbn [app].
  inversion Hm as [|y m Hx Hl]; subst.
  assert (E : split_terminator (ch ",") (join [ch ","] (map piece (runs x x l))) = map piece (runs x x l)).
  { apply split_terminator_join.
    - intros E. apply map_eq_nil in E. exact (runs_nonempty _ _ _ E).
    - apply Forall_forall. intros q Hq. apply in_map_iff in Hq as [p [<- _]]. split; [apply piece_nonempty|apply piece_chars]. }
  apply cpuset_parse_ok. rewrite E. split; [|split; [exact Hs|]].
  - apply Forall_forall. intros q Hq. apply in_map_iff in Hq as [p [<- Hp]].
    destruct (runs_bound l x x p) as [B1 B2]; auto; [lia|]. apply piece_wf; assumption.
  - intros n. assert (C := runs_cover l x x n (N.le_refl x)). split.
    + intros Hin. assert (X : x <= n <= x \/ In n l) by (destruct Hin as [->|]; [left; lia|auto]).
      apply C in X as [p [Hp X]]. exists (piece p). split; [apply in_map; exact Hp|].
      destruct (runs_bound l x x p) as [B1 B2]; auto; [lia|]. apply piece_means; assumption.
    + intros [q [Hq M]]. apply in_map_iff in Hq as [p [<- Hp]].
      destruct (runs_bound l x x p) as [B1 B2]; auto; [lia|]. apply piece_means in M; [|assumption..].
      assert (X : x <= n <= x \/ In n l) by (apply C; eauto). destruct X as [X|X]; [left; lia|right; exact X].
Qed.

(** The printed text lists maximal runs: consecutive runs are separated by a gap. *)
Fixpoint gaps (l : list (N * N)) : Prop :=
  match l with
  | p :: ((q :: _) as r) => snd p + 1 < fst q /\ gaps r
  | _ => True
  end.

Lemma runs_head : forall l a b, exists e r, runs a b l = (a, e) :: r.
Proof.
  induction l as [|x l IH]; intros a b; cbn [runs]; [eauto|]. destruct (x =? b + 1); [apply IH|eauto].
Qed.

Lemma runs_gaps : forall l a b, StronglySorted N.lt (b :: l) -> gaps (runs a b l).
Proof.
  induction l as [|x l IH]; intros a b Hs; cbn [runs]; [exact I|].
  apply StronglySorted_inv in Hs as [Hs Hb]. assert (Hbx : b < x) by (inversion Hb; assumption).
  destruct (N.eqb_spec x (b + 1)) as [->|Hne]; [apply IH; exact Hs|].
  pose proof (IH x x Hs) as G. destruct (runs_head l x x) as [e [r E]]. rewrite E in *. cbn [gaps fst snd].
  split; [lia|exact G].
Qed.

(** ** [split_terminator] *)

Lemma split_terminator_iff : forall c s items, split_terminator c s = items <->
  Forall (fun x => ~ In c x) items /\
  (s = join [c] (items ++ [[]]) \/ (last items [] <> [] /\ s = join [c] items)).
Proof.
  intros c s items. unfold split_terminator.
  pose proof (split_nonempty c s) as Hn. pose proof (split_pieces c s) as Hp. pose proof (split_join c s) as Hj.
  split.
  - intros <-. destruct (exists_last Hn) as [r [x E]]. rewrite E in *. rewrite last_last, removelast_last.
    apply Forall_app in Hp as [Hr Hx]. destruct x as [|y x].
    + split; [exact Hr|]. left. symmetry. exact Hj.
    + split; [apply Forall_app; auto|]. right. rewrite last_last. split; [discriminate|symmetry; exact Hj].
  - intros [Hf [->|[Hl ->]]].
    + rewrite split_of_join.
      * rewrite last_last, removelast_last. reflexivity.
      * intros E. apply app_eq_nil in E as [_ E]. discriminate.
      * apply Forall_app. split; [exact Hf|]. constructor; [intros []|constructor].
    + rewrite split_of_join; [|intros ->; apply Hl; reflexivity|exact Hf]. destruct (last items []); [congruence|reflexivity].
Qed.
