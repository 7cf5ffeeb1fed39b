(** Theorems about CPU sets (C18, C19). *)

From Coq Require Import String Ascii List NArith ZArith Bool Lia Sorted.
Import ListNotations.
From Verif Require Import Base Num CpuSetModel CpuSetProofs.
Open Scope N_scope.

(** C18. Every set of [u64] prints without overflow, in both build profiles, and parses back to the same
    set. A set is the strictly increasing list of its elements. *)
Theorem cpuset_text_round_trip : forall checks l,
  StronglySorted N.lt l -> Forall (fun x => x <= 18446744073709551615) l ->
  exists s, cpuset_show checks l = Ret s /\ cpuset_parse s = Ok l.
Proof. exact cpuset_round_trip. Qed.
Print Assumptions cpuset_text_round_trip.

Example cpuset_case : cpuset_show true [0; 1; 2; 5; 7; 8; 18446744073709551615] = Ret $"0-2,5,7-8,18446744073709551615".
Proof. vm_compute. reflexivity. Qed.

(** C18. The text is the shortest list of ranges: ranges next to each other are separated by a gap. *)
Theorem cpuset_show_maximal_runs : forall checks x l,
  StronglySorted N.lt (x :: l) -> Forall (fun x => x <= 18446744073709551615) (x :: l) ->
  exists rs, cpuset_show checks (x :: l) = Ret (join [ch ","] (map piece rs)) /\ gaps rs /\
             forall n, In n (x :: l) <-> exists p, In p rs /\ fst p <= n <= snd p.
Proof.
  intros checks x l Hs Hm. exists (runs x x l). split; [|split].
  - cbn [cpuset_show]. rewrite cpuset_loop_runs; [reflexivity|exact Hs|inversion Hm; assumption].
  - apply runs_gaps. exact Hs.
  - intros n. rewrite runs_cover by apply N.le_refl. cbn [In]. split; intros [H|H]; auto; left; lia.
Qed.
Print Assumptions cpuset_show_maximal_runs.

(** C19. Meaning of the parser: the text is a comma-separated list (one trailing comma allowed) of numbers and
    dash-separated number pairs, and the set contains exactly the numbers named. *)
Theorem cpuset_parse_meaning : forall s l, cpuset_parse s = Ok l <->
  exists items,
    Forall (fun x => ~ In (ch ",") x) items /\
    (s = join [ch ","] (items ++ [[]]) \/ (last items [] <> [] /\ s = join [ch ","] items)) /\
    Forall item_wf items /\
    StronglySorted N.lt l /\
    forall x, In x l <-> exists i, In i items /\ item_means i x.
Proof.
  intros s l. rewrite cpuset_parse_ok. split.
  - intros [H1 [H2 H3]]. exists (split_terminator (ch ",") s).
    destruct (proj1 (split_terminator_iff (ch ",") s _) eq_refl) as [A B]. auto.
  - intros [items [A [B [H1 [H2 H3]]]]]. assert (E : split_terminator (ch ",") s = items) by (apply split_terminator_iff; auto).
    rewrite E. auto.
Qed.
Print Assumptions cpuset_parse_meaning.

Example cpuset_parse_case : cpuset_parse $"7,0-2,1," = Ok [0; 1; 2; 7].
Proof. vm_compute. reflexivity. Qed.

(** C19. A reversed range is accepted and names no CPU. *)
Theorem cpuset_reversed_range_empty : forall a b, a <= 18446744073709551615 -> b < a ->
  cpuset_parse (show_N a ++ ch "-" :: show_N b) = Ok [].
Proof.
  intros a b Ha Hb. apply cpuset_parse_meaning. exists [show_N a ++ ch "-" :: show_N b].
  assert (D : forall n, ~ In (ch ",") (show_N n)) by (intros n; apply NumFacts.show_N_not_In; reflexivity).
  assert (Pa : parse_u64 (show_N a) = Ok a) by (apply NumFacts.parse_u64_show; exact Ha).
  assert (Pb : parse_u64 (show_N b) = Ok b) by (apply NumFacts.parse_u64_show; unfold U64_MAX; lia).
  split; [|split; [|split; [|split]]].
  - constructor; [|constructor]. rewrite in_app_iff. intros [H|[H|H]]; [exact (D _ H)|discriminate|exact (D _ H)].
  - right. split; [|reflexivity]. cbn [last]. intros E. apply app_eq_nil in E as [_ E]. discriminate.
  - constructor; [|constructor]. right. exists (show_N a), (show_N b), a, b. auto.
  - constructor.
  - intros x. split; [intros []|]. intros [i [[<-|[]] M]].
    destruct M as [M|[a' [b' [m [n [E [Ma [Mb M]]]]]]]].
    + refine (parse_u64_not_In _ _ (ch "-") M _ _ _); [reflexivity|discriminate|]. apply in_or_app. right. left. reflexivity.
    + assert (Hn' : ~ In (ch "-") a') by (eapply parse_u64_not_In; [exact Ma|reflexivity|discriminate]).
      assert (S : split_once (ch "-") (show_N a ++ ch "-" :: show_N b) = Some (a', b')) by (rewrite E; apply BaseFacts.split_once_app; exact Hn').
      rewrite BaseFacts.split_once_app in S by (apply NumFacts.show_N_not_In; reflexivity). injection S as <- <-.
      rewrite Pa in Ma. rewrite Pb in Mb. injection Ma as <-. injection Mb as <-. lia.
Qed.
Print Assumptions cpuset_reversed_range_empty.
