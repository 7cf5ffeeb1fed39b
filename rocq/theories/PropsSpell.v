(** C77: different spellings of a value load alike. *)

From Coq Require Import String Ascii List NArith ZArith Bool.
Import ListNotations.
From Verif Require Import Base BaseFacts Num Coll NumSpec DurationSpec PortsModel PortsSpec BytesModel ValuesModel Serde Codec ScalarCodec CommonCodec ServiceCodec ComposeCodec PropsCompose PanicSpec ChangeSpec
  ChangeFacts ChangeLoads PropsChange SpellSpec SpellFacts SpellLoads.
Open Scope N_scope.

(** At any of the places of [spellings], a value may be replaced by one with the same meaning. *)
Theorem spelling_changes_nothing : forall w doc doc', yaml_ok doc = true -> respells doc doc' -> load w doc' = load w doc.
Proof.
  intros w doc doc' Y (p & R & I & H). pose proof (spellings_blind w) as F. rewrite Forall_forall in F. now apply (F (p, R) I).
Qed.
Print Assumptions spelling_changes_nothing.

(** Together with C75 and C76. *)
Theorem same_meaning_loads_same : forall w doc doc', same_meaning (fun v => yaml_ok v = true) doc doc' -> load w doc' = load w doc.
Proof.
  intros w doc doc' H. induction H as [v v' H|v v' Y H|v v' _ IH|v v' v'' _ IH1 _ IH2]; [now apply same_file_loads_same|now apply spelling_changes_nothing|congruence|congruence].
Qed.
Print Assumptions same_meaning_loads_same.

(** Not all spellings are exchangeable. An integer as text is rejected for [pids_limit], and the text of one is required for [uid]. The number of bytes
    is not all that is kept of a size. *)
Definition told_apart (p : list step) (x x' : sval) : Prop :=
  exists w doc doc', yaml_ok doc = true /\ changed p (fun v v' => v = x /\ v' = x') doc doc' /\ read_ok (load w doc) = true /\ load w doc' <> load w doc.
Definition mem_limit (r : result de_error (compose w0)) : option byte_value :=
  match r with
  | Ok c => match nth_val 3 (compose_ms w0) (fst c) with e :: _ => nth_val 50 (service_ms w0) (fst (snd e)) | [] => None end
  | Err _ => None
  end.
Theorem spelling_refuted :
  told_apart (ChangeSpec.service [Key $"pids_limit"]) (VInt 5) (VStr $"5") /\
  told_apart (ChangeSpec.service [Key $"secrets"; AnyItem; Key $"uid"]) (VStr $"5") (VInt 5) /\
  told_apart (ChangeSpec.service [Key $"mem_limit"]) (VStr $"1kb") (VStr $"1000b").
Proof.
  split; [|split].
  - exists w0, (web [(VStr $"pids_limit", VInt 5)]), (web [(VStr $"pids_limit", VStr $"5")]). split; [reflexivity|].
    split; [apply (web_changed (changed [Key $"pids_limit"] _)); exists [], (VInt 5), (VStr $"5"), []; cbn [changed]; auto|]. split; [vm_compute; reflexivity|].
    intros E. apply (f_equal read_ok) in E. vm_compute in E. discriminate E.
  - set (s := (VStr $"source", VStr $"a")). exists w0, (web [(VStr $"secrets", VSeq [VMap [s; (VStr $"uid", VStr $"5")]])]), (web [(VStr $"secrets", VSeq [VMap [s; (VStr $"uid", VInt 5)]])]).
    split; [reflexivity|].
    split.
    { apply (web_changed (changed [Key $"secrets"; AnyItem; Key $"uid"] _)). eexists [], _, _, []. split; [reflexivity|]. split; [reflexivity|]. eexists [], _, _, []. split; [reflexivity|].
      split; [reflexivity|]. exists [s], (VStr $"5"), (VInt 5), []. cbn [changed]. auto. }
    split; [vm_compute; reflexivity|]. intros E. apply (f_equal read_ok) in E. vm_compute in E. discriminate E.
  - exists w0, (web [(VStr $"mem_limit", VStr $"1kb")]), (web [(VStr $"mem_limit", VStr $"1000b")]). split; [reflexivity|].
    split; [apply (web_changed (changed [Key $"mem_limit"] _)); exists [], (VStr $"1kb"), (VStr $"1000b"), []; cbn [changed]; auto|]. split; [vm_compute; reflexivity|].
    intros E. apply (f_equal mem_limit) in E. vm_compute in E. discriminate E.
Qed.
Print Assumptions spelling_refuted.

(** The interval 1m30s in microseconds. *)
Example spelling_ex : forall a b, a = VStr $"1m30s" -> b = VInt 90000000 ->
  let doc x := web [(VStr $"healthcheck", VMap [(VStr $"interval", x); (VStr $"test", VStr $"true")])] in
  respells (doc a) (doc b) /\ read_ok (load w0 (doc b)) = true /\ load w0 (doc b) = load w0 (doc a).
Proof.
  intros a b -> -> doc. assert (R : respells (doc (VStr $"1m30s")) (doc (VInt 90000000))).
  { exists (in_service [$"healthcheck"; $"interval"]), (alike time). split; [apply in_or_app; left; do 3 right; left; reflexivity|].
    apply (web_changed (changed [Key $"healthcheck"; Key $"interval"] (alike time))). eexists [], _, _, []. split; [reflexivity|]. split; [reflexivity|].
    exists [], (VStr $"1m30s"), (VInt 90000000), [(VStr $"test", VStr $"true")]. split; [reflexivity|]. split; [reflexivity|]. cbn [changed]. exists 90000000000. split.
    - right. exists [($"1", Minutes); ($"30", Seconds)]. split; [reflexivity|]. split; [discriminate|]. split; [|split; [reflexivity|vm_compute; discriminate]].
      repeat constructor; try discriminate; vm_compute; (reflexivity || discriminate).
    - left. exists 90000000. split; [reflexivity|]. split; [vm_compute; discriminate|reflexivity]. }
  split; [exact R|]. split; [vm_compute; reflexivity|]. apply spelling_changes_nothing; [reflexivity|exact R].
Qed.

(** [0-3] and [3,0-2,]. *)
Example cpus_ex : same_cpus (VStr $"0-3") (VStr $"3,0-2,").
Proof.
  assert (V : uint_text u64 $"0" 0 /\ uint_text u64 $"2" 2 /\ uint_text u64 $"3" 3).
  { repeat split; eexists; (split; [left; reflexivity|]); (split; [discriminate|]); (split; [constructor; [apply RegexFacts.in_clsb_iff; reflexivity|constructor]|]);
      (split; [reflexivity|vm_compute; discriminate]). }
  destruct V as (V0 & V2 & V3).
  exists $"0-3", $"3,0-2,", (fun n => 0 <= n <= 3), (fun n => 3 = n \/ (0 <= n <= 2) \/ False). split; [reflexivity|]. split; [reflexivity|]. split; [|split].
  - apply cpus_last. now apply (cpu_pair $"0" $"3" 0 3).
  - apply (cpus_more $"3" $"0-2,"); [now apply cpu_one|]. apply (cpus_more $"0-2" []); [|constructor]. now apply (cpu_pair $"0" $"2" 0 2).
  - intros n. change 3 with (N.succ 2) at 1. rewrite N.le_succ_r. cbn [N.succ]. split; [intros [_ [H| ->]]; [right; left; split; [apply N.le_0_l|exact H]|now left]|].
    intros [<-|[[_ H]|[]]]; (split; [apply N.le_0_l|auto]).
Qed.
