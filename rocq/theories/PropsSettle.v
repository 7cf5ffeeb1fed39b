(** C93: what a service or a file in memory comes back as when it is saved and loaded. *)

From Coq Require Import String Ascii List NArith ZArith Bool Lia.
Import ListNotations.
From Verif Require Import Base BaseFacts Num Coll CollFacts Regex KeysSpec PropsText TextModel EqModel Serde Codec CodecFacts ScalarCodec
  DurationModel ValuesModel CommonCodec ServiceParts ServiceCodec ServiceGood ComposeCodec ComposeGood ReloadFacts PropsCompose PropsEdit EditModel KeepSpec KeepFacts KeepWhole KeepLoads
  SettleSpec SettleFacts SettleBack PropsKeep.
Open Scope N_scope.

Definition legible_service (w : externals) : service w -> Prop := struct_keeps (service_ms w) (service_legible w).
Definition legible (w : externals) : compose w -> Prop := struct_keeps (compose_ms w) (compose_legible w).
Definition settled_service (w : externals) : service w -> service w := in_struct (service_ms w) (service_settled w).
Definition settled_file (w : externals) : compose w -> compose w := in_struct (compose_ms w) (compose_settled w).

Lemma ok_eq : forall E A (a b : A), @Ok E A a = Ok b -> a = b.
Proof. intros E A a b H. now injection H. Qed.
Lemma service_facts : forall w (s : service w), possible_service w s ->
  (wf (service_c w) s /\ norm (service_c w) s = s <-> lossless_service w s) /\ (wf (service_c w) s -> legible_service w s) /\
  (legible_service w s -> wf (service_c w) s /\ norm (service_c w) s = settled_service w s).
Proof. unfold possible_service, lossless_service, legible_service, settled_service. intros w s P. exact (conj (service_said w s P) (conj (service_back w s P) (service_turns w s P))). Qed.
(** What is written can be read, and what is read is the settled value. *)
Theorem service_becomes : forall w (s : service w), externals_ok w -> possible_service w s -> legible_service w s ->
  de (service_c w) (ser (service_c w) s) = Ok (settled_service w s).
Proof.
  intros w s O P L. destruct (service_facts w s P) as (_ & _ & T). destruct (T L) as [W N]. exact (eq_trans (gi_rt _ _ (service_good_if w O) s W) (f_equal Ok N)).
Qed.
Print Assumptions service_becomes.
Theorem file_becomes : forall w (c : compose w), externals_ok w -> possible w c -> legible w c -> load w (save w c) = Ok (settled_file w c).
Proof.
  intros w c O P L. destruct (compose_turns w c P L) as [W N]. exact (eq_trans (gi_rt _ _ (compose_good_if w O) c W) (f_equal Ok N)).
Qed.
Print Assumptions file_becomes.
(** What comes back is written in the same way, so saving a second time changes nothing. *)
Theorem settled_survives : forall w (c : compose w), externals_ok w -> possible w c -> legible w c ->
  save w (settled_file w c) = save w c /\ possible w (settled_file w c) /\ lossless w (settled_file w c).
Proof.
  intros w c O P L. destruct (compose_turns w c P L) as [W N]. assert (S := gi_settled _ _ (compose_good_if w O) c W). rewrite N in S.
  assert (E : save w (settled_file w c) = save w c) by exact S. split; [exact E|]. apply survivors; [exact O|]. rewrite E. now apply file_becomes.
Qed.
Print Assumptions settled_survives.
(** The values which come back unchanged are the legible ones which are settled. *)
Theorem lossless_settled : forall w (c : compose w), externals_ok w -> possible w c -> (lossless w c <-> legible w c /\ settled_file w c = c).
Proof.
  intros w c O P. split.
  - intros L. destruct (proj2 (compose_said w c P) L) as [W N]. assert (Q : legible w c) by exact (compose_back w c P W). split; [exact Q|].
    destruct (compose_turns w c P Q) as [_ M]. exact (eq_trans (eq_sym M) N).
  - intros [L S]. apply file_survives; [exact O|exact P|]. assert (B := file_becomes w c O P L). rewrite S in B. exact B.
Qed.
Print Assumptions lossless_settled.
Theorem service_lossless_settled : forall w (s : service w), externals_ok w -> possible_service w s -> (lossless_service w s <-> legible_service w s /\ settled_service w s = s).
Proof.
  intros w s O P. destruct (service_facts w s P) as (F & B & T). split.
  - intros L. destruct (proj2 F L) as [W N]. assert (Q := B W). split; [exact Q|]. destruct (T Q) as [_ M]. exact (eq_trans (eq_sym M) N).
  - intros [L S]. apply service_survives; [exact O|exact P|]. assert (C := service_becomes w s O P L). rewrite S in C. exact C.
Qed.
Print Assumptions service_lossless_settled.

(** Two files are written alike exactly if they come back the same, and files which come back unchanged are told apart by what is written. *)
Theorem saved_alike : forall w (c d : compose w), externals_ok w -> possible w c -> legible w c -> possible w d -> legible w d ->
  (save w c = save w d <-> settled_file w c = settled_file w d).
Proof.
  intros w c d O P L Q M. split; intros E.
  - assert (A := file_becomes w c O P L). assert (B := file_becomes w d O Q M). rewrite E in A. rewrite A in B. exact (ok_eq _ _ _ _ B).
  - destruct (settled_survives w c O P L) as (A & _). destruct (settled_survives w d O Q M) as (B & _). rewrite E in A. exact (eq_trans (eq_sym A) B).
Qed.
Print Assumptions saved_alike.
Theorem save_injective : forall w (c d : compose w), externals_ok w -> possible w c -> lossless w c -> possible w d -> lossless w d -> save w c = save w d -> c = d.
Proof.
  intros w c d O P L Q M E. destruct (proj1 (lossless_settled w c O P) L) as [L' S]. destruct (proj1 (lossless_settled w d O Q) M) as [M' T].
  assert (X := proj1 (saved_alike w c d O P L' Q M') E). exact (eq_trans (eq_sym S) (eq_trans X T)).
Qed.
Print Assumptions save_injective.

(** A file which was loaded is legible unless it mounts the volumes of a container named [ro] or [rw]. *)
Theorem loaded_legible : forall w v (c : compose w), externals_ok w -> load w v = Ok c ->
  (legible w c <-> forall name s, In (name, s) (compose_services c) -> Forall from_keeps (service_volumes_from s)).
Proof.
  intros w v c O H. assert (P := loaded_possible w v c O H). split.
  - intros L name s J. assert (V : values (legible_service w) (compose_services c)) by exact (each_nth 3 (compose_ms w) (compose_legible w) (fst c) L).
    unfold values in V. rewrite Forall_forall in V. assert (K := V _ J). cbn [snd] in K. unfold legible_service, struct_keeps in K. exact (each_nth 81 (service_ms w) (service_legible w) (fst s) K).
  - intros F. apply (compose_back w c P). apply (gi_sound _ _ (compose_good_if w O) v c H). unfold compose_ok, services_ok. apply Forall_forall. intros [name s] J. cbn [snd].
    exact (F name s J).
Qed.
Print Assumptions loaded_legible.
(** So such a file comes back settled. *)
Theorem loaded_becomes : forall w v (c : compose w), externals_ok w -> load w v = Ok c ->
  (forall name s, In (name, s) (compose_services c) -> Forall from_keeps (service_volumes_from s)) -> load w (save w c) = Ok (settled_file w c).
Proof. intros w v c O H F. apply file_becomes; [exact O|exact (loaded_possible w v c O H)|exact (proj2 (loaded_legible w v c O H) F)]. Qed.
Print Assumptions loaded_becomes.

(** Concrete case: a time loses its last nanosecond and an empty map becomes a list. *)
Example settle_example : exists s : service w0, de (service_c w0) (VMap []) = Ok s /\
  let t := set_field 71 (Some (mk_duration 3 5001) : nth_type 71 (service_ms w0)) (set_field 45 (LMap [] : nth_type 45 (service_ms w0)) s) in
  possible_service w0 t /\ legible_service w0 t /\ ~ lossless_service w0 t /\
  nth_val 71 (service_ms w0) (fst (settled_service w0 t)) = Some (mk_duration 3 5000) /\ nth_val 45 (service_ms w0) (fst (settled_service w0 t)) = LList [].
Proof.
  destruct (accepted_ok (de (service_c w0) (VMap []))) as [s H]; [vm_compute; reflexivity|]. exists s. split; [exact H|]. intros t.
  assert (K : de (service_c w0) (ser (service_c w0) s) = Ok s).
  { assert (X : match de (service_c w0) (VMap []) with Ok s => de (service_c w0) (ser (service_c w0) s) | Err e => Err e end = de (service_c w0) (VMap [])) by (vm_compute; reflexivity).
    rewrite H in X. exact X. }
  destruct (proj1 (service_survivors w0 s w0_ok) K) as [P L]. destruct (proj1 (service_lossless_settled w0 s w0_ok P) L) as [Q _].
  assert (T : time_can (mk_duration 3 5001)) by (split; vm_compute; congruence).
  assert (E : either_can (LMap [])) by (split; constructor).
  unfold possible_service, legible_service, lossless_service, struct_can, struct_keeps in *. destruct P as [P X].
  split; [split; [|exact X]|]. { apply (each_set 71 (service_ms w0)); [apply (each_set 45 (service_ms w0)); [exact P|exact E]|exact T]. }
  split. { apply (each_set 71 (service_ms w0)); [apply (each_set 45 (service_ms w0)); [exact Q|exact I]|exact I]. }
  split. { intros Y. assert (Z := each_nth 71 (service_ms w0) (service_keeps w0) _ Y). discriminate Z. }
  split; reflexivity.
Qed.
(** A file written by a user comes back settled. *)
Example sample_becomes : match load w0 sample with Ok c => legible w0 c /\ load w0 (save w0 c) = Ok (settled_file w0 c) | Err _ => False end.
Proof.
  assert (Y := sample_survives). destruct (load w0 sample) as [c|]; [|exact Y]. destruct Y as [P L]. destruct (proj1 (lossless_settled w0 c w0_ok P) L) as [Q S].
  split; [exact Q|]. exact (file_becomes w0 c w0_ok P Q).
Qed.
