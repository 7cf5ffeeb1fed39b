(** C92: exactly which services and files in memory come back unchanged when they are saved and loaded. *)

From Coq Require Import String Ascii List NArith ZArith Bool Lia.
Import ListNotations.
From Verif Require Import Base BaseFacts Num Coll CollFacts Regex KeysSpec PropsText TextModel EqModel Serde Codec CodecFacts ScalarCodec
  DurationModel CommonCodec ServiceParts ServiceCodec ServiceGood ComposeCodec ComposeGood ReloadFacts PropsCompose PropsEdit EditModel KeepSpec KeepFacts KeepWhole KeepLoads ValuesModel.
Open Scope N_scope.

(** What a service or a file can be, whoever made it, and when it comes back. *)
Definition possible_service (w : externals) : service w -> Prop := struct_can (service_ms w) (service_can w).
Definition lossless_service (w : externals) : service w -> Prop := struct_keeps (service_ms w) (service_keeps w).
Definition possible (w : externals) : compose w -> Prop := struct_can (compose_ms w) (compose_can w).
Definition lossless (w : externals) : compose w -> Prop := struct_keeps (compose_ms w) (compose_keeps w).

Lemma possible_from : forall w (s : service w), possible_service w s -> set_of volumes_from_eqb from_can (service_volumes_from s).
Proof. intros w s [E _]. exact (each_nth 81 (service_ms w) (service_can w) (fst s) E). Qed.
Lemma kept_service_ok : forall w (s : service w), possible_service w s -> kept (service_c w) s -> service_ok s.
Proof.
  intros w s P K. apply service_kept in K as [K _]. specialize (K 81%nat). destruct (possible_from w s P) as [F D].
  assert (N : NoDup (service_volumes_from s)) by (apply (distinct_NoDup volumes_from_eqb _ volumes_from_eqb_eq); exact D).
  unfold service_ok. apply Forall_forall. intros v J. rewrite Forall_forall in F.
  intros R. exact (proj1 (volumes_from_kept w (service_volumes_from s) N (fun v J => F v J)) K v J R).
Qed.
Theorem service_survives : forall w (s : service w), externals_ok w -> possible_service w s ->
  (de (service_c w) (ser (service_c w) s) = Ok s <-> lossless_service w s).
Proof.
  intros w s O P. assert (G := service_good_if w O). assert (S := service_said w s P). split.
  - intros K. apply (proj1 S). assert (W : wf (service_c w) s) by exact (gi_sound _ _ G _ _ K (kept_service_ok w s P K)).
    split; [exact W|]. assert (R := gi_rt _ _ G s W). assert (E : Ok (norm (service_c w) s) = @Ok de_error _ s) by exact (eq_trans (eq_sym R) K).
    exact (f_equal (fun r => match r with Ok x => x | Err _ => s end) E).
  - intros L. destruct (proj2 S L) as [W N]. exact (eq_trans (gi_rt _ _ G s W) (f_equal Ok N)).
Qed.
Print Assumptions service_survives.

Lemma possible_services : forall w (c : compose w), possible w c -> map_of identifier (possible_service w) (compose_services c).
Proof. intros w c [E _]. exact (each_nth 3 (compose_ms w) (compose_can w) (fst c) E). Qed.
Lemma kept_compose_ok : forall w (c : compose w), possible w c -> load w (save w c) = Ok c -> compose_ok c.
Proof.
  intros w c P K. apply compose_kept in K as [[_ K] _]. destruct (possible_services w c P) as [_ F]. unfold compose_ok, services_ok. rewrite Forall_forall in *.
  intros e J. apply kept_service_ok; [apply (F e J)|apply (K e J)].
Qed.
Theorem file_survives : forall w (c : compose w), externals_ok w -> possible w c -> (load w (save w c) = Ok c <-> lossless w c).
Proof.
  intros w c O P. assert (G := compose_good_if w O). assert (S := compose_said w c P). split.
  - intros K. apply (proj1 S). assert (W : wf (compose_c w) c) by exact (gi_sound _ _ G _ _ K (kept_compose_ok w c P K)).
    split; [exact W|]. assert (R := gi_rt _ _ G c W). assert (E : Ok (norm (compose_c w) c) = @Ok de_error _ c) by exact (eq_trans (eq_sym R) K).
    exact (f_equal (fun r => match r with Ok x => x | Err _ => c end) E).
  - intros L. destruct (proj2 S L) as [W N]. exact (eq_trans (gi_rt _ _ G c W) (f_equal Ok N)).
Qed.
Print Assumptions file_survives.

(** Everything which is loaded is a possible value, so nothing is left out by [possible]. *)
Theorem loaded_possible : forall w v (c : compose w), externals_ok w -> load w v = Ok c -> possible w c.
Proof. intros w v c O. exact (compose_reads w v c O). Qed.
Print Assumptions loaded_possible.
Theorem service_loaded_possible : forall w v (s : service w), externals_ok w -> de (service_c w) v = Ok s -> possible_service w s.
Proof. intros w v s O. exact (service_reads w v s O). Qed.
Print Assumptions service_loaded_possible.
(** A file which was loaded comes back when it is saved exactly when it is lossless. *)
Theorem loaded_survives : forall w v (c : compose w), externals_ok w -> load w v = Ok c -> (load w (save w c) = Ok c <-> lossless w c).
Proof. intros w v c O L. exact (file_survives w c O (loaded_possible w v c O L)). Qed.
Print Assumptions loaded_survives.
(** What comes back is possible: the two conditions together are exactly the values which survive. *)
Theorem survivors : forall w (c : compose w), externals_ok w -> (load w (save w c) = Ok c <-> possible w c /\ lossless w c).
Proof.
  intros w c O. split.
  - intros H. assert (P := loaded_possible w _ c O H). split; [exact P|]. exact (proj1 (file_survives w c O P) H).
  - intros [P L]. exact (proj2 (file_survives w c O P) L).
Qed.
Print Assumptions survivors.
Theorem service_survivors : forall w (s : service w), externals_ok w ->
  (de (service_c w) (ser (service_c w) s) = Ok s <-> possible_service w s /\ lossless_service w s).
Proof.
  intros w s O. split.
  - intros H. assert (P := service_loaded_possible w _ s O H). split; [exact P|]. exact (proj1 (service_survives w s O P) H).
  - intros [P L]. exact (proj2 (service_survives w s O P) L).
Qed.
Print Assumptions service_survivors.

(** One field at a time. *)
Lemma each_set : forall n ms (p : preds ms) v x, each ms p v -> nth_pred n ms p x -> each ms p (set_val n ms x v).
Proof.
  induction n as [|n IH]; intros [|m r] p v x E X; cbn [each nth_pred set_val fst snd] in *; auto; [split; [exact X|apply E]|split; [apply E|apply IH; [apply E|exact X]]].
Qed.
Lemma each_set_iff : forall n ms (p : preds ms) v x, each ms p v -> (n < List.length ms)%nat -> (each ms p (set_val n ms x v) <-> nth_pred n ms p x).
Proof.
  intros n ms p v x E L. split; [|now apply each_set]. revert ms p v x E L. induction n as [|n IH]; intros [|m r] p v x E L H; cbn [each nth_pred set_val fst snd List.length] in *; try (exfalso; lia); [apply H|].
  apply (IH r (snd p) (snd v) x); [apply E|lia|apply H].
Qed.
(** A field of a service which comes back may be set to any possible value; the service comes back exactly if the condition for that field holds. *)
Theorem set_survives : forall w n x (s : service w), externals_ok w -> (n < 83)%nat -> de (service_c w) (ser (service_c w) s) = Ok s ->
  nth_pred n (service_ms w) (service_can w) x ->
  (de (service_c w) (ser (service_c w) (set_field n x s)) = Ok (set_field n x s) <-> nth_pred n (service_ms w) (service_keeps w) x).
Proof.
  intros w n x s O B K X. apply service_survivors in K as [[E Y] L]; [|exact O].
  assert (P : possible_service w (set_field n x s)) by (split; [exact (each_set n (service_ms w) (service_can w) (fst s) x E X)|exact Y]).
  apply (iff_trans (service_survives w (set_field n x s) O P)). exact (each_set_iff n (service_ms w) (service_keeps w) (fst s) x L B).
Qed.
Print Assumptions set_survives.

(** Concrete cases. *)
Example keep_example : exists s : service w0, de (service_c w0) (VMap []) = Ok s /\ possible_service w0 s /\ lossless_service w0 s /\
  kept (service_c w0) (set_field 71 (Some (mk_duration 3 5000) : nth_type 71 (service_ms w0)) s) /\
  ~ kept (service_c w0) (set_field 71 (Some (mk_duration 3 5001) : nth_type 71 (service_ms w0)) s) /\
  ~ kept (service_c w0) (set_field 45 (LMap [] : nth_type 45 (service_ms w0)) s) /\
  kept (service_c w0) (set_field 45 (LMap [($"a", Some (VNumber (SignedInt (-1))))] : nth_type 45 (service_ms w0)) s) /\
  ~ kept (service_c w0) (set_field 45 (LMap [($"a", Some (VNumber (SignedInt 1)))] : nth_type 45 (service_ms w0)) s).
Proof.
  destruct (accepted_ok (de (service_c w0) (VMap []))) as [s H]; [vm_compute; reflexivity|]. exists s. split; [exact H|].
  assert (K : de (service_c w0) (ser (service_c w0) s) = Ok s).
  { assert (X : match de (service_c w0) (VMap []) with Ok s => de (service_c w0) (ser (service_c w0) s) | Err e => Err e end = de (service_c w0) (VMap [])) by (vm_compute; reflexivity).
    rewrite H in X. exact X. }
  destruct (proj1 (service_survivors w0 s w0_ok) K) as [P L]. split; [exact P|]. split; [exact L|].
  assert (T : forall d, time_can d -> (kept (service_c w0) (set_field 71 (Some d : nth_type 71 (service_ms w0)) s) <-> time_keeps d)).
  { intros d D. exact (set_survives w0 71 (Some d : nth_type 71 (service_ms w0)) s w0_ok ltac:(lia) K D). }
  assert (M : forall x, either_can x -> (kept (service_c w0) (set_field 45 (x : nth_type 45 (service_ms w0)) s) <-> either_keeps x)).
  { intros x D. exact (set_survives w0 45 (x : nth_type 45 (service_ms w0)) s w0_ok ltac:(lia) K D). }
  assert (Z : forall z, (-9223372036854775808 <= z <= 9223372036854775807)%Z -> either_can (LMap [($"a", Some (VNumber (SignedInt z)))])).
  { intros z D. split; [repeat constructor; intros []|]. constructor; [|constructor]. split; [split; [discriminate|vm_compute; intros [E|[]]; discriminate]|exact D]. }
  split; [apply T; [split; vm_compute; congruence|reflexivity]|].
  split; [intros X; apply T in X; [discriminate|split; vm_compute; congruence]|].
  split; [intros X; apply M in X; [destruct X as [X _]; now apply X|split; constructor]|].
  split; [apply M; [apply Z; lia|split; [discriminate|repeat constructor]]|].
  intros X. apply M in X; [|apply Z; lia]. destruct X as [_ X]. inversion X as [|? ? Y _]; subst. cbn in Y. lia.
Qed.
Example sample_survives : match load w0 sample with Ok c => possible w0 c /\ lossless w0 c | Err _ => False end.
Proof.
  destruct (load w0 sample) as [c|] eqn:H; [|exfalso; assert (X : accepted (load w0 sample) = true) by (vm_compute; reflexivity); rewrite H in X; discriminate].
  apply survivors; [exact w0_ok|]. assert (X : match load w0 sample with Ok c => load w0 (save w0 c) | Err e => Err e end = load w0 sample) by (vm_compute; reflexivity). rewrite H in X. exact X.
Qed.
