(** C96: saving and loading a file made through the API does not change what its validation says. *)

From Coq Require Import String Ascii List NArith ZArith Bool.
Import ListNotations.
From Verif Require Import Base Num ValidateModel VolumesModel KeysProofs Serde Codec ScalarCodec CommonCodec MountCodec ServiceParts ServiceCodec ComposeCodec ComposeView ReloadFacts PropsCompose EditModel PropsEdit
  EqModel ComposeGood KeepSpec KeepWhole SettleSpec PropsKeep PropsSettle.
Open Scope N_scope.

Lemma keys_settled : forall (V : Type) (f : V -> V) l, map fst (in_values f l) = map fst l.
Proof. intros V f l. unfold in_values. rewrite map_map. reflexivity. Qed.
Lemma service_view_settled : forall w (s : service w), service_view (settled_service w s) = service_view s.
Proof.
  intros w s. unfold service_view, settled_service, in_struct. cbn [fst].
  change (nth_val 48 (service_ms w) (in_each (service_ms w) (service_settled w) (fst s))) with (option_map (network_config_settled w) (nth_val 48 (service_ms w) (fst s))).
  change (nth_val 80 (service_ms w) (in_each (service_ms w) (service_settled w) (fst s))) with (nth_val 80 (service_ms w) (fst s)).
  change (nth_val 17 (service_ms w) (in_each (service_ms w) (service_settled w) (fst s))) with (nth_val 17 (service_ms w) (fst s)).
  change (nth_val 67 (service_ms w) (in_each (service_ms w) (service_settled w) (fst s))) with (nth_val 67 (service_ms w) (fst s)).
  assert (E : forall o, networks_view (option_map (network_config_settled w) o) = networks_view o).
  { intros [[m|[l|l]]|]; try reflexivity. cbn. unfold same. f_equal. apply keys_settled. }
  rewrite E. reflexivity.
Qed.
(** Nothing which the validation looks at is changed, whatever the file. *)
Lemma compose_view_settled : forall w (c : compose w), compose_view (settled_file w c) = compose_view c.
Proof.
  intros w c. unfold compose_view, settled_file, in_struct. cbn [fst].
  change (nth_val 3 (compose_ms w) (in_each (compose_ms w) (compose_settled w) (fst c))) with (in_values (settled_service w) (nth_val 3 (compose_ms w) (fst c))).
  change (nth_val 4 (compose_ms w) (in_each (compose_ms w) (compose_settled w) (fst c)))
    with (in_values (option_map (in_resource (in_struct (network_ms w) (network_settled w)))) (nth_val 4 (compose_ms w) (fst c))).
  change (nth_val 5 (compose_ms w) (in_each (compose_ms w) (compose_settled w) (fst c)))
    with (in_values (option_map (in_resource (in_struct top_volume_ms volume_settled))) (nth_val 5 (compose_ms w) (fst c))).
  change (nth_val 6 (compose_ms w) (in_each (compose_ms w) (compose_settled w) (fst c)))
    with (in_values (in_resource (in_struct config_ms config_settled)) (nth_val 6 (compose_ms w) (fst c))).
  change (nth_val 7 (compose_ms w) (in_each (compose_ms w) (compose_settled w) (fst c)))
    with (in_values (in_resource (in_struct secret_ms secret_settled)) (nth_val 7 (compose_ms w) (fst c))).
  rewrite !keys_settled. f_equal. unfold in_values. rewrite map_map. apply map_ext. intros [n s]. cbn [fst snd]. now rewrite service_view_settled.
Qed.
Theorem saved_validates : forall w (c c' : compose w), externals_ok w -> possible w c -> legible w c -> load w (save w c) = Ok c' ->
  validate_all (compose_view c') = validate_all (compose_view c) /\
  validate_networks (compose_view c') = validate_networks (compose_view c) /\ validate_volumes (compose_view c') = validate_volumes (compose_view c) /\
  validate_configs (compose_view c') = validate_configs (compose_view c) /\ validate_secrets (compose_view c') = validate_secrets (compose_view c).
Proof.
  intros w c c' O P L H. assert (E : c' = settled_file w c). { rewrite (file_becomes w c O P L) in H. exact (eq_sym (ok_eq _ _ _ _ H)). }
  rewrite E, compose_view_settled. auto.
Qed.
Print Assumptions saved_validates.

(** Concrete case: a network which is not defined is reported before and after. *)
Definition undefined_network : sval := VMap [(VStr $"services", VMap [(VStr $"web", VMap [(VStr $"networks", VSeq [VStr $"front"]); (VStr $"stop_grace_period", VStr $"90s")])])].
Example undefined_network_kept : match load w0 undefined_network with
  | Ok c => validate_all (compose_view c) <> Ok tt /\
      match load w0 (save w0 c) with Ok c' => validate_all (compose_view c') = validate_all (compose_view c) | Err _ => False end
  | Err _ => False
  end.
Proof. vm_compute. split; [discriminate|reflexivity]. Qed.

(** That the file is legible is needed: two mounts which are written alike become one, and with it the error that a volume which is not defined is mounted twice goes away. *)
Definition one_service : sval := VMap [(VStr $"services", VMap [(VStr $"web", VMap [])])].
Definition two_mounts : list (short_or_long short_volume mount) :=
  [Short (mk_short_volume $"/b" (Some (mk_short_options (NamedVolume $"data") true None)));
   Short (mk_short_volume $"/b:ro" (Some (mk_short_options (NamedVolume $"data") false None)))].
Definition with_mounts (c : compose w0) : compose w0 :=
  set_services (map (fun e => (fst e, set_field 80 (two_mounts : nth_type 80 (service_ms w0)) (snd e))) (compose_services c)) c.
Lemma two_mounts_can : set_of (short_or_long_eqb short_volume_eqb (mount_eqb (w_yaml_eqb w0))) (form short_volume_can mount_can) two_mounts.
Proof.
  assert (I : identifier $"data") by (apply (identifier_new_ok $"data" $"data"); vm_compute; reflexivity).
  split.
  - constructor; [|constructor; [|constructor]]; (split; [|exact I]); eexists; reflexivity.
  - constructor; [constructor; [vm_compute; reflexivity|constructor]|constructor; [constructor|constructor]].
Qed.
Lemma with_mounts_possible : forall c, possible w0 c -> possible w0 (with_mounts c).
Proof.
  intros c [E X]. split; [|exact X]. apply (each_set 3 (compose_ms w0) (compose_can w0)); [exact E|].
  assert (S := each_nth 3 (compose_ms w0) (compose_can w0) (fst c) E).
  change (map_of identifier (possible_service w0) (map (fun e => (fst e, set_field 80 (two_mounts : nth_type 80 (service_ms w0)) (snd e))) (compose_services c))).
  change (map_of identifier (possible_service w0) (compose_services c)) in S. destruct S as [N F]. split.
  - rewrite map_map. exact N.
  - apply Forall_forall. intros e J. apply in_map_iff in J. destruct J as [[k s] [Q J]]. rewrite Forall_forall in F. destruct (F _ J) as [K [P Y]]. rewrite <- Q. cbn [fst snd] in *.
    split; [exact K|]. split; [|exact Y]. apply (each_set 80 (service_ms w0) (service_can w0)); [exact P|exact two_mounts_can].
Qed.
Definition valid {E A : Type} (r : result E A) : bool := match r with Ok _ => true | Err _ => false end.
Theorem saved_validates_refuted : exists w (c c' : compose w), externals_ok w /\ possible w c /\ load w (save w c) = Ok c' /\
  validate_all (compose_view c) <> Ok tt /\ validate_all (compose_view c') = Ok tt.
Proof.
  exists w0.
  assert (T : match load w0 one_service with
              | Ok c => match load w0 (save w0 (with_mounts c)) with
                        | Ok c' => (valid (validate_all (compose_view (with_mounts c))), valid (validate_all (compose_view c'))) = (false, true)
                        | Err _ => False end
              | Err _ => False end) by (vm_compute; reflexivity).
  destruct (load w0 one_service) as [c|] eqn:H; [|destruct T]. destruct (load w0 (save w0 (with_mounts c))) as [c'|] eqn:K; [|destruct T].
  exists (with_mounts c), c'. split; [exact w0_ok|]. split; [exact (with_mounts_possible c (loaded_possible w0 _ c w0_ok H))|]. split; [exact K|].
  destruct (validate_all (compose_view (with_mounts c))) as [u|e]; [discriminate (f_equal fst T)|]. destruct (validate_all (compose_view c')) as [[]|e']; [|discriminate (f_equal snd T)].
  split; [discriminate|reflexivity].
Qed.
Print Assumptions saved_validates_refuted.
