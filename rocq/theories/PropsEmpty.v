(** C60: [is_empty] is true exactly for the values which are written without any content. *)

From Coq Require Import String Ascii List NArith ZArith Bool Lia.
Import ListNotations.
From Verif Require Import Base BaseFacts Num Coll BytesModel EqModel VolumesModel ValuesModel Serde Codec CodecFacts EnumModel ScalarCodec ScalarGood CommonCodec CommonGood ServiceParts PartsGood MountCodec MountGood
  HealthModel ServiceCodec ServiceGood ComposeCodec ComposeGood EmptyModel EmptyProofs.
Open Scope N_scope.

(** [empty_is c e] says [blank (ser c a) = e a] for every value [a] of the type: [is_empty] tells whether all that is written for [a], at
    any depth, are names of fields with empty lists and maps. So a field which [is_empty] forgets makes it false, as
    does one that is tested wrongly. *)
Tactic Notation "empties" constr(ms) uconstr(ts) :=
  eapply empty_is_ext;
  [refine (struct_ext_is ms ts _); repeat apply conj; cbn [fst snd]; try exact I; try (apply optional_is; [reflexivity|assumption]);
   try (apply many_list_is; [reflexivity|assumption]); try reflexivity; auto 8 with codec
  |intros v].
#[export] Hint Extern 1 (named _) => reflexivity : codec.
#[export] Hint Extern 3 (solid _) => solve [intros ? ?; reflexivity] : codec.

(** Networks and volumes. *)
Theorem ipam_config_is_empty : forall w, empty_is (ipam_config_c w) ipam_config_empty.
Proof.
  intros w. empties (ipam_config_ms w) (is_none, (is_none, (is_none, (is_nil, tt)))). destruct v as [(a & b & c & d & []) x]. reflexivity.
Qed.
Print Assumptions ipam_config_is_empty.
Theorem ipam_is_empty : forall w, empty_is (ipam_c w) ipam_empty.
Proof.
  intros w. assert (A := ipam_config_is_empty w). empties (ipam_ms w) (is_none, (forallb ipam_config_empty, (is_nil, tt))). destruct v as [(a & b & c & []) x]. reflexivity.
Qed.
Print Assumptions ipam_is_empty.
Theorem network_is_empty : forall w, empty_is (network_c w) network_empty.
Proof.
  intros w. assert (A := ipam_is_empty w). empties (network_ms w) (is_none, (is_nil, (negb, (negb, (none_or ipam_empty, (negb, (list_or_map_empty, (is_none, tt)))))))). destruct v as [(a & b & c & d & e & f & g & h & []) x]. reflexivity.
Qed.
Print Assumptions network_is_empty.
Theorem top_volume_is_empty : empty_is top_volume_c top_volume_empty.
Proof.
  empties top_volume_ms (is_none, (is_nil, (list_or_map_empty, (is_none, tt)))). destruct v as [(a & b & c & d & []) x]. reflexivity.
Qed.
Print Assumptions top_volume_is_empty.

(** Deploy. *)
Theorem limits_is_empty : forall w, empty_is (limits_c w) limits_empty.
Proof.
  intros w. empties (limits_ms w) (is_none, (is_none, (is_none, tt))). destruct v as [(a & b & c & []) x]. reflexivity.
Qed.
Print Assumptions limits_is_empty.
Theorem deploy_device_is_empty : empty_is deploy_device_c deploy_device_empty.
Proof.
  assert (member_is (required $"capabilities" (iset_c capability_eqb capability_c)) is_nil).
  { apply field_is; [reflexivity|discriminate|]. intros l [W _] _. apply list_solid; auto with codec. }
  empties deploy_device_ms (is_nil, (is_none, (is_none, (is_nil, (list_or_map_empty, tt))))). destruct v as [(a & b & c & d & e & []) x]. reflexivity.
Qed.
Print Assumptions deploy_device_is_empty.
Theorem discrete_resource_spec_is_empty : empty_is discrete_resource_spec_c discrete_resource_spec_empty.
Proof.
  empties discrete_resource_spec_ms (is_none, (is_none, tt)). destruct v as [(a & b & []) x]. reflexivity.
Qed.
Print Assumptions discrete_resource_spec_is_empty.
Theorem generic_resource_is_empty : empty_is generic_resource_c generic_resource_empty.
Proof.
  assert (A := discrete_resource_spec_is_empty). empties generic_resource_ms (none_or discrete_resource_spec_empty, tt). destruct v as [(a & []) x]. reflexivity.
Qed.
Print Assumptions generic_resource_is_empty.
Theorem reservations_is_empty : forall w, empty_is (reservations_c w) reservations_empty.
Proof.
  intros w. assert (A := deploy_device_is_empty). assert (B := generic_resource_is_empty). empties (reservations_ms w) (is_none, (is_none, (forallb deploy_device_empty, (forallb generic_resource_empty, tt)))). destruct v as [(a & b & c & d & []) x]. reflexivity.
Qed.
Print Assumptions reservations_is_empty.
Theorem resources_is_empty : forall w, empty_is (resources_c w) resources_empty.
Proof.
  intros w. assert (A := limits_is_empty w). assert (B := reservations_is_empty w). empties (resources_ms w) (none_or limits_empty, (none_or reservations_empty, tt)). destruct v as [(a & b & []) x]. reflexivity.
Qed.
Print Assumptions resources_is_empty.
Theorem preference_is_empty : empty_is preference_c preference_empty.
Proof.
  empties preference_ms (is_none, tt). destruct v as [(a & []) x]. reflexivity.
Qed.
Print Assumptions preference_is_empty.
Theorem placement_is_empty : empty_is placement_c placement_empty.
Proof.
  assert (A := preference_is_empty). empties placement_ms (is_nil, (forallb preference_empty, (is_none, tt))). destruct v as [(a & b & c & []) x]. reflexivity.
Qed.
Print Assumptions placement_is_empty.
Theorem restart_policy_is_empty : empty_is restart_policy_c restart_policy_empty.
Proof.
  empties restart_policy_ms (is_none, (is_none, (is_none, (is_none, tt)))). destruct v as [(a & b & c & d & []) x]. reflexivity.
Qed.
Print Assumptions restart_policy_is_empty.
Theorem update_config_is_empty : empty_is update_config_c update_config_empty.
Proof.
  empties update_config_ms (is_none, (is_none, (is_none, (is_none, (is_none, (is_none, tt)))))). destruct v as [(a & b & c & d & e & f & []) x]. reflexivity.
Qed.
Print Assumptions update_config_is_empty.
Theorem deploy_is_empty : forall w, empty_is (deploy_c w) deploy_empty.
Proof.
  intros w. assert (A := placement_is_empty). assert (B := resources_is_empty w). assert (C := restart_policy_is_empty). assert (D := update_config_is_empty). empties (deploy_ms w) (is_none, (list_or_map_empty, (is_none, (none_or placement_empty, (is_none, (none_or resources_empty, (none_or restart_policy_empty, (none_or update_config_empty, (none_or update_config_empty, tt))))))))). destruct v as [(a & b & c & d & e & f & g & h & i & []) x]. reflexivity.
Qed.
Print Assumptions deploy_is_empty.

(** Other parts of a service. *)
Theorem blkio_config_is_empty : empty_is blkio_config_c blkio_config_empty.
Proof.
  assert (solid bps_limit_c) by (apply struct_solid; auto with codec). assert (solid iops_limit_c) by (apply struct_solid; auto with codec).
  assert (solid weight_device_c) by (apply struct_solid; auto with codec).
  eapply empty_is_ext; [refine (struct_is blkio_config_ms (is_nil, (is_nil, (is_nil, (is_nil, (is_none, (is_nil, tt)))))) _)|].
  - repeat apply conj; cbn [fst snd]; try exact I; auto 8 with codec.
  - intros v. destruct v as (a & b & c & d & e & f & []). reflexivity.
Qed.
Print Assumptions blkio_config_is_empty.
Theorem service_network_is_empty : forall w, empty_is (service_network_c w) service_network_empty.
Proof.
  intros w. empties (service_network_ms w) (is_nil, (is_none, (is_none, (is_nil, (is_none, (is_nil, (is_none, tt))))))).
  destruct v as [(a & b & c & d & e & f & g & []) x]. cbn [fst snd]. unfold service_network_empty. rewrite <- (andb_assoc _ (is_none g) (is_none g)), andb_diag. reflexivity.
Qed.
Print Assumptions service_network_is_empty.
Theorem health_command_is_empty : empty_is (struct_ext_c health_ms) health_command_empty.
Proof.
  empties health_ms (is_none, (is_none, (is_none, (is_none, (is_none, (is_none, tt)))))). destruct v as [(a & b & c & d & e & f & []) x]. reflexivity.
Qed.
Print Assumptions health_command_is_empty.
Theorem logging_is_empty : empty_is logging_c logging_empty.
Proof.
  empties logging_ms (is_none, (is_nil, tt)). destruct v as [(a & b & []) x]. reflexivity.
Qed.
Print Assumptions logging_is_empty.
Theorem build_is_empty : forall w, empty_is (build_c w) build_empty.
Proof.
  intros w. assert (solid config_or_secret_c) by (apply struct_ext_solid; auto with codec). assert (solid ulimit_c) by (intros u W; apply (struct_ext_solid $"soft" (limit_c u64_c) [required $"hard" (limit_c u64_c)]); [auto with codec|exact W]).
  assert (member_is (many $"secrets" grants_c) is_nil) by (apply many_list_solid; auto with codec).
  assert (member_is (many $"ulimits" ulimits_c) is_nil) by (apply many_smap_solid; auto with codec).
  empties (build_ms w) (is_none, (is_none, (list_or_map_empty, (is_nil, (is_nil, (is_nil, (is_nil, (is_nil, (is_nil, (is_none, (negb, (list_or_map_empty, (negb, (negb, (is_none, (is_none, (is_none, (is_nil, (is_nil, (is_nil, (is_nil, tt))))))))))))))))))))). destruct v as [(a & b & c & d & e & f & g & h & i & j & k & l & m & n & o & p & q & r & s & t & u & []) x]. reflexivity.
Qed.
Print Assumptions build_is_empty.

(** Options of mounts. *)
Theorem volume_options_empty_iff : empty_is volume_options_c volume_options_is_empty.
Proof.
  assert (E : empty_is (struct_ext_c volume_options_ms) (fun v => negb (fst (fst v)) && is_none (fst (snd (fst v))) && is_nil (snd v))).
  { empties volume_options_ms (negb, (is_none, tt)). destruct v as [(a & b & []) x]. reflexivity. }
  intros [a b x] W. exact (E _ W).
Qed.
Print Assumptions volume_options_empty_iff.
Theorem bind_options_empty_iff : empty_is bind_options_c bind_options_is_empty.
Proof.
  assert (E : empty_is (struct_ext_c bind_options_ms) (fun v => is_none (fst (fst v)) && negb (fst (snd (fst v))) && is_none (fst (snd (snd (fst v)))) && is_nil (snd v))).
  { empties bind_options_ms (is_none, (negb, (is_none, tt))). destruct v as [(a & b & c & []) x]. reflexivity. }
  intros [a b c x] W. exact (E _ W).
Qed.
Print Assumptions bind_options_empty_iff.
Theorem tmpfs_options_is_empty : empty_is tmpfs_options_c tmpfs_options_empty.
Proof.
  assert (E : empty_is (struct_ext_c tmpfs_options_ms) (fun v => is_none (fst (fst v)) && is_none (fst (snd (fst v))) && is_nil (snd v))).
  { empties tmpfs_options_ms (is_none, (is_none, tt)). destruct v as [(a & b & []) x]. reflexivity. }
  intros [a b x] W. exact (E _ W).
Qed.
Print Assumptions tmpfs_options_is_empty.

(** Empty parts inside count as empty, an extension does not. *)
Example empty_example : forall w,
  network_empty (w := w) ((None, ([], (false, (false, (Some ((None, ([((None, (None, (None, ([], tt)))), [])], ([], tt))), []), (false, (LMap [], (None, tt)))))))), []) = true /\
  ser (network_c w) ((None, ([], (false, (false, (Some ((None, ([((None, (None, (None, ([], tt)))), [])], ([], tt))), []), (false, (LMap [], (None, tt)))))))), [])
    = VMap [(VStr $"ipam", VMap [(VStr $"config", VSeq [VMap []])])] /\
  ipam_empty (w := w) ((None, ([((None, (None, (None, ([], tt)))), [($"x-a", VMap [])])], ([], tt))), []) = false.
Proof. intros w. repeat split; reflexivity. Qed.
