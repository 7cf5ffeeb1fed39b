(** The codec of compose files accepts the documents of the schema. *)

From Coq Require Import String Ascii List NArith ZArith Bool Lia ZifyBool ZifyN ZifyNat.
Import ListNotations.
From Verif Require Import Base BaseFacts Num Coll VolumesModel HealthModel Serde Codec CodecFacts EnumModel ScalarCodec CommonCodec ServiceParts MountCodec
  ServiceCodec ComposeCodec Schema SchemaText ComposeSchema SchemaFacts SchemaLoads SchemaLeaves SchemaSpecial SchemaResource.
Open Scope N_scope.

Lemma u64_no_maps : no_maps (or_unlimited U64).
Proof. unfold or_unlimited, U64. auto with loads. Qed.
Lemma loads_limit_u32 : loads (limit_c u32_c) (or_unlimited U32).
Proof. apply loads_limit; [exact loads_u32|apply uint_int_or_string]. Qed.
Lemma loads_limit_u64 : loads (limit_c u64_c) (or_unlimited U64).
Proof. apply loads_limit; [exact loads_u64|apply uint_int_or_string]. Qed.
Lemma loads_limit_bytes : loads (limit_c byte_value_c) (or_unlimited AMOUNT).
Proof. apply loads_limit; [exact loads_byte_value|apply amount_int_or_string]. Qed.
Lemma loads_context : forall w, loads (context_c w) any_text.
Proof. intros w. apply loads_any_text. Qed.

Lemma reads_pair : forall m ms f g fs c, member_is m [f; g] [c] -> reads ms fs [] -> reads (m :: ms) (f :: g :: fs) [c].
Proof. intros m ms f g fs c M R. exact (reads_cons m ms [f; g] fs [c] [] M R). Qed.
Lemma reads_triple : forall m ms f g h fs c, member_is m [f; g; h] [c] -> reads ms fs [] -> reads (m :: ms) (f :: g :: h :: fs) [c].
Proof. intros m ms f g h fs c M R. exact (reads_cons m ms [f; g; h] fs [c] [] M R). Qed.

(** The codecs of single values. *)
Ltac leaf := lazymatch goal with
  | |- loads string_c _ => exact loads_string
  | |- loads path_c _ => exact loads_path
  | |- loads bool_c _ => exact loads_bool
  | |- loads identifier_c _ => exact loads_identifier
  | |- loads name_c _ => exact loads_name
  | |- loads map_key_c _ => exact loads_map_key
  | |- loads hostname_c _ => exact loads_hostname
  | |- loads ulimit_resource_c _ => exact loads_ulimit_resource
  | |- loads absolute_path_c _ => exact loads_absolute_path
  | |- loads host_path_c _ => exact loads_host_path
  | |- loads image_c _ => exact loads_image
  | |- loads platform_c _ => exact loads_platform
  | |- loads link_c _ => exact loads_link
  | |- loads ipc_c _ => exact loads_ipc
  | |- loads volumes_from_c _ => exact loads_volumes_from
  | |- loads driver_c _ => exact loads_driver
  | |- loads endpoint_mode_c _ => exact loads_endpoint_mode
  | |- loads capability_c _ => exact loads_capability
  | |- loads protocol_c _ => exact loads_protocol
  | |- loads build_network_c _ => exact loads_build_network
  | |- loads user_c _ => exact loads_user
  | |- loads (cpuset_c ?w) _ => exact (loads_cpuset w)
  | |- loads device_c _ => exact loads_device
  | |- loads cgroup_rule_c _ => exact loads_cgroup_rule
  | |- loads network_mode_c _ => exact loads_network_mode
  | |- loads mac_c _ => exact loads_mac
  | |- loads (ip_c ?w) _ => exact (loads_ip w)
  | |- loads (ipv4_c ?w) _ => exact (loads_ipv4 w)
  | |- loads (ipv6_c ?w) _ => exact (loads_ipv6 w)
  | |- loads (ip_net_c ?w) _ => exact (loads_ip_net w)
  | |- loads short_volume_c _ => exact loads_short_volume
  | |- loads cache_c _ => exact loads_cache
  | |- loads ssh_auth_c _ => exact loads_ssh_auth
  | |- loads u32_text_c _ => exact loads_u32_text
  | |- loads u16_c _ => exact loads_u16
  | |- loads u32_c _ => exact loads_u32
  | |- loads u64_c _ => exact loads_u64
  | |- loads percent_c _ => exact loads_percent
  | |- loads oom_score_adj_c _ => exact loads_oom_score_adj
  | |- loads weight_c _ => exact loads_weight
  | |- loads byte_value_c _ => exact loads_byte_value
  | |- loads (limit_c u32_c) _ => exact loads_limit_u32
  | |- loads (limit_c u64_c) _ => exact loads_limit_u64
  | |- loads (limit_c byte_value_c) _ => exact loads_limit_bytes
  | |- loads count_c _ => exact loads_count
  | |- loads (cpus_c ?w) _ => exact (loads_cpus w)
  | |- loads id_or_name_c _ => exact loads_id_or_name
  | |- loads range_c _ => exact loads_range
  | |- loads expose_c _ => exact loads_expose
  | |- loads (short_port_c ?w) _ => exact (loads_short_port w)
  | |- loads duration_c _ => exact loads_duration
  | |- loads duration_us_c _ => exact loads_duration_us
  | |- loads string_or_number_c _ => exact loads_string_or_number
  | |- loads vmap_c _ => exact loads_vmap
  | |- loads list_or_map_c _ => exact loads_list_or_map
  | |- loads (extra_hosts_c ?w) _ => exact (loads_extra_hosts w)
  | |- loads (additional_contexts_c ?w) _ => exact (loads_additional_contexts w)
  | |- loads mount_c _ => exact loads_mount
  | |- loads healthcheck_c _ => exact loads_healthcheck
  | |- loads (context_c ?w) _ => exact (loads_context w)
  end.
(** What is accepted by lists, maps and alternatives. *)
Ltac value := first
  [ leaf
  | lazymatch goal with
    | |- loads (list_c _) _ => apply loads_list; value
    | |- loads (iset_c _ _) _ => apply loads_iset; value
    | |- loads (sset _) _ => apply loads_iset; value
    | |- loads (smap _ _) _ => apply loads_imap; value
    | |- loads (option_c _) _ => apply loads_option; value
    | |- loads (short_or_long_c _ _) _ => apply loads_short_or_long; [value|value|auto with loads|auto with loads]
    | |- loads (item_or_list_c _ _) _ => apply loads_item_or_list; [value|value|auto with loads|auto with loads]
    end
  | now apply loads_enum
  | eassumption
  | idtac ].
Ltac fields := members; value.

(** ** Services: build *)

Lemma loads_grants : loads grants_c GRANTS.
Proof.
  assert (G : loads config_or_secret_c GRANT) by (apply loads_struct_ext; fields).
  unfold grants_c, GRANTS. value. unfold GRANT, object. auto with loads.
Qed.
Lemma loads_ulimits : loads ulimits_c ULIMITS.
Proof.
  assert (G : loads ulimit_c ULIMIT_OBJECT) by (apply loads_iso, loads_struct_ext; fields).
  unfold ulimits_c, ULIMITS. apply loads_imap; [value|]. apply loads_short_or_long; [value|value|exact u64_no_maps|]. unfold ULIMIT_OBJECT, object. auto with loads.
Qed.
Lemma dockerfile_is : member_is dockerfile_m [maybe $"dockerfile" PATH; maybe $"dockerfile_inline" any_text] [at_most_one [$"dockerfile"; $"dockerfile_inline"]].
Proof.
  apply (member_group2 $"dockerfile" (option_c path_c) (nullable PATH) $"dockerfile_inline" (option_c string_c) (nullable any_text)
    dockerfile_write dockerfile_read _ _ (fun n => (n <= 1)%nat)); try (apply loads_option; value); try apply option_tells.
  intros [a|] [b|]; unfold one; cbn [dockerfile_read VolumesModel.is_none]; rewrite ?accepts_ok, ?accepts_no; lia.
Qed.
Lemma loads_build : forall w, loads (build_c w) BUILD.
Proof.
  intros w. apply loads_struct_ext. unfold build_ms. apply reads_optional; [value|].
  apply reads_pair; [exact dockerfile_is|].
  pose proof loads_grants. pose proof loads_ulimits. fields.
Qed.

(** ** Services: deploy *)

Lemma loads_update_config : loads update_config_c UPDATE_CONFIG.
Proof. apply loads_struct_ext. fields. Qed.
Lemma loads_deploy : forall w, loads (deploy_c w) (DEPLOY w).
Proof.
  intros w.
  assert (loads (limits_c w) (LIMITS w)) by (apply loads_struct_ext; fields).
  assert (loads deploy_device_c DEPLOY_DEVICE) by (apply loads_struct_ext; fields).
  assert (loads discrete_resource_spec_c DISCRETE) by (apply loads_struct_ext; fields).
  assert (loads generic_resource_c GENERIC) by (apply loads_struct_ext; fields).
  assert (loads (reservations_c w) (RESERVATIONS w)) by (apply loads_struct_ext; fields).
  assert (loads (resources_c w) (RESOURCES w)) by (apply loads_struct_ext; fields).
  assert (loads preference_c (object [maybe $"spread" any_text] [])) by (apply loads_struct_ext; fields).
  assert (loads placement_c PLACEMENT) by (apply loads_struct_ext; fields).
  assert (loads restart_policy_c RESTART_POLICY) by (apply loads_struct_ext; fields).
  pose proof loads_update_config.
  apply loads_struct_ext. fields.
Qed.

(** ** Services: networks *)

Lemma loads_networks : forall w, loads (networks_c w) NETWORKS.
Proof.
  intros w. assert (loads (service_network_c w) SERVICE_NETWORK) by (apply loads_struct_ext; fields).
  unfold networks_c, NETWORKS. value.
Qed.
Lemma network_config_is : forall w, member_is (network_config_m w) [maybe $"network_mode" (text NETWORK_MODE); maybe $"networks" NETWORKS]
  [at_most_one [$"network_mode"; $"networks"]].
Proof.
  intros w. apply (member_group2 $"network_mode" (option_c network_mode_c) (nullable (text NETWORK_MODE)) $"networks" (option_c (networks_c w)) (nullable NETWORKS)
    (network_config_write w) (network_config_read w) _ _ (fun n => (n <= 1)%nat)); try apply option_tells.
  - value.
  - apply loads_option, loads_networks.
  - intros [a|] [b|]; unfold one; cbn [network_config_read VolumesModel.is_none]; rewrite ?accepts_ok, ?accepts_no; lia.
Qed.

(** ** Services: volumes, ports and others *)

Lemma loads_volumes : forall w, loads (volumes_c w) VOLUMES.
Proof.
  intros w. apply loads_iset, loads_short_or_long; [value|value|auto with loads|]. intros v H. unfold MOUNT, mount_of in H.
  destruct H as [H|[H|[H|[H|H]]]]; now apply object_only_maps in H.
Qed.
Lemma loads_ports : forall w, loads (ports_c w) (PORTS w).
Proof.
  intros w. assert (loads (port_c w) PORT) by (apply loads_iso, loads_struct_ext; fields). apply loads_iset, loads_short_or_long; [value|value| |].
  - unfold U16. auto with loads.
  - unfold PORT, object. auto with loads.
Qed.
Lemma loads_blkio : loads blkio_config_c BLKIO.
Proof.
  assert (loads bps_limit_c BPS) by (apply loads_struct; fields). assert (loads iops_limit_c IOPS) by (apply loads_struct; fields).
  assert (loads weight_device_c (open_object [req $"path" (text ABSOLUTE_PATH); req $"weight" WEIGHT])) by (apply loads_struct; fields).
  apply loads_struct. fields.
Qed.
Lemma loads_credential_spec : loads credential_spec_c CREDENTIAL_SPEC.
Proof.
  apply (loads_struct_ext_once _ _ [exactly_one [$"config"; $"file"; $"registry"]]).
  apply reads_triple; [|apply reads_nil].
  apply (member_group3 $"config" (some_c identifier_c) (text IDENTIFIER) $"file" (some_c path_c) PATH $"registry" (some_c string_c) any_text
    credential_write credential_read _ _ (fun n => n = 1%nat));
    try (apply loads_some; value).
  - eapply some_tells; [value|]. intros (s & E & _). discriminate.
  - eapply some_tells; [exact loads_path|]. intros (s & E). discriminate.
  - eapply some_tells; [exact loads_string|]. intros (s & E). discriminate.
  - intros [a|] [b|] [d|]; unfold one; cbn [credential_read VolumesModel.is_none]; rewrite ?accepts_ok, ?accepts_no; lia.
Qed.
Lemma loads_develop : loads develop_c DEVELOP.
Proof.
  assert (loads watch_rule_c (object
     [req $"action" (one_of [$"rebuild"; $"sync"; $"sync+restart"]); opt $"ignore" (list_of PATH); req $"path" PATH; maybe $"target" (text ABSOLUTE_PATH)] []))
    by (apply loads_struct_ext; fields).
  apply loads_struct. fields.
Qed.
Lemma loads_env_file : loads env_file_c ENV_FILE.
Proof.
  assert (loads env_file_config_c (open_object [req $"path" PATH; opt $"required" boolean])) by (apply loads_struct; fields).
  unfold env_file_c, ENV_FILE, PATH. apply loads_item_or_list; [value| |auto with loads|auto with loads]. apply loads_list, loads_short_or_long; [value|value|auto with loads|].
  unfold open_object. auto with loads.
Qed.
Lemma loads_depends_on : loads depends_on_c DEPENDS_ON.
Proof. assert (loads dependency_c DEPENDENCY) by (apply loads_struct; fields). unfold depends_on_c, DEPENDS_ON. value. Qed.
Lemma loads_extends : loads extends_c EXTENDS.
Proof. apply loads_struct. fields. Qed.
Lemma loads_logging : loads logging_c LOGGING.
Proof. apply loads_struct_ext. fields. Qed.
Lemma loads_command : loads command_c COMMAND.
Proof. unfold command_c, COMMAND. value. Qed.
Lemma loads_service_build : forall w, loads (short_or_long_c (context_c w) (build_c w)) (either any_text BUILD).
Proof. intros w. apply loads_short_or_long; [value|apply loads_build|auto with loads|]. unfold BUILD, object. auto with loads. Qed.

Ltac part := lazymatch goal with
  | |- loads (short_or_long_c (context_c ?w) _) _ => exact (loads_service_build w)
  | |- loads blkio_config_c _ => exact loads_blkio
  | |- loads command_c _ => exact loads_command
  | |- loads grants_c _ => exact loads_grants
  | |- loads credential_spec_c _ => exact loads_credential_spec
  | |- loads depends_on_c _ => exact loads_depends_on
  | |- loads (deploy_c ?w) _ => exact (loads_deploy w)
  | |- loads develop_c _ => exact loads_develop
  | |- loads env_file_c _ => exact loads_env_file
  | |- loads extends_c _ => exact loads_extends
  | |- loads logging_c _ => exact loads_logging
  | |- loads (ports_c ?w) _ => exact (loads_ports w)
  | |- loads (volumes_c ?w) _ => exact (loads_volumes w)
  | |- loads ulimits_c _ => exact loads_ulimits
  | _ => value
  end.
Theorem loads_service : forall w, loads (service_c w) (SERVICE w).
Proof.
  intros w. apply loads_struct_ext. unfold service_ms, one_or_list. members; try part.
  apply reads_pair; [apply network_config_is|]. members; part.
Qed.

(** ** Compose files *)

Lemma loads_network : forall w, loads (resource_c (network_c w)) (or_external (NETWORK w)).
Proof.
  intros w. assert (loads (ipam_config_c w) (IPAM_CONFIG w)) by (apply loads_struct_ext; fields).
  assert (loads (ipam_c w) (IPAM w)) by (apply loads_struct_ext; fields).
  apply loads_resource; [apply loads_struct_ext; fields|apply object_unordered; constructor].
Qed.
Lemma loads_volume : loads (resource_c top_volume_c) (or_external VOLUME).
Proof. apply loads_resource; [apply loads_struct_ext; fields|apply object_unordered; constructor]. Qed.
Lemma loads_config : loads (resource_c config_c) (or_external CONFIG).
Proof.
  apply loads_resource; [|apply object_unordered; constructor; [apply exactly_one_unordered|constructor]]. apply loads_struct_ext.
  apply reads_triple; [|fields].
  apply (member_group3 $"file" (option_c path_c) (nullable PATH) $"environment" (option_c string_c) (nullable any_text) $"content" (option_c string_c) (nullable any_text)
    config_source_write config_source_read _ _ (fun n => n = 1%nat)); try apply option_tells; try value.
  intros [a|] [b|] [d|]; unfold one; cbn [config_source_read VolumesModel.is_none]; rewrite ?accepts_ok, ?accepts_no; lia.
Qed.
Lemma loads_secret : loads (resource_c secret_c) (or_external SECRET).
Proof.
  apply loads_resource; [|apply object_unordered; constructor; [apply exactly_one_unordered|constructor]]. apply loads_struct_ext.
  apply reads_pair; [|fields].
  apply (member_group2 $"file" (option_c path_c) (nullable PATH) $"environment" (option_c string_c) (nullable any_text)
    secret_source_write secret_source_read _ _ (fun n => n = 1%nat)); try apply option_tells; try value.
  intros [a|] [b|]; unfold one; cbn [secret_source_read VolumesModel.is_none]; rewrite ?accepts_ok, ?accepts_no; lia.
Qed.
Theorem loads_compose : forall w, loads (compose_c w) (COMPOSE w).
Proof.
  intros w. assert (loads include_c INCLUDE) by (apply loads_struct; unfold include_ms, one_or_list, PATH; fields).
  apply loads_struct_ext. unfold compose_ms. members.
  - value.
  - value.
  - apply loads_list, loads_short_or_long; [value|value|unfold PATH; auto with loads|unfold INCLUDE, open_object; auto with loads].
  - apply loads_imap; [value|apply loads_service].
  - apply loads_imap; [value|apply loads_option, loads_network].
  - apply loads_imap; [value|apply loads_option, loads_volume].
  - apply loads_imap; [value|apply loads_config].
  - apply loads_imap; [value|apply loads_secret].
Qed.
