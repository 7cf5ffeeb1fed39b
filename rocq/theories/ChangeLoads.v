(** Changes to a compose file that are not noticed: the codecs of the file, one by one. *)

From Coq Require Import String Ascii List NArith ZArith Bool Lia Permutation.
Import ListNotations.
From Verif Require Import Base BaseFacts Num Coll VolumesModel HealthModel HealthProofs PropsHealth Serde Codec ScalarCodec CommonCodec ServiceParts MountCodec
  ServiceCodec ComposeCodec SchemaFacts Schema NamesSpec PropsDefault PanicSpec ChangeSpec ChangeFacts.
Open Scope N_scope.

(** ** Structs with their members prepared *)

Definition tidy (ms : list member) : Prop := Forall local ms /\ once_each (names ms) = true /\ forallb plain_name (names ms) = true.
Ltac tidies := lazymatch goal with |- tidy ?ms => repeat apply conj; [try (let h := eval hnf in ms in change (Forall local h)); locals|vm_compute; reflexivity|vm_compute; reflexivity] end.

Section Tidy.
Variable ms : list member.
Hypothesis T : tidy ms.
Lemma key_unnoticed : forall n m Q, owner n ms = Some m -> m_blind n Q m -> unnoticed ms (under_key n Q).
Proof. intros n m Q O B. destruct T as (L & N & _). now apply (unnoticed_key ms n m). Qed.
Lemma adds_unnoticed : forall k x m, owner k ms = Some m -> m_default k x m -> unnoticed ms (adds k x).
Proof. intros k x m O B. destruct T as (L & N & _). now apply (unnoticed_adds ms k x m). Qed.
Lemma reorders_unnoticed : unnoticed ms reorders.
Proof. destruct T as (L & _ & N). now apply unnoticed_reorders. Qed.

Lemma ext_key : forall n (A : Set) (c : codec A) d s Q, owner n ms = Some (field n c d s) -> blind c Q -> blind (struct_ext_c ms) (under_key n Q).
Proof. intros n A c d s Q O B. apply blind_struct_ext; [apply maps_under_key|]. apply (key_unnoticed n _ Q O). now apply m_blind_field. Qed.
Lemma open_key : forall n (A : Set) (c : codec A) d s Q, owner n ms = Some (field n c d s) -> blind c Q -> blind (struct_c ms) (under_key n Q).
Proof. intros n A c d s Q O B. apply blind_struct; [apply maps_under_key|]. apply (key_unnoticed n _ Q O). now apply m_blind_field. Qed.
Lemma ext_adds : forall k x m, owner k ms = Some m -> m_default k x m -> blind (struct_ext_c ms) (adds k x).
Proof. intros k x m O D. apply blind_struct_ext; [apply maps_adds|]. now apply (adds_unnoticed k x m). Qed.
Lemma open_adds : forall k x m, owner k ms = Some m -> m_default k x m -> blind (struct_c ms) (adds k x).
Proof. intros k x m O D. apply blind_struct; [apply maps_adds|]. now apply (adds_unnoticed k x m). Qed.
Lemma ext_reorders : blind (struct_ext_c ms) reorders.
Proof. apply blind_struct_ext; [apply maps_reorders|apply reorders_unnoticed]. Qed.
Lemma once_reorders : blind (struct_ext_once_c ms) reorders.
Proof. apply blind_struct_ext_once; [apply maps_reorders|apply reorders_unnoticed]. Qed.
Lemma open_reorders : blind (struct_c ms) reorders.
Proof. apply blind_struct; [apply maps_reorders|apply reorders_unnoticed]. Qed.
Lemma ext_foreign : forall n Q, existsb (str_eqb n) (names ms) = false -> plain_name n = true -> blind (struct_ext_c ms) (under_key n Q).
Proof. intros n Q N P. apply blind_struct_ext; [apply maps_under_key|]. destruct T as (L & _). now apply unnoticed_foreign. Qed.
End Tidy.

(** What has to be shown for the object at a place. *)
Definition plain {A : Set} (c : codec A) (ds : list (str * sval)) : Prop :=
  blind c reorders /\ Forall (fun e => yaml_ok (snd e) = true /\ blind c (adds (fst e) (snd e))) ds.
Definition leads {A B : Set} (from : codec A) (p : list step) (to : codec B) : Prop :=
  forall Q, fine Q -> between_maps Q -> blind to Q -> blind from (changed p Q).
Definition described {A : Set} (from : codec A) (p : list step) (ds : list (str * sval)) : Prop :=
  exists (B : Set) (to : codec B), leads from p to /\ plain to ds.

Lemma plain_iso : forall {A B : Set} (c : codec A) (f : B -> A) g ds, plain c ds -> plain (iso c f g) ds.
Proof. intros A B c f g ds [R F]. split; [now apply blind_iso|]. eapply Forall_impl; [|exact F]. intros e [Y H]. split; [exact Y|]. now apply blind_iso. Qed.

Ltac default_member := lazymatch goal with
  | |- m_default _ _ (optional _ _) => unfold optional; apply m_default_field; reflexivity
  | |- m_default _ _ (many _ _) => unfold many; apply m_default_field; reflexivity
  | |- m_default _ _ (flag _) => unfold flag; apply m_default_field; reflexivity
  | |- m_default _ _ (flag_true _) => unfold flag_true; apply m_default_field; reflexivity
  | |- m_default _ _ (list_or_map_field _) => unfold list_or_map_field; apply m_default_field; reflexivity
  | |- m_default _ _ (cpuset_field _ _) => unfold cpuset_field; apply m_default_field; reflexivity
  | |- m_default _ _ (depends_on_field _) => unfold depends_on_field; apply m_default_field; reflexivity
  | |- m_default _ _ dockerfile_m => eapply m_default_group; [locals|vm_compute; reflexivity|reflexivity|default_member]
  | |- m_default _ _ (network_config_m _) => eapply m_default_group; [locals|vm_compute; reflexivity|reflexivity|default_member]
  | |- m_default _ _ config_source_m => eapply m_default_group; [locals|vm_compute; reflexivity|reflexivity|default_member]
  | |- m_default _ _ secret_source_m => eapply m_default_group; [locals|vm_compute; reflexivity|reflexivity|default_member]
  end.
Ltac each_default X := repeat (apply Forall_cons; [split; [reflexivity|cbn [fst snd]; eapply X; [reflexivity|default_member]]|]); apply Forall_nil.
Ltac open_list := lazymatch goal with
  | |- Forall _ (_ :: _) => idtac
  | |- Forall _ [] => idtac
  | |- Forall ?P ?l => let l' := eval cbv beta iota delta [app map all nulls off on lists ChangeSpec.maps FILE INCLUDES SERVICES BUILDS GRANTED BLOCK_IO DEPENDENCIES DEPLOYS PLACEMENTS
      RESERVED RESERVED_DEVICES UPDATES JOINED_NETWORKS LONG_PORTS NETWORK_DEFAULTS VOLUME_DEFAULTS CONFIG_DEFAULTS SECRET_DEFAULTS] in l in change (Forall P l')
  end.
Ltac plain_ext T := split; [exact (ext_reorders _ T)|open_list; each_default (ext_adds _ T)].
Ltac plain_open T := split; [exact (open_reorders _ T)|open_list; each_default (open_adds _ T)].

(** ** The structs *)

Lemma tidy_service w : tidy (service_ms w).
Proof. tidies. Qed.
Lemma tidy_build w : tidy (build_ms w).
Proof. tidies. Qed.
Lemma tidy_grant : tidy config_or_secret_ms.
Proof. tidies. Qed.
Lemma tidy_ulimit : tidy ulimit_ms.
Proof. tidies. Qed.
Lemma tidy_blkio : tidy blkio_config_ms.
Proof. tidies. Qed.
Lemma tidy_deploy w : tidy (deploy_ms w).
Proof. tidies. Qed.
Lemma tidy_placement : tidy placement_ms.
Proof. tidies. Qed.
Lemma tidy_preference : tidy preference_ms.
Proof. tidies. Qed.
Lemma tidy_resources w : tidy (resources_ms w).
Proof. tidies. Qed.
Lemma tidy_limits w : tidy (limits_ms w).
Proof. tidies. Qed.
Lemma tidy_reservations w : tidy (reservations_ms w).
Proof. tidies. Qed.
Lemma tidy_deploy_device : tidy deploy_device_ms.
Proof. tidies. Qed.
Lemma tidy_generic : tidy generic_resource_ms.
Proof. tidies. Qed.
Lemma tidy_discrete : tidy discrete_resource_spec_ms.
Proof. tidies. Qed.
Lemma tidy_restart_policy : tidy restart_policy_ms.
Proof. tidies. Qed.
Lemma tidy_update_config : tidy update_config_ms.
Proof. tidies. Qed.
Lemma tidy_watch : tidy watch_rule_ms.
Proof. tidies. Qed.
Lemma tidy_service_network w : tidy (service_network_ms w).
Proof. tidies. Qed.
Lemma tidy_port w : tidy (port_ms w).
Proof. tidies. Qed.
Lemma tidy_volume_options : tidy volume_options_ms.
Proof. tidies. Qed.
Lemma tidy_bind_options : tidy bind_options_ms.
Proof. tidies. Qed.
Lemma tidy_tmpfs_options : tidy tmpfs_options_ms.
Proof. tidies. Qed.
Lemma tidy_volume : tidy volume_ms.
Proof. unfold volume_ms, common_ms. tidies. Qed.
Lemma tidy_bind : tidy bind_ms.
Proof. unfold bind_ms, common_ms. tidies. Qed.
Lemma tidy_tmpfs : tidy tmpfs_ms.
Proof. unfold tmpfs_ms, common_ms. tidies. Qed.
Lemma tidy_named_pipe : tidy named_pipe_ms.
Proof. unfold named_pipe_ms, common_ms. tidies. Qed.
Lemma tidy_cluster : tidy cluster_ms.
Proof. unfold cluster_ms, common_ms. tidies. Qed.
Lemma tidy_network w : tidy (network_ms w).
Proof. tidies. Qed.
Lemma tidy_ipam w : tidy (ipam_ms w).
Proof. tidies. Qed.
Lemma tidy_ipam_config w : tidy (ipam_config_ms w).
Proof. tidies. Qed.
Lemma tidy_top_volume : tidy top_volume_ms.
Proof. tidies. Qed.
Lemma tidy_config : tidy config_ms.
Proof. tidies. Qed.
Lemma tidy_secret : tidy secret_ms.
Proof. tidies. Qed.
Lemma tidy_include : tidy include_ms.
Proof. tidies. Qed.
Lemma tidy_compose w : tidy (compose_ms w).
Proof. tidies. Qed.

(** ** Single objects *)

Lemma plain_compose w : plain (compose_c w) FILE.
Proof. plain_ext (tidy_compose w). Qed.
Lemma plain_include : plain include_c INCLUDES.
Proof. plain_open tidy_include. Qed.
Lemma plain_service w : plain (service_c w) SERVICES.
Proof. plain_ext (tidy_service w). Qed.
Lemma plain_build w : plain (build_c w) BUILDS.
Proof. plain_ext (tidy_build w). Qed.
Lemma plain_grant : plain config_or_secret_c GRANTED.
Proof. plain_ext tidy_grant. Qed.
Lemma plain_ulimit : plain ulimit_c [].
Proof. apply plain_iso. plain_ext tidy_ulimit. Qed.
Lemma plain_blkio : plain blkio_config_c BLOCK_IO.
Proof. plain_open tidy_blkio. Qed.
Lemma tidy_bps : tidy [required $"path" absolute_path_c; required $"rate" byte_value_c].
Proof. tidies. Qed.
Lemma plain_bps : plain bps_limit_c [].
Proof. split; [|constructor]. exact (open_reorders _ tidy_bps). Qed.
Lemma plain_iops : plain iops_limit_c [].
Proof. split; [|constructor]. apply open_reorders. tidies. Qed.
Lemma plain_weight : plain weight_device_c [].
Proof. split; [|constructor]. apply open_reorders. tidies. Qed.
Lemma plain_credential : plain credential_spec_c [].
Proof. split; [|constructor]. apply once_reorders. tidies. Qed.
Lemma plain_dependency : plain dependency_c DEPENDENCIES.
Proof. assert (T : tidy [required $"condition" EnumModel.condition_c; flag $"restart"; flag_true $"required"]) by tidies. plain_open T. Qed.
Lemma plain_deploy w : plain (deploy_c w) DEPLOYS.
Proof. plain_ext (tidy_deploy w). Qed.
Lemma plain_placement : plain placement_c PLACEMENTS.
Proof. plain_ext tidy_placement. Qed.
Lemma plain_preference : plain preference_c (nulls [$"spread"]).
Proof. plain_ext tidy_preference. Qed.
Lemma plain_resources w : plain (resources_c w) (nulls [$"limits"; $"reservations"]).
Proof. plain_ext (tidy_resources w). Qed.
Lemma plain_limits w : plain (limits_c w) (nulls [$"cpus"; $"memory"; $"pids"]).
Proof. plain_ext (tidy_limits w). Qed.
Lemma plain_reservations w : plain (reservations_c w) RESERVED.
Proof. plain_ext (tidy_reservations w). Qed.
Lemma plain_deploy_device : plain deploy_device_c RESERVED_DEVICES.
Proof. plain_ext tidy_deploy_device. Qed.
Lemma plain_generic : plain generic_resource_c (nulls [$"discrete_resource_spec"]).
Proof. plain_ext tidy_generic. Qed.
Lemma plain_discrete : plain discrete_resource_spec_c (nulls [$"kind"; $"value"]).
Proof. plain_ext tidy_discrete. Qed.
Lemma plain_restart_policy : plain restart_policy_c (nulls [$"condition"; $"max_attempts"]).
Proof. plain_ext tidy_restart_policy. Qed.
Lemma plain_update_config : plain update_config_c UPDATES.
Proof. plain_ext tidy_update_config. Qed.
Lemma tidy_develop : tidy [many $"watch" (list_c watch_rule_c)].
Proof. tidies. Qed.
Lemma plain_develop : plain develop_c (lists [$"watch"]).
Proof. plain_open tidy_develop. Qed.
Lemma plain_watch : plain watch_rule_c (nulls [$"target"] ++ lists [$"ignore"]).
Proof. plain_ext tidy_watch. Qed.
Lemma plain_env_file : plain env_file_config_c (on [$"required"]).
Proof. assert (T : tidy [required $"path" path_c; flag_true $"required"]) by tidies. plain_open T. Qed.
Lemma plain_extends : plain extends_c (nulls [$"file"]).
Proof. assert (T : tidy [required $"service" identifier_c; optional $"file" path_c]) by tidies. plain_open T. Qed.
Lemma plain_logging : plain logging_c (nulls [$"driver"] ++ ChangeSpec.maps [$"options"]).
Proof. assert (T : tidy [optional $"driver" string_c; many $"options" (smap map_key_c (option_c string_or_number_c))]) by tidies. plain_ext T. Qed.
Lemma plain_service_network w : plain (service_network_c w) JOINED_NETWORKS.
Proof. plain_ext (tidy_service_network w). Qed.
Lemma plain_port w : plain (port_c w) LONG_PORTS.
Proof. apply plain_iso. plain_ext (tidy_port w). Qed.
Lemma plain_volume_options : plain volume_options_c (nulls [$"subpath"] ++ off [$"nocopy"]).
Proof. apply plain_iso. plain_ext tidy_volume_options. Qed.
Lemma plain_bind_options : plain bind_options_c (nulls [$"propagation"; $"selinux"] ++ off [$"create_host_path"]).
Proof. apply plain_iso. plain_ext tidy_bind_options. Qed.
Lemma plain_tmpfs_options : plain tmpfs_options_c (nulls [$"size"; $"mode"]).
Proof. apply plain_iso. plain_ext tidy_tmpfs_options. Qed.
Definition MOUNTS := nulls [$"consistency"] ++ off [$"read_only"].
Lemma plain_volume : plain volume_c MOUNTS.
Proof. apply plain_iso. unfold MOUNTS. plain_ext tidy_volume. Qed.
Lemma plain_bind : plain bind_c MOUNTS.
Proof. apply plain_iso. unfold MOUNTS. plain_ext tidy_bind. Qed.
Lemma plain_tmpfs : plain tmpfs_c MOUNTS.
Proof. apply plain_iso. unfold MOUNTS. plain_ext tidy_tmpfs. Qed.
Lemma plain_named_pipe : plain named_pipe_c MOUNTS.
Proof. apply plain_iso. unfold MOUNTS. plain_ext tidy_named_pipe. Qed.
Lemma plain_cluster : plain cluster_c MOUNTS.
Proof. apply plain_iso. unfold MOUNTS. plain_ext tidy_cluster. Qed.
Lemma plain_mount : plain mount_c MOUNTS.
Proof.
  destruct plain_volume as [R1 F1], plain_bind as [R2 F2], plain_tmpfs as [R3 F3], plain_named_pipe as [R4 F4], plain_cluster as [R5 F5].
  split; [apply blind_mount; auto using maps_reorders, passes_reorders|].
  rewrite Forall_forall in *. intros e I. split; [now apply (F1 e I)|]. apply blind_mount; [apply maps_adds| |now apply (F1 e I)|now apply (F2 e I)|now apply (F3 e I)|now apply (F4 e I)|now apply (F5 e I)].
  apply passes_adds. destruct I as [<-|[<-|[]]]; discriminate.
Qed.
Lemma plain_network w : plain (network_c w) (nulls [$"driver"; $"ipam"; $"name"] ++ off [$"attachable"; $"enable_ipv6"; $"internal"] ++ lists [$"labels"] ++ ChangeSpec.maps [$"driver_opts"]).
Proof. plain_ext (tidy_network w). Qed.
Lemma plain_ipam w : plain (ipam_c w) (nulls [$"driver"] ++ lists [$"config"] ++ ChangeSpec.maps [$"options"]).
Proof. plain_ext (tidy_ipam w). Qed.
Lemma plain_ipam_config w : plain (ipam_config_c w) (nulls [$"subnet"; $"ip_range"; $"gateway"] ++ ChangeSpec.maps [$"aux_addresses"]).
Proof. plain_ext (tidy_ipam_config w). Qed.
Lemma plain_top_volume : plain top_volume_c (nulls [$"driver"; $"name"] ++ lists [$"labels"] ++ ChangeSpec.maps [$"driver_opts"]).
Proof. plain_ext tidy_top_volume. Qed.
Lemma plain_config : plain config_c (nulls [$"file"; $"environment"; $"content"] ++ lists [$"labels"]).
Proof. plain_ext tidy_config. Qed.
Lemma plain_secret : plain secret_c (nulls [$"file"; $"environment"; $"driver"] ++ lists [$"labels"] ++ ChangeSpec.maps [$"driver_opts"]).
Proof. plain_ext tidy_secret. Qed.

(** ** The ways to the objects *)

Ltac fines := repeat first [assumption | apply fine_under_key | apply fine_under_any_key | apply fine_under_item].
Ltac mappings := first [assumption | apply maps_under_key | apply maps_under_any_key].
Ltac below T := first [eapply (ext_key _ T); [reflexivity|] | eapply (open_key _ T); [reflexivity|]].
Ltac head_of c := lazymatch c with ?f _ => head_of f | ?f => f end.
Ltac descend := lazymatch goal with
  | H : blind ?c ?Q |- blind ?c ?Q => exact H
  | |- blind (compose_c ?w) _ => below (tidy_compose w); descend
  | |- blind (service_c ?w) _ => below (tidy_service w); descend
  | |- blind (build_c ?w) _ => below (tidy_build w); descend
  | |- blind (deploy_c ?w) _ => below (tidy_deploy w); descend
  | |- blind (resources_c ?w) _ => below (tidy_resources w); descend
  | |- blind (reservations_c ?w) _ => below (tidy_reservations w); descend
  | |- blind (limits_c ?w) _ => below (tidy_limits w); descend
  | |- blind deploy_device_c _ => below tidy_deploy_device; descend
  | |- blind restart_policy_c _ => below tidy_restart_policy; descend
  | |- blind update_config_c _ => below tidy_update_config; descend
  | |- blind config_or_secret_c _ => below tidy_grant; descend
  | |- blind (struct_ext_c ulimit_ms) _ => below tidy_ulimit; descend
  | |- blind (struct_ext_c (port_ms ?w)) _ => below (tidy_port w); descend
  | |- blind (struct_ext_c tmpfs_options_ms) _ => below tidy_tmpfs_options; descend
  | |- blind bps_limit_c _ => below tidy_bps; descend
  | |- blind (service_network_c ?w) _ => below (tidy_service_network w); descend
  | |- blind (ipam_config_c ?w) _ => below (tidy_ipam_config w); descend
  | |- blind generic_resource_c _ => below tidy_generic; descend
  | |- blind placement_c _ => below tidy_placement; descend
  | |- blind blkio_config_c _ => below tidy_blkio; descend
  | |- blind develop_c _ => below tidy_develop; descend
  | |- blind (network_c ?w) _ => below (tidy_network w); descend
  | |- blind (ipam_c ?w) _ => below (tidy_ipam w); descend
  | |- blind (option_c _) _ => apply blind_option; [fines|descend]
  | |- blind (some_c _) _ => apply blind_some; descend
  | |- blind (list_c _) _ => apply blind_list; descend
  | |- blind (iset_c _ _) _ => apply blind_iset; descend
  | |- blind (sset _) _ => apply blind_iset; descend
  | |- blind (smap _ _) _ => apply blind_imap; descend
  | |- blind (imap_c _ _ _) _ => apply blind_imap; descend
  | |- blind (short_or_long_c _ _) _ => first [apply blind_long; [mappings|] | apply blind_short; [assumption|]]; descend
  | |- blind (item_or_list_c _ _) _ => first [apply blind_items; [apply lists_under_item|] | apply blind_item; [assumption|]]; descend
  | |- blind (iso _ _ _) _ => apply blind_iso; descend
  | |- blind (resource_c _) _ => apply blind_resource_key; [fines|discriminate|discriminate|descend]
  | |- blind ?c _ => let h := head_of c in unfold h; descend
  end.
Ltac way L := eexists _, _; split; [|exact L]; let Q := fresh "Q" in let F := fresh "F" in let M := fresh "M" in let B := fresh "B" in
  intros Q F M B; cbn [changed service deploy]; descend.

Lemma networks_way w : described (service_c w) [Key $"networks"; AnyKey] JOINED_NETWORKS.
Proof.
  eexists _, _. split; [|exact (plain_service_network w)]. intros Q F M B. cbn [changed]. apply blind_struct_ext; [apply maps_under_key|].
  eapply (key_unnoticed _ (tidy_service w)); [reflexivity|]. unfold network_config_m. eapply m_blind_group; [locals|vm_compute; reflexivity|reflexivity|].
  apply m_blind_field. descend.
Qed.
Lemma described_service w p ds : described (service_c w) p ds -> match p with Key _ :: _ => True | _ => False end -> described (compose_c w) (service p) ds.
Proof.
  intros (B & to & L & P) K. exists B, to. split; [|exact P]. intros Q F M H. specialize (L Q F M H). cbn [changed ChangeSpec.service]. destruct p as [|[k| |] p]; try destruct K.
  descend.
Qed.

(** Options of mounts: in a mount of another type the entry is an error. *)
Ltac foreign T := apply blind_iso, (ext_foreign _ T); reflexivity.
Ltac native T := apply blind_iso; below T; descend.
Lemma volume_options_way w : described (service_c w) [Key $"volumes"; AnyItem; Key $"volume"] (nulls [$"subpath"] ++ off [$"nocopy"]).
Proof.
  eexists _, _. split; [|exact plain_volume_options]. intros Q F M B. cbn [changed].
  assert (X : blind mount_c (under_key $"volume" Q)).
  { apply blind_mount; [apply maps_under_key|apply passes_key; discriminate|native tidy_volume|foreign tidy_bind|foreign tidy_tmpfs|foreign tidy_named_pipe|foreign tidy_cluster]. }
  descend.
Qed.
Lemma bind_options_way w : described (service_c w) [Key $"volumes"; AnyItem; Key $"bind"] (nulls [$"propagation"; $"selinux"] ++ off [$"create_host_path"]).
Proof.
  eexists _, _. split; [|exact plain_bind_options]. intros Q F M B. cbn [changed].
  assert (X : blind mount_c (under_key $"bind" Q)).
  { apply blind_mount; [apply maps_under_key|apply passes_key; discriminate|foreign tidy_volume|native tidy_bind|foreign tidy_tmpfs|foreign tidy_named_pipe|foreign tidy_cluster]. }
  descend.
Qed.
Lemma tmpfs_options_way w : described (service_c w) [Key $"volumes"; AnyItem; Key $"tmpfs"] (nulls [$"size"; $"mode"]).
Proof.
  eexists _, _. split; [|exact plain_tmpfs_options]. intros Q F M B. cbn [changed].
  assert (X : blind mount_c (under_key $"tmpfs" Q)).
  { apply blind_mount; [apply maps_under_key|apply passes_key; discriminate|foreign tidy_volume|foreign tidy_bind|native tidy_tmpfs|foreign tidy_named_pipe|foreign tidy_cluster]. }
  descend.
Qed.

Lemma objects_described w : Forall (fun o => described (compose_c w) (fst o) (snd o)) objects.
Proof.
  unfold objects. cbn [fst snd]. repeat (apply Forall_cons; [cbn [fst snd]|]); [..|apply Forall_nil].
  - way (plain_compose w).
  - way plain_include.
  - way (plain_service w).
  - way (plain_build w).
  - way plain_grant.
  - way plain_ulimit.
  - way plain_blkio.
  - way plain_bps.
  - way plain_iops.
  - way plain_bps.
  - way plain_iops.
  - way plain_weight.
  - way plain_grant.
  - way plain_grant.
  - way plain_credential.
  - way plain_dependency.
  - way (plain_deploy w).
  - way plain_placement.
  - way plain_preference.
  - way (plain_resources w).
  - way (plain_limits w).
  - way (plain_reservations w).
  - way plain_deploy_device.
  - way plain_generic.
  - way plain_discrete.
  - way plain_restart_policy.
  - way plain_update_config.
  - way plain_update_config.
  - way plain_develop.
  - way plain_watch.
  - way plain_env_file.
  - way plain_extends.
  - way plain_logging.
  - apply described_service; [apply networks_way|exact I].
  - way (plain_port w).
  - way plain_ulimit.
  - way plain_mount.
  - apply described_service; [apply volume_options_way|exact I].
  - apply described_service; [apply bind_options_way|exact I].
  - apply described_service; [apply tmpfs_options_way|exact I].
  - way (plain_ipam w).
  - way (plain_ipam_config w).
Qed.

(** Networks, volumes, configs and secrets. *)
Definition plain_managed {A : Set} (c : codec A) (ds : list (str * sval)) : Prop :=
  blind c reorders /\ Forall (fun e => yaml_ok (snd e) = true /\ blind c (adds_managed (fst e) (snd e))) ds.
Definition described_managed {A : Set} (from : codec A) (p : list step) (ds : list (str * sval)) : Prop :=
  exists (B : Set) (to : codec B), leads from p to /\ plain_managed to ds.
Lemma managed_plain : forall {A : Set} (c : codec A) ds, plain c ds -> forall ds', (forall k x, In (k, x) ds' -> k = $"external" /\ x = VBool false \/ k <> $"external" /\ In (k, x) ds) ->
  plain_managed (resource_c c) ds'.
Proof.
  intros A c ds [R F] ds' I. split; [now apply blind_resource_reorders|]. rewrite Forall_forall in *. intros [k x] J. destruct (I k x J) as [[-> ->]|[D J']]; cbn [fst snd].
  - split; [reflexivity|apply blind_resource_external].
  - destruct (F _ J') as [Y B]. split; [exact Y|]. now apply blind_resource_adds.
Qed.
Ltac managed L := apply (managed_plain _ _ L); let k := fresh in let x := fresh in let J := fresh in intros k x J;
  cbv beta iota delta [app map all nulls off on lists ChangeSpec.maps NETWORK_DEFAULTS VOLUME_DEFAULTS CONFIG_DEFAULTS SECRET_DEFAULTS] in J |- *; cbn [In] in J |- *;
  repeat (destruct J as [J|J]; [injection J as <- <-; first [left; split; reflexivity | right; split; [discriminate|tauto]]|]); destruct J.
Lemma managed_described w : Forall (fun o => described_managed (compose_c w) (fst o) (snd o)) managed_objects.
Proof.
  unfold managed_objects. repeat (apply Forall_cons; [cbn [fst snd]|]); [..|apply Forall_nil].
  - exists _, (resource_c (network_c w)). split; [intros Q F M B; cbn [changed]; descend|]. managed (plain_network w).
  - exists _, (resource_c top_volume_c). split; [intros Q F M B; cbn [changed]; descend|]. managed plain_top_volume.
  - exists _, (resource_c config_c). split; [intros Q F M B; cbn [changed]; descend|]. managed plain_config.
  - exists _, (resource_c secret_c). split; [intros Q F M B; cbn [changed]; descend|]. managed plain_secret.
Qed.


(** ** Healthchecks *)

Lemma healthcheck_not_command : forall es es', (forall c, health_de (VMap es) = Ok (HcCommand c) <-> health_de (VMap es') = Ok (HcCommand c)) ->
  (health_de (VMap es) = Ok HcDisable <-> health_de (VMap es') = Ok HcDisable) -> health_de (VMap es') = health_de (VMap es).
Proof.
  intros es es' H D. destruct (health_de (VMap es)) as [[c|]|e] eqn:E.
  - now apply H.
  - now apply D.
  - destruct (health_de (VMap es')) as [[c|]|e'] eqn:E'.
    + now rewrite (proj2 (H c) eq_refl).
    + now rewrite (proj2 D eq_refl).
    + destruct e, e'. reflexivity.
Qed.
Lemma tidy_slots : tidy slot_ms.
Proof. unfold slot_ms, health_ms. tidies. Qed.
Lemma healthcheck_order : blind healthcheck_c reorders_healthcheck.
Proof.
  intros v v' Y [H N]. pose proof (once_reorders _ tidy_slots _ _ Y H) as S. destruct H as (es & es' & -> & -> & P & _). specialize (N es eq_refl). cbn [de healthcheck_c].
  apply healthcheck_not_command.
  - intros c. rewrite !command_iff. unfold slot_c. rewrite S. reflexivity.
  - pose proof (healthcheck_order_partial es es' P N) as X. cbn [de healthcheck_c] in X.
    destruct (health_de (VMap es)) as [[[]|]|], (health_de (VMap es')) as [[[]|]|]; try destruct X; split; congruence.
Qed.
Lemma healthcheck_default : blind healthcheck_c adds_enabled.
Proof.
  intros v v' Y [H N]. destruct (maps_adds _ _ _ _ H) as (es & es' & -> & ->). specialize (N es eq_refl). destruct (adds_values _ _ _ _ H) as (V & V' & O).
  assert (K : Forall (keeps es es') health_ms).
  { apply (keeps_others _ $"disable"); [unfold health_ms; locals| |exact O]. intros I. apply in_names in I. discriminate I. }
  assert (U : unknown (names slot_ms) es' = unknown (names slot_ms) es).
  { destruct H as (l & r & E & E' & _). injection E as ->. injection E' as ->. now rewrite !unknown_app, unknown_key by apply in_eq. }
  cbn [de healthcheck_c]. apply healthcheck_not_command.
  - intros [c z]. rewrite !command_iff. unfold slot_c. cbn [de struct_ext_once_c fst snd]. rewrite U.
    unfold slot_ms. cbn [de_members]. rewrite (keeps_members _ _ _ K). fold slot_ms.
    assert (L : m_de (given $"disable" bool_c) es = Ok None) by (cbn [m_de given field]; rewrite lookup_values, V; reflexivity).
    assert (L' : m_de (given $"disable" bool_c) es' = Ok (Some false)) by (cbn [m_de given field]; rewrite lookup_values, V'; reflexivity).
    rewrite L, L'. cbn [bind]. destruct (de_members health_ms es) as [a|]; cbn [bind]; [|split; intros (d & _ & X); discriminate X].
    destruct (ext_de (unknown (names slot_ms) es)) as [x|]; cbn [bind]; [|split; intros (d & _ & X); discriminate X].
    destruct (once (unknown (names slot_ms) es) x); [|split; intros (d & _ & X); discriminate X].
    split; intros (d & _ & X); injection X as _ -> ->; eexists; (split; [|reflexivity]); discriminate.
  - assert (I : In (VStr $"disable", VBool false) es') by (destruct H as (l & r & _ & E' & _); injection E' as ->; apply in_elt).
    assert (J : forall e, In e es' -> e = (VStr $"disable", VBool false) \/ In e es).
    { destruct H as (l & r & E & E' & _). injection E as ->. injection E' as ->. intros e X. rewrite in_app_iff in *. cbn [In] in X. destruct X as [X|[X|X]]; auto. }
    assert (D : ~ In (VStr $"disable") (map fst es)) by (destruct H as (l & r & E & _ & D); now injection E as ->).
    split; intros X; exfalso; apply disabled_iff in X as [->|[->| ->]].
    + apply D. now left.
    + apply N. now left.
    + apply D. now left.
    + destruct I as [I|[]]. discriminate I.
    + destruct I as [I|[]]. discriminate I.
    + destruct (J none_test) as [X|X]; [right; now left|discriminate X|contradiction].
Qed.
Lemma healthcheck_way w Q : fine Q -> between_maps Q -> blind healthcheck_c Q -> blind (compose_c w) (changed ChangeSpec.healthcheck Q).
Proof. intros F M B. cbn [changed ChangeSpec.healthcheck ChangeSpec.service]. descend. Qed.

(** ** All changes *)

Lemma default_unnoticed w : blind (compose_c w) writes_default.
Proof.
  intros v v' Y [(p & ds & k & x & I & J & H)|[(p & ds & k & x & I & J & H)|H]].
  - pose proof (objects_described w) as O. rewrite Forall_forall in O. destruct (O _ I) as (B & to & L & _ & D). cbn [fst snd] in *. rewrite Forall_forall in D. destruct (D _ J) as [Yx X]. cbn [fst snd] in *.
    apply (L (adds k x)); auto using fine_adds, maps_adds.
  - pose proof (managed_described w) as O. rewrite Forall_forall in O. destruct (O _ I) as (B & to & L & _ & D). cbn [fst snd] in *. rewrite Forall_forall in D. destruct (D _ J) as [Yx X]. cbn [fst snd] in *.
    apply (L (adds_managed k x)); auto using fine_adds_managed, maps_adds_managed.
  - apply (healthcheck_way w adds_enabled); auto using healthcheck_default.
    + intros a b [X _]. now apply (fine_adds $"disable" (VBool false)).
    + intros a b [X _]. now apply maps_adds in X.
Qed.
Lemma order_unnoticed w : blind (compose_c w) reorders_entries.
Proof.
  intros v v' Y [(p & ds & I & H)|H].
  - apply in_app_or in I as [I|I].
    + pose proof (objects_described w) as O. rewrite Forall_forall in O. destruct (O _ I) as (B & to & L & R & _). apply (L reorders); auto using fine_reorders, maps_reorders.
    + pose proof (managed_described w) as O. rewrite Forall_forall in O. destruct (O _ I) as (B & to & L & R & _). apply (L reorders); auto using fine_reorders, maps_reorders.
  - apply (healthcheck_way w reorders_healthcheck); auto using healthcheck_order.
    + intros a b [X _]. now apply fine_reorders.
    + intros a b [X _]. now apply maps_reorders in X.
Qed.
