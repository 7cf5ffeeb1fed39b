(** Which keys a value is written with, in which order, read off the [#[serde(...)]] attributes of the structs: the declared
    names in the order of declaration, each present or absent by the value of its field alone, and then the extensions.
    Nothing here uses the tables of members. *)

From Coq Require Import String Ascii List NArith ZArith Bool.
Import ListNotations.
From Verif Require Import Base Num Coll BytesModel ValuesModel PortsModel VolumesModel TextModel Serde Codec ScalarCodec CommonCodec ServiceParts MountCodec HealthModel ServiceCodec ComposeCodec.
Open Scope N_scope.

(** [skip_serializing_if = "Option::is_none"]. *)
Definition if_some {A : Type} (key : str) (o : option A) : list str := match o with Some _ => [key] | None => [] end.
(** [Vec::is_empty], [IndexSet::is_empty], [IndexMap::is_empty] and the aliases. *)
Definition if_filled {A : Type} (key : str) (l : list A) : list str := match l with [] => [] | _ :: _ => [key] end.
(** [ListOrMap::is_empty]. *)
Definition if_listed (key : str) (x : list_or_map) : list str :=
  match x with LList [] | LMap [] => [] | _ => [key] end.
(** [depends_on_is_empty], service.rs 953-958. *)
Definition if_depending {A B : Type} (key : str) (d : short_or_long (list A) (list B)) : list str :=
  match d with Short [] | Long [] => [] | _ => [key] end.
(** [Not::not] and [skip_true]. *)
Definition if_true (key : str) (b : bool) : list str := if b then [key] else [].
Definition if_false (key : str) (b : bool) : list str := if b then [] else [key].

(** A field without attributes. *)
Definition always {A : Type} (key : str) (_ : A) : list str := [key].

(** The keys of one field after the other. *)
Definition after {A B : Type} (k : A -> list str) (rest : B -> list str) (r : A * B) : list str := k (fst r) ++ rest (snd r).
Infix ">>" := after (at level 60, right associativity).
Definition nothing (_ : unit) : list str := [].

(** The flattened fields: [Dockerfile], [NetworkConfig], the sources of configs and secrets. *)
Definition dockerfile_writes (d : option dockerfile) : list str :=
  match d with Some (DfFile _) => [$"dockerfile"] | Some (DfInline _) => [$"dockerfile_inline"] | None => [] end.
Definition network_config_writes {w : externals} (c : option (network_config w)) : list str :=
  match c with Some (NcMode _) => [$"network_mode"] | Some (NcNetworks _) => [$"networks"] | None => [] end.
Definition config_source_writes (s : config_source) : list str :=
  match s with CfgFile _ => [$"file"] | CfgEnvironment _ => [$"environment"] | CfgContent _ => [$"content"] end.
Definition secret_source_writes (s : secret_source) : list str :=
  match s with SecFile _ => [$"file"] | SecEnvironment _ => [$"environment"] end.

(** [Build], service/build.rs 31-197. *)
Definition build_writes (w : externals) (a : vals (build_ms w) * extensions) : list str :=
  (if_some $"context" >> dockerfile_writes >> if_listed $"args" >> if_filled $"ssh" >> if_filled $"cache_from" >>
   if_filled $"cache_to" >> if_filled $"additional_contexts" >> if_filled $"entitlements" >> if_filled $"extra_hosts" >>
   if_some $"isolation" >> if_true $"privileged" >> if_listed $"labels" >> if_true $"no_cache" >> if_true $"pull" >>
   if_some $"network" >> if_some $"shm_size" >> if_some $"target" >> if_filled $"secrets" >> if_filled $"tags" >>
   if_filled $"ulimits" >> if_filled $"platforms" >> nothing) (fst a) ++ map fst (snd a).

(** [Limits], service/deploy/resources.rs 91-115. *)
Definition limits_writes (w : externals) (a : vals (limits_ms w) * extensions) : list str :=
  (if_some $"cpus" >> if_some $"memory" >> if_some $"pids" >> nothing) (fst a) ++ map fst (snd a).

(** [Device], service/deploy/resources.rs 338-377. *)
Definition deploy_device_writes (a : vals deploy_device_ms * extensions) : list str :=
  (always $"capabilities" >> if_some $"driver" >> if_some $"count" >> if_filled $"device_ids" >> if_listed $"options" >>
   nothing) (fst a) ++ map fst (snd a).

(** [DiscreteResourceSpec], service/deploy/resources.rs 649-663. *)
Definition discrete_resource_spec_writes (a : vals discrete_resource_spec_ms * extensions) : list str :=
  (if_some $"kind" >> if_some $"value" >> nothing) (fst a) ++ map fst (snd a).

(** [GenericResource], service/deploy/resources.rs 598-608. *)
Definition generic_resource_writes (a : vals generic_resource_ms * extensions) : list str :=
  (if_some $"discrete_resource_spec" >> nothing) (fst a) ++ map fst (snd a).

(** [Reservations], service/deploy/resources.rs 136-164. *)
Definition reservations_writes (w : externals) (a : vals (reservations_ms w) * extensions) : list str :=
  (if_some $"cpus" >> if_some $"memory" >> if_filled $"devices" >> if_filled $"generic_resources" >> nothing) (fst a) ++ map fst (snd a).

(** [Resources], service/deploy/resources.rs 30-44. *)
Definition resources_writes (w : externals) (a : vals (resources_ms w) * extensions) : list str :=
  (if_some $"limits" >> if_some $"reservations" >> nothing) (fst a) ++ map fst (snd a).

(** [Preference], service/deploy.rs 255-265. *)
Definition preference_writes (a : vals preference_ms * extensions) : list str :=
  (if_some $"spread" >> nothing) (fst a) ++ map fst (snd a).

(** [Placement], service/deploy.rs 194-212. *)
Definition placement_writes (a : vals placement_ms * extensions) : list str :=
  (if_filled $"constraints" >> if_filled $"preferences" >> if_some $"max_replicas_per_node" >> nothing) (fst a) ++ map fst (snd a).

(** [RestartPolicy], service/deploy.rs 281-317. *)
Definition restart_policy_writes (a : vals restart_policy_ms * extensions) : list str :=
  (if_some $"condition" >> if_some $"delay" >> if_some $"max_attempts" >> if_some $"window" >> nothing) (fst a) ++ map fst (snd a).

(** [UpdateOrRollbackConfig], service/deploy.rs 396-436. *)
Definition update_config_writes (a : vals update_config_ms * extensions) : list str :=
  (if_some $"parallelism" >> if_some $"delay" >> if_some $"failure_action" >> if_some $"monitor" >>
   if_some $"max_failure_ratio" >> if_some $"order" >> nothing) (fst a) ++ map fst (snd a).

(** [Deploy], service/deploy.rs 25-89. *)
Definition deploy_writes (w : externals) (a : vals (deploy_ms w) * extensions) : list str :=
  (if_some $"endpoint_mode" >> if_listed $"labels" >> if_some $"mode" >> if_some $"placement" >> if_some $"replicas" >>
   if_some $"resources" >> if_some $"restart_policy" >> if_some $"rollback_config" >> if_some $"update_config" >> nothing) (fst a) ++ map fst (snd a).

(** [Network], service/network_config.rs 370-428. *)
Definition service_network_writes (w : externals) (a : vals (service_network_ms w) * extensions) : list str :=
  (if_filled $"aliases" >> if_some $"ipv4_address" >> if_some $"ipv6_address" >> if_filled $"link_local_ips" >>
   if_some $"mac_address" >> if_filled $"driver_opts" >> if_some $"priority" >> nothing) (fst a) ++ map fst (snd a).

(** [BlkioConfig], service/blkio_config.rs 18-54. *)
Definition blkio_config_writes (a : vals blkio_config_ms) : list str :=
  (if_filled $"device_read_bps" >> if_filled $"device_read_iops" >> if_filled $"device_write_bps" >>
   if_filled $"device_write_iops" >> if_some $"weight" >> if_filled $"weight_device" >> nothing) a.

(** [WatchRule], service/develop.rs 30-60. *)
Definition watch_rule_writes (a : vals watch_rule_ms * extensions) : list str :=
  (always $"action" >> if_filled $"ignore" >> always $"path" >> if_some $"target" >> nothing) (fst a) ++ map fst (snd a).

(** [ConfigOrSecret], service/config_or_secret.rs 30-86. *)
Definition config_or_secret_writes (a : vals config_or_secret_ms * extensions) : list str :=
  (always $"source" >> if_some $"target" >> if_some $"uid" >> if_some $"gid" >> if_some $"mode" >> nothing) (fst a) ++ map fst (snd a).

(** [Service], service.rs 81-682. *)
Definition service_writes (w : externals) (a : vals (service_ms w) * extensions) : list str :=
  (if_false $"attach" >> if_some $"build" >> if_some $"blkio_config" >> if_some $"cpu_count" >> if_some $"cpu_percent" >>
   if_some $"cpu_shares" >> if_some $"cpu_period" >> if_some $"cpu_quota" >> if_some $"cpu_rt_runtime" >>
   if_some $"cpu_rt_period" >> if_some $"cpus" >> if_filled $"cpuset" >> if_filled $"cap_add" >> if_filled $"cap_drop" >>
   if_some $"cgroup" >> if_some $"cgroup_parent" >> if_some $"command" >> if_filled $"configs" >> if_some $"container_name" >>
   if_some $"credential_spec" >> if_depending $"depends_on" >> if_some $"deploy" >> if_some $"develop" >>
   if_filled $"device_cgroup_rules" >> if_filled $"devices" >> if_some $"dns" >> if_filled $"dns_opt" >>
   if_some $"dns_search" >> if_some $"domainname" >> if_some $"entrypoint" >> if_some $"env_file" >> if_listed $"environment" >>
   if_filled $"expose" >> if_some $"extends" >> if_listed $"annotations" >> if_filled $"external_links" >>
   if_filled $"extra_hosts" >> if_filled $"group_add" >> if_some $"healthcheck" >> if_some $"hostname" >> if_some $"image" >>
   if_true $"init" >> if_some $"ipc" >> if_some $"uts" >> if_some $"isolation" >> if_listed $"labels" >> if_filled $"links" >>
   if_some $"logging" >> network_config_writes >> if_some $"mac_address" >> if_some $"mem_limit" >> if_some $"mem_reservation" >>
   if_some $"mem_swappiness" >> if_some $"memswap_limit" >> if_true $"oom_kill_disable" >> if_some $"oom_score_adj" >>
   if_some $"pid" >> if_some $"pids_limit" >> if_some $"platform" >> if_filled $"ports" >> if_true $"privileged" >>
   if_filled $"profiles" >> if_some $"pull_policy" >> if_true $"read_only" >> if_some $"restart" >> if_some $"runtime" >>
   if_some $"scale" >> if_filled $"secrets" >> if_filled $"security_opt" >> if_some $"shm_size" >> if_true $"stdin_open" >>
   if_some $"stop_grace_period" >> if_some $"stop_signal" >> if_filled $"storage_opt" >> if_listed $"sysctls" >>
   if_some $"tmpfs" >> if_true $"tty" >> if_filled $"ulimits" >> if_some $"user" >> if_some $"userns_mode" >>
   if_filled $"volumes" >> if_filled $"volumes_from" >> if_some $"working_dir" >> nothing) (fst a) ++ map fst (snd a).

(** [IpamConfig], network.rs 289-312. *)
Definition ipam_config_writes (w : externals) (a : vals (ipam_config_ms w) * extensions) : list str :=
  (if_some $"subnet" >> if_some $"ip_range" >> if_some $"gateway" >> if_filled $"aux_addresses" >> nothing) (fst a) ++ map fst (snd a).

(** [Ipam], network.rs 226-244. *)
Definition ipam_writes (w : externals) (a : vals (ipam_ms w) * extensions) : list str :=
  (if_some $"driver" >> if_filled $"config" >> if_filled $"options" >> nothing) (fst a) ++ map fst (snd a).

(** [Network], network.rs 42-97. *)
Definition network_writes (w : externals) (a : vals (network_ms w) * extensions) : list str :=
  (if_some $"driver" >> if_filled $"driver_opts" >> if_true $"attachable" >> if_true $"enable_ipv6" >> if_some $"ipam" >>
   if_true $"internal" >> if_listed $"labels" >> if_some $"name" >> nothing) (fst a) ++ map fst (snd a).

(** [Volume], volume.rs 33-65. *)
Definition top_volume_writes (a : vals top_volume_ms * extensions) : list str :=
  (if_some $"driver" >> if_filled $"driver_opts" >> if_listed $"labels" >> if_some $"name" >> nothing) (fst a) ++ map fst (snd a).

(** [Config], config.rs 30-48. *)
Definition config_writes (a : vals config_ms * extensions) : list str :=
  (config_source_writes >> if_listed $"labels" >> nothing) (fst a) ++ map fst (snd a).

(** [Secret], secret.rs 25-53. *)
Definition secret_writes (a : vals secret_ms * extensions) : list str :=
  (secret_source_writes >> if_listed $"labels" >> if_some $"driver" >> if_filled $"driver_opts" >> nothing) (fst a) ++ map fst (snd a).

(** [Include], include.rs 14-32. *)
Definition include_writes (a : vals include_ms) : list str :=
  (always $"path" >> if_some $"project_directory" >> if_some $"env_file" >> nothing) a.

(** [Compose], lib.rs 168-224. *)
Definition compose_writes (w : externals) (a : vals (compose_ms w) * extensions) : list str :=
  (if_some $"version" >> if_some $"name" >> if_filled $"include" >> always $"services" >> if_filled $"networks" >>
   if_filled $"volumes" >> if_filled $"configs" >> if_filled $"secrets" >> nothing) (fst a) ++ map fst (snd a).

(** [Common], service/volumes/mount.rs 766-785, and the mounts, 22-40, 239-255, 373-386, 613-623, 724-733 and 745-754: the tag
    first, the flattened fields last. *)
Definition common_writes (c : common) : list str :=
  [$"target"] ++ if_true $"read_only" (cm_read_only c) ++ if_some $"consistency" (cm_consistency c) ++ map fst (cm_extensions c).
Definition mount_writes (m : mount) : list str :=
  $"type" ::
  match m with
  | MVolume v => if_some $"source" (vol_source v) ++ if_some $"volume" (vol_volume v) ++ common_writes (vol_common v)
  | MBind b => [$"source"] ++ if_some $"bind" (bind_bind b) ++ common_writes (bind_common b)
  | MTmpfs t => if_some $"tmpfs" (tm_tmpfs t) ++ common_writes (tm_common t)
  | MNamedPipe n => [$"source"] ++ common_writes (np_common n)
  | MCluster c => [$"source"] ++ common_writes (cl_common c)
  end.
(** [VolumeOptions], 311-325; [BindOptions], 454-474; [TmpfsOptions], 658-676. *)
Definition volume_options_writes (o : volume_options) : list str :=
  if_true $"nocopy" (vo_nocopy o) ++ if_some $"subpath" (vo_subpath o) ++ map fst (vo_extensions o).
Definition bind_options_writes (o : bind_options) : list str :=
  if_some $"propagation" (bo_propagation o) ++ if_true $"create_host_path" (bo_create_host_path o) ++
  if_some $"selinux" (bo_selinux o) ++ map fst (bo_extensions o).
Definition tmpfs_options_writes (o : tmpfs_options) : list str :=
  if_some $"size" (to_size o) ++ if_some $"mode" (to_mode o) ++ map fst (to_extensions o).

(** [Port], service/ports.rs 56-89. *)
Definition port_writes (p : port) : list str :=
  if_some $"name" (p_name p) ++ [$"target"] ++ if_some $"published" (p_published p) ++ if_some $"host_ip" (p_host_ip p) ++
  if_some $"protocol" (p_protocol p) ++ if_some $"app_protocol" (p_app_protocol p) ++ if_some $"mode" (p_mode p) ++
  map fst (p_extensions p).

(** [Ulimit], service/ulimit.rs 80-92. *)
Definition ulimit_writes (u : ulimit) : list str := [$"soft"; $"hard"] ++ map fst (ul_extensions u).

(** [Healthcheck], service/healthcheck.rs 41-52 and 293-349. *)
Definition healthcheck_writes (h : healthcheck) : list str :=
  match h with
  | HcCommand ((test, (interval, (timeout, (retries, (start_period, (start_interval, _)))))), x) =>
      if_some $"test" test ++ if_some $"interval" interval ++ if_some $"timeout" timeout ++ if_some $"retries" retries ++
      if_some $"start_period" start_period ++ if_some $"start_interval" start_interval ++ map fst x
  | HcDisable => [$"disable"]
  end.

(** The keys of a written document. *)
Definition written_with (v : sval) (keys : list str) : Prop := exists es, v = VMap es /\ map fst es = map VStr keys.
