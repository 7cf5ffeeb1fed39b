(** The structs below [Service] as codecs: build, deploy, networks, configs, ... The members are in the order of
    the Rust declarations, which is the order they are written in. No proofs in this file. *)

From Coq Require Import String Ascii List NArith ZArith Bool.
Import ListNotations.
From Verif Require Import Base Num Coll Regex KeysModel BytesModel IpModel NetModel TextModel ValuesModel VolumesModel BuildModel PlatformModel ImageModel
  EqModel Serde Codec EnumModel ScalarCodec CommonCodec.
Open Scope N_scope.

(** ** Build *)

(** [Context], service/build/context.rs 20-58 and 194-200: a URL if it parses as one, otherwise a path. *)
Inductive context : Set := CtxPath (p : str) | CtxUrl (u : str).
Definition context_show (c : context) : str := match c with CtxPath p => p | CtxUrl u => u end.
Definition context_parse (w : externals) (s : str) : context := match w_url w s with Some u => CtxUrl u | None => CtxPath s end.
Definition context_c (w : externals) : codec context :=
  text_c context_show (total (context_parse w))
    (fun c => match c with CtxPath p => w_url w p = None | CtxUrl u => w_url w u = Some u end).
(** [Default for Context], 138-142. *)
Definition context_default : context := CtxPath $".".

(** [Dockerfile], service/build/dockerfile.rs 22-37; [option], 116-174. *)
Inductive dockerfile : Set := DfFile (p : str) | DfInline (s : str).
Definition dockerfile_ms : list member := [optional $"dockerfile" path_c; optional $"dockerfile_inline" string_c].
Definition dockerfile_write (d : option dockerfile) : vals dockerfile_ms :=
  match d with Some (DfFile p) => (Some p, (None, tt)) | Some (DfInline s) => (None, (Some s, tt)) | None => (None, (None, tt)) end.
Definition dockerfile_read (v : vals dockerfile_ms) : result de_error (option dockerfile) :=
  match v with
  | (Some p, (None, _)) => Ok (Some (DfFile p))
  | (None, (Some s, _)) => Ok (Some (DfInline s))
  | (None, (None, _)) => Ok None
  | (Some _, (Some _, _)) => Err DeError
  end.
Definition dockerfile_m : member := group dockerfile_ms dockerfile_write dockerfile_read (fun _ => True) (fun d => d).

(** [additional_contexts], service/build.rs 256-271: written as a map, read as a [ListOrMap]. *)
Definition additional_context (w : externals) (e : str * option value) : str * context :=
  (fst e, match snd e with Some v => context_parse w (value_show (w_float_show w) v) | None => context_default end).
Definition additional_contexts_c (w : externals) : codec (list (str * context)) :=
  MkCodec (ser (smap map_key_c (context_c w)))
    (fun v =>
       x <- de list_or_map_c v ;;
       m <- map_err (fun _ => DeError) (into_map (w_float w) x) ;;
       Ok (map (additional_context w) m))
    (wf (smap map_key_c (context_c w))) (fun m => m) (panics list_or_map_c).

(** [ConfigOrSecret], service/config_or_secret.rs 29-86. *)
Definition config_or_secret_ms : list member :=
  [required $"source" identifier_c; optional $"target" path_c; optional $"uid" u32_text_c; optional $"gid" u32_text_c; optional $"mode" u32_c].
Definition config_or_secret_c := struct_ext_c config_or_secret_ms.
Definition grants_c := list_c (short_or_long_c identifier_c config_or_secret_c).

(** [Ulimit], service/ulimit.rs 79-92, and [Ulimits], 19. *)
Definition ulimit_ms : list member := [required $"soft" (limit_c u64_c); required $"hard" (limit_c u64_c)].
Definition ulimit_c : codec ulimit :=
  iso (struct_ext_c ulimit_ms) (fun u => ((ul_soft u, (ul_hard u, tt)), ul_extensions u))
    (fun v => mk_ulimit (fst (fst v)) (fst (snd (fst v))) (snd v)).
Definition ulimits_c := smap ulimit_resource_c (short_or_long_c (limit_c u64_c) ulimit_c).

(** [Build], service/build.rs 30-197. *)
Definition build_ms (w : externals) : list member :=
  [optional $"context" (context_c w); dockerfile_m; list_or_map_field $"args"; many $"ssh" (iset_c ssh_auth_eqb ssh_auth_c);
   many $"cache_from" (list_c cache_c); many $"cache_to" (list_c cache_c); many $"additional_contexts" (additional_contexts_c w);
   many $"entitlements" (list_c string_c); many $"extra_hosts" (extra_hosts_c w); optional $"isolation" string_c; flag $"privileged";
   list_or_map_field $"labels"; flag $"no_cache"; flag $"pull"; optional $"network" build_network_c; optional $"shm_size" byte_value_c;
   optional $"target" string_c; many $"secrets" grants_c; many $"tags" (list_c image_c); many $"ulimits" ulimits_c;
   many $"platforms" (list_c platform_c)].
Definition build_c (w : externals) := struct_ext_c (build_ms w).

(** ** Deploy *)

(** service/deploy/resources.rs 90-164, 337-377, 594-660. *)
Definition limits_ms (w : externals) : list member :=
  [optional $"cpus" (cpus_c w); optional $"memory" byte_value_c; optional $"pids" (limit_c u32_c)].
Definition limits_c (w : externals) := struct_ext_c (limits_ms w).
Definition deploy_device_ms : list member :=
  [required $"capabilities" (iset_c capability_eqb capability_c); optional $"driver" string_c; optional $"count" count_c;
   many $"device_ids" (sset string_c); list_or_map_field $"options"].
Definition deploy_device_c := struct_ext_c deploy_device_ms.
Definition discrete_resource_spec_ms : list member := [optional $"kind" string_c; optional $"value" u64_c].
Definition discrete_resource_spec_c := struct_ext_c discrete_resource_spec_ms.
Definition generic_resource_ms : list member := [optional $"discrete_resource_spec" discrete_resource_spec_c].
Definition generic_resource_c := struct_ext_c generic_resource_ms.
Definition reservations_ms (w : externals) : list member :=
  [optional $"cpus" (cpus_c w); optional $"memory" byte_value_c; many $"devices" (list_c deploy_device_c);
   many $"generic_resources" (list_c generic_resource_c)].
Definition reservations_c (w : externals) := struct_ext_c (reservations_ms w).
(** 29-44. *)
Definition resources_ms (w : externals) : list member := [optional $"limits" (limits_c w); optional $"reservations" (reservations_c w)].
Definition resources_c (w : externals) := struct_ext_c (resources_ms w).

(** service/deploy.rs 193-212, 254-265, 280-317, 395-436. *)
Definition preference_ms : list member := [optional $"spread" string_c].
Definition preference_c := struct_ext_c preference_ms.
Definition placement_ms : list member :=
  [many $"constraints" (list_c string_c); many $"preferences" (list_c preference_c); optional $"max_replicas_per_node" u64_c].
Definition placement_c := struct_ext_c placement_ms.
Definition restart_policy_ms : list member :=
  [optional $"condition" restart_condition_c; given $"delay" duration_c; optional $"max_attempts" u64_c; given $"window" duration_c].
Definition restart_policy_c := struct_ext_c restart_policy_ms.
Definition update_config_ms : list member :=
  [optional $"parallelism" u64_c; given $"delay" duration_c; optional $"failure_action" failure_action_c; given $"monitor" duration_c;
   optional $"max_failure_ratio" u64_c; optional $"order" order_c].
Definition update_config_c := struct_ext_c update_config_ms.
(** 24-89. *)
Definition deploy_ms (w : externals) : list member :=
  [optional $"endpoint_mode" endpoint_mode_c; list_or_map_field $"labels"; optional $"mode" deploy_mode_c; optional $"placement" placement_c;
   optional $"replicas" u64_c; optional $"resources" (resources_c w); optional $"restart_policy" restart_policy_c;
   optional $"rollback_config" update_config_c; optional $"update_config" update_config_c].
Definition deploy_c (w : externals) := struct_ext_c (deploy_ms w).

(** ** Networks, service/network_config.rs *)

(** 369-428. *)
Definition service_network_ms (w : externals) : list member :=
  [many $"aliases" (sset hostname_c); optional $"ipv4_address" (ipv4_c w); optional $"ipv6_address" (ipv6_c w);
   many $"link_local_ips" (iset_c ip_eqb (ip_c w)); optional $"mac_address" mac_c; many $"driver_opts" (smap map_key_c string_or_number_c);
   optional $"priority" u64_c].
Definition service_network_c (w : externals) := struct_ext_c (service_network_ms w).
(** [Networks], 27. *)
Definition networks_c (w : externals) := short_or_long_c (sset identifier_c) (smap identifier_c (option_c (service_network_c w))).
Definition networks (w : externals) : Set := short_or_long (list str) (list (str * option (vals (service_network_ms w) * extensions))).
(** [NetworkConfig], 36-46; [option], 131-187. *)
Inductive network_config (w : externals) : Set := NcMode (m : network_mode) | NcNetworks (n : networks w).
Arguments NcMode {w} _.
Arguments NcNetworks {w} _.
Definition network_config_ms (w : externals) : list member := [optional $"network_mode" network_mode_c; optional $"networks" (networks_c w)].
Definition network_config_write (w : externals) (c : option (network_config w)) : vals (network_config_ms w) :=
  match c with Some (NcMode m) => (Some m, (None, tt)) | Some (NcNetworks n) => (None, (Some n, tt)) | None => (None, (None, tt)) end.
Definition network_config_read (w : externals) (v : vals (network_config_ms w)) : result de_error (option (network_config w)) :=
  match v with
  | (Some m, (None, _)) => Ok (Some (NcMode m))
  | (None, (Some n, _)) => Ok (Some (NcNetworks n))
  | (None, (None, _)) => Ok None
  | (Some _, (Some _, _)) => Err DeError
  end.
Definition network_config_m (w : externals) : member :=
  group (network_config_ms w) (network_config_write w) (network_config_read w)
    (fun c => match c with Some (NcMode m) => wf network_mode_c m | Some (NcNetworks n) => wf (networks_c w) n | None => True end)
    (fun c => match c with Some (NcNetworks n) => Some (NcNetworks (norm (networks_c w) n)) | c => c end).

(** ** Others *)

(** service/blkio_config.rs 17-112. *)
Definition bps_limit_c := struct_c [required $"path" absolute_path_c; required $"rate" byte_value_c].
Definition iops_limit_c := struct_c [required $"path" absolute_path_c; required $"rate" u64_c].
Definition weight_device_c := struct_c [required $"path" absolute_path_c; required $"weight" weight_c].
Definition blkio_config_ms : list member :=
  [many $"device_read_bps" (list_c bps_limit_c); many $"device_read_iops" (list_c iops_limit_c);
   many $"device_write_bps" (list_c bps_limit_c); many $"device_write_iops" (list_c iops_limit_c);
   optional $"weight" weight_c; many $"weight_device" (list_c weight_device_c)].
Definition blkio_config_c := struct_c blkio_config_ms.

(** [CredentialSpec], service/credential_spec.rs 18-116: exactly one of the three, checked by a hand-written visitor. *)
Inductive credential : Set := CredConfig (id : str) | CredFile (p : str) | CredRegistry (s : str).
Definition credential_ms : list member := [given $"config" identifier_c; given $"file" path_c; given $"registry" string_c].
Definition credential_write (c : credential) : vals credential_ms :=
  match c with
  | CredConfig i => (Some i, (None, (None, tt)))
  | CredFile p => (None, (Some p, (None, tt)))
  | CredRegistry s => (None, (None, (Some s, tt)))
  end.
Definition credential_read (v : vals credential_ms) : result de_error credential :=
  match v with
  | (Some i, (None, (None, _))) => Ok (CredConfig i)
  | (None, (Some p, (None, _))) => Ok (CredFile p)
  | (None, (None, (Some s, _))) => Ok (CredRegistry s)
  | _ => Err DeError
  end.
Definition credential_m : member :=
  group credential_ms credential_write credential_read (fun c => match c with CredConfig i => wf identifier_c i | _ => True end) (fun c => c).
Definition credential_spec_c := struct_ext_once_c [credential_m].

(** service/develop.rs 17-60. *)
Definition watch_rule_ms : list member :=
  [required $"action" action_c; many $"ignore" (list_c path_c); required $"path" path_c; optional $"target" absolute_path_c].
Definition watch_rule_c := struct_ext_c watch_rule_ms.
Definition develop_c := struct_c [many $"watch" (list_c watch_rule_c)].

(** service/env_file.rs 21-29 and 87-108. *)
Definition env_file_config_c := struct_c [required $"path" path_c; flag_true $"required"].
Definition env_file_c := item_or_list_c path_c (list_c (short_or_long_c path_c env_file_config_c)).

(** [Command], [DependsOn], [Dependency], [Extends], [Logging]: service.rs 843-897, 963-977, 1255-1275. *)
Definition command_c := item_or_list_c string_c (list_c string_c).
Definition dependency_c := struct_c [required $"condition" condition_c; flag $"restart"; flag_true $"required"].
Definition depends_on_c := short_or_long_c (sset identifier_c) (smap identifier_c dependency_c).
Definition depends_on_empty {A B : Type} (d : short_or_long (list A) (list B)) : bool := match d with Short l => is_nil l | Long m => is_nil m end.
Definition extends_c := struct_c [required $"service" identifier_c; optional $"file" path_c].
Definition logging_c := struct_ext_c [optional $"driver" string_c; many $"options" (smap map_key_c (option_c string_or_number_c))].
