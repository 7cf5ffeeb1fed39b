(** [Service], src/service.rs 81-682, as a codec. No proofs in this file. *)

From Coq Require Import String Ascii List NArith ZArith Bool.
Import ListNotations.
From Verif Require Import Base Num Coll VolumesModel TextModel EqModel Serde Codec EnumModel ScalarCodec CommonCodec ServiceParts MountCodec HealthModel.
Open Scope N_scope.

(** Fields whose empty value is not written, in ways of their own: [CpuSet::is_empty], 177, and [depends_on_is_empty], 238 and 953-958. *)
Definition cpuset_field (name : str) (w : externals) : member := field name (cpuset_c w) (Some []) is_nil.
Definition depends_on_field (name : str) : member := field name depends_on_c (Some (Short [])) depends_on_empty.

(** The fields in the order of the declaration. *)
Definition service_ms (w : externals) : list member :=
  [flag_true $"attach"; optional $"build" (short_or_long_c (context_c w) (build_c w)); optional $"blkio_config" blkio_config_c;
   optional $"cpu_count" u64_c; optional $"cpu_percent" percent_c; optional $"cpu_shares" u64_c;
   optional $"cpu_period" duration_us_c; optional $"cpu_quota" duration_us_c; given $"cpu_rt_runtime" duration_c; given $"cpu_rt_period" duration_c;
   optional $"cpus" (cpus_c w); cpuset_field $"cpuset" w; many $"cap_add" (sset string_c); many $"cap_drop" (sset string_c);
   optional $"cgroup" cgroup_c; optional $"cgroup_parent" string_c; optional $"command" command_c; many $"configs" grants_c;
   optional $"container_name" identifier_c; optional $"credential_spec" credential_spec_c; depends_on_field $"depends_on";
   optional $"deploy" (deploy_c w); optional $"develop" develop_c; many $"device_cgroup_rules" (iset_c cgroup_rule_eqb cgroup_rule_c);
   many $"devices" (iset_c device_eqb device_c); optional $"dns" (item_or_list_c (ip_c w) (iset_c ip_eqb (ip_c w)));
   many $"dns_opt" (sset string_c); optional $"dns_search" (item_or_list_c hostname_c (sset hostname_c)); optional $"domainname" hostname_c;
   optional $"entrypoint" command_c; optional $"env_file" env_file_c; list_or_map_field $"environment"; many $"expose" (iset_c expose_eqb expose_c);
   optional $"extends" extends_c; list_or_map_field $"annotations"; many $"external_links" (iset_c link_eqb link_c);
   many $"extra_hosts" (extra_hosts_c w); many $"group_add" (iset_c id_or_name_eqb id_or_name_c); optional $"healthcheck" healthcheck_c;
   optional $"hostname" hostname_c; optional $"image" image_c; flag $"init"; optional $"ipc" ipc_c; optional $"uts" uts_c;
   optional $"isolation" string_c; list_or_map_field $"labels"; many $"links" (iset_c link_eqb link_c); optional $"logging" logging_c;
   network_config_m w; optional $"mac_address" mac_c; optional $"mem_limit" byte_value_c; optional $"mem_reservation" byte_value_c;
   optional $"mem_swappiness" percent_c; optional $"memswap_limit" (limit_c byte_value_c); flag $"oom_kill_disable";
   optional $"oom_score_adj" oom_score_adj_c; optional $"pid" string_c; optional $"pids_limit" (limit_c u32_c); optional $"platform" platform_c;
   many $"ports" (ports_c w); flag $"privileged"; many $"profiles" (sset identifier_c); optional $"pull_policy" pull_policy_c;
   flag $"read_only"; optional $"restart" restart_c; optional $"runtime" string_c; optional $"scale" u64_c; many $"secrets" grants_c;
   many $"security_opt" (sset string_c); optional $"shm_size" byte_value_c; flag $"stdin_open"; given $"stop_grace_period" duration_c;
   optional $"stop_signal" string_c; many $"storage_opt" vmap_c; list_or_map_field $"sysctls";
   optional $"tmpfs" (item_or_list_c absolute_path_c (iset_c path_eqb absolute_path_c)); flag $"tty"; many $"ulimits" ulimits_c;
   optional $"user" user_c; optional $"userns_mode" string_c; many $"volumes" (volumes_c w);
   many $"volumes_from" (iset_c volumes_from_eqb volumes_from_c); optional $"working_dir" absolute_path_c].
Definition service (w : externals) : Set := vals (service_ms w) * extensions.
Definition service_c (w : externals) : codec (service w) := struct_ext_c (service_ms w).

(** The value of the member with number [n]. *)
Fixpoint nth_type (n : nat) (ms : list member) {struct ms} : Set :=
  match ms with [] => unit | m :: r => match n with O => m_type m | S n => nth_type n r end end.
Fixpoint nth_val (n : nat) (ms : list member) {struct ms} : vals ms -> nth_type n ms :=
  match ms return vals ms -> nth_type n ms with
  | [] => fun _ => tt
  | m :: r => match n return vals (m :: r) -> nth_type n (m :: r) with O => fun v => fst v | S n => fun v => nth_val n r (snd v) end
  end.
