(** The names of the entries from which each field is read, from the declarations and their [rename] attributes: one for a field, and
    the names of the parts for a flattened one. *)

From Coq Require Import String Ascii List NArith Bool.
Import ListNotations.
From Verif Require Import Base Serde Schema.
Open Scope N_scope.

(** [Compose], lib.rs 168-224. *)
Definition compose_names : list (list str) :=
  [[$"version"]; [$"name"]; [$"include"]; [$"services"]; [$"networks"]; [$"volumes"]; [$"configs"]; [$"secrets"]].

(** [Service], service.rs 81-682. *)
Definition service_names : list (list str) :=
  [[$"attach"]; [$"build"]; [$"blkio_config"]; [$"cpu_count"]; [$"cpu_percent"]; [$"cpu_shares"]; [$"cpu_period"];
   [$"cpu_quota"]; [$"cpu_rt_runtime"]; [$"cpu_rt_period"]; [$"cpus"]; [$"cpuset"]; [$"cap_add"]; [$"cap_drop"]; [$"cgroup"];
   [$"cgroup_parent"]; [$"command"]; [$"configs"]; [$"container_name"]; [$"credential_spec"]; [$"depends_on"]; [$"deploy"];
   [$"develop"]; [$"device_cgroup_rules"]; [$"devices"]; [$"dns"]; [$"dns_opt"]; [$"dns_search"]; [$"domainname"];
   [$"entrypoint"]; [$"env_file"]; [$"environment"]; [$"expose"]; [$"extends"]; [$"annotations"]; [$"external_links"];
   [$"extra_hosts"]; [$"group_add"]; [$"healthcheck"]; [$"hostname"]; [$"image"]; [$"init"]; [$"ipc"]; [$"uts"];
   [$"isolation"]; [$"labels"]; [$"links"]; [$"logging"]; [$"network_mode"; $"networks"]; [$"mac_address"]; [$"mem_limit"];
   [$"mem_reservation"]; [$"mem_swappiness"]; [$"memswap_limit"]; [$"oom_kill_disable"]; [$"oom_score_adj"]; [$"pid"];
   [$"pids_limit"]; [$"platform"]; [$"ports"]; [$"privileged"]; [$"profiles"]; [$"pull_policy"]; [$"read_only"]; [$"restart"];
   [$"runtime"]; [$"scale"]; [$"secrets"]; [$"security_opt"]; [$"shm_size"]; [$"stdin_open"]; [$"stop_grace_period"];
   [$"stop_signal"]; [$"storage_opt"]; [$"sysctls"]; [$"tmpfs"]; [$"tty"]; [$"ulimits"]; [$"user"]; [$"userns_mode"];
   [$"volumes"]; [$"volumes_from"]; [$"working_dir"]].

(** [Build], service/build.rs 31-197. *)
Definition build_names : list (list str) :=
  [[$"context"]; [$"dockerfile"; $"dockerfile_inline"]; [$"args"]; [$"ssh"]; [$"cache_from"]; [$"cache_to"];
   [$"additional_contexts"]; [$"entitlements"]; [$"extra_hosts"]; [$"isolation"]; [$"privileged"]; [$"labels"]; [$"no_cache"];
   [$"pull"]; [$"network"]; [$"shm_size"]; [$"target"]; [$"secrets"]; [$"tags"]; [$"ulimits"]; [$"platforms"]].

(** [Deploy], service/deploy.rs 25-89. *)
Definition deploy_names : list (list str) :=
  [[$"endpoint_mode"]; [$"labels"]; [$"mode"]; [$"placement"]; [$"replicas"]; [$"resources"]; [$"restart_policy"];
   [$"rollback_config"]; [$"update_config"]].

(** Two documents have the same entries for these names. *)
Definition same_entries (names : list str) (es es' : list (sval * sval)) : Prop := forall n, In n names -> values_of n es = values_of n es'.
(** They have the same entries with other keys, in the same order. *)
Definition other (names : list str) (e : sval * sval) : bool := negb (existsb (fun n => key_is n (fst e)) names).
Definition same_others (names : list str) (es es' : list (sval * sval)) : Prop := filter (other names) es = filter (other names) es'.
