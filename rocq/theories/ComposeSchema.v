(** The schema of compose files as the crate reads them: every field with the shape of its value. Written from the
    documentation of the fields; nothing here refers to the codecs. Where the crate is stricter or laxer than the Compose
    Specification, the schema follows the crate, see DESIGN.md section 5. *)

From Coq Require Import String Ascii List NArith ZArith Bool.
Import ListNotations.
From Verif Require Import Base Regex KeysSpec PlatformSpec ValuesSpec Serde Schema SchemaText ScalarCodec.
Open Scope N_scope.

(** ** Shapes used in many places *)

Definition U8 := integer 0 255.
Definition U16 := integer 0 65535.
Definition U32 := integer 0 4294967295.
Definition U64 := integer 0 18446744073709551615.
Definition PATH := any_text.
(** A number: what fits [u64] or [i64], or a float. *)
Definition NUMBER := either (integer (-9223372036854775808) 18446744073709551615) float.
Definition SCALAR := either any_text (either boolean NUMBER).
Definition TEXT_OR_NUMBER := either any_text NUMBER.
Definition OPTIONS := map_of MAP_KEY TEXT_OR_NUMBER.
Definition VALUES := map_of MAP_KEY (nullable SCALAR).
(** Any texts, or keys with values. *)
Definition LIST_OR_MAP := either (list_of any_text) VALUES.
Definition AMOUNT := either U64 (text BYTES).
(** -1 stands for no limit, and is also accepted as a text. *)
Definition or_unlimited (P : shape) := either (either (integer (-1) (-1)) (one_of [$"-1"])) P.
(** Microseconds, or a text with units. *)
Definition TIME := either U64 (text DURATION).
(** A float which is neither negative nor infinite nor not a number; also as a text. An integer is not accepted. *)
Definition finite (bits : N) : Prop := bits < 2047 * 2 ^ 52.
Definition FINITE (w : externals) : shape := fun v =>
  (exists b, v = VFloat b /\ finite b) \/ (exists s, v = VStr s /\ matches FLOAT_RE s /\ finite (w_float w s)).
Definition COMMAND := either any_text (list_of any_text).
Definition NETWORK_TEXT (w : externals) (s : str) : Prop := exists n, w_net w s = Some n.

(** ** Hosts and contexts *)

(** [HOST=ADDRESS] or [HOST:ADDRESS]; each item but the last with its host only needs a host with the form of a map key.
    An item which is repeated as a whole counts at its first position. *)
Definition until (delims : list char) (s key : str) : Prop :=
  (forall d, In d delims -> ~ In d key) /\ (s = key \/ exists d r, In d delims /\ s = key ++ d :: r).
Definition first_occurrences (l : list str) : list str := rev (nodup (list_eq_dec N.eq_dec) (rev l)).
Definition host_item (s : str) : Prop := exists host d a, s = host ++ d :: a /\ In d [ch "="; ch ":"] /\ HOSTNAME host /\ ADDRESS a.
Definition EXTRA_HOSTS_LIST : shape := fun v =>
  exists l, v = VSeq (map VStr l) /\ (forall s, In s l -> exists k, until [ch "="; ch ":"] s k /\ MAP_KEY k) /\
    forall before s after k, first_occurrences l = before ++ s :: after -> until [ch "="; ch ":"] s k ->
      (forall t, In t after -> ~ until [ch "="; ch ":"] t k) -> host_item s.
Definition EXTRA_HOSTS_MAP : shape := fun v =>
  VALUES v /\ exists es, v = VMap es /\
    forall before k x after, es = before ++ (VStr k, x) :: after -> ~ In (VStr k) (map fst after) -> HOSTNAME k /\ text ADDRESS x.
Definition EXTRA_HOSTS := either EXTRA_HOSTS_LIST EXTRA_HOSTS_MAP.

(** [KEY[=CONTEXT]]. *)
Definition ADDITIONAL_CONTEXTS := either (list_of (text (fun s => exists k, until [ch "="] s k /\ MAP_KEY k))) VALUES.

(** ** Services: build *)

Definition GRANT := object [req $"source" (text IDENTIFIER); maybe $"target" PATH; maybe $"uid" (text (UINT 4294967295)); maybe $"gid" (text (UINT 4294967295));
  maybe $"mode" U32] [].
Definition GRANTS := list_of (either (text IDENTIFIER) GRANT).
Definition ULIMIT_OBJECT := object [req $"soft" (or_unlimited U64); req $"hard" (or_unlimited U64)] [].
Definition ULIMITS := map_of ULIMIT (either (or_unlimited U64) ULIMIT_OBJECT).

Definition BUILD := object
  [maybe $"context" any_text; maybe $"dockerfile" PATH; maybe $"dockerfile_inline" any_text; opt $"args" LIST_OR_MAP; opt $"ssh" (list_of (text SSH));
   opt $"cache_from" (list_of (text CACHE)); opt $"cache_to" (list_of (text CACHE)); opt $"additional_contexts" ADDITIONAL_CONTEXTS;
   opt $"entitlements" (list_of any_text); opt $"extra_hosts" EXTRA_HOSTS; maybe $"isolation" any_text; opt $"privileged" boolean;
   opt $"labels" LIST_OR_MAP; opt $"no_cache" boolean; opt $"pull" boolean; maybe $"network" (text IDENTIFIER); maybe $"shm_size" AMOUNT;
   maybe $"target" any_text; opt $"secrets" GRANTS; opt $"tags" (list_of (text IMAGE)); opt $"ulimits" ULIMITS;
   opt $"platforms" (list_of (text PLATFORM))]
  [at_most_one [$"dockerfile"; $"dockerfile_inline"]].

(** ** Services: deploy *)

Definition LIMITS w := object [maybe $"cpus" (FINITE w); maybe $"memory" AMOUNT; maybe $"pids" (or_unlimited U32)] [].
Definition COUNT := either U64 (text (fun s => s = $"all" \/ UINT 18446744073709551615 s)).
Definition DEPLOY_DEVICE := object
  [req $"capabilities" (list_of any_text); maybe $"driver" any_text; maybe $"count" COUNT; opt $"device_ids" (list_of any_text); opt $"options" LIST_OR_MAP] [].
Definition DISCRETE := object [maybe $"kind" any_text; maybe $"value" U64] [].
Definition GENERIC := object [maybe $"discrete_resource_spec" DISCRETE] [].
Definition RESERVATIONS w := object
  [maybe $"cpus" (FINITE w); maybe $"memory" AMOUNT; opt $"devices" (list_of DEPLOY_DEVICE); opt $"generic_resources" (list_of GENERIC)] [].
Definition RESOURCES w := object [maybe $"limits" (LIMITS w); maybe $"reservations" (RESERVATIONS w)] [].
Definition PLACEMENT := object
  [opt $"constraints" (list_of any_text); opt $"preferences" (list_of (object [maybe $"spread" any_text] [])); maybe $"max_replicas_per_node" U64] [].
Definition RESTART_POLICY := object
  [maybe $"condition" (one_of [$"none"; $"on-failure"; $"any"]); opt $"delay" TIME; maybe $"max_attempts" U64; opt $"window" TIME] [].
Definition UPDATE_CONFIG := object
  [maybe $"parallelism" U64; opt $"delay" TIME; maybe $"failure_action" (one_of [$"continue"; $"pause"]); opt $"monitor" TIME;
   maybe $"max_failure_ratio" U64; maybe $"order" (one_of [$"stop-first"; $"start-first"])] [].
Definition DEPLOY w := object
  [maybe $"endpoint_mode" any_text; opt $"labels" LIST_OR_MAP; maybe $"mode" (one_of [$"global"; $"replicated"]); maybe $"placement" PLACEMENT;
   maybe $"replicas" U64; maybe $"resources" (RESOURCES w); maybe $"restart_policy" RESTART_POLICY; maybe $"rollback_config" UPDATE_CONFIG;
   maybe $"update_config" UPDATE_CONFIG] [].

(** ** Services: networks *)

Definition SERVICE_NETWORK := object
  [opt $"aliases" (list_of (text HOSTNAME)); maybe $"ipv4_address" (text IPV4); maybe $"ipv6_address" (text IPV6); opt $"link_local_ips" (list_of (text IP));
   maybe $"mac_address" (text MAC_ADDRESS); opt $"driver_opts" OPTIONS; maybe $"priority" U64] [].
Definition NETWORKS := either (list_of (text IDENTIFIER)) (map_of IDENTIFIER (nullable SERVICE_NETWORK)).

(** ** Services: healthcheck *)

Definition TEST : shape := fun v =>
  any_text v \/ (exists args, v = VSeq (map VStr ($"CMD" :: args))) \/ (exists s, v = VSeq [VStr $"CMD-SHELL"; VStr s]).
(** A healthcheck is disabled in one of three ways, or given without repeating a key. *)
Definition NO_HEALTHCHECK : shape := fun v =>
  v = VMap [(VStr $"disable", VBool true)] \/ v = VMap [(VStr $"test", VSeq [VStr $"NONE"])] \/
  v = VMap [(VStr $"disable", VBool false); (VStr $"test", VSeq [VStr $"NONE"])].
Definition HEALTHCHECK := either NO_HEALTHCHECK (object
  [opt $"disable" (fun v => v = VBool false); opt $"test" TEST; opt $"interval" TIME; opt $"timeout" TIME; opt $"retries" U64; opt $"start_period" TIME;
   opt $"start_interval" TIME]
  [no_repeats]).

(** ** Services: volumes and ports *)

(** One of the names, or a map of a name or a number to nothing. *)
Definition VARIANT (names : list str) : shape := fun v =>
  one_of names v \/ exists k u, v = VMap [(k, u)] /\ (u = VNull \/ u = VMap []) /\
    (one_of names k \/ exists i, k = VInt i /\ (0 <= i < Z.of_nat (List.length names))%Z).
Definition MOUNT_COMMON := [req $"target" (text ABSOLUTE_PATH); opt $"read_only" boolean; maybe $"consistency" any_text].
Definition mount_of (kind : str) (fields : list entry) : shape := object (req $"type" (one_of [kind]) :: fields ++ MOUNT_COMMON) [].
Definition MOUNT : shape := fun v =>
  mount_of $"volume" [maybe $"source" (text IDENTIFIER); maybe $"volume" (object [opt $"nocopy" boolean; maybe $"subpath" PATH] [])] v \/
  mount_of $"bind" [req $"source" (text HOST_PATH);
    maybe $"bind" (object
      [maybe $"propagation" (VARIANT [$"private"; $"shared"; $"slave"; $"unbindable"; $"rprivate"; $"rshared"; $"rslave"; $"runbindable"]);
       opt $"create_host_path" boolean; maybe $"selinux" (one_of [$"z"; $"Z"])] [])] v \/
  mount_of $"tmpfs" [maybe $"tmpfs" (object [maybe $"size" AMOUNT; maybe $"mode" U32] [])] v \/
  mount_of $"npipe" [req $"source" (text HOST_PATH)] v \/
  mount_of $"cluster" [req $"source" any_text] v.
Definition VOLUMES := list_of (either (text SHORT_VOLUME) MOUNT).

Definition PORT := object
  [maybe $"name" any_text; req $"target" U16; maybe $"published" (either U16 (text PORT_RANGE)); maybe $"host_ip" (text IP); maybe $"protocol" any_text;
   maybe $"app_protocol" any_text; maybe $"mode" (one_of [$"host"; $"ingress"])] [].
Definition PORTS w := list_of (either (either U16 (text (SHORT_PORT (w_checks w)))) PORT).

(** ** Services: others *)

Definition BPS := open_object [req $"path" (text ABSOLUTE_PATH); req $"rate" AMOUNT].
Definition IOPS := open_object [req $"path" (text ABSOLUTE_PATH); req $"rate" U64].
Definition WEIGHT := integer 10 1000.
Definition BLKIO := open_object
  [opt $"device_read_bps" (list_of BPS); opt $"device_read_iops" (list_of IOPS); opt $"device_write_bps" (list_of BPS); opt $"device_write_iops" (list_of IOPS);
   maybe $"weight" WEIGHT; opt $"weight_device" (list_of (open_object [req $"path" (text ABSOLUTE_PATH); req $"weight" WEIGHT]))].
Definition CREDENTIAL_SPEC := object [opt $"config" (text IDENTIFIER); opt $"file" PATH; opt $"registry" any_text]
  [exactly_one [$"config"; $"file"; $"registry"]; no_repeats].
Definition DEVELOP := open_object
  [opt $"watch" (list_of (object
     [req $"action" (one_of [$"rebuild"; $"sync"; $"sync+restart"]); opt $"ignore" (list_of PATH); req $"path" PATH; maybe $"target" (text ABSOLUTE_PATH)] []))].
Definition ENV_FILE := either PATH (list_of (either PATH (open_object [req $"path" PATH; opt $"required" boolean]))).
Definition DEPENDENCY := open_object
  [req $"condition" (one_of [$"service_started"; $"service_healthy"; $"service_completed_successfully"]); opt $"restart" boolean; opt $"required" boolean].
Definition DEPENDS_ON := either (list_of (text IDENTIFIER)) (map_of IDENTIFIER DEPENDENCY).
Definition EXTENDS := open_object [req $"service" (text IDENTIFIER); maybe $"file" PATH].
Definition LOGGING := object [maybe $"driver" any_text; opt $"options" (map_of MAP_KEY (nullable TEXT_OR_NUMBER))] [].
Definition PERCENT := integer 0 100.
Definition one_or_list (P : shape) := either P (list_of P).

Definition SERVICE (w : externals) : shape := object
  [opt $"attach" boolean; maybe $"build" (either any_text BUILD); maybe $"blkio_config" BLKIO; maybe $"cpu_count" U64; maybe $"cpu_percent" PERCENT;
   maybe $"cpu_shares" U64; maybe $"cpu_period" U64; maybe $"cpu_quota" U64; opt $"cpu_rt_runtime" TIME; opt $"cpu_rt_period" TIME; maybe $"cpus" (FINITE w);
   opt $"cpuset" (text CPUSET); opt $"cap_add" (list_of any_text); opt $"cap_drop" (list_of any_text); maybe $"cgroup" (one_of [$"host"; $"private"]);
   maybe $"cgroup_parent" any_text; maybe $"command" COMMAND; opt $"configs" GRANTS; maybe $"container_name" (text IDENTIFIER);
   maybe $"credential_spec" CREDENTIAL_SPEC; opt $"depends_on" DEPENDS_ON; maybe $"deploy" (DEPLOY w); maybe $"develop" DEVELOP;
   opt $"device_cgroup_rules" (list_of (text DEVICE_CGROUP_RULE)); opt $"devices" (list_of (text DEVICE)); maybe $"dns" (one_or_list (text IP));
   opt $"dns_opt" (list_of any_text); maybe $"dns_search" (one_or_list (text HOSTNAME)); maybe $"domainname" (text HOSTNAME); maybe $"entrypoint" COMMAND;
   maybe $"env_file" ENV_FILE; opt $"environment" LIST_OR_MAP; opt $"expose" (list_of (either U16 (text EXPOSE))); maybe $"extends" EXTENDS;
   opt $"annotations" LIST_OR_MAP; opt $"external_links" (list_of (text LINK)); opt $"extra_hosts" EXTRA_HOSTS;
   opt $"group_add" (list_of (either U32 (text ID_OR_NAME))); maybe $"healthcheck" HEALTHCHECK; maybe $"hostname" (text HOSTNAME); maybe $"image" (text IMAGE);
   opt $"init" boolean; maybe $"ipc" (text IPC); maybe $"uts" (one_of [$"host"]); maybe $"isolation" any_text; opt $"labels" LIST_OR_MAP;
   opt $"links" (list_of (text LINK)); maybe $"logging" LOGGING; maybe $"network_mode" (text NETWORK_MODE); maybe $"networks" NETWORKS;
   maybe $"mac_address" (text MAC_ADDRESS); maybe $"mem_limit" AMOUNT; maybe $"mem_reservation" AMOUNT; maybe $"mem_swappiness" PERCENT;
   maybe $"memswap_limit" (or_unlimited AMOUNT); opt $"oom_kill_disable" boolean; maybe $"oom_score_adj" (integer (-1000) 1000); maybe $"pid" any_text;
   maybe $"pids_limit" (or_unlimited U32); maybe $"platform" (text PLATFORM); opt $"ports" (PORTS w); opt $"privileged" boolean;
   opt $"profiles" (list_of (text IDENTIFIER)); maybe $"pull_policy" (one_of [$"always"; $"never"; $"missing"; $"if_not_present"; $"build"]);
   opt $"read_only" boolean; maybe $"restart" (one_of [$"no"; $"always"; $"on-failure"; $"unless-stopped"]); maybe $"runtime" any_text; maybe $"scale" U64;
   opt $"secrets" GRANTS; opt $"security_opt" (list_of any_text); maybe $"shm_size" AMOUNT; opt $"stdin_open" boolean; opt $"stop_grace_period" TIME;
   maybe $"stop_signal" any_text; opt $"storage_opt" VALUES; opt $"sysctls" LIST_OR_MAP; maybe $"tmpfs" (one_or_list (text ABSOLUTE_PATH)); opt $"tty" boolean;
   opt $"ulimits" ULIMITS; maybe $"user" (text USER); maybe $"userns_mode" any_text; opt $"volumes" VOLUMES; opt $"volumes_from" (list_of (text VOLUMES_FROM));
   maybe $"working_dir" (text ABSOLUTE_PATH)]
  [at_most_one [$"network_mode"; $"networks"]].

(** ** Networks, volumes, configs, secrets *)

(** With [external: true] there may only be a name besides it. Otherwise the entries other than [external] have a shape.
    A key given twice counts once, with its last value. *)
Definition last_value (k : str) (es : list (sval * sval)) : option sval := hd_error (rev (values_of k es)).
Definition settled (es m : list (sval * sval)) : Prop :=
  NoDup (map fst m) /\ forall k v, In (k, v) m <-> exists s, k = VStr s /\ s <> $"external" /\ last_value s es = Some v.
Definition or_external (P : shape) : shape := fun v =>
  exists es, v = VMap es /\ (forall k x, In (k, x) es -> (exists s, k = VStr s) /\ yaml x) /\
    ((last_value $"external" es = Some (VBool true) /\ (forall k, In k (map fst es) -> k = VStr $"external" \/ k = VStr $"name") /\
      (forall n, last_value $"name" es = Some n -> any_text n)) \/
     ((forall x, last_value $"external" es = Some x -> x = VBool false) /\ exists m, settled es m /\ P (VMap m))).

Definition IPAM_CONFIG w := object
  [maybe $"subnet" (text (NETWORK_TEXT w)); maybe $"ip_range" (text (NETWORK_TEXT w)); maybe $"gateway" (text IP); opt $"aux_addresses" (map_of HOSTNAME (text IP))] [].
Definition IPAM w := object [maybe $"driver" any_text; opt $"config" (list_of (IPAM_CONFIG w)); opt $"options" (map_of MAP_KEY any_text)] [].
Definition NETWORK w := object
  [maybe $"driver" any_text; opt $"driver_opts" OPTIONS; opt $"attachable" boolean; opt $"enable_ipv6" boolean; maybe $"ipam" (IPAM w); opt $"internal" boolean;
   opt $"labels" LIST_OR_MAP; maybe $"name" any_text] [].
Definition VOLUME := object [maybe $"driver" any_text; opt $"driver_opts" OPTIONS; opt $"labels" LIST_OR_MAP; maybe $"name" any_text] [].
Definition CONFIG := object [maybe $"file" PATH; maybe $"environment" any_text; maybe $"content" any_text; opt $"labels" LIST_OR_MAP]
  [exactly_one [$"file"; $"environment"; $"content"]].
Definition SECRET := object
  [maybe $"file" PATH; maybe $"environment" any_text; opt $"labels" LIST_OR_MAP; maybe $"driver" any_text; opt $"driver_opts" OPTIONS]
  [exactly_one [$"file"; $"environment"]].

(** ** Compose files *)

Definition INCLUDE := open_object [req $"path" (one_or_list PATH); maybe $"project_directory" any_text; maybe $"env_file" (one_or_list PATH)].
Definition COMPOSE (w : externals) : shape := object
  [maybe $"version" any_text; maybe $"name" (text PROJECT_NAME); opt $"include" (list_of (either PATH INCLUDE)); req $"services" (map_of IDENTIFIER (SERVICE w));
   opt $"networks" (map_of IDENTIFIER (nullable (or_external (NETWORK w)))); opt $"volumes" (map_of IDENTIFIER (nullable (or_external VOLUME)));
   opt $"configs" (map_of IDENTIFIER (or_external CONFIG)); opt $"secrets" (map_of IDENTIFIER (or_external SECRET))] [].
