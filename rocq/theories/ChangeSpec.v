(** Changes to a document which do not change what it means: writing a default, and putting entries in another order. *)

From Coq Require Import String Ascii List NArith ZArith Bool Permutation.
Import ListNotations.
From Verif Require Import Base Serde PanicSpec.
Open Scope N_scope.

(** ** A change at one place *)

Definition relation := sval -> sval -> Prop.
Definition under_key (k : str) (R : relation) : relation := fun v v' =>
  exists l y y' r, v = VMap (l ++ (VStr k, y) :: r) /\ v' = VMap (l ++ (VStr k, y') :: r) /\ R y y'.
Definition under_any_key (R : relation) : relation := fun v v' =>
  exists l k y y' r, v = VMap (l ++ (k, y) :: r) /\ v' = VMap (l ++ (k, y') :: r) /\ R y y'.
Definition under_item (R : relation) : relation := fun v v' =>
  exists l y y' r, v = VSeq (l ++ y :: r) /\ v' = VSeq (l ++ y' :: r) /\ R y y'.
(** [v'] is [v] except that one value reached by the steps is changed as [R] says. *)
Fixpoint changed (p : list step) (R : relation) : relation :=
  match p with
  | [] => R
  | Key k :: p => under_key k (changed p R)
  | AnyKey :: p => under_any_key (changed p R)
  | AnyItem :: p => under_item (changed p R)
  end.

(** ** The changes *)

(** An entry is added anywhere. Its key was not there. *)
Definition adds (k : str) (x : sval) : relation := fun v v' =>
  exists l r, v = VMap (l ++ r) /\ v' = VMap (l ++ (VStr k, x) :: r) /\ ~ In (VStr k) (map fst (l ++ r)).
(** The same in the description of something which is not external. *)
Definition adds_managed (k : str) (x : sval) : relation := fun v v' =>
  adds k x v v' /\ forall es, v = VMap es -> ~ In (VStr $"external", VBool true) es.

(** The entries are put in another order. The extensions, whose order is kept by the crate, are not moved past each other. *)
Definition extension_entry (e : sval * sval) : bool := match fst e with VStr (120 :: 45 :: _) => true | _ => false end.
Definition reorders : relation := fun v v' =>
  exists es es', v = VMap es /\ v' = VMap es' /\ Permutation es es' /\ filter extension_entry es = filter extension_entry es'.

(** ** The objects of a compose file, each with the values that may be left out *)

Definition all (x : sval) (ks : list str) : list (str * sval) := map (fun k => (k, x)) ks.
Definition nulls := all VNull.
Definition off := all (VBool false).
Definition on := all (VBool true).
Definition lists := all (VSeq []).
Definition maps := all (VMap []).

Definition FILE := nulls [$"version"; $"name"] ++ lists [$"include"] ++ maps [$"networks"; $"volumes"; $"configs"; $"secrets"].
Definition INCLUDES := nulls [$"project_directory"; $"env_file"].
Definition SERVICES :=
  on [$"attach"] ++ off [$"init"; $"oom_kill_disable"; $"privileged"; $"read_only"; $"stdin_open"; $"tty"] ++ [($"cpuset", VStr [])] ++
  nulls [$"build"; $"blkio_config"; $"cpu_count"; $"cpu_percent"; $"cpu_shares"; $"cpu_period"; $"cpu_quota"; $"cpus"; $"cgroup"; $"cgroup_parent"; $"command";
    $"container_name"; $"credential_spec"; $"deploy"; $"develop"; $"dns"; $"dns_search"; $"domainname"; $"entrypoint"; $"env_file"; $"extends"; $"healthcheck";
    $"hostname"; $"image"; $"ipc"; $"uts"; $"isolation"; $"logging"; $"network_mode"; $"networks"; $"mac_address"; $"mem_limit"; $"mem_reservation";
    $"mem_swappiness"; $"memswap_limit"; $"oom_score_adj"; $"pid"; $"pids_limit"; $"platform"; $"pull_policy"; $"restart"; $"runtime"; $"scale"; $"shm_size";
    $"stop_signal"; $"tmpfs"; $"user"; $"userns_mode"; $"working_dir"] ++
  lists [$"cap_add"; $"cap_drop"; $"configs"; $"depends_on"; $"device_cgroup_rules"; $"devices"; $"dns_opt"; $"environment"; $"expose"; $"annotations";
    $"external_links"; $"extra_hosts"; $"group_add"; $"labels"; $"links"; $"ports"; $"profiles"; $"secrets"; $"security_opt"; $"sysctls"; $"volumes"; $"volumes_from"] ++
  maps [$"extra_hosts"; $"storage_opt"; $"ulimits"].
Definition BUILDS :=
  off [$"privileged"; $"no_cache"; $"pull"] ++
  nulls [$"context"; $"dockerfile"; $"dockerfile_inline"; $"isolation"; $"network"; $"shm_size"; $"target"] ++
  lists [$"args"; $"ssh"; $"cache_from"; $"cache_to"; $"additional_contexts"; $"entitlements"; $"extra_hosts"; $"labels"; $"secrets"; $"tags"; $"platforms"] ++
  maps [$"additional_contexts"; $"extra_hosts"; $"ulimits"].
Definition GRANTED := nulls [$"target"; $"uid"; $"gid"; $"mode"].
Definition BLOCK_IO :=
  nulls [$"weight"] ++ lists [$"device_read_bps"; $"device_read_iops"; $"device_write_bps"; $"device_write_iops"; $"weight_device"].
Definition DEPENDENCIES := off [$"restart"] ++ on [$"required"].
Definition DEPLOYS :=
  nulls [$"endpoint_mode"; $"mode"; $"placement"; $"replicas"; $"resources"; $"restart_policy"; $"rollback_config"; $"update_config"] ++ lists [$"labels"].
Definition PLACEMENTS := nulls [$"max_replicas_per_node"] ++ lists [$"constraints"; $"preferences"].
Definition RESERVED := nulls [$"cpus"; $"memory"] ++ lists [$"devices"; $"generic_resources"].
Definition RESERVED_DEVICES := nulls [$"driver"; $"count"] ++ lists [$"device_ids"; $"options"].
Definition UPDATES := nulls [$"parallelism"; $"failure_action"; $"max_failure_ratio"; $"order"].
Definition JOINED_NETWORKS :=
  nulls [$"ipv4_address"; $"ipv6_address"; $"mac_address"; $"priority"] ++ lists [$"aliases"; $"link_local_ips"] ++ maps [$"driver_opts"].
Definition LONG_PORTS := nulls [$"name"; $"published"; $"host_ip"; $"protocol"; $"app_protocol"; $"mode"].
Definition NETWORK_DEFAULTS :=
  nulls [$"driver"; $"ipam"; $"name"] ++ off [$"external"; $"attachable"; $"enable_ipv6"; $"internal"] ++ lists [$"labels"] ++ maps [$"driver_opts"].
Definition VOLUME_DEFAULTS := nulls [$"driver"; $"name"] ++ off [$"external"] ++ lists [$"labels"] ++ maps [$"driver_opts"].
Definition CONFIG_DEFAULTS := nulls [$"file"; $"environment"; $"content"] ++ off [$"external"] ++ lists [$"labels"].
Definition SECRET_DEFAULTS := nulls [$"file"; $"environment"; $"driver"] ++ off [$"external"] ++ lists [$"labels"] ++ maps [$"driver_opts"].

Definition service (p : list step) : list step := Key $"services" :: AnyKey :: p.
Definition deploy (p : list step) : list step := service (Key $"deploy" :: p).
(** The long forms of networks, ports, ... are objects; a short form in their place is not changed. *)
Definition objects : list (list step * list (str * sval)) :=
  [([], FILE); ([Key $"include"; AnyItem], INCLUDES);
   (service [], SERVICES);
   (service [Key $"build"], BUILDS);
   (service [Key $"build"; Key $"secrets"; AnyItem], GRANTED); (service [Key $"build"; Key $"ulimits"; AnyKey], []);
   (service [Key $"blkio_config"], BLOCK_IO);
   (service [Key $"blkio_config"; Key $"device_read_bps"; AnyItem], []); (service [Key $"blkio_config"; Key $"device_read_iops"; AnyItem], []);
   (service [Key $"blkio_config"; Key $"device_write_bps"; AnyItem], []); (service [Key $"blkio_config"; Key $"device_write_iops"; AnyItem], []);
   (service [Key $"blkio_config"; Key $"weight_device"; AnyItem], []);
   (service [Key $"configs"; AnyItem], GRANTED); (service [Key $"secrets"; AnyItem], GRANTED);
   (service [Key $"credential_spec"], []);
   (service [Key $"depends_on"; AnyKey], DEPENDENCIES);
   (deploy [], DEPLOYS);
   (deploy [Key $"placement"], PLACEMENTS); (deploy [Key $"placement"; Key $"preferences"; AnyItem], nulls [$"spread"]);
   (deploy [Key $"resources"], nulls [$"limits"; $"reservations"]);
   (deploy [Key $"resources"; Key $"limits"], nulls [$"cpus"; $"memory"; $"pids"]);
   (deploy [Key $"resources"; Key $"reservations"], RESERVED);
   (deploy [Key $"resources"; Key $"reservations"; Key $"devices"; AnyItem], RESERVED_DEVICES);
   (deploy [Key $"resources"; Key $"reservations"; Key $"generic_resources"; AnyItem], nulls [$"discrete_resource_spec"]);
   (deploy [Key $"resources"; Key $"reservations"; Key $"generic_resources"; AnyItem; Key $"discrete_resource_spec"], nulls [$"kind"; $"value"]);
   (deploy [Key $"restart_policy"], nulls [$"condition"; $"max_attempts"]);
   (deploy [Key $"update_config"], UPDATES); (deploy [Key $"rollback_config"], UPDATES);
   (service [Key $"develop"], lists [$"watch"]); (service [Key $"develop"; Key $"watch"; AnyItem], nulls [$"target"] ++ lists [$"ignore"]);
   (service [Key $"env_file"; AnyItem], on [$"required"]);
   (service [Key $"extends"], nulls [$"file"]);
   (service [Key $"logging"], nulls [$"driver"] ++ maps [$"options"]);
   (service [Key $"networks"; AnyKey], JOINED_NETWORKS);
   (service [Key $"ports"; AnyItem], LONG_PORTS);
   (service [Key $"ulimits"; AnyKey], []);
   (service [Key $"volumes"; AnyItem], nulls [$"consistency"] ++ off [$"read_only"]);
   (service [Key $"volumes"; AnyItem; Key $"volume"], nulls [$"subpath"] ++ off [$"nocopy"]);
   (service [Key $"volumes"; AnyItem; Key $"bind"], nulls [$"propagation"; $"selinux"] ++ off [$"create_host_path"]);
   (service [Key $"volumes"; AnyItem; Key $"tmpfs"], nulls [$"size"; $"mode"]);
   ([Key $"networks"; AnyKey; Key $"ipam"], nulls [$"driver"] ++ lists [$"config"] ++ maps [$"options"]);
   ([Key $"networks"; AnyKey; Key $"ipam"; Key $"config"; AnyItem], nulls [$"subnet"; $"ip_range"; $"gateway"] ++ maps [$"aux_addresses"])].
(** Networks, volumes, configs and secrets may be external, and then their defaults may not be written. *)
Definition managed_objects : list (list step * list (str * sval)) :=
  [([Key $"networks"; AnyKey], NETWORK_DEFAULTS); ([Key $"volumes"; AnyKey], VOLUME_DEFAULTS); ([Key $"configs"; AnyKey], CONFIG_DEFAULTS);
   ([Key $"secrets"; AnyKey], SECRET_DEFAULTS)].

(** A healthcheck with [test: [NONE]] is disabled, whatever [disable] says: [disable: false] before it is accepted, after it is an error. *)
Definition none_test : sval * sval := (VStr $"test", VSeq [VStr $"NONE"]).
Definition healthcheck : list step := service [Key $"healthcheck"].
Definition adds_enabled : relation := fun v v' =>
  adds $"disable" (VBool false) v v' /\ forall es, v = VMap es -> ~ In none_test es.
Definition reorders_healthcheck : relation := fun v v' =>
  reorders v v' /\ forall es, v = VMap es -> ~ Permutation es [(VStr $"disable", VBool false); none_test].

(** One change, of either kind. *)
Definition writes_default : relation := fun v v' =>
  (exists p ds k x, In (p, ds) objects /\ In (k, x) ds /\ changed p (adds k x) v v') \/
  (exists p ds k x, In (p, ds) managed_objects /\ In (k, x) ds /\ changed p (adds_managed k x) v v') \/
  changed healthcheck adds_enabled v v'.
Definition reorders_entries : relation := fun v v' =>
  (exists p ds, In (p, ds) (objects ++ managed_objects) /\ changed p reorders v v') \/
  changed healthcheck reorders_healthcheck v v'.
(** Any number of changes, forwards or backwards, to documents in which no key is repeated. *)
Inductive same_file (unique : sval -> Prop) : relation :=
| same_refl : forall v, same_file unique v v
| same_sym : forall v v', same_file unique v v' -> same_file unique v' v
| same_trans : forall v v' v'', same_file unique v v' -> same_file unique v' v'' -> same_file unique v v''
| same_default : forall v v', unique v -> writes_default v v' -> same_file unique v v'
| same_order : forall v v', unique v -> reorders_entries v v' -> same_file unique v v'.
