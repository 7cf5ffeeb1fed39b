(** The [is_empty] functions of the structs that have one. No proofs in this file.
    ([VolumeOptions::is_empty] and [BindOptions::is_empty] are in [VolumesModel], [ListOrMap::is_empty] in [CommonCodec],
    [depends_on_is_empty] in [ServiceParts].) *)

From Coq Require Import String Ascii List NArith ZArith Bool.
Import ListNotations.
From Verif Require Import Base Num Coll VolumesModel Serde Codec ScalarCodec CommonCodec ServiceParts MountCodec HealthModel ComposeCodec.
Open Scope N_scope.

(** [!o.as_ref().is_some_and(|a| !a.is_empty())]. *)
Definition none_or {A : Type} (empty : A -> bool) (o : option A) : bool := negb (match o with Some a => negb (empty a) | None => false end).

(** network.rs 317-331, 270-282, 122-144. *)
Definition ipam_config_empty {w : externals} (v : vals (ipam_config_ms w) * extensions) : bool :=
  let '((subnet, (ip_range, (gateway, (aux_addresses, _)))), extensions) := v in
  is_none subnet && is_none ip_range && is_none gateway && is_nil aux_addresses && is_nil extensions.
Definition ipam_empty {w : externals} (v : vals (ipam_ms w) * extensions) : bool :=
  let '((driver, (config, (options, _))), extensions) := v in
  is_none driver && forallb ipam_config_empty config && is_nil options && is_nil extensions.
Definition network_empty {w : externals} (v : vals (network_ms w) * extensions) : bool :=
  let '((driver, (driver_opts, (attachable, (enable_ipv6, (ipam, (internal, (labels, (name, _)))))))), extensions) := v in
  is_none driver && is_nil driver_opts && negb attachable && negb enable_ipv6 && none_or ipam_empty ipam && negb internal
  && list_or_map_empty labels && is_none name && is_nil extensions.

(** volume.rs 70-84. *)
Definition top_volume_empty (v : vals top_volume_ms * extensions) : bool :=
  let '((driver, (driver_opts, (labels, (name, _)))), extensions) := v in
  is_none driver && is_nil driver_opts && list_or_map_empty labels && is_none name && is_nil extensions.

(** service/volumes/mount.rs 681-689. *)
Definition tmpfs_options_empty (o : tmpfs_options) : bool := is_none (to_size o) && is_none (to_mode o) && is_nil (to_extensions o).

(** service/deploy/resources.rs 120-129, 398-414, 668-676, 634-644, 190-204, 72-84. *)
Definition limits_empty {w : externals} (v : vals (limits_ms w) * extensions) : bool :=
  let '((cpus, (memory, (pids, _))), extensions) := v in is_none cpus && is_none memory && is_none pids && is_nil extensions.
Definition deploy_device_empty (v : vals deploy_device_ms * extensions) : bool :=
  let '((capabilities, (driver, (count, (device_ids, (options, _))))), extensions) := v in
  is_nil capabilities && is_none driver && is_none count && is_nil device_ids && list_or_map_empty options && is_nil extensions.
Definition discrete_resource_spec_empty (v : vals discrete_resource_spec_ms * extensions) : bool :=
  let '((kind, (value, _)), extensions) := v in is_none kind && is_none value && is_nil extensions.
Definition generic_resource_empty (v : vals generic_resource_ms * extensions) : bool :=
  let '((discrete_resource_spec, _), extensions) := v in none_or discrete_resource_spec_empty discrete_resource_spec && is_nil extensions.
Definition reservations_empty {w : externals} (v : vals (reservations_ms w) * extensions) : bool :=
  let '((cpus, (memory, (devices, (generic_resources, _)))), extensions) := v in
  is_none cpus && is_none memory && forallb deploy_device_empty devices && forallb generic_resource_empty generic_resources && is_nil extensions.
Definition resources_empty {w : externals} (v : vals (resources_ms w) * extensions) : bool :=
  let '((limits, (reservations, _)), extensions) := v in none_or limits_empty limits && none_or reservations_empty reservations && is_nil extensions.

(** service/deploy.rs 270-274, 238-250, 322-336, 441-459, 115-149. *)
Definition preference_empty (v : vals preference_ms * extensions) : bool :=
  let '((spread, _), extensions) := v in is_none spread && is_nil extensions.
Definition placement_empty (v : vals placement_ms * extensions) : bool :=
  let '((constraints, (preferences, (max_replicas_per_node, _))), extensions) := v in
  is_nil constraints && forallb preference_empty preferences && is_none max_replicas_per_node && is_nil extensions.
Definition restart_policy_empty (v : vals restart_policy_ms * extensions) : bool :=
  let '((condition, (delay, (max_attempts, (window, _)))), extensions) := v in
  is_none condition && is_none delay && is_none max_attempts && is_none window && is_nil extensions.
Definition update_config_empty (v : vals update_config_ms * extensions) : bool :=
  let '((parallelism, (delay, (failure_action, (monitor, (max_failure_ratio, (order, _)))))), extensions) := v in
  is_none parallelism && is_none delay && is_none failure_action && is_none monitor && is_none max_failure_ratio && is_none order && is_nil extensions.
Definition deploy_empty {w : externals} (v : vals (deploy_ms w) * extensions) : bool :=
  let '((endpoint_mode, (labels, (mode, (placement, (replicas, (resources, (restart_policy, (rollback_config, (update_config, _))))))))), extensions) := v in
  is_none endpoint_mode && list_or_map_empty labels && is_none mode && none_or placement_empty placement && is_none replicas
  && none_or resources_empty resources && none_or restart_policy_empty restart_policy && none_or update_config_empty rollback_config
  && none_or update_config_empty update_config && is_nil extensions.

(** service/blkio_config.rs 59-75. *)
Definition blkio_config_empty (v : vals blkio_config_ms) : bool :=
  let '(device_read_bps, (device_read_iops, (device_write_bps, (device_write_iops, (weight, (weight_device, _)))))) := v in
  is_nil device_read_bps && is_nil device_read_iops && is_nil device_write_bps && is_nil device_write_iops && is_none weight && is_nil weight_device.

(** service/network_config.rs 433-454; [priority] is tested twice. *)
Definition service_network_empty {w : externals} (v : vals (service_network_ms w) * extensions) : bool :=
  let '((aliases, (ipv4_address, (ipv6_address, (link_local_ips, (mac_address, (driver_opts, (priority, _))))))), extensions) := v in
  is_nil aliases && is_none ipv4_address && is_none ipv6_address && is_nil link_local_ips && is_none mac_address && is_nil driver_opts
  && is_none priority && is_none priority && is_nil extensions.

(** service/healthcheck.rs 354-373. *)
Definition health_command_empty (v : health_command) : bool :=
  let '((test, (interval, (timeout, (retries, (start_period, (start_interval, _)))))), extensions) := v in
  is_none test && is_none interval && is_none timeout && is_none retries && is_none start_period && is_none start_interval && is_nil extensions.

(** service.rs 1277-1285. *)
Definition logging_ms : list member := [optional $"driver" string_c; many $"options" (smap map_key_c (option_c string_or_number_c))].
Definition logging_empty (v : vals logging_ms * extensions) : bool :=
  let '((driver, (options, _)), extensions) := v in is_none driver && is_nil options && is_nil extensions.

(** service/build.rs 202-252. *)
Definition build_empty {w : externals} (v : vals (build_ms w) * extensions) : bool :=
  let '((context, (dockerfile, (args, (ssh, (cache_from, (cache_to, (additional_contexts, (entitlements, (extra_hosts, (isolation,
         (privileged, (labels, (no_cache, (pull, (network, (shm_size, (target, (secrets, (tags, (ulimits, (platforms, _)))))))))))))))))))))
       , extensions) := v in
  is_none context && is_none dockerfile && list_or_map_empty args && is_nil ssh && is_nil cache_from && is_nil cache_to
  && is_nil additional_contexts && is_nil entitlements && is_nil extra_hosts && is_none isolation && negb privileged
  && list_or_map_empty labels && negb no_cache && negb pull && is_none network && is_none shm_size && is_none target && is_nil secrets
  && is_nil tags && is_nil ulimits && is_nil platforms && is_nil extensions.
