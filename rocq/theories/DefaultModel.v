(** [Default] of the structs, written from their types: [None], [false], the empty collection, and for [ListOrMap] the empty list
    (common.rs 278-282). [Service] and [Dependency] derive [compose_spec_macros::Default] (compose_spec_macros/src/default.rs 22-117), which
    takes the value of [#[default = ...]] where there is one. No proofs in this file. *)

From Coq Require Import String Ascii List NArith ZArith Bool.
Import ListNotations.
From Verif Require Import Base Num Coll ValuesModel PortsModel VolumesModel TextModel Serde Codec ScalarCodec EnumModel CommonCodec ServiceParts MountCodec HealthModel ServiceCodec ComposeCodec.
Open Scope N_scope.

(** [Build], service/build.rs 31-197. *)
Definition build_default (w : externals) : vals (build_ms w) * extensions :=
  ((None, (None, (LList [], ([], ([], ([], ([], ([], ([], (None, (false, (LList [], (false, (false, (None, (None, (None,
   ([], ([], ([], ([], tt))))))))))))))))))))), []).
(** [Limits], service/deploy/resources.rs 91-115. *)
Definition limits_default (w : externals) : vals (limits_ms w) * extensions :=
  ((None, (None, (None, tt))), []).
(** [Device], service/deploy/resources.rs 338-377. *)
Definition deploy_device_default : vals deploy_device_ms * extensions :=
  (([], (None, (None, ([], (LList [], tt))))), []).
(** [DiscreteResourceSpec], service/deploy/resources.rs 649-663. *)
Definition discrete_resource_spec_default : vals discrete_resource_spec_ms * extensions :=
  ((None, (None, tt)), []).
(** [GenericResource], service/deploy/resources.rs 598-608. *)
Definition generic_resource_default : vals generic_resource_ms * extensions :=
  ((None, tt), []).
(** [Reservations], service/deploy/resources.rs 136-164. *)
Definition reservations_default (w : externals) : vals (reservations_ms w) * extensions :=
  ((None, (None, ([], ([], tt)))), []).
(** [Resources], service/deploy/resources.rs 30-44. *)
Definition resources_default (w : externals) : vals (resources_ms w) * extensions :=
  ((None, (None, tt)), []).
(** [Preference], service/deploy.rs 255-265. *)
Definition preference_default : vals preference_ms * extensions :=
  ((None, tt), []).
(** [Placement], service/deploy.rs 194-212. *)
Definition placement_default : vals placement_ms * extensions :=
  (([], ([], (None, tt))), []).
(** [RestartPolicy], service/deploy.rs 281-317. *)
Definition restart_policy_default : vals restart_policy_ms * extensions :=
  ((None, (None, (None, (None, tt)))), []).
(** [UpdateOrRollbackConfig], service/deploy.rs 396-436. *)
Definition update_config_default : vals update_config_ms * extensions :=
  ((None, (None, (None, (None, (None, (None, tt)))))), []).
(** [Deploy], service/deploy.rs 25-89. *)
Definition deploy_default (w : externals) : vals (deploy_ms w) * extensions :=
  ((None, (LList [], (None, (None, (None, (None, (None, (None, (None, tt))))))))), []).
(** [Network], service/network_config.rs 370-428. *)
Definition service_network_default (w : externals) : vals (service_network_ms w) * extensions :=
  (([], (None, (None, ([], (None, ([], (None, tt))))))), []).
(** [BlkioConfig], service/blkio_config.rs 18-54. *)
Definition blkio_config_default : vals blkio_config_ms :=
  ([], ([], ([], ([], (None, ([], tt)))))).
(** [Service], service.rs 81-682. *)
Definition service_default (w : externals) : vals (service_ms w) * extensions :=
  ((true, (None, (None, (None, (None, (None, (None, (None, (None, (None, (None, ([], ([], ([], (None, (None, (None, ([],
   (None, (None, (Short [], (None, (None, ([], ([], (None, ([], (None, (None, (None, (None, (LList [], ([], (None,
   (LList [], ([], ([], ([], (None, (None, (None, (false, (None, (None, (None, (LList [], ([], (None, (None, (None, (None,
   (None, (None, (None, (false, (None, (None, (None, (None, ([], (false, ([], (None, (false, (None, (None, (None, ([],
   ([], (None, (false, (None, (None, ([], (LList [], (None, (false, ([], (None, (None, ([], ([], (None,
   tt))))))))))))))))))))))))))))))))))))))))))))))))))))))))))))))))))))))))))))))))))), []).
(** [IpamConfig], network.rs 289-312. *)
Definition ipam_config_default (w : externals) : vals (ipam_config_ms w) * extensions :=
  ((None, (None, (None, ([], tt)))), []).
(** [Ipam], network.rs 226-244. *)
Definition ipam_default (w : externals) : vals (ipam_ms w) * extensions :=
  ((None, ([], ([], tt))), []).
(** [Network], network.rs 42-97. *)
Definition network_default (w : externals) : vals (network_ms w) * extensions :=
  ((None, ([], (false, (false, (None, (false, (LList [], (None, tt)))))))), []).
(** [Volume], volume.rs 33-65. *)
Definition top_volume_default : vals top_volume_ms * extensions :=
  ((None, ([], (LList [], (None, tt)))), []).
(** [Compose], lib.rs 168-224. *)
Definition compose_default (w : externals) : vals (compose_ms w) * extensions :=
  ((None, (None, ([], ([], ([], ([], ([], ([], tt)))))))), []).

(** [VolumeOptions], [BindOptions] and [TmpfsOptions], service/volumes/mount.rs 310-325, 453-474 and 657-676. *)
Definition volume_options_default : volume_options := mk_volume_options false None [].
Definition bind_options_default : bind_options := mk_bind_options None false None [].
Definition tmpfs_options_default : tmpfs_options := mk_tmpfs_options None None [].
(** [Healthcheck], service/healthcheck.rs 29-33, and [Command], 292-349. *)
Definition healthcheck_default : healthcheck := HcCommand ((None, (None, (None, (None, (None, (None, tt)))))), []).
(** [Dependency], service.rs 880-897, with [Condition], 902-908, and [depends_on], whose default is the short form
    (common/short_or_long.rs 54-61). *)
Definition dependency_default : condition * (bool * (bool * unit)) := (ServiceStarted, (false, (true, tt))).
(** [Logging], service.rs 1255-1275; [Develop], service/develop.rs 17-24. *)
Definition logging_default : (option str * (list (str * option string_or_number) * unit)) * extensions := ((None, ([], tt)), []).
Definition develop_default : list (vals watch_rule_ms * extensions) * unit := ([], tt).
