(** A whole compose file as a codec: src/lib.rs, include.rs, network.rs, volume.rs, config.rs, secret.rs. No proofs in this file. *)

From Coq Require Import String Ascii List NArith ZArith Bool.
Import ListNotations.
From Verif Require Import Base Num Coll VolumesModel TextModel EqModel Serde Codec EnumModel ScalarCodec CommonCodec ServiceParts ServiceCodec.
Open Scope N_scope.

(** ** Networks and volumes *)

(** [IpamConfig], network.rs 289-312; [Ipam], 226-244; [Network], 42-97. *)
Definition ipam_config_ms (w : externals) : list member :=
  [optional $"subnet" (ip_net_c w); optional $"ip_range" (ip_net_c w); optional $"gateway" (ip_c w); many $"aux_addresses" (smap hostname_c (ip_c w))].
Definition ipam_config_c (w : externals) := struct_ext_c (ipam_config_ms w).
Definition ipam_ms (w : externals) : list member :=
  [optional $"driver" string_c; many $"config" (list_c (ipam_config_c w)); many $"options" (smap map_key_c string_c)].
Definition ipam_c (w : externals) := struct_ext_c (ipam_ms w).
Definition network_ms (w : externals) : list member :=
  [optional $"driver" driver_c; many $"driver_opts" (smap map_key_c string_or_number_c); flag $"attachable"; flag $"enable_ipv6";
   optional $"ipam" (ipam_c w); flag $"internal"; list_or_map_field $"labels"; optional $"name" string_c].
Definition network_c (w : externals) := struct_ext_c (network_ms w).

(** [Volume], volume.rs 33-65. *)
Definition top_volume_ms : list member :=
  [optional $"driver" string_c; many $"driver_opts" (smap map_key_c string_or_number_c); list_or_map_field $"labels"; optional $"name" string_c].
Definition top_volume_c := struct_ext_c top_volume_ms.

(** ** Configs and secrets *)

(** [config::Source], config.rs 66-73 and 126-184: written as one field, read as exactly one of three. *)
Inductive config_source : Set := CfgFile (p : str) | CfgEnvironment (s : str) | CfgContent (s : str).
Definition config_source_ms : list member := [optional $"file" path_c; optional $"environment" string_c; optional $"content" string_c].
Definition config_source_write (s : config_source) : vals config_source_ms :=
  match s with
  | CfgFile p => (Some p, (None, (None, tt)))
  | CfgEnvironment e => (None, (Some e, (None, tt)))
  | CfgContent c => (None, (None, (Some c, tt)))
  end.
Definition config_source_read (v : vals config_source_ms) : result de_error config_source :=
  match v with
  | (Some p, (None, (None, _))) => Ok (CfgFile p)
  | (None, (Some e, (None, _))) => Ok (CfgEnvironment e)
  | (None, (None, (Some c, _))) => Ok (CfgContent c)
  | _ => Err DeError
  end.
Definition config_source_m : member := group config_source_ms config_source_write config_source_read (fun _ => True) (fun s => s).
(** [Config], 30-48. *)
Definition config_ms : list member := [config_source_m; list_or_map_field $"labels"].
Definition config_c := struct_ext_c config_ms.

(** [secret::Source], secret.rs 73-78 and 123-169. *)
Inductive secret_source : Set := SecFile (p : str) | SecEnvironment (s : str).
Definition secret_source_ms : list member := [optional $"file" path_c; optional $"environment" string_c].
Definition secret_source_write (s : secret_source) : vals secret_source_ms :=
  match s with SecFile p => (Some p, (None, tt)) | SecEnvironment e => (None, (Some e, tt)) end.
Definition secret_source_read (v : vals secret_source_ms) : result de_error secret_source :=
  match v with
  | (Some p, (None, _)) => Ok (SecFile p)
  | (None, (Some e, _)) => Ok (SecEnvironment e)
  | _ => Err DeError
  end.
Definition secret_source_m : member := group secret_source_ms secret_source_write secret_source_read (fun _ => True) (fun s => s).
(** [Secret], 25-53. *)
Definition secret_ms : list member :=
  [secret_source_m; list_or_map_field $"labels"; optional $"driver" string_c; many $"driver_opts" (smap map_key_c string_or_number_c)].
Definition secret_c := struct_ext_c secret_ms.

(** ** Compose *)

(** [Include], include.rs 14-32. *)
Definition include_ms : list member :=
  [required $"path" (item_or_list_c path_c (iset_c path_eqb path_c)); optional $"project_directory" string_c;
   optional $"env_file" (item_or_list_c path_c (iset_c path_eqb path_c))].
Definition include_c := struct_c include_ms.

(** [Compose], lib.rs 168-224, and the maps, 140-158. *)
Definition compose_ms (w : externals) : list member :=
  [optional $"version" string_c; optional $"name" name_c; many $"include" (list_c (short_or_long_c path_c include_c));
   required $"services" (smap identifier_c (service_c w)); many $"networks" (smap identifier_c (option_c (resource_c (network_c w))));
   many $"volumes" (smap identifier_c (option_c (resource_c top_volume_c))); many $"configs" (smap identifier_c (resource_c config_c));
   many $"secrets" (smap identifier_c (resource_c secret_c))].
Definition compose (w : externals) : Set := vals (compose_ms w) * extensions.
Definition compose_c (w : externals) : codec (compose w) := struct_ext_c (compose_ms w).
