(** [PartialEq] of the types which are kept in an [IndexSet]. All are derived except that paths are compared by their
    components ([std::path]) and extensions as slices. [veqb] is [PartialEq for serde_yaml::Value] (maps in any order,
    floats by value). No proofs in this file. *)

From Coq Require Import String Ascii List NArith ZArith Bool.
Import ListNotations.
From Verif Require Import Base Coll UserModel BytesModel DeviceModel IpModel NetModel PathModel PortsModel TextModel VolumesModel BuildModel Serde.
Open Scope N_scope.

Definition option_eqb {A : Type} (eqb : A -> A -> bool) (a b : option A) : bool :=
  match a, b with Some a, Some b => eqb a b | None, None => true | _, _ => false end.
Fixpoint list_eqb {A : Type} (eqb : A -> A -> bool) (a b : list A) : bool :=
  match a, b with [], [] => true | x :: a, y :: b => eqb x y && list_eqb eqb a b | _, _ => false end.

(** [PartialEq for Path]: the root, a leading [.], and the components. *)
Definition path_components (p : str) : list str := filter (fun c => negb (trivial_component c)) (split (ch "/") p).
Definition path_eqb (p q : str) : bool :=
  Bool.eqb (is_absolute p) (is_absolute q) && Bool.eqb (include_cur_dir p) (include_cur_dir q) &&
  list_eqb str_eqb (path_components p) (path_components q).

Definition ip_eqb (a b : ip_addr) : bool :=
  match a, b with
  | V4 a b c d, V4 a' b' c' d' => (a =? a') && (b =? b') && (c =? c') && (d =? d')
  | V6 a, V6 b => str_eqb a b
  | _, _ => false
  end.

(** service/build/ssh_auth.rs 17, 89. *)
Definition ssh_auth_eqb (a b : ssh_auth) : bool :=
  match a, b with
  | SshDefault, SshDefault => true
  | SshId a, SshId b => str_eqb (ssh_id_id a) (ssh_id_id b) && path_eqb (ssh_id_path a) (ssh_id_path b)
  | _, _ => false
  end.

(** service/deploy/resources.rs 420. *)
Definition capability_eqb (a b : capability) : bool :=
  match a, b with Gpu, Gpu | Tpu, Tpu => true | CapOther a, CapOther b => str_eqb a b | _, _ => false end.

(** service/device.rs 22, 108, 198. *)
Definition permissions_eqb (a b : permissions) : bool :=
  Bool.eqb (perm_read a) (perm_read b) && Bool.eqb (perm_write a) (perm_write b) && Bool.eqb (perm_mknod a) (perm_mknod b).
Definition device_eqb (a b : device) : bool :=
  path_eqb (dev_host a) (dev_host b) && path_eqb (dev_container a) (dev_container b) && permissions_eqb (dev_permissions a) (dev_permissions b).
Definition dev_kind_eqb (a b : dev_kind) : bool := match a, b with KAll, KAll | KChar, KChar | KBlock, KBlock => true | _, _ => false end.
Definition mm_eqb (a b : mm_number) : bool := match a, b with MMAll, MMAll => true | MMInt a, MMInt b => a =? b | _, _ => false end.
Definition cgroup_rule_eqb (a b : cgroup_rule) : bool :=
  dev_kind_eqb (cg_kind a) (cg_kind b) && mm_eqb (cg_major a) (cg_major b) && mm_eqb (cg_minor a) (cg_minor b) &&
  permissions_eqb (cg_permissions a) (cg_permissions b).

(** service/user.rs 143; service.rs 985, 1432, 1515. *)
Definition id_or_name_eqb (a b : id_or_name) : bool := match a, b with Id a, Id b => a =? b | UName a, UName b => str_eqb a b | _, _ => false end.
Definition link_eqb (a b : link) : bool := str_eqb (l_service a) (l_service b) && option_eqb str_eqb (l_alias a) (l_alias b).
Definition volumes_from_source_eqb (a b : volumes_from_source) : bool :=
  match a, b with FromService a, FromService b | FromContainer a, FromContainer b => str_eqb a b | _, _ => false end.
Definition volumes_from_eqb (a b : volumes_from) : bool :=
  volumes_from_source_eqb (vf_source a) (vf_source b) && Bool.eqb (vf_read_only a) (vf_read_only b).

(** service/expose.rs 20; service/ports.rs 91-113, 191, 231, 408, 622, 873. *)
Definition range_eqb (a b : range) : bool := (r_start a =? r_start b) && option_eqb N.eqb (r_end a) (r_end b).
Definition protocol_eqb (a b : protocol) : bool :=
  match a, b with Tcp, Tcp | Udp, Udp => true | POther a, POther b => str_eqb a b | _, _ => false end.
Definition expose_eqb (a b : expose) : bool := range_eqb (ex_range a) (ex_range b) && option_eqb protocol_eqb (ex_protocol a) (ex_protocol b).
Definition short_ranges_eqb (a b : short_ranges) : bool :=
  option_eqb range_eqb (sr_host a) (sr_host b) && range_eqb (sr_container a) (sr_container b).
Definition short_port_eqb (a b : short_port) : bool :=
  option_eqb ip_eqb (sp_host_ip a) (sp_host_ip b) && short_ranges_eqb (sp_ranges a) (sp_ranges b) &&
  option_eqb protocol_eqb (sp_protocol a) (sp_protocol b).
Definition mode_eqb (a b : mode) : bool := match a, b with Host, Host | Ingress, Ingress => true | _, _ => false end.
Definition ext_eqb (veqb : sval -> sval -> bool) : list (str * sval) -> list (str * sval) -> bool :=
  list_eqb (fun a b => str_eqb (fst a) (fst b) && veqb (snd a) (snd b)).
Definition port_eqb (veqb : sval -> sval -> bool) (a b : port) : bool :=
  option_eqb str_eqb (p_name a) (p_name b) && (p_target a =? p_target b) && option_eqb range_eqb (p_published a) (p_published b) &&
  option_eqb ip_eqb (p_host_ip a) (p_host_ip b) && option_eqb protocol_eqb (p_protocol a) (p_protocol b) &&
  option_eqb str_eqb (p_app_protocol a) (p_app_protocol b) && option_eqb mode_eqb (p_mode a) (p_mode b) &&
  ext_eqb veqb (p_extensions a) (p_extensions b).

(** service/volumes.rs 77, 422, 455, 665. *)
Definition source_eqb (a b : source) : bool :=
  match a, b with HostPath a, HostPath b => path_eqb a b | NamedVolume a, NamedVolume b => str_eqb a b | _, _ => false end.
Definition selinux_eqb (a b : selinux) : bool := match a, b with Shared, Shared | Private, Private => true | _, _ => false end.
Definition short_options_eqb (a b : short_options) : bool :=
  source_eqb (so_source a) (so_source b) && Bool.eqb (so_read_only a) (so_read_only b) && option_eqb selinux_eqb (so_selinux a) (so_selinux b).
Definition short_volume_eqb (a b : short_volume) : bool :=
  path_eqb (sv_container a) (sv_container b) && option_eqb short_options_eqb (sv_options a) (sv_options b).

(** service/volumes/mount.rs 22, 238, 341-353, 372, 521-535, 612, 692-704, 723, 744, 800-814. *)
Definition bind_propagation_eqb (a b : bind_propagation) : bool :=
  match a, b with
  | BpPrivate, BpPrivate | BpShared, BpShared | BpSlave, BpSlave | BpUnbindable, BpUnbindable
  | BpRPrivate, BpRPrivate | BpRShared, BpRShared | BpRSlave, BpRSlave | BpRUnbindable, BpRUnbindable => true
  | _, _ => false
  end.
Definition byte_value_eqb (a b : byte_value) : bool :=
  match a, b with
  | Bytes a, Bytes b | Kilobytes a, Kilobytes b | Megabytes a, Megabytes b | Gigabytes a, Gigabytes b => a =? b
  | _, _ => false
  end.
Section mounts.
Context (veqb : sval -> sval -> bool).
Definition common_eqb (a b : common) : bool :=
  path_eqb (cm_target a) (cm_target b) && Bool.eqb (cm_read_only a) (cm_read_only b) && option_eqb str_eqb (cm_consistency a) (cm_consistency b) &&
  ext_eqb veqb (cm_extensions a) (cm_extensions b).
Definition volume_options_eqb (a b : volume_options) : bool :=
  Bool.eqb (vo_nocopy a) (vo_nocopy b) && option_eqb path_eqb (vo_subpath a) (vo_subpath b) && ext_eqb veqb (vo_extensions a) (vo_extensions b).
Definition bind_options_eqb (a b : bind_options) : bool :=
  option_eqb bind_propagation_eqb (bo_propagation a) (bo_propagation b) && Bool.eqb (bo_create_host_path a) (bo_create_host_path b) &&
  option_eqb selinux_eqb (bo_selinux a) (bo_selinux b) && ext_eqb veqb (bo_extensions a) (bo_extensions b).
Definition tmpfs_options_eqb (a b : tmpfs_options) : bool :=
  option_eqb byte_value_eqb (to_size a) (to_size b) && option_eqb N.eqb (to_mode a) (to_mode b) && ext_eqb veqb (to_extensions a) (to_extensions b).
Definition mount_eqb (a b : mount) : bool :=
  match a, b with
  | MVolume a, MVolume b =>
      option_eqb str_eqb (vol_source a) (vol_source b) && option_eqb volume_options_eqb (vol_volume a) (vol_volume b) &&
      common_eqb (vol_common a) (vol_common b)
  | MBind a, MBind b =>
      path_eqb (bind_source a) (bind_source b) && option_eqb bind_options_eqb (bind_bind a) (bind_bind b) && common_eqb (bind_common a) (bind_common b)
  | MTmpfs a, MTmpfs b => option_eqb tmpfs_options_eqb (tm_tmpfs a) (tm_tmpfs b) && common_eqb (tm_common a) (tm_common b)
  | MNamedPipe a, MNamedPipe b => path_eqb (np_source a) (np_source b) && common_eqb (np_common a) (np_common b)
  | MCluster a, MCluster b => str_eqb (cl_source a) (cl_source b) && common_eqb (cl_common a) (cl_common b)
  | _, _ => false
  end.
End mounts.

(** [ShortOrLong], common/short_or_long.rs 45. *)
Definition short_or_long_eqb {S L : Type} (s : S -> S -> bool) (l : L -> L -> bool) (a b : short_or_long S L) : bool :=
  match a, b with Short a, Short b => s a b | Long a, Long b => l a b | _, _ => false end.
