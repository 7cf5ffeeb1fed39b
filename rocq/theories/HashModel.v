(** [Hash] of the types which are kept in an [IndexSet], and of [Image] and its name. A hasher is given a sequence of pieces,
    which is what these functions return. Derived implementations hash the number of the variant (not for structs) and then the
    fields in order; hand-written ones are cited where they are. [phash] and [vhash] are [Hash] for [std::path::Path] and for
    [serde_yaml::Value]. No proofs in this file. *)

From Coq Require Import String Ascii List NArith ZArith Bool.
Import ListNotations.
From Verif Require Import Base Coll UserModel BytesModel DeviceModel ImageModel IpModel NetModel PathModel PortsModel TextModel VolumesModel BuildModel Serde.
Open Scope N_scope.

Inductive piece : Set := PNum (n : N) | PStr (s : str).
Definition feed := list piece.

(** [Hash] for integers, [bool], [str], [Option], and slices ([usize] length first). *)
Definition hash_num (n : N) : feed := [PNum n].
Definition hash_bool (b : bool) : feed := [PNum (if b then 1 else 0)].
Definition hash_str (s : str) : feed := [PStr s].
Definition hash_option {A : Type} (h : A -> feed) (o : option A) : feed := match o with None => [PNum 0] | Some a => PNum 1 :: h a end.
Definition hash_slice {A : Type} (h : A -> feed) (l : list A) : feed := PNum (N.of_nat (List.length l)) :: flat_map h l.
(** [IpAddr]. *)
Definition hash_ip (i : ip_addr) : feed := match i with V4 a b c d => [PNum 0; PNum a; PNum b; PNum c; PNum d] | V6 s => [PNum 1; PStr s] end.

(** service/deploy/resources.rs 420. *)
Definition capability_hash (c : capability) : feed := match c with Gpu => [PNum 0] | Tpu => [PNum 1] | CapOther s => PNum 2 :: hash_str s end.
(** service/device.rs 108, 198, 295, 371. *)
Definition permissions_hash (p : permissions) : feed := hash_bool (perm_read p) ++ hash_bool (perm_write p) ++ hash_bool (perm_mknod p).
Definition dev_kind_hash (k : dev_kind) : feed := match k with KAll => [PNum 0] | KChar => [PNum 1] | KBlock => [PNum 2] end.
Definition mm_hash (m : mm_number) : feed := match m with MMAll => [PNum 0] | MMInt n => PNum 1 :: hash_num n end.
Definition cgroup_rule_hash (r : cgroup_rule) : feed :=
  dev_kind_hash (cg_kind r) ++ mm_hash (cg_major r) ++ mm_hash (cg_minor r) ++ permissions_hash (cg_permissions r).
(** service/user.rs 143; service.rs 985, 1432, 1515. *)
Definition id_or_name_hash (x : id_or_name) : feed := match x with Id n => PNum 0 :: hash_num n | UName s => PNum 1 :: hash_str s end.
Definition link_hash (l : link) : feed := hash_str (l_service l) ++ hash_option hash_str (l_alias l).
Definition volumes_from_source_hash (s : volumes_from_source) : feed :=
  match s with FromService s => PNum 0 :: hash_str s | FromContainer s => PNum 1 :: hash_str s end.
Definition volumes_from_hash (v : volumes_from) : feed := volumes_from_source_hash (vf_source v) ++ hash_bool (vf_read_only v).
(** service/ports.rs 191, 231, 408, 622, 873; service/expose.rs 20. *)
Definition range_hash (r : range) : feed := hash_num (r_start r) ++ hash_option hash_num (r_end r).
Definition protocol_hash (p : protocol) : feed := match p with Tcp => [PNum 0] | Udp => [PNum 1] | POther s => PNum 2 :: hash_str s end.
Definition expose_hash (e : expose) : feed := range_hash (ex_range e) ++ hash_option protocol_hash (ex_protocol e).
Definition short_ranges_hash (r : short_ranges) : feed := hash_option range_hash (sr_host r) ++ range_hash (sr_container r).
Definition short_port_hash (p : short_port) : feed :=
  hash_option hash_ip (sp_host_ip p) ++ short_ranges_hash (sp_ranges p) ++ hash_option protocol_hash (sp_protocol p).
Definition mode_hash (m : mode) : feed := match m with Host => [PNum 0] | Ingress => [PNum 1] end.
(** service/volumes.rs 665; service/volumes/mount.rs 558; service/byte_value.rs 25. *)
Definition selinux_hash (s : selinux) : feed := match s with Shared => [PNum 0] | Private => [PNum 1] end.
Definition bind_propagation_hash (b : bind_propagation) : feed :=
  match b with
  | BpPrivate => [PNum 0] | BpShared => [PNum 1] | BpSlave => [PNum 2] | BpUnbindable => [PNum 3]
  | BpRPrivate => [PNum 4] | BpRShared => [PNum 5] | BpRSlave => [PNum 6] | BpRUnbindable => [PNum 7]
  end.
Definition byte_value_hash (b : byte_value) : feed :=
  match b with Bytes n => PNum 0 :: hash_num n | Kilobytes n => PNum 1 :: hash_num n | Megabytes n => PNum 2 :: hash_num n | Gigabytes n => PNum 3 :: hash_num n end.

Section oracles.
Context (phash : str -> feed) (vhash : sval -> feed).

(** service/build/ssh_auth.rs 17, 89; service/device.rs 22. *)
Definition ssh_auth_hash (a : ssh_auth) : feed :=
  match a with SshDefault => [PNum 0] | SshId i => PNum 1 :: hash_str (ssh_id_id i) ++ phash (ssh_id_path i) end.
Definition device_hash (d : device) : feed := phash (dev_host d) ++ phash (dev_container d) ++ permissions_hash (dev_permissions d).
(** service/volumes.rs 77, 422, 455. *)
Definition source_hash (s : source) : feed := match s with HostPath p => PNum 0 :: phash p | NamedVolume id => PNum 1 :: hash_str id end.
Definition short_options_hash (o : short_options) : feed :=
  source_hash (so_source o) ++ hash_bool (so_read_only o) ++ hash_option selinux_hash (so_selinux o).
Definition short_volume_hash (v : short_volume) : feed := phash (sv_container v) ++ hash_option short_options_hash (sv_options v).

(** [extensions.as_slice().hash(state)]. *)
Definition hash_extensions (x : list (str * sval)) : feed := hash_slice (fun e => hash_str (fst e) ++ vhash (snd e)) x.
(** service/ports.rs 115-137. *)
Definition port_hash (p : port) : feed :=
  hash_option hash_str (p_name p) ++ hash_num (p_target p) ++ hash_option range_hash (p_published p) ++ hash_option hash_ip (p_host_ip p) ++
  hash_option protocol_hash (p_protocol p) ++ hash_option hash_str (p_app_protocol p) ++ hash_option mode_hash (p_mode p) ++
  hash_extensions (p_extensions p).
(** service/volumes/mount.rs 355-367, 537-552, 706-718, 816-830. *)
Definition volume_options_hash (o : volume_options) : feed :=
  hash_bool (vo_nocopy o) ++ hash_option phash (vo_subpath o) ++ hash_extensions (vo_extensions o).
Definition bind_options_hash (o : bind_options) : feed :=
  hash_option bind_propagation_hash (bo_propagation o) ++ hash_bool (bo_create_host_path o) ++ hash_option selinux_hash (bo_selinux o) ++
  hash_extensions (bo_extensions o).
Definition tmpfs_options_hash (o : tmpfs_options) : feed :=
  hash_option byte_value_hash (to_size o) ++ hash_option hash_num (to_mode o) ++ hash_extensions (to_extensions o).
Definition common_hash (c : common) : feed :=
  phash (cm_target c) ++ hash_bool (cm_read_only c) ++ hash_option hash_str (cm_consistency c) ++ hash_extensions (cm_extensions c).
(** 22, 238, 372, 612, 723, 744. *)
Definition mount_hash (m : mount) : feed :=
  match m with
  | MVolume m => PNum 0 :: hash_option hash_str (vol_source m) ++ hash_option volume_options_hash (vol_volume m) ++ common_hash (vol_common m)
  | MBind m => PNum 1 :: phash (bind_source m) ++ hash_option bind_options_hash (bind_bind m) ++ common_hash (bind_common m)
  | MTmpfs m => PNum 2 :: hash_option tmpfs_options_hash (tm_tmpfs m) ++ common_hash (tm_common m)
  | MNamedPipe m => PNum 3 :: phash (np_source m) ++ common_hash (np_common m)
  | MCluster m => PNum 4 :: hash_str (cl_source m) ++ common_hash (cl_common m)
  end.
(** common/short_or_long.rs 45. *)
Definition short_or_long_hash {S L : Type} (s : S -> feed) (l : L -> feed) (x : short_or_long S L) : feed :=
  match x with Short a => PNum 0 :: s a | Long b => PNum 1 :: l b end.
End oracles.

(** [PartialEq], [Ord] and [Hash] of [Image], service/image.rs 497-533, and of its [Name], service/image/name.rs 283-318: all those of
    the text. [Ord for str] compares the bytes, which for UTF-8 is comparing the characters. *)
Fixpoint str_cmp (a b : str) : comparison :=
  match a, b with
  | [], [] => Eq
  | [], _ => Lt
  | _, [] => Gt
  | x :: a, y :: b => match x ?= y with Eq => str_cmp a b | c => c end
  end.
Definition image_eqb (a b : image) : bool := str_eqb (i_inner a) (i_inner b).
Definition image_cmp (a b : image) : comparison := str_cmp (i_inner a) (i_inner b).
Definition image_hash (a : image) : feed := hash_str (i_inner a).
Definition iname_eqb (a b : iname) : bool := str_eqb (n_inner a) (n_inner b).
Definition iname_cmp (a b : iname) : comparison := str_cmp (n_inner a) (n_inner b).
Definition iname_hash (a : iname) : feed := hash_str (n_inner a).

(** [IndexSet::insert] and collecting into an [IndexSet]: only elements with the same hash are compared ([hash] stands for what the
    hasher makes of the pieces). *)
Definition hashed_insert {A : Type} (eqb : A -> A -> bool) (hash : A -> N) (l : list A) (x : A) : list A :=
  if existsb (fun y => (hash x =? hash y) && eqb x y) l then l else l ++ [x].
Definition hashed_set {A : Type} (eqb : A -> A -> bool) (hash : A -> N) (l : list A) : list A := fold_left (hashed_insert eqb hash) l [].
