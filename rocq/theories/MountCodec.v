(** The long forms of volumes and ports as codecs. No proofs in this file. *)

From Coq Require Import String Ascii List NArith ZArith Bool.
Import ListNotations.
From Verif Require Import Base Num Coll BytesModel IpModel PortsModel VolumesModel EqModel Serde Codec EnumModel ScalarCodec CommonCodec.
Open Scope N_scope.

(** ** Mounts, service/volumes/mount.rs *)

(** [VolumeOptions], 311-325; [BindOptions], 454-474; [TmpfsOptions], 658-676. *)
Definition volume_options_ms : list member := [flag $"nocopy"; optional $"subpath" path_c].
Definition volume_options_c : codec volume_options :=
  iso (struct_ext_c volume_options_ms) (fun o => ((vo_nocopy o, (vo_subpath o, tt)), vo_extensions o))
    (fun v => mk_volume_options (fst (fst v)) (fst (snd (fst v))) (snd v)).
Definition bind_options_ms : list member :=
  [optional $"propagation" bind_propagation_c; flag $"create_host_path"; optional $"selinux" selinux_c].
Definition bind_options_c : codec bind_options :=
  iso (struct_ext_c bind_options_ms) (fun o => ((bo_propagation o, (bo_create_host_path o, (bo_selinux o, tt))), bo_extensions o))
    (fun v => let '((p, (c, (s, _))), x) := v in mk_bind_options p c s x).
Definition tmpfs_options_ms : list member := [optional $"size" byte_value_c; optional $"mode" u32_c].
Definition tmpfs_options_c : codec tmpfs_options :=
  iso (struct_ext_c tmpfs_options_ms) (fun o => ((to_size o, (to_mode o, tt)), to_extensions o))
    (fun v => mk_tmpfs_options (fst (fst v)) (fst (snd (fst v))) (snd v)).

(** [Common], 766-785. It is flattened into each mount, and its extensions take the entries which are left. *)
Definition common_ms : list member := [required $"target" absolute_path_c; flag $"read_only"; optional $"consistency" string_c].
Definition common_of (v : vals common_ms) (x : extensions) : common := let '(t, (r, (c, _))) := v in mk_common t r c x.
Definition of_common (c : common) : vals common_ms := (cm_target c, (cm_read_only c, (cm_consistency c, tt))).

(** [Volume], 239-255; [Bind], 373-386; [Tmpfs], 613-623; [NamedPipe], 724-733; [Cluster], 745-754. *)
Definition volume_ms : list member := optional $"source" identifier_c :: optional $"volume" volume_options_c :: common_ms.
Definition volume_c : codec volume :=
  iso (struct_ext_c volume_ms) (fun m => ((vol_source m, (vol_volume m, of_common (vol_common m))), cm_extensions (vol_common m)))
    (fun v => let '((s, (o, c)), x) := v in mk_volume s o (common_of c x)).
Definition bind_ms : list member := required $"source" host_path_c :: optional $"bind" bind_options_c :: common_ms.
Definition bind_c : codec bind_mount :=
  iso (struct_ext_c bind_ms) (fun m => ((bind_source m, (bind_bind m, of_common (bind_common m))), cm_extensions (bind_common m)))
    (fun v => let '((s, (o, c)), x) := v in mk_bind s o (common_of c x)).
Definition tmpfs_ms : list member := optional $"tmpfs" tmpfs_options_c :: common_ms.
Definition tmpfs_c : codec tmpfs :=
  iso (struct_ext_c tmpfs_ms) (fun m => ((tm_tmpfs m, of_common (tm_common m)), cm_extensions (tm_common m)))
    (fun v => let '((o, c), x) := v in mk_tmpfs o (common_of c x)).
Definition named_pipe_ms : list member := required $"source" host_path_c :: common_ms.
Definition named_pipe_c : codec named_pipe :=
  iso (struct_ext_c named_pipe_ms) (fun m => ((np_source m, of_common (np_common m)), cm_extensions (np_common m)))
    (fun v => let '((s, c), x) := v in mk_named_pipe s (common_of c x)).
Definition cluster_ms : list member := required $"source" string_c :: common_ms.
Definition cluster_c : codec cluster :=
  iso (struct_ext_c cluster_ms) (fun m => ((cl_source m, of_common (cl_common m)), cm_extensions (cl_common m)))
    (fun v => let '((s, c), x) := v in mk_cluster s (common_of c x)).

(** [Mount], 22-40: internally tagged. The entry [type] is written first and may be anywhere when reading. *)
Definition mount_kind (m : mount) : str :=
  match m with MVolume _ => $"volume" | MBind _ => $"bind" | MTmpfs _ => $"tmpfs" | MNamedPipe _ => $"npipe" | MCluster _ => $"cluster" end.
Definition mount_body (m : mount) : sval :=
  match m with
  | MVolume m => ser volume_c m
  | MBind m => ser bind_c m
  | MTmpfs m => ser tmpfs_c m
  | MNamedPipe m => ser named_pipe_c m
  | MCluster m => ser cluster_c m
  end.
Definition entries (v : sval) : list (sval * sval) := match v with VMap es => es | _ => [] end.
Definition mount_read (kind : str) (v : sval) : result de_error mount :=
  if str_eqb kind $"volume" then map_ok MVolume (de volume_c v)
  else if str_eqb kind $"bind" then map_ok MBind (de bind_c v)
  else if str_eqb kind $"tmpfs" then map_ok MTmpfs (de tmpfs_c v)
  else if str_eqb kind $"npipe" then map_ok MNamedPipe (de named_pipe_c v)
  else if str_eqb kind $"cluster" then map_ok MCluster (de cluster_c v)
  else Err DeError.
Definition mount_de (v : sval) : result de_error mount :=
  match v with
  | VMap es =>
      t <- lookup $"type" es ;;
      match t with Some (VStr kind) => mount_read kind (VMap (unknown [$"type"] es)) | _ => Err DeError end
  | _ => Err DeError
  end.
Definition mount_panics (v : sval) : bool :=
  match v with
  | VMap es =>
      match lookup $"type" es with
      | Ok (Some (VStr kind)) =>
          let v := VMap (unknown [$"type"] es) in
          if str_eqb kind $"volume" then panics volume_c v
          else if str_eqb kind $"bind" then panics bind_c v
          else if str_eqb kind $"tmpfs" then panics tmpfs_c v
          else if str_eqb kind $"npipe" then panics named_pipe_c v
          else if str_eqb kind $"cluster" then panics cluster_c v
          else false
      | _ => false
      end
  | _ => false
  end.
Definition mount_wf (m : mount) : Prop :=
  match m with
  | MVolume m => wf volume_c m
  | MBind m => wf bind_c m
  | MTmpfs m => wf tmpfs_c m
  | MNamedPipe m => wf named_pipe_c m
  | MCluster m => wf cluster_c m
  end.
Definition mount_c : codec mount :=
  MkCodec (fun m => VMap ((VStr $"type", VStr (mount_kind m)) :: entries (mount_body m))) mount_de mount_wf (fun m => m) mount_panics.

(** [Volumes], service/volumes.rs 32. *)
Definition volumes_c (w : externals) : codec (list (short_or_long short_volume mount)) :=
  iset_c (short_or_long_eqb short_volume_eqb (mount_eqb (w_yaml_eqb w))) (short_or_long_c short_volume_c mount_c).

(** ** Ports, service/ports.rs 28, 55-89 *)

Definition port_ms (w : externals) : list member :=
  [optional $"name" string_c; required $"target" u16_c; optional $"published" range_c; optional $"host_ip" (ip_c w);
   optional $"protocol" protocol_c; optional $"app_protocol" string_c; optional $"mode" mode_c].
Definition port_c (w : externals) : codec port :=
  iso (struct_ext_c (port_ms w))
    (fun p => ((p_name p, (p_target p, (p_published p, (p_host_ip p, (p_protocol p, (p_app_protocol p, (p_mode p, tt))))))), p_extensions p))
    (fun v => let '((n, (t, (r, (h, (p, (a, (m, _))))))), x) := v in mk_port n t r h p a m x).
Definition ports_c (w : externals) : codec (list (short_or_long short_port port)) :=
  iset_c (short_or_long_eqb short_port_eqb (port_eqb (w_yaml_eqb w))) (short_or_long_c (short_port_c w) (port_c w)).
