(** Service volumes: [src/service/volumes.rs] and [src/service/volumes/mount.rs].  No proofs in this file.

    Paths are texts ([PathModel]).  Values of extension fields are [sval]s. *)

From Coq Require Import String Ascii List NArith ZArith Bool.
Import ListNotations.
From Verif Require Import Base Num Serde KeysModel BytesModel DeviceModel PathModel.
Open Scope N_scope.

(** [Extensions], common.rs 45: an insertion ordered map from extension keys to YAML values. *)
Definition extensions := list (str * sval).

(** [SELinux], volumes.rs 666-671; [as_char], 676-681. *)
Inductive selinux := Shared | Private.
Definition selinux_char (s : selinux) : char := match s with Shared => ch "z" | Private => ch "Z" end.

(** [Source], volumes.rs 456-465. *)
Inductive source := HostPath (p : str) | NamedVolume (id : str).

(** [ParseSourceError], volumes.rs 490-498. *)
Inductive source_error := SrcHostPath (e : host_path_error) | SrcIdentifier (e : key_error).

(** [Source::parse], volumes.rs 474-485. *)
Definition source_parse (s : str) : result source_error source :=
  if starts_with $"." s || is_absolute s then
    map_err SrcHostPath (map_ok HostPath (host_path_new s))
  else map_err SrcIdentifier (map_ok NamedVolume (identifier_new s)).

(** [Display for Source], volumes.rs 574-581. *)
Definition source_show (s : source) : str := match s with HostPath p => p | NamedVolume id => id end.

(** [ShortOptions], volumes.rs 423-432, and [ShortVolume], 79-87. *)
Record short_options := mk_short_options { so_source : source; so_read_only : bool; so_selinux : option selinux }.
Record short_volume := mk_short_volume { sv_container : str; sv_options : option short_options }.

(** [ParseShortVolumeError], volumes.rs 229-253. *)
Inductive short_volume_error :=
| SvSource (e : source_error)
| SvAbsoluteContainerPath (p : str)
| SvReadWriteAndReadOnly
| SvSELinuxSharedAndPrivate
| SvDuplicateOption (o : str)
| SvUnknownOption (o : str).

(** One step of the option loop, volumes.rs 171-201. *)
Definition volume_option (st : option bool * option selinux) (o : str) : result short_volume_error (option bool * option selinux) :=
  let '(ro, se) := st in
  if str_eqb o $"rw" then
    match ro with
    | None => Ok (Some false, se)
    | Some true => Err SvReadWriteAndReadOnly
    | Some false => Err (SvDuplicateOption $"rw")
    end
  else if str_eqb o $"ro" then
    match ro with
    | None => Ok (Some true, se)
    | Some false => Err SvReadWriteAndReadOnly
    | Some true => Err (SvDuplicateOption $"ro")
    end
  else if str_eqb o $"z" then
    match se with
    | None => Ok (ro, Some Shared)
    | Some Private => Err SvSELinuxSharedAndPrivate
    | Some Shared => Err (SvDuplicateOption $"z")
    end
  else if str_eqb o $"Z" then
    match se with
    | None => Ok (ro, Some Private)
    | Some Shared => Err SvSELinuxSharedAndPrivate
    | Some Private => Err (SvDuplicateOption $"Z")
    end
  else Err (SvUnknownOption o).

(** The loop [for option in options.split(',')], volumes.rs 168-202. *)
Fixpoint volume_options_loop (st : option bool * option selinux) (os : list str) : result short_volume_error (option bool * option selinux) :=
  match os with
  | [] => Ok st
  | o :: r => st' <- volume_option st o ;; volume_options_loop st' r
  end.

(** [parse_container_path], volumes.rs 220-225. *)
Definition parse_container_path (p : str) : result short_volume_error str :=
  map_err (fun _ => SvAbsoluteContainerPath p) (absolute_path_new p).

(** [FromStr for ShortVolume], volumes.rs 148-212.  The first [match] is on [splitn(3, ':')], never empty. *)
Definition short_volume_parse (s : str) : result short_volume_error short_volume :=
  match splitn 3 (ch ":") s with
  | [] => Err (SvUnknownOption [])
  | [c] => p <- parse_container_path c ;; Ok (mk_short_volume p None)
  | src :: c :: rest =>
      src' <- map_err SvSource (source_parse src) ;;
      p <- parse_container_path c ;;
      match rest with
      | [] => Ok (mk_short_volume p (Some (mk_short_options src' false None)))
      | opts :: _ =>
          st <- volume_options_loop (None, None) (split (ch ",") opts) ;;
          Ok (mk_short_volume p (Some (mk_short_options src' (match fst st with Some b => b | None => false end) (snd st))))
      end
  end.

(** [Display for ShortVolume], volumes.rs 255-291. *)
Definition short_volume_show (v : short_volume) : str :=
  match sv_options v with
  | Some o =>
      source_show (so_source o) ++ $":" ++ sv_container v ++
      (if so_read_only o || match so_selinux o with Some _ => true | None => false end then
         $":" ++
         (if so_read_only o then $"ro" ++ match so_selinux o with Some _ => $"," | None => [] end else []) ++
         match so_selinux o with Some x => [selinux_char x] | None => [] end
       else [])
  | None => sv_container v
  end.

(** ** Long syntax, mount.rs *)

(** [BindPropagation], mount.rs 560-578. *)
Inductive bind_propagation := BpPrivate | BpShared | BpSlave | BpUnbindable | BpRPrivate | BpRShared | BpRSlave | BpRUnbindable.

(** [Common], mount.rs 766-785. *)
Record common := mk_common { cm_target : str; cm_read_only : bool; cm_consistency : option str; cm_extensions : extensions }.
(** [VolumeOptions], mount.rs 311-325. *)
Record volume_options := mk_volume_options { vo_nocopy : bool; vo_subpath : option str; vo_extensions : extensions }.
(** [Volume], mount.rs 239-255. *)
Record volume := mk_volume { vol_source : option str; vol_volume : option volume_options; vol_common : common }.
(** [BindOptions], mount.rs 454-474. *)
Record bind_options := mk_bind_options {
  bo_propagation : option bind_propagation; bo_create_host_path : bool; bo_selinux : option selinux; bo_extensions : extensions }.
(** [Bind], mount.rs 373-386. *)
Record bind_mount := mk_bind { bind_source : str; bind_bind : option bind_options; bind_common : common }.
(** [TmpfsOptions], mount.rs 658-676, and [Tmpfs], 613-623. *)
Record tmpfs_options := mk_tmpfs_options { to_size : option byte_value; to_mode : option N; to_extensions : extensions }.
Record tmpfs := mk_tmpfs { tm_tmpfs : option tmpfs_options; tm_common : common }.
(** [NamedPipe], mount.rs 724-733, and [Cluster], 745-754. *)
Record named_pipe := mk_named_pipe { np_source : str; np_common : common }.
Record cluster := mk_cluster { cl_source : str; cl_common : common }.

(** [Mount], mount.rs 24-40. *)
Inductive mount := MVolume (v : volume) | MBind (b : bind_mount) | MTmpfs (t : tmpfs) | MNamedPipe (n : named_pipe) | MCluster (c : cluster).

(** [Common::new], mount.rs 790-797. *)
Definition common_new (target : str) : common := mk_common target false None [].

(** [VolumeOptions::is_empty], mount.rs 330-338. *)
Definition is_nil {A} (l : list A) : bool := match l with [] => true | _ => false end.
Definition is_none {A} (o : option A) : bool := match o with None => true | Some _ => false end.
Definition volume_options_is_empty (o : volume_options) : bool :=
  negb (vo_nocopy o) && is_none (vo_subpath o) && is_nil (vo_extensions o).

(** [BindOptions::is_empty], mount.rs 509-518. *)
Definition bind_options_is_empty (o : bind_options) : bool :=
  is_none (bo_propagation o) && negb (bo_create_host_path o) && is_none (bo_selinux o) && is_nil (bo_extensions o).

(** [Volume::into_short], mount.rs 274-298. *)
Definition volume_into_short (v : volume) : result volume short_volume :=
  let c := vol_common v in
  if is_none (cm_consistency c) && match vol_volume v with Some o => volume_options_is_empty o | None => true end && is_nil (cm_extensions c) then
    Ok (mk_short_volume (cm_target c)
      (option_map (fun s => mk_short_options (NamedVolume s) (cm_read_only c) None) (vol_source v)))
  else Err v.

(** [Bind::into_short], mount.rs 405-441. *)
Definition bind_into_short (b : bind_mount) : result bind_mount short_volume :=
  let c := bind_common b in
  if is_none (cm_consistency c) &&
     match bind_bind b with
     | Some o => is_none (bo_propagation o) && bo_create_host_path o && is_nil (bo_extensions o)
     | None => true
     end && is_nil (cm_extensions c) then
    Ok (mk_short_volume (cm_target c)
      (Some (mk_short_options (HostPath (bind_source b)) (cm_read_only c) (match bind_bind b with Some o => bo_selinux o | None => None end))))
  else Err b.

(** [Mount::into_short], mount.rs 190-196. *)
Definition mount_into_short (m : mount) : result mount short_volume :=
  match m with
  | MVolume v => map_err MVolume (volume_into_short v)
  | MBind b => map_err MBind (bind_into_short b)
  | _ => Err m
  end.

(** [ShortVolume::into_long], volumes.rs 101-136. *)
Definition short_into_long (v : short_volume) : mount :=
  match sv_options v with
  | Some o =>
      let c := mk_common (sv_container v) (so_read_only o) None [] in
      match so_source o with
      | HostPath p => MBind (mk_bind p (Some (mk_bind_options None true (so_selinux o) [])) c)
      | NamedVolume id => MVolume (mk_volume (Some id) None c)
      end
  | None => MVolume (mk_volume None None (common_new (sv_container v)))
  end.

(** [Mount::common], mount.rs 162-170, [kind], 50-58, and [source_to_string], 174-182. *)
Definition mount_common (m : mount) : common :=
  match m with
  | MVolume v => vol_common v | MBind b => bind_common b | MTmpfs t => tm_common t
  | MNamedPipe n => np_common n | MCluster c => cl_common c
  end.
Definition mount_kind (m : mount) : str :=
  match m with
  | MVolume _ => $"volume" | MBind _ => $"bind" | MTmpfs _ => $"tmpfs" | MNamedPipe _ => $"npipe" | MCluster _ => $"cluster"
  end.
Definition mount_source (m : mount) : option str :=
  match m with
  | MVolume v => vol_source v | MBind b => Some (bind_source b) | MTmpfs _ => None
  | MNamedPipe n => Some (np_source n) | MCluster c => Some (cl_source c)
  end.

(** [ShortOrLong<ShortVolume, Mount>], common/short_or_long.rs 47-57. *)
Inductive short_or_long (S L : Type) := Short (s : S) | Long (l : L).
Arguments Short {S L} s.
Arguments Long {S L} l.
Definition volume_entry := short_or_long short_volume mount.

(** [named_volumes_iter], volumes.rs 51-64. *)
Definition named_volume (v : volume_entry) : option str :=
  match v with
  | Short s => match sv_options s with Some o => match so_source o with NamedVolume id => Some id | HostPath _ => None end | None => None end
  | Long (MVolume v) => vol_source v
  | Long _ => None
  end.
Fixpoint named_volumes (l : list volume_entry) : list str :=
  match l with
  | [] => []
  | v :: r => match named_volume v with Some id => id :: named_volumes r | None => named_volumes r end
  end.

(** [into_short_iter], volumes.rs 38-43, and [into_long_iter], 46-48 (with [From<ShortOrLong<S, L>> for L],
    short_or_long.rs 265-297). *)
Definition into_short_iter (l : list volume_entry) : list (result mount short_volume) :=
  map (fun v => match v with Short s => Ok s | Long m => mount_into_short m end) l.
Definition into_long_iter (l : list volume_entry) : list mount :=
  map (fun v => match v with Short s => short_into_long s | Long m => m end) l.
