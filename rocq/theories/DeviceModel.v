(** Model of [src/service/device.rs] and of [AbsolutePath::new], [src/service/volumes.rs] 306-315.
    No proofs in this file.

    Paths are Unix paths with valid Unicode text, kept as their text. [Path] equality in Rust ignores repeated
    separators; the model compares texts, which is finer. *)

From Coq Require Import String Ascii List NArith ZArith Bool.
Import ListNotations.
From Verif Require Import Base Num Serde.
Open Scope N_scope.

(** [Path::is_absolute] on Unix. *)
Definition is_absolute (p : str) : bool := starts_with $"/" p.

(** [AbsolutePathError], volumes.rs 330-332. *)
Inductive absolute_path_error := AbsolutePathError.

(** [AbsolutePath::new], volumes.rs 306-315. *)
Definition absolute_path_new (p : str) : result absolute_path_error str :=
  if is_absolute p then Ok p else Err AbsolutePathError.

(** [Permissions], device.rs 109-119. *)
Record permissions := mk_permissions { perm_read : bool; perm_write : bool; perm_mknod : bool }.

(** [Permissions::any], device.rs 133-136. *)
Definition perm_any (p : permissions) : bool := perm_read p || perm_write p || perm_mknod p.

(** [FromStr for Permissions], device.rs 139-158; the error is the unknown character. *)
Fixpoint permissions_loop (s : str) (p : permissions) : result char permissions :=
  match s with
  | [] => Ok p
  | c :: r =>
      if c =? ch "r" then permissions_loop r (mk_permissions true (perm_write p) (perm_mknod p))
      else if c =? ch "w" then permissions_loop r (mk_permissions (perm_read p) true (perm_mknod p))
      else if c =? ch "m" then permissions_loop r (mk_permissions (perm_read p) (perm_write p) true)
      else Err c
  end.
Definition permissions_parse (s : str) : result char permissions :=
  permissions_loop s (mk_permissions false false false).

(** [Display for Permissions], device.rs 173-189. *)
Definition permissions_show (p : permissions) : str :=
  (if perm_read p then [ch "r"] else []) ++ (if perm_write p then [ch "w"] else []) ++
  (if perm_mknod p then [ch "m"] else []).

(** [Device], device.rs 22-32. *)
Record device := mk_device { dev_host : str; dev_container : str; dev_permissions : permissions }.

(** [ParseDeviceError], device.rs 64-82. *)
Inductive device_error :=
| DevEmpty
| DevContainerPathMissing
| DevContainerPathAbsolute
| DevPermissions (c : char).

(** [FromStr for Device], device.rs 34-54. *)
Definition device_parse (s : str) : result device_error device :=
  match splitn 3 (ch ":") s with
  | [] => Err DevEmpty
  | [_] => Err DevContainerPathMissing
  | host :: container :: rest =>
      container' <- map_err (fun _ => DevContainerPathAbsolute) (absolute_path_new container) ;;
      perms <- map_err DevPermissions (permissions_parse (match rest with p :: _ => p | [] => [] end)) ;;
      Ok (mk_device host container' perms)
  end.

(** [Display for Device], device.rs 84-105. *)
Definition device_show (d : device) : str :=
  dev_host d ++ ch ":" :: dev_container d ++
  (if perm_any (dev_permissions d) then ch ":" :: permissions_show (dev_permissions d) else []).

(** [SerializeDisplay], [DeserializeFromStr], device.rs 21. *)
Definition device_serialize (d : device) : sval := VStr (device_show d).
Definition device_deserialize (v : sval) : result de_error device := from_string device_parse v.

(** [Kind], device.rs 296-306. *)
Inductive dev_kind := KAll | KChar | KBlock.

(** [Kind::as_char] and [Display], device.rs 311-317, 356-360. *)
Definition kind_show (k : dev_kind) : str :=
  match k with KAll => $"a" | KChar => $"c" | KBlock => $"b" end.

(** [FromStr for Kind], device.rs 333-343. *)
Definition kind_parse (s : str) : result str dev_kind :=
  if str_eqb s $"a" then Ok KAll
  else if str_eqb s $"c" then Ok KChar
  else if str_eqb s $"b" then Ok KBlock
  else Err s.

(** [TryFrom<char> for Kind], device.rs 320-331. *)
Definition kind_of_char (c : char) : result str dev_kind :=
  if c =? ch "a" then Ok KAll
  else if c =? ch "c" then Ok KChar
  else if c =? ch "b" then Ok KBlock
  else Err [c].

(** [MajorMinorNumber], device.rs 370-376. *)
Inductive mm_number := MMAll | MMInt (n : N).

(** [FromStr for MajorMinorNumber], device.rs 395-405. *)
Definition mm_parse (s : str) : result int_error mm_number :=
  match s with
  | [] => Ok MMAll
  | _ => if str_eqb s $"*" then Ok MMAll else map_ok MMInt (parse_u16 s)
  end.

(** [Display for MajorMinorNumber], device.rs 415-422. *)
Definition mm_show (m : mm_number) : str := match m with MMAll => $"*" | MMInt n => show_N n end.

(** [CgroupRule], device.rs 199-211. *)
Record cgroup_rule := mk_cgroup_rule
  { cg_kind : dev_kind; cg_major : mm_number; cg_minor : mm_number; cg_permissions : permissions }.

(** [ParseCgroupRuleError], device.rs 250-271. *)
Inductive cgroup_error :=
| CgEmpty
| CgKind (s : str)
| CgNumbersMissing
| CgNumber (e : int_error)
| CgPermissions (c : char).

(** [FromStr for CgroupRule], device.rs 213-239. *)
Definition cgroup_parse (s : str) : result cgroup_error cgroup_rule :=
  match splitn 3 (ch " ") s with
  | [] => Err CgEmpty
  | k :: rest =>
      kind <- map_err CgKind (kind_parse k) ;;
      match rest with
      | [] => Err CgNumbersMissing
      | nums :: rest' =>
          match split_once (ch ":") nums with
          | None => Err CgNumbersMissing
          | Some (a, b) =>
              major <- map_err CgNumber (mm_parse a) ;;
              minor <- map_err CgNumber (mm_parse b) ;;
              perms <- map_err CgPermissions (permissions_parse (match rest' with p :: _ => p | [] => [] end)) ;;
              Ok (mk_cgroup_rule kind major minor perms)
          end
      end
  end.

(** [Display for CgroupRule], device.rs 273-292. *)
Definition cgroup_show (r : cgroup_rule) : str :=
  kind_show (cg_kind r) ++ ch " " :: mm_show (cg_major r) ++ ch ":" :: mm_show (cg_minor r) ++
  (if perm_any (cg_permissions r) then ch " " :: permissions_show (cg_permissions r) else []).

(** [SerializeDisplay], [DeserializeFromStr], device.rs 198. *)
Definition cgroup_serialize (r : cgroup_rule) : sval := VStr (cgroup_show r).
Definition cgroup_deserialize (v : sval) : result de_error cgroup_rule := from_string cgroup_parse v.
