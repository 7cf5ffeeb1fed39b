(** Unix paths of [std::path] and the path newtypes of [src/service/volumes.rs].  No proofs in this file.

    A path is its text.  The functions of [std::path] used by the crate are modelled after the standard library's
    component iterator ([library/std/src/path.rs]): a leading [/] is the root component, a leading [.] (alone or
    before a slash) is the current-directory component, and afterwards empty and [.] components are skipped. *)

From Coq Require Import String Ascii List NArith Bool.
Import ListNotations.
From Verif Require Import Base DeviceModel.
Open Scope N_scope.

(** [Components::parse_single_component] returning [None]: the component is skipped. *)
Definition trivial_component (c : str) : bool := str_eqb c [] || str_eqb c $".".

(** [Components::include_cur_dir]: no root, and the text is ["."] or starts with ["./"]. *)
Definition include_cur_dir (p : str) : bool := str_eqb p $"." || starts_with $"./" p.

(** [Components::len_before_body] at the start of the iteration: the root or current-directory prefix and the
    rest. *)
Definition path_prefix (p : str) : str * str :=
  match p with
  | c :: r => if is_absolute p || include_cur_dir p then ([c], r) else ([], p)
  | [] => ([], [])
  end.

Fixpoint drop_trivial (l : list str) : list str :=
  match l with c :: r => if trivial_component c then drop_trivial r else l | [] => [] end.

(** [Path::parent]: [next_back] skips trivial components at the end and takes the last one, [as_path] then trims
    trivial components.  Without body components the prefix is what is taken: the root has no parent, the parent
    of the current directory is empty. *)
Definition path_parent (p : str) : option str :=
  let '(pre, body) := path_prefix p in
  match drop_trivial (rev (split (ch "/") body)) with
  | _ :: rest => Some (pre ++ join $"/" (rev (drop_trivial rest)))
  | [] => if include_cur_dir p then Some [] else None
  end.

(** [PathBuf::pop]: truncate to the parent. *)
Definition path_pop (p : str) : bool * str :=
  match path_parent p with Some q => (true, q) | None => (false, p) end.

(** [PathBuf::push] on Unix: an absolute path replaces, otherwise a separator is added unless the path is empty or
    already ends with one. *)
Definition path_push (p q : str) : str :=
  if is_absolute q then q
  else if str_eqb p [] || ends_with $"/" p then p ++ q
  else p ++ $"/" ++ q.

(** [Path::components().next()] is [CurDir] or [ParentDir]. *)
Definition starts_with_dots (p : str) : bool :=
  if is_absolute p then false
  else if include_cur_dir p then true
  else match drop_trivial (split (ch "/") p) with c :: _ => str_eqb c $".." | [] => false end.

(** [HostPathError], volumes.rs 647-652. *)
Inductive host_path_error := HostPathError.

(** [HostPath::new], volumes.rs 599-612. *)
Definition host_path_new (p : str) : result host_path_error str :=
  if is_absolute p || starts_with_dots p then Ok p else Err HostPathError.

(** [AbsolutePath::pop], volumes.rs 322-324, and [HostPath::pop], 638-644. *)
Definition absolute_path_pop (p : str) : bool * str := path_pop p.
Definition host_path_pop (p : str) : bool * str :=
  if match path_parent p with Some q => str_eqb q [] | None => false end then (false, p) else path_pop p.

(** A history of [push] (volumes.rs 349-351) and [pop] calls. *)
Inductive path_op := Push (q : str) | Pop.
Definition absolute_path_op (p : str) (o : path_op) : str :=
  match o with Push q => path_push p q | Pop => snd (absolute_path_pop p) end.
Definition host_path_op (p : str) (o : path_op) : str :=
  match o with Push q => path_push p q | Pop => snd (host_path_pop p) end.
