(** The questions about git URLs of [src/service/build/context.rs]. The [url] crate is not modelled: scheme, path and fragment of a URL
    are functions of its text. No proofs in this file. *)

From Coq Require Import String Ascii List NArith Bool.
Import ListNotations.
From Verif Require Import Base PathModel ValuesModel EqModel ServiceParts.
Open Scope N_scope.

(** [Path::file_name]: the last component if it is a normal one. *)
Definition file_name (p : str) : option str :=
  match rev (path_components p) with c :: _ => if str_eqb c $".." then None else Some c | [] => None end.
(** [Path::extension], with [rsplit_file_at_dot]. *)
Definition extension (p : str) : option str :=
  match file_name p with
  | Some f => match rsplit_once (ch ".") f with Some (before, after) => if str_eqb before [] then None else Some after | None => None end
  | None => None
  end.
(** [str::eq_ignore_ascii_case]. *)
Definition same_ignoring_case (a b : str) : bool := str_eqb (map to_lower a) (map to_lower b).

Section url.
Context (url_scheme url_path : str -> str) (url_fragment : str -> option str).

(** [Context::as_url], 71-77. *)
Definition as_url (c : context) : option str := match c with CtxUrl u => Some u | CtxPath _ => None end.
(** [Context::is_git_repo_url], 83-91. *)
Definition is_git_repo_url (c : context) : bool :=
  match as_url c with
  | Some u =>
      (same_ignoring_case (url_scheme u) $"http" || same_ignoring_case (url_scheme u) $"https")
      && match extension (url_path u) with Some e => same_ignoring_case e $"git" | None => false end
  | None => false
  end.
(** [Context::branch_or_tag], 96-108, and [Context::subdirectory], 113-120. *)
Definition branch_or_tag (c : context) : option str :=
  if is_git_repo_url c then
    match as_url c with
    | Some u => match url_fragment u with
                | Some f => match split_once (ch ":") f with Some (b, _) => Some b | None => Some f end
                | None => None
                end
    | None => None
    end
  else None.
Definition subdirectory (c : context) : option str :=
  if is_git_repo_url c then
    match as_url c with
    | Some u => match url_fragment u with
                | Some f => match split_once (ch ":") f with Some (_, s) => Some s | None => None end
                | None => None
                end
    | None => None
    end
  else None.
End url.
