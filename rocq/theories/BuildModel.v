(** Build caches and SSH authentications. No proofs in this file. *)

From Coq Require Import String Ascii List NArith Bool.
Import ListNotations.
From Verif Require Import Base Coll KeysModel ImageModel Serde.
Open Scope N_scope.

(** [CacheType], build/cache.rs 220-226. *)
Inductive cache_type := CtRegistry (i : image) | CtOther (s : str).

(** [Cache], build/cache.rs 24-29. The options are an [IndexMap]. *)
Record cache := mk_cache { c_type : cache_type; c_options : list (str * str) }.

(** [ParseCacheError], build/cache.rs 155-172. *)
Inductive cache_error :=
| CeImage (e : image_error) | CeTypeFirst | CeOption (e : cache_option_error) | CeMissingRef.

(** The closure of [parse_str], build/cache.rs 69-72. *)
Definition cache_option_parse (option : str) : result cache_error (str * str) :=
  let '(key, value) := match split_once (ch "=") option with Some p => p | None => (option, []) end in
  key <- map_err CeOption (cache_option_new key) ;;
  value <- map_err CeOption (cache_option_new value) ;;
  Ok (key, value).

(** [IndexMap::shift_remove]. *)
Fixpoint imap_shift_remove {V} (m : list (str * V)) (k : str) : option V * list (str * V) :=
  match m with
  | [] => (None, [])
  | (k', v) :: r =>
      if str_eqb k k' then (Some v, r) else let '(o, r') := imap_shift_remove r k in (o, (k', v) :: r')
  end.

(** [Cache::parse_str], build/cache.rs 57-89. *)
Definition cache_parse_str (s : str) : result cache_error cache :=
  match split (ch ",") s with
  | [] => Err CeTypeFirst (* [expect]: never happens, see [split_nonempty] *)
  | first :: options =>
      ty <- match strip_prefix ($"type=") first with Some t => Ok t | None => Err CeTypeFirst end ;;
      options <- collect cache_option_parse options ;;
      let options := imap_of str_eqb options in
      if str_eqb ty ($"registry") then
        match imap_shift_remove options ($"ref") with
        | (Some r, options) => i <- map_err CeImage (image_parse r) ;; Ok (mk_cache (CtRegistry i) options)
        | (None, _) => Err CeMissingRef
        end
      else t <- map_err CeOption (cache_option_new ty) ;; Ok (mk_cache (CtOther t) options)
  end.

(** [Cache::parse], build/cache.rs 43-54. *)
Definition cache_parse (s : str) : result cache_error cache :=
  if contains (ch ",") s then cache_parse_str s
  else map_ok (fun i => mk_cache (CtRegistry i) []) (map_err CeImage (image_parse s)).

(** [Display for CacheType], build/cache.rs 273-280. *)
Definition cache_type_show (t : cache_type) : str :=
  match t with CtRegistry i => $"type=registry,ref=" ++ i_inner i | CtOther s => $"type=" ++ s end.

(** [Display for Cache], build/cache.rs 189-210. *)
Definition cache_show (c : cache) : str :=
  match c_options c, c_type c with
  | [], CtRegistry i => i_inner i
  | _, _ => cache_type_show (c_type c)
            ++ concat (map (fun kv => $"," ++ fst kv ++ $"=" ++ snd kv) (c_options c))
  end.

(** [IndexMap::shift_insert] at index 0: an equal key already present is moved and gets the new value. *)
Definition imap_shift_insert0 {V} (m : list (str * V)) (k : str) (v : V) : list (str * V) :=
  (k, v) :: snd (imap_shift_remove m k).

(** [Cache::into_options], build/cache.rs 125-149. *)
Definition cache_into_options (c : cache) : list (str * str) :=
  match c_type c with
  | CtRegistry i =>
      imap_shift_insert0 (imap_shift_insert0 (c_options c) ($"ref") (i_inner i)) ($"type") ($"registry")
  | CtOther t => imap_shift_insert0 (c_options c) ($"type") t
  end.

Definition cache_serialize (c : cache) : sval := VStr (cache_show c).
Definition cache_deserialize (v : sval) : result de_error cache := from_string cache_parse v.

(** [ssh_auth::Id], build/ssh_auth.rs 92-97; the path is kept as text (a path which is not
    UTF-8 is not modelled). *)
Record ssh_id := mk_ssh_id { ssh_id_id : str; ssh_id_path : str }.

(** [SshAuth], build/ssh_auth.rs 19-26. *)
Inductive ssh_auth := SshDefault | SshId (i : ssh_id).

(** [IdError]. *)
Inductive ssh_id_error := EmptyId | MissingPath.

(** [Id::new], build/ssh_auth.rs 105-123. *)
Definition ssh_id_new (id path : str) : result ssh_id_error ssh_id :=
  match id, path with
  | [], _ => Err EmptyId
  | _, [] => Err MissingPath
  | _, _ => Ok (mk_ssh_id id path)
  end.

(** [FromStr for Id], build/ssh_auth.rs 138-146. *)
Definition ssh_id_parse (s : str) : result ssh_id_error ssh_id :=
  match split_once (ch "=") s with
  | Some (id, path) => ssh_id_new id path
  | None => Err MissingPath
  end.

(** [Display for Id], build/ssh_auth.rs 148-156. *)
Definition ssh_id_show (i : ssh_id) : str := ssh_id_id i ++ $"=" ++ ssh_id_path i.

(** [FromStr for SshAuth], build/ssh_auth.rs 64-73. *)
Definition ssh_auth_parse (s : str) : result ssh_id_error ssh_auth :=
  if str_eqb s ($"default") then Ok SshDefault else map_ok SshId (ssh_id_parse s).

(** [Display for SshAuth], build/ssh_auth.rs 75-82. *)
Definition ssh_auth_show (a : ssh_auth) : str :=
  match a with SshDefault => $"default" | SshId i => ssh_id_show i end.
