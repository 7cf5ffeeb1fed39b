(** Validated strings: models of
    - /repo/src/name.rs (project [Name]),
    - /repo/src/common/keys.rs ([Identifier], [MapKey], [ExtensionKey]),
    - /repo/src/service/hostname.rs ([Hostname]),
    - /repo/src/service/ulimit.rs (ulimit [Resource]),
    - /repo/src/service/build/cache.rs ([CacheOption]).
    A value of one of these newtypes is the string it wraps; [Display] prints that string. The
    [FromStr]/[TryFrom] implementations all call [new]. *)

From Coq Require Import String Ascii List NArith ZArith Bool.
Import ListNotations.
From Verif Require Import Base Num.
Open Scope N_scope.

(** [for char in chars { if !ok(char) { return Err(err(char)) } }]. *)
Fixpoint check_chars {E} (p : char -> bool) (err : char -> E) (s : str) : result E unit :=
  match s with
  | [] => Ok tt
  | c :: r => if p c then check_chars p err r else Err (err c)
  end.

(** [InvalidNameError], name.rs 62-85; [InvalidIdentifierError], keys.rs. Same shape. *)
Inductive key_error := KeyEmpty | KeyStart (c : char) | KeyCharacter (c : char).

(** [Name::new], name.rs 30-49. *)
Definition name_new (s : str) : result key_error str :=
  match s with
  | [] => Err KeyEmpty
  | first :: chars =>
      if negb (is_lower first || is_digit first) then Err (KeyStart first)
      else _ <- check_chars (fun c => is_lower c || is_digit c || (c =? ch "_") || (c =? ch "-")) KeyCharacter chars ;;
           Ok s
  end.

(** [Identifier::new], keys.rs 25-44. *)
Definition identifier_new (s : str) : result key_error str :=
  match s with
  | [] => Err KeyEmpty
  | first :: chars =>
      if negb (is_alnum first) then Err (KeyStart first)
      else _ <- check_chars (fun c => is_alnum c || (c =? ch ".") || (c =? ch "_") || (c =? ch "-")) KeyCharacter chars ;;
           Ok s
  end.

(** [InvalidMapKeyError], keys.rs 107-115. *)
Inductive map_key_error := MapKeyEmpty | MapKeyMultipleLines.

(** [MapKey::new], keys.rs 89-103. *)
Definition map_key_new (s : str) : result map_key_error str :=
  match s with
  | [] => Err MapKeyEmpty
  | _ => if contains 10 s then Err MapKeyMultipleLines else Ok s
  end.

(** [InvalidExtensionKeyError], keys.rs 163-171. *)
Inductive ext_key_error := ExtMissingPrefix (s : str) | ExtMultipleLines.

(** [ExtensionKey::new], keys.rs 136-150. *)
Definition extension_key_new (s : str) : result ext_key_error str :=
  if negb (starts_with $"x-" s) then Err (ExtMissingPrefix s)
  else if contains 10 s then Err ExtMultipleLines
  else Ok s.

(** [ExtensionKey::strip_prefix], keys.rs 155-159; the [expect] is the [Panic] branch. *)
Definition extension_key_strip_prefix (k : str) : may_panic str :=
  match strip_prefix $"x-" k with Some r => Ret r | None => Panic end.

(** [InvalidHostnameError], hostname.rs 51-67. *)
Inductive hostname_error := HostLabelEmpty | HostCharacter (c : char) | HostLabelStartEnd.

(** Body of the loop of [Hostname::new], hostname.rs 33-44. *)
Definition check_label (label : str) : result hostname_error unit :=
  match label with
  | [] => Err HostLabelEmpty
  | _ => _ <- check_chars (fun c => is_alnum c || (c =? ch "-")) HostCharacter label ;;
         if starts_with $"-" label || ends_with $"-" label then Err HostLabelStartEnd else Ok tt
  end.

(** [Hostname::new], hostname.rs 26-47. *)
Definition hostname_new (s : str) : result hostname_error str :=
  _ <- collect check_label (split (ch ".") s) ;; Ok s.

(** [Resource::new], ulimit.rs 38-55. *)
Definition ulimit_resource_new (s : str) : result key_error str :=
  match s with
  | [] => Err KeyEmpty
  | _ => _ <- check_chars is_lower KeyCharacter s ;; Ok s
  end.

(** [char::is_whitespace] ([std]): the Unicode White_Space property. *)
Definition is_whitespace (c : char) : bool :=
  between 9 13 c || (c =? 32) || (c =? 133) || (c =? 160) || (c =? 5760) || between 8192 8202 c
  || (c =? 8232) || (c =? 8233) || (c =? 8239) || (c =? 8287) || (c =? 12288).

(** [InvalidCacheOptionError], cache.rs 319-328. *)
Inductive cache_option_error := CacheOptionEmpty | CacheOptionWhitespace.

(** [CacheOption::new], cache.rs 299-310. *)
Definition cache_option_new (s : str) : result cache_option_error str :=
  match s with
  | [] => Err CacheOptionEmpty
  | _ => if existsb is_whitespace s then Err CacheOptionWhitespace else Ok s
  end.
