(** Model of [src/service/image.rs] and [src/service/image/{tag,digest,name}.rs].

    Byte offsets are kept exactly as in the code: an [image] is the text plus two cached byte
    positions, slices are taken with [split_at], which panics past the end or off a character
    boundary.  [usize] subtraction depends on the build profile ([checks = true]: debug, panics on
    underflow; [checks = false]: release, wraps modulo 2^64).  [usize] addition is unbounded: a
    [String] never has more than [isize::MAX] bytes. *)

From Coq Require Import String Ascii List NArith Bool.
Import ListNotations.
From Verif Require Import Base Num KeysModel.
Open Scope N_scope.

(** [char_is_alnum], image.rs 711-713. *)
Definition char_is_alnum (c : char) : bool := is_lower c || is_digit c.

(** [str::starts_with(fn)] and [str::ends_with(fn)]. *)
Definition starts_with_p (p : char -> bool) (s : str) : bool :=
  match s with c :: _ => p c | [] => false end.
Definition ends_with_p (p : char -> bool) (s : str) : bool := starts_with_p p (rev s).

(** ** Tags, image/tag.rs *)

(** [InvalidTagError], tag.rs 70-90. *)
Inductive tag_error := TECharacter (c : char) | TEEmpty | TELength.

(** The characters of [Tag::new], tag.rs 48. *)
Definition tag_char (c : char) : bool :=
  is_lower c || is_upper c || is_digit c || (c =? ch ".") || (c =? ch "_") || (c =? ch "-").

(** The loop of [Tag::new], tag.rs 47-51. *)
Definition tag_chars (s : str) : result tag_error unit := check_chars tag_char TECharacter s.

(** [Tag::new], tag.rs 43-61. *)
Definition tag_new (s : str) : result tag_error str :=
  _ <- tag_chars s ;;
  match s with
  | [] => Err TEEmpty
  | _ => if 128 <? blen s then Err TELength else Ok s
  end.

(** ** Digests, image/digest.rs *)

(** [InvalidDigestError], digest.rs 113-150. *)
Inductive digest_error :=
| DEMissingAlgorithm | DEAlgorithmSeparators | DEAlgorithmCharacter (c : char) | DEAlgorithmStart | DEAlgorithmEnd
| DEEncodeCharacter (c : char) | DEEncodeEmpty.

(** The algorithm loop of [Digest::new], digest.rs 64-82.  [separators] is a [u8] that never passes 2. *)
Fixpoint algorithm_chars (separators : N) (s : str) : result digest_error unit :=
  match s with
  | [] => Ok tt
  | c :: r =>
      if is_lower c || is_digit c then algorithm_chars 0 r
      else if (c =? ch "+") || (c =? ch ".") || (c =? ch "_") || (c =? ch "-") then
        if separators + 1 <=? 1 then algorithm_chars (separators + 1) r else Err DEAlgorithmSeparators
      else Err (DEAlgorithmCharacter c)
  end.

(** The characters of the encoded part, digest.rs 85. *)
Definition encode_char (c : char) : bool :=
  is_lower c || is_upper c || is_digit c || (c =? ch "=") || (c =? ch "_") || (c =? ch "-").

(** The encoded loop of [Digest::new], digest.rs 84-88. *)
Definition encode_chars (s : str) : result digest_error unit := check_chars encode_char DEEncodeCharacter s.

(** [Digest::new], digest.rs 56-101. *)
Definition digest_new (s : str) : result digest_error str :=
  match split_once (ch ":") s with
  | None => Err DEMissingAlgorithm
  | Some (algorithm, encoded) =>
      _ <- algorithm_chars 0 algorithm ;;
      _ <- encode_chars encoded ;;
      match algorithm with
      | [] => Err DEMissingAlgorithm
      | _ =>
          if negb (starts_with_p char_is_alnum algorithm) then Err DEAlgorithmStart
          else if negb (ends_with_p char_is_alnum algorithm) then Err DEAlgorithmEnd
          else match encoded with [] => Err DEEncodeEmpty | _ => Ok s end
      end
  end.

(** ** Image names, image/name.rs *)

(** [InvalidNamePartError], name.rs 224-260. *)
Inductive name_error :=
| NERegistryPort (source : int_error) (port : str) | NEMultipleSeparators | NECharacter (c : char)
| NEEmpty | NEStart | NEEnd.

(** The loop of [validate_part], name.rs 174-208, with its three state variables. *)
Fixpoint part_chars (dots underscores : N) (prev_char_dash : bool) (s : str) : result name_error unit :=
  match s with
  | [] => Ok tt
  | c :: r =>
      if is_lower c || is_digit c then part_chars 0 0 false r
      else if c =? ch "-" then
        if (dots =? 0) && (underscores =? 0) then part_chars dots underscores true r
        else Err NEMultipleSeparators
      else if c =? ch "." then
        if (dots + 1 =? 1) && (underscores =? 0) && negb prev_char_dash
        then part_chars (dots + 1) underscores false r
        else Err NEMultipleSeparators
      else if c =? ch "_" then
        if (dots =? 0) && (underscores + 1 <=? 2) && negb prev_char_dash
        then part_chars dots (underscores + 1) false r
        else Err NEMultipleSeparators
      else Err (NECharacter c)
  end.

(** [validate_part], name.rs 170-221. *)
Definition validate_part (s : str) : result name_error unit :=
  _ <- part_chars 0 0 false s ;;
  match s with
  | [] => Err NEEmpty
  | _ =>
      if negb (starts_with_p char_is_alnum s) then Err NEStart
      else if negb (ends_with_p char_is_alnum s) then Err NEEnd
      else Ok tt
  end.

Fixpoint validate_parts (l : list str) : result name_error unit :=
  match l with
  | [] => Ok tt
  | p :: r => _ <- validate_part p ;; validate_parts r
  end.

(** [Name], name.rs 25-32. *)
Record iname := { n_inner : str; n_registry_end : option N }.

(** [Name::new], name.rs 80-109. *)
Definition iname_new (s : str) : result name_error iname :=
  match split (ch "/") s with
  | [] => Ok {| n_inner := s; n_registry_end := None |} (* [split] always yields a first part *)
  | first :: rest =>
      p <- (if contains (ch ".") first then
              match split_once (ch ":") first with
              | Some (host, port) =>
                  match parse_u16 port with
                  | Ok _ => Ok (host, Some (blen first))
                  | Err e => Err (NERegistryPort e port)
                  end
              | None => Ok (first, Some (blen first))
              end
            else Ok (first, None)) ;;
      _ <- validate_part (fst p) ;;
      _ <- validate_parts rest ;;
      Ok {| n_inner := s; n_registry_end := snd p |}
  end.

(** [Name::registry], name.rs 135-144. *)
Definition iname_registry (n : iname) : may_panic (option str) :=
  match n_registry_end n with
  | None => Ret None
  | Some e => p <! split_at e (n_inner n) ;; Ret (Some (fst p))
  end.

(** ** Images, image.rs *)

(** [TagOrDigest], image.rs 627-633. The texts have been validated by [tag_new] or [digest_new]. *)
Inductive tag_or_digest := TTag (t : str) | TDigest (d : str).

(** [TagOrDigestStart], image.rs 577-603. *)
Inductive tod_start := STag (n : N) | SDigest (n : N).
Definition start_pos (x : tod_start) : N := match x with STag n | SDigest n => n end.

(** [TagOrDigest::separator] 658-663, [AsRef<str>] 701-708, [as_start] 674-681, [push_to_string] 684-687. *)
Definition tod_separator (t : tag_or_digest) : char := match t with TTag _ => ch ":" | TDigest _ => ch "@" end.
Definition tod_str (t : tag_or_digest) : str := match t with TTag s | TDigest s => s end.
Definition as_start (t : tag_or_digest) (name_end : N) : tod_start :=
  match t with TTag _ => STag (name_end + 1) | TDigest _ => SDigest (name_end + 1) end.
Definition push_tod (t : tag_or_digest) (s : str) : str := s ++ tod_separator t :: tod_str t.

(** [Image], image.rs 28-42. Equality, order and hash look at [i_inner] only (497-533). *)
Record image := { i_inner : str; i_registry_end : option N; i_start : option tod_start }.

(** [InvalidImageError], image.rs 480-495. *)
Inductive image_error := IEDigest (e : digest_error) | IETag (e : tag_error) | IETagAndDigest | IEName (e : name_error).

(** [Image::parse_impl], image.rs 89-116. *)
Definition image_parse_impl (image : str) : result image_error (option N * option tod_start) :=
  p <- (match split_once (ch "@") image with
        | None => Ok (image, None)
        | Some (image, digest) =>
            match digest_new digest with Ok _ => Ok (image, Some (blen image + 1)) | Err e => Err (IEDigest e) end
        end) ;;
  let (image, digest_start) := p : str * option N in
  q <- (match (match rsplit_once (ch ":") image with
               | Some (i, t) => if contains (ch "/") t then None else Some (i, t)
               | None => None
               end) with
        | None => Ok (image, None)
        | Some (image, tag) =>
            match tag_new tag with Ok _ => Ok (image, Some (blen image + 1)) | Err e => Err (IETag e) end
        end) ;;
  let (image, tag_start) := q : str * option N in
  t <- (match digest_start, tag_start with
        | None, None => Ok None
        | None, Some t => Ok (Some (STag t))
        | Some d, None => Ok (Some (SDigest d))
        | Some _, Some _ => Err IETagAndDigest
        end) ;;
  match iname_new image with
  | Ok name => Ok (n_registry_end name, t)
  | Err e => Err (IEName e)
  end.

(** [Image::parse], image.rs 75-86. *)
Definition image_parse (s : str) : result image_error image :=
  p <- image_parse_impl s ;; Ok {| i_inner := s; i_registry_end := fst p; i_start := snd p |}.

(** [Image::from_parts], image.rs 132-154. The position is computed from [inner.len()] after the tag or
    digest has been pushed. *)
Definition image_from_parts (name : iname) (t : option tag_or_digest) : image :=
  match t with
  | None => {| i_inner := n_inner name; i_registry_end := n_registry_end name; i_start := None |}
  | Some t =>
      let inner := push_tod t (n_inner name) in
      {| i_inner := inner; i_registry_end := n_registry_end name; i_start := Some (as_start t (blen inner)) |}
  end.

(** [usize] subtraction. *)
Definition usize_sub (checks : bool) (a b : N) : may_panic N :=
  if b <=? a then Ret (a - b) else if checks then Panic else Ret (a + (U64_MAX + 1) - b).

(** [&s[..end]] and [&s[start..]]. *)
Definition slice_to (s : str) (e : N) : may_panic str := p <! split_at e s ;; Ret (fst p).
Definition slice_from (s : str) (n : N) : may_panic str := p <! split_at n s ;; Ret (snd p).

(** [String::replace_range(..end, new)] and [String::replace_range(start.., new)]. *)
Definition replace_to (s : str) (e : N) (new : str) : may_panic str := p <! split_at e s ;; Ret (new ++ snd p).
Definition replace_from (s : str) (n : N) (new : str) : may_panic str := p <! split_at n s ;; Ret (fst p ++ new).

(** [String::truncate]: no effect past the end, panics off a character boundary. *)
Definition truncate (s : str) (n : N) : may_panic str := if n <=? blen s then slice_to s n else Ret s.

(** [Image::registry], image.rs 178-187. *)
Definition image_registry (i : image) : may_panic (option str) :=
  match i_registry_end i with
  | None => Ret None
  | Some e => r <! slice_to (i_inner i) e ;; Ret (Some r)
  end.

(** [Image::name_end], image.rs 289-293. *)
Definition name_end (checks : bool) (i : image) : may_panic N :=
  match i_start i with None => Ret (blen (i_inner i)) | Some s => usize_sub checks (start_pos s) 1 end.

(** [Image::name], image.rs 251-258. *)
Definition image_name (checks : bool) (i : image) : may_panic str :=
  e <! name_end checks i ;; slice_to (i_inner i) e.

(** [Image::as_name], image.rs 262-264. *)
Definition image_as_name (checks : bool) (i : image) : may_panic iname :=
  n <! image_name checks i ;; Ret {| n_inner := n; n_registry_end := i_registry_end i |}.

(** [Image::tag], image.rs 306-317. *)
Definition image_tag (i : image) : may_panic (option str) :=
  match i_start i with
  | Some (STag s) => t <! slice_from (i_inner i) s ;; Ret (Some t)
  | _ => Ret None
  end.

(** [Image::digest], image.rs 357-368. *)
Definition image_digest (i : image) : may_panic (option str) :=
  match i_start i with
  | Some (SDigest s) => t <! slice_from (i_inner i) s ;; Ret (Some t)
  | _ => Ret None
  end.

(** [Image::as_tag_or_digest], image.rs 397-419. *)
Definition image_tag_or_digest (i : image) : may_panic (option tag_or_digest) :=
  match i_start i with
  | Some (STag s) => t <! slice_from (i_inner i) s ;; Ret (Some (TTag t))
  | Some (SDigest s) => t <! slice_from (i_inner i) s ;; Ret (Some (TDigest t))
  | None => Ret None
  end.

(** [Image::as_parts], image.rs 466-468. *)
Definition image_as_parts (checks : bool) (i : image) : may_panic (iname * option tag_or_digest) :=
  n <! image_as_name checks i ;; t <! image_tag_or_digest i ;; Ret (n, t).

(** [AddAssign] and [SubAssign] for [TagOrDigestStart], image.rs 614-624. *)
Definition map_start (f : N -> may_panic N) (x : tod_start) : may_panic tod_start :=
  match x with
  | STag n => m <! f n ;; Ret (STag m)
  | SDigest n => m <! f n ;; Ret (SDigest m)
  end.

(** [Image::update_tag_or_digest_start], image.rs 454-462. *)
Definition update_start (checks : bool) (x : option tod_start) (old_len new_len : N) : may_panic (option tod_start) :=
  match x with
  | None => Ret None
  | Some s =>
      r <! match old_len ?= new_len with
           | Lt => map_start (fun n => Ret (n + (new_len - old_len))) s
           | Eq => Ret s
           | Gt => map_start (fun n => usize_sub checks n (old_len - new_len)) s
           end ;;
      Ret (Some r)
  end.

(** [Image::set_registry], image.rs 210-238. *)
Definition image_set_registry (checks : bool) (i : image) (registry : option iname) : may_panic image :=
  match registry, i_registry_end i with
  | Some registry, Some e =>
      inner <! replace_to (i_inner i) e (n_inner registry) ;;
      let new_len := blen (n_inner registry) in
      s <! update_start checks (i_start i) e new_len ;;
      Ret {| i_inner := inner; i_registry_end := Some new_len; i_start := s |}
  | Some registry, None =>
      let inner := n_inner registry ++ $"/" ++ i_inner i in
      s <! update_start checks (i_start i) 0 (blen (n_inner registry) + 1) ;;
      Ret {| i_inner := inner; i_registry_end := Some (blen (n_inner registry)); i_start := s |}
  | None, Some e =>
      inner <! replace_to (i_inner i) (e + 1) [] ;;
      s <! update_start checks (i_start i) (e + 1) 0 ;;
      Ret {| i_inner := inner; i_registry_end := None; i_start := s |}
  | None, None => Ret i
  end.

(** [Image::set_name], image.rs 279-286. *)
Definition image_set_name (checks : bool) (i : image) (name : iname) : may_panic image :=
  e <! name_end checks i ;;
  inner <! replace_to (i_inner i) e (n_inner name) ;;
  s <! update_start checks (i_start i) e (blen (n_inner name)) ;;
  Ret {| i_inner := inner; i_registry_end := n_registry_end name; i_start := s |}.

(** [Image::set_tag_or_digest], image.rs 422-449. *)
Definition image_set_tod (checks : bool) (i : image) (t : option tag_or_digest) : may_panic image :=
  match t, i_start i with
  | Some (TTag t), Some (STag s) =>
      inner <! replace_from (i_inner i) s t ;;
      Ret {| i_inner := inner; i_registry_end := i_registry_end i; i_start := i_start i |}
  | Some (TDigest d), Some (SDigest s) =>
      inner <! replace_from (i_inner i) s d ;;
      Ret {| i_inner := inner; i_registry_end := i_registry_end i; i_start := i_start i |}
  | Some t, _ =>
      e <! name_end checks i ;;
      inner <! truncate (i_inner i) e ;;
      Ret {| i_inner := push_tod t inner; i_registry_end := i_registry_end i; i_start := Some (as_start t (blen inner)) |}
  | None, Some s =>
      e <! usize_sub checks (start_pos s) 1 ;;
      inner <! truncate (i_inner i) e ;;
      Ret {| i_inner := inner; i_registry_end := i_registry_end i; i_start := None |}
  | None, None => Ret i
  end.

(** [Image::set_tag] 340-342 and [Image::set_digest] 391-393. *)
Definition image_set_tag (checks : bool) (i : image) (t : option str) : may_panic image :=
  image_set_tod checks i (option_map TTag t).
Definition image_set_digest (checks : bool) (i : image) (d : option str) : may_panic image :=
  image_set_tod checks i (option_map TDigest d).
