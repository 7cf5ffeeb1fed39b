(** Model of the scalar values and list-or-map syntax of [src/common.rs], and of [extra_hosts] in
    [src/service.rs].

    Floats are opaque 64-bit patterns.  Which texts [f64::from_str] accepts is modelled; the value it gives
    ([float_value]) and [Display for f64] ([float_show]) are parameters. *)

From Coq Require Import String Ascii List NArith ZArith Bool.
Import ListNotations.
From Verif Require Import Base Num Serde Coll KeysModel IpModel.
Open Scope N_scope.

(** [char::eq_ignore_ascii_case] used by [parse_inf_nan]. *)
Definition to_lower (c : char) : char := if is_upper c then c + 32 else c.

(** An optional sign: [strip_prefix(['+', '-'])]. *)
Definition strip_sign (s : str) : str :=
  match s with c :: r => if (c =? ch "+") || (c =? ch "-") then r else s | [] => [] end.

(** [core::num::dec2flt]: the exponent [[eE][+-]?[0-9]+], or nothing. *)
Definition is_exponent (s : str) : bool :=
  match s with
  | [] => true
  | c :: r =>
      ((c =? ch "e") || (c =? ch "E")) &&
      match strip_sign r with [] => false | ds => forallb is_digit ds end
  end.

(** [dec2flt::parse_number] after the sign: digits with at most one dot, at least one digit, exponent. *)
Definition is_decimal (s : str) : bool :=
  let (int, r) := span is_digit s in
  match r with
  | c :: r' =>
      if c =? ch "." then
        let (frac, e) := span is_digit r' in
        negb (match int ++ frac with [] => true | _ => false end) && is_exponent e
      else negb (match int with [] => true | _ => false end) && is_exponent r
  | [] => negb (match int with [] => true | _ => false end)
  end.

(** The texts accepted by [f64::from_str]. *)
Definition is_float_text (s : str) : bool :=
  let t := strip_sign s in
  is_decimal t || existsb (str_eqb (map to_lower t)) [$"inf"; $"infinity"; $"nan"].

(** [Number], common.rs 522-538. *)
Inductive number := UnsignedInt (n : N) | SignedInt (z : Z) | Float (bits : N).

(** [Value], common.rs 287-297, and [StringOrNumber], common.rs 748-754. *)
Inductive value := VString (s : str) | VNumber (n : number) | VBoolean (b : bool).
Inductive string_or_number := SString (s : str) | SNumber (n : number).

(** [ParseNumberError], common.rs 654-663. *)
Inductive number_error := NumInt (e : int_error) | NumFloat.

(** [bool::from_str]. *)
Definition bool_parse (s : str) : option bool :=
  if str_eqb s $"true" then Some true else if str_eqb s $"false" then Some false else None.
Definition bool_show (b : bool) : str := if b then $"true" else $"false".

Section Floats.
  Variable float_value : str -> N.
  Variable float_show : N -> str.

  (** [FromStr for Number], common.rs 627-643. *)
  Definition number_parse (s : str) : result number_error number :=
    if existsb (fun c => negb (is_digit c)) (strip_sign s) then
      if is_float_text s then Ok (Float (float_value s)) else Err NumFloat
    else if starts_with $"-" s then map_err NumInt (map_ok SignedInt (parse_i64 s))
    else map_err NumInt (map_ok UnsignedInt (parse_u64 s)).

  (** [Display for Number], common.rs 665-673. *)
  Definition number_show (n : number) : str :=
    match n with UnsignedInt n => show_N n | SignedInt z => show_Z z | Float b => float_show b end.

  (** [Value::parse], common.rs 306-315. *)
  Definition value_parse (s : str) : value :=
    match bool_parse s with
    | Some b => VBoolean b
    | None => match number_parse s with Ok n => VNumber n | Err _ => VString s end
    end.

  (** [Display for Value], common.rs 378-386. *)
  Definition value_show (v : value) : str :=
    match v with VString s => s | VNumber n => number_show n | VBoolean b => bool_show b end.

  (** [StringOrNumber::parse], common.rs 761-769, and its [Display], common.rs 863-870. *)
  Definition string_or_number_parse (s : str) : string_or_number :=
    match number_parse s with Ok n => SNumber n | Err _ => SString s end.
  Definition string_or_number_show (v : string_or_number) : str :=
    match v with SString s => s | SNumber n => number_show n end.

  (** [TryFrom<Value> for Number], common.rs 452-462; [TryFrom<StringOrNumber> for Number], 881-890. *)
  Definition value_to_number (v : value) : result number_error number :=
    match v with VString s => number_parse s | VNumber n => Ok n | VBoolean b => Ok (UnsignedInt (if b then 1 else 0)) end.
  Definition string_or_number_to_number (v : string_or_number) : result number_error number :=
    match v with SString s => number_parse s | SNumber n => Ok n end.

  (** [TryFromNumberError] 731-742 and [TryFromValueError] 499-516. *)
  Inductive try_from_error := TFParse (e : number_error) | TFFloatToInt | TFInt | TFIntoBool.

  (** [TryFrom<Number> for u64], 695-705, [for i64], 707-717. *)
  Definition number_to_u64 (n : number) : result try_from_error N :=
    match n with
    | UnsignedInt n => Ok n
    | SignedInt z => if (0 <=? z)%Z then Ok (Z.to_N z) else Err TFInt
    | Float _ => Err TFFloatToInt
    end.
  Definition number_to_i64 (n : number) : result try_from_error Z :=
    match n with
    | UnsignedInt n => if n <=? I64_MAX then Ok (Z.of_N n) else Err TFInt
    | SignedInt z => Ok z
    | Float _ => Err TFFloatToInt
    end.

  (** [f64::from(u32)] and [f64::from(i32)]: the bits of an integer below 2^53 in absolute value. *)
  Definition f64_of_int (z : Z) : N :=
    match z with
    | Z0 => 0
    | _ =>
        let m := Z.abs_N z in
        let e := N.log2 m in
        (if (z <? 0)%Z then 2 ^ 63 else 0) + (e + 1023) * 2 ^ 52 + (m * 2 ^ (52 - e) - 2 ^ 52)
    end.

  (** [TryFrom<Number> for f64], 719-729: only integers that fit 32 bits. *)
  Definition number_to_f64 (n : number) : result try_from_error N :=
    match n with
    | UnsignedInt n => if n <=? U32_MAX then Ok (f64_of_int (Z.of_N n)) else Err TFInt
    | SignedInt z => if ((-2147483648 <=? z) && (z <=? 2147483647))%Z then Ok (f64_of_int z) else Err TFInt
    | Float b => Ok b
    end.

  (** [TryFrom<Value> for u64], [for i64], [for f64] 464-486 and [for bool] 488-497. *)
  Definition value_to_u64 (v : value) : result try_from_error N :=
    n <- map_err TFParse (value_to_number v) ;; number_to_u64 n.
  Definition value_to_i64 (v : value) : result try_from_error Z :=
    n <- map_err TFParse (value_to_number v) ;; number_to_i64 n.
  Definition value_to_f64 (v : value) : result try_from_error N :=
    n <- map_err TFParse (value_to_number v) ;; number_to_f64 n.
  Definition value_to_bool (v : value) : result try_from_error bool :=
    match v with VBoolean b => Ok b | _ => Err TFIntoBool end.

  (** [Map] and [ListOrMap], common.rs 145-160. *)
  Definition vmap := list (str * option value).
  Inductive list_or_map := LList (l : list str) | LMap (m : vmap).

  (** [ListOrMap::into_list], common.rs 194-208. *)
  Definition entry_text (p : str * option value) : str :=
    match snd p with Some v => fst p ++ $"=" ++ value_show v | None => fst p end.
  Definition into_list (x : list_or_map) : list str :=
    match x with LList l => l | LMap m => iset_of str_eqb (map entry_text m) end.

  (** The closure of [ListOrMap::into_map_split_on], common.rs 238-246. *)
  Definition item_entry (delims : list char) (item : str) : result map_key_error (str * option value) :=
    let (key, v) := match split_once_p (fun c => existsb (N.eqb c) delims) item with
                    | Some (k, v) => (k, Some v)
                    | None => (item, None)
                    end in
    k <- map_key_new key ;;
    Ok (k, match v with Some (c :: r) => Some (value_parse (c :: r)) | _ => None end).

  (** [ListOrMap::into_map_split_on] 234-250 and [into_map] 221-223. *)
  Definition into_map_split_on (delims : list char) (x : list_or_map) : result map_key_error vmap :=
    match x with
    | LList l => map_ok (imap_of str_eqb) (collect (item_entry delims) l)
    | LMap m => Ok m
    end.
  Definition into_map := into_map_split_on [ch "="].

  (** [strip_brackets], service.rs 1087-1091. *)
  Definition strip_brackets (s : str) : str :=
    match strip_prefix $"[" s with
    | Some r => match strip_suffix $"]" r with Some t => t | None => s end
    | None => s
    end.

  (** The closure of [extra_hosts], service.rs 1069-1078. *)
  Definition extra_host (p : str * option value) : result de_error (str * ip_addr) :=
    match snd p with
    | Some (VString v) =>
        match hostname_new (fst p) with
        | Err _ => Err DeError
        | Ok h => match ip_parse (strip_brackets v) with Some ip => Ok (h, ip) | None => Err DeError end
        end
    | _ => Err DeError
    end.

  (** [extra_hosts], service.rs 1059-1080, after [ListOrMap::deserialize]. *)
  Definition extra_hosts (x : list_or_map) : result de_error (list (str * ip_addr)) :=
    m <- map_err (fun _ => DeError) (into_map_split_on [ch "="; ch ":"] x) ;;
    l <- collect extra_host m ;;
    Ok (imap_of str_eqb l).
End Floats.
