(** Model of [src/service/byte_value.rs] and [src/service/limit.rs]. No proofs in this file. *)

From Coq Require Import String Ascii List NArith ZArith Bool.
Import ListNotations.
From Verif Require Import Base Num Serde.
Open Scope N_scope.

(** [ByteValue], byte_value.rs 25-35. *)
Inductive byte_value :=
| Bytes (n : N)
| Kilobytes (n : N)
| Megabytes (n : N)
| Gigabytes (n : N).

(** [u64::checked_mul]. *)
Definition checked_mul (a b : N) : option N := if a * b <=? U64_MAX then Some (a * b) else None.

(** [ByteValue::into_bytes], byte_value.rs 42-49. *)
Definition into_bytes (v : byte_value) : option N :=
  match v with
  | Bytes n => Some n
  | Kilobytes n => checked_mul n 1000
  | Megabytes n => checked_mul n 1000000
  | Gigabytes n => checked_mul n 1000000000
  end.

(** [ByteValue::unit], byte_value.rs 53-60. *)
Definition unit_str (v : byte_value) : str :=
  match v with
  | Bytes _ => $"b"
  | Kilobytes _ => $"kb"
  | Megabytes _ => $"mb"
  | Gigabytes _ => $"gb"
  end.

(** [ParseByteValueError], byte_value.rs 110-131. *)
Inductive byte_value_error :=
| BvEmpty
| BvUnknownUnit (s : str)
| BvParseInt (e : int_error) (s : str).

(** [parse_u64], byte_value.rs 99-107. *)
Definition parse_u64_as (f : N -> byte_value) (s : str) : result byte_value_error byte_value :=
  match Num.parse_u64 s with
  | Ok n => Ok (f n)
  | Err e => Err (BvParseInt e s)
  end.

(** [s.strip_suffix([a, b])]: a suffix of one character out of two. *)
Definition strip_suffix2 (a b : char) (s : str) : option str :=
  match strip_suffix [a] s with
  | Some r => Some r
  | None => strip_suffix [b] s
  end.

(** [Option::or_else]. *)
Definition or_else {A} (a b : option A) : option A := match a with Some _ => a | None => b end.

(** [FromStr for ByteValue], byte_value.rs 69-92. *)
Definition byte_value_parse (s : str) : result byte_value_error byte_value :=
  match s with
  | [] => Err BvEmpty
  | _ =>
    match Num.parse_u64 s with
    | Ok n => Ok (Bytes n)
    | Err _ =>
      match or_else (strip_suffix $"gb" s) (strip_suffix2 (ch "g") (ch "G") s) with
      | Some r => parse_u64_as Gigabytes r
      | None =>
        match or_else (strip_suffix $"mb" s) (strip_suffix2 (ch "m") (ch "M") s) with
        | Some r => parse_u64_as Megabytes r
        | None =>
          match or_else (strip_suffix $"kb" s) (strip_suffix2 (ch "k") (ch "K") s) with
          | Some r => parse_u64_as Kilobytes r
          | None =>
            match strip_suffix2 (ch "b") (ch "B") s with
            | Some r => parse_u64_as Bytes r
            | None => Err (BvUnknownUnit s)
            end
          end
        end
      end
    end
  end.

(** [Display for ByteValue], byte_value.rs 133-143. *)
Definition byte_value_show (v : byte_value) : str :=
  match v with Bytes n | Kilobytes n | Megabytes n | Gigabytes n => show_N n ++ unit_str v end.

(** [SerializeDisplay], byte_value.rs 25. *)
Definition byte_value_serialize (v : byte_value) : sval := VStr (byte_value_show v).

(** [Visitor], byte_value.rs 154-169: a [u64] or a string. Integers outside [u64] do not reach [visit_u64]. *)
Definition byte_value_deserialize (v : sval) : result de_error byte_value :=
  match v with
  | VInt z => map_ok Bytes (int_to_uint U64_MAX z)
  | VStr s => map_err (fun _ => DeError) (byte_value_parse s)
  | _ => Err DeError
  end.

(** [Limit<T>], limit.rs 18-28. *)
Inductive limit (T : Type) :=
| LimitValue (v : T)
| Unlimited.
Arguments LimitValue {T} v.
Arguments Unlimited {T}.

(** [Display for Limit<T>], limit.rs 48-55. *)
Definition limit_show {T} (show : T -> str) (l : limit T) : str :=
  match l with LimitValue v => show v | Unlimited => $"-1" end.

(** [FromStr for Limit<T>], limit.rs 57-67. *)
Definition limit_parse {E T} (parse : str -> result E T) (s : str) : result E (limit T) :=
  if str_eqb s $"-1" then Ok Unlimited else map_ok LimitValue (parse s).

(** [Serialize for Limit<T>], limit.rs 69-76. *)
Definition limit_serialize {T} (ser : T -> sval) (l : limit T) : sval :=
  match l with LimitValue v => ser v | Unlimited => VInt (-1) end.

(** [Visitor<T>] of [Limit<T>], limit.rs 84-126. [de] is [T::deserialize] on an integer or string
    deserializer. *)
Definition limit_deserialize {T} (de : sval -> result de_error T) (v : sval) : result de_error (limit T) :=
  match v with
  | VInt z => if (z <=? -2)%Z then Err DeError
              else if (z =? -1)%Z then Ok Unlimited
              else map_ok LimitValue (de (VInt z))
  | VStr s => if str_eqb s $"-1" then Ok Unlimited else map_ok LimitValue (de (VStr s))
  | _ => Err DeError
  end.

(** serde's own [Serialize]/[Deserialize] for [u32] and [u64]: integers only. *)
Definition uint_serialize (n : N) : sval := VInt (Z.of_N n).
Definition uint_deserialize (max : N) (v : sval) : result de_error N :=
  match v with VInt z => int_to_uint max z | _ => Err DeError end.

(** [Ulimit], ulimit.rs 80-92, with its extensions, as key-value pairs. *)
Record ulimit := mk_ulimit { ul_soft : limit N; ul_hard : limit N; ul_extensions : list (str * sval) }.

(** [Limit<u64> == Limit<u64>]. *)
Definition limit_eqb (a b : limit N) : bool :=
  match a, b with
  | LimitValue x, LimitValue y => x =? y
  | Unlimited, Unlimited => true
  | _, _ => false
  end.

(** [AsShort for Ulimit], ulimit.rs 94-106. *)
Definition ulimit_as_short (u : ulimit) : option (limit N) :=
  match ul_extensions u with
  | [] => if limit_eqb (ul_soft u) (ul_hard u) then Some (ul_soft u) else None
  | _ => None
  end.

(** [From<Limit<u64>> for Ulimit], ulimit.rs 114-122. *)
Definition ulimit_of_short (l : limit N) : ulimit := mk_ulimit l l [].
