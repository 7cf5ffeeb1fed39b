(** The data model of serde as seen through a YAML-like format: what [Serialize] produces and
    [Deserialize] consumes. The text layer (YAML syntax) is not modelled. No proofs in this file.

    Simplifications: a non-negative integer is given to [visit_u64], a negative one to [visit_i64] (as
    [serde_yaml] does); floats are opaque 64-bit patterns; error messages are not kept. *)

From Coq Require Import List NArith ZArith Bool.
Import ListNotations.
From Verif Require Import Base Num.

Inductive sval :=
| VNull
| VBool (b : bool)
| VInt (z : Z)
| VFloat (bits : N)
| VStr (s : str)
| VSeq (l : list sval)
| VMap (l : list (sval * sval)).

(** Any deserialization error. *)
Inductive de_error := DeError.

(** [forward_visitor!] to [visit_u16], serde.rs 31-39: [v.try_into()] from any integer type. *)
Definition int_to_uint (max : N) (z : Z) : result de_error N :=
  if (0 <=? z)%Z && (z <=? Z.of_N max)%Z then Ok (Z.to_N z) else Err DeError.

(** [FromStrOrU16Visitor], serde.rs 547-624: [of_u16] is [u16::into], [parse] is [FromStr]. The parser may
    panic, so the result is an [outcome]. *)
Definition from_str_or_u16 {E A} (of_u16 : N -> A) (parse : str -> outcome E A) (v : sval) : outcome de_error A :=
  match v with
  | VInt z => lift (map_ok of_u16 (int_to_uint U16_MAX z))
  | VStr s => match parse s with OOk a => OOk a | OErr _ => OErr DeError | OPanic => OPanic end
  | _ => OErr DeError
  end.

(** [FromStrVisitor] and [TryFromStringVisitor], serde.rs 422-545: strings only. *)
Definition from_string {E A} (parse : str -> result E A) (v : sval) : result de_error A :=
  match v with
  | VStr s => map_err (fun _ => DeError) (parse s)
  | _ => Err DeError
  end.
