(** Integers: Rust's [{integer}::from_str] and [Display]. No proofs in this file. *)

From Coq Require Import List NArith ZArith Bool.
Import ListNotations.
From Verif Require Import Base.
Open Scope N_scope.

(** [core::num::IntErrorKind]. *)
Inductive int_error := IntEmpty | IntInvalidDigit | IntPosOverflow | IntNegOverflow.

Definition U8_MAX : N := 255.
Definition U16_MAX : N := 65535.
Definition U32_MAX : N := 4294967295.
Definition U64_MAX : N := 18446744073709551615.
Definition I64_MAX : N := 9223372036854775807.
(** Absolute value of [i64::MIN]. *)
Definition I64_MIN_ABS : N := 9223372036854775808.

(** [char::to_digit(radix)] for radix at most 16. *)
Definition to_digit (radix : N) (c : char) : option N :=
  let d := if is_digit c then Some (c - 48)
           else if between 97 102 c then Some (c - 87)
           else if between 65 70 c then Some (c - 55)
           else None in
  match d with
  | Some n => if n <? radix then Some n else None
  | None => None
  end.

(** The accumulation loop of [from_str_radix] for a non-negative number: the digit is checked before the
    overflow of the multiplication is reported. *)
Fixpoint accumulate (radix max : N) (over : int_error) (s : str) (acc : N) : result int_error N :=
  match s with
  | [] => Ok acc
  | c :: r =>
      match to_digit radix c with
      | None => Err IntInvalidDigit
      | Some d => if acc * radix + d <=? max then accumulate radix max over r (acc * radix + d) else Err over
      end
  end.

(** [u{8,16,32,64}::from_str_radix]: one optional leading [+]. *)
Definition parse_uint_radix (radix max : N) (s : str) : result int_error N :=
  match s with
  | [] => Err IntEmpty
  | c :: r =>
      if (c =? 43) || (c =? 45) then
        match r with
        | [] => Err IntInvalidDigit
        | _ => if c =? 43 then accumulate radix max IntPosOverflow r 0
               else accumulate radix max IntPosOverflow s 0
        end
      else accumulate radix max IntPosOverflow s 0
  end.

Definition parse_uint (max : N) (s : str) : result int_error N := parse_uint_radix 10 max s.
Definition parse_u16 := parse_uint U16_MAX.
Definition parse_u32 := parse_uint U32_MAX.
Definition parse_u64 := parse_uint U64_MAX.

(** [i64::from_str]. *)
Definition parse_i64 (s : str) : result int_error Z :=
  match s with
  | [] => Err IntEmpty
  | c :: r =>
      if (c =? 43) || (c =? 45) then
        match r with
        | [] => Err IntInvalidDigit
        | _ => if c =? 43 then map_ok Z.of_N (accumulate 10 I64_MAX IntPosOverflow r 0)
               else map_ok (fun n => Z.opp (Z.of_N n)) (accumulate 10 I64_MIN_ABS IntNegOverflow r 0)
        end
      else map_ok Z.of_N (accumulate 10 I64_MAX IntPosOverflow s 0)
  end.

(** Decimal digits, most significant first. *)
Fixpoint digits_fuel (fuel : nat) (radix : N) (n : N) (acc : list N) : list N :=
  match fuel with
  | O => acc
  | S f => let acc' := (n mod radix) :: acc in
           if n / radix =? 0 then acc' else digits_fuel f radix (n / radix) acc'
  end.
Definition digits (radix n : N) : list N := digits_fuel (S (N.size_nat n)) radix n [].

(** Digit characters as printed by [Display] and [{:x}]. *)
Definition digit_char (d : N) : char := if d <? 10 then d + 48 else d + 87.

(** [Display] of an unsigned integer. *)
Definition show_N (n : N) : str := map digit_char (digits 10 n).

(** [Display] of a signed integer. *)
Definition show_Z (z : Z) : str :=
  match z with
  | Zneg p => 45 :: show_N (Npos p)
  | _ => show_N (Z.to_N z)
  end.
