(** [PartialEq], [PartialOrd] and [Ord] of amounts and addresses. No proofs in this file. *)

From Coq Require Import String Ascii List NArith ZArith Bool.
Import ListNotations.
From Verif Require Import Base BytesModel TextModel VolumesModel HashModel.
Open Scope N_scope.

(** [Limit<T>], service/limit.rs 18-28, derived: the variants in order. *)
Definition limit_eqb {T : Type} (eqb : T -> T -> bool) (a b : limit T) : bool :=
  match a, b with LimitValue x, LimitValue y => eqb x y | Unlimited, Unlimited => true | _, _ => false end.
Definition limit_cmp {T : Type} (cmp : T -> T -> comparison) (a b : limit T) : comparison :=
  match a, b with
  | LimitValue x, LimitValue y => cmp x y
  | LimitValue _, Unlimited => Lt
  | Unlimited, LimitValue _ => Gt
  | Unlimited, Unlimited => Eq
  end.

(** [ShortOrLong<S, L>], common/short_or_long.rs 45-54, derived. *)
Definition short_or_long_cmp {S L : Type} (s : S -> S -> comparison) (l : L -> L -> comparison) (a b : short_or_long S L) : comparison :=
  match a, b with Short x, Short y => s x y | Short _, Long _ => Lt | Long _, Short _ => Gt | Long x, Long y => l x y end.

(** [MacAddress], service/network_config.rs 471-475, derived: arrays of bytes are compared like texts. *)
Fixpoint bytes_eqb (a b : list N) : bool :=
  match a, b with [], [] => true | x :: a, y :: b => (x =? y) && bytes_eqb a b | _, _ => false end.
Definition mac_cmp (a b : list N) : comparison := str_cmp a b.

(** [PartialEq<u64> for Count], service/deploy/resources.rs 537-544. *)
Definition count_eq_u64 (c : count) (n : N) : bool := match c with CountAll => false | CountInteger m => m =? n end.

(** [Cpus], service/deploy/resources.rs 212-214: the comparisons of [f64] are those of the numbers. A [Cpus] is a float which is not negative, infinite
    or not a number, so that its bits (IEEE 754 binary64) are 11 bits of exponent and 52 of fraction; [scaled] is the number times 2^1074. *)
Definition scaled (bits : N) : N :=
  let e := bits / 2 ^ 52 in let f := bits mod 2 ^ 52 in if e =? 0 then f else (2 ^ 52 + f) * 2 ^ (e - 1).
Definition cpus_eqb (a b : N) : bool := scaled a =? scaled b.
Definition cpus_cmp (a b : N) : comparison := scaled a ?= scaled b.

(** [From<u32> for Cpus], resources.rs 249-253, by [From<u32> for f64], which is exact; also for [u16] and [u8], 255-265. *)
Definition cpus_from (n : N) : N :=
  if n =? 0 then 0 else let e := N.log2 n in (e + 1023) * 2 ^ 52 + (n * 2 ^ (52 - e) - 2 ^ 52).
