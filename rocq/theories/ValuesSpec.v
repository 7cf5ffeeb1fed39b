(** What the texts of scalar values are, as regular expressions, and the mathematical integers they denote. *)

From Coq Require Import String Ascii List NArith ZArith Bool.
Import ListNotations.
From Verif Require Import Base Regex.
Open Scope N_scope.

Definition SIGN : re := Opt (Cls [one "+"; one "-"]).
Definition D : re := Cls [DIGIT].

(** [^[+-]?[0-9]+$] *)
Definition INT_RE : re := Cat SIGN (Plus D).

(** [[0-9]+(\.[0-9]* )?|\.[0-9]+], then [([eE][+-]?[0-9]+)?] *)
Definition MANTISSA_RE : re := Alt (Cat (Plus D) (Opt (Cat (Lit ".") (Star D)))) (Cat (Lit ".") (Plus D)).
Definition EXPONENT_RE : re := Opt (Cat (Cls [one "e"; one "E"]) (Cat SIGN (Plus D))).

(** A letter in either case. *)
Definition ANYCASE (lower upper : ascii) : re := Cls [one lower; one upper].
Definition INF_RE : re := Cat (ANYCASE "i" "I") (Cat (ANYCASE "n" "N") (ANYCASE "f" "F")).
Definition INITY_RE : re :=
  Cat (ANYCASE "i" "I") (Cat (ANYCASE "n" "N") (Cat (ANYCASE "i" "I") (Cat (ANYCASE "t" "T") (ANYCASE "y" "Y")))).
Definition NAN_RE : re := Cat (ANYCASE "n" "N") (Cat (ANYCASE "a" "A") (ANYCASE "n" "N")).

(** The texts of floating point numbers, as documented for [f64::from_str]. *)
Definition FLOAT_RE : re :=
  Cat SIGN (Alt (Cat MANTISSA_RE EXPONENT_RE) (Alt INF_RE (Alt (Cat INF_RE INITY_RE) NAN_RE))).

(** The integer denoted by a digit string, most significant digit first. *)
Fixpoint horner (s : str) (acc : Z) : Z :=
  match s with [] => acc | c :: r => horner r (10 * acc + (Z.of_N c - 48))%Z end.

(** The integer denoted by an integer text. *)
Inductive denotes : str -> Z -> Prop :=
| den_plain : forall s, matches (Plus D) s -> denotes s (horner s 0)
| den_plus : forall s, matches (Plus D) s -> denotes (ch "+" :: s) (horner s 0)
| den_minus : forall s, matches (Plus D) s -> denotes (ch "-" :: s) (- horner s 0).
