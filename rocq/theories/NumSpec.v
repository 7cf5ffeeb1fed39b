(** Numbers written in text. *)

From Coq Require Import String Ascii List NArith Bool.
Import ListNotations.
From Verif Require Import Base Regex.
Open Scope N_scope.

(** The number written by digits, most significant first. *)
Definition number_in (radix : N) (digit : char -> N) (s : str) : N := fold_left (fun n c => n * radix + digit c) s 0.

(** What Rust accepts as an unsigned integer up to [max]: decimal digits, perhaps after a plus sign. *)
Definition uint_text (max : N) (s : str) (n : N) : Prop :=
  exists ds, (s = ds \/ s = $"+" ++ ds) /\ ds <> [] /\ Forall (in_cls [DIGIT]) ds /\ n = number_in 10 (fun c => c - 48) ds /\ n <= max.

(** Hexadecimal digits. *)
Definition HEX : cls := [DIGIT; (97, 102); (65, 70)].
Definition hex_digit (c : char) : N := if c <=? 57 then c - 48 else if c <=? 70 then c - 55 else c - 87.
