(** Independent description of duration texts: a non-empty sequence of terms, each a number and a unit,
    denoting a number of nanoseconds. *)

From Coq Require Import String Ascii List NArith ZArith Bool.
Import ListNotations.
From Verif Require Import Base Num DurationModel.
Open Scope N_scope.

Inductive time_unit := Hours | Minutes | Seconds | Millis | Micros.

Definition unit_text (u : time_unit) : str :=
  match u with
  | Hours => $"h" | Minutes => $"m" | Seconds => $"s" | Millis => $"ms" | Micros => $"us"
  end.

Definition unit_nanos (u : time_unit) : N :=
  match u with
  | Hours => 3600000000000
  | Minutes => 60000000000
  | Seconds => 1000000000
  | Millis => 1000000
  | Micros => 1000
  end.

(** A term: its digits, most significant first, and its unit. *)
Definition term := (str * time_unit)%type.

Definition term_text (t : term) : str := fst t ++ unit_text (snd t).
Definition terms_text (ts : list term) : str := flat_map term_text ts.

(** The number written by decimal digits: reading right to left, units, tens, ... *)
Fixpoint number_rev (ds : str) : N :=
  match ds with [] => 0 | c :: r => (c - 48) + 10 * number_rev r end.
Definition number (ds : str) : N := number_rev (rev ds).

Definition term_nanos (t : term) : N := number (fst t) * unit_nanos (snd t).
Definition terms_nanos (ts : list term) : N := fold_right (fun t n => term_nanos t + n) 0 ts.

(** Digits are present, and the number fits in 64 bits. *)
Definition term_digits (t : term) : Prop := fst t <> [] /\ Forall (fun c => 48 <= c <= 57) (fst t).
Definition term_ok (t : term) : Prop := term_digits t /\ number (fst t) < 2 ^ 64.

(** Length of a duration in nanoseconds, and the largest possible one. *)
Definition in_nanos (d : duration) : N := secs d * 10 ^ 9 + nanos d.
Definition max_nanos : N := (2 ^ 64 - 1) * 10 ^ 9 + (10 ^ 9 - 1).

(** What an error says about the text: [ts] are the terms before it, [rest] the text that they leave. *)
Definition digits_only (s : str) : Prop := s <> [] /\ Forall (fun c => 48 <= c <= 57) s.
Definition no_digits (s : str) : Prop := s <> [] /\ Forall (fun c => ~ (48 <= c <= 57)) s.
Definition error_at (ts : list term) (rest : str) (e : duration_error) : Prop :=
  match e with
  | DurEmpty => ts = [] /\ rest = []
  | DurMissingUnit t => t = rest /\ digits_only rest
  | DurNoDigits t => t = rest /\ ts = [] /\ exists c r, rest = c :: r /\ ~ (48 <= c <= 57)
  | DurInvalidUnit u => exists ds r, rest = ds ++ u ++ r /\ digits_only ds /\ number ds < 2 ^ 64 /\ no_digits u /\ (forall k, u <> unit_text k) /\
                                     (forall c r', r = c :: r' -> 48 <= c <= 57)
  | DurOverflow => exists t r, rest = term_text t ++ r /\ term_ok t /\ (forall c r', r = c :: r' -> 48 <= c <= 57) /\ max_nanos < terms_nanos ts + term_nanos t
  end.
