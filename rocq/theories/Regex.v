(** Regular expressions, used only to state specifications. *)

From Coq Require Import List NArith Bool Ascii.
Import ListNotations.
From Verif Require Import Base.
Open Scope N_scope.

(** A character class: a list of inclusive ranges. *)
Definition cls := list (char * char).
Definition in_cls (k : cls) (c : char) : Prop := exists a b, In (a, b) k /\ a <= c <= b.

Inductive re :=
| Eps
| Cls (k : cls)
| Cat (a b : re)
| Alt (a b : re)
| Star (a : re).

Inductive matches : re -> str -> Prop :=
| m_eps : matches Eps []
| m_cls : forall k c, in_cls k c -> matches (Cls k) [c]
| m_cat : forall a b s t, matches a s -> matches b t -> matches (Cat a b) (s ++ t)
| m_alt_l : forall a b s, matches a s -> matches (Alt a b) s
| m_alt_r : forall a b s, matches b s -> matches (Alt a b) s
| m_star_nil : forall a, matches (Star a) []
| m_star_cons : forall a s t, matches a s -> matches (Star a) t -> matches (Star a) (s ++ t).

Definition rng (a b : ascii) : char * char := (ch a, ch b).
Definition one (a : ascii) : char * char := (ch a, ch a).
Definition Lit (a : ascii) : re := Cls [one a].
Definition Plus (a : re) : re := Cat a (Star a).
Definition Opt (a : re) : re := Alt Eps a.

Definition LOWER := rng "a" "z".
Definition UPPER := rng "A" "Z".
Definition DIGIT := rng "0" "9".
