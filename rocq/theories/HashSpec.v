(** What the standard library requires of [Eq], [Hash] and [Ord] ([std::cmp::Eq], [std::hash::Hash], [std::cmp::Ord]). *)

From Coq Require Import List Bool.
From Verif Require Import Base Serde EqModel HashModel.

Record equivalence {A : Type} (eqb : A -> A -> bool) : Prop := mk_equivalence {
  eq_refl' : forall a, eqb a a = true;
  eq_sym' : forall a b, eqb a b = true -> eqb b a = true;
  eq_trans' : forall a b c, eqb a b = true -> eqb b c = true -> eqb a c = true }.

(** Equal values give the hasher the same pieces. *)
Record lawful {A : Type} (eqb : A -> A -> bool) (hash : A -> feed) : Prop := mk_lawful {
  law_eq : equivalence eqb;
  law_hash : forall a b, eqb a b = true -> hash a = hash b }.

(** A total order whose [Equal] is [eqb]. *)
Record ordered {A : Type} (eqb : A -> A -> bool) (cmp : A -> A -> comparison) : Prop := mk_ordered {
  ord_eq : forall a b, cmp a b = Eq <-> eqb a b = true;
  ord_anti : forall a b, cmp b a = CompOpp (cmp a b);
  ord_trans : forall a b c r, cmp a b = r -> cmp b c = r -> cmp a c = r }.

(** What [std] and [serde_yaml] promise of [Path] and [Value]. *)
Definition path_law (phash : str -> feed) : Prop := forall p q, path_eqb p q = true -> phash p = phash q.
Definition value_law (veqb : sval -> sval -> bool) (vhash : sval -> feed) : Prop := lawful veqb vhash.

(** [s] is [l] without repetitions, up to [eqb]: the first of each group of equal elements, in the order of [l]. *)
Inductive uniques {A : Type} (eqb : A -> A -> bool) : list A -> list A -> Prop :=
| uniques_nil : uniques eqb nil nil
| uniques_new : forall l s x, uniques eqb l s -> (forall y, In y l -> eqb x y = false) -> uniques eqb (l ++ x :: nil) (s ++ x :: nil)
| uniques_old : forall l s x y, uniques eqb l s -> In y l -> eqb x y = true -> uniques eqb (l ++ x :: nil) s.
