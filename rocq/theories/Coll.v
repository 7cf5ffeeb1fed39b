(** [indexmap::IndexSet] and [indexmap::IndexMap] as lists in iteration order.  Only the operations the
    crate uses; hashing does not matter for lawful types, [index_set_hashed] of [PropsHash].  No proofs here. *)

From Coq Require Import List Bool.
Import ListNotations.
From Verif Require Import Base.

Section Collections.
  Context {K V : Type} (eqb : K -> K -> bool).

  (** [IndexSet::insert]: an element already present is left where it is. *)
  Definition iset_insert (l : list K) (x : K) : list K := if existsb (eqb x) l then l else l ++ [x].

  (** [FromIterator for IndexSet]. *)
  Definition iset_of (l : list K) : list K := fold_left iset_insert l [].

  (** [IndexMap::insert]: a key already present keeps its position and gets the new value. *)
  Fixpoint imap_insert (m : list (K * V)) (k : K) (v : V) : list (K * V) :=
    match m with
    | [] => [(k, v)]
    | (k', v') :: r => if eqb k k' then (k', v) :: r else (k', v') :: imap_insert r k v
    end.

  (** [FromIterator for IndexMap]. *)
  Definition imap_of (l : list (K * V)) : list (K * V) :=
    fold_left (fun m p => imap_insert m (fst p) (snd p)) l [].

  (** [IndexMap::get]. *)
  Fixpoint imap_get (m : list (K * V)) (k : K) : option V :=
    match m with
    | [] => None
    | (k', v) :: r => if eqb k k' then Some v else imap_get r k
    end.
End Collections.
