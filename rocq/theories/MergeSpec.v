(** What [<<] entries mean: an entry of the mapping itself wins over a merged one, an earlier merged mapping over a later one, and merging
    goes on in what was put together. Nothing here uses the model. *)

From Coq Require Import String Ascii List NArith ZArith Bool.
Import ListNotations.
From Verif Require Import Base Serde.
Open Scope N_scope.

Definition has (es : list (sval * sval)) (k : sval) : Prop := exists v, In (k, v) es.
Definition merge_key : sval := VStr $"<<".

(** The mappings to be merged: none, one, or those of a sequence. *)
Inductive merges (es : list (sval * sval)) : list (list (sval * sval)) -> Prop :=
| merges_none : ~ has es merge_key -> merges es []
| merges_one : forall m, In (merge_key, VMap m) es -> merges es [m]
| merges_many : forall ms, In (merge_key, VSeq (map VMap ms)) es -> merges es ms.

(** The first of the mappings which has the key decides. *)
Fixpoint first_has (ms : list (list (sval * sval))) (k x : sval) : Prop :=
  match ms with [] => False | m :: r => In (k, x) m \/ (~ has m k /\ first_has r k x) end.
(** The entry [k: x] of the mapping [es] after merging, before going on in [x]. *)
Definition entry_after (es : list (sval * sval)) (k x : sval) : Prop :=
  exists ms, merges es ms /\ ((k <> merge_key /\ In (k, x) es) \/ ((k = merge_key \/ ~ has es k) /\ first_has ms k x)).

Definition is_leaf (v : sval) : Prop := match v with VSeq _ | VMap _ => False | _ => True end.
Inductive merged : sval -> sval -> Prop :=
| merged_leaf : forall v, is_leaf v -> merged v v
| merged_seq : forall l l', Forall2 merged l l' -> merged (VSeq l) (VSeq l')
| merged_map : forall es es', NoDup (map fst es') -> (forall k x', In (k, x') es' -> exists x, entry_after es k x /\ merged x x') ->
    (forall k x, entry_after es k x -> has es' k) -> merged (VMap es) (VMap es').

(** Every [<<] that is met holds a mapping or a sequence of mappings. *)
Inductive mergeable : sval -> Prop :=
| mergeable_leaf : forall v, is_leaf v -> mergeable v
| mergeable_seq : forall l, (forall v, In v l -> mergeable v) -> mergeable (VSeq l)
| mergeable_map : forall es ms, merges es ms -> (forall k x, entry_after es k x -> mergeable x) -> mergeable (VMap es).

(** No [<<] anywhere. *)
Inductive plain : sval -> Prop :=
| plain_leaf : forall v, is_leaf v -> plain v
| plain_seq : forall l, (forall v, In v l -> plain v) -> plain (VSeq l)
| plain_map : forall es, ~ has es merge_key -> (forall k v, In (k, v) es -> plain v) -> plain (VMap es).
(** No mapping to be merged has a [<<] of its own. *)
Inductive flat_merges : sval -> Prop :=
| flat_leaf : forall v, is_leaf v -> flat_merges v
| flat_seq : forall l, (forall v, In v l -> flat_merges v) -> flat_merges (VSeq l)
| flat_map_ : forall es, (forall ms m, merges es ms -> In m ms -> ~ has m merge_key) ->
    (forall k x, entry_after es k x -> flat_merges x) -> flat_merges (VMap es).
