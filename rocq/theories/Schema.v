(** Shapes of values: the vocabulary for saying which documents are compose files. A shape is a property of values of
    the data model; nothing here refers to the model of the crate. *)

From Coq Require Import String Ascii List NArith ZArith Bool.
Import ListNotations.
From Verif Require Import Base Serde.
Open Scope N_scope.

Definition shape : Type := sval -> Prop.

(** ** Scalars *)

Definition text (L : str -> Prop) : shape := fun v => exists s, v = VStr s /\ L s.
Definition any_text : shape := fun v => exists s, v = VStr s.
Definition one_of (l : list str) : shape := fun v => exists s, v = VStr s /\ In s l.
Definition boolean : shape := fun v => exists b, v = VBool b.
Definition integer (lo hi : Z) : shape := fun v => exists z, v = VInt z /\ (lo <= z <= hi)%Z.
(** Any float. *)
Definition float : shape := fun v => exists b, v = VFloat b.

(** ** Alternatives and containers *)

Definition nullable (P : shape) : shape := fun v => v = VNull \/ P v.
Definition either (P Q : shape) : shape := fun v => P v \/ Q v.
Definition list_of (P : shape) : shape := fun v => exists l, v = VSeq l /\ Forall P l.
(** Every entry has to be fine, also one which a later entry with the same key replaces. *)
Definition map_of (K : str -> Prop) (P : shape) : shape :=
  fun v => exists es, v = VMap es /\ Forall (fun e => text K (fst e) /\ P (snd e)) es.

(** ** Objects *)

(** The values given for a key. *)
Definition key_is (k : str) (x : sval) : bool := match x with VStr s => str_eqb k s | _ => false end.
Definition values_of (k : str) (es : list (sval * sval)) : list sval := map snd (filter (fun e => key_is k (fst e)) es).

(** A field is given at most once, exactly once if it is required, and its value has a shape. *)
Record entry := mk_entry { e_name : str; e_required : bool; e_shape : shape }.
Definition field_ok (es : list (sval * sval)) (f : entry) : Prop :=
  match values_of (e_name f) es with
  | [] => e_required f = false
  | [v] => e_shape f v
  | _ => False
  end.

Definition req (name : str) (P : shape) : entry := mk_entry name true P.
Definition opt (name : str) (P : shape) : entry := mk_entry name false P.
(** An optional field for which a null counts as absent. *)
Definition maybe (name : str) (P : shape) : entry := mk_entry name false (nullable P).

(** Any YAML value in which no map has a key twice. *)
Inductive yaml : shape :=
| yaml_null : yaml VNull
| yaml_bool b : yaml (VBool b)
| yaml_int z : yaml (VInt z)
| yaml_float f : yaml (VFloat f)
| yaml_str s : yaml (VStr s)
| yaml_seq l : (forall v, In v l -> yaml v) -> yaml (VSeq l)
| yaml_map es : NoDup (map fst es) -> (forall k v, In (k, v) es -> yaml k) -> (forall k v, In (k, v) es -> yaml v) -> yaml (VMap es).

(** What may be given besides the fields: extensions, that is keys which start with [x-] and have no line break; or
    anything with a text as its key. *)
Definition extension (k : str) (v : sval) : Prop := (exists r, k = $"x-" ++ r) /\ ~ In 10 k /\ yaml v.
Definition anything (k : str) (v : sval) : Prop := True.

(** Conditions on the entries as a whole. *)
Definition condition : Type := list (sval * sval) -> Prop.
(** How many of the fields have a value other than null. *)
Definition is_null (v : sval) : bool := match v with VNull => true | _ => false end.
Definition set (es : list (sval * sval)) (name : str) : bool := negb (forallb is_null (values_of name es)).
Definition at_most_one (ns : list str) : condition := fun es => (List.length (filter (set es) ns) <= 1)%nat.
Definition exactly_one (ns : list str) : condition := fun es => List.length (filter (set es) ns) = 1%nat.
Definition no_repeats : condition := fun es => NoDup (map fst es).

Definition object_with (others : str -> sval -> Prop) (fields : list entry) (conditions : list condition) : shape := fun v =>
  exists es, v = VMap es /\ Forall (field_ok es) fields /\ Forall (fun c => c es) conditions /\
    forall k x, In (k, x) es -> exists s, k = VStr s /\ (In s (map e_name fields) \/ others s x).
(** Fields and extensions. *)
Definition object : list entry -> list condition -> shape := object_with extension.
(** Fields, other entries are ignored. *)
Definition open_object (fields : list entry) : shape := object_with anything fields [].
