(** What the text behind "expected ..." in an error message says about the kinds of values which are accepted. The texts are English;
    the reading of them here is by words. No proofs in this file. *)

From Coq Require Import String Ascii List NArith Bool.
Import ListNotations.
From Verif Require Import Base Serde Codec.
Open Scope N_scope.

Inductive kind := KNull | KBool | KInteger | KFloat | KString | KSequence | KMap.
Definition kind_of (v : sval) : kind :=
  match v with VNull => KNull | VBool _ => KBool | VInt _ => KInteger | VFloat _ => KFloat | VStr _ => KString | VSeq _ => KSequence | VMap _ => KMap end.

(** The words of a text are the longest runs of letters. *)
Fixpoint words_from (w t : str) : list str :=
  match t with [] => [w] | c :: t => if is_alpha c then words_from (w ++ [c]) t else w :: words_from [] t end.
Definition words : str -> list str := words_from [].
(** The words for one value of a kind. A plural ([strings], [maps]) is about what is inside of a value. *)
Definition words_for (k : kind) : list str :=
  match k with
  | KNull => [$"null"; $"none"]
  | KBool => [$"boolean"]
  | KInteger => [$"integer"; $"number"]
  | KFloat => [$"float"; $"number"]
  | KString => [$"string"]
  | KSequence => [$"sequence"; $"list"]
  | KMap => [$"map"; $"struct"]
  end.
(** A text names a kind by a word for it. One which starts with a quotation mark names a string by giving one. *)
Definition names (t : str) (k : kind) : Prop := (exists w, In w (words_for k) /\ In w (words t)) \/ k = KString /\ hd_error t = Some 34.

Definition accepts {A : Set} (c : codec A) (k : kind) : Prop := exists v a, kind_of v = k /\ de c v = Ok a.
(** The text names exactly the kinds which are accepted. *)
Definition tells {A : Set} (c : codec A) (t : str) : Prop := forall k, names t k <-> accepts c k.
