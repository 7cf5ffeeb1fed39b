(** Documents that are the same but for quotes, and documents without nulls that are spelled out. *)

From Coq Require Import String Ascii List NArith ZArith Bool.
Import ListNotations.
From Verif Require Import Base Serde NodeModel.
Open Scope N_scope.

(** [n'] is [n] with some plain scalars put in quotes. *)
Inductive requoted : node -> node -> Prop :=
| rq_same n : requoted n n
| rq_quote t : requoted (Plain t) (Quoted t)
| rq_seq l l' : Forall2 requoted l l' -> requoted (NSeq l) (NSeq l')
| rq_map es es' : Forall2 (fun e e' => requoted (fst e) (fst e') /\ requoted (snd e) (snd e')) es es' -> requoted (NMap es) (NMap es').

(** A null is only given by leaving the value out, not as [~] or [null]. *)
Inductive no_written_null : node -> Prop :=
| nn_plain t : (In t [$"~"; $"null"; $"Null"; $"NULL"] -> False) -> no_written_null (Plain t)
| nn_quoted s : no_written_null (Quoted s)
| nn_seq l : Forall no_written_null l -> no_written_null (NSeq l)
| nn_map es : Forall (fun e => no_written_null (fst e) /\ no_written_null (snd e)) es -> no_written_null (NMap es).
