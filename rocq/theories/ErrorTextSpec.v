(** What is asked of error messages. Only the message of an error is taken from the model. *)

From Coq Require Import List NArith.
Import ListNotations.
From Verif Require Import Base ErrorText.
Open Scope N_scope.

(** A piece of a text. *)
Definition part (t s : str) : Prop := exists a b, s = a ++ t ++ b.
(** A character of ASCII which is not a control character. *)
Definition printable (c : char) : Prop := 32 <= c <= 126.
(** The message tells the error: two errors do not have the same. *)
Definition tells {E} (raised : E -> Prop) (m : E -> messages) : Prop :=
  forall e1 e2, raised e1 -> raised e2 -> error_chain (m e1) = error_chain (m e2) -> e1 = e2.
(** Of any error of the type. *)
Definition any {E} (e : E) : Prop := True.
(** The messages are finitely many forms, each one line of fixed text around a piece of the rejected text. *)
Definition fills {E} (raised : str -> E -> Prop) (m : E -> messages) : Prop :=
  exists forms, Forall (fun f => Forall printable (fst f ++ snd f)) forms /\
    forall s e, raised s e -> exists f t, In f forms /\ part t s /\ error_chain (m e) = fst f ++ t ++ snd f.
(** Nothing in a message is unprintable unless the rejected text has it. *)
Definition clean {E} (raised : str -> E -> Prop) (m : E -> messages) : Prop :=
  forall s e c, raised s e -> In c (error_chain (m e)) -> printable c \/ In c s.
