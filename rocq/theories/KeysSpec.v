(** Documented languages of the validated strings, as regular expressions. *)

From Coq Require Import String Ascii List NArith Bool.
Import ListNotations.
From Verif Require Import Base Regex.
Open Scope N_scope.

(** [^[a-z0-9][a-z0-9_-]*$] *)
Definition NAME_RE : re := Cat (Cls [LOWER; DIGIT]) (Star (Cls [LOWER; DIGIT; one "_"; one "-"])).

(** [^[a-zA-Z0-9][a-zA-Z0-9._-]*$] *)
Definition IDENTIFIER_RE : re :=
  Cat (Cls [LOWER; UPPER; DIGIT]) (Star (Cls [LOWER; UPPER; DIGIT; one "."; one "_"; one "-"])).

(** Any character except a newline. *)
Definition DOT : cls := [(0, 9); (11, 1114111)].

(** Every character is a code point. *)
Definition unicode (s : str) : Prop := Forall (fun c => c <= 1114111) s.

(** [^.+$] *)
Definition MAP_KEY_RE : re := Plus (Cls DOT).

(** [^x-.*$] *)
Definition EXTENSION_KEY_RE : re := Cat (Lit "x") (Cat (Lit "-") (Star (Cls DOT))).

(** A hostname label: letters, digits and dashes, no dash at either end. *)
Definition LABEL_RE : re :=
  Cat (Cls [LOWER; UPPER; DIGIT])
      (Opt (Cat (Star (Cls [LOWER; UPPER; DIGIT; one "-"])) (Cls [LOWER; UPPER; DIGIT]))).

(** Labels separated by dots. *)
Definition HOSTNAME_RE : re := Cat LABEL_RE (Star (Cat (Lit ".") LABEL_RE)).

(** [^[a-z]+$] *)
Definition ULIMIT_RE : re := Plus (Cls [LOWER]).

(** User and group names, without the length limit and the "not only digits" rule:
    [^[a-zA-Z0-9_][a-zA-Z0-9_-]*\$?$], or a lone dollar sign. *)
Definition USER_NAME_RE : re :=
  Alt (Cat (Cat (Cls [LOWER; UPPER; DIGIT; one "_"]) (Star (Cls [LOWER; UPPER; DIGIT; one "_"; one "-"])))
           (Opt (Lit "$")))
      (Lit "$").
