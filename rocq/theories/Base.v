(** Shared vocabulary of the model: characters, strings, results, and the parts of Rust's [core::str]
    used by the crate. No proofs in this file. *)

From Coq Require Import List NArith ZArith Bool String Ascii.
Import ListNotations.
Open Scope N_scope.

(** Rust [char]: a Unicode scalar value, kept as its number. *)
Notation char := N (only parsing).

(** Rust [str]/[String]: the list of its characters. *)
Notation str := (list N) (only parsing).

(** ASCII literals. *)
Definition of_string (s : string) : str := map N_of_ascii (list_ascii_of_string s).
Notation "$ s" := (of_string s%string) (at level 1, s at level 0, only parsing).
Definition ch (a : ascii) : char := N_of_ascii a.

(** Rust [Result<A, E>]. *)
Inductive result (E A : Type) : Type :=
| Ok (a : A)
| Err (e : E).
Arguments Ok {E A} a.
Arguments Err {E A} e.

(** [Result] of a function which contains panic sites. *)
Inductive outcome (E A : Type) : Type :=
| OOk (a : A)
| OErr (e : E)
| OPanic.
Arguments OOk {E A} a.
Arguments OErr {E A} e.
Arguments OPanic {E A}.

(** Value of an infallible function which contains panic sites. *)
Inductive may_panic (A : Type) : Type :=
| Ret (a : A)
| Panic.
Arguments Ret {A} a.
Arguments Panic {A}.

Definition bind {E A B} (r : result E A) (f : A -> result E B) : result E B :=
  match r with Ok a => f a | Err e => Err e end.
Definition map_ok {E A B} (f : A -> B) (r : result E A) : result E B :=
  match r with Ok a => Ok (f a) | Err e => Err e end.
Definition map_err {E F A} (f : E -> F) (r : result E A) : result F A :=
  match r with Ok a => Ok a | Err e => Err (f e) end.
Definition ok {E A} (r : result E A) : option A :=
  match r with Ok a => Some a | Err _ => None end.
Definition is_ok {E A} (r : result E A) : bool :=
  match r with Ok _ => true | Err _ => false end.
Definition lift {E A} (r : result E A) : outcome E A :=
  match r with Ok a => OOk a | Err e => OErr e end.
Definition obind {E A B} (r : outcome E A) (f : A -> outcome E B) : outcome E B :=
  match r with OOk a => f a | OErr e => OErr e | OPanic => OPanic end.
Definition pbind {A B} (r : may_panic A) (f : A -> may_panic B) : may_panic B :=
  match r with Ret a => f a | Panic => Panic end.

Declare Scope res_scope.
Delimit Scope res_scope with res.
Notation "x <- e ;; f" := (bind e (fun x => f)) (at level 61, e at next level, right associativity).
Notation "x <~ e ;; f" := (obind e (fun x => f)) (at level 61, e at next level, right associativity).
Notation "x <! e ;; f" := (pbind e (fun x => f)) (at level 61, e at next level, right associativity).

(** [Result<Vec<_>, _>] collected from an iterator: the first error wins. *)
Fixpoint collect {E A B} (f : A -> result E B) (l : list A) : result E (list B) :=
  match l with
  | [] => Ok []
  | x :: r => y <- f x ;; ys <- collect f r ;; Ok (y :: ys)
  end.

(** Character classes ([char::is_ascii_digit] and the ranges used in [matches!]). *)
Definition between (a b c : char) : bool := (a <=? c) && (c <=? b).
Definition is_digit (c : char) : bool := between (ch "0") (ch "9") c.
Definition is_lower (c : char) : bool := between (ch "a") (ch "z") c.
Definition is_upper (c : char) : bool := between (ch "A") (ch "Z") c.
Definition is_alpha (c : char) : bool := is_lower c || is_upper c.
Definition is_alnum (c : char) : bool := is_alpha c || is_digit c.

(** [str == str]. *)
Fixpoint str_eqb (a b : str) : bool :=
  match a, b with
  | [], [] => true
  | x :: a', y :: b' => (x =? y) && str_eqb a' b'
  | _, _ => false
  end.

(** [str::contains(char)]. *)
Definition contains (c : char) (s : str) : bool := existsb (N.eqb c) s.

(** [s.find(|c| !p(c))] followed by [split_at]: the longest prefix whose characters satisfy [p], and the
    rest. *)
Fixpoint span (p : char -> bool) (s : str) : str * str :=
  match s with
  | [] => ([], [])
  | c :: r => if p c then let (a, b) := span p r in (c :: a, b) else ([], s)
  end.

(** [str::split_once(|c| p(c))]: split at the first matching character. *)
Fixpoint split_once_p (p : char -> bool) (s : str) : option (str * str) :=
  match s with
  | [] => None
  | c :: r => if p c then Some ([], r)
              else match split_once_p p r with
                   | Some (a, b) => Some (c :: a, b)
                   | None => None
                   end
  end.

(** [str::split_once(char)]. *)
Definition split_once (c : char) (s : str) : option (str * str) := split_once_p (N.eqb c) s.

(** [str::rsplit_once(char)]: split at the last occurrence. *)
Fixpoint rsplit_once (c : char) (s : str) : option (str * str) :=
  match s with
  | [] => None
  | x :: r => match rsplit_once c r with
              | Some (a, b) => Some (x :: a, b)
              | None => if c =? x then Some ([], r) else None
              end
  end.

(** [str::split(char)]: never empty. *)
Fixpoint split (c : char) (s : str) : list str :=
  match s with
  | [] => [[]]
  | x :: r => if c =? x then [] :: split c r
              else match split c r with
                   | h :: t => (x :: h) :: t
                   | [] => [[x]]
                   end
  end.

(** [str::split_terminator(char)]: [split] without a trailing empty piece. *)
Definition split_terminator (c : char) (s : str) : list str :=
  let l := split c s in
  match last l [] with
  | [] => removelast l
  | _ => l
  end.

(** [str::splitn(n, char)]. *)
Fixpoint splitn (n : nat) (c : char) (s : str) : list str :=
  match n with
  | O => []
  | S O => [s]
  | S n' => match split_once c s with
            | Some (a, b) => a :: splitn n' c b
            | None => [s]
            end
  end.

(** [str::strip_prefix(&str)]. *)
Fixpoint strip_prefix (p s : str) : option str :=
  match p, s with
  | [], _ => Some s
  | x :: p', y :: s' => if x =? y then strip_prefix p' s' else None
  | _ :: _, [] => None
  end.

(** [str::strip_suffix(&str)]. *)
Definition strip_suffix (p s : str) : option str :=
  option_map (@rev char) (strip_prefix (rev p) (rev s)).

Definition starts_with (p s : str) : bool :=
  match strip_prefix p s with Some _ => true | None => false end.
Definition ends_with (p s : str) : bool :=
  match strip_suffix p s with Some _ => true | None => false end.

(** [char::len_utf8]. *)
Definition utf8_width (c : char) : N :=
  if c <? 128 then 1 else if c <? 2048 then 2 else if c <? 65536 then 3 else 4.

(** [str::len]: length in bytes. *)
Fixpoint blen (s : str) : N :=
  match s with [] => 0 | c :: r => utf8_width c + blen r end.

(** [str::split_at] / slicing at a byte offset. [Panic] when the offset is past the end or not on a
    character boundary. *)
Fixpoint split_at (n : N) (s : str) : may_panic (str * str) :=
  if n =? 0 then Ret ([], s)
  else match s with
       | [] => Panic
       | c :: r => if n <? utf8_width c then Panic
                   else p <! split_at (n - utf8_width c) r ;; Ret (c :: fst p, snd p)
       end.

(** Joining with a separator, as written by most [Display] implementations. *)
Fixpoint join (sep : str) (l : list str) : str :=
  match l with
  | [] => []
  | [x] => x
  | x :: r => x ++ sep ++ join sep r
  end.
