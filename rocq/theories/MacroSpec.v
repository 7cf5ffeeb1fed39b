(** What the attributes of a struct say to the derive macros. *)

From Coq Require Import String Ascii List NArith Bool.
Import ListNotations.
From Verif Require Import Base MacroModel.
Open Scope N_scope.

Section MacroSpec.
Context {E : Set}.
Variable parse_literal : str -> option E.

(** All that the attributes called [n] hold between their parentheses. *)
Definition items_of (n : str) (l : list (attribute E)) (items : list (str * tokens E)) : Prop :=
  exists lists, map at_meta (filter (fun a => str_eqb (at_name a) n) l) = map MList lists /\ items = concat lists.
(** An expression, as it is or in a string literal. *)
Definition gives (t : tokens E) (e : E) : Prop := t = TExpr e \/ exists s, t = TLiteral s /\ parse_literal s = Some e.
Definition item_is (items : list (str * tokens E)) (n : str) (o : option E) : Prop :=
  match o with Some e => exists t, In (n, t) items /\ gives t e | None => ~ In n (map fst items) end.

(** [#[as_short(short)]]. *)
Definition says_short (l : list (attribute E)) : Prop := items_of $"as_short" l [($"short", TNothing)].
(** [if_fn] and [default] at most once each, and nothing else. *)
Definition says_other (l : list (attribute E)) (if_fn default_fn : option E) : Prop :=
  exists items, items_of $"as_short" l items /\ NoDup (map fst items) /\ incl (map fst items) [$"if_fn"; $"default"] /\
    item_is items $"if_fn" if_fn /\ item_is items $"default" default_fn.

(** [Option<u>] with nothing in front. *)
Definition plain_option (t u : rtype) : Prop := exists leading, t = TPath false leading [($"Option", AAngle [GType u])].
Definition short_is (f : field E) (s : short_field) : Prop :=
  says_short (f_attributes f) /\ sf_name s = f_name f /\
  (sf_optional s = true /\ plain_option (f_type f) (sf_type s) \/ sf_optional s = false /\ sf_type s = f_type f /\ forall u, ~ plain_option (f_type f) u).
Definition other_is (f : field E) (o : other_field) : Prop := says_other (f_attributes f) (o_if o) (o_default o) /\ o_name o = f_name f /\ o_type o = f_type f.
(** One field is the short one, the others are in order. *)
Definition describes (fs : list (field E)) (i : input) : Prop :=
  exists before f after, fs = before ++ f :: after /\ short_is f (in_short i) /\ Forall2 other_is (before ++ after) (in_others i).

(** [#[default = e]] at most once. *)
Definition says_default (l : list (attribute E)) (d : option E) : Prop :=
  map at_meta (filter (fun a => str_eqb (at_name a) $"default") l) = match d with Some e => [MValue e] | None => [] end.
(** [#[serde(expecting = "...")]] at most once, and [#[serde(transparent)]] any number of times. *)
Definition says_expecting (l : list (attribute E)) (x : option str) : Prop :=
  exists items, items_of $"serde" l items /\ filter (fun i => negb (str_eqb (fst i) $"transparent")) items = match x with Some s => [($"expecting", TLiteral s)] | None => [] end /\
    forall t, In ($"transparent", t) items -> t = TNothing.
End MacroSpec.
