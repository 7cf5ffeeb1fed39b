(** The derive macros of [compose_spec_macros]: [AsShort] and [FromShort] (as_short.rs), [Default] (default.rs) and the options of
    [SerializeDisplay], [DeserializeFromStr] and [DeserializeTryFromString] (serde.rs), as functions of the struct they are put on. No proofs
    in this file.

    Simplifications: the input is [syn]'s tree, with types and attributes as below and expressions left open; a path is its text (only paths
    of one name are looked at); the generated code is not tokens but what it says; where an error is reported (its span) is left out;
    generics are copied to the output and left out. *)

From Coq Require Import String Ascii List NArith Bool.
Import ListNotations.
From Verif Require Import Base.
Open Scope N_scope.

(** ** Input *)

(** [syn::Type] as far as it is looked at: a path may have a [<T as X>::] in front, a leading [::], and arguments after every segment. *)
Inductive rtype : Set := TPath (qself leading : bool) (segments : list (str * arguments)) | TOther (s : str)
with arguments : Set := ANone | AAngle (l : list argument) | AParen
with argument : Set := GType (t : rtype) | GOther (s : str).

(** What follows a name in an attribute: nothing, an expression, a string literal, or something else. *)
Inductive tokens (E : Set) : Set := TNothing | TExpr (e : E) | TLiteral (s : str) | TBad.
Arguments TNothing {E}.
Arguments TExpr {E} _.
Arguments TLiteral {E} _.
Arguments TBad {E}.
(** [syn::Attribute]: [#[name]], [#[name = ...]], [#[name(item, item = ...)]]. *)
Inductive arms (E : Set) : Set := MPath | MValue (e : E) | MList (items : list (str * tokens E)).
Arguments MPath {E}.
Arguments MValue {E} _.
Arguments MList {E} _.
Record attribute (E : Set) : Set := mk_attribute { at_name : str; at_meta : arms E }.
Arguments mk_attribute {E} _ _.
Arguments at_name {E} _.
Arguments at_meta {E} _.
Record field (E : Set) : Set := mk_field { f_name : str; f_type : rtype; f_attributes : list (attribute E) }.
Arguments mk_field {E} _ _ _.
Arguments f_name {E} _.
Arguments f_type {E} _.
Arguments f_attributes {E} _.
(** [DeriveInput]: a struct with named fields, or something else. *)
Inductive derive_input (E : Set) : Set := Named (fields : list (field E)) | NotNamed.
Arguments Named {E} _.
Arguments NotNamed {E}.

Inductive macro_error : Set :=
| NotNamedFields | MissingShort | DuplicateShortField | DuplicateItem (name : str) | UnknownItem | NoValue | BadExpression | NotAList | TrailingTokens
| ShortWithOther | DuplicateDefault | NotAValue | DuplicateExpecting | UnsupportedItem | NotALiteral.

Section Macros.
Context {E : Set}.
(** [LitStr::parse]: the expression in a string literal. *)
Variable parse_literal : str -> option E.

(** ** [AsShort] and [FromShort] *)

(** [option_type], as_short.rs 193-223; [is_bool], 226-232. *)
Definition option_type (t : rtype) : option rtype :=
  match t with
  | TPath false _ [(name, AAngle [arg])] =>
      if str_eqb name $"Option" then match arg with GType u => Some u | GOther _ => None end else None
  | _ => None
  end.
Definition is_bool (t : rtype) : bool :=
  match t with TPath false false [(name, ANone)] => str_eqb name $"bool" | _ => false end.

(** [parse_expr] after [meta.value()], 357-363. *)
Definition item_expr (t : tokens E) : result macro_error E :=
  match t with
  | TNothing => Err NoValue
  | TExpr e => Ok e
  | TLiteral s => match parse_literal s with Some e => Ok e | None => Err BadExpression end
  | TBad => Err BadExpression
  end.

(** [Attribute::from_syn], 308-353. An item is [parse_nested_meta]'s; after [short], which takes no value, a comma or the end must follow. *)
Record seen : Set := mk_seen { s_short : bool; s_if : option E; s_default : option E }.
Definition read_item (s : seen) (item : str * tokens E) : result macro_error seen :=
  let '(name, value) := item in
  if str_eqb name $"short" then
    if s_short s then Err (DuplicateItem name)
    else match value with TNothing => Ok (mk_seen true (s_if s) (s_default s)) | _ => Err TrailingTokens end
  else if str_eqb name $"if_fn" then
    match s_if s with
    | Some _ => Err (DuplicateItem name)
    | None => e <- item_expr value ;; Ok (mk_seen (s_short s) (Some e) (s_default s))
    end
  else if str_eqb name $"default" then
    match s_default s with
    | Some _ => Err (DuplicateItem name)
    | None => e <- item_expr value ;; Ok (mk_seen (s_short s) (s_if s) (Some e))
    end
  else Err UnknownItem.
Fixpoint read_items (s : seen) (items : list (str * tokens E)) : result macro_error seen :=
  match items with [] => Ok s | i :: r => s <- read_item s i ;; read_items s r end.
Fixpoint read_attributes (s : seen) (l : list (attribute E)) : result macro_error seen :=
  match l with
  | [] => Ok s
  | a :: r =>
      if str_eqb (at_name a) $"as_short" then
        match at_meta a with MList items => s <- read_items s items ;; read_attributes s r | _ => Err NotAList end
      else read_attributes s r
  end.
Inductive marked : Set := Short | Other (if_fn default_fn : option E).
Definition attribute_from_syn (l : list (attribute E)) : result macro_error marked :=
  s <- read_attributes (mk_seen false None None) l ;;
  if s_short s then match s_if s, s_default s with None, None => Ok Short | _, _ => Err ShortWithOther end
  else Ok (Other (s_if s) (s_default s)).

(** [Field], 267-283; [ShortField::new], 248-263; [Input], 15-26. *)
Record other_field : Set := mk_other { o_if : option E; o_default : option E; o_name : str; o_type : rtype }.
Record short_field : Set := mk_short { sf_name : str; sf_type : rtype; sf_optional : bool }.
Definition short_field_new (name : str) (t : rtype) : short_field :=
  match option_type t with Some u => mk_short name u true | None => mk_short name t false end.
Record input : Set := mk_input { in_short : short_field; in_others : list other_field }.

(** [Input::from_syn], 36-88. The closure of [filter_map] keeps the short field in a variable. *)
Fixpoint sort_fields (short : option short_field) (fs : list (field E)) : result macro_error (option short_field * list other_field) :=
  match fs with
  | [] => Ok (short, [])
  | f :: r =>
      m <- attribute_from_syn (f_attributes f) ;;
      match m with
      | Short => match short with Some _ => Err DuplicateShortField | None => sort_fields (Some (short_field_new (f_name f) (f_type f))) r end
      | Other i d => x <- sort_fields short r ;; Ok (fst x, mk_other i d (f_name f) (f_type f) :: snd x)
      end
  end.
Definition from_syn (i : derive_input E) : result macro_error input :=
  match i with
  | NotNamed => Err NotNamedFields
  | Named fs =>
      x <- sort_fields None fs ;;
      match fst x with Some s => Ok (mk_input s (snd x)) | None => Err MissingShort end
  end.

(** [impl_as_short], 92-144: the tests joined by [&&], and the short field. *)
Inductive test : Set := IsNone | Not | IsEmpty (t : rtype) | Call (e : E).
Definition field_test (f : other_field) : test :=
  match o_if f with
  | Some e => Call e
  | None => match option_type (o_type f) with Some _ => IsNone | None => if is_bool (o_type f) then Not else IsEmpty (o_type f) end
  end.
Definition tests (i : input) : list (str * test) := map (fun f => (o_name f, field_test f)) (in_others i).
(** [impl_from_short], 147-190: the other fields by a function, or [Default::default]. *)
Inductive maker : Set := DefaultDefault | MakeBy (e : E).
Definition field_maker (f : other_field) : maker := match o_default f with Some e => MakeBy e | None => DefaultDefault end.
Definition makers (i : input) : list (str * maker) := map (fun f => (o_name f, field_maker f)) (in_others i).

(** What the generated code does. [V] are the values of fields, a struct gives one to each name. *)
Record rust (V : Type) : Type := mk_rust {
  r_none : V -> bool;  (** [Option::is_none] *)
  r_some : V -> V;  (** [Some] *)
  r_as_ref : V -> option V;  (** [as_ref] *)
  r_false : V -> bool;  (** [Not::not] *)
  r_empty : rtype -> V -> bool;  (** [<T>::is_empty] *)
  r_default : rtype -> V;  (** [Default::default] of a type *)
  r_call : E -> V -> bool; r_make : E -> V }.
Arguments r_none {V} _ _.
Arguments r_some {V} _ _.
Arguments r_as_ref {V} _ _.
Arguments r_false {V} _ _.
Arguments r_empty {V} _ _ _.
Arguments r_default {V} _ _.
Arguments r_call {V} _ _ _.
Arguments r_make {V} _ _.
Definition run_test {V : Type} (r : rust V) (t : test) (v : V) : bool :=
  match t with IsNone => r_none r v | Not => r_false r v | IsEmpty ty => r_empty r ty v | Call e => r_call r e v end.
Definition run_as_short {V : Type} (r : rust V) (i : input) (s : str -> V) : option V :=
  if forallb (fun t => run_test r (snd t) (s (fst t))) (tests i) then
    if sf_optional (in_short i) then r_as_ref r (s (sf_name (in_short i))) else Some (s (sf_name (in_short i)))
  else None.
Definition run_maker {V : Type} (r : rust V) (f : other_field) : V := match field_maker f with DefaultDefault => r_default r (o_type f) | MakeBy e => r_make r e end.
Definition run_from_short {V : Type} (r : rust V) (i : input) (v : V) : list (str * V) :=
  (sf_name (in_short i), if sf_optional (in_short i) then r_some r v else v) :: map (fun f => (o_name f, run_maker r f)) (in_others i).
(** [if #(...)&&* { ... }] with no test at all is not an expression. *)
Definition as_short_compiles (i : input) : bool := match tests i with [] => false | _ => true end.

(** ** [Default] *)

(** [Field::from_syn], default.rs 98-118; [Input::from_syn], 31-57; [expand], 60-80 and 121-128. *)
Fixpoint default_of (d : option E) (l : list (attribute E)) : result macro_error (option E) :=
  match l with
  | [] => Ok d
  | a :: r =>
      if str_eqb (at_name a) $"default" then
        match d with
        | Some _ => Err DuplicateDefault
        | None => match at_meta a with MValue e => default_of (Some e) r | _ => Err NotAValue end
        end
      else default_of d r
  end.
Definition default_field (f : field E) : result macro_error (str * option E) := map_ok (fun d => (f_name f, d)) (default_of None (f_attributes f)).
Definition derive_default (i : derive_input E) : result macro_error (list (str * option E)) :=
  match i with NotNamed => Err NotNamedFields | Named fs => collect default_field fs end.

(** ** [serde.rs] *)

(** [parse_expecting], serde.rs 110-134. *)
Definition read_expecting (x : option str) (item : str * tokens E) : result macro_error (option str) :=
  let '(name, value) := item in
  if str_eqb name $"expecting" then
    match x with
    | Some _ => Err DuplicateExpecting
    | None => match value with TLiteral s => Ok (Some s) | TNothing => Err NoValue | _ => Err NotALiteral end
    end
  else if str_eqb name $"transparent" then match value with TNothing => Ok x | _ => Err TrailingTokens end
  else Err UnsupportedItem.
Fixpoint read_expectings (x : option str) (items : list (str * tokens E)) : result macro_error (option str) :=
  match items with [] => Ok x | i :: r => x <- read_expecting x i ;; read_expectings x r end.
Fixpoint parse_expecting (x : option str) (l : list (attribute E)) : result macro_error (option str) :=
  match l with
  | [] => Ok x
  | a :: r =>
      if str_eqb (at_name a) $"serde" then
        match at_meta a with MList items => x <- read_expectings x items ;; parse_expecting x r | _ => Err NotAList end
      else parse_expecting x r
  end.
End Macros.

(** ** [platforms!] *)

(** [PeekIdent::error], platforms/prefix.rs 62-75: the message after the names it was compared with. *)
Definition peek_step (message comparison : str) : str :=
  message ++ (match message with [] => $"expected `" | _ => $" or `" end) ++ comparison ++ $"`".
Definition peek_error (comparisons : list str) : str := fold_left peek_step comparisons $"expected".

(** [Input::parse], platforms.rs 45-107, given the definitions of its input one by one: [type name = ...;] or an enum. What they hold is left open. *)
Inductive definition (X : Set) : Set := DType (name : str) (x : X) | DEnum (ident : str) (x : X).
Arguments DType {X} _ _.
Arguments DEnum {X} _ _.
Inductive platforms_error : Set := Duplicate (name : str) | Expected (message : str) | Missing (name : str).
Record parts (X : Set) : Set := mk_parts { p_platform : X; p_os : X; p_arch : X; p_parse_error : X; p_try_from_arch_error : X }.
Arguments mk_parts {X} _ _ _ _ _.
Section Platforms.
Context {X : Set}.
Definition once (o : option X) (name : str) (x : X) (k : option X -> result platforms_error (parts (option X))) : result platforms_error (parts (option X)) :=
  match o with Some _ => Err (Duplicate name) | None => k (Some x) end.
Definition read_definition (p : parts (option X)) (d : definition X) : result platforms_error (parts (option X)) :=
  let '(mk_parts a b c e f) := p in
  match d with
  | DType name x =>
      if str_eqb name $"ParseError" then once e name x (fun e => Ok (mk_parts a b c e f))
      else if str_eqb name $"TryFromArchError" then once f name x (fun f => Ok (mk_parts a b c e f))
      else Err (Expected $"expected `ParseError` or `TryFromArchError`")
  | DEnum name x =>
      if str_eqb name $"Platform" then once a name x (fun a => Ok (mk_parts a b c e f))
      else if str_eqb name $"Os" then once b name x (fun b => Ok (mk_parts a b c e f))
      else if str_eqb name $"Arch" then once c name x (fun c => Ok (mk_parts a b c e f))
      else Err (Expected (peek_error [$"Platform"; $"Os"; $"Arch"]))
  end.
Fixpoint read_definitions (p : parts (option X)) (l : list (definition X)) : result platforms_error (parts (option X)) :=
  match l with [] => Ok p | d :: r => p <- read_definition p d ;; read_definitions p r end.
Definition some_or (name : string) (o : option X) : result platforms_error X := match o with Some x => Ok x | None => Err (Missing $name) end.
Definition platforms_parse (l : list (definition X)) : result platforms_error (parts X) :=
  p <- read_definitions (mk_parts None None None None None) l ;;
  let '(mk_parts a b c e f) := p in
  a <- some_or "Platform" a ;; b <- some_or "Os" b ;; c <- some_or "Arch" c ;; e <- some_or "ParseError" e ;; f <- some_or "TryFromArchError" f ;;
  Ok (mk_parts a b c e f).
End Platforms.
