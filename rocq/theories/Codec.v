(** A small model of what [serde]'s derive macros generate, as combinators. A [codec] is the pair of a
    [Serialize] and a [Deserialize] implementation over the data model of [Serde.v]. The other two components
    are specification only, [ser] and [de] never use them: [wf] is the documented invariant of the type, and
    [norm] says what a value reads back as after being written. [norm] is the identity except that a field
    which [skip_serializing_if] leaves out comes back as the field's default ([field]). [panics] tells whether
    reading stops in a panic, given that things are read in the order of the document.

    Simplifications, for all types built from these combinators: error messages are not kept ([DeError]);
    for [de], a panic while reading counts as a failure; a struct
    is read from a map only (serde also allows a sequence of its fields); strings are read from strings
    only ([serde_yaml] also gives the text of an unquoted scalar to [deserialize_str]: see [NodeModel.v]).
    No proofs in this file. *)

From Coq Require Import String Ascii List NArith ZArith Bool.
Import ListNotations.
From Verif Require Import Base Num Coll KeysModel Serde.
Open Scope N_scope.

Record codec (A : Set) : Type := MkCodec {
  ser : A -> sval; de : sval -> result de_error A; wf : A -> Prop; norm : A -> A; panics : sval -> bool }.
Arguments MkCodec {A} _ _ _ _ _.
(** Most types have readers that cannot panic. *)
Notation mk_codec s d i n := (MkCodec s d i n (fun _ => false)) (only parsing).
Arguments ser {A} _ _.
Arguments de {A} _ _.
Arguments wf {A} _ _.
Arguments norm {A} _ _.
Arguments panics {A} _ _.

(** A panic counts as a failure. *)
Definition no_panic {E A} (o : outcome E A) : result de_error A := match o with OOk a => Ok a | _ => Err DeError end.
Definition panicked {E A} (o : outcome E A) : bool := match o with OPanic => true | _ => false end.
Definition read_ok {A} (r : result de_error A) : bool := match r with Ok _ => true | Err _ => false end.
(** Things are read one after the other until one fails. *)
Fixpoint first_panic {X : Type} (ok bad : X -> bool) (l : list X) : bool :=
  match l with [] => false | x :: r => bad x || (ok x && first_panic ok bad r) end.

(** ** Scalars *)

Definition string_c : codec str :=
  mk_codec VStr (fun v => match v with VStr s => Ok s | _ => Err DeError end) (fun _ => True) (fun a => a).

Definition bool_c : codec bool :=
  mk_codec VBool (fun v => match v with VBool b => Ok b | _ => Err DeError end) (fun _ => True) (fun a => a).

(** Unsigned integers up to [max]: [u8], [u16], [u32], [u64]. *)
Definition uint_c (max : N) : codec N :=
  mk_codec (fun n => VInt (Z.of_N n)) (fun v => match v with VInt z => int_to_uint max z | _ => Err DeError end)
    (fun n => n <= max) (fun n => n).

(** Types written as one string: [SerializeDisplay] with [DeserializeFromStr] or
    [DeserializeTryFromString] (compose_spec_macros/src/serde.rs). *)
Definition text_c {E} {A : Set} (show : A -> str) (parse : str -> result E A) (inv : A -> Prop) : codec A :=
  mk_codec (fun a => VStr (show a)) (from_string parse) inv (fun a => a).

(** [serde_yaml::Value]: any value in which no map has a key twice ([serde_yaml::Mapping]'s visitor rejects a
    repeated key). Keys are compared structurally; [serde_yaml] differs on floats (0.0 and -0.0, NaNs). Tagged
    values are not modelled. *)
Fixpoint sval_eqb (a b : sval) : bool :=
  match a, b with
  | VNull, VNull => true
  | VBool a, VBool b => Bool.eqb a b
  | VInt a, VInt b => (a =? b)%Z
  | VFloat a, VFloat b => a =? b
  | VStr a, VStr b => str_eqb a b
  | VSeq a, VSeq b =>
      (fix go (a b : list sval) : bool :=
         match a, b with [], [] => true | x :: a, y :: b => sval_eqb x y && go a b | _, _ => false end) a b
  | VMap a, VMap b =>
      (fix go (a b : list (sval * sval)) : bool :=
         match a, b with
         | [], [] => true
         | (k, x) :: a, (l, y) :: b => sval_eqb k l && sval_eqb x y && go a b
         | _, _ => false
         end) a b
  | _, _ => false
  end.
Fixpoint no_repeat (l : list sval) : bool :=
  match l with [] => true | x :: r => negb (existsb (sval_eqb x) r) && no_repeat r end.
Fixpoint yaml_ok (v : sval) : bool :=
  match v with
  | VSeq l => forallb yaml_ok l
  | VMap es => no_repeat (map fst es) && forallb (fun e => yaml_ok (fst e) && yaml_ok (snd e)) es
  | _ => true
  end.
Definition yaml_c : codec sval :=
  mk_codec (fun v => v) (fun v => if yaml_ok v then Ok v else Err DeError) (fun v => yaml_ok v = true) (fun a => a).

(** A derived unit enum: the table lists, in order, each variant with its name and its other accepted
    names ([rename], [rename_all], [alias]). *)
Definition enum_table (A : Set) := list (A * (str * list str)).
Fixpoint enum_name {A : Set} (eqb : A -> A -> bool) (t : enum_table A) (a : A) : str :=
  match t with [] => [] | (b, (n, _)) :: r => if eqb a b then n else enum_name eqb r a end.
Fixpoint enum_find {A : Set} (t : enum_table A) (s : str) : result de_error A :=
  match t with
  | [] => Err DeError
  | (b, (n, al)) :: r => if str_eqb s n || existsb (str_eqb s) al then Ok b else enum_find r s
  end.
Definition enum_c {A : Set} (eqb : A -> A -> bool) (t : enum_table A) : codec A :=
  mk_codec (fun a => VStr (enum_name eqb t a)) (fun v => match v with VStr s => enum_find t s | _ => Err DeError end)
    (fun _ => True) (fun a => a).

(** ** Containers *)

(** [Option<T>]. *)
Definition option_c {A : Set} (c : codec A) : codec (option A) :=
  MkCodec (fun o => match o with Some a => ser c a | None => VNull end)
    (fun v => match v with VNull => Ok None | _ => map_ok Some (de c v) end)
    (fun o => match o with Some a => wf c a | None => True end) (option_map (norm c))
    (fun v => match v with VNull => false | _ => panics c v end).

(** [Vec<T>]. *)
Definition seq_panics {A : Set} (c : codec A) (v : sval) : bool :=
  match v with VSeq l => first_panic (fun x => read_ok (de c x)) (panics c) l | _ => false end.
Definition list_c {A : Set} (c : codec A) : codec (list A) :=
  MkCodec (fun l => VSeq (map (ser c) l)) (fun v => match v with VSeq l => collect (de c) l | _ => Err DeError end)
    (Forall (wf c)) (map (norm c)) (seq_panics c).

(** [IndexSet<T>]: an element read again is dropped. [eqb later earlier] is [T]'s equality, which may be coarser
    than Gallina's. *)
Definition distinct {A : Type} (eqb : A -> A -> bool) : list A -> Prop := ForallOrdPairs (fun x y => eqb y x = false).
Definition iset_c {A : Set} (eqb : A -> A -> bool) (c : codec A) : codec (list A) :=
  MkCodec (fun l => VSeq (map (ser c) l))
    (fun v => match v with VSeq l => map_ok (iset_of eqb) (collect (de c) l) | _ => Err DeError end)
    (fun l => Forall (wf c) l /\ distinct eqb l) (fun l => l) (seq_panics c).

(** The entries of a map with the given codecs for keys and values. *)
Definition entry_de {K V : Set} (k : codec K) (v : codec V) (e : sval * sval) : result de_error (K * V) :=
  key <- de k (fst e) ;; value <- de v (snd e) ;; Ok (key, value).
Definition entry_panics {K V : Set} (k : codec K) (v : codec V) (e : sval * sval) : bool :=
  panics k (fst e) || (read_ok (de k (fst e)) && panics v (snd e)).
Definition entry_ser {K V : Set} (k : codec K) (v : codec V) (e : K * V) : sval * sval := (ser k (fst e), ser v (snd e)).

(** [IndexMap<K, V>]: a key read again keeps its place and gets the new value. *)
Definition imap_c {K V : Set} (eqb : K -> K -> bool) (k : codec K) (v : codec V) : codec (list (K * V)) :=
  MkCodec (fun m => VMap (map (entry_ser k v) m))
    (fun x => match x with VMap m => map_ok (imap_of eqb) (collect (entry_de k v) m) | _ => Err DeError end)
    (fun m => Forall (fun e => wf k (fst e) /\ wf v (snd e)) m /\ NoDup (map fst m))
    (map (fun e => (fst e, norm v (snd e))))
    (fun x => match x with VMap m => first_panic (fun e => read_ok (entry_de k v e)) (entry_panics k v) m | _ => false end).

(** ** Structs *)

(** A member of a derived struct: the names of the entries it is made of (one, except for a flattened struct),
    how it is written, and how it is read from all the entries of the map. [m_flat]: a flattened struct, which is
    read after the other members. *)
Record member : Type := mk_member {
  m_names : list str; m_type : Set; m_ser : m_type -> list (sval * sval); m_de : list (sval * sval) -> result de_error m_type;
  m_wf : m_type -> Prop; m_norm : m_type -> m_type; m_flat : bool; m_panics : list (sval * sval) -> bool }.

(** The entry of a field: [duplicate_field] is an error. *)
Fixpoint lookup (k : str) (es : list (sval * sval)) : result de_error (option sval) :=
  match es with
  | [] => Ok None
  | (VStr k', v) :: r =>
      if str_eqb k k' then match lookup k r with Ok None => Ok (Some v) | _ => Err DeError end else lookup k r
  | _ :: r => lookup k r
  end.

(** A field: its name, the codec of its type, [default] (the value when the entry is absent; [missing_field] is
    an error if there is none) and [skip_serializing_if]. *)
Definition field (name : str) {A : Set} (c : codec A) (default : option A) (skip : A -> bool) : member :=
  mk_member [name] A
    (fun a => if skip a then [] else [(VStr name, ser c a)])
    (fun es =>
       o <- lookup name es ;;
       match o with
       | Some v => de c v
       | None => match default with Some a => Ok a | None => Err DeError end
       end)
    (wf c)
    (fun a => if skip a then match default with Some d => d | None => a end else norm c a)
    false
    (fun es => match lookup name es with Ok (Some v) => panics c v | _ => false end).

(** The values of a list of members. *)
Fixpoint vals (ms : list member) : Set :=
  match ms with [] => unit | m :: r => (m_type m * vals r)%type end.
Definition names (ms : list member) : list str := flat_map m_names ms.

(** Derived [Serialize] and [Deserialize]. *)
Fixpoint ser_members (ms : list member) : vals ms -> list (sval * sval) :=
  match ms return vals ms -> list (sval * sval) with
  | [] => fun _ => []
  | m :: r => fun v => m_ser m (fst v) ++ ser_members r (snd v)
  end.
Fixpoint de_members (ms : list member) (es : list (sval * sval)) : result de_error (vals ms) :=
  match ms return result de_error (vals ms) with
  | [] => Ok tt
  | m :: r => a <- m_de m es ;; v <- de_members r es ;; Ok (a, v)
  end.
Fixpoint wf_members (ms : list member) : vals ms -> Prop :=
  match ms return vals ms -> Prop with
  | [] => fun _ => True
  | m :: r => fun v => m_wf m (fst v) /\ wf_members r (snd v)
  end.
Fixpoint norm_members (ms : list member) : vals ms -> vals ms :=
  match ms return vals ms -> vals ms with
  | [] => fun v => v
  | m :: r => fun v => (m_norm m (fst v), norm_members r (snd v))
  end.

(** The order in which a derived [visit_map] reads: each entry in turn, into the field it belongs to
    ([duplicate_field] before the value is read), then the missing fields, then the flattened structs. [strict]:
    all keys have to be strings. *)
Fixpoint find_field (k : str) (ms : list member) : option member :=
  match ms with
  | [] => None
  | m :: r => if negb (m_flat m) && existsb (str_eqb k) (m_names m) then Some m else find_field k r
  end.
Definition finish_panics (ms : list member) (all : list (sval * sval)) : bool :=
  forallb (fun m => m_flat m || read_ok (m_de m all)) ms &&
  first_panic (fun m => read_ok (m_de m all)) (fun m => m_panics m all) (filter m_flat ms).
Fixpoint members_panic (strict : bool) (ms : list member) (all : list (sval * sval)) (seen : list str) (es : list (sval * sval)) : bool :=
  match es with
  | [] => finish_panics ms all
  | (VStr k, v) :: r =>
      match find_field k ms with
      | None => members_panic strict ms all seen r
      | Some m =>
          if existsb (str_eqb k) seen then false
          else m_panics m [(VStr k, v)] || (read_ok (m_de m [(VStr k, v)]) && members_panic strict ms all (k :: seen) r)
      end
  | _ :: r => if strict then false else members_panic strict ms all seen r
  end.

(** A [flatten]ed struct or a hand-written group of entries: [read] checks and converts the members that were
    read, [write] goes back. *)
Definition group {B : Set} (ms : list member) (write : B -> vals ms) (read : vals ms -> result de_error B)
    (inv : B -> Prop) (nrm : B -> B) : member :=
  mk_member (names ms) B (fun b => ser_members ms (write b)) (fun es => v <- de_members ms es ;; read v) inv nrm
    true (fun es => members_panic false ms es [] es).

(** A struct without a flattened map: unknown entries are ignored, as long as their keys are strings (the
    generated field visitor reads every key with [deserialize_identifier]). *)
Definition string_keys (es : list (sval * sval)) : bool := forallb (fun e => match fst e with VStr _ => true | _ => false end) es.
Definition struct_c (ms : list member) : codec (vals ms) :=
  MkCodec (fun v => VMap (ser_members ms v))
    (fun v => match v with VMap es => if string_keys es then de_members ms es else Err DeError | _ => Err DeError end)
    (wf_members ms) (norm_members ms)
    (fun v => match v with VMap es => members_panic true ms es [] es | _ => false end).

(** [Extensions], an [IndexMap<ExtensionKey, serde_yaml::Value>]. *)
Definition extensions := list (str * sval).
Definition ext_key (s : str) : Prop := (exists r, s = $"x-" ++ r) /\ ~ In 10 s.
Definition ext_wf (x : extensions) : Prop :=
  Forall (fun e => ext_key (fst e)) x /\ NoDup (map fst x) /\ Forall (fun e => wf yaml_c (snd e)) x.
Definition ext_ser (x : extensions) : list (sval * sval) := map (fun e => (VStr (fst e), snd e)) x.
Definition ext_entry (e : sval * sval) : result de_error (str * sval) :=
  match fst e with
  | VStr s => k <- map_err (fun _ => DeError) (extension_key_new s) ;; v <- de yaml_c (snd e) ;; Ok (k, v)
  | _ => Err DeError
  end.
Definition ext_de (es : list (sval * sval)) : result de_error extensions :=
  map_ok (imap_of str_eqb) (collect ext_entry es).

(** The entries which are not members. *)
Definition unknown (ns : list str) (es : list (sval * sval)) : list (sval * sval) :=
  filter (fun e => match fst e with VStr k => negb (existsb (str_eqb k) ns) | _ => true end) es.

(** A struct whose last member is [#[serde(flatten)] extensions: Extensions]: every other entry has to be an
    extension. *)
Definition struct_ext_c (ms : list member) : codec (vals ms * extensions) :=
  MkCodec (fun v => VMap (ser_members ms (fst v) ++ ext_ser (snd v)))
    (fun v => match v with
              | VMap es => a <- de_members ms es ;; x <- ext_de (unknown (names ms) es) ;; Ok (a, x)
              | _ => Err DeError
              end)
    (fun v => wf_members ms (fst v) /\ ext_wf (snd v)) (fun v => (norm_members ms (fst v), snd v))
    (fun v => match v with VMap es => members_panic false ms es [] es | _ => false end).

(** The same for a hand-written visitor which rejects an extension given twice. *)
Definition once (es : list (sval * sval)) (x : extensions) : bool := Nat.eqb (List.length es) (List.length x).
Definition struct_ext_once_c (ms : list member) : codec (vals ms * extensions) :=
  MkCodec (ser (struct_ext_c ms))
    (fun v => match v with
              | VMap es =>
                  a <- de_members ms es ;; x <- ext_de (unknown (names ms) es) ;;
                  if once (unknown (names ms) es) x then Ok (a, x) else Err DeError
              | _ => Err DeError
              end)
    (wf (struct_ext_c ms)) (norm (struct_ext_c ms)) (panics (struct_ext_c ms)).

(** A record presented as the tuple of its fields. *)
Definition iso {A B : Set} (c : codec A) (write : B -> A) (make : A -> B) : codec B :=
  MkCodec (fun b => ser c (write b)) (fun v => map_ok make (de c v)) (fun b => wf c (write b)) (fun b => make (norm c (write b))) (panics c).

(** ** The usual fields *)

Definition is_nil {A : Type} (l : list A) : bool := match l with [] => true | _ => false end.
Definition is_none {A : Type} (o : option A) : bool := match o with None => true | _ => false end.

(** A field without attributes. *)
Definition required (name : str) {A : Set} (c : codec A) : member := field name c None (fun _ => false).
(** [#[serde(default, skip_serializing_if = "Option::is_none")]]. *)
Definition optional (name : str) {A : Set} (c : codec A) : member := field name (option_c c) (Some None) is_none.
(** The same where the reading function does not accept a null. *)
Definition some_c {A : Set} (c : codec A) : codec (option A) :=
  MkCodec (ser (option_c c)) (fun v => map_ok Some (de c v)) (wf (option_c c)) (norm (option_c c)) (panics c).
Definition given (name : str) {A : Set} (c : codec A) : member := field name (some_c c) (Some None) is_none.
(** [#[serde(default, skip_serializing_if = "Vec::is_empty")]], also for sets and maps. *)
Definition many (name : str) {A : Set} (c : codec (list A)) : member := field name c (Some []) is_nil.
(** [#[serde(default, skip_serializing_if = "Not::not")]]. *)
Definition flag (name : str) : member := field name bool_c (Some false) negb.
(** [#[serde(default = "default_true", skip_serializing_if = "skip_true")]]. *)
Definition flag_true (name : str) : member := field name bool_c (Some true) (fun b => b).
