(** The mixed forms of [src/common.rs] and [src/common/short_or_long.rs] as codecs. No proofs in this file. *)

From Coq Require Import String Ascii List NArith ZArith Bool.
Import ListNotations.
From Verif Require Import Base Num Coll Regex KeysSpec KeysModel IpModel IpProofs ValuesModel VolumesModel Serde Codec ScalarCodec.
Open Scope N_scope.

(** ** Values, common.rs 285-376, 520-607, 746-813 *)

(** [Number]: [visit_u64], [visit_i64] (negative only, as [serde_yaml] gives any other integer to [visit_u64]) and [visit_f64]. *)
Definition number_ser (n : number) : sval :=
  match n with UnsignedInt n => VInt (Z.of_N n) | SignedInt z => VInt z | Float b => VFloat b end.
Definition number_de (v : sval) : result de_error number :=
  match v with
  | VInt z => if (0 <=? z)%Z then map_ok UnsignedInt (int_to_uint U64_MAX z)
              else if (- Z.of_N I64_MIN_ABS <=? z)%Z then Ok (SignedInt z) else Err DeError
  | VFloat b => Ok (Float b)
  | _ => Err DeError
  end.
Definition number_wf (n : number) : Prop :=
  match n with UnsignedInt n => n <= U64_MAX | SignedInt z => (- Z.of_N I64_MIN_ABS <= z <= Z.of_N I64_MAX)%Z | Float _ => True end.
(** A [SignedInt] which is not negative reads back as an [UnsignedInt]. *)
Definition number_norm (n : number) : number :=
  match n with SignedInt z => if (0 <=? z)%Z then UnsignedInt (Z.to_N z) else n | _ => n end.
Definition number_c : codec number := mk_codec number_ser number_de number_wf number_norm.

Definition value_c : codec value :=
  mk_codec (fun v => match v with VString s => VStr s | VNumber n => ser number_c n | VBoolean b => VBool b end)
    (fun v => match v with VStr s => Ok (VString s) | VBool b => Ok (VBoolean b) | _ => map_ok VNumber (de number_c v) end)
    (fun v => match v with VNumber n => wf number_c n | _ => True end)
    (fun v => match v with VNumber n => VNumber (norm number_c n) | _ => v end).

Definition string_or_number_c : codec string_or_number :=
  mk_codec (fun v => match v with SString s => VStr s | SNumber n => ser number_c n end)
    (fun v => match v with VStr s => Ok (SString s) | _ => map_ok SNumber (de number_c v) end)
    (fun v => match v with SNumber n => wf number_c n | _ => True end)
    (fun v => match v with SNumber n => SNumber (norm number_c n) | _ => v end).

(** ** Lists and maps *)

(** [ItemOrList], [Command] and [EnvFile]: written untagged, read by [ItemOrListVisitor], serde.rs 329-420. *)
Inductive item_or_list (A B : Set) : Set := Item (a : A) | Items (b : B).
Arguments Item {A B} _.
Arguments Items {A B} _.
Definition item_or_list_c {A B : Set} (i : codec A) (l : codec B) : codec (item_or_list A B) :=
  MkCodec (fun x => match x with Item a => ser i a | Items b => ser l b end)
    (fun v => match v with
              | VNull | VMap _ => Err DeError
              | VSeq _ => map_ok Items (de l v)
              | _ => map_ok Item (de i v)
              end)
    (fun x => match x with Item a => wf i a | Items b => wf l b end)
    (fun x => match x with Item a => Item (norm i a) | Items b => Items (norm l b) end)
    (fun v => match v with VNull | VMap _ => false | VSeq _ => panics l v | _ => panics i v end).

(** [IndexSet] and [IndexMap] with keys which are strings. *)
Definition sset (c : codec str) : codec (list str) := iset_c str_eqb c.
Definition smap {V : Set} (k : codec str) (v : codec V) : codec (list (str * V)) := imap_c str_eqb k v.

(** [ListOrMap], common.rs 143-282. *)
Definition vmap_c : codec (list (str * option value)) := smap map_key_c (option_c value_c).
Definition list_or_map_c : codec list_or_map :=
  MkCodec (fun x => match x with LList l => ser (sset string_c) l | LMap m => ser vmap_c m end)
    (fun v => match v with
              | VSeq _ => map_ok LList (de (sset string_c) v)
              | VMap _ => map_ok LMap (de vmap_c v)
              | _ => Err DeError
              end)
    (fun x => match x with LList l => wf (sset string_c) l | LMap m => wf vmap_c m end)
    (fun x => match x with LList l => LList l | LMap m => LMap (norm vmap_c m) end)
    (fun v => match v with VSeq _ => panics (sset string_c) v | VMap _ => panics vmap_c v | _ => false end).
(** [ListOrMap::is_empty], 184-190, and [Default], 278-282. *)
Definition list_or_map_empty (x : list_or_map) : bool := match x with LList l => is_nil l | LMap m => is_nil m end.
(** A field [#[serde(default, skip_serializing_if = "ListOrMap::is_empty")]]. *)
Definition list_or_map_field (name : str) : member := field name list_or_map_c (Some (LList [])) list_or_map_empty.

(** [ShortOrLong], common/short_or_long.rs 45-57 (written untagged) and 312-330 with [ShortOrLongVisitor]: only a map is
    [Long]. *)
Definition short_or_long_c {S L : Set} (s : codec S) (l : codec L) : codec (short_or_long S L) :=
  MkCodec (fun x => match x with Short a => ser s a | Long b => ser l b end)
    (fun v => match v with VMap _ => map_ok Long (de l v) | _ => map_ok Short (de s v) end)
    (fun x => match x with Short a => wf s a | Long b => wf l b end)
    (fun x => match x with Short a => Short (norm s a) | Long b => Long (norm l b) end)
    (fun v => match v with VMap _ => panics l v | _ => panics s v end).

(** [extra_hosts], service.rs 1056-1091: written as a map, read as a [ListOrMap] (see [ValuesModel.extra_hosts]). *)
Definition extra_hosts_c (w : externals) : codec (list (str * ip_addr)) :=
  MkCodec (ser (smap hostname_c (ip_c w))) (fun v => x <- de list_or_map_c v ;; extra_hosts (w_float w) x)
    (wf (smap hostname_c (ip_c w))) (fun m => m) (panics list_or_map_c).

(** ** Resources, common.rs 890-997 *)

Inductive resource (A : Set) : Set := External (name : option str) | Managed (a : A).
Arguments External {A} _.
Arguments Managed {A} _.

(** [HashMap<String, serde_yaml::Value>]: the last entry with a key counts. The order of the entries is not
    specified, here they keep their places (see [PropsResource] for other orders). *)
Definition yaml_entry (e : sval * sval) : result de_error (str * sval) :=
  match fst e with VStr k => v <- de yaml_c (snd e) ;; Ok (k, v) | _ => Err DeError end.
Definition hash_map_de (es : list (sval * sval)) : result de_error (list (str * sval)) :=
  map_ok (imap_of str_eqb) (collect yaml_entry es).
Definition without {A : Type} (k : str) (m : list (str * A)) : list (str * A) := filter (fun e => negb (str_eqb k (fst e))) m.

(** [Deserialize for Resource], 962-997, from the entries of the hash map in some order. *)
Definition resource_of {A : Set} (c : codec A) (m : list (str * sval)) : result de_error (resource A) :=
  external <- match imap_get str_eqb m $"external" with Some v => de bool_c v | None => Ok false end ;;
  let m := without $"external" m in
  if (external : bool) then
    name <- match imap_get str_eqb m $"name" with Some v => map_ok Some (de string_c v) | None => Ok None end ;;
    if is_nil (without $"name" m) then Ok (External name) else Err DeError
  else map_ok Managed (de c (VMap (ext_ser m))).
Definition resource_panics {A : Set} (c : codec A) (m : list (str * sval)) : bool :=
  match match imap_get str_eqb m $"external" with Some v => de bool_c v | None => Ok false end with
  | Ok false => panics c (VMap (ext_ser (without $"external" m)))
  | _ => false
  end.

Definition external_ser (name : option str) : list (sval * sval) :=
  (VStr $"external", VBool true) :: match name with Some n => [(VStr $"name", VStr n)] | None => [] end.
Definition resource_c {A : Set} (c : codec A) : codec (resource A) :=
  MkCodec (fun r => match r with External name => VMap (external_ser name) | Managed a => ser c a end)
    (fun v => match v with VMap es => m <- hash_map_de es ;; resource_of c m | _ => Err DeError end)
    (fun r => match r with External _ => True | Managed a => wf c a end)
    (fun r => match r with External name => External name | Managed a => Managed (norm c a) end)
    (fun v => match v with
              | VMap es => match hash_map_de es with Ok m => resource_panics c m | Err _ => false end
              | _ => false
              end).
