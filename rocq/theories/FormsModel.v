(** Conversions to the long form: [src/common.rs] and [src/common/short_or_long.rs]. The conversions of the single types are in [ShortModel],
    [VolumesModel], [PortsModel] and [BytesModel]. No proofs in this file. *)

From Coq Require Import String Ascii List NArith ZArith Bool.
Import ListNotations.
From Verif Require Import Base Num Coll PortsModel VolumesModel ValuesModel EqModel Serde Codec ScalarCodec CommonCodec ServiceParts ShortModel.
Open Scope N_scope.

(** [From<ShortOrLong<S, L>> for L] of [impl_long_conversion!], common/short_or_long.rs 265-297, and [ShortOrLong::into_long], 94-103: [into] is [From<S> for L]. *)
Definition into_long {S L : Type} (into : S -> L) (x : short_or_long S L) : L := match x with Short s => into s | Long l => l end.
(** [is_short], [is_long] and [as_long], 64-92. *)
Definition is_short {S L : Type} (x : short_or_long S L) : bool := match x with Short _ => true | Long _ => false end.
Definition is_long {S L : Type} (x : short_or_long S L) : bool := match x with Short _ => false | Long _ => true end.
Definition as_long {S L : Type} (x : short_or_long S L) : option L := match x with Short _ => None | Long l => Some l end.
(** [AsShort for ShortOrLong], 137-150: [short] is [L::as_short]. *)
Definition as_short {S L : Type} (short : L -> option S) (x : short_or_long S L) : option S := match x with Short s => Some s | Long l => short l end.
(** [AsShortIter for ShortOrLong], 173-187, with the [Iterator], 189-203: the items that are given. [short] is [L::as_short_iter]. *)
Definition as_short_iter {S L : Type} (short : L -> option (list S)) (x : short_or_long (list S) L) : option (list S) :=
  match x with Short l => Some l | Long l => short l end.

(** [ItemOrList::as_list] and [into_list], common.rs 87-109; [as_item] is in [ShortModel]. *)
Definition as_list {A : Set} (x : item_or_list A (list A)) : option (list A) := match x with Item _ => None | Items l => Some l end.
Definition item_into_list {A : Set} (x : item_or_list A (list A)) : list A := match x with Item a => [a] | Items l => l end.
(** [PartialEq for ItemOrList], 58-70: sets are equal if they have the same items ([IndexSet]'s [PartialEq]: as many, and all of the first are in the second). *)
Definition set_eqb {A : Type} (eqb : A -> A -> bool) (a b : list A) : bool :=
  Nat.eqb (List.length a) (List.length b) && forallb (fun x => existsb (eqb x) b) a.
Definition item_or_list_eqb {A : Set} (eqb : A -> A -> bool) (x y : item_or_list A (list A)) : bool :=
  match x, y with Item a, Item b => eqb a b | Items a, Items b => set_eqb eqb a b | _, _ => false end.

(** [into_short_iter] and [into_long_iter] of [Ports], service/ports.rs 34-50. *)
Definition port_sum (x : short_or_long short_port port) : short_port + port := match x with Short s => inl s | Long p => inr p end.
Definition ports_long (l : list (short_or_long short_port port)) : list port := ports_into_long (map port_sum l).
