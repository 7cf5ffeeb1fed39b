(** Changing a [Compose] through its public fields. All fields of [Compose] (src/lib.rs 168-224) and [Service]
    (src/service.rs 81-682) are public, so a program may put any value of the type of a field in its place. No proofs in this
    file. *)

From Coq Require Import String Ascii List NArith ZArith Bool.
Import ListNotations.
From Verif Require Import Base Num Coll Serde Codec ScalarCodec ServiceCodec ComposeCodec.
Open Scope N_scope.

(** Assignment to the field with number [n]. *)
Fixpoint set_val (n : nat) (ms : list member) {struct ms} : nth_type n ms -> vals ms -> vals ms :=
  match ms return nth_type n ms -> vals ms -> vals ms with
  | [] => fun _ v => v
  | m :: r => match n return nth_type n (m :: r) -> vals (m :: r) -> vals (m :: r) with
              | O => fun x v => (x, snd v)
              | S n => fun x v => (fst v, set_val n r x (snd v))
              end
  end.

(** [service.field = x]. *)
Definition set_field {w : externals} (n : nat) (x : nth_type n (service_ms w)) (s : service w) : service w :=
  (set_val n (service_ms w) x (fst s), snd s).
(** [compose.services = l]: the map is any list of names and services, [services.insert], [services.shift_remove] and so on
    give some other such list. [services] is the field with number 3. *)
Definition set_services {w : externals} (l : list (str * service w)) (c : compose w) : compose w :=
  (set_val 3 (compose_ms w) l (fst c), snd c).
(** [compose.services.get_mut(name) = s]. *)
Definition update {w : externals} (name : str) (s : service w) (l : list (str * service w)) : list (str * service w) :=
  map (fun e => if str_eqb (fst e) name then (fst e, s) else e) l.
