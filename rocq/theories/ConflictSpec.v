(** Attributes which the documentation says exclude each other but which are not held in one enum: [count] and [device_ids] of a reserved device
    ("Conflicts with", deploy/resources.rs 352, 360), and [ports] beside the network mode [host] ("cannot be used with", service.rs 511). A matter of
    the document alone. *)

From Coq Require Import String List NArith.
Import ListNotations.
From Verif Require Import Base Serde Schema DocumentSpec AgreeSpec.

(** A device reserved by the service [s]. *)
Definition reserves (s d : sval) : Prop := exists ds, at_path [$"deploy"; $"resources"; $"reservations"; $"devices"] s (VSeq ds) /\ In d ds.
(** It is asked for both by number and by name. *)
Definition number_and_names (d : sval) : Prop := exists n i is, at_path [$"count"] d (VInt n) /\ at_path [$"device_ids"] d (VSeq (i :: is)).
(** Ports are published although the service is on the network of the host. *)
Definition ports_on_host (s : sval) : Prop := exists p ps, at_path [$"network_mode"] s (VStr $"host") /\ at_path [$"ports"] s (VSeq (p :: ps)).
(** The document has no such conflict. *)
Definition no_conflict (doc : sval) : Prop := forall name s, has_service doc name s -> ~ ports_on_host s /\ forall d, reserves s d -> ~ number_and_names d.
