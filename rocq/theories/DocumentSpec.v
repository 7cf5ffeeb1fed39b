(** What a compose file declares and what its services use, as a matter of the document alone. Nothing here refers to the
    model of the crate. *)

From Coq Require Import String Ascii List NArith Bool.
Import ListNotations.
From Verif Require Import Base Regex KeysSpec Serde Schema.

(** The document [v] is an object in which the field [k] is given once, as [x]. *)
Definition part (k : str) (v x : sval) : Prop := exists es, v = VMap es /\ values_of k es = [x].
(** An item of a list, a key of a map. *)
Definition item (v x : sval) : Prop := exists l, v = VSeq l /\ In x l.
Definition key (v : sval) (n : str) : Prop := exists es, v = VMap es /\ In (VStr n) (map fst es).
(** The last entry with a key. *)
Definition last_entry (v : sval) (n : str) (x : sval) : Prop :=
  exists before after, v = VMap (before ++ (VStr n, x) :: after) /\ ~ In (VStr n) (map fst after).

(** A service of the document, and a name declared at top level under [networks], [volumes], [configs] or [secrets]. *)
Definition has_service (doc : sval) (name : str) (s : sval) : Prop := exists v, part $"services" doc v /\ last_entry v name s.
Definition declares (doc : sval) (kind n : str) : Prop := exists v, part kind doc v /\ key v n.

(** The networks of a service, listed or as keys. *)
Definition uses_network (s : sval) (n : str) : Prop := exists v, part $"networks" s v /\ (item v (VStr n) \/ key v n).
(** Its configs or secrets, by name or as the source of an object. *)
Definition uses_grant (kind : str) (s : sval) (n : str) : Prop :=
  exists v x, part kind s v /\ item v x /\ (x = VStr n \/ part $"source" x (VStr n)).
(** A mount of a named volume: [NAME:...] where NAME has the form of an identifier, or an object of type [volume]. *)
Definition mounts_volume (x : sval) (n : str) : Prop :=
  (exists r, x = VStr (n ++ $":" ++ r) /\ matches IDENTIFIER_RE n) \/ (part $"type" x (VStr $"volume") /\ part $"source" x (VStr n)).
Definition uses_volume (s : sval) (n : str) : Prop := exists v x, part $"volumes" s v /\ item v x /\ mounts_volume x n.
(** Two mounts of the same service. *)
Definition uses_volume_twice (s : sval) (n : str) : Prop :=
  exists a x b y c, part $"volumes" s (VSeq (a ++ x :: b ++ y :: c)) /\ mounts_volume x n /\ mounts_volume y n.
