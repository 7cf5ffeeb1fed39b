(** Attributes of a service which say the same thing as an attribute of its [deploy] section. The documentation has "must be consistent with ... if both
    are set" (service.rs 166-168, 442-444, 450-452, 492-494, 559-561). A matter of the document alone. *)

From Coq Require Import String List NArith ZArith.
Import ListNotations.
From Verif Require Import Base Serde Schema DocumentSpec.

(** [x] is found in [v] by going through the fields [path]. *)
Fixpoint at_path (path : list str) (v x : sval) : Prop := match path with [] => v = x | k :: r => exists y, part k v y /\ at_path r y x end.
Definition pairs : list (list str * list str) :=
  [([$"cpus"], [$"deploy"; $"resources"; $"limits"; $"cpus"]); ([$"mem_limit"], [$"deploy"; $"resources"; $"limits"; $"memory"]);
   ([$"mem_reservation"], [$"deploy"; $"resources"; $"reservations"; $"memory"]); ([$"pids_limit"], [$"deploy"; $"resources"; $"limits"; $"pids"]);
   ([$"scale"], [$"deploy"; $"replicas"])].
(** If both are given as integers, or both as positive floats, they are the same. *)
Definition numbers (x y : sval) : Prop :=
  (exists a b, x = VInt a /\ y = VInt b) \/ (exists a b, x = VFloat a /\ y = VFloat b /\ (0 < a < 2 ^ 63)%N /\ (0 < b < 2 ^ 63)%N).
Definition agree (p q : list str) (doc : sval) : Prop :=
  forall name s x y, has_service doc name s -> at_path p s x -> at_path q s y -> numbers x y -> x = y.

(** A service has a fixed address in a network; "the corresponding network configuration in must have ipam set with subnet configurations
    covering the address" (network_config.rs 378-379, 387-388). *)
Definition static_address (s : sval) (n : str) : Prop := exists a, at_path [$"networks"; n; $"ipv4_address"] s (VStr a) \/ at_path [$"networks"; n; $"ipv6_address"] s (VStr a).
Definition has_ipam (doc : sval) (n : str) : Prop := exists x, at_path [$"networks"; n; $"ipam"] doc x.
