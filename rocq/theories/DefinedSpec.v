(** What the documentation of [Compose::validate_all] (lib.rs 250-251) says about a file which passes: all resources used in
    each service are defined at top level. A matter of the document alone, like [DocumentSpec]. *)

From Coq Require Import String List.
From Verif Require Import Base Serde Schema DocumentSpec.

(** Secrets which are only there while the image is built (build.rs 167-172). *)
Definition uses_build_secret (s : sval) (n : str) : Prop := exists b, part $"build" s b /\ uses_grant $"secrets" b n.
(** The services which have to be started first (service.rs, [depends_on]), listed or as keys. *)
Definition starts_after (s : sval) (n : str) : Prop := exists v, part $"depends_on" s v /\ (item v (VStr n) \/ key v n).

(** What a service itself uses, apart from volumes, is defined. *)
Definition grants_defined (doc : sval) : Prop := forall name s n, has_service doc name s ->
  (uses_network s n -> declares doc $"networks" n) /\ (uses_grant $"configs" s n -> declares doc $"configs" n) /\
  (uses_grant $"secrets" s n -> declares doc $"secrets" n).
Definition volumes_defined (doc : sval) : Prop := forall name s n, has_service doc name s -> uses_volume s n -> declares doc $"volumes" n.
Definition build_secrets_defined (doc : sval) : Prop :=
  forall name s n, has_service doc name s -> uses_build_secret s n -> declares doc $"secrets" n.
Definition all_defined (doc : sval) : Prop := grants_defined doc /\ volumes_defined doc /\ build_secrets_defined doc.
(** The volumes of two services, which is what [validate_volumes] promises (lib.rs 292-293). *)
Definition shared_volumes_defined (doc : sval) : Prop := forall name s name' s' n, name <> name' ->
  has_service doc name s -> has_service doc name' s' -> uses_volume s n -> uses_volume s' n -> declares doc $"volumes" n.
