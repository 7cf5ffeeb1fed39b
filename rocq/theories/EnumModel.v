(** Model of the closed enums of the crate: unit-only enums whose [Serialize]/[Deserialize] are derived with a
    [rename_all] rule, while [as_str] ([AsRef<str>], [Display]) is written by hand. The type, the Rust names of
    its variants, the rule and the exceptions come from the derive attributes; [*_as_str] from the [impl].
    No proofs in this file. *)

From Coq Require Import String Ascii List NArith ZArith Bool.
Import ListNotations.
From Verif Require Import Base PortsModel VolumesModel Serde Codec.
Open Scope N_scope.

(** ** [serde_derive]'s [RenameRule::apply_to_variant] (serde_derive/src/internals/case.rs) *)

Definition lower (c : char) : char := if is_upper c then c + 32 else c.
Definition upper (c : char) : char := if is_lower c then c - 32 else c.
Definition lowercase (ident : str) : str := map lower ident.
(** A separator before every upper-case letter but the first. *)
Definition separated (sep : char) (f : char -> char) (ident : str) : str :=
  match ident with
  | [] => []
  | c :: r => f c :: flat_map (fun c => if is_upper c then [sep; f c] else [f c]) r
  end.
Definition snake_case : str -> str := separated (ch "_") lower.
Definition kebab_case : str -> str := separated (ch "-") lower.
Definition screaming_kebab_case : str -> str := separated (ch "-") upper.

(** ** Derived enums *)

Record enum_def (A : Set) := mk_enum_def {
  en_all : list A;            (** the variants, in order *)
  en_ident : A -> str;        (** their Rust names *)
  en_rule : str -> str;       (** [rename_all] *)
  en_rename : A -> option str;  (** [rename] *)
  en_aliases : A -> list str; (** [alias] *)
  en_as_str : A -> str        (** the hand-written [as_str] *) }.
Arguments mk_enum_def {A}.
Arguments en_all {A}.
Arguments en_ident {A}.
Arguments en_rule {A}.
Arguments en_rename {A}.
Arguments en_aliases {A}.
Arguments en_as_str {A}.

Definition serde_name {A : Set} (d : enum_def A) (a : A) : str :=
  match en_rename d a with Some n => n | None => en_rule d (en_ident d a) end.
Definition derived {A : Set} (d : enum_def A) : codec A :=
  enum_c (fun a b => str_eqb (en_ident d a) (en_ident d b)) (map (fun a => (a, (serde_name d a, en_aliases d a))) (en_all d)).

(** The same read from serde's [Content] (serde 1.0.210, private/de.rs, [ContentDeserializer::deserialize_enum] and
    [VariantDeserializer::unit_variant]), as in flattened structs and internally tagged enums: also a map of one entry, which has the name or
    the number of a variant as its key, and a null or an empty map as its value. *)
Fixpoint numbered {A : Type} (l : list A) (z : Z) : option A :=
  match l with [] => None | a :: r => if (z =? 0)%Z then Some a else numbered r (z - 1) end.
Definition variant_key {A : Set} (d : enum_def A) (k : sval) : result de_error A :=
  match k with VInt z => match numbered (en_all d) z with Some a => Ok a | None => Err DeError end | _ => de (derived d) k end.
Definition is_unit (v : sval) : bool := match v with VNull | VMap [] => true | _ => false end.
Definition buffered {A : Set} (d : enum_def A) : codec A :=
  mk_codec (ser (derived d))
    (fun v => match v with VMap [(k, u)] => if is_unit u then variant_key d k else Err DeError | _ => de (derived d) v end)
    (fun _ => True) (fun a => a).

(** service.rs 805-824. *)
Inductive cgroup := CgHost | CgPrivate.
Definition cgroup_def : enum_def cgroup :=
  mk_enum_def [CgHost; CgPrivate]
    (fun x => match x with CgHost => $"Host" | CgPrivate => $"Private" end)
    snake_case
    (fun _ => None)
    (fun _ => [])
    (fun x => match x with CgHost => $"host" | CgPrivate => $"private" end).
Definition cgroup_c : codec cgroup := derived cgroup_def.

(** service.rs 903-927. *)
Inductive condition := ServiceStarted | ServiceHealthy | ServiceCompletedSuccessfully.
Definition condition_def : enum_def condition :=
  mk_enum_def [ServiceStarted; ServiceHealthy; ServiceCompletedSuccessfully]
    (fun x => match x with ServiceStarted => $"ServiceStarted" | ServiceHealthy => $"ServiceHealthy" | ServiceCompletedSuccessfully => $"ServiceCompletedSuccessfully" end)
    snake_case
    (fun _ => None)
    (fun _ => [])
    (fun x => match x with ServiceStarted => $"service_started" | ServiceHealthy => $"service_healthy" | ServiceCompletedSuccessfully => $"service_completed_successfully" end).
Definition condition_c : codec condition := derived condition_def.

(** service.rs 1224-1238. *)
Inductive uts := UtsHost.
Definition uts_def : enum_def uts :=
  mk_enum_def [UtsHost]
    (fun x => match x with UtsHost => $"Host" end)
    lowercase
    (fun _ => None)
    (fun _ => [])
    (fun x => match x with UtsHost => $"host" end).
Definition uts_c : codec uts := derived uts_def.

(** service.rs 1339-1370. *)
Inductive pull_policy := PpAlways | PpNever | PpMissing | PpBuild.
Definition pull_policy_def : enum_def pull_policy :=
  mk_enum_def [PpAlways; PpNever; PpMissing; PpBuild]
    (fun x => match x with PpAlways => $"Always" | PpNever => $"Never" | PpMissing => $"Missing" | PpBuild => $"Build" end)
    snake_case
    (fun _ => None)
    (fun x => match x with PpMissing => [$"if_not_present"] | _ => [] end)
    (fun x => match x with PpAlways => $"always" | PpNever => $"never" | PpMissing => $"missing" | PpBuild => $"build" end).
Definition pull_policy_c : codec pull_policy := derived pull_policy_def.

(** service.rs 1387-1413. *)
Inductive restart := RsNo | RsAlways | RsOnFailure | RsUnlessStopped.
Definition restart_def : enum_def restart :=
  mk_enum_def [RsNo; RsAlways; RsOnFailure; RsUnlessStopped]
    (fun x => match x with RsNo => $"No" | RsAlways => $"Always" | RsOnFailure => $"OnFailure" | RsUnlessStopped => $"UnlessStopped" end)
    kebab_case
    (fun _ => None)
    (fun _ => [])
    (fun x => match x with RsNo => $"no" | RsAlways => $"always" | RsOnFailure => $"on-failure" | RsUnlessStopped => $"unless-stopped" end).
Definition restart_c : codec restart := derived restart_def.

(** deploy.rs 155-175. *)
Inductive deploy_mode := DmGlobal | DmReplicated.
Definition deploy_mode_def : enum_def deploy_mode :=
  mk_enum_def [DmGlobal; DmReplicated]
    (fun x => match x with DmGlobal => $"Global" | DmReplicated => $"Replicated" end)
    kebab_case
    (fun _ => None)
    (fun _ => [])
    (fun x => match x with DmGlobal => $"global" | DmReplicated => $"replicated" end).
Definition deploy_mode_c : codec deploy_mode := derived deploy_mode_def.

(** deploy.rs 342-366. *)
Inductive restart_condition := RcNone | RcOnFailure | RcAny.
Definition restart_condition_def : enum_def restart_condition :=
  mk_enum_def [RcNone; RcOnFailure; RcAny]
    (fun x => match x with RcNone => $"None" | RcOnFailure => $"OnFailure" | RcAny => $"Any" end)
    kebab_case
    (fun _ => None)
    (fun _ => [])
    (fun x => match x with RcNone => $"none" | RcOnFailure => $"on-failure" | RcAny => $"any" end).
Definition restart_condition_c : codec restart_condition := derived restart_condition_def.

(** deploy.rs 465-485. *)
Inductive failure_action := FaContinue | FaPause.
Definition failure_action_def : enum_def failure_action :=
  mk_enum_def [FaContinue; FaPause]
    (fun x => match x with FaContinue => $"Continue" | FaPause => $"Pause" end)
    kebab_case
    (fun _ => None)
    (fun _ => [])
    (fun x => match x with FaContinue => $"continue" | FaPause => $"pause" end).
Definition failure_action_c : codec failure_action := derived failure_action_def.

(** deploy.rs 502-522. *)
Inductive order := OrStopFirst | OrStartFirst.
Definition order_def : enum_def order :=
  mk_enum_def [OrStopFirst; OrStartFirst]
    (fun x => match x with OrStopFirst => $"StopFirst" | OrStartFirst => $"StartFirst" end)
    kebab_case
    (fun _ => None)
    (fun _ => [])
    (fun x => match x with OrStopFirst => $"stop-first" | OrStartFirst => $"start-first" end).
Definition order_c : codec order := derived order_def.

(** develop.rs 65-92. *)
Inductive action := AcRebuild | AcSync | AcSyncAndRestart.
Definition action_def : enum_def action :=
  mk_enum_def [AcRebuild; AcSync; AcSyncAndRestart]
    (fun x => match x with AcRebuild => $"Rebuild" | AcSync => $"Sync" | AcSyncAndRestart => $"SyncAndRestart" end)
    kebab_case
    (fun x => match x with AcSyncAndRestart => Some $"sync+restart" | _ => None end)
    (fun _ => [])
    (fun x => match x with AcRebuild => $"rebuild" | AcSync => $"sync" | AcSyncAndRestart => $"sync+restart" end).
Definition action_c : codec action := derived action_def.

(** service/volumes/mount.rs 558-595 (the type is in the file of its module). *)
Definition bind_propagation_def : enum_def bind_propagation :=
  mk_enum_def [BpPrivate; BpShared; BpSlave; BpUnbindable; BpRPrivate; BpRShared; BpRSlave; BpRUnbindable]
    (fun x => match x with BpPrivate => $"Private" | BpShared => $"Shared" | BpSlave => $"Slave" | BpUnbindable => $"Unbindable" | BpRPrivate => $"RPrivate" | BpRShared => $"RShared" | BpRSlave => $"RSlave" | BpRUnbindable => $"RUnbindable" end)
    lowercase (fun _ => None) (fun _ => [])
    (fun x => match x with BpPrivate => $"private" | BpShared => $"shared" | BpSlave => $"slave" | BpUnbindable => $"unbindable" | BpRPrivate => $"rprivate" | BpRShared => $"rshared" | BpRSlave => $"rslave" | BpRUnbindable => $"runbindable" end).
(** Only in long volume syntax, [Mount], which is internally tagged. *)
Definition bind_propagation_c : codec bind_propagation := buffered bind_propagation_def.

(** service/ports.rs 191-211 (the type is in the file of its module). *)
Definition mode_def : enum_def mode :=
  mk_enum_def [Host; Ingress]
    (fun x => match x with Host => $"Host" | Ingress => $"Ingress" end)
    lowercase (fun _ => None) (fun _ => [])
    (fun x => match x with Host => $"host" | Ingress => $"ingress" end).
Definition mode_c : codec mode := derived mode_def.
