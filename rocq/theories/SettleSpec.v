(** What a service or a file in memory is after it has been saved and loaded. For each type: [..._reads] (for a whole service or file [..._legible]), a condition on the parts which are
    written as one text, and [..._settled], what a value which meets it comes back as. Where no condition is given there is none, and
    where the value is the [same] it is not changed. Nothing here mentions how a value is written or read. No proofs in this file. *)

From Coq Require Import String Ascii List NArith ZArith Bool.
Import ListNotations.
From Verif Require Import Base Num Coll Regex KeysSpec KeysModel UserModel DurationModel BytesModel CpuSetModel DeviceModel ImageSpec ImageModel IpModel NetModel
  PathModel PortsModel TextModel VolumesModel ValuesModel BuildModel PlatformModel EqModel Serde Codec EnumModel ScalarCodec
  CommonCodec ServiceParts MountCodec HealthModel ServiceCodec ComposeCodec KeepSpec.
Open Scope N_scope.

(** ** Shapes *)

Definition same {A : Type} (a : A) : A := a.
Definition in_values {V : Type} (f : V -> V) (m : list (str * V)) : list (str * V) := map (fun e => (fst e, f (snd e))) m.
Definition in_form {A B : Set} (f : A -> A) (g : B -> B) (x : short_or_long A B) : short_or_long A B := match x with Short a => Short (f a) | Long b => Long (g b) end.
Fixpoint maps (ms : list member) : Type := match ms with [] => unit | m :: r => ((m_type m -> m_type m) * maps r)%type end.
Fixpoint in_each (ms : list member) : maps ms -> vals ms -> vals ms :=
  match ms return maps ms -> vals ms -> vals ms with [] => fun _ v => v | m :: r => fun f v => (fst f (fst v), in_each r (snd f) (snd v)) end.
Definition in_struct (ms : list member) (f : maps ms) (v : vals ms * extensions) : vals ms * extensions := (in_each ms f (fst v), snd v).

(** ** What changes *)

(** A time loses its parts of a microsecond. The two times written in microseconds have to fit in 64 bits. *)
Definition cut (d : duration) : duration := mk_duration (secs d) (nanos d - nanos d mod 1000).
Definition micros_read (d : duration) : Prop := u64 (secs d * 1000000 + nanos d / 1000).
(** A number which is not negative becomes unsigned. *)
Definition unsigned (n : number) : number := match n with SignedInt z => if (z <? 0)%Z then SignedInt z else UnsignedInt (Z.to_N z) | _ => n end.
Definition value_settled (v : value) : value := match v with VNumber n => VNumber (unsigned n) | _ => v end.
Definition plain_settled (v : string_or_number) : string_or_number := match v with SNumber n => SNumber (unsigned n) | _ => v end.
Definition options_settled : list (str * option value) -> list (str * option value) := in_values (option_map value_settled).
(** An empty map becomes an empty list, and an empty long [depends_on] a short one. *)
Definition either_settled (x : list_or_map) : list_or_map := match x with LMap [] => LList [] | LMap m => LMap (options_settled m) | LList l => LList l end.
Definition depends_on_settled {D : Set} (d : short_or_long (list str) (list (str * D))) : short_or_long (list str) (list (str * D)) :=
  match d with Long [] => Short [] | _ => d end.

(** ** The parts of a service *)

Definition build_reads (w : externals) : preds (build_ms w) :=
  [* opt (context_keeps w); any; any; Forall ssh_keeps; Forall cache_keeps; Forall cache_keeps; values (context_keeps w);
     any; any; any; any; any; any; any; opt build_network_keeps; any; any; any; Forall image_keeps; any; any *].
Definition build_settled (w : externals) : maps (build_ms w) :=
  [* same; same; either_settled; same; same; same; same; same; same; same; same; either_settled; same; same; same; same; same; same; same; same; same *].
Definition deploy_device_reads : preds deploy_device_ms := [* Forall capability_keeps; any; any; any; any *].
Definition deploy_device_settled : maps deploy_device_ms := [* same; same; same; same; either_settled *].
Definition reservations_read (w : externals) : preds (reservations_ms w) := [* any; any; Forall (struct_keeps deploy_device_ms deploy_device_reads); any *].
Definition reservations_settled (w : externals) : maps (reservations_ms w) := [* same; same; map (in_struct deploy_device_ms deploy_device_settled); same *].
Definition resources_read (w : externals) : preds (resources_ms w) := [* any; opt (struct_keeps (reservations_ms w) (reservations_read w)) *].
Definition resources_settled (w : externals) : maps (resources_ms w) := [* same; option_map (in_struct (reservations_ms w) (reservations_settled w)) *].
Definition restart_policy_settled : maps restart_policy_ms := [* same; option_map cut; same; option_map cut *].
Definition update_config_settled : maps update_config_ms := [* same; option_map cut; same; option_map cut; same; same *].
Definition deploy_reads (w : externals) : preds (deploy_ms w) :=
  [* opt endpoint_keeps; any; any; any; any; opt (struct_keeps (resources_ms w) (resources_read w)); any; any; any *].
Definition deploy_settled (w : externals) : maps (deploy_ms w) :=
  [* same; either_settled; same; same; same; option_map (in_struct (resources_ms w) (resources_settled w));
     option_map (in_struct restart_policy_ms restart_policy_settled); option_map (in_struct update_config_ms update_config_settled);
     option_map (in_struct update_config_ms update_config_settled) *].
Definition service_network_settled (w : externals) : maps (service_network_ms w) := [* same; same; same; same; same; in_values plain_settled; same *].
Definition network_config_reads (w : externals) (c : network_config w) : Prop := match c with NcMode m => mode_keeps m | NcNetworks _ => True end.
Definition network_config_settled (w : externals) (c : network_config w) : network_config w :=
  match c with
  | NcMode m => NcMode m
  | NcNetworks n => NcNetworks (in_form same (in_values (option_map (in_struct (service_network_ms w) (service_network_settled w)))) n)
  end.
Definition health_settled (h : healthcheck) : healthcheck :=
  match h with
  | HcCommand c => HcCommand (in_struct health_ms [* same; option_map cut; option_map cut; same; option_map cut; option_map cut *] c)
  | HcDisable => HcDisable
  end.

(** ** A service *)

(** The fields in the order of the declaration, service.rs 81-682. *)
Definition service_legible (w : externals) : preds (service_ms w) :=
  [* any; opt (form (context_keeps w) (struct_keeps (build_ms w) (build_reads w))); any;
     any; any; any; opt micros_read; opt micros_read; any; any;
     any; any; any; any; any; any; any; any;
     any; any; any;
     opt (struct_keeps (deploy_ms w) (deploy_reads w)); any;
     any; Forall device_keeps; any;
     any; any; any;
     any; any; any; Forall expose_keeps; any;
     any; any; any; any; any;
     any; opt image_keeps; any; opt ipc_keeps; any; any; any; any;
     any;
     opt (network_config_reads w); any; any; any;
     any; any; any; any; any; any; any;
     Forall (form short_port_keeps port_keeps); any; any; any;
     any; any; any; any; any; any; any; any; any;
     any; any; any; any; any; any; any; any;
     Forall (form short_volume_keeps any); Forall from_keeps; any *].
Definition service_settled (w : externals) : maps (service_ms w) :=
  [* same; option_map (in_form same (in_struct (build_ms w) (build_settled w))); same;
     same; same; same; option_map cut; option_map cut; option_map cut; option_map cut;
     same; same; same; same; same; same; same; same;
     same; same; depends_on_settled;
     option_map (in_struct (deploy_ms w) (deploy_settled w)); same;
     same; same; same;
     same; same; same;
     same; same; either_settled; same; same;
     either_settled; same; same; same; option_map health_settled;
     same; same; same; same; same; same; either_settled; same;
     option_map (in_struct [optional $"driver" string_c; many $"options" (smap map_key_c (option_c string_or_number_c))] [* same; in_values (option_map plain_settled) *]);
     option_map (network_config_settled w); same; same; same;
     same; same; same; same; same; same; same;
     same; same; same; same;
     same; same; same; same; same; same; same; same; option_map cut;
     same; options_settled; either_settled; same; same; same; same; same;
     same; same; same *].

(** ** A file *)

Definition in_resource {A : Set} (f : A -> A) (r : resource A) : resource A := match r with External n => External n | Managed a => Managed (f a) end.
Definition network_reads (w : externals) : preds (network_ms w) := [* opt driver_keeps; any; any; any; any; any; any; any *].
Definition network_settled (w : externals) : maps (network_ms w) := [* same; in_values plain_settled; same; same; same; same; either_settled; same *].
Definition volume_settled : maps top_volume_ms := [* same; in_values plain_settled; either_settled; same *].
Definition config_settled : maps config_ms := [* same; either_settled *].
Definition secret_settled : maps secret_ms := [* same; either_settled; same; in_values plain_settled *].
(** [Compose], lib.rs 168-224. *)
Definition compose_legible (w : externals) : preds (compose_ms w) :=
  [* any; any; any; values (struct_keeps (service_ms w) (service_legible w));
     values (opt (resource_can (struct_keeps (network_ms w) (network_reads w)))); any; any; any *].
Definition compose_settled (w : externals) : maps (compose_ms w) :=
  [* same; same; same; in_values (in_struct (service_ms w) (service_settled w));
     in_values (option_map (in_resource (in_struct (network_ms w) (network_settled w)))); in_values (option_map (in_resource (in_struct top_volume_ms volume_settled)));
     in_values (in_resource (in_struct config_ms config_settled)); in_values (in_resource (in_struct secret_ms secret_settled)) *].
