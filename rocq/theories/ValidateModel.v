(** [Compose::validate_all] and the functions it calls. Only the parts of [Compose] and [Service] which
    validation looks at are in this model. No proofs in this file. *)

From Coq Require Import String Ascii List Bool.
Import ListNotations.
From Verif Require Import Base VolumesModel.

(** [ConfigOrSecret], service/config_or_secret.rs 17-46: only [source] is used by validation. *)
Record config_or_secret := mk_config_or_secret { cos_source : str }.

(** [Service::network_config], service.rs: absent, [network_mode], or [networks] (by name). *)
Inductive network_refs := NoNetworks | NetworkModeSet | NetworkNames (names : list str).

Record vservice := mk_vservice {
  vs_networks : network_refs;
  vs_volumes : list volume_entry;
  vs_configs : list (short_or_long str config_or_secret);
  vs_secrets : list (short_or_long str config_or_secret) }.

(** [Compose], lib.rs 168-224: services, and the names defined at top level. *)
Record vcompose := mk_vcompose {
  vc_services : list (str * vservice);
  vc_networks : list str; vc_volumes : list str; vc_configs : list str; vc_secrets : list str }.

(** [ResourceKind], lib.rs 413-425, and [ValidationError], 373-383. *)
Inductive resource_kind := KNetwork | KVolume | KConfig | KSecret.
Record validation_error := mk_validation_error { ve_service : option str; ve_resource : str; ve_kind : resource_kind }.

(** [IndexMap::contains_key]. *)
Definition contains_key (names : list str) (k : str) : bool := existsb (str_eqb k) names.

(** The loop shared by [Service::validate_networks], [validate_configs], [validate_secrets],
    service.rs 691-737: the first name which is not a key is the error. *)
Fixpoint check_defined (defined : list str) (used : list str) : result str unit :=
  match used with
  | [] => Ok tt
  | u :: r => if contains_key defined u then check_defined defined r else Err u
  end.

(** [ShortOrLong::Short(source) | ShortOrLong::Long(ConfigOrSecret { source, .. })]. *)
Definition source_of (x : short_or_long str config_or_secret) : str :=
  match x with Short s => s | Long c => cos_source c end.

Definition service_validate_networks (networks : list str) (s : vservice) : result str unit :=
  match vs_networks s with NetworkNames l => check_defined networks l | _ => Ok tt end.
Definition service_validate_configs (configs : list str) (s : vservice) : result str unit :=
  check_defined configs (map source_of (vs_configs s)).
Definition service_validate_secrets (secrets : list str) (s : vservice) : result str unit :=
  check_defined secrets (map source_of (vs_secrets s)).

(** The loop over services, lib.rs 278-290, 337-349, 359-371. *)
Fixpoint for_services (kind : resource_kind) (check : vservice -> result str unit) (services : list (str * vservice)) :
  result validation_error unit :=
  match services with
  | [] => Ok tt
  | (name, s) :: r =>
      _ <- map_err (fun u => mk_validation_error (Some name) u kind) (check s) ;;
      for_services kind check r
  end.

Definition validate_networks (c : vcompose) : result validation_error unit :=
  for_services KNetwork (service_validate_networks (vc_networks c)) (vc_services c).
Definition validate_configs (c : vcompose) : result validation_error unit :=
  for_services KConfig (service_validate_configs (vc_configs c)) (vc_services c).
Definition validate_secrets (c : vcompose) : result validation_error unit :=
  for_services KSecret (service_validate_secrets (vc_secrets c)) (vc_services c).

(** [seen_volumes], a [HashMap<&Identifier, bool>]. *)
Fixpoint seen_get (m : list (str * bool)) (k : str) : option bool :=
  match m with [] => None | (k', b) :: r => if str_eqb k k' then Some b else seen_get r k end.
Definition seen_set (m : list (str * bool)) (k : str) (b : bool) : list (str * bool) := (k, b) :: m.

(** The loop of [validate_volumes], lib.rs 307-324. *)
Fixpoint volumes_loop (defined : list str) (seen : list (str * bool)) (l : list str) : result validation_error unit :=
  match l with
  | [] => Ok tt
  | v :: r =>
      match seen_get seen v with
      | Some b =>
          if negb b && negb (contains_key defined v) then Err (mk_validation_error None v KVolume)
          else volumes_loop defined (seen_set seen v true) r
      | None => volumes_loop defined (seen_set seen v false) r
      end
  end.

(** [Compose::validate_volumes], lib.rs 301-327. *)
Definition validate_volumes (c : vcompose) : result validation_error unit :=
  volumes_loop (vc_volumes c) [] (flat_map (fun s => named_volumes (vs_volumes (snd s))) (vc_services c)).

(** [Compose::validate_all], lib.rs 262-268. *)
Definition validate_all (c : vcompose) : result validation_error unit :=
  _ <- validate_networks c ;;
  _ <- validate_volumes c ;;
  _ <- validate_configs c ;;
  validate_secrets c.

(** [Display for ResourceKind], lib.rs 427-440, and [Display for ValidationError], 385-406. *)
Definition kind_show (k : resource_kind) : str :=
  match k with KNetwork => $"network" | KVolume => $"volume" | KConfig => $"config" | KSecret => $"secret" end.
Definition validation_error_show (e : validation_error) : str :=
  kind_show (ve_kind e) ++ $" `" ++ ve_resource e ++ $"` "
  ++ match ve_service e with Some s => $"(used in the `" ++ s ++ $"` service) " | None => [] end
  ++ match ve_kind e with KVolume => $"is used across multiple services and " | _ => [] end
  ++ $"is not defined in the top-level `" ++ kind_show (ve_kind e) ++ $"s` field".
