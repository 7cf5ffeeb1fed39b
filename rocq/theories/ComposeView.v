(** What [Compose::validate_all] (lib.rs 262-371) looks at in a [Compose]: the value that was read, seen as the smaller
    records of [ValidateModel]. No proofs in this file. *)

From Coq Require Import String Ascii List NArith Bool.
Import ListNotations.
From Verif Require Import Base VolumesModel ValidateModel Serde Codec ScalarCodec CommonCodec ServiceParts MountCodec ServiceCodec ComposeCodec.

(** [Service::network_config], [Networks] as an iterator over names (service/network_config.rs): the names of the set, or
    the keys of the map; service.rs 691-703. *)
Definition networks_view {w : externals} (o : option (network_config w)) : network_refs :=
  match o with
  | None => NoNetworks
  | Some (NcMode _) => NetworkModeSet
  | Some (NcNetworks (Short l)) => NetworkNames l
  | Some (NcNetworks (Long m)) => NetworkNames (map fst m)
  end.
(** [ConfigOrSecret::source], service.rs 711-737. *)
Definition grant_view (x : short_or_long str (vals config_or_secret_ms * extensions)) : short_or_long str config_or_secret :=
  match x with Short s => Short s | Long g => Long (mk_config_or_secret (nth_val 0 config_or_secret_ms (fst g))) end.

(** The fields [network_config], [volumes], [configs] and [secrets] of [Service]. *)
Definition service_view {w : externals} (s : service w) : vservice :=
  mk_vservice (networks_view (nth_val 48 (service_ms w) (fst s))) (nth_val 80 (service_ms w) (fst s))
    (map grant_view (nth_val 17 (service_ms w) (fst s))) (map grant_view (nth_val 67 (service_ms w) (fst s))).

(** The fields [services], [networks], [volumes], [configs] and [secrets] of [Compose]. *)
Definition compose_view {w : externals} (c : compose w) : vcompose :=
  mk_vcompose (map (fun e => (fst e, service_view (snd e))) (nth_val 3 (compose_ms w) (fst c)))
    (map fst (nth_val 4 (compose_ms w) (fst c))) (map fst (nth_val 5 (compose_ms w) (fst c)))
    (map fst (nth_val 6 (compose_ms w) (fst c))) (map fst (nth_val 7 (compose_ms w) (fst c))).
