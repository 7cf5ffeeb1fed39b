(** Reading a compose file from YAML text. [serde_yaml] parses the text into nodes (not modelled) and tells a type's [Deserialize]
    what the node is, depending on what the type asks for: [deserialize_str] gets the text of any scalar, [deserialize_any] gets a plain
    scalar as null, boolean, number or string. A [hint] says what a type of the crate asks for, and [seen] is the value it is given.
    [seen_value] is the same for reading from a [serde_yaml::Value]. The result is read by the codecs. No proofs in this file.

    The source of [serde_yaml] is not part of the repository; it is modelled after version 0.9.34 (the one in [Cargo.lock]) as known to the
    author. Simplifications: no tags; aliases are replaced by what they stand for; an empty document is an empty plain scalar; a struct
    or enum is read as described in [Codec.v]. *)

From Coq Require Import String Ascii List NArith ZArith Bool.
Import ListNotations.
From Verif Require Import Base Num Coll Serde Codec ScalarCodec ServiceParts ServiceCodec ComposeCodec OptionsModel.
Open Scope N_scope.

(** ** Nodes *)

(** A scalar is plain, or quoted (or a block scalar). *)
Inductive node : Set := Plain (t : str) | Quoted (s : str) | NSeq (l : list node) | NMap (es : list (node * node)).

(** Which plain scalars are numbers is left open: [parse_unsigned_int] and [parse_negative_int], and [parse_f64]. *)
Record numerals : Set := mk_numerals { y_int : str -> option Z; y_float : str -> option N }.
(** [parse_null] and [parse_bool]. *)
Definition null_texts : list str := [$""; $"~"; $"null"; $"Null"; $"NULL"].
Definition true_texts : list str := [$"true"; $"True"; $"TRUE"].
Definition false_texts : list str := [$"false"; $"False"; $"FALSE"].
Definition one_of (ts : list str) (t : str) : bool := existsb (str_eqb t) ts.
(** [visit_untagged_scalar]: what a plain scalar is for [deserialize_any]. *)
Definition resolve (y : numerals) (t : str) : sval :=
  if one_of null_texts t then VNull
  else if one_of true_texts t then VBool true
  else if one_of false_texts t then VBool false
  else match y_int y t with
       | Some z => VInt z
       | None => match y_float y t with Some b => VFloat b | None => VStr t end
       end.

(** ** What a type asks for *)

Inductive hint : Type :=
| HAny  (** [deserialize_any], or content kept as [serde_yaml::Value] or serde's [Content]; also integers and booleans, for which it is the same *)
| HText  (** [deserialize_str], [deserialize_string], [deserialize_identifier]; also unit enums *)
| HOption (h : hint)  (** [deserialize_option] *)
| HSeq (h : hint)  (** [deserialize_seq] *)
| HMap (h : hint)  (** [deserialize_map]; all maps have keys which are text *)
| HStruct (f : str -> hint)  (** [deserialize_struct], or [deserialize_map] with the names of fields as keys *)
| HForms (q m : hint)  (** [deserialize_any] by a visitor which reads a sequence as [q] and a map as [m] *)
| HValue (h : hint).  (** read as a [serde_yaml::Value], which is then read as [h] *)

(** A node read as a [Value]. *)
Fixpoint value (y : numerals) (n : node) : sval :=
  match n with
  | Plain t => resolve y t
  | Quoted s => VStr s
  | NSeq l => VSeq (map (value y) l)
  | NMap es => VMap (map (fun e => (value y (fst e), value y (snd e))) es)
  end.

(** Reading from a [Value]: a null is an empty sequence or map where one is asked for. *)
Fixpoint seen_value (h : hint) (v : sval) {struct h} : sval :=
  match h with
  | HAny | HText => v
  | HOption h => match v with VNull => VNull | _ => seen_value h v end
  | HSeq h => match v with VNull => VSeq [] | VSeq l => VSeq (map (seen_value h) l) | _ => v end
  | HMap h =>
      match v with
      | VNull => VMap []
      | VMap es => VMap (map (fun e => (fst e, seen_value h (snd e))) es)
      | _ => v
      end
  | HStruct f =>
      match v with
      | VNull => VMap []
      | VMap es => VMap (map (fun e => (fst e, match fst e with VStr k => seen_value (f k) (snd e) | _ => snd e end)) es)
      | _ => v
      end
  | HForms q m => match v with VSeq _ => seen_value q v | VMap _ => seen_value m v | _ => v end
  | HValue h => seen_value h v
  end.

(** Reading from text: an empty scalar is an empty sequence or map where one is asked for, and any scalar is text where text is asked for. *)
Definition seen_text (y : numerals) (n : node) : sval :=
  match n with Plain t => VStr t | Quoted s => VStr s | _ => value y n end.
Fixpoint seen (y : numerals) (h : hint) (n : node) {struct h} : sval :=
  match h with
  | HAny => value y n
  | HText => seen_text y n
  | HOption h => match value y n with VNull => VNull | _ => seen y h n end
  | HSeq h => match n with Plain [] => VSeq [] | NSeq l => VSeq (map (seen y h) l) | _ => value y n end
  | HMap h =>
      match n with
      | Plain [] => VMap []
      | NMap es => VMap (map (fun e => (seen_text y (fst e), seen y h (snd e))) es)
      | _ => value y n
      end
  | HStruct f =>
      match n with
      | Plain [] => VMap []
      | NMap es =>
          VMap (map (fun e => (seen_text y (fst e),
                               match seen_text y (fst e) with VStr k => seen y (f k) (snd e) | _ => value y (snd e) end)) es)
      | _ => value y n
      end
  | HForms q m => match n with NSeq _ => seen y q n | NMap _ => seen y m n | _ => value y n end
  | HValue h => seen_value h (value y n)
  end.

(** ** The types of the crate *)

(** The fields of a struct which ask for something else than any value. An entry which is not a field, or is a field of a flattened struct,
    is kept as [Content] at first. *)
Fixpoint fields (t : list (str * hint)) (k : str) : hint :=
  match t with [] => HAny | (n, h) :: r => if str_eqb k n then h else fields r k end.
Definition struct (t : list (str * hint)) : hint := HStruct (fields t).
Definition text_field (n : str) : str * hint := (n, HOption HText).
Definition texts : hint := HSeq HText.

(** [ItemOrList], [Command], serde.rs 362-420; [ListOrMap], common.rs 253-276; [ShortOrLong] of an item or a map of fields,
    common/short_or_long.rs 326-470; [Resource], common.rs 964-997. *)
Definition item_or_texts : hint := HForms texts HAny.
Definition value_map : hint := HMap (HOption HAny).
Definition list_or_map_h : hint := HForms texts value_map.
Definition item_or (m : hint) : hint := HForms HAny m.
Fixpoint through_value (t : list (str * hint)) : list (str * hint) :=
  match t with [] => [] | (n, h) :: r => (n, HValue h) :: through_value r end.
Definition resource_h (t : list (str * hint)) : hint := struct (through_value t).

(** service/config_or_secret.rs 29-86, service/ulimit.rs 19 and 79-92. *)
Definition grants_h : hint :=
  HSeq (item_or (struct [($"source", HText); text_field $"target"; text_field $"uid"; text_field $"gid"])).
Definition ulimits_h : hint := HMap (item_or (struct [])).

(** [Build], service/build.rs 30-197. [dockerfile] and [dockerfile_inline] are flattened. *)
Definition build_h : hint :=
  struct [text_field $"context"; ($"args", list_or_map_h); ($"ssh", texts); ($"cache_from", texts); ($"cache_to", texts);
    ($"additional_contexts", list_or_map_h); ($"entitlements", texts); ($"extra_hosts", list_or_map_h); text_field $"isolation";
    ($"labels", list_or_map_h); text_field $"network"; text_field $"target"; ($"secrets", grants_h); ($"tags", texts);
    ($"ulimits", ulimits_h); ($"platforms", texts)].

(** service/deploy/resources.rs 29-164, 337-377, 594-660. *)
Definition deploy_device_h : hint :=
  struct [($"capabilities", texts); text_field $"driver"; ($"device_ids", texts); ($"options", list_or_map_h)].
Definition generic_resource_h : hint := struct [($"discrete_resource_spec", HOption (struct [text_field $"kind"]))].
Definition reservations_h : hint := struct [($"devices", HSeq deploy_device_h); ($"generic_resources", HSeq generic_resource_h)].
Definition resources_h : hint := struct [($"limits", HOption (struct [])); ($"reservations", HOption reservations_h)].
(** service/deploy.rs 24-89, 193-436. *)
Definition placement_h : hint := struct [($"constraints", texts); ($"preferences", HSeq (struct [text_field $"spread"]))].
Definition update_config_h : hint := struct [text_field $"failure_action"; text_field $"order"].
Definition deploy_h : hint :=
  struct [text_field $"endpoint_mode"; ($"labels", list_or_map_h); text_field $"mode"; ($"placement", HOption placement_h);
    ($"resources", HOption resources_h); ($"restart_policy", HOption (struct [text_field $"condition"]));
    ($"rollback_config", HOption update_config_h); ($"update_config", HOption update_config_h)].

(** service/blkio_config.rs 17-112, service/credential_spec.rs 33-116, service/develop.rs 17-60, service/env_file.rs 80-108,
    service/healthcheck.rs 54-282; service.rs 843-897, 963-977, 1255-1275. *)
Definition device_limits_h : hint := HSeq (struct [($"path", HText)]).
Definition blkio_config_h : hint :=
  struct [($"device_read_bps", device_limits_h); ($"device_read_iops", device_limits_h); ($"device_write_bps", device_limits_h);
    ($"device_write_iops", device_limits_h); ($"weight_device", device_limits_h)].
Definition credential_spec_h : hint := struct [($"config", HText); ($"file", HText); ($"registry", HText)].
Definition develop_h : hint :=
  struct [($"watch", HSeq (struct [($"action", HText); ($"ignore", texts); ($"path", HText); text_field $"target"]))].
Definition env_file_h : hint := HForms (HSeq (item_or (struct [($"path", HText)]))) HAny.
Definition healthcheck_h : hint := struct [($"test", HForms texts HAny)].
Definition depends_on_h : hint := HForms texts (HMap (struct [($"condition", HText)])).
Definition extends_h : hint := struct [($"service", HText); text_field $"file"].
Definition logging_h : hint := struct [text_field $"driver"; ($"options", value_map)].
(** The long form of a port, service/ports.rs 55-89. The long form of a volume is internally tagged, so it is kept as [Content]. *)
Definition ports_h : hint :=
  HSeq (item_or (struct [text_field $"name"; text_field $"host_ip"; text_field $"protocol"; text_field $"app_protocol"; text_field $"mode"])).

(** [Service], service.rs 81-682. [network_mode] and [networks] are flattened. *)
Definition service_t : list (str * hint) :=
  [($"build", HOption (item_or build_h)); ($"blkio_config", HOption blkio_config_h); ($"cpuset", HText);
    ($"cap_add", texts); ($"cap_drop", texts); text_field $"cgroup"; text_field $"cgroup_parent"; ($"command", HOption item_or_texts);
    ($"configs", grants_h); text_field $"container_name"; ($"credential_spec", HOption credential_spec_h); ($"depends_on", depends_on_h);
    ($"deploy", HOption deploy_h); ($"develop", HOption develop_h); ($"device_cgroup_rules", texts); ($"devices", texts);
    ($"dns", HOption item_or_texts); ($"dns_opt", texts); ($"dns_search", HOption item_or_texts); text_field $"domainname";
    ($"entrypoint", HOption item_or_texts); ($"env_file", HOption env_file_h); ($"environment", list_or_map_h); ($"expose", HSeq HAny);
    ($"extends", HOption extends_h); ($"annotations", list_or_map_h); ($"external_links", texts); ($"extra_hosts", list_or_map_h);
    ($"group_add", HSeq HAny); ($"healthcheck", HOption healthcheck_h); text_field $"hostname"; text_field $"image"; text_field $"ipc";
    text_field $"uts"; text_field $"isolation"; ($"labels", list_or_map_h); ($"links", texts); ($"logging", HOption logging_h);
    text_field $"mac_address"; text_field $"pid"; text_field $"platform"; ($"ports", ports_h); ($"profiles", texts);
    text_field $"pull_policy"; text_field $"restart"; text_field $"runtime"; ($"secrets", grants_h); ($"security_opt", texts);
    text_field $"stop_signal"; ($"storage_opt", value_map); ($"sysctls", list_or_map_h); ($"tmpfs", HOption item_or_texts);
    ($"ulimits", ulimits_h); text_field $"user"; text_field $"userns_mode"; ($"volumes", HSeq HAny); ($"volumes_from", texts);
    text_field $"working_dir"].
Definition service_h : hint := struct service_t.

(** network.rs 42-312, volume.rs 33-65, config.rs 30-48, secret.rs 25-53. The source of a config or secret is flattened. *)
Definition ipam_config_h : hint :=
  struct [text_field $"subnet"; text_field $"ip_range"; text_field $"gateway"; ($"aux_addresses", HMap HText)].
Definition ipam_h : hint := struct [text_field $"driver"; ($"config", HSeq ipam_config_h); ($"options", HMap HText)].
Definition driver_opts_h : str * hint := ($"driver_opts", HMap HAny).
Definition network_h : hint :=
  resource_h [text_field $"driver"; driver_opts_h; ($"ipam", HOption ipam_h); ($"labels", list_or_map_h); text_field $"name"].
Definition volume_h : hint := resource_h [text_field $"driver"; driver_opts_h; ($"labels", list_or_map_h); text_field $"name"].
Definition config_h : hint := resource_h [($"labels", list_or_map_h)].
Definition secret_h : hint := resource_h [($"labels", list_or_map_h); text_field $"driver"; driver_opts_h].

(** [Include], include.rs 14-32; [Compose], lib.rs 140-224. *)
Definition include_h : hint := struct [($"path", item_or_texts); text_field $"project_directory"; ($"env_file", HOption item_or_texts)].
Definition compose_h : hint :=
  struct [text_field $"version"; text_field $"name"; ($"include", HSeq (item_or include_h)); ($"services", HMap service_h);
    ($"networks", HMap (HOption network_h)); ($"volumes", HMap (HOption volume_h)); ($"configs", HMap config_h);
    ($"secrets", HMap secret_h)].

(** ** Loading *)

(** [serde_yaml::from_str::<Compose>], also [from_reader] and [from_slice]. *)
Definition from_text (w : externals) (y : numerals) (n : node) : result de_error (compose w) := de (compose_c w) (seen y compose_h n).
(** [serde_yaml::from_value::<Compose>]. *)
Definition from_value (w : externals) (v : sval) : result de_error (compose w) := de (compose_c w) (seen_value compose_h v).
(** [Options::from_yaml_value], options.rs 102-107. *)
Definition options_from_value (w : externals) (o : options) (v : sval) : result de_error (compose w) :=
  v <- (if opt_apply_merge o then apply_merge v else Ok v) ;; from_value w v.
(** [Options::from_yaml_str], [from_yaml_reader] and [from_yaml_slice], 63-95. *)
Definition options_from_text (w : externals) (y : numerals) (o : options) (n : node) : result de_error (compose w) :=
  if any o then v <- de yaml_c (value y n) ;; options_from_value w o v else from_text w y n.
