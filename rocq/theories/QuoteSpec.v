(** Where a compose file has text, and documents that are the same but for quotes there. Does not use the hints of [NodeModel]. *)

From Coq Require Import String Ascii List NArith ZArith Bool.
Import ListNotations.
From Verif Require Import Base Serde PanicSpec NodeModel.
Open Scope N_scope.

(** ** Places *)

Definition text_in (p : list step) (ks : list str) : list (list step) := map (fun k => p ++ [Key k]) ks.
Definition texts_in (p : list step) (ks : list str) : list (list step) := map (fun k => p ++ [Key k; AnyItem]) ks.
Definition svc : list step := [Key $"services"; AnyKey].
Definition under (p : list step) (k : str) : list step := p ++ [Key k].
Definition items (p : list step) (k : str) : list step := p ++ [Key k; AnyItem].

(** Text of a service: of the fields, and of the items of lists. *)
Definition service_texts : list (list step) :=
  text_in svc [$"cpuset"; $"cgroup"; $"cgroup_parent"; $"container_name"; $"domainname"; $"hostname"; $"image"; $"ipc"; $"uts"; $"isolation";
    $"mac_address"; $"pid"; $"platform"; $"pull_policy"; $"restart"; $"runtime"; $"stop_signal"; $"user"; $"userns_mode"; $"working_dir"] ++
  texts_in svc [$"cap_add"; $"cap_drop"; $"command"; $"depends_on"; $"device_cgroup_rules"; $"devices"; $"dns"; $"dns_opt"; $"dns_search"; $"entrypoint";
    $"environment"; $"annotations"; $"external_links"; $"extra_hosts"; $"labels"; $"links"; $"profiles"; $"security_opt"; $"sysctls"; $"tmpfs"; $"volumes_from"] ++
  text_in (items svc $"configs") [$"source"; $"target"; $"uid"; $"gid"] ++ text_in (items svc $"secrets") [$"source"; $"target"; $"uid"; $"gid"] ++
  text_in (under svc $"credential_spec") [$"config"; $"file"; $"registry"] ++
  [svc ++ [Key $"depends_on"; AnyKey; Key $"condition"]] ++
  text_in (items (under svc $"develop") $"watch") [$"action"; $"path"; $"target"] ++ texts_in (items (under svc $"develop") $"watch") [$"ignore"] ++
  text_in (items svc $"env_file") [$"path"] ++ text_in (under svc $"extends") [$"service"; $"file"] ++
  texts_in (under svc $"healthcheck") [$"test"] ++ text_in (under svc $"logging") [$"driver"] ++
  text_in (items svc $"ports") [$"name"; $"host_ip"; $"protocol"; $"app_protocol"; $"mode"] ++
  flat_map (fun k => text_in (items (under svc $"blkio_config") k) [$"path"])
    [$"device_read_bps"; $"device_read_iops"; $"device_write_bps"; $"device_write_iops"; $"weight_device"].
Definition build : list step := under svc $"build".
Definition build_texts : list (list step) :=
  text_in build [$"context"; $"isolation"; $"network"; $"target"] ++
  texts_in build [$"args"; $"ssh"; $"cache_from"; $"cache_to"; $"additional_contexts"; $"entitlements"; $"extra_hosts"; $"labels"; $"tags"; $"platforms"] ++
  text_in (items build $"secrets") [$"source"; $"target"; $"uid"; $"gid"].
Definition deploy : list step := under svc $"deploy".
Definition reservations : list step := under (under deploy $"resources") $"reservations".
Definition deploy_texts : list (list step) :=
  text_in deploy [$"endpoint_mode"; $"mode"] ++ texts_in deploy [$"labels"] ++
  texts_in (under deploy $"placement") [$"constraints"] ++ text_in (items (under deploy $"placement") $"preferences") [$"spread"] ++
  text_in (items reservations $"devices") [$"driver"] ++ texts_in (items reservations $"devices") [$"capabilities"; $"device_ids"; $"options"] ++
  text_in (under (items reservations $"generic_resources") $"discrete_resource_spec") [$"kind"] ++
  text_in (under deploy $"restart_policy") [$"condition"] ++
  text_in (under deploy $"rollback_config") [$"failure_action"; $"order"] ++ text_in (under deploy $"update_config") [$"failure_action"; $"order"].
Definition include_texts : list (list step) :=
  text_in [] [$"version"; $"name"] ++ text_in (items [] $"include") [$"project_directory"] ++ texts_in (items [] $"include") [$"path"; $"env_file"].
Definition text_places : list (list step) := include_texts ++ service_texts ++ build_texts ++ deploy_texts.

(** Maps whose keys are text: the names in a file, the fields of what is named, and maps of strings. *)
Definition key_places : list (list step) :=
  [[]; [Key $"services"]; [Key $"networks"]; [Key $"volumes"]; [Key $"configs"]; [Key $"secrets"]; svc; [Key $"networks"; AnyKey]; [Key $"volumes"; AnyKey];
   [Key $"configs"; AnyKey]; [Key $"secrets"; AnyKey]; items [] $"include"; build; deploy; under svc $"blkio_config"; under svc $"credential_spec"; under svc $"develop"; under svc $"extends";
   under svc $"healthcheck"; under svc $"logging"; items svc $"ports"; items svc $"configs"; items svc $"secrets"] ++
  text_in svc [$"environment"; $"annotations"; $"labels"; $"sysctls"; $"extra_hosts"; $"storage_opt"; $"ulimits"; $"depends_on"] ++
  text_in build [$"args"; $"labels"; $"additional_contexts"; $"extra_hosts"; $"ulimits"] ++ text_in deploy [$"labels"] ++ text_in (under svc $"logging") [$"options"].

(** ** Documents *)

Definition scalar_text (n : node) : option str := match n with Plain t | Quoted t => Some t | _ => None end.
(** The places below a key, below an item. *)
Definition below_key (P : list step -> Prop) (k : str) (p : list step) : Prop := P (Key k :: p) \/ P (AnyKey :: p).
Definition below_item (P : list step -> Prop) (p : list step) : Prop := P (AnyItem :: p).

(** [n'] is [n] with quotes around some scalars at the places [T], none of them a null, and around some keys of maps at the places [M]. *)
Inductive quoted_at : (list step -> Prop) -> (list step -> Prop) -> node -> node -> Prop :=
| qa_same T M n : quoted_at T M n n
| qa_quote (T M : list step -> Prop) t : T [] -> ~ In t [$""; $"~"; $"null"; $"Null"; $"NULL"] -> quoted_at T M (Plain t) (Quoted t)
| qa_seq T M l l' : Forall2 (quoted_at (below_item T) (below_item M)) l l' -> quoted_at T M (NSeq l) (NSeq l')
| qa_map (T M : list step -> Prop) es es' : Forall2 (fun e e' => e' = e \/
    exists k, scalar_text (fst e) = Some k /\ scalar_text (fst e') = Some k /\ (M [] \/ fst e' = fst e) /\
      quoted_at (below_key T k) (below_key M k) (snd e) (snd e')) es es' -> quoted_at T M (NMap es) (NMap es').
