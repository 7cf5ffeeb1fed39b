(** Short and long syntax: [AsShort], [AsShortIter] and the conversions from short to long. [Mount::into_short] and
    [Port::into_short] are in [VolumesModel] and [PortsModel], [Ulimit] in [BytesModel]. No proofs in this file. *)

From Coq Require Import String Ascii List NArith ZArith Bool.
Import ListNotations.
From Verif Require Import Base Num Coll PortsModel VolumesModel ValuesModel EqModel Serde Codec EnumModel ScalarCodec CommonCodec ServiceParts ComposeCodec EmptyModel.
Open Scope N_scope.

(** [#[derive(AsShort)]], compose_spec_macros/src/as_short.rs 91-140: the short field if every other field passes its
    test ([Option::is_none], [Not::not], [is_empty] or [if_fn]). [#[derive(FromShort)]], 143-186: every other field
    gets its default ([Default::default] or [default]). *)

(** [Build], service/build.rs 30-37. All the tests of [Build::is_empty] but the first. *)
Definition build : externals -> Set := fun w => (vals (build_ms w) * extensions)%type.
Definition build_as_short {w : externals} (v : build w) : option context :=
  let '((context, (dockerfile, (args, (ssh, (cache_from, (cache_to, (additional_contexts, (entitlements, (extra_hosts, (isolation,
         (privileged, (labels, (no_cache, (pull, (network, (shm_size, (target, (secrets, (tags, (ulimits, (platforms, _)))))))))))))))))))))
       , extensions) := v in
  if is_none dockerfile && list_or_map_empty args && is_nil ssh && is_nil cache_from && is_nil cache_to
    && is_nil additional_contexts && is_nil entitlements && is_nil extra_hosts && is_none isolation && negb privileged
    && list_or_map_empty labels && negb no_cache && negb pull && is_none network && is_none shm_size && is_none target && is_nil secrets
    && is_nil tags && is_nil ulimits && is_nil platforms && is_nil extensions
  then context else None.
Definition build_of_short {w : externals} (c : context) : build w :=
  ((Some c, (None, (LList [], ([], ([], ([], ([], ([], ([], (None,
     (false, (LList [], (false, (false, (None, (None, (None, ([], ([], ([], ([], tt))))))))))))))))))))), []).

(** [ConfigOrSecret], service/config_or_secret.rs 29-34. *)
Definition config_or_secret : Set := vals config_or_secret_ms * extensions.
Definition config_or_secret_as_short (v : config_or_secret) : option str :=
  let '((source, (target, (uid, (gid, (mode, _))))), extensions) := v in
  if is_none target && is_none uid && is_none gid && is_none mode && is_nil extensions then Some source else None.
Definition config_or_secret_of_short (s : str) : config_or_secret := ((s, (None, (None, (None, (None, tt))))), []).

(** [env_file::Config], service/env_file.rs 90-103. *)
Definition env_file_config : Set := (str * (bool * unit))%type.
Definition env_file_config_as_short (v : env_file_config) : option str := let '(path, (required, _)) := v in if required then Some path else None.
Definition env_file_config_of_short (p : str) : env_file_config := (p, (true, tt)).

(** [ItemOrList::as_item], common.rs 77-83; [Include], include.rs 34-61. *)
Definition as_item {A : Set} (x : item_or_list A (list A)) : option A :=
  match x with Item a => Some a | Items [a] => Some a | Items _ => None end.
Definition include : Set := vals include_ms.
Definition include_as_short (v : include) : option str :=
  let '(path, (project_directory, (env_file, _))) := v in
  if is_none project_directory && is_none env_file then as_item path else None.
Definition include_of_short (p : str) : include := (Item p, (None, (None, tt))).

(** [ports::ShortRanges], service/ports.rs 408-420. *)
Definition short_ranges_as_short (r : short_ranges) : option range := if is_none (sr_host r) then Some (sr_container r) else None.
Definition short_ranges_of_short (r : range) : short_ranges := mk_short_ranges None r.

(** [From<ShortOrLong<S, IndexMap<K, V>>> for IndexMap<K, V>], common/short_or_long.rs 304-320. *)
Definition map_of_short {V : Set} (default : V) (x : short_or_long (list str) (list (str * V))) : list (str * V) :=
  match x with Short l => imap_of str_eqb (map (fun k => (k, default)) l) | Long m => m end.
(** [ShortOrLong::keys], 105-116. *)
Definition sol_keys {V : Set} (x : short_or_long (list str) (list (str * V))) : list str := match x with Short l => l | Long m => map fst m end.

(** [AsShortIter for IndexMap<Identifier, Option<Network>>], service/network_config.rs 457-466. *)
Definition service_networks : externals -> Set := fun w => list (str * option (vals (service_network_ms w) * extensions)).
Definition service_networks_as_short {w : externals} (m : service_networks w) : option (list str) :=
  if forallb (fun e => match snd e with Some n => service_network_empty n | None => true end) m then Some (map fst m) else None.

(** [Dependency], service.rs 862-897, with [Default]; [AsShortIter for IndexMap<Identifier, Dependency>], 941-950. *)
Definition dependency : Set := (condition * (bool * (bool * unit)))%type.
Definition dependency_default : dependency := (ServiceStarted, (false, (true, tt))).
Definition dependency_eqb (a b : dependency) : bool :=
  let '(c, (r, (q, _))) := a in let '(c', (r', (q', _))) := b in
  match c, c' with ServiceStarted, ServiceStarted | ServiceHealthy, ServiceHealthy | ServiceCompletedSuccessfully, ServiceCompletedSuccessfully => true | _, _ => false end
  && Bool.eqb r r' && Bool.eqb q q'.
Definition dependencies_as_short (m : list (str * dependency)) : option (list str) :=
  if forallb (fun e => dependency_eqb (snd e) dependency_default) m then Some (map fst m) else None.

(** [EnvFile::as_single] and [EnvFile::into_list], service/env_file.rs 33-53; [ShortOrLong::as_short], common/short_or_long.rs 141-153. *)
Definition env_file : Set := item_or_list str (list (short_or_long str env_file_config)).
Definition env_file_as_single (x : env_file) : option str :=
  match x with
  | Item p => Some p
  | Items [Short p] => Some p
  | Items [Long c] => env_file_config_as_short c
  | Items _ => None
  end.
Definition env_file_into_list (x : env_file) : list (short_or_long str env_file_config) := match x with Item p => [Short p] | Items l => l end.
