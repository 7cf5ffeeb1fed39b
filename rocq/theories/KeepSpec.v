(** Which files in memory come back unchanged when they are saved and loaded again. For each type: [..._can], what its values can be (the
    invariants of its constructors and the ranges of its numbers), and [..._keeps], the condition under which such a value comes back.
    Where no condition is given every value comes back. Nothing here mentions how a value is written or read. No proofs in this file. *)

From Coq Require Import String Ascii List NArith ZArith Bool.
Import ListNotations.
From Verif Require Import Base Num Coll Regex KeysSpec KeysModel UserModel DurationModel BytesModel CpuSetModel DeviceModel ImageSpec ImageModel IpModel NetModel
  PathModel PortsModel PortsProofs TextModel VolumesModel ValuesModel BuildModel PlatformModel PlatformSpec EqModel Serde Codec EnumModel ScalarCodec
  CommonCodec ServiceParts MountCodec HealthModel ServiceCodec ComposeCodec.
Open Scope N_scope.

(** ** Shapes *)

Definition any {A : Type} (_ : A) : Prop := True.
Definition opt {A : Type} (P : A -> Prop) (o : option A) : Prop := match o with Some a => P a | None => True end.
(** An [IndexSet]: no element is equal to an earlier one. *)
Definition set_of {A : Type} (eqb : A -> A -> bool) (P : A -> Prop) (l : list A) : Prop :=
  Forall P l /\ ForallOrdPairs (fun x y => eqb y x = false) l.
(** An [IndexMap]. *)
Definition map_of {V : Type} (K : str -> Prop) (P : V -> Prop) (m : list (str * V)) : Prop :=
  NoDup (map fst m) /\ Forall (fun e => K (fst e) /\ P (snd e)) m.
Definition values {V : Type} (P : V -> Prop) (m : list (str * V)) : Prop := Forall (fun e => P (snd e)) m.
Definition form {A B : Set} (P : A -> Prop) (Q : B -> Prop) (x : short_or_long A B) : Prop := match x with Short a => P a | Long b => Q b end.
Definition item {A B : Set} (P : A -> Prop) (Q : B -> Prop) (x : item_or_list A B) : Prop := match x with Item a => P a | Items b => Q b end.

(** A condition for each field of a struct. *)
Fixpoint preds (ms : list member) : Type := match ms with [] => unit | m :: r => ((m_type m -> Prop) * preds r)%type end.
Fixpoint each (ms : list member) : preds ms -> vals ms -> Prop :=
  match ms return preds ms -> vals ms -> Prop with [] => fun _ _ => True | m :: r => fun p v => fst p (fst v) /\ each r (snd p) (snd v) end.
Notation "[* x ; .. ; y *]" := (pair x .. (pair y tt) ..).
(** What [Extensions] can be: keys which start with [x-], each once, and values in which no map has a key twice. *)
Definition extensions_can (x : extensions) : Prop :=
  NoDup (map fst x) /\ Forall (fun e => (exists r, fst e = $"x-" ++ r) /\ ~ In 10 (fst e) /\ yaml_ok (snd e) = true) x.
Definition struct_can (ms : list member) (p : preds ms) (v : vals ms * extensions) : Prop := each ms p (fst v) /\ extensions_can (snd v).
Definition struct_keeps (ms : list member) (p : preds ms) (v : vals ms * extensions) : Prop := each ms p (fst v).

(** ** Numbers and texts *)

Definition u16 (n : N) : Prop := n <= 65535.
Definition u32 (n : N) : Prop := n <= 4294967295.
Definition u64 (n : N) : Prop := n <= 18446744073709551615.
Definition identifier : str -> Prop := matches IDENTIFIER_RE.
Definition hostname : str -> Prop := matches HOSTNAME_RE.
(** A key of a map is one line which is not empty. *)
Definition key_can (k : str) : Prop := k <> [] /\ ~ In 10 k.
Definition absolute_can (p : str) : Prop := exists r, p = $"/" ++ r.
Definition host_path_can (p : str) : Prop := p = $"." \/ p = $".." \/ exists r, p = $"/" ++ r \/ p = $"./" ++ r \/ p = $"../" ++ r.
Definition byte_can (v : byte_value) : Prop := match v with Bytes n | Kilobytes n | Megabytes n | Gigabytes n => u64 n end.
Definition limit_can {T : Set} (P : T -> Prop) (l : limit T) : Prop := match l with LimitValue v => P v | Unlimited => True end.
Definition cpus_can (bits : N) : Prop := bits < 2047 * 2 ^ 52.
Definition percent_can (n : N) : Prop := n <= 100.
Definition score_can (z : Z) : Prop := (-1000 <= z <= 1000)%Z.
Definition weight_can (n : N) : Prop := 10 <= n <= 1000.
Definition count_can (c : count) : Prop := match c with CountAll => True | CountInteger n => u64 n end.
Definition ip_can (i : ip_addr) : Prop :=
  match i with
  | V4 a b c d => a <= 255 /\ b <= 255 /\ c <= 255 /\ d <= 255
  | V6 l => List.length l = 8%nat /\ Forall u16 l
  end.
Definition v4_can (i : ip_addr) : Prop := ip_can i /\ exists a b c d, i = V4 a b c d.
Definition v6_can (i : ip_addr) : Prop := ip_can i /\ exists l, i = V6 l.
Definition mac_can (m : list N) : Prop := List.length m = 6%nat /\ Forall (fun b => b <= 255) m.
(** Strictly increasing numbers. *)
Definition cpuset_can (l : list N) : Prop := Sorted.StronglySorted N.lt l /\ Forall u64 l.
Definition platform_can : platform -> Prop := platform_typed crate_table.
Definition id_or_name_can (x : id_or_name) : Prop := match x with Id n => u32 n | UName s => matches USER_NAME_RE s /\ ~ Forall (in_cls [DIGIT]) s /\ N.of_nat (List.length s) <= 32 end.
Definition user_can (u : user) : Prop := id_or_name_can (user_user u) /\ opt id_or_name_can (user_group u).
Definition rule_can (r : cgroup_rule) : Prop :=
  let number m := match m with MMAll => True | MMInt n => u16 n end in number (cg_major r) /\ number (cg_minor r).

(** A time with parts of a microsecond is cut; [cpu_period] and [cpu_quota] have to fit in a [u64] of microseconds. *)
Definition time_can (d : duration) : Prop := u64 (secs d) /\ nanos d < 1000000000.
Definition time_keeps (d : duration) : Prop := nanos d mod 1000 = 0.
Definition micros_keep (d : duration) : Prop := time_keeps d /\ u64 (secs d * 1000000 + nanos d / 1000).

(** A signed number which is not negative becomes an unsigned one. *)
Definition number_can (n : number) : Prop :=
  match n with UnsignedInt n => u64 n | SignedInt z => (-9223372036854775808 <= z <= 9223372036854775807)%Z | Float _ => True end.
Definition number_keeps (n : number) : Prop := match n with SignedInt z => (z < 0)%Z | _ => True end.
Definition value_can (v : value) : Prop := match v with VNumber n => number_can n | _ => True end.
Definition value_keeps (v : value) : Prop := match v with VNumber n => number_keeps n | _ => True end.
Definition plain_can (v : string_or_number) : Prop := match v with SNumber n => number_can n | _ => True end.
Definition plain_keeps (v : string_or_number) : Prop := match v with SNumber n => number_keeps n | _ => True end.
Definition options_can : list (str * option value) -> Prop := map_of key_can (opt value_can).
Definition options_keep : list (str * option value) -> Prop := values (opt value_keeps).
(** An empty map is left out and comes back as an empty list. *)
Definition either_can (x : list_or_map) : Prop := match x with LList l => NoDup l | LMap m => options_can m end.
Definition either_keeps (x : list_or_map) : Prop := match x with LList _ => True | LMap m => m <> [] /\ options_keep m end.

(** ** Values written as text: the text has to be read as the same value *)

(** A name, then nothing, a tag or a digest; the two remembered positions are the end of the registry and the start of the tag or digest. *)
Definition image_keeps (i : image) : Prop := exists name rest registry, is_name name /\ is_suffix rest /\ unambiguous name rest /\ is_registry name registry /\
  i_inner i = name ++ suffix_text rest /\ i_registry_end i = option_map blen registry /\
  i_start i = match rest with NoSuffix => None | Tagged _ => Some (STag (blen name + 1)) | Digested _ => Some (SDigest (blen name + 1)) end.
Definition ipc_can (i : ipc) : Prop := match i with IpcService s => identifier s | _ => True end.
Definition ipc_keeps (i : ipc) : Prop := match i with IpcOther s => s <> $"shareable" /\ forall r, s <> $"service:" ++ r | _ => True end.
Definition link_can (l : link) : Prop := identifier (l_service l).
Definition from_can (v : volumes_from) : Prop := match vf_source v with FromService s => identifier s | FromContainer s => identifier s end.
Definition from_keeps (v : volumes_from) : Prop :=
  vf_read_only v = false -> vf_source v <> FromContainer $"ro" /\ vf_source v <> FromContainer $"rw".
Definition driver_keeps (d : driver) : Prop := d <> DrvOther $"host" /\ d <> DrvOther $"none".
Definition endpoint_keeps (m : endpoint_mode) : Prop := m <> EmOther $"vip" /\ m <> EmOther $"dnsrr".
Definition capability_keeps (c : capability) : Prop := c <> CapOther $"gpu" /\ c <> CapOther $"tpu".
Definition protocol_keeps (p : protocol) : Prop := p <> POther $"tcp" /\ p <> POther $"udp".
Definition build_network_can (n : build_network) : Prop := match n with BnNone => True | BnIdentifier i => identifier i end.
Definition build_network_keeps (n : build_network) : Prop := n <> BnIdentifier $"none".
Definition device_can (d : device) : Prop := absolute_can (dev_container d).
Definition device_keeps (d : device) : Prop := ~ In (ch ":") (dev_host d) /\ ~ In (ch ":") (dev_container d).
Definition mode_can (m : network_mode) : Prop := match m with NmService i | NmContainer i => identifier i | _ => True end.
Definition mode_keeps (m : network_mode) : Prop :=
  match m with
  | NmOther o => o <> $"none" /\ o <> $"host" /\ (forall r, o <> $"service:" ++ r) /\ (forall r, o <> $"container:" ++ r)
  | _ => True
  end.
Definition source_can (s : source) : Prop := match s with HostPath p => host_path_can p | NamedVolume i => identifier i end.
Definition short_volume_can (v : short_volume) : Prop := absolute_can (sv_container v) /\ opt (fun o => source_can (so_source o)) (sv_options v).
Definition short_volume_keeps (v : short_volume) : Prop :=
  ~ In (ch ":") (sv_container v) /\ opt (fun o => forall p, so_source o = HostPath p -> ~ In (ch ":") p) (sv_options v).
Definition ssh_can (a : ssh_auth) : Prop := match a with SshDefault => True | SshId i => ssh_id_id i <> [] /\ ssh_id_path i <> [] end.
Definition ssh_keeps (a : ssh_auth) : Prop := match a with SshDefault => True | SshId i => ~ In (ch "=") (ssh_id_id i) end.
(** [CacheOption]: not empty, no whitespace. *)
Definition option_can (s : str) : Prop := s <> [] /\ forall c, In c s -> is_whitespace c = false.
Definition cache_can (c : cache) : Prop :=
  map_of option_can option_can (c_options c) /\ match c_type c with CtRegistry _ => True | CtOther t => option_can t end.
Definition cache_keeps (c : cache) : Prop :=
  Forall (fun e => ~ In (ch "=") (fst e) /\ ~ In (ch ",") (fst e) /\ ~ In (ch ",") (snd e)) (c_options c) /\
  match c_type c with
  | CtRegistry i => image_keeps i /\ ~ In $"ref" (map fst (c_options c))
  | CtOther t => ~ In (ch ",") t /\ t <> $"registry" /\ c_options c <> []
  end.
(** [Range]; [ShortRanges]: as many ports on the host as in the container, in a build without overflow checks only up to a multiple of 65536. *)
Definition range_can (r : range) : Prop := u16 (r_start r) /\ opt u16 (r_end r).
Definition ports_in (r : range) : Z := match r_end r with None => 1 | Some e => Z.of_N e - Z.of_N (r_start r) + 1 end.
Definition as_many (checks : bool) (host container : range) : Prop :=
  if checks then (1 <= ports_in host <= 65535 /\ ports_in host = ports_in container)%Z
  else (ports_in host mod 65536 = ports_in container mod 65536)%Z.
Definition expose_can (e : expose) : Prop := range_can (ex_range e).
Definition expose_keeps (e : expose) : Prop := opt protocol_keeps (ex_protocol e).
Definition short_port_can (w : externals) (p : short_port) : Prop :=
  opt ip_can (sp_host_ip p) /\ opt range_can (sr_host (sp_ranges p)) /\ range_can (sr_container (sp_ranges p)) /\
  opt (fun h => as_many (w_checks w) h (sr_container (sp_ranges p))) (sr_host (sp_ranges p)).
Definition short_port_keeps (p : short_port) : Prop := opt protocol_keeps (sp_protocol p).

(** ** The parts of a service *)

(** A context which is a path is not the text of a URL. *)
Definition context_can (w : externals) (c : context) : Prop := match c with CtxPath _ => True | CtxUrl u => w_url w u = Some u end.
Definition context_keeps (w : externals) (c : context) : Prop := match c with CtxPath p => w_url w p = None | CtxUrl _ => True end.
Definition grants_can : list (short_or_long str (vals config_or_secret_ms * extensions)) -> Prop :=
  Forall (form identifier (struct_can config_or_secret_ms [* identifier; any; opt u32; opt u32; opt u32 *])).
Definition ulimit_can (u : ulimit) : Prop := limit_can u64 (ul_soft u) /\ limit_can u64 (ul_hard u) /\ extensions_can (ul_extensions u).
Definition ulimits_can : list (str * short_or_long (limit N) ulimit) -> Prop := map_of (matches ULIMIT_RE) (form (limit_can u64) ulimit_can).
Definition hosts_can : list (str * ip_addr) -> Prop := map_of hostname ip_can.

Definition build_can (w : externals) : preds (build_ms w) :=
  [* opt (context_can w); any; either_can; set_of ssh_auth_eqb ssh_can; Forall cache_can; Forall cache_can; map_of key_can (context_can w);
     any; hosts_can; any; any; either_can; any; any; opt build_network_can; opt byte_can; any; grants_can; any; ulimits_can; Forall platform_can *].
Definition build_keeps (w : externals) : preds (build_ms w) :=
  [* opt (context_keeps w); any; either_keeps; Forall ssh_keeps; Forall cache_keeps; Forall cache_keeps; values (context_keeps w);
     any; any; any; any; either_keeps; any; any; opt build_network_keeps; any; any; any; Forall image_keeps; any; any *].

Definition limits_can (w : externals) : preds (limits_ms w) := [* opt cpus_can; opt byte_can; opt (limit_can u32) *].
Definition deploy_device_can : preds deploy_device_ms := [* set_of capability_eqb any; any; opt count_can; set_of str_eqb any; either_can *].
Definition deploy_device_keeps : preds deploy_device_ms := [* Forall capability_keeps; any; any; any; either_keeps *].
Definition spec_can : preds discrete_resource_spec_ms := [* any; opt u64 *].
Definition generic_can : preds generic_resource_ms := [* opt (struct_can discrete_resource_spec_ms spec_can) *].
Definition reservations_can (w : externals) : preds (reservations_ms w) :=
  [* opt cpus_can; opt byte_can; Forall (struct_can deploy_device_ms deploy_device_can); Forall (struct_can generic_resource_ms generic_can) *].
Definition reservations_keep (w : externals) : preds (reservations_ms w) := [* any; any; Forall (struct_keeps deploy_device_ms deploy_device_keeps); any *].
Definition resources_can (w : externals) : preds (resources_ms w) :=
  [* opt (struct_can (limits_ms w) (limits_can w)); opt (struct_can (reservations_ms w) (reservations_can w)) *].
Definition resources_keep (w : externals) : preds (resources_ms w) := [* any; opt (struct_keeps (reservations_ms w) (reservations_keep w)) *].
Definition placement_can : preds placement_ms := [* any; Forall (struct_can preference_ms [* any *]); opt u64 *].
Definition restart_policy_can : preds restart_policy_ms := [* any; opt time_can; opt u64; opt time_can *].
Definition restart_policy_keeps : preds restart_policy_ms := [* any; opt time_keeps; any; opt time_keeps *].
Definition update_config_can : preds update_config_ms := [* opt u64; opt time_can; any; opt time_can; opt u64; any *].
Definition update_config_keeps : preds update_config_ms := [* any; opt time_keeps; any; opt time_keeps; any; any *].
Definition deploy_can (w : externals) : preds (deploy_ms w) :=
  [* any; either_can; any; opt (struct_can placement_ms placement_can); opt u64; opt (struct_can (resources_ms w) (resources_can w));
     opt (struct_can restart_policy_ms restart_policy_can); opt (struct_can update_config_ms update_config_can);
     opt (struct_can update_config_ms update_config_can) *].
Definition deploy_keeps (w : externals) : preds (deploy_ms w) :=
  [* opt endpoint_keeps; either_keeps; any; any; any; opt (struct_keeps (resources_ms w) (resources_keep w));
     opt (struct_keeps restart_policy_ms restart_policy_keeps); opt (struct_keeps update_config_ms update_config_keeps);
     opt (struct_keeps update_config_ms update_config_keeps) *].

Definition service_network_can (w : externals) : preds (service_network_ms w) :=
  [* set_of str_eqb hostname; opt v4_can; opt v6_can; set_of ip_eqb ip_can; opt mac_can; map_of key_can plain_can; opt u64 *].
Definition service_network_keeps (w : externals) : preds (service_network_ms w) := [* any; any; any; any; any; values plain_keeps; any *].
Definition network_config_can (w : externals) (c : network_config w) : Prop :=
  match c with
  | NcMode m => mode_can m
  | NcNetworks n => form (set_of str_eqb identifier) (map_of identifier (opt (struct_can (service_network_ms w) (service_network_can w)))) n
  end.
Definition network_config_keeps (w : externals) (c : network_config w) : Prop :=
  match c with
  | NcMode m => mode_keeps m
  | NcNetworks n => form any (values (opt (struct_keeps (service_network_ms w) (service_network_keeps w)))) n
  end.

Definition device_limits_can : preds blkio_config_ms :=
  let bps := [* absolute_can; byte_can *] in let iops := [* absolute_can; u64 *] in
  [* Forall (each [required $"path" absolute_path_c; required $"rate" byte_value_c] bps);
     Forall (each [required $"path" absolute_path_c; required $"rate" u64_c] iops);
     Forall (each [required $"path" absolute_path_c; required $"rate" byte_value_c] bps);
     Forall (each [required $"path" absolute_path_c; required $"rate" u64_c] iops);
     opt weight_can; Forall (each [required $"path" absolute_path_c; required $"weight" weight_c] [* absolute_can; weight_can *]) *].
Definition credential_can (c : credential) : Prop := match c with CredConfig i => identifier i | _ => True end.
Definition watch_rule_can : preds watch_rule_ms := [* any; any; any; opt absolute_can *].
Definition health_can (h : healthcheck) : Prop :=
  match h with HcCommand c => struct_can health_ms [* any; opt time_can; opt time_can; opt u64; opt time_can; opt time_can *] c | HcDisable => True end.
Definition health_keeps (h : healthcheck) : Prop :=
  match h with HcCommand c => struct_keeps health_ms [* any; opt time_keeps; opt time_keeps; any; opt time_keeps; opt time_keeps *] c | HcDisable => True end.
Definition depends_on_can {D : Set} : short_or_long (list str) (list (str * D)) -> Prop := form (set_of str_eqb identifier) (map_of identifier any).
Definition depends_on_keeps {D : Set} (d : short_or_long (list str) (list (str * D))) : Prop := d <> Long [].

(** Volumes and ports. *)
Definition common_can (c : common) : Prop := absolute_can (cm_target c) /\ extensions_can (cm_extensions c).
Definition mount_can (m : mount) : Prop :=
  match m with
  | MVolume m => opt identifier (vol_source m) /\ opt (fun o => extensions_can (vo_extensions o)) (vol_volume m) /\ common_can (vol_common m)
  | MBind m => host_path_can (bind_source m) /\ opt (fun o => extensions_can (bo_extensions o)) (bind_bind m) /\ common_can (bind_common m)
  | MTmpfs m =>
      opt (fun o => opt byte_can (to_size o) /\ opt u32 (to_mode o) /\ extensions_can (to_extensions o)) (tm_tmpfs m) /\ common_can (tm_common m)
  | MNamedPipe m => host_path_can (np_source m) /\ common_can (np_common m)
  | MCluster m => common_can (cl_common m)
  end.
Definition port_can (p : port) : Prop :=
  u16 (p_target p) /\ opt range_can (p_published p) /\ opt ip_can (p_host_ip p) /\ extensions_can (p_extensions p).
Definition port_keeps (p : port) : Prop := opt protocol_keeps (p_protocol p).

(** ** A service *)

(** The fields in the order of the declaration, service.rs 81-682. *)
Definition service_can (w : externals) : preds (service_ms w) :=
  [* any; opt (form (context_can w) (struct_can (build_ms w) (build_can w))); opt (each blkio_config_ms device_limits_can);
     opt u64; opt percent_can; opt u64; opt time_can; opt time_can; opt time_can; opt time_can;
     opt cpus_can; cpuset_can; set_of str_eqb any; set_of str_eqb any; any; any; any; grants_can;
     opt identifier; opt (struct_can [credential_m] [* credential_can *]); depends_on_can;
     opt (struct_can (deploy_ms w) (deploy_can w)); opt (each [many $"watch" (list_c watch_rule_c)] [* Forall (struct_can watch_rule_ms watch_rule_can) *]);
     set_of cgroup_rule_eqb rule_can; set_of device_eqb device_can; opt (item ip_can (set_of ip_eqb ip_can));
     set_of str_eqb any; opt (item hostname (set_of str_eqb hostname)); opt hostname;
     any; any; either_can; set_of expose_eqb expose_can; opt (each [required $"service" identifier_c; optional $"file" path_c] [* identifier; any *]);
     either_can; set_of link_eqb link_can; hosts_can; set_of id_or_name_eqb id_or_name_can; opt health_can;
     opt hostname; any; any; opt ipc_can; any; any; either_can; set_of link_eqb link_can;
     opt (struct_can [optional $"driver" string_c; many $"options" (smap map_key_c (option_c string_or_number_c))] [* any; map_of key_can (opt plain_can) *]);
     opt (network_config_can w); opt mac_can; opt byte_can; opt byte_can;
     opt percent_can; opt (limit_can byte_can); any; opt score_can; any; opt (limit_can u32); opt platform_can;
     set_of (short_or_long_eqb short_port_eqb (port_eqb (w_yaml_eqb w))) (form (short_port_can w) port_can); any; set_of str_eqb identifier; any;
     any; any; any; opt u64; grants_can; set_of str_eqb any; opt byte_can; any; opt time_can;
     any; options_can; either_can; opt (item absolute_can (set_of path_eqb absolute_can)); any; ulimits_can; opt user_can; any;
     set_of (short_or_long_eqb short_volume_eqb (mount_eqb (w_yaml_eqb w))) (form short_volume_can mount_can);
     set_of volumes_from_eqb from_can; opt absolute_can *].
Definition service_keeps (w : externals) : preds (service_ms w) :=
  [* any; opt (form (context_keeps w) (struct_keeps (build_ms w) (build_keeps w))); any;
     any; any; any; opt micros_keep; opt micros_keep; opt time_keeps; opt time_keeps;
     any; any; any; any; any; any; any; any;
     any; any; depends_on_keeps;
     opt (struct_keeps (deploy_ms w) (deploy_keeps w)); any;
     any; Forall device_keeps; any;
     any; any; any;
     any; any; either_keeps; Forall expose_keeps; any;
     either_keeps; any; any; any; opt health_keeps;
     any; opt image_keeps; any; opt ipc_keeps; any; any; either_keeps; any;
     opt (struct_keeps [optional $"driver" string_c; many $"options" (smap map_key_c (option_c string_or_number_c))] [* any; values (opt plain_keeps) *]);
     opt (network_config_keeps w); any; any; any;
     any; any; any; any; any; any; any;
     Forall (form short_port_keeps port_keeps); any; any; any;
     any; any; any; any; any; any; any; any; opt time_keeps;
     any; options_keep; either_keeps; any; any; any; any; any;
     Forall (form short_volume_keeps any); Forall from_keeps; any *].

(** ** A file *)

Definition resource_can {A : Set} (P : A -> Prop) (r : resource A) : Prop := match r with External _ => True | Managed a => P a end.
Definition ipam_config_can (w : externals) : preds (ipam_config_ms w) :=
  [* opt (fun n => w_net w n = Some n); opt (fun n => w_net w n = Some n); opt ip_can; hosts_can *].
Definition ipam_can (w : externals) : preds (ipam_ms w) :=
  [* any; Forall (struct_can (ipam_config_ms w) (ipam_config_can w)); map_of key_can any *].
Definition network_can (w : externals) : preds (network_ms w) :=
  [* any; map_of key_can plain_can; any; any; opt (struct_can (ipam_ms w) (ipam_can w)); any; either_can; any *].
Definition network_keeps (w : externals) : preds (network_ms w) := [* opt driver_keeps; values plain_keeps; any; any; any; any; either_keeps; any *].
Definition volume_can : preds top_volume_ms := [* any; map_of key_can plain_can; either_can; any *].
Definition volume_keeps : preds top_volume_ms := [* any; values plain_keeps; either_keeps; any *].
Definition config_can : preds config_ms := [* any; either_can *].
Definition config_keeps : preds config_ms := [* any; either_keeps *].
Definition secret_can : preds secret_ms := [* any; either_can; any; map_of key_can plain_can *].
Definition secret_keeps : preds secret_ms := [* any; either_keeps; any; values plain_keeps *].
Definition include_can : preds include_ms := [* item any (set_of path_eqb any); any; opt (item any (set_of path_eqb any)) *].

(** [Compose], lib.rs 168-224. *)
Definition compose_can (w : externals) : preds (compose_ms w) :=
  [* any; opt (matches NAME_RE); Forall (form any (each include_ms include_can)); map_of identifier (struct_can (service_ms w) (service_can w));
     map_of identifier (opt (resource_can (struct_can (network_ms w) (network_can w))));
     map_of identifier (opt (resource_can (struct_can top_volume_ms volume_can)));
     map_of identifier (resource_can (struct_can config_ms config_can)); map_of identifier (resource_can (struct_can secret_ms secret_can)) *].
Definition compose_keeps (w : externals) : preds (compose_ms w) :=
  [* any; any; any; values (struct_keeps (service_ms w) (service_keeps w));
     values (opt (resource_can (struct_keeps (network_ms w) (network_keeps w)))); values (opt (resource_can (struct_keeps top_volume_ms volume_keeps)));
     values (resource_can (struct_keeps config_ms config_keeps)); values (resource_can (struct_keeps secret_ms secret_keeps)) *].
