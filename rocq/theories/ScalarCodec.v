(** The codecs of the scalar types of the crate, put together from their models. The predicates given as
    invariants say which values of a type exist in Rust (by its constructors) and are unambiguous (the text
    parses to the same value; the exceptions are findings of [PropsText], [PropsBuild], [PropsDevice], ...).
    No proofs in this file. *)

From Coq Require Import String Ascii List NArith ZArith Bool Sorted.
Import ListNotations.
From Verif Require Import Base Num Coll Regex KeysSpec KeysModel UserModel DurationModel BytesModel CpuSetModel DeviceModel ImageModel IpModel
  NetModel PathModel PortsModel PortsProofs TextModel VolumesModel ValuesModel BuildModel PlatformModel BytesProofs PlatformSpec PropsPlatform PropsText PropsBuild Serde Codec EnumModel.
Open Scope N_scope.

(** ** What the crate takes from elsewhere *)

Record externals := mk_externals {
  w_checks : bool;   (** overflow checks: true in debug builds *)
  w_compat : bool;   (** the version of the standard library, see [IpModel.show_ipv6] *)
  w_float : str -> N;  (** the bits of [f64::from_str] *)
  w_float_show : N -> str;  (** [Display for f64] *)
  w_url : str -> option str;  (** [Url::parse] of the [url] crate, as the text of the URL *)
  w_net : str -> option str;  (** [IpNet::from_str] of the [ipnet] crate, as the text of the network *)
  w_yaml_eqb : sval -> sval -> bool  (** [PartialEq for serde_yaml::Value] *) }.

(** The text of a URL (or network) parses to itself, and the path [.] is not a URL. *)
Definition externals_ok (w : externals) : Prop :=
  (forall s u, w_url w s = Some u -> w_url w u = Some u) /\ (forall s n, w_net w s = Some n -> w_net w n = Some n) /\
  w_url w $"." = None.

(** ** Text *)

Definition identity (s : str) : str := s.
Definition total {A : Type} (f : str -> A) (s : str) : result unit A := Ok (f s).
Definition from_option {A : Type} (f : str -> option A) (s : str) : result unit A :=
  match f s with Some a => Ok a | None => Err tt end.

(** identifier.rs 19-21, name.rs 17-20, common/keys.rs 11-14 and 123-125, service/hostname.rs 13-15,
    service/ulimit.rs 26-28. *)
Definition identifier_c : codec str := text_c identity identifier_new (matches IDENTIFIER_RE).
Definition name_c : codec str := text_c identity name_new (matches NAME_RE).
Definition map_key (s : str) : Prop := s <> [] /\ ~ In 10 s.
Definition map_key_c : codec str := text_c identity map_key_new map_key.
Definition hostname_c : codec str := text_c identity hostname_new (matches HOSTNAME_RE).
Definition ulimit_resource_c : codec str := text_c identity ulimit_resource_new (matches ULIMIT_RE).

(** [PathBuf]: any text (of valid Unicode). [AbsolutePath], [HostPath]: service/volumes.rs 293-297, 586-590. *)
Definition path_c : codec str := string_c.
Definition absolute (p : str) : Prop := exists r, p = $"/" ++ r.
Definition absolute_path_c : codec str := text_c identity absolute_path_new absolute.
Definition host_path (p : str) : Prop := p = $"." \/ p = $".." \/ exists r, p = $"/" ++ r \/ p = $"./" ++ r \/ p = $"../" ++ r.
Definition host_path_c : codec str := text_c identity host_path_new host_path.

(** service/image.rs 34: [Display] writes the text the image was made from. An image which the setters made
    inconsistent with its text is excluded ([PropsImage.image_history_partial]). *)
Definition image_wf (i : image) : Prop := image_parse (i_inner i) = Ok i.
Definition image_c : codec image := text_c i_inner image_parse image_wf.

(** service/platform.rs 6-60. *)
Definition platform_show (p : platform) : str := match platform_as_str crate_table p with Some s => s | None => [] end.
Definition platform_c : codec platform := text_c platform_show (platform_parse crate_table) (platform_typed crate_table).

(** service.rs 985, 1098, 1432. *)
Definition link_c : codec link := text_c link_show link_parse (fun l => matches IDENTIFIER_RE (l_service l)).
Definition ipc_c : codec ipc := text_c ipc_show ipc_parse ipc_canonical.
Definition volumes_from_wf (v : volumes_from) : Prop := source_ok (vf_source v) /\ (vf_read_only v = false -> suffix_free (vf_source v)).
Definition volumes_from_c : codec volumes_from := text_c volumes_from_show volumes_from_parse volumes_from_wf.

(** network.rs 152, service/deploy/endpoint_mode.rs 18, service/deploy/resources.rs 420, service/ports.rs 872-874,
    service/build/network.rs 15. *)
Definition driver_c : codec driver :=
  text_c driver_show (total driver_parse) (fun d => d <> DrvOther $"host" /\ d <> DrvOther $"none").
Definition endpoint_mode_c : codec endpoint_mode :=
  text_c endpoint_mode_show (total endpoint_mode_parse) (fun m => m <> EmOther $"vip" /\ m <> EmOther $"dnsrr").
Definition capability_c : codec capability :=
  text_c capability_show (total capability_parse) (fun c => c <> CapOther $"gpu" /\ c <> CapOther $"tpu").
Definition protocol_wf (p : protocol) : Prop := p <> POther $"tcp" /\ p <> POther $"udp".
Definition protocol_c : codec protocol := text_c protocol_show (total protocol_parse) protocol_wf.
Definition build_network_wf (n : build_network) : Prop :=
  match n with BnNone => True | BnIdentifier i => matches IDENTIFIER_RE i /\ i <> $"none" end.
Definition build_network_c : codec build_network := text_c build_network_show build_network_parse build_network_wf.

(** service/user.rs 17. *)
Definition id_or_name_wf (x : id_or_name) : Prop := match x with Id n => n < 2 ^ 32 | UName s => user_name_new s = Ok s end.
Definition user_wf (u : user) : Prop :=
  id_or_name_wf (user_user u) /\ match user_group u with Some g => id_or_name_wf g | None => True end.
Definition user_c : codec user := text_c user_show user_parse user_wf.

(** service/cpuset.rs 16. *)
Definition cpuset_text (w : externals) (l : list N) : str := match cpuset_show (w_checks w) l with Ret s => s | Panic => [] end.
Definition cpuset_c (w : externals) : codec (list N) :=
  text_c (cpuset_text w) cpuset_parse (fun l => StronglySorted N.lt l /\ Forall (fun x => x <= U64_MAX) l).

(** service/device.rs 22 and 198. *)
Definition device_wf (d : device) : Prop :=
  absolute (dev_container d) /\ ~ In (ch ":") (dev_host d) /\ ~ In (ch ":") (dev_container d).
Definition device_c : codec device := text_c device_show device_parse device_wf.
Definition mm_wf (m : mm_number) : Prop := match m with MMAll => True | MMInt n => n <= U16_MAX end.
Definition cgroup_rule_c : codec cgroup_rule := text_c cgroup_show cgroup_parse (fun r => mm_wf (cg_major r) /\ mm_wf (cg_minor r)).

(** service/network_config.rs 195 and 471-473. *)
Definition network_mode_wf (m : network_mode) : Prop :=
  match m with
  | NmNone | NmHost => True
  | NmService id | NmContainer id => matches IDENTIFIER_RE id
  | NmOther o => o <> $"none" /\ o <> $"host" /\ (forall r, o <> $"service:" ++ r) /\ (forall r, o <> $"container:" ++ r)
  end.
Definition network_mode_c : codec network_mode := text_c network_mode_show network_mode_parse network_mode_wf.
Definition mac_c : codec (list N) := text_c mac_show mac_parse (fun m => List.length m = 6%nat /\ Forall (fun b => b <= U8_MAX) m).

(** [IpAddr], [Ipv4Addr], [Ipv6Addr]: serde's own implementations use the text. *)
Definition ip_c (w : externals) : codec ip_addr := text_c (ip_show (w_compat w)) (from_option ip_parse) ip_wf.
Definition is_v4 (i : ip_addr) : bool := match i with V4 _ _ _ _ => true | V6 _ => false end.
Definition ipv4_parse (s : str) : option ip_addr := match ip_parse s with Some i => if is_v4 i then Some i else None | None => None end.
(** An IPv6 address: [read_ipv6] without trying [read_ipv4] first (which fails on every accepted text). *)
Definition ipv6_parse (s : str) : option ip_addr := match ip_parse s with Some i => if is_v4 i then None else Some i | None => None end.
Definition ipv4_c (w : externals) : codec ip_addr :=
  text_c (ip_show (w_compat w)) (from_option ipv4_parse) (fun i => ip_wf i /\ is_v4 i = true).
Definition ipv6_c (w : externals) : codec ip_addr :=
  text_c (ip_show (w_compat w)) (from_option ipv6_parse) (fun i => ip_wf i /\ is_v4 i = false).
(** [ipnet::IpNet]. *)
Definition ip_net_c (w : externals) : codec str := text_c identity (from_option (w_net w)) (fun n => w_net w n = Some n).

(** service/volumes.rs 77. *)
Definition volume_source_wf (s : source) : Prop :=
  match s with HostPath p => host_path p /\ ~ In (ch ":") p | NamedVolume id => matches IDENTIFIER_RE id end.
Definition short_volume_wf (v : short_volume) : Prop :=
  absolute (sv_container v) /\ ~ In (ch ":") (sv_container v) /\
  match sv_options v with Some o => volume_source_wf (so_source o) | None => True end.
Definition short_volume_c : codec short_volume := text_c short_volume_show short_volume_parse short_volume_wf.

(** [SELinux], service/volumes.rs 666-728: written as a [char], read as a [char]. *)
Definition selinux_parse (s : str) : result unit selinux :=
  if str_eqb s $"z" then Ok Shared else if str_eqb s $"Z" then Ok Private else Err tt.
Definition selinux_c : codec selinux := text_c (fun x => [selinux_char x]) selinux_parse (fun _ => True).

(** service/build/cache.rs 22 and service/build/ssh_auth.rs 17. *)
Definition cache_c : codec cache := text_c cache_show cache_parse cache_canonical.
Definition ssh_auth_wf (a : ssh_auth) : Prop :=
  match a with SshDefault => True | SshId i => ssh_id_id i <> [] /\ ssh_id_path i <> [] /\ ~ In (ch "=") (ssh_id_id i) end.
Definition ssh_auth_c : codec ssh_auth := text_c ssh_auth_show ssh_auth_parse ssh_auth_wf.

(** [Option<u32>] with [display_from_str_option], serde/display_from_str_option.rs 13-74 ([uid] and [gid] of configs and secrets). *)
Definition u32_text_c : codec N := text_c show_N parse_u32 (fun n => n <= U32_MAX).

(** ** Numbers and mixed forms *)

Definition u16_c : codec N := uint_c U16_MAX.
Definition u32_c : codec N := uint_c U32_MAX.
Definition u64_c : codec N := uint_c U64_MAX.

(** service.rs 740-800, 1294-1330; service/blkio_config.rs 125-180. *)
Definition percent_c : codec N := mk_codec percent_serialize percent_deserialize (fun n => n <= 100) (fun n => n).
Definition oom_score_adj_c : codec Z := mk_codec oom_score_adj_serialize oom_score_adj_deserialize (fun z => (-1000 <= z <= 1000)%Z) (fun z => z).
Definition weight_c : codec N := mk_codec weight_serialize weight_deserialize (fun n => 10 <= n <= 1000) (fun n => n).

(** service/byte_value.rs 25, 148-169; service/limit.rs 69-126. *)
Definition byte_value_c : codec byte_value :=
  mk_codec byte_value_serialize byte_value_deserialize (fun v => bv_num v <= U64_MAX) (fun v => v).
Definition limit_c {T : Set} (c : codec T) : codec (limit T) :=
  MkCodec (limit_serialize (ser c)) (limit_deserialize (de c))
    (fun l => match l with LimitValue v => wf c v | Unlimited => True end)
    (fun l => match l with LimitValue v => LimitValue (norm c v) | Unlimited => Unlimited end)
    (fun v => match v with
              | VInt z => (0 <=? z)%Z && panics c v
              | VStr s => negb (str_eqb s $"-1") && panics c v
              | _ => false
              end).

(** service/deploy/resources.rs 517-592. *)
Definition count_c : codec count := mk_codec count_serialize count_deserialize count_ok (fun c => c).

(** [Cpus], service/deploy/resources.rs 212-332: a float with the sign bit clear and the exponent not all ones.
    [CpusVisitor] has no [visit_u64] and no [visit_i64]. *)
Definition POS_INF_BITS : N := 2047 * 2 ^ 52.
Definition cpus_new (bits : N) : result de_error N := if bits <? POS_INF_BITS then Ok bits else Err DeError.
Definition cpus_c (w : externals) : codec N :=
  mk_codec VFloat
    (fun v => match v with
              | VFloat b => cpus_new b
              | VStr s => if is_float_text s then cpus_new (w_float w s) else Err DeError
              | _ => Err DeError
              end)
    (fun b => b < POS_INF_BITS) (fun b => b).

(** [IdOrName], service/user.rs 142-151 (untagged) and 237-277. *)
Definition id_or_name_c : codec id_or_name :=
  mk_codec (fun x => match x with Id n => VInt (Z.of_N n) | UName s => VStr s end)
    (fun v => match v with
              | VInt z => map_ok Id (int_to_uint U32_MAX z)
              | VStr s => map_err (fun _ => DeError) (id_or_name_parse s)
              | _ => Err DeError
              end)
    id_or_name_wf (fun x => x).

(** service/expose.rs 88-103, service/ports.rs 385-403, 837-856. *)
Definition range_wf (r : range) : Prop := r_start r <= U16_MAX /\ match r_end r with Some e => e <= U16_MAX | None => True end.
Definition range_c : codec range :=
  MkCodec range_serialize (fun v => no_panic (range_deserialize v)) range_wf (fun r => r) (fun v => panicked (range_deserialize v)).
Definition expose_wf (e : expose) : Prop :=
  range_wf (ex_range e) /\ match ex_protocol e with Some p => protocol_wf p | None => True end.
Definition expose_c : codec expose :=
  MkCodec expose_serialize (fun v => no_panic (expose_deserialize v)) expose_wf (fun e => e) (fun v => panicked (expose_deserialize v)).
(** The host and container ranges have the same size, see [PropsPorts]. *)
Definition short_port_c (w : externals) : codec short_port :=
  MkCodec (short_port_serialize (w_compat w)) (fun v => no_panic (short_port_deserialize (w_checks w) v)) (sp_valid (w_checks w)) (fun p => p)
    (fun v => panicked (short_port_deserialize (w_checks w) v)).

(** ** Durations *)

(** [duration_option], serde/duration_option.rs 17-68: a string, or an integer number of microseconds. Written as a string,
    which drops what is below a microsecond. *)
Definition whole_micros (d : duration) : duration := mk_duration (secs d) (nanos d / 1000 * 1000).
Definition duration_c : codec duration :=
  MkCodec (fun d => VStr (to_string d))
    (fun v => match v with
              | VInt z => map_ok from_micros (int_to_uint U64_MAX z)
              | VStr s => no_panic (parse s)
              | _ => Err DeError
              end)
    duration_wf whole_micros
    (fun v => match v with VStr s => panicked (parse s) | _ => false end).

(** [duration_us_option], serde/duration_us_option.rs 7-24: an integer number of microseconds. [Duration::as_micros] is a [u128], one
    above [u64::MAX] is written but cannot be read back. *)
Definition as_micros (d : duration) : N := secs d * 1000000 + nanos d / 1000.
Definition duration_us_c : codec duration :=
  mk_codec (fun d => VInt (Z.of_N (as_micros d)))
    (fun v => match v with VInt z => map_ok from_micros (int_to_uint U64_MAX z) | _ => Err DeError end)
    (fun d => duration_wf d /\ as_micros d <= U64_MAX) whole_micros.
