(** The conversions into [String] and [Cow<'static, str>], which avoid a copy where they can and so do not all go through [Display].
    [Cow::Borrowed], [Cow::Owned], [to_owned] and [into] are the text itself. Conversions which only unwrap a string (keys, names, images)
    are left out. No proofs in this file. *)

From Coq Require Import String Ascii List NArith ZArith Bool.
Import ListNotations.
From Verif Require Import Base Num UserModel NetModel PortsModel TextModel ValuesModel Serde Codec ScalarCodec CommonCodec ServiceParts.
Open Scope N_scope.

(** [From<Driver> for Cow], network.rs 206-214, and for [String], 216-220. *)
Definition driver_cow (d : driver) : str := match d with DrvHost => $"host" | DrvNone => $"none" | DrvOther s => s end.
Definition driver_string (d : driver) : str := driver_cow d.
(** [From<NetworkMode> for String], service/network_config.rs 346-354, and for [Cow], 356-364. *)
Definition network_mode_string (m : network_mode) : str := match m with NmOther s => s | _ => network_mode_show m end.
Definition network_mode_cow (m : network_mode) : str := match m with NmNone => $"none" | NmHost => $"host" | _ => network_mode_show m end.
(** [From<EndpointMode> for String], service/deploy/endpoint_mode.rs 97-104, and for [Cow], 106-114. *)
Definition endpoint_mode_string (m : endpoint_mode) : str := match m with VIp | DnsRR => endpoint_mode_show m | EmOther s => s end.
Definition endpoint_mode_cow (m : endpoint_mode) : str := match m with VIp => $"vip" | DnsRR => $"dnsrr" | EmOther s => s end.
(** [From<Capability> for String], service/deploy/resources.rs 494-501, and for [Cow], 503-511. *)
Definition capability_string (c : capability) : str := match c with Gpu | Tpu => capability_show c | CapOther s => s end.
Definition capability_cow (c : capability) : str := match c with Gpu => $"gpu" | Tpu => $"tpu" | CapOther s => s end.
(** [From<Protocol> for String], service/ports.rs 949-956, and for [Cow], 958-966. *)
Definition protocol_string (p : protocol) : str := match p with Tcp | Udp => protocol_show p | POther s => s end.
Definition protocol_cow (p : protocol) : str := match p with Tcp => $"tcp" | Udp => $"udp" | POther s => s end.
(** [From<Network> for Cow], service/build/network.rs 92-99, and for [String], 101-105. *)
Definition build_network_cow (n : build_network) : str := match n with BnIdentifier s => s | BnNone => $"none" end.
Definition build_network_string (n : build_network) : str := build_network_cow n.
(** [From<Link> for String], service.rs 1045-1054. *)
Definition link_string (l : link) : str := match l_alias l with None => l_service l | Some _ => link_show l end.
(** [From<Ipc> for String], service.rs 1201-1209, and for [Cow], 1211-1219; [Ipc::is_shareable], 1139-1141. *)
Definition ipc_string (i : ipc) : str := match i with IpcOther s => s | _ => ipc_show i end.
Definition is_shareable (i : ipc) : bool := match i with IpcShareable => true | _ => false end.
Definition ipc_cow (i : ipc) : str := if is_shareable i then $"shareable" else ipc_show i.
(** [From<VolumesFromSource> for String], service.rs 1557-1564, and [From<VolumesFrom> for String], 1500-1508. *)
Definition volumes_from_source_string (s : volumes_from_source) : str := match s with FromService i => i | FromContainer _ => volumes_from_source_show s end.
Definition volumes_from_string (v : volumes_from) : str := if vf_read_only v then volumes_from_show v else volumes_from_source_string (vf_source v).
(** [From<IdOrName> for String], service/user.rs 228-235, and [From<User> for String], 132-140. *)
Definition id_or_name_string (x : id_or_name) : str := match x with Id n => show_N n | UName s => s end.
Definition user_string (u : user) : str := match user_group u with Some _ => user_show u | None => id_or_name_string (user_user u) end.
(** [From<Value> for String], common.rs 442-450, and [From<StringOrNumber> for String], 872-879. *)
Definition value_string (w : externals) (v : value) : str := match v with VString s => s | _ => value_show (w_float_show w) v end.
Definition string_or_number_string (w : externals) (v : string_or_number) : str := match v with SString s => s | SNumber n => number_show (w_float_show w) n end.
(** [Context::into_string], service/build/context.rs 128-135, for a path which is Unicode. *)
Definition context_string (c : context) : str := match c with CtxPath p => p | CtxUrl u => u end.
(** [Display for Number], common.rs 665-673. *)
Definition number_string (w : externals) (n : number) : str := number_show (w_float_show w) n.

(** Every conversion with the type which it converts. *)
Record conversion := converts { c_type : Set; c_codec : codec c_type; c_into : c_type -> str }.
Arguments converts {c_type} _ _.
Definition conversions (w : externals) : list conversion :=
  [ converts driver_c driver_cow; converts driver_c driver_string; converts network_mode_c network_mode_string; converts network_mode_c network_mode_cow;
    converts endpoint_mode_c endpoint_mode_string; converts endpoint_mode_c endpoint_mode_cow; converts capability_c capability_string;
    converts capability_c capability_cow; converts protocol_c protocol_string; converts protocol_c protocol_cow; converts build_network_c build_network_cow;
    converts build_network_c build_network_string; converts link_c link_string; converts ipc_c ipc_string; converts ipc_c ipc_cow;
    converts volumes_from_c volumes_from_string; converts id_or_name_c id_or_name_string; converts user_c user_string; converts value_c (value_string w);
    converts string_or_number_c (string_or_number_string w); converts (context_c w) context_string; converts number_c (number_string w) ].
