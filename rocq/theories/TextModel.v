(** The small service types which are written as one string or one bounded integer: links, IPC modes,
    volumes_from, the open enumerations, the range checked integers and device counts.
    No proofs in this file. *)

From Coq Require Import String Ascii List NArith ZArith Bool.
Import ListNotations.
From Verif Require Import Base Num KeysModel Serde.
Open Scope N_scope.

(** [Link], service.rs 986-992. *)
Record link := mk_link { l_service : str; l_alias : option str }.

(** [Link::parse], service.rs 1000-1015. [String::parse] of an [Identifier] is [Identifier::new]. *)
Definition link_parse (s : str) : result key_error link :=
  match split_once (ch ":") s with
  | Some (service, alias) => map_ok (fun i => mk_link i (Some alias)) (identifier_new service)
  | None => map_ok (fun i => mk_link i None) (identifier_new s)
  end.

(** [Display for Link], service.rs 1029-1043; also [From<Link> for String], 1045-1054. *)
Definition link_show (l : link) : str :=
  l_service l ++ match l_alias l with Some a => $":" ++ a | None => [] end.

(** [Ipc], service.rs 1099-1107. *)
Inductive ipc := IpcShareable | IpcService (service : str) | IpcOther (s : str).

(** [Ipc::parse], service.rs 1122-1133. *)
Definition ipc_parse (s : str) : result key_error ipc :=
  if str_eqb s ($"shareable") then Ok IpcShareable
  else match strip_prefix ($"service:") s with
       | Some service => map_ok IpcService (identifier_new service)
       | None => Ok (IpcOther s)
       end.

(** [Display for Ipc], service.rs 1187-1195. *)
Definition ipc_show (i : ipc) : str :=
  match i with
  | IpcShareable => $"shareable"
  | IpcService service => $"service:" ++ service
  | IpcOther s => s
  end.

(** [VolumesFromSource], service.rs 1516-1524. *)
Inductive volumes_from_source := FromService (s : str) | FromContainer (s : str).

(** [VolumesFrom], service.rs 1433-1439. *)
Record volumes_from := mk_volumes_from { vf_source : volumes_from_source; vf_read_only : bool }.

(** [VolumesFromSource::parse], service.rs 1527-1545. *)
Definition volumes_from_source_parse (s : str) : result key_error volumes_from_source :=
  match strip_prefix ($"container:") s with
  | Some c => map_ok FromContainer (identifier_new c)
  | None => map_ok FromService (identifier_new s)
  end.

(** [VolumesFrom::parse], service.rs 1447-1472. *)
Definition volumes_from_parse (s : str) : result key_error volumes_from :=
  match strip_suffix ($":ro") s with
  | Some source => map_ok (fun v => mk_volumes_from v true) (volumes_from_source_parse source)
  | None =>
      match strip_suffix ($":rw") s with
      | Some source => map_ok (fun v => mk_volumes_from v false) (volumes_from_source_parse source)
      | None => map_ok (fun v => mk_volumes_from v false) (volumes_from_source_parse s)
      end
  end.

(** [Display for VolumesFromSource], service.rs 1550-1557. *)
Definition volumes_from_source_show (v : volumes_from_source) : str :=
  match v with FromService s => s | FromContainer s => $"container:" ++ s end.

(** [Display for VolumesFrom], service.rs 1477-1490. *)
Definition volumes_from_show (v : volumes_from) : str :=
  volumes_from_source_show (vf_source v) ++ (if vf_read_only v then $":ro" else []).

(** [network::Driver], network.rs 153-160; [Driver::parse], 170-179; [Driver::as_str], 183-189. *)
Inductive driver := DrvHost | DrvNone | DrvOther (s : str).
Definition driver_parse (s : str) : driver :=
  if str_eqb s ($"host") then DrvHost else if str_eqb s ($"none") then DrvNone else DrvOther s.
Definition driver_show (d : driver) : str :=
  match d with DrvHost => $"host" | DrvNone => $"none" | DrvOther s => s end.

(** [EndpointMode], deploy/endpoint_mode.rs 18-33; [parse], 43-52; [as_str], 74-80. *)
Inductive endpoint_mode := VIp | DnsRR | EmOther (s : str).
Definition endpoint_mode_parse (s : str) : endpoint_mode :=
  if str_eqb s ($"vip") then VIp else if str_eqb s ($"dnsrr") then DnsRR else EmOther s.
Definition endpoint_mode_show (m : endpoint_mode) : str :=
  match m with VIp => $"vip" | DnsRR => $"dnsrr" | EmOther s => s end.

(** [Capability], deploy/resources.rs 420-430; [parse], 440-449; [as_str], 471-478. *)
Inductive capability := Gpu | Tpu | CapOther (s : str).
Definition capability_parse (s : str) : capability :=
  if str_eqb s ($"gpu") then Gpu else if str_eqb s ($"tpu") then Tpu else CapOther s.
Definition capability_show (c : capability) : str :=
  match c with Gpu => $"gpu" | Tpu => $"tpu" | CapOther s => s end.

(** [build::Network], build/network.rs 14-22; [parse], 35-44; [as_str], 50-55. *)
Inductive build_network := BnIdentifier (s : str) | BnNone.
Definition build_network_parse (s : str) : result key_error build_network :=
  if str_eqb s ($"none") then Ok BnNone else map_ok BnIdentifier (identifier_new s).
Definition build_network_show (n : build_network) : str :=
  match n with BnIdentifier s => s | BnNone => $"none" end.

(** [Count], deploy/resources.rs 517-524; [FromStr], 546-556; [Serialize], 558-565; [CountVisitor],
    573-592. *)
Inductive count := CountAll | CountInteger (n : N).
Definition count_parse (s : str) : result int_error count :=
  if str_eqb s ($"all") then Ok CountAll else map_ok CountInteger (parse_u64 s).
Definition count_serialize (c : count) : sval :=
  match c with CountAll => VStr ($"all") | CountInteger n => VInt (Z.of_N n) end.
Definition count_deserialize (v : sval) : result de_error count :=
  match v with
  | VInt z => map_ok CountInteger (int_to_uint U64_MAX z)
  | VStr s => map_err (fun _ => DeError) (count_parse s)
  | _ => Err DeError
  end.

(** [RangeError], service.rs 770-779. *)
Record range_error := mk_range_error { re_value : Z; re_start : Z; re_end : Z }.

(** [Percent::new], service.rs 751-760, of a [u8]. The inner value is kept as a number. *)
Definition percent_new (n : N) : result range_error N :=
  if (n <=? 100) then Ok n else Err (mk_range_error (Z.of_N n) 0 100).

(** [OomScoreAdj::new], service.rs 1304-1313, of an [i16]. *)
Definition oom_score_adj_new (z : Z) : result range_error Z :=
  if ((-1000 <=? z) && (z <=? 1000))%Z then Ok z else Err (mk_range_error z (-1000) 1000).

(** [WeightRangeError], blkio_config.rs 156-167: its source is the failed conversion to [NonZeroU16]. *)
Inductive weight_error := WeightZero | WeightRange.

(** [Weight::new], blkio_config.rs 138-148, of a [u16]: [NonZeroU16::try_from] fails on 0, then
    [10..=1000] is checked. *)
Definition weight_new (n : N) : result weight_error N :=
  if n =? 0 then Err WeightZero
  else if (10 <=? n) && (n <=? 1000) then Ok n
  else Err WeightRange.

(** A signed integer visitor: [i16::deserialize]. *)
Definition int_in (lo hi : Z) (z : Z) : result de_error Z :=
  if (lo <=? z)%Z && (z <=? hi)%Z then Ok z else Err DeError.

(** [#[serde(into, try_from)]] of the three types. *)
Definition percent_serialize (n : N) : sval := VInt (Z.of_N n).
Definition percent_deserialize (v : sval) : result de_error N :=
  match v with
  | VInt z => n <- int_to_uint U8_MAX z ;; map_err (fun _ => DeError) (percent_new n)
  | _ => Err DeError
  end.
Definition oom_score_adj_serialize (z : Z) : sval := VInt z.
Definition oom_score_adj_deserialize (v : sval) : result de_error Z :=
  match v with
  | VInt z => n <- int_in (-32768) 32767 z ;; map_err (fun _ => DeError) (oom_score_adj_new n)
  | _ => Err DeError
  end.
Definition weight_serialize (n : N) : sval := VInt (Z.of_N n).
Definition weight_deserialize (v : sval) : result de_error N :=
  match v with
  | VInt z => n <- int_to_uint U16_MAX z ;; map_err (fun _ => DeError) (weight_new n)
  | _ => Err DeError
  end.
