(** Model of /repo/src/service/ports.rs. No proofs in this file.

    [checks] is the build profile: with overflow checks (debug) [u16] arithmetic panics on overflow, without
    (release) it wraps. *)

From Coq Require Import String Ascii List NArith ZArith Bool.
Import ListNotations.
From Verif Require Import Base Num IpModel Serde.
Open Scope N_scope.

(** [u16] [+] and [-]. *)
Definition u16_add (checks : bool) (a b : N) : may_panic N :=
  if a + b <=? U16_MAX then Ret (a + b) else if checks then Panic else Ret ((a + b) mod 65536).
Definition u16_sub (checks : bool) (a b : N) : may_panic N :=
  if b <=? a then Ret (a - b) else if checks then Panic else Ret ((a + 65536 - b) mod 65536).

(** ** Range, ports.rs 617-867 *)

(** [Range], ports.rs 623-629. *)
Record range := mk_range { r_start : N; r_end : option N }.

(** [Range::new], ports.rs 637-646. The error is [RangeError { start, end }]. *)
Definition range_new (start : N) (end_ : option N) : result (N * N) range :=
  match end_ with
  | None => Ok (mk_range start None)
  | Some e => match start ?= e with
              | Lt => Ok (mk_range start (Some e))
              | Eq => Ok (mk_range start None)
              | Gt => Err (start, e)
              end
  end.

(** [Range::size], ports.rs 680-682. *)
Definition range_size (checks : bool) (r : range) : may_panic N :=
  match r_end r with
  | None => Ret 1
  | Some e => d <! u16_sub checks e (r_start r) ;; u16_add checks d 1
  end.

(** [PartialEq<u16> for Range], ports.rs 695-699. *)
Definition range_eq_u16 (r : range) (n : N) : bool :=
  match r_end r with None => r_start r =? n | Some _ => false end.

(** [PartialEq<RangeInclusive<u16>> for Range], ports.rs 701-705. *)
Definition range_eq_inclusive (r : range) (a b : N) : bool :=
  (r_start r =? a) && (match r_end r with Some e => e | None => r_start r end =? b).

(** [From<u16> for Range], ports.rs 707-711. *)
Definition range_of_u16 (n : N) : range := mk_range n None.

(** [Add<u16> for Range], ports.rs 737-748. *)
Definition range_add (checks : bool) (r : range) (n : N) : may_panic range :=
  s <! u16_add checks (r_start r) n ;;
  match r_end r with
  | None => Ret (mk_range s None)
  | Some e => e' <! u16_add checks e n ;; Ret (mk_range s (Some e'))
  end.

(** [Sub<u16> for Range], ports.rs 756-767. *)
Definition range_sub (checks : bool) (r : range) (n : N) : may_panic range :=
  s <! u16_sub checks (r_start r) n ;;
  match r_end r with
  | None => Ret (mk_range s None)
  | Some e => e' <! u16_sub checks e n ;; Ret (mk_range s (Some e'))
  end.

(** [ParseRangeError::Int], ports.rs 810-821 ([ParseRangeError::Range] is never built by the parser). *)
Inductive parse_range_error := RangeInt (e : int_error) (value : str).

(** [parse_range_int], ports.rs 791-796. *)
Definition parse_range_int (s : str) : result parse_range_error N :=
  map_err (fun e => RangeInt e s) (parse_u16 s).

(** [FromStr for Range], ports.rs 775-788. *)
Definition range_parse (s : str) : result parse_range_error range :=
  match split_once (ch "-") s with
  | Some (a, b) => start <- parse_range_int a ;; e <- parse_range_int b ;; Ok (mk_range start (Some e))
  | None => start <- parse_range_int s ;; Ok (mk_range start None)
  end.

(** [Display for Range], ports.rs 823-835. *)
Definition range_show (r : range) : str :=
  show_N (r_start r) ++ match r_end r with Some e => ch "-" :: show_N e | None => [] end.

(** [RangeInclusive<u16>] as the list it iterates over. *)
Definition inclusive (a b : N) : list N := map (fun k => a + N.of_nat k) (seq 0 (N.to_nat (b + 1 - a))).

(** [IntoIterator for Range], ports.rs 857-867. *)
Definition range_iter (r : range) : list N :=
  match r_end r with None => inclusive (r_start r) (r_start r) | Some e => inclusive (r_start r) e end.

(** [Serialize for Range], ports.rs 837-845; [Deserialize], 847-855. *)
Definition range_serialize (r : range) : sval :=
  match r_end r with Some _ => VStr (range_show r) | None => VInt (Z.of_N (r_start r)) end.
Definition range_deserialize (v : sval) : outcome de_error range :=
  from_str_or_u16 range_of_u16 (fun s => lift (range_parse s)) v.

(** ** ShortRanges, ports.rs 405-614 *)

(** [ShortRanges], ports.rs 409-416. *)
Record short_ranges := mk_short_ranges { sr_host : option range; sr_container : range }.

(** [range_size_eq], ports.rs 475-488. The error carries (host_size, container_size). *)
Definition range_size_eq (checks : bool) (host : option range) (container : range) : outcome (N * N) unit :=
  match host with
  | None => OOk tt
  | Some h =>
      match range_size checks h with
      | Panic => OPanic
      | Ret hs => match range_size checks container with
                  | Panic => OPanic
                  | Ret cs => if hs =? cs then OOk tt else OErr (hs, cs)
                  end
      end
  end.

(** [ShortRanges::new], ports.rs 424-428. *)
Definition short_ranges_new (checks : bool) (host : option range) (container : range) : outcome (N * N) short_ranges :=
  _ <~ range_size_eq checks host container ;; OOk (mk_short_ranges host container).

(** [From<Range> for ShortRanges] (derived with [FromShort]). *)
Definition short_ranges_of_range (r : range) : short_ranges := mk_short_ranges None r.

(** [ShortRanges::replace_host], ports.rs 442-445: the new state and the returned old host. *)
Definition replace_host (checks : bool) (x : short_ranges) (host : range)
  : outcome (N * N) (short_ranges * option range) :=
  _ <~ range_size_eq checks (Some host) (sr_container x) ;;
  OOk (mk_short_ranges (Some host) (sr_container x), sr_host x).

(** [ShortRanges::take_host], ports.rs 448-450. *)
Definition take_host (x : short_ranges) : short_ranges * option range :=
  (mk_short_ranges None (sr_container x), sr_host x).

(** [ShortRanges::replace_container], ports.rs 464-467. *)
Definition replace_container (checks : bool) (x : short_ranges) (container : range)
  : outcome (N * N) (short_ranges * range) :=
  _ <~ range_size_eq checks (sr_host x) container ;;
  OOk (mk_short_ranges (sr_host x) container, sr_container x).

(** [ParseShortRangesError], ports.rs 570-580. *)
Inductive parse_short_ranges_error :=
| SRShortRanges (e : N * N)
| SRRange (e : parse_range_error).

(** [FromStr for ShortRanges], ports.rs 511-529. *)
Definition short_ranges_parse (checks : bool) (s : str) : outcome parse_short_ranges_error short_ranges :=
  match split_once (ch ":") s with
  | Some (host, container) =>
      host <~ (match host with
               | [] => OOk None
               | _ => lift (map_err SRRange (map_ok (@Some _) (range_parse host)))
               end) ;;
      container <~ lift (map_err SRRange (range_parse container)) ;;
      (match short_ranges_new checks host container with
       | OOk x => OOk x
       | OErr e => OErr (SRShortRanges e)
       | OPanic => OPanic
       end)
  | None => lift (map_err SRRange (map_ok short_ranges_of_range (range_parse s)))
  end.

(** [Display for ShortRanges], ports.rs 539-551. *)
Definition short_ranges_show (x : short_ranges) : str :=
  match sr_host x with Some h => range_show h ++ $":" | None => [] end ++ range_show (sr_container x).

(** [Serialize for ShortRanges], ports.rs 553-561; [Deserialize], 563-568. *)
Definition short_ranges_serialize (x : short_ranges) : sval :=
  match sr_host x with Some _ => VStr (short_ranges_show x) | None => range_serialize (sr_container x) end.
Definition short_ranges_deserialize (checks : bool) (v : sval) : outcome de_error short_ranges :=
  from_str_or_u16 (fun n => short_ranges_of_range (range_of_u16 n)) (short_ranges_parse checks) v.

(** [ShortRangesIter::next], ports.rs 606-614, run to the end. *)
Fixpoint pair_up (host : option (list N)) (container : list N) : list (option N * N) :=
  match container with
  | [] => []
  | c :: cs => match host with
               | Some (h :: hs) => (Some h, c) :: pair_up (Some hs) cs
               | Some [] => (None, c) :: pair_up (Some []) cs
               | None => (None, c) :: pair_up None cs
               end
  end.

(** [IntoIterator for ShortRanges], ports.rs 582-595. *)
Definition short_ranges_iter (x : short_ranges) : list (option N * N) :=
  pair_up (option_map range_iter (sr_host x)) (range_iter (sr_container x)).

(** ** Protocol, ports.rs 869-960 *)

(** [Protocol], ports.rs 875-885. *)
Inductive protocol := Tcp | Udp | POther (s : str).

(** [Protocol::parse], ports.rs 895-904. *)
Definition protocol_parse (s : str) : protocol :=
  if str_eqb s $"tcp" then Tcp else if str_eqb s $"udp" then Udp else POther s.

(** [Protocol::as_str], ports.rs 926-932 (also [Display]). *)
Definition protocol_show (p : protocol) : str :=
  match p with Tcp => $"tcp" | Udp => $"udp" | POther s => s end.

(** ** ShortPort, ports.rs 225-403 *)

(** [ShortPort], ports.rs 232-239. *)
Record short_port := mk_short_port {
  sp_host_ip : option ip_addr; sp_ranges : short_ranges; sp_protocol : option protocol }.

(** [strip_brackets], /repo/src/service.rs 1087-1091. *)
Definition strip_brackets (s : str) : str :=
  match strip_prefix $"[" s with
  | Some r => match strip_suffix $"]" r with Some q => q | None => s end
  | None => s
  end.

(** [str::rsplit_once] with the stateful closure of ports.rs 303-313: the characters are visited from the
    end; [seen] is [colon_seen]; [acc] is the part already passed. *)
Fixpoint rsplit_second_colon (seen : bool) (rs acc : str) : option (str * str) :=
  match rs with
  | [] => None
  | c :: r =>
      if c =? ch ":" then
        if seen then Some (rev r, acc) else rsplit_second_colon true r (c :: acc)
      else rsplit_second_colon seen r (c :: acc)
  end.

(** [ParseShortPortError], ports.rs 339-354. *)
Inductive parse_short_port_error :=
| SPIpAddr (value : str)
| SPShortRanges (e : parse_short_ranges_error).

(** [FromStr for ShortPort], ports.rs 290-329. *)
Definition short_port_parse (checks : bool) (s : str) : outcome parse_short_port_error short_port :=
  let '(s, protocol) := match split_once (ch "/") s with
                        | Some (s, p) => (s, Some (protocol_parse p))
                        | None => (s, None)
                        end in
  p <~ (match rsplit_second_colon false (rev s) [] with
        | Some (host_ip, rest) =>
            match ip_parse (strip_brackets host_ip) with
            | Some ip => OOk (Some ip, rest)
            | None => OErr (SPIpAddr host_ip)
            end
        | None => OOk (None, s)
        end) ;;
  match short_ranges_parse checks (snd p) with
  | OOk ranges => OOk (mk_short_port (fst p) ranges protocol)
  | OErr e => OErr (SPShortRanges e)
  | OPanic => OPanic
  end.

(** [Display for ShortPort], ports.rs 356-383. [compat]: see [IpModel.show_ipv6]. *)
Definition short_port_show (compat : bool) (p : short_port) : str :=
  match sp_host_ip p with
  | Some ip => ip_show compat ip ++ $":" ++
               match sr_host (sp_ranges p) with None => $":" | Some _ => [] end
  | None => []
  end
  ++ short_ranges_show (sp_ranges p)
  ++ match sp_protocol p with Some pr => $"/" ++ protocol_show pr | None => [] end.

(** [From<u16> for ShortPort], ports.rs 284-288. *)
Definition short_port_of_u16 (n : N) : short_port :=
  mk_short_port None (short_ranges_of_range (range_of_u16 n)) None.

(** [Serialize for ShortPort], ports.rs 385-393; [Deserialize], 395-403. *)
Definition short_port_serialize (compat : bool) (p : short_port) : sval :=
  match sp_host_ip p, sp_protocol p with
  | None, None => short_ranges_serialize (sp_ranges p)
  | _, _ => VStr (short_port_show compat p)
  end.
Definition short_port_deserialize (checks : bool) (v : sval) : outcome de_error short_port :=
  from_str_or_u16 short_port_of_u16 (short_port_parse checks) v.

(** ** Port, ports.rs 52-223 *)

(** [Mode], ports.rs 189-199. *)
Inductive mode := Host | Ingress.

(** [Port], ports.rs 56-89; [Extensions] are key/value pairs in insertion order. *)
Record port := mk_port {
  p_name : option str; p_target : N; p_published : option range; p_host_ip : option ip_addr;
  p_protocol : option protocol; p_app_protocol : option str; p_mode : option mode;
  p_extensions : list (str * sval) }.

(** [Port::new], ports.rs 142-153. *)
Definition port_new (target : N) : port := mk_port None target None None None None None [].

(** [Port::into_short], ports.rs 161-179: [Err] hands the port back. *)
Definition port_into_short (p : port) : result port short_port :=
  match p_name p, p_app_protocol p, p_mode p, p_extensions p with
  | None, None, None, [] =>
      if match p_published p with
         | None => true
         | Some r => match r_end r with None => true | Some _ => false end
         end
      then Ok (mk_short_port (p_host_ip p) (mk_short_ranges (p_published p) (range_of_u16 (p_target p))) (p_protocol p))
      else Err p
  | _, _, _, _ => Err p
  end.

(** [ShortPort::into_long_iter], ports.rs 256-269. *)
Definition short_port_into_long (p : short_port) : list port :=
  map (fun hc : option N * N =>
         mk_port None (snd hc) (option_map range_of_u16 (fst hc)) (sp_host_ip p) (sp_protocol p) None None [])
      (short_ranges_iter (sp_ranges p)).

(** [into_short_iter] and [into_long_iter], ports.rs 34-50. *)
Definition ports_into_short (l : list (short_port + port)) : list (result port short_port) :=
  map (fun x => match x with inl s => Ok s | inr p => port_into_short p end) l.
Definition ports_into_long (l : list (short_port + port)) : list port :=
  flat_map (fun x => match x with inl s => short_port_into_long s | inr p => [p] end) l.
