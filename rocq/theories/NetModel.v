(** Model of [MacAddress] and [NetworkMode], [src/service/network_config.rs], and of
    [src/service/expose.rs]. No proofs in this file. *)

From Coq Require Import String Ascii List NArith ZArith Bool.
Import ListNotations.
From Verif Require Import Base Num Serde KeysModel PortsModel.
Open Scope N_scope.

(** [ParseMacAddressError], network_config.rs 532-548. *)
Inductive mac_error :=
| MacLength
| MacInt (e : int_error) (value : str).

(** [parse_next_hex], network_config.rs 523-529, with the rest of the iterator. *)
Definition parse_next_hex (l : list str) : result mac_error (N * list str) :=
  match l with
  | [] => Err MacLength
  | v :: r => n <- map_err (fun e => MacInt e v) (parse_uint_radix 16 U8_MAX v) ;; Ok (n, r)
  end.

(** [FromStr for MacAddress], network_config.rs 495-516. The address is the list of its bytes. *)
Definition mac_parse (s : str) : result mac_error (list N) :=
  a <- parse_next_hex (split (ch ":") s) ;;
  b <- parse_next_hex (snd a) ;;
  c <- parse_next_hex (snd b) ;;
  d <- parse_next_hex (snd c) ;;
  e <- parse_next_hex (snd d) ;;
  f <- parse_next_hex (snd e) ;;
  match snd f with
  | [] => Ok [fst a; fst b; fst c; fst d; fst e; fst f]
  | _ => Err MacLength
  end.

(** [{:x}] and [{:02x}] of a [u8]. *)
Definition hex (n : N) : str := map digit_char (digits 16 n).
Definition hex02 (n : N) : str := match hex n with [d] => [ch "0"; d] | s => s end.

(** [Display for MacAddress], network_config.rs 557-571: the first byte is not padded. *)
Definition mac_show (m : list N) : str :=
  match m with
  | [] => []
  | b :: r => hex b ++ flat_map (fun x => ch ":" :: hex02 x) r
  end.

(** [SerializeDisplay], [DeserializeFromStr], network_config.rs 472. *)
Definition mac_serialize (m : list N) : sval := VStr (mac_show m).
Definition mac_deserialize (v : sval) : result de_error (list N) := from_string mac_parse v.

(** [NetworkMode], network_config.rs 195-211. *)
Inductive network_mode :=
| NmNone
| NmHost
| NmService (id : str)
| NmContainer (id : str)
| NmOther (s : str).

(** [NetworkMode::parse], network_config.rs 231-248. *)
Definition network_mode_parse (s : str) : result key_error network_mode :=
  if str_eqb s $"none" then Ok NmNone
  else if str_eqb s $"host" then Ok NmHost
  else match strip_prefix $"service:" s with
  | Some service => map_ok NmService (identifier_new service)
  | None =>
      match strip_prefix $"container:" s with
      | Some container => map_ok NmContainer (identifier_new container)
      | None => Ok (NmOther s)
      end
  end.

(** [Display for NetworkMode], network_config.rs 334-344, also [From<NetworkMode> for String], 346-354, and for
    [Cow], 356-364. *)
Definition network_mode_show (m : network_mode) : str :=
  match m with
  | NmNone => $"none"
  | NmHost => $"host"
  | NmService id => $"service:" ++ id
  | NmContainer id => $"container:" ++ id
  | NmOther s => s
  end.

(** [Expose], expose.rs 20-27. *)
Record expose := mk_expose { ex_range : range; ex_protocol : option protocol }.

(** [FromStr for Expose], expose.rs 47-62. *)
Definition expose_parse (s : str) : result parse_range_error expose :=
  let '(r, p) := match split_once (ch "/") s with
                 | Some (r, p) => (r, Some (protocol_parse p))
                 | None => (s, None)
                 end in
  r' <- range_parse r ;; Ok (mk_expose r' p).

(** [Display for Expose], expose.rs 72-86. *)
Definition expose_show (e : expose) : str :=
  range_show (ex_range e) ++ match ex_protocol e with Some p => ch "/" :: protocol_show p | None => [] end.

(** [From<u16> for Expose], expose.rs 29-36. *)
Definition expose_of_u16 (n : N) : expose := mk_expose (range_of_u16 n) None.

(** [Serialize for Expose], expose.rs 88-96. *)
Definition expose_serialize (e : expose) : sval :=
  match r_end (ex_range e), ex_protocol e with
  | None, None => VInt (Z.of_N (r_start (ex_range e)))
  | _, _ => VStr (expose_show e)
  end.

(** [Deserialize for Expose], expose.rs 98-103. *)
Definition expose_deserialize (v : sval) : outcome de_error expose :=
  from_str_or_u16 expose_of_u16 (fun s => lift (expose_parse s)) v.
