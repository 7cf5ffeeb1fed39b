(** The texts of port ranges and of the short form of a port. *)

From Coq Require Import String Ascii List NArith ZArith Bool.
Import ListNotations.
From Verif Require Import Base Regex NumSpec IpModel IpSpec PortsModel.
Open Scope N_scope.

(** A port, or the first and the last one. The order is not checked. *)
Definition range_text (s : str) (r : range) : Prop :=
  match r_end r with
  | None => uint_text 65535 s (r_start r)
  | Some e => exists a b, s = a ++ $"-" ++ b /\ uint_text 65535 a (r_start r) /\ uint_text 65535 b e
  end.

(** How many ports there are between the two ends. *)
Definition width (r : range) : Z := match r_end r with None => 1 | Some e => Z.of_N e - Z.of_N (r_start r) + 1 end.
(** The comparison of the sizes: exact, or modulo 2{^16} without overflow checks. *)
Definition sizes_agree (checks : bool) (h c : range) : Prop :=
  if checks then (width h = width c /\ 1 <= width c <= 65535)%Z else (width h mod 65536 = width c mod 65536)%Z.

(** [[host:]container]; the host may be empty. *)
Definition ranges_text (checks : bool) (s : str) (x : short_ranges) : Prop :=
  match sr_host x with
  | None => exists c, (s = c \/ s = $":" ++ c) /\ range_text c (sr_container x)
  | Some h => exists a c, s = a ++ $":" ++ c /\ range_text a h /\ range_text c (sr_container x) /\ sizes_agree checks h (sr_container x)
  end.

(** [[[address:][host]:]container[/protocol]]: an address may be in brackets and is followed by two colons if there is
    no host port. *)
Definition protocol_is (s : str) (p : protocol) : Prop :=
  match p with Tcp => s = $"tcp" | Udp => s = $"udp" | POther t => s = t /\ t <> $"tcp" /\ t <> $"udp" end.
Definition short_port_text (checks : bool) (s : str) (p : short_port) : Prop :=
  exists address ports protocol, s = address ++ ports ++ protocol /\
    ranges_text checks ports (sp_ranges p) /\
    match sp_host_ip p with
    | None => address = []
    | Some ip => (exists t, (address = t ++ $":" \/ address = $"[" ++ t ++ $"]:") /\ ip_text t ip) /\ In (ch ":") ports
    end /\
    match sp_protocol p with None => protocol = [] | Some x => exists t, protocol = $"/" ++ t /\ protocol_is t x end.
