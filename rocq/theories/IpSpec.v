(** The texts of IP addresses: RFC 6943 dotted decimal without leading zeros, and RFC 4291 section 2.2. *)

From Coq Require Import String Ascii List NArith Bool.
Import ListNotations.
From Verif Require Import Base Regex NumSpec IpModel.
Open Scope N_scope.

(** One of the four numbers of an IPv4 address. *)
Definition octet_text (s : str) (n : N) : Prop :=
  s <> [] /\ Forall (in_cls [DIGIT]) s /\ (forall r, s = $"0" ++ r -> r = []) /\ n = number_in 10 (fun c => c - 48) s /\ n <= 255.
Definition ipv4_text (s : str) (q : N * N * N * N) : Prop :=
  let '(a, b, c, d) := q in exists p1 p2 p3 p4,
  s = p1 ++ $"." ++ p2 ++ $"." ++ p3 ++ $"." ++ p4 /\ octet_text p1 a /\ octet_text p2 b /\ octet_text p3 c /\ octet_text p4 d.

(** One of the eight numbers of an IPv6 address. *)
Definition group_text (s : str) (n : N) : Prop := (1 <= List.length s <= 4)%nat /\ Forall (in_cls HEX) s /\ n = number_in 16 hex_digit s.
(** Numbers separated by colons; the last two may be written as an IPv4 address ([dotted]). *)
Inductive groups_text : str -> list N -> bool -> Prop :=
| gt_one s n : group_text s n -> groups_text s [n] false
| gt_dotted s a b c d : ipv4_text s (a, b, c, d) -> groups_text s [a * 256 + b; c * 256 + d] true
| gt_cons s n t l dotted : group_text s n -> groups_text t l dotted -> groups_text (s ++ $":" ++ t) (n :: l) dotted.
(** Possibly none. *)
Definition some_groups (s : str) (l : list N) (dotted : bool) : Prop := (s = [] /\ l = [] /\ dotted = false) \/ groups_text s l dotted.
(** Eight numbers, or fewer with [::] in place of the zeros left out (at least one). *)
Definition ipv6_text (s : str) (l : list N) : Prop :=
  ((exists dotted, groups_text s l dotted) /\ List.length l = 8%nat) \/
  exists h t hs ts dotted, s = h ++ $"::" ++ t /\ some_groups h hs false /\ some_groups t ts dotted /\
    (List.length hs + List.length ts <= 7)%nat /\ l = hs ++ repeat 0 (8 - List.length hs - List.length ts) ++ ts.

Definition ip_text (s : str) (ip : ip_addr) : Prop :=
  match ip with V4 a b c d => ipv4_text s (a, b, c, d) | V6 l => ipv6_text s l end.
