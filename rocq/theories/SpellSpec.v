(** Different ways to write the same thing in a compose file. *)

From Coq Require Import String Ascii List NArith ZArith Bool Sorted.
Import ListNotations.
From Verif Require Import Base Regex KeysSpec IpModel NumSpec IpSpec DurationSpec PortsModel PortsSpec Serde PanicSpec ChangeSpec.
Open Scope N_scope.

(** Two values have the same meaning. *)
Definition alike {X : Type} (means : sval -> X -> Prop) : relation := fun v v' => exists x, means v x /\ means v' x.

(** ** Meanings *)

(** A whole number, or text of one; a text may have zeros in front. *)
Definition u16 : N := 65535.
Definition u32 : N := 4294967295.
Definition u64 : N := 18446744073709551615.
Definition number_or_text (max : N) (v : sval) (n : N) : Prop := (v = VInt (Z.of_N n) /\ n <= max) \/ exists s, v = VStr s /\ uint_text max s n.
(** Only text. *)
Definition text_of {X : Type} (writes : str -> X -> Prop) (v : sval) (x : X) : Prop := exists s, v = VStr s /\ writes s x.

(** A time in nanoseconds: microseconds, or text with units. *)
Definition time (v : sval) (ns : N) : Prop :=
  (exists us, v = VInt (Z.of_N us) /\ us <= u64 /\ ns = us * 1000) \/
  (exists ts, v = VStr (terms_text ts) /\ ts <> [] /\ Forall term_ok ts /\ ns = terms_nanos ts /\ ns <= max_nanos).

(** A number of bytes, kilobytes, ... *)
Inductive size_unit := B | KB | MB | GB.
Definition suffixes (u : size_unit) : list str :=
  match u with B => [[]; $"b"; $"B"] | KB => [$"k"; $"K"; $"kb"] | MB => [$"m"; $"M"; $"mb"] | GB => [$"g"; $"G"; $"gb"] end.
Definition size (v : sval) (x : N * size_unit) : Prop :=
  (v = VInt (Z.of_N (fst x)) /\ fst x <= u64 /\ snd x = B) \/
  exists s t, v = VStr (s ++ t) /\ uint_text u64 s (fst x) /\ In t (suffixes (snd x)).

(** A limit, or -1. *)
Definition or_unlimited {X : Type} (means : sval -> X -> Prop) (v : sval) (x : option X) : Prop :=
  match x with None => v = VInt (-1) \/ v = VStr $"-1" | Some x => means v x end.
Definition only_number (max : N) (v : sval) (n : N) : Prop := v = VInt (Z.of_N n) /\ n <= max.

(** Ports. *)
Definition ports_range (v : sval) (r : range) : Prop :=
  (exists n, v = VInt (Z.of_N n) /\ n <= u16 /\ r = mk_range n None) \/ text_of range_text v r.
Definition exposed (v : sval) (x : range * option protocol) : Prop :=
  (snd x = None /\ ports_range v (fst x)) \/
  exists s t p, v = VStr (s ++ $"/" ++ t) /\ range_text s (fst x) /\ snd x = Some p /\ protocol_is t p.
Definition short_port_value (v : sval) (p : short_port) : Prop :=
  (exists n, v = VInt (Z.of_N n) /\ n <= u16 /\ p = mk_short_port None (mk_short_ranges None (mk_range n None)) None) \/ text_of (short_port_text true) v p.

(** A set of CPUs: numbers and pairs of numbers, separated by commas, with or without a comma at the end. *)
Inductive cpu_item : str -> (N -> Prop) -> Prop :=
| cpu_one s n : uint_text u64 s n -> cpu_item s (eq n)
| cpu_pair s t a b : uint_text u64 s a -> uint_text u64 t b -> cpu_item (s ++ $"-" ++ t) (fun n => a <= n <= b).
Inductive cpus_text : str -> (N -> Prop) -> Prop :=
| cpus_none : cpus_text [] (fun _ => False)
| cpus_last s A : cpu_item s A -> cpus_text s A
| cpus_more s t A B : cpu_item s A -> cpus_text t B -> cpus_text (s ++ $"," ++ t) (fun n => A n \/ B n).
Definition same_cpus : relation := fun v v' =>
  exists s s' A A', v = VStr s /\ v' = VStr s' /\ cpus_text s A /\ cpus_text s' A' /\ forall n, A n <-> A' n.

(** Hosts with their addresses: [host=address] or [host:address], the address perhaps in brackets, or a map. *)
Definition address_text (t : str) (ip : ip_addr) : Prop := exists a, (t = a \/ t = $"[" ++ a ++ $"]") /\ ip_text a ip.
Inductive host_item_text : sval -> str * ip_addr -> Prop :=
| host_item h d t ip : matches HOSTNAME_RE h -> d = $"=" \/ d = $":" -> address_text t ip -> host_item_text (VStr (h ++ d ++ t)) (h, ip).
Inductive host_entry_text : sval * sval -> str * ip_addr -> Prop :=
| host_entry h t ip : matches HOSTNAME_RE h -> address_text t ip -> host_entry_text (VStr h, VStr t) (h, ip).
Definition hosts (v : sval) (x : list (str * ip_addr)) : Prop :=
  NoDup (map fst x) /\ ((exists l, v = VSeq l /\ Forall2 host_item_text l x) \/ (exists l, v = VMap l /\ Forall2 host_entry_text l x)).

(** A command line for a shell. *)
Definition shell_test (v : sval) (s : str) : Prop := v = VStr s \/ v = VSeq [VStr $"CMD-SHELL"; VStr s].
Definition no_healthcheck (v : sval) (_ : unit) : Prop := v = VMap [(VStr $"disable", VBool true)] \/ v = VMap [none_test].
Definition pull_if_missing (v : sval) (_ : unit) : Prop := v = VStr $"missing" \/ v = VStr $"if_not_present".

(** ** Where they may stand *)

Definition build (p : list step) : list step := service (Key $"build" :: p).
Definition of_ulimit (p : list step -> list step) : list (list step) :=
  [p [Key $"ulimits"; AnyKey]; p [Key $"ulimits"; AnyKey; Key $"soft"]; p [Key $"ulimits"; AnyKey; Key $"hard"]].
Definition resources (p : list step) : list step := deploy (Key $"resources" :: p).
Definition at_each (ps : list (list step)) (R : relation) : list (list step * relation) := map (fun p => (p, R)) ps.
Definition spellings : list (list step * relation) :=
  at_each (map in_service durations) (alike time) ++
  at_each [service [Key $"ports"; AnyItem]] (alike short_port_value) ++
  at_each [service [Key $"ports"; AnyItem; Key $"published"]] (alike ports_range) ++
  at_each [service [Key $"expose"; AnyItem]] (alike exposed) ++
  at_each [service [Key $"group_add"; AnyItem]] (alike (number_or_text u32)) ++
  at_each [resources [Key $"reservations"; Key $"devices"; AnyItem; Key $"count"]] (alike (number_or_text u64)) ++
  at_each [service [Key $"configs"; AnyItem; Key $"uid"]; service [Key $"configs"; AnyItem; Key $"gid"];
           service [Key $"secrets"; AnyItem; Key $"uid"]; service [Key $"secrets"; AnyItem; Key $"gid"];
           build [Key $"secrets"; AnyItem; Key $"uid"]; build [Key $"secrets"; AnyItem; Key $"gid"]] (alike (text_of (uint_text u32))) ++
  at_each [service [Key $"mem_limit"]; service [Key $"mem_reservation"]; service [Key $"shm_size"]; build [Key $"shm_size"];
           resources [Key $"limits"; Key $"memory"]; resources [Key $"reservations"; Key $"memory"];
           service [Key $"blkio_config"; Key $"device_read_bps"; AnyItem; Key $"rate"]; service [Key $"blkio_config"; Key $"device_write_bps"; AnyItem; Key $"rate"];
           service [Key $"volumes"; AnyItem; Key $"tmpfs"; Key $"size"]] (alike size) ++
  at_each [service [Key $"memswap_limit"]] (alike (or_unlimited size)) ++
  at_each [service [Key $"pids_limit"]; resources [Key $"limits"; Key $"pids"]] (alike (or_unlimited (only_number u32))) ++
  at_each (of_ulimit service ++ of_ulimit build) (alike (or_unlimited (only_number u64))) ++
  at_each [service [Key $"networks"; AnyKey; Key $"ipv4_address"]; service [Key $"networks"; AnyKey; Key $"ipv6_address"];
           service [Key $"networks"; AnyKey; Key $"link_local_ips"; AnyItem];
           service [Key $"dns"]; service [Key $"dns"; AnyItem]; service [Key $"ports"; AnyItem; Key $"host_ip"];
           [Key $"networks"; AnyKey; Key $"ipam"; Key $"config"; AnyItem; Key $"gateway"];
           [Key $"networks"; AnyKey; Key $"ipam"; Key $"config"; AnyItem; Key $"aux_addresses"; AnyKey]] (alike (text_of ip_text)) ++
  at_each [service [Key $"cpuset"]] same_cpus ++
  at_each [service [Key $"extra_hosts"]; build [Key $"extra_hosts"]] (alike hosts) ++
  at_each [service [Key $"healthcheck"; Key $"test"]] (alike shell_test) ++
  at_each [service [Key $"healthcheck"]] (alike no_healthcheck) ++
  at_each [service [Key $"pull_policy"]] (alike pull_if_missing).
Definition respells : relation := fun v v' => exists p R, In (p, R) spellings /\ changed p R v v'.
(** Any number of changes, of this kind and of those of [ChangeSpec]. *)
Inductive same_meaning (unique : sval -> Prop) : relation :=
| meaning_file : forall v v', same_file unique v v' -> same_meaning unique v v'
| meaning_spelling : forall v v', unique v -> respells v v' -> same_meaning unique v v'
| meaning_sym : forall v v', same_meaning unique v v' -> same_meaning unique v' v
| meaning_trans : forall v v' v'', same_meaning unique v v' -> same_meaning unique v' v'' -> same_meaning unique v v''.
