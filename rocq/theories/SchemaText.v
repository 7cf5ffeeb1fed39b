(** The texts of the scalar types: what may stand in a compose file, described without parsers. *)

From Coq Require Import String Ascii List NArith ZArith Bool.
Import ListNotations.
From Verif Require Import Base Regex KeysModel KeysSpec NumSpec IpModel IpSpec PortsModel PortsSpec ImageSpec PlatformModel PlatformSpec ValuesSpec DurationSpec Serde Schema.
Open Scope N_scope.

(** ** Keys and names *)

Definition IDENTIFIER (s : str) : Prop := matches IDENTIFIER_RE s.
Definition PROJECT_NAME (s : str) : Prop := matches NAME_RE s.
Definition MAP_KEY (s : str) : Prop := s <> [] /\ ~ In 10 s.
Definition HOSTNAME (s : str) : Prop := matches HOSTNAME_RE s.
Definition ULIMIT (s : str) : Prop := matches ULIMIT_RE s.

(** ** Numbers *)

Definition UINT (max : N) (s : str) : Prop := exists n, uint_text max s n.
(** A hexadecimal number, also after a plus sign. *)
Definition HEX_UINT (max : N) (s : str) : Prop :=
  exists ds, (s = ds \/ s = $"+" ++ ds) /\ ds <> [] /\ Forall (in_cls HEX) ds /\ number_in 16 hex_digit ds <= max.

(** ** Paths *)

Definition ABSOLUTE_PATH (s : str) : Prop := exists r, s = $"/" ++ r.
Definition HOST_PATH (s : str) : Prop := s = $"." \/ s = $".." \/ exists r, s = $"/" ++ r \/ s = $"./" ++ r \/ s = $"../" ++ r.

(** ** Images and platforms *)

Definition IMAGE (s : str) : Prop := exists n x, s = n ++ suffix_text x /\ is_name n /\ is_suffix x /\ unambiguous n x.
(** The list of platforms is in [PlatformSpec]. *)

(** ** Services and containers *)

(** [SERVICE[:ALIAS]]. *)
Definition LINK (s : str) : Prop := exists service alias, s = service ++ alias /\ IDENTIFIER service /\ (alias = [] \/ exists a, alias = $":" ++ a).
Definition IPC (s : str) : Prop := forall r, s = $"service:" ++ r -> IDENTIFIER r.
Definition NETWORK_MODE (s : str) : Prop := forall r, s = $"service:" ++ r \/ s = $"container:" ++ r -> IDENTIFIER r.
(** [[container:]NAME[:ro|:rw]]. *)
Definition VOLUMES_FROM (s : str) : Prop :=
  exists source id mode, s = source ++ mode /\ (source = id \/ source = $"container:" ++ id) /\ IDENTIFIER id /\ In mode [[]; $":ro"; $":rw"].
(** [NAME_OR_ID[:NAME_OR_ID]]. *)
Definition USER_NAME (s : str) : Prop := matches USER_NAME_RE s /\ ~ Forall (in_cls [DIGIT]) s /\ (List.length s <= 32)%nat.
Definition ID_OR_NAME (s : str) : Prop := UINT 4294967295 s \/ USER_NAME s.
Definition USER (s : str) : Prop := exists u g, s = u ++ g /\ ID_OR_NAME u /\ (g = [] \/ exists n, g = $":" ++ n /\ ID_OR_NAME n).

(** ** CPUs and devices *)

(** Numbers and ranges separated by commas, perhaps with a comma at the end. *)
Definition CPUS (s : str) : Prop := UINT 18446744073709551615 s \/ exists a b, s = a ++ $"-" ++ b /\ UINT 18446744073709551615 a /\ UINT 18446744073709551615 b.
Definition CPUSET (s : str) : Prop :=
  s = [] \/ exists items, items <> [] /\ Forall CPUS items /\ (s = join $"," items \/ s = join $"," items ++ $",").
Definition PERMISSIONS (s : str) : Prop := forall c, In c s -> c = ch "r" \/ c = ch "w" \/ c = ch "m".
(** [HOST:CONTAINER[:PERMISSIONS]]. *)
Definition DEVICE (s : str) : Prop :=
  exists host container rest, s = host ++ $":" ++ container ++ rest /\ ~ In (ch ":") host /\ ~ In (ch ":") container /\ ABSOLUTE_PATH container /\
    (rest = [] \/ exists p, rest = $":" ++ p /\ PERMISSIONS p).
(** [KIND MAJOR:MINOR[ PERMISSIONS]]. *)
Definition DEVICE_NUMBER (s : str) : Prop := s = [] \/ s = $"*" \/ UINT 65535 s.
Definition DEVICE_CGROUP_RULE (s : str) : Prop :=
  exists kind major minor rest, s = kind ++ $" " ++ major ++ $":" ++ minor ++ rest /\ In kind [$"a"; $"b"; $"c"] /\
    DEVICE_NUMBER major /\ DEVICE_NUMBER minor /\ (rest = [] \/ exists p, rest = $" " ++ p /\ PERMISSIONS p).

(** ** Addresses and ports *)

Definition IP (s : str) : Prop := exists ip, ip_text s ip.
Definition IPV4 (s : str) : Prop := exists q, ipv4_text s q.
Definition IPV6 (s : str) : Prop := exists l, ipv6_text s l.
Definition MAC_ADDRESS (s : str) : Prop := exists groups, s = join $":" groups /\ List.length groups = 6%nat /\ Forall (HEX_UINT 255) groups.
Definition PORT_RANGE (s : str) : Prop := exists r, range_text s r.
Definition EXPOSE (s : str) : Prop := exists range rest, s = range ++ rest /\ PORT_RANGE range /\ (rest = [] \/ exists p, rest = $"/" ++ p).
Definition SHORT_PORT (checks : bool) (s : str) : Prop := exists p, short_port_text checks s p.
(** One item of [extra_hosts]. *)
Definition ADDRESS (s : str) : Prop := exists t, (s = t \/ s = $"[" ++ t ++ $"]") /\ IP t.

(** ** Volumes *)

(** [[SOURCE:]CONTAINER[:OPTIONS]]. *)
Definition VOLUME_OPTIONS (os : list str) : Prop :=
  NoDup os /\ (forall o, In o os -> In o [$"rw"; $"ro"; $"z"; $"Z"]) /\ ~ (In $"rw" os /\ In $"ro" os) /\ ~ (In $"z" os /\ In $"Z" os).
Definition SHORT_VOLUME (s : str) : Prop :=
  exists source container options, s = source ++ container ++ options /\ ABSOLUTE_PATH container /\ ~ In (ch ":") container /\
    ((source = [] /\ options = []) \/
     (exists p, source = p ++ $":" /\ ~ In (ch ":") p /\ (HOST_PATH p \/ IDENTIFIER p)) /\
     (options = [] \/ exists os, options = $":" ++ join $"," os /\ os <> [] /\ VOLUME_OPTIONS os)).

(** ** Builds *)

(** An image, or [type=TYPE,KEY=VALUE,...]. *)
Definition CACHE_TEXT (s : str) : Prop := s <> [] /\ ~ In (ch ",") s /\ forall c, In c s -> is_whitespace c = false.
Definition CACHE (s : str) : Prop :=
  IMAGE s \/
  exists type options, s = $"type=" ++ join $"," (type :: map (fun o => fst o ++ $"=" ++ snd o) options) /\ options <> [] /\
    Forall (fun o => CACHE_TEXT (fst o) /\ ~ In (ch "=") (fst o) /\ CACHE_TEXT (snd o)) options /\ CACHE_TEXT type /\
    (** the last [ref] of a registry is an image *)
    (type = $"registry" -> exists before r after, options = before ++ ($"ref", r) :: after /\ ~ In $"ref" (map fst after) /\ IMAGE r).
Definition SSH (s : str) : Prop := s = $"default" \/ exists id path, s = id ++ $"=" ++ path /\ id <> [] /\ path <> [] /\ ~ In (ch "=") id.

(** ** Amounts *)

Definition UNITS : list str := [$""; $"b"; $"B"; $"k"; $"K"; $"kb"; $"m"; $"M"; $"mb"; $"g"; $"G"; $"gb"].
Definition BYTES (s : str) : Prop := exists n u, s = n ++ u /\ UINT 18446744073709551615 n /\ In u UNITS.
Definition DURATION (s : str) : Prop := exists ts, ts <> [] /\ Forall term_ok ts /\ s = terms_text ts /\ terms_nanos ts <= max_nanos.
