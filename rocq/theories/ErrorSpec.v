(** Why a text is rejected. For each parser: which error goes with which texts, and what it names. Only the error types are those of the model. *)

From Coq Require Import String Ascii List NArith ZArith Bool.
Import ListNotations.
From Verif Require Import Base Num Regex KeysModel KeysSpec ImageModel ImageSpec UserModel BytesModel DeviceModel PathModel NetModel PortsModel IpModel IpSpec PortsSpec VolumesModel BuildModel TextModel.
Open Scope N_scope.

(** The first character of [s] which is not in the class. *)
Definition first_outside (k : cls) (s : str) (c : char) : Prop := exists a b, s = a ++ c :: b /\ Forall (in_cls k) a /\ ~ in_cls k c.
(** The first of a list that is not good, with its error. *)
Definition first_failing {A E} (good : A -> Prop) (fails : A -> E -> Prop) (l : list A) (e : E) : Prop :=
  exists a x b, l = a ++ x :: b /\ Forall good a /\ fails x e.

(** ** Integers *)

(** The digits of a base up to 16. *)
Inductive digit (base : N) : char -> N -> Prop :=
| digit_dec : forall c, in_cls [DIGIT] c -> c - ch "0" < base -> digit base c (c - ch "0")
| digit_low : forall c, in_cls [rng "a" "f"] c -> c - ch "a" + 10 < base -> digit base c (c - ch "a" + 10)
| digit_up : forall c, in_cls [rng "A" "F"] c -> c - ch "A" + 10 < base -> digit base c (c - ch "A" + 10).
Inductive numeral (base : N) : str -> N -> Prop :=
| numeral_nil : numeral base [] 0
| numeral_snoc : forall s n c d, numeral base s n -> digit base c d -> numeral base (s ++ [c]) (n * base + d).
(** A number may be written with a plus sign. *)
Definition reads_uint (base max : N) (s : str) (n : N) : Prop :=
  exists d, (s = d \/ s = $"+" ++ d) /\ d <> [] /\ numeral base d n /\ n <= max.
Inductive uint_fails (base max : N) : str -> int_error -> Prop :=
| uf_empty : uint_fails base max [] IntEmpty
| uf_sign : uint_fails base max $"+" IntInvalidDigit
| uf_digit : forall sign a c b n, sign = [] /\ (a = [] -> c <> ch "+") \/ sign = $"+" -> numeral base a n -> n <= max ->
    (forall d, ~ digit base c d) -> uint_fails base max (sign ++ a ++ c :: b) IntInvalidDigit
| uf_overflow : forall sign a c b n d, sign = [] \/ sign = $"+" -> numeral base a n -> n <= max ->
    digit base c d -> max < n * base + d -> uint_fails base max (sign ++ a ++ c :: b) IntPosOverflow.

(** ** Keys *)

Definition map_key_fails (s : str) (e : map_key_error) : Prop :=
  (s = [] /\ e = MapKeyEmpty) \/ (In 10 s /\ e = MapKeyMultipleLines).
Definition extension_key_fails (s : str) (e : ext_key_error) : Prop :=
  ((forall r, s <> $"x-" ++ r) /\ e = ExtMissingPrefix s) \/ (exists r, s = $"x-" ++ r /\ In 10 r /\ e = ExtMultipleLines).
Definition cache_option_fails (s : str) (e : cache_option_error) : Prop :=
  (s = [] /\ e = CacheOptionEmpty) \/ ((exists c, In c s /\ is_whitespace c = true) /\ e = CacheOptionWhitespace).
Definition key_fails (s : str) (e : key_error) : Prop :=
  (s = [] /\ e = KeyEmpty) \/
  (exists c r, s = c :: r /\ ~ in_cls [LOWER; UPPER; DIGIT] c /\ e = KeyStart c) \/
  (exists f r c, s = f :: r /\ in_cls [LOWER; UPPER; DIGIT] f /\ first_outside [LOWER; UPPER; DIGIT; one "."; one "_"; one "-"] r c /\ e = KeyCharacter c).

(** A label of a hostname: the characters come first. *)
Definition label_fails (l : str) (e : hostname_error) : Prop :=
  (l = [] /\ e = HostLabelEmpty) \/
  (exists c, first_outside [LOWER; UPPER; DIGIT; one "-"] l c /\ e = HostCharacter c) \/
  (Forall (in_cls [LOWER; UPPER; DIGIT; one "-"]) l /\ (exists r, l = $"-" ++ r \/ l = r ++ $"-") /\ e = HostLabelStartEnd).
(** The first label which is wrong. *)
Definition hostname_fails (s : str) (e : hostname_error) : Prop :=
  exists ls, s = join $"." ls /\ ls <> [] /\ Forall (fun l => ~ In (ch ".") l) ls /\ first_failing (matches LABEL_RE) label_fails ls e.

(** ** Users *)

Definition user_name_fails (s : str) (e : user_name_error) : Prop :=
  let body := [LOWER; UPPER; DIGIT; one "_"; one "-"] in
  (s = [] /\ e = UserEmpty) \/
  (exists a c b, s = a ++ c :: b /\ Forall (in_cls body) a /\ ~ in_cls body c /\
     ((c <> ch "$" /\ e = UserCharacter c) \/ (c = ch "$" /\ b <> [] /\ e = UserDollarSign))) \/
  (exists a, (s = a \/ s = a ++ $"$") /\ s <> [] /\ Forall (in_cls body) a /\
     ((Forall (in_cls [DIGIT]) s /\ e = UserNumeric) \/
      (~ Forall (in_cls [DIGIT]) s /\ (exists r, s = $"-" ++ r) /\ e = UserStart) \/
      (~ Forall (in_cls [DIGIT]) s /\ ~ (exists r, s = $"-" ++ r) /\ (List.length s > 32)%nat /\ e = UserLength))).
Definition id_or_name_fails (s : str) (e : user_name_error) : Prop := (forall n, ~ reads_uint 10 U32_MAX s n) /\ user_name_fails s e.
Definition id_or_name_reads (s : str) : Prop := (exists n, reads_uint 10 U32_MAX s n) \/
  (matches USER_NAME_RE s /\ ~ Forall (in_cls [DIGIT]) s /\ (List.length s <= 32)%nat).
Definition user_fails (s : str) (e : user_name_error) : Prop :=
  (~ In (ch ":") s /\ id_or_name_fails s e) \/
  (exists u g, s = u ++ $":" ++ g /\ ~ In (ch ":") u /\ (id_or_name_fails u e \/ (id_or_name_reads u /\ id_or_name_fails g e))).

(** ** Byte values *)

Definition ends (s : str) (k : cls) : Prop := exists a c, s = a ++ [c] /\ in_cls k c.
Definition byte_value_fails (s : str) (e : byte_value_error) : Prop :=
  (s = [] /\ e = BvEmpty) \/
  (s <> [] /\ (forall n, ~ reads_uint 10 U64_MAX s n) /\
   ((~ ends s [one "b"; one "B"; one "k"; one "K"; one "m"; one "M"; one "g"; one "G"] /\ e = BvUnknownUnit s) \/
    (exists r u i, s = r ++ u /\
       (In u [$"kb"; $"mb"; $"gb"; $"k"; $"K"; $"m"; $"M"; $"g"; $"G"; $"B"] \/ (u = $"b" /\ ~ ends r [one "k"; one "m"; one "g"])) /\
       uint_fails 10 U64_MAX r i /\ e = BvParseInt i r))).

(** ** Devices *)

Definition PERMISSION : cls := [one "r"; one "w"; one "m"].
(** The text of permissions, empty if there is none. *)
Definition device_fails (s : str) (e : device_error) : Prop :=
  (~ In (ch ":") s /\ e = DevContainerPathMissing) \/
  (exists h r, s = h ++ $":" ++ r /\ ~ In (ch ":") h /\
     ((~ (exists p, r = $"/" ++ p) /\ e = DevContainerPathAbsolute) \/
      (exists p q c, r = $"/" ++ p ++ $":" ++ q /\ ~ In (ch ":") p /\ first_outside PERMISSION q c /\ e = DevPermissions c))).
Definition mm_reads (s : str) : Prop := s = [] \/ s = $"*" \/ exists n, reads_uint 10 U16_MAX s n.
Definition mm_fails (s : str) (e : int_error) : Prop := s <> [] /\ s <> $"*" /\ uint_fails 10 U16_MAX s e.
Definition cgroup_fails (s : str) (e : cgroup_error) : Prop :=
  exists k r, (s = k /\ r = [] \/ s = k ++ $" " ++ r) /\ ~ In (ch " ") k /\
    ((~ In k [$"a"; $"b"; $"c"] /\ e = CgKind k) \/
     (In k [$"a"; $"b"; $"c"] /\
      exists n p, (r = n /\ p = [] \/ r = n ++ $" " ++ p) /\ ~ In (ch " ") n /\
        ((~ In (ch ":") n /\ e = CgNumbersMissing) \/
         (exists a b, n = a ++ $":" ++ b /\ ~ In (ch ":") a /\
            ((exists i, mm_fails a i /\ e = CgNumber i) \/
             (exists i, mm_reads a /\ mm_fails b i /\ e = CgNumber i) \/
             (exists c, mm_reads a /\ mm_reads b /\ first_outside PERMISSION p c /\ e = CgPermissions c)))))).

(** ** Images *)

Definition TAG_CHAR : cls := [LOWER; UPPER; DIGIT; one "."; one "_"; one "-"].
Definition tag_fails (s : str) (e : tag_error) : Prop :=
  (exists c, first_outside TAG_CHAR s c /\ e = TECharacter c) \/ (s = [] /\ e = TEEmpty) \/
  (Forall (in_cls TAG_CHAR) s /\ (List.length s > 128)%nat /\ e = TELength).

(** Texts that can follow a letter, the grammar being [components sep]. *)
Definition may_follow (sep : re) (s : str) : Prop := exists t, matches (components sep) ($"a" ++ s ++ t).
Definition ALGORITHM_SEP : cls := [one "+"; one "."; one "_"; one "-"].
Definition ENCODED_CHAR : cls := [LOWER; UPPER; DIGIT; one "="; one "_"; one "-"].
Definition digest_fails (s : str) (e : digest_error) : Prop :=
  (~ In (ch ":") s /\ e = DEMissingAlgorithm) \/
  (exists alg enc, s = alg ++ $":" ++ enc /\ ~ In (ch ":") alg /\
    let ok := may_follow (Cls ALGORITHM_SEP) in
    ((exists a c b, alg = a ++ c :: b /\ ok a /\ ~ in_cls [LOWER; DIGIT] c /\
        ((in_cls ALGORITHM_SEP c /\ ends a ALGORITHM_SEP /\ e = DEAlgorithmSeparators) \/ (~ in_cls ALGORITHM_SEP c /\ e = DEAlgorithmCharacter c))) \/
     (exists c, ok alg /\ first_outside ENCODED_CHAR enc c /\ e = DEEncodeCharacter c) \/
     (ok alg /\ Forall (in_cls ENCODED_CHAR) enc /\
        ((alg = [] /\ e = DEMissingAlgorithm) \/
         (exists c r, alg = c :: r /\ in_cls ALGORITHM_SEP c /\ e = DEAlgorithmStart) \/
         (exists c r, alg = c :: r /\ in_cls [LOWER; DIGIT] c /\ ends alg ALGORITHM_SEP /\ e = DEAlgorithmEnd) \/
         (matches ALGORITHM_RE alg /\ enc = [] /\ e = DEEncodeEmpty))))).

Definition SEP_CHAR : cls := [one "."; one "_"; one "-"].
Definition part_fails (s : str) (e : name_error) : Prop :=
  let ok := may_follow PART_SEP in
  (exists a c b, s = a ++ c :: b /\ ok a /\ ~ in_cls [LOWER; DIGIT] c /\
     ((in_cls SEP_CHAR c /\ ~ ok (a ++ [c]) /\ e = NEMultipleSeparators) \/ (~ in_cls SEP_CHAR c /\ e = NECharacter c))) \/
  (ok s /\
     ((s = [] /\ e = NEEmpty) \/
      (exists c r, s = c :: r /\ in_cls SEP_CHAR c /\ e = NEStart) \/
      (exists c r, s = c :: r /\ in_cls [LOWER; DIGIT] c /\ ends s SEP_CHAR /\ e = NEEnd))).
(** The port of a registry comes before everything else; then the first part which is wrong. *)
Definition iname_fails (s : str) (e : name_error) : Prop :=
  exists first rest, s = join $"/" (first :: rest) /\ Forall (fun p => ~ In (ch "/") p) (first :: rest) /\
    ((exists h p i, In (ch ".") first /\ first = h ++ $":" ++ p /\ ~ In (ch ":") h /\ uint_fails 10 U16_MAX p i /\ e = NERegistryPort i p) \/
     (exists h p n, In (ch ".") first /\ first = h ++ $":" ++ p /\ ~ In (ch ":") h /\ reads_uint 10 U16_MAX p n /\
        first_failing (matches PART_RE) part_fails (h :: rest) e) \/
     (~ (In (ch ".") first /\ In (ch ":") first) /\ first_failing (matches PART_RE) part_fails (first :: rest) e)).

(** The text before the digest, and before the tag. *)
Inductive cut_digest : str -> str -> option str -> Prop :=
| cd_none : forall s, ~ In (ch "@") s -> cut_digest s s None
| cd_some : forall s d, ~ In (ch "@") s -> cut_digest (s ++ $"@" ++ d) s (Some d).
Inductive cut_tag : str -> str -> option str -> Prop :=
| ct_none : forall s, (forall a t, s = a ++ $":" ++ t -> ~ In (ch ":") t -> In (ch "/") t) -> cut_tag s s None
| ct_some : forall s t, ~ In (ch ":") t -> ~ In (ch "/") t -> cut_tag (s ++ $":" ++ t) s (Some t).
Definition image_fails (s : str) (e : image_error) : Prop :=
  exists b d n t, cut_digest s b d /\ cut_tag b n t /\
    ((exists x i, d = Some x /\ digest_fails x i /\ e = IEDigest i) \/
     (exists x i, (forall y, d = Some y -> is_digest y) /\ t = Some x /\ tag_fails x i /\ e = IETag i) \/
     (exists x y, d = Some x /\ t = Some y /\ is_digest x /\ is_tag y /\ e = IETagAndDigest) \/
     (exists i, (forall y, d = Some y -> is_digest y /\ t = None) /\ (forall y, t = Some y -> is_tag y /\ d = None) /\ iname_fails n i /\ e = IEName i)).

(** ** Networks and ports *)

(** Six numbers are read, from left to right. *)
Definition mac_fails (s : str) (e : mac_error) : Prop :=
  exists l, s = join $":" l /\ l <> [] /\ Forall (fun p => ~ In (ch ":") p) l /\
    let reads p := exists n, reads_uint 16 255 p n in
    ((exists a p b i, l = a ++ p :: b /\ (List.length a < 6)%nat /\ Forall reads a /\ uint_fails 16 255 p i /\ e = MacInt i p) \/
     ((List.length l < 6)%nat /\ Forall reads l /\ e = MacLength) \/
     ((List.length l > 6)%nat /\ Forall reads (firstn 6 l) /\ e = MacLength)).
Definition port_reads (s : str) : Prop := exists n, reads_uint 10 U16_MAX s n.
Definition range_fails (s : str) (e : parse_range_error) : Prop :=
  (exists i, ~ In (ch "-") s /\ uint_fails 10 U16_MAX s i /\ e = RangeInt i s) \/
  (exists a b i, s = a ++ $"-" ++ b /\ ~ In (ch "-") a /\
     ((uint_fails 10 U16_MAX a i /\ e = RangeInt i a) \/ (port_reads a /\ uint_fails 10 U16_MAX b i /\ e = RangeInt i b))).
Definition range_reads (s : str) : Prop := port_reads s \/ exists a b, s = a ++ $"-" ++ b /\ port_reads a /\ port_reads b.
(** The host may be left out before the colon. *)
Definition short_ranges_fails (s : str) (e : parse_range_error) : Prop :=
  (~ In (ch ":") s /\ range_fails s e) \/
  (exists h c, s = h ++ $":" ++ c /\ ~ In (ch ":") h /\ ((h <> [] /\ range_fails h e) \/ ((h = [] \/ range_reads h) /\ range_fails c e))).
Definition expose_fails (s : str) (e : parse_range_error) : Prop :=
  exists r, (s = r \/ exists p, s = r ++ $"/" ++ p) /\ ~ In (ch "/") r /\ range_fails r e.

(** ** Volumes *)

Definition source_fails (s : str) (e : source_error) : Prop :=
  ((exists r, s = $"." ++ r) /\ s <> $"." /\ s <> $".." /\ (forall r, s <> $"./" ++ r /\ s <> $"../" ++ r) /\ e = SrcHostPath HostPathError) \/
  ((forall r, s <> $"." ++ r /\ s <> $"/" ++ r) /\ exists k, key_fails s k /\ e = SrcIdentifier k).
Definition source_reads (s : str) : Prop :=
  s = $"." \/ s = $".." \/ (exists r, s = $"/" ++ r \/ s = $"./" ++ r \/ s = $"../" ++ r) \/ matches IDENTIFIER_RE s.
(** Each option has an opposite. *)
Definition opposite (o p : str) : Prop := In (o, p) [($"rw", $"ro"); ($"ro", $"rw"); ($"z", $"Z"); ($"Z", $"z")].
Definition options_ok (l : list str) : Prop :=
  NoDup l /\ (forall o, In o l -> In o [$"rw"; $"ro"; $"z"; $"Z"]) /\ (forall o p, opposite o p -> In o l -> ~ In p l).
(** The first option that is unknown, repeated or contradicts one before. *)
Definition options_fail (l : list str) (e : short_volume_error) : Prop :=
  exists a o b, l = a ++ o :: b /\ options_ok a /\
    ((~ In o [$"rw"; $"ro"; $"z"; $"Z"] /\ e = SvUnknownOption o) \/
     (In o a /\ e = SvDuplicateOption o) \/
     (exists p, opposite o p /\ In p a /\ (In o [$"rw"; $"ro"] /\ e = SvReadWriteAndReadOnly \/ In o [$"z"; $"Z"] /\ e = SvSELinuxSharedAndPrivate))).
Definition short_volume_fails (s : str) (e : short_volume_error) : Prop :=
  (~ In (ch ":") s /\ ~ (exists r, s = $"/" ++ r) /\ e = SvAbsoluteContainerPath s) \/
  (exists src r, s = src ++ $":" ++ r /\ ~ In (ch ":") src /\
     ((exists i, source_fails src i /\ e = SvSource i) \/
      (source_reads src /\ exists c o, (r = c /\ o = None \/ exists t, r = c ++ $":" ++ t /\ o = Some t) /\ ~ In (ch ":") c /\
         ((~ (exists p, c = $"/" ++ p) /\ e = SvAbsoluteContainerPath c) \/
          ((exists p, c = $"/" ++ p) /\ exists t l, o = Some t /\ t = join $"," l /\ l <> [] /\ Forall (fun x => ~ In (ch ",") x) l /\ options_fail l e))))).

(** ** Caches and ssh *)

Definition cache_option_reads (s : str) : Prop := s <> [] /\ Forall (fun c => is_whitespace c = false) s.
(** An entry of a cache, [key=value]; without the equals sign the value is empty. *)
Definition cache_entry_cut (s k v : str) : Prop := ~ In (ch "=") k /\ (s = k ++ $"=" ++ v \/ s = k /\ v = []).
Definition cache_entry_fails (s : str) (e : cache_error) : Prop :=
  exists k v, cache_entry_cut s k v /\
    exists i, (cache_option_fails k i \/ (cache_option_reads k /\ cache_option_fails v i)) /\ e = CeOption i.
Definition cache_entry_reads (s : str) : Prop := exists k v, cache_entry_cut s k v /\ cache_option_reads k /\ cache_option_reads v.
Definition cache_fails (s : str) (e : cache_error) : Prop :=
  (~ In (ch ",") s /\ exists i, image_fails s i /\ e = CeImage i) \/
  (exists first l, s = join $"," (first :: l) /\ l <> [] /\ Forall (fun x => ~ In (ch ",") x) (first :: l) /\
     ((~ (exists t, first = $"type=" ++ t) /\ e = CeTypeFirst) \/
      (exists t, first = $"type=" ++ t /\
         (first_failing cache_entry_reads cache_entry_fails l e \/
          (Forall cache_entry_reads l /\
             ((t = $"registry" /\ ~ (exists v, In ($"ref=" ++ v) l) /\ e = CeMissingRef) \/
              (t = $"registry" /\ (exists a v b i, l = a ++ ($"ref=" ++ v) :: b /\ ~ (exists v', In ($"ref=" ++ v') b) /\ image_fails v i /\ e = CeImage i)) \/
              (t <> $"registry" /\ exists i, cache_option_fails t i /\ e = CeOption i))))))).
Definition ssh_auth_fails (s : str) (e : ssh_id_error) : Prop :=
  s <> $"default" /\
  ((~ In (ch "=") s /\ e = MissingPath) \/
   (exists i p, s = i ++ $"=" ++ p /\ ~ In (ch "=") i /\ ((i = [] /\ e = EmptyId) \/ (i <> [] /\ p = [] /\ e = MissingPath)))).

(** ** Ports with an address *)

(** What comes before the first slash. *)
Definition before_slash (s b : str) : Prop := ~ In (ch "/") b /\ (s = b \/ exists p, s = b ++ $"/" ++ p).
(** An address, in brackets or not. *)
Definition address_reads (a : str) : Prop := exists t ip, (a = t \/ a = $"[" ++ t ++ $"]") /\ ip_text t ip.
(** What comes before the last but one colon has to be an address; the rest are ports. *)
Definition short_port_address_fails (s a : str) : Prop :=
  exists h c, before_slash s (a ++ $":" ++ h ++ $":" ++ c) /\ ~ In (ch ":") h /\ ~ In (ch ":") c /\ ~ address_reads a.
(** The rest. *)
Definition ports_part (s r : str) : Prop :=
  exists b, before_slash s b /\
    (((forall x y z, b <> x ++ $":" ++ y ++ $":" ++ z) /\ r = b) \/
     (exists a h c, b = a ++ $":" ++ h ++ $":" ++ c /\ ~ In (ch ":") h /\ ~ In (ch ":") c /\ address_reads a /\ r = h ++ $":" ++ c)).
(** The sizes of two ranges differ. Sizes are counted modulo 2{^16} without overflow checks; with them, only sizes from 1 to 65535 can be counted. *)
Definition size_counted (checks : bool) (r : range) (n : N) : Prop :=
  if checks then Z.of_N n = width r /\ (1 <= width r <= 65535)%Z else Z.of_N n = (width r mod 65536)%Z.
Definition sizes_differ (checks : bool) (s : str) (m n : N) : Prop :=
  exists h c rh rc, s = h ++ $":" ++ c /\ range_text h rh /\ range_text c rc /\ size_counted checks rh m /\ size_counted checks rc n /\ m <> n.

(** ** Names inside longer texts *)

(** The error names a character of the name, not of the text around it. *)
Definition link_fails (s : str) (e : key_error) : Prop :=
  exists i, ~ In (ch ":") i /\ (s = i \/ exists a, s = i ++ $":" ++ a) /\ key_fails i e.
Definition ipc_fails (s : str) (e : key_error) : Prop := exists i, s = $"service:" ++ i /\ key_fails i e.
Definition network_mode_fails (s : str) (e : key_error) : Prop := exists i, (s = $"service:" ++ i \/ s = $"container:" ++ i) /\ key_fails i e.
Definition build_network_fails (s : str) (e : key_error) : Prop := s <> $"none" /\ key_fails s e.
Definition volumes_from_fails (s : str) (e : key_error) : Prop :=
  exists b, (s = b ++ $":ro" \/ s = b ++ $":rw" \/ (s = b /\ forall x, s <> x ++ $":ro" /\ s <> x ++ $":rw")) /\
    ((exists i, b = $"container:" ++ i /\ key_fails i e) \/ ((forall i, b <> $"container:" ++ i) /\ key_fails b e)).
Definition count_fails (s : str) (e : int_error) : Prop := s <> $"all" /\ uint_fails 10 U64_MAX s e.

(** ** CPU sets *)

Definition cpu_reads (s : str) : Prop := exists n, reads_uint 10 U64_MAX s n.
(** The error comes with the number it is about. *)
Definition cpus_fails (s : str) (e : int_error * str) : Prop :=
  (~ In (ch "-") s /\ uint_fails 10 U64_MAX s (fst e) /\ snd e = s) \/
  (exists a b, s = a ++ $"-" ++ b /\ ~ In (ch "-") a /\ ((uint_fails 10 U64_MAX a (fst e) /\ snd e = a) \/ (cpu_reads a /\ uint_fails 10 U64_MAX b (fst e) /\ snd e = b))).
Definition cpus_reads (s : str) : Prop := cpu_reads s \/ exists a b, s = a ++ $"-" ++ b /\ cpu_reads a /\ cpu_reads b.
(** A comma at the end is allowed; so is the empty text. *)
Definition cpuset_fails (s : str) (e : int_error * str) : Prop :=
  exists l, Forall (fun x => ~ In (ch ",") x) l /\ (s = join $"," (l ++ [[]]) \/ (last l [] <> [] /\ s = join $"," l)) /\ first_failing cpus_reads cpus_fails l e.
