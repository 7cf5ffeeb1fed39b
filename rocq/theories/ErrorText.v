(** What error messages say. For each error of the model: its messages, first its own and then those of its sources, each as the format string
    of its [#[error]] attribute with the arguments filled in. The attributes are those of [thiserror], which makes [Display] and [Error::source]
    of them. No proofs in this file. *)

From Coq Require Import String Ascii List NArith ZArith Bool.
Import ListNotations.
From Verif Require Import Base Num KeysModel DurationModel NetModel PortsModel BytesModel ImageModel VolumesModel PathModel UserModel BuildModel DeviceModel TextModel ValuesModel.
Open Scope N_scope.

(** A format string: literal text and arguments. *)
Inductive piece := Lit (s : str) | Arg (s : str).
Definition piece_text (p : piece) : str := match p with Lit s => s | Arg s => s end.
(** [Display::fmt]. *)
Definition message_text (m : list piece) : str := flat_map piece_text m.
(** The whole chain of an error: its message and those of [ErrorSources], serde.rs 646-672. *)
Definition messages := list (list piece).
(** [error_chain], serde.rs 628-643: all the messages. *)
Definition error_chain (l : messages) : str := join $": " (map message_text l).
(** [E::custom] alone: the first message. *)
Definition error_alone (l : messages) : str := match l with m :: _ => message_text m | [] => [] end.

(** ** [std] *)

(** [Display for ParseIntError]. *)
Definition int_messages (e : int_error) : messages :=
  [[Lit match e with
        | IntEmpty => $"cannot parse integer from empty string"
        | IntInvalidDigit => $"invalid digit found in string"
        | IntPosOverflow => $"number too large to fit in target type"
        | IntNegOverflow => $"number too small to fit in target type"
        end]].
(** [Display for AddrParseError] of an [IpAddr], [for TryFromIntError], and [for ParseFloatError] of a text which is not empty. *)
Definition address_messages : messages := [[Lit $"invalid IP address syntax"]].
Definition try_from_int_messages : messages := [[Lit $"out of range integral type conversion attempted"]].
Definition float_messages : messages := [[Lit $"invalid float literal"]].

(** ** Names and keys *)

(** [InvalidNameError], name.rs 62-85. *)
Definition name_messages (e : key_error) : messages :=
  [match e with
   | KeyEmpty => [Lit $"name cannot be empty"]
   | KeyStart c => [Lit $"invalid character `"; Arg [c]; Lit $"`, names must start with a lowercase ASCII letter (a-z) or digit (0-9)"]
   | KeyCharacter c =>
       [Lit $"invalid character `"; Arg [c]; Lit $"`, names must contain only lowercase ASCII letters (a-z), digits (0-9), underscores (_), or dashes (-)"]
   end].
(** [InvalidIdentifierError], keys.rs 49-73. *)
Definition identifier_messages (e : key_error) : messages :=
  [match e with
   | KeyEmpty => [Lit $"identifier cannot be empty"]
   | KeyStart c => [Lit $"invalid start character `"; Arg [c]; Lit $"`, identifiers must start with an ASCII letter (a-z, A-Z) or digit (0-9)"]
   | KeyCharacter c =>
       [Lit $"invalid character `"; Arg [c];
        Lit $"`, identifiers must contain only ASCII letters (a-z, A-Z), digits (0-9), dots (.), underscores (_), or dashes (-)"]
   end].
(** [InvalidResourceError], ulimit.rs 60-72. It has no [Start]. *)
Definition resource_messages (e : key_error) : messages :=
  match e with
  | KeyEmpty => [[Lit $"ulimit resources cannot be empty"]]
  | KeyCharacter c => [[Lit $"invalid character '"; Arg [c]; Lit $"', ulimit resources can only contain lowercase ASCII letters (a-z)"]]
  | KeyStart _ => []
  end.
(** [InvalidMapKeyError], keys.rs 108-116. *)
Definition map_key_messages (e : map_key_error) : messages :=
  [[Lit match e with
        | MapKeyEmpty => $"map key cannot be empty"
        | MapKeyMultipleLines => $"map key cannot have multiple lines (newline character `\n` found)"
        end]].
(** [InvalidExtensionKeyError], keys.rs 163-172. *)
Definition extension_key_messages (e : ext_key_error) : messages :=
  [match e with
   | ExtMissingPrefix s => [Lit $"extension key `"; Arg s; Lit $"` does not start with ""x-"""]
   | ExtMultipleLines => [Lit $"map key cannot have multiple lines (newline character `\n` found)"]
   end].
(** [InvalidHostnameError], hostname.rs 52-67. *)
Definition hostname_messages (e : hostname_error) : messages :=
  [match e with
   | HostLabelEmpty => [Lit $"hostname label was empty"]
   | HostCharacter c =>
       [Lit $"invalid hostname character `"; Arg [c]; Lit $"`, hostnames can only contain ASCII letters (a-z, A-Z), digits (0-9), dots (.), and dashes (-)"]
   | HostLabelStartEnd => [Lit $"hostname labels cannot start or end with dashes (-)"]
   end].
(** [InvalidNameError] of users, user.rs 347-376. *)
Definition user_name_messages (e : user_name_error) : messages :=
  [match e with
   | UserEmpty => [Lit $"user and group names cannot be empty"]
   | UserCharacter c =>
       [Lit $"invalid user or group name character `"; Arg [c];
        Lit $"`, names may only contain ASCII letters (a-z, A-Z), digits (0-9), underscores (_), and dashes (-), with an optional dollar sign ($) at the end"]
   | UserDollarSign => [Lit $"user and group names may only have a dollar sign ($) at the end"]
   | UserNumeric => [Lit $"user and group names cannot be fully numeric"]
   | UserStart => [Lit $"user and group names cannot start with a dash (-)"]
   | UserLength => [Lit $"user and group names may only be up to 32 characters long"]
   end].
(** [ParseNetworkModeError], network_config.rs 328-330, and [ParseIpcError], service.rs 1187-1189. *)
Definition network_mode_messages (e : key_error) : messages := [Lit $"error parsing service or container network mode"] :: identifier_messages e.
Definition ipc_messages (e : key_error) : messages := [Lit $"error parsing service IPC isolation mode"] :: identifier_messages e.

(** ** Numbers *)

(** [ParseDurationError], duration.rs 160-183. *)
Definition duration_messages (e : duration_error) : messages :=
  [match e with
   | DurEmpty => [Lit $"cannot parse a duration from an empty string"]
   | DurMissingUnit s => [Lit $"duration `"; Arg s; Lit $"` does not have a unit"]
   | DurNoDigits s => [Lit $"duration `"; Arg s; Lit $"` does not contain ASCII digits (0-9)"]
   | DurOverflow => [Lit $"an overflow occurred"]
   | DurInvalidUnit u => [Lit $"`"; Arg u; Lit $"` is not a valid duration unit, must be `h`, `m`, `s`, `ms`, or `us`"]
   end].
(** [ParseByteValueError], byte_value.rs 110-131. *)
Definition byte_value_messages (e : byte_value_error) : messages :=
  match e with
  | BvEmpty => [[Lit $"value was an empty string"]]
  | BvUnknownUnit s =>
      [[Lit $"value `"; Arg s; Lit $"` contains an unknown unit, unit must be ""b"", ""k"", ""kb"", ""m"", ""mb"", ""g"", or ""gb"""]]
  | BvParseInt e s => [Lit $"value `"; Arg s; Lit $"` could not be parsed as an unsigned integer"] :: int_messages e
  end.
(** [ParseCpuSetError], cpuset.rs 100-108. *)
Definition cpuset_messages (e : int_error * str) : messages :=
  [Lit $"could not parse `"; Arg (snd e); Lit $"` as an integer"] :: int_messages (fst e).
(** [RangeError], service.rs 769-779. *)
Definition range_error_messages (e : range_error) : messages :=
  [[Lit $"value `"; Arg (show_Z (re_value e)); Lit $"` is not between "; Arg (show_Z (re_start e)); Lit $" and "; Arg (show_Z (re_end e))]].
(** [WeightRangeError], blkio_config.rs 159-165: 0 has a source. *)
Definition weight_messages (e : weight_error) : messages :=
  [Lit $"weights must be between 10 and 1000"] :: match e with WeightZero => try_from_int_messages | WeightRange => [] end.
(** [ParseNumberError], common.rs 653-663. *)
Definition number_messages (e : number_error) : messages :=
  match e with
  | NumInt e => [Lit $"error parsing number as an integer"] :: int_messages e
  | NumFloat => [Lit $"error parsing number as a float"] :: float_messages
  end.
(** [TryFromNumberError], common.rs 731-742; it has two of the errors of the model. *)
Definition try_from_number_messages (e : try_from_error) : messages :=
  match e with
  | TFFloatToInt => [[Lit $"cannot convert a float to an integer"]]
  | TFInt => [Lit $"error converting integer type"] :: try_from_int_messages
  | _ => []
  end.
(** [TryFromValueError], common.rs 499-516: errors of numbers are wrapped, its own [TryFromInt] is never made. *)
Definition try_from_value_messages (e : try_from_error) : messages :=
  match e with
  | TFParse e => [Lit $"error parsing string value into a number"] :: number_messages e
  | TFIntoBool => [[Lit $"cannot convert a non-bool value into a bool"]]
  | _ => [Lit $"error converting number"] :: try_from_number_messages e
  end.

(** ** Networks and ports *)

(** [ParseMacAddressError], network_config.rs 532-547. *)
Definition mac_messages (e : mac_error) : messages :=
  match e with
  | MacLength => [[Lit $"MAC addresses must be exactly six integers"]]
  | MacInt e s => [Lit $"error parsing `"; Arg s; Lit $"` as an integer in hex format"] :: int_messages e
  end.
(** [ParseRangeError], ports.rs 807-821; [ShortRangesError], 493-503; [ParseShortRangesError], 571-580; [ParseShortPortError], 340-354. *)
Definition parse_range_messages (e : parse_range_error) : messages :=
  let 'RangeInt e s := e in [Lit $"error parsing `"; Arg s; Lit $"` as an integer"] :: int_messages e.
Definition sizes_messages (e : N * N) : messages :=
  [[Lit $"host port range size `"; Arg (show_N (fst e)); Lit $"` must be equal to container port range size `"; Arg (show_N (snd e)); Lit $"`"]].
Definition short_ranges_messages (e : parse_short_ranges_error) : messages :=
  match e with
  | SRShortRanges e => [Lit $"error creating the port ranges"] :: sizes_messages e
  | SRRange e => [Lit $"error parsing port range"] :: parse_range_messages e
  end.
Definition short_port_messages (e : parse_short_port_error) : messages :=
  match e with
  | SPIpAddr _ => [Lit $"error parsing host ip address"] :: address_messages
  | SPShortRanges e => [Lit $"error parsing port ranges"] :: short_ranges_messages e
  end.

(** ** Images *)

(** [InvalidTagError], tag.rs 76-94. *)
Definition tag_messages (e : tag_error) : messages :=
  [match e with
   | TECharacter c =>
       [Lit $"image tag contains invalid character '"; Arg [c];
        Lit $"', tags must only contain ASCII letters (a-z, A-Z), digits (0-9), dots (.), underscores (_), and dashes (-)"]
   | TEEmpty => [Lit $"image tag cannot be empty"]
   | TELength => [Lit $"image tags can only be up to 128 characters long"]
   end].
(** [InvalidDigestError], digest.rs 115-156. The literal of 127-130 goes over two lines without a backslash. *)
Definition digest_messages (e : digest_error) : messages :=
  [match e with
   | DEMissingAlgorithm => [Lit $"image digest is missing its algorithm"]
   | DEAlgorithmSeparators => [Lit $"image digest algorithms may only have one separator (+._-) in a row"]
   | DEAlgorithmCharacter c =>
       [Lit $"invalid character '"; Arg [c];
        Lit ($"' in image digest algorithm," ++ 10 :: $"        digests may only contain lowercase ASCII letters (a-z), digits (0-9), or separators (+._-)")]
   | DEEncodeCharacter c =>
       [Lit $"invalid character '"; Arg [c];
        Lit $"' in image digest encode, data encoded in digest may only contain ASCII letters (a-z, A-Z), digits (0-9), equals (=), underscores (_), and dashes (-)"]
   | DEAlgorithmStart => [Lit $"image digest algorithm must start with a lowercase ASCII letter (a-z) or a digit (0-9)"]
   | DEAlgorithmEnd => [Lit $"image digest algorithm must end with a lowercase ASCII letter (a-z) or a digit (0-9)"]
   | DEEncodeEmpty => [Lit $"image digest encode is empty"]
   end].
(** [InvalidNamePartError], image/name.rs 223-261. *)
Definition image_name_messages (e : name_error) : messages :=
  match e with
  | NEMultipleSeparators => [[Lit $"image name parts may only have one separator (., _, __, any number of -) in a row"]]
  | NECharacter c =>
      [[Lit $"invalid character in image name '"; Arg [c];
        Lit $"', name parts must only contain lowercase ASCII letters (a-z), digits (0-9), dashes (-), dots (.), and underscores (_)"]]
  | NEEmpty => [[Lit $"a part of an image name cannot be empty, i.e. there were two slashes (/) in row, or the image name was completely empty"]]
  | NEStart => [[Lit $"image name parts must start with a lowercase ASCII letter (a-z) or a digit (0-9)"]]
  | NEEnd => [[Lit $"image name parts must end with a lowercase ASCII letter (a-z) or a digit (0-9)"]]
  | NERegistryPort e s => [Lit $"image registry port `"; Arg s; Lit $"` is not a valid port number"] :: int_messages e
  end.
(** [InvalidImageError], image.rs 478-495. *)
Definition image_messages (e : image_error) : messages :=
  match e with
  | IEDigest e => [Lit $"invalid image digest"] :: digest_messages e
  | IETag e => [Lit $"invalid image tag"] :: tag_messages e
  | IETagAndDigest => [[Lit $"image cannot have a tag and a digest"]]
  | IEName e => [Lit $"invalid image name part"] :: image_name_messages e
  end.

(** ** Volumes, caches, devices *)

(** [AbsolutePathError], volumes.rs 330-332; [HostPathError], 650-652; [ParseSourceError], 489-498; [ParseShortVolumeError], 228-253. *)
Definition absolute_path_messages : messages := [[Lit $"path is not absolute"]].
Definition host_path_messages : messages := [[Lit $"volume host paths must start with `.` or `..`, or be absolute"]].
Definition source_messages (e : source_error) : messages :=
  match e with
  | SrcHostPath _ => [Lit $"error parsing host path"] :: host_path_messages
  | SrcIdentifier e => [Lit $"error parsing volume identifier"] :: identifier_messages e
  end.
Definition short_volume_messages (e : short_volume_error) : messages :=
  match e with
  | SvSource e => [Lit $"error parsing volume source"] :: source_messages e
  | SvAbsoluteContainerPath s => [[Lit $"volume container path `"; Arg s; Lit $"` is not absolute"]]
  | SvReadWriteAndReadOnly => [[Lit $"cannot set both `rw` and `ro` in volume options"]]
  | SvSELinuxSharedAndPrivate => [[Lit $"cannot set both `z` and `Z` in volume options"]]
  | SvDuplicateOption s => [[Lit $"volume option `"; Arg s; Lit $"` set multiple times"]]
  | SvUnknownOption s => [[Lit $"unknown volume option `"; Arg s; Lit $"`"]]
  end.
(** [InvalidCacheOptionError], cache.rs 319-328; [ParseCacheError], 155-172; [IdError], ssh_auth.rs 156-165. *)
Definition cache_option_messages (e : cache_option_error) : messages :=
  [[Lit match e with CacheOptionEmpty => $"cache options cannot be empty" | CacheOptionWhitespace => $"cache options cannot contain whitespace" end]].
Definition cache_messages (e : cache_error) : messages :=
  match e with
  | CeImage e => [Lit $"error parsing cache image ref"] :: image_messages e
  | CeTypeFirst => [[Lit $"cache options must start with `type=` if not an image"]]
  | CeOption e => [Lit $"error parsing cache option"] :: cache_option_messages e
  | CeMissingRef => [[Lit $"cache type `registry` missing required `ref` option"]]
  end.
Definition ssh_id_messages (e : ssh_id_error) : messages :=
  [[Lit match e with
        | EmptyId => $"ssh auth ID cannot be empty"
        | MissingPath => $"non-default ssh auth requires a path to a PEM file or to the ssh-agent socket"
        end]].
(** [ParsePermissionsError], device.rs 169-171; [ParseDeviceError], 65-82; [ParseKindError], 354-356; [ParseCgroupRuleError], 250-271. *)
Definition permissions_messages (c : char) : messages :=
  [[Lit $"invalid device permission `"; Arg [c]; Lit $"`, must be `r` (read), `w` (write), or `m` (mknod)"]].
Definition device_messages (e : device_error) : messages :=
  match e with
  | DevEmpty => [[Lit $"device cannot be an empty string"]]
  | DevContainerPathMissing => [[Lit $"device must have a container path"]]
  | DevContainerPathAbsolute => [Lit $"device container path must be absolute"] :: absolute_path_messages
  | DevPermissions c => [Lit $"error parsing device permissions"] :: permissions_messages c
  end.
Definition kind_messages (s : str) : messages := [[Lit $"invalid device kind `"; Arg s; Lit $"`, must be `a` (all), `c` (char), or `b` (block)"]].
Definition cgroup_messages (e : cgroup_error) : messages :=
  match e with
  | CgEmpty => [[Lit $"device cgroup rule cannot be empty"]]
  | CgKind s => [Lit $"invalid device kind"] :: kind_messages s
  | CgNumbersMissing => [[Lit $"device cgroup rule missing major minor numbers"]]
  | CgNumber e => [Lit $"error parsing device major minor number"] :: int_messages e
  | CgPermissions c => [Lit $"error parsing device cgroup rule permissions"] :: permissions_messages c
  end.
(** [ParseError] of platforms, platform.rs 215-217. *)
Definition platform_messages (s : str) : messages := [[Lit $"unknown/invalid platform or platform part `"; Arg s; Lit $"`"]].
