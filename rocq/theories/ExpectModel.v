(** The texts of [Visitor::expecting] and [#[serde(expecting = ...)]], next to the types which are read with them. A value of a kind
    which a visitor does not take gives the message "invalid type: ..., expected " and the text (serde's [de::Error::invalid_type]).
    Left out are the texts which do not speak of kinds: "a single value or sequence" (serde.rs 354), "a value or -1" (service/limit.rs 94),
    "a single value, map, sequence, or enum" (common/short_or_long.rs 380) and those of structs which are part of another one
    (service/network_config.rs 176, service/build/dockerfile.rs 163, config.rs 170, secret.rs 159), and those of
    readers which are not used for a field of their own ([ShortRanges], service/ports.rs 565, and serde/display_from_str_option.rs 58). No proofs in this file. *)

From Coq Require Import String Ascii List NArith ZArith Bool.
Import ListNotations.
From Verif Require Import Base Num Serde Codec ScalarCodec CommonCodec ServiceParts HealthModel.
Open Scope N_scope.

Record expectation := expects { e_type : Set; e_codec : codec e_type; e_text : str }.
Arguments expects {e_type} _ _.

(** Each type with its text; a doubled quotation mark stands for one. *)
Definition expectations (w : externals) : list expectation :=
  [ (** [Value], common.rs 368; [Number], 601; [ListOrMap], 266. *)
    expects value_c $"a string, integer, float, or boolean";
    expects number_c $"an integer or float";
    expects list_or_map_c $"a sequence of strings or map of strings to optional values";
    (** serde/duration_option.rs 43. *)
    expects duration_c $"integer representing microseconds or a duration string";
    (** [Count], service/deploy/resources.rs 580. *)
    expects count_c $"""all"" or an integer";
    (** [ByteValue], service/byte_value.rs 159; [IdOrName], service/user.rs 250. *)
    expects byte_value_c $"an integer (representing bytes) or a string in the from ""{value}{unit}""";
    expects id_or_name_c $"an integer or string";
    (** [ShortPort], service/ports.rs 397-400; [Range], 849-852; [Expose], service/expose.rs 100. *)
    expects (short_port_c w) $"an integer or string in the format ""[[{host_ip}:][{host}]:]{container}[/{protocol}]""";
    expects range_c $"an integer or string in the format ""{start}[-{end}]"" where start and end are integers";
    expects expose_c $"an integer or string representing a port or port range";
    (** [Healthcheck], service/healthcheck.rs 67; the test of one, 210-213. *)
    expects healthcheck_c $"a map defining a healthcheck";
    expects test_c $"a string or a sequence of strings, the first being `CMD`, `CMD-SHELL`, or `NONE`";
    (** [Command], service.rs 867; [EnvFile], service/env_file.rs 82. *)
    expects command_c $"a string or list of strings";
    expects env_file_c $"a string or list of strings or maps";
    (** [CredentialSpec], service/credential_spec.rs 60. *)
    expects credential_spec_c $"struct CredentialSpec";
    (** [Context], service/build/context.rs 204; [MacAddress], service/network_config.rs 474; [ShortVolume], service/volumes.rs 78;
        [CacheType], service/build/cache.rs 23; [SshAuth], service/build/ssh_auth.rs 18. *)
    expects (context_c w) $"a string representing a path or URL";
    expects mac_c $"a MAC address string in hex format, e.g. ""92:d0:c6:0a:29:33""";
    expects short_volume_c $"a string in the format ""[{source}:]{container_path}[:{options}]""";
    expects cache_c $"an image name or string in the format ""type=TYPE[,KEY=VALUE,...]""";
    expects ssh_auth_c $"""default"" or ""{id}={path}"" string" ].

(** [StringOrNumber], common.rs 806; [Cpus], service/deploy/resources.rs 303; [CpuSet], service/cpuset.rs 17. *)
Definition string_or_number_text : str := $"a string, integer, float, or boolean".
Definition cpus_expects : str := $"a number".
Definition cpuset_expects : str := $"a comma-separated list (0,1), a range (0-3), or a combination (0-3,5,7-9)".
Definition all_expectations (w : externals) : list expectation :=
  expectations w ++ [expects string_or_number_c string_or_number_text; expects (cpus_c w) cpus_expects; expects (cpuset_c w) cpuset_expects].
(** The default of [FromStrVisitor] and [TryFromStringVisitor], serde.rs 458-462, 519-523: all other types read by [text_c]. *)
Definition from_string_text : str := $"a string".
