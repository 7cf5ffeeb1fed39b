# Formal model of compose_spec_rs: design

The code under study is the Rust crate in `/repo` (read as text only). The model is in
`rocq/theories`, written for Coq 8.16.1, library root `Verif`.

## 1. Trusted base

* Coq's kernel (checked again with `coqchk`).
* `Print Assumptions` is run under every theorem in the `Props*.v` files. The answer is
  `Closed under the global context` for every one of them: no axiom, of our own or of a library, is used. See section 6.
* The hand translation from Rust to Gallina. Every definition of a model file carries a comment with the
  file and the lines it models.
* The modelling conventions of section 2.

## 2. Modelling conventions

* `char` is a Unicode scalar value as an `N`; `str` is a list of them. Where the Rust code uses byte
  offsets or byte lengths, the model uses the UTF-8 width of each character.
* Strings written `$"abc"` are ASCII literals.
* `Result<T, E>` is `result E T` (`Ok`/`Err`). A function that contains a reachable-looking panic site
  (`expect`, slice indexing, unchecked arithmetic) returns `outcome E T`, with a third constructor `Panic`.
* Integer types are `N`/`Z` with explicit bounds. `checked_*` is written as a comparison with the bound.
  Raw `+`/`-` on `u16` takes the build profile as a parameter: it panics with overflow checks on and
  wraps with them off.
* `u16/u32/u64::from_str` follow the standard library: optional single leading `+`, digits only, at
  least one digit, error on overflow.
* `IndexMap`/`IndexSet` are association lists/lists in insertion order; `insert` on an existing key
  keeps the position and replaces the value. `BTreeSet<u64>` is a strictly increasing list.
* `Display` is a function to `str`; `Serialize`/`Deserialize` are functions to and from a small data
  model (null, bool, integer, string, sequence, map) standing for serde's.
* External code (YAML text layer, `Url`, `IpNet`, float printing and parsing, `Path` on other platforms) is not
  modelled. Where a function needs it, it is an argument: a `Section` variable, or a field of the record
  `externals` (`ScalarCodec.v`). Theorems are universally quantified over it, with the laws needed as an explicit
  hypothesis: `externals_ok w` says that the text of a parsed URL parses to itself, the same for IP networks, and that
  `.` is not a URL.
* A struct with derived `Serialize`/`Deserialize` is a *table* of members (`Codec.v`): a name, a codec for the value, the
  default if the field may be missing, and the `skip_serializing_if` test. `struct_c`, `struct_ext_c` (with flattened
  extensions) and `struct_ext_once_c` (hand-written visitor that also refuses repeated extension keys) give a writer and
  a reader for any table. A codec has five parts: `ser`, `de`, the values it is meant for (`wf`), what a value is
  read back as (`norm`), and whether reading panics (`panics`; for `de` a panic is a failure). `panics` follows the order of
  reading: entries in the order of the document, then missing fields, then flattened structs; `serde`, `serde_yaml` and
  `indexmap` themselves are taken not to panic, and memory not to run out (a `cpuset` of `0-18446744073709551615` would).
* The serde data model is that of a *self-describing value* (`sval`): `load` takes every value for what it is. What
  `serde_yaml` really hands to a type depends on what the type asks for: `from_str` gives the text of a plain scalar such as `8080`
  to a `deserialize_str`, and takes an empty value for an empty map or sequence; `from_value` takes a null for one. `NodeModel.v` adds
  this: documents are trees of plain and quoted scalars, a `hint` per type says what is asked for, and `from_text` and
  `from_value` are `load` after `seen` and `seen_value`. So what is proved of `load` for all values holds of both for what is seen,
  and C78 relates the three. Which plain scalars are numbers is a parameter; YAML syntax (parsing, anchors, tags) is not modelled.
  Inside flattened or tagged content, serde also accepts `{variant: null}` for a unit enum; the only such enum here is `BindPropagation` (`buffered`, C88).

## 3. File layout

* `Base.v`, `Num.v`, `Coll.v`, `Serde.v`, `Regex.v`: strings, results, integer parsing and printing, index maps and sets, the
  serde data model, regular expressions (for specifications). `*Facts.v`: lemmas about them.
* `*Model.v`: translation of one or more Rust files. No proofs.
* `Codec.v`, `ScalarCodec.v`, `CommonCodec.v`, `ServiceParts.v`, `MountCodec.v`, `HealthModel.v`, `ServiceCodec.v`, `ComposeCodec.v`:
  serialization and deserialization, from scalars up to a whole compose file. No proofs.
* `ErrorText.v`: the messages of errors.
* `EmptyModel.v`, `ShortModel.v`: the `is_empty` functions and the `AsShort` implementations.
* `*Spec.v`, `*Lang.v`: independent specification (grammars, meanings), when needed.
* `*Proofs.v`, `*Good.v`, `ReadFacts.v`, `OrderFacts.v`, `ExactFacts.v`: lemmas.
* `Props*.v`: the theorems, `Print Assumptions`, and an `Example` showing a concrete case which meets the hypotheses.

## 4. Properties and what is modelled

| id | theorems in | method |
|----|-------------|--------|
| C01-C03 | `PropsDuration` | digit/unit tokenizer lemmas, induction on input; grammar in `DurationSpec`; C03 is false: refuted, with the exact panicking inputs |
| C04-C07, C09 | `PropsKeys` | regular expressions as specification, `KeysSpec` |
| C08 | `PropsUser` | round trip via languages |
| C10-C14, C49, C50, C65 | `PropsPorts` | round trips, invariants over operation sequences, IP addresses modelled in `IpModel` |
| C15-C17 | `PropsBytes` | round trip, exact language, limits generic in the inner type |
| C18-C19 | `PropsCpuSet` | invariant on the run being written |
| C20-C21 | `PropsDevice` | round trip, exact meaning |
| C22, C24, C38 | `PropsNet` | round trip, exact meaning |
| C23 | `PropsPlatform` | every table the macro accepts, then the crate's table |
| C25-C27, C48 | `PropsVolumes` | round trip, permutation invariance, path histories |
| C28-C31 | `PropsImage` | grammar in `ImageSpec`, byte offset invariant over setter histories |
| C32-C34, C47 | `PropsValues` | exactness; floats as parameters |
| C35-C36 | `PropsValidate` | iff theorem, first error |
| C37, C43, C46, C51 | `PropsText` | round trips and exact ranges |
| C39, C45 | `PropsSources` | exactly one of a group of fields |
| C40 | `PropsHealth` | acceptance characterised by look-ups, permutation theorem |
| C41-C42 | `PropsBuild` | exact language, exact set of values that come back |
| C44 | `PropsShort`, `PropsBytes`, `PropsPorts`, `PropsVolumes` | expanding the short form gives the long form back |
| C52 | `PropsEnum` | derived names against the hand-written texts |
| C53-C59 | `PropsCompose` | codec laws composed over the tables, reader facts |
| C61-C62 | `PropsPortText` | grammars in `IpSpec`/`PortsSpec`, parser combinator lemmas in `IpLang` |
| C63-C64 | `PropsSchema` | schema in `Schema`, `SchemaText`, `ComposeSchema`; `loads codec shape` proved for every codec bottom up (`SchemaFacts` to `ComposeLoads`) |
| C66 | `PropsDocument` | uses and declarations in `DocumentSpec`, on the document; the loaded value seen as `ValidateModel`'s records by `ComposeView` |
| C67 | `PropsDefault` | `DefaultModel` (Default from the types), `NamesSpec` (names of each field) |
| C68 | `PropsWritten` | `WrittenSpec`: keys, order and skip conditions from the attributes |
| C69 | `PropsOptions` | `MergeSpec`: which entry of which mapping decides, as relations |
| C70 | `PropsHash` | `HashModel` (what each `Hash` impl feeds to the hasher), laws in `HashSpec`, an instance per type in `HashFacts` |
| C71 | `PropsResource` | reading as a relation over all orders of the hash map |
| C72 | `PropsContext` | exact shape of the path, `ContextModel` |
| C73 | `PropsErrors`, `PropsErrors2` | which texts give which error, `ErrorSpec` |
| C74 | `PropsPanic` | places of durations and ports, `PanicSpec`; C74 is false: refuted, with the exact places and texts |
| C75-C76 | `PropsChange` | one change at one place of a document, `ChangeSpec`; `blind codec change` proved up the table of codecs |
| C77 | `PropsSpell` | meanings and places in `SpellSpec`, same method |
| C78 | `PropsNode` | `le hint`: one value shows more than another; every codec is monotone for its hint |
| C79-C80 | `PropsMacro` | what attributes say, `MacroSpec`; the generated code run on values of any type |
| C81 | `PropsForms` | short and long forms of documents and their places in `FormsSpec`; files equal up to conversion, `FormsSame`; validation refuted, with the exact exception |
| C14, C23, C27, C28, C32, C33, C44 (lists and single conversions) | `PropsParts` | the same for lists of ports and volumes, parts of an image, `StringOrNumber`, `ShortOrLong`, `ItemOrList` |
| C82 | `PropsApart` | prefix-freeness of what `HashModel` feeds, up to the equality of `EqModel`; assumed of `Path` and `Value` |
| C83 | `PropsQuotes` | places with text and with keys in `QuoteSpec`; refuted at other places, one by one |
| C84 | `PropsConv` | `made`: everything that sequences of public calls can make, closed under the accessors; conversions in `ConvModel` |
| C85 | `PropsItemText` | `kept`: the texts of `NAME=TEXT` items which are printed as they were written, by their digits |
| C86 | `PropsReload` | `comes_back`: how an entry of `volumes_from` is misread; `compose_comes_back`: the same value in every other field |
| C87 | `PropsErrorText` | `tells`: no two errors share a message; `fills`: finitely many one-line forms around a piece of the rejected text (`ErrorTextSpec`); the texts themselves are in `ErrorText` |
| C88 | `PropsVariant` | `gives`: the three ways in which a propagation is given |
| C89 | `PropsMac` | `usual`: six pairs of hexadecimal digits |
| C90 | `PropsCompare` (model: `CompareModel`) | what a limit allows, an address as a number, the bytes a value stands for; floats as integers times 2^-1074 |
| C91 | `PropsEdit` (model: `EditModel`) | *comes back* is reading what is written, for a field alone and for the whole file; the values of single fields by plain conditions (no fraction of a microsecond, not an empty map, ...) |
| C92 | `PropsKeep` (proofs in `KeepFacts`, `KeepWhole`, `KeepLoads`) | `KeepSpec`: for each type, what its values can be (grammars of names, ranges of numbers, no key twice) and a plain condition under which a value comes back (no part of a microsecond, no colon in a device path, not an empty map, ...); nothing in it reads or writes, except the oracles for URLs and subnets |
| C93 | `PropsSettle` (proofs in `SettleFacts`, `SettleBack`) | `SettleSpec`: a condition on the fields which are written as one text, and for each field the function it goes through (`cut` to microseconds, `unsigned`, an empty map to an empty list, all others `same`) |
| C94 | `ExpectModel`, `PropsExpect` | `ExpectSpec`: the kinds of values which an English text names, by its words, and the kinds which a type accepts |
| C95 | `IntoModel`, `PropsInto` | `plain_text`: the text of a scalar as it stands in a file |
| C96 | `PropsSettleView` | the validation itself (`ValidateModel`, stated by `PropsValidate`) before and after |
| C97 | `PropsDefined` | `DefinedSpec`, `DocumentSpec`: what services of the document use and the document declares |
| C98 | `PropsMonotone` | `DocumentSpec`: the services of two documents and what the documents declare; the error, other than the verdict, does depend on the order (`error_order_refuted`) |
| C99 | `PropsRemove` | `removable`: what is read before and after, by the names of `NamesSpec` |
| C100 | `PropsAdd` | `addable`: what is read before, after and alone, by the names of `NamesSpec`; false for the two pairs of C39 (`all_addable_refuted`) |
| C101 | `PropsAgree` | `AgreeSpec`: the attributes of a document which have the same meaning |
| C102 | `PropsConflict` | `ConflictSpec`: the attributes of a document which exclude each other by their documentation |
| C60 | `PropsEmpty` | `is_empty` against what is written |

### Coverage by Rust file

Modelled completely, error message texts included (`ErrorText`, messages of `std` as known to the author), apart from `Borrow`/`AsRef`/`From` boilerplate, accessors that return a field,
and the `#[cfg(test)]` modules: `duration.rs`, `name.rs`, `common/keys.rs`, `service/{hostname,user,ports,byte_value,limit,ulimit,cpuset,
device,expose,volumes,platform,healthcheck,config_or_secret,env_file,credential_spec,blkio_config,develop,deploy}.rs`,
`service/volumes/mount.rs`, `service/image.rs` and `service/image/*.rs`, `service/build/{cache,ssh_auth,network}.rs`,
`service/deploy/{endpoint_mode,resources}.rs`, `volume.rs`, `network.rs`, `config.rs`, `secret.rs`, `include.rs`,
`serde/{duration_option,duration_us_option,display_from_str_option}.rs`, `compose_spec_macros/src/platforms.rs` and
`platforms/{os,arch}.rs`.

| file | modelled | not modelled |
|------|----------|--------------|
| `lib.rs` | `Compose` and its (de)serialization, validation, `ValidationError` text | the thin wrappers over `serde_yaml` |
| `options.rs` | all of it, and `serde_yaml`'s `Value::apply_merge` as known to the author (its source is not in the repository) | parsing of YAML text; the order of `apply_merge` errors; tagged values |
| `Eq`, `Ord`, `Hash` | of amounts and addresses (`CompareModel`), of the elements of index sets, of `Image` and `image::Name` (`HashModel`); the path and value hashes are parameters with laws | of types that are never put in a set; `std`'s hasher (any function of what is fed to it) |
| `common.rs` | values, numbers, list-or-map, extensions, resources, `ItemOrList` (`FormsModel`) | conversions that only wrap |
| `common/short_or_long.rs` | the type, (de)serialization, `AsShort` results, `into_long` and the other conversions (`FormsModel`) | iterator adaptors |
| `service.rs` | `Service` and all its small types, `extra_hosts`, validation | `Service::into_*` sugar |
| `service/network_config.rs` | MAC addresses, modes, networks, exclusive fields | iterators |
| `service/build.rs`, `build/context.rs`, `build/dockerfile.rs` | (de)serialization, short form, git URLs (`ContextModel`) | `Url` parsing (a parameter), `From` impls |
| `serde.rs` | the visitors, through the codecs that use them; `error_chain` (`ErrorText`); what `expecting` says (`ExpectModel`) | the unused `visit_*` of other formats |
| `compose_spec_macros/src/{as_short,serde,default}.rs` | the macros as functions of `syn`'s tree (`MacroModel`), and their result for the crate's structs (`ShortModel`, `DefaultModel`) | tokens, spans, generics |
| `compose_spec_macros/src/platforms/prefix.rs` | the choice between definitions and its message | parsing of tokens |

## 5. Findings

Each is a theorem about the model; the name of the theorem is in parentheses. Nothing here was run: they are read off the
code through the model.

### Panics

* `duration::parse` panics on any digit run larger than `u64::MAX` that is followed by a unit: the `expect` at duration.rs 117
  (`duration_parse_total_refuted`; `duration_parse_panics_exactly` gives the exact inputs).
* `ShortRanges::from_str`/`ShortPort::from_str` panic with overflow checks on `9-5:9-5` and on `0-65535:0-65535`
  (`short_port_parse_total_refuted`, `short_ranges_parse_panics_exactly`).
* Both reach users: loading a file with such a text at one of 14 places (`PanicSpec.places`: the durations of a service, its health check
  and its deploy section, and the ports) panics (`load_total_refuted`, `load_panics_located`, `load_panics_exactly`).
* `Range::size` of `0-65535` overflows `u16` (`port_range_size_refuted`, `port_range_size_panics_exactly`).
* `Image::from_parts` caches the position of the tag after it has been pushed; the accessors then panic
  (`image_from_parts_panics`, `image_from_parts_refuted`; without tag and digest it is right, `image_from_parts_name`).
  `Image::set_registry(None)` panics on an image that is only a registry (`image_set_registry_refuted`; with a tag, `name` panics
  afterwards, `image_set_registry_tag_refuted`); other histories keep the image consistent with its text, with the exact condition under which the text parses to the same image
  (`image_history_partial`, `image_step_total`); it need not after `set_registry` and `set_name` (`image_set_registry_reparse_refuted`,
  `image_remove_registry_reparse_refuted`, `image_set_name_reparse_refuted`).

* `Image::as_name` of an image made by `from_parts` with a tag or digest returns the whole text as a `Name`, which is not a name
  (`unchecked_names_refuted`); texts, tags and digests stay valid in every history (`image_texts`, `unchecked_tags`).

### Wrong acceptance or rejection

* `Range::from_str` accepts reversed ranges (`port_range_parse_ordered_refuted`); in release builds `65535-0:1-2` is accepted
  with sizes that agree only modulo 2^16 (`short_ranges_pairing_release_refuted`).
* `CpuSet` accepts a reversed range and reads it as nothing (`cpuset_reversed_range_empty`).
* Images: a registry with a port and no path cannot carry a digest; `localhost:5000/x` is rejected; a port may be written `+443`;
  a tag may start with `.` or `-` (`image_language_partial`, `image_language_refuted`, `name_port_plus_refuted`, `tag_language`, `tag_oci_refuted`).
* A cache `type=local` with no options is rejected, because it has no comma (`cache_round_trip_refuted`).
* `failure_action: rollback` is rejected (`closed_enums` lists all accepted texts).
* `validate_volumes` reports a volume mounted twice by a single service as shared (`validate_volumes_one_service_refuted`;
  `validate_volumes_fails_only` shows this is the only deviation).
* Healthchecks: `disable: false` then `test: [NONE]` is a disabled healthcheck, the other order is an error
  (`healthcheck_order_refuted`).
* `cpus: 2` is rejected for every integer, because the visitor lacks `visit_u64`/`visit_i64` (`integer_cpus_rejected`,
  `cpus_number_refuted`). `max_failure_ratio: 0.3` is rejected, the field is a `u64` (`fractional_failure_ratio_rejected`,
  `failure_ratio_number_refuted`).
* `extra_hosts`: a bad address is accepted if a later entry has the same host (`extra_hosts_all_checked_refuted`).
* Structs without extensions (`Dependency`, `Extends`, `BlkioConfig`, env file `Config`, `Develop`, `Include`) ignore unknown keys
  (`other_keys_ignored`).
* Repeated service names, extension keys and fields of a network are accepted, the last one wins (`repeated_keys_refuted`). With
  `Options::apply_merge` they are rejected, also in documents without `<<` (`options_plain_refuted`).
* `apply_merge`: a `<<` inside a merged mapping ends up as a key of the outer mapping and is not processed, so nested merging of
  services is rejected (`merge_nested_refuted`, `options_nested_refuted`). The cause is in `serde_yaml`.

* `Context::is_git_repo_url` is documented as "the path to end in .git": `https://host/.git` is not recognised,
  `https://host/a.git/` is (`git_url_documented_refuted`; `git_url_path` is the exact condition).

* `ParseDeviceError::Empty` and `ParseCgroupRuleError::Empty` are never reported: an empty device is "container path missing", an empty
  rule is the unknown kind `""` (`empty_error_unreachable`).

* A null is rejected for a duration, in a health check, in `credential_spec`, and for any attribute of an external network, volume, config
  or secret; for every other field with a default it is the same as nothing (`default_refuted`, `default_changes_nothing`), as long as
  an optional value is meant: for a list or map see the next entry but one.

* `uid: 5` of a config or secret must be text, `pids_limit: "5"` and the ulimits must not (`spelling_refuted`). This is about loading through
  a `Value`; read directly, `serde_yaml` gives the text of a plain `5` where text is wanted.

* Setting `apply_merge`, which reads a `Value` first, changes what is accepted even when there is nothing to merge: `version: 3.8`,
  `container_name: 123`, `user: 1000`, `uid: 103`, and services or labels with a number as name are accepted without and rejected with it;
  `cap_add: null` and `services: {a: null}` are rejected without and accepted with it (`text_value_refuted`,
  `value_text_refuted`, `options_text_refuted`). What is accepted both ways means the same (`options_text_agree`). The cause is in
  `serde_yaml`.

* `cap_add:` with nothing after it is an empty list, `environment:`, `labels:`, `depends_on:` and all other lists that may be maps are
  rejected (`left_out_text`, `left_out_forms_refuted`).
* Whether text that looks like a number or boolean needs quotes depends on how its struct is read: `services.a.hostname: 5` does not,
  `networks.a.driver: 5`, `build.dockerfile: 5` and the `source` of a long volume do (`quotes_free_partial`, `quotes_free_refuted`).

* A set of volumes or ports does not know that a short and a long form are equal: `volumes: [data:/a, data:/a]` is one volume, with one of
  them in the long form there are two, and validation reports `data` as used by more than one service (`forms_validate_refuted`;
  `forms_same` and `forms_validate_partial`: apart from that, short and long forms are the same everywhere).
* C64: the documentation of `Cpus` says that the number is positive; zero is accepted (`cpus_positive_refuted`) and negative zero is not
  (`cpus_accepted`, which says exactly which floats are).
* C88: in long volume syntax, `propagation: {4: null}` and `propagation: {rprivate: {}}` are accepted as `rprivate`
  (`only_names_refuted`), because serde reads an internally tagged enum from its buffered `Content`. Which values are accepted is
  `propagation_reads`.
* C97: `validate_all` is documented to ensure that all resources used in each service are defined. The secrets of `build` are never looked at (`build_secrets_defined_refuted`), and a volume which is mounted once need not be defined (`volumes_defined_refuted`; this is what `validate_volumes` documents). Services named in `depends_on` need not exist (`services_defined_refuted`, not promised). The network `default`, which every project has according to the Compose specification, is rejected unless it is defined (`default_network_refuted`).
* C101: `cpus`, `mem_limit`, `mem_reservation`, `pids_limit` and `scale` "must be consistent" with attributes of `deploy` according to their documentation; nothing checks this, neither loading nor validation (`agree_refuted`, `deploy_beside_anything`). A static address does not need a network with `ipam` either, though its documentation says so (`static_address_refuted`).
* C102: `count` and `device_ids` of a reserved device "conflict" according to their documentation, and `ports` "cannot be used with" the network mode `host`. Both are accepted together by loading and by validation (`device_conflict_refuted`, `host_ports_refuted`, `no_conflict_refuted`), whatever the other attributes are (`count_beside_anything`, `device_ids_beside_anything`, `ports_beside_anything`).

### Values that do not come back

* `Device`/`ShortVolume` paths containing `:` (`device_colon_round_trip_refuted`, `short_volume_colon_refuted`).
* `ShortVolume::into_long` drops the SELinux label of a named volume (`short_long_lossless_refuted`); `Volume::into_short` drops
  `read_only` of an anonymous volume (`long_short_read_only_refuted`); `Bind::into_short` without options turns
  `create_host_path` on (`long_short_create_host_path_refuted`).
* `Add<u16>`/`Sub<u16>` for `Range` wrap in release builds (`port_range_shift_release_refuted`).
* `Value`: `-0` prints as `0`, read as an unsigned integer; floats printed without a dot come back as integers
  (`value_reparse_refuted`, `value_float_text_refuted`). `ListOrMap::into_list` then `into_map` loses entries and changes values
  (`map_to_list_refuted`).
* `volumes_from`: a writable container called `ro`/`rw` is printed as `container:ro`, which reads as a service
  (`volumes_from_round_trip_refuted`, `volumes_from_reload_refuted`); through it a whole file changes meaning when saved and
  loaded, and a set of two entries loses one (`compose_reload_volumes_from_refuted`, `compose_save_stable_refuted`).
* `Cache` options with commas, and `Other("registry")` (`cache_comma_refuted`, `cache_registry_type_refuted`); `SshAuth` ids
  with `=` (`ssh_auth_round_trip_refuted`).
* An empty map of a list-or-map field comes back as an empty list (`compose_reload_refuted`) and differs from an absent one
  (`default_refuted`).
* Networks, volumes, configs and secrets are read through a `HashMap`: the order of their extensions is arbitrary, so loading and
  saving one document can give different texts (`resource_order_refuted`; nothing else depends on it, `resource_order`).
* Two equal images may differ: one made by `from_parts`, one parsed; an accessor of the first panics (`image_equal_refuted`).
* `AsShort`: `Build` loses the form of empty `args`/`labels` (`build_short_exact_refuted`), the networks list loses `Some(empty)`
  (`service_networks_short_exact_refuted`), `Include` turns a one-element list into an item (`include_short_exact_refuted`).
* C89: the first byte of a MAC address is written without a leading zero: `02:42:ac:11:00:02` is saved as `2:42:ac:11:00:02`, which is not
  the usual notation (`mac_usual_refuted`; exactly the addresses whose first byte is below 16, `mac_usual_partial`). Read are also groups like
  `+2` and `0042` (`mac_only_usual_refuted`).
* C90: `ByteValue`s which stand for the same number of bytes need not be equal: `1kb` and `1000b` (`byte_value_equal_refuted`).
* C91: values which the public fields allow but which do not survive saving (`api_values_kept_refuted`): `stop_grace_period` of 1.5 µs comes back as 1 µs; `cpu_period: Some(Duration::MAX)` is written as a number beyond 64 bits and the whole file cannot be loaded again (`serde/duration_us_option.rs` writes `as_micros()`, a `u128`, and reads a `u64`); `Number::SignedInt(5)` comes back as `UnsignedInt(5)`; `ListOrMap::Map({})` as `List([])`; `Ipc::Other("shareable")` as `Shareable`. `times_kept`, `maps_kept`, `ipc_kept` and `volumes_from_kept` say exactly which values of these fields come back.
* C92: the complete list of values which the types allow and which are lost or changed (all of `KeepSpec`'s `_keeps` which are not `any`): parts of a microsecond in every duration; `cpu_period`/`cpu_quota` of more than 2^64 µs; signed numbers which are not negative; empty maps in a `ListOrMap` and `depends_on: {}`; `Other` variants with the text of a named variant (`Ipc`, `NetworkMode`, `Protocol`, `EndpointMode`, `Capability`, `NetworkDriver`, cache type `registry`) and the build network named `none`; paths with a colon in a device or a short volume; an SSH id with `=`; cache options with `,` or `=`, a registry cache with an option `ref`, another cache without options; a build context path which is the text of a URL; `volumes_from` the containers `ro` and `rw`; images whose remembered positions are not those of their text (C29). Everything else comes back.
* C93: apart from texts which are read as something else, a saved file is always readable and changes in four ways only: times are cut to microseconds, signed numbers which are not negative become unsigned, an empty `ListOrMap::Map` becomes an empty list and an empty long `depends_on` a short one. The only loaded files which are not covered are those with `volumes_from` a container named `ro` or `rw` (`loaded_legible`, the finding of C53).
* C96: a file which is not legible can be invalid before it is saved and valid after: the mounts of `data` at `/b`, read only, and at `/b:ro` are both written `data:/b:ro` and come back as one, so that `data` is no longer used twice without being defined (`saved_validates_refuted`).

### Macros

* `AsShort` on a struct whose only field is the short one is accepted and expands to `if { .. } else { .. }`, which is not Rust
  (`single_field_refuted`); with a second field it is (`as_short_compiles_iff`).
* `std::option::Option<T>` is not recognised as an `Option`: such a field is tested with `is_empty`, and as the short field it is the short
  form itself (`qualified_option_refuted`).
* `PeekIdent::error` asks whether its message is empty after starting it with "expected", so that the message is
  "expected or `Platform` or ..." (`peek_error_says`, `peek_error_refuted`).

* C85: `ListOrMap::into_map` reads the text of `NAME=TEXT` as a scalar, and `additional_contexts` prints this scalar again to
  get a path. The directory in `additional_contexts: [app=007]` becomes `7`, and `[app=1.10]` becomes `1.1`
  (`contexts_kept_refuted`); `A=` becomes `A` (`list_items_kept_refuted`).

### Messages

* The message about a character in the algorithm of an image digest has a line break and eight spaces in it: the string literal of
  digest.rs 127-130 goes over two lines without a backslash (`digest_message_refuted`; the only such message, `digest_message_lines`).
* `ParseShortPortError::IpAddr` keeps the text which is not an address but does not show it, so that `1.2.3:80:80` and `localhost:80:80`
  give the same message (`short_port_tells_refuted`; the only such errors, `messages_tell`, `short_port_tells_partial`).
* An extension key with a line break is reported as a map key (`extension_key_message_refuted`).
* C94: three messages for a value of a wrong kind are wrong (`messages_tell_kinds_refuted`; the only ones, `messages_tell_kinds_partial`,
  `strings_tell`). `StringOrNumber` says that it expects a boolean, which it rejects (`string_or_number_kinds`). `cpus: 2` fails with
  "invalid type: integer `2`, expected a number" (`cpus_kinds`). `cpuset: [0, 1]` fails with "invalid type: sequence, expected a
  comma-separated list (0,1), ...", and the text does not say that a string is needed (`cpuset_kinds`).

### Noticed, not stated as a theorem

* `Network::is_empty` (service) tests `priority` twice; harmless.
* `BindOptions::from(SELinux)` has `create_host_path: false`, so that a `Bind` made from it has no short form.

## 6. Assumptions per theorem

`Print Assumptions` prints `Closed under the global context` for every theorem of every `Props*.v` file (the build log shows it).
`coqchk` lists the axioms of libraries that are loaded because `Lia`/`ZifyBool` load them; no theorem depends on them.

Hypotheses that appear in statements and what they stand for:

* `externals_ok w` (whole files only): the laws about `Url` and `IpNet` of section 2. It is satisfiable: `w0_ok` in `PropsCompose.v`.
* `wf c a`: the value is one that the Rust type can hold and whose text can be read back. Where `wf` excludes values that
  the Rust type does hold, a refutation shows why (section 5).
* Float round trips: the hypothesis on `float_value`/`float_show` in the statement.

## 7. Testing the theorems

`seeded/LOG.jsonl` has one line per wrong program tried. The model was edited in a copy outside this directory and rebuilt. In the
earlier copies the `Example`s were removed; in the later ones they stayed, and may appear under `lemmas`, but nothing rests on them and they do not count as
theorems which failed. A lemma whose proof no longer went through was admitted in that copy so
that the build went on, and the theorems listed as failed are those which `Print Assumptions` then showed to rest on such a lemma. So a
line shows that a proof noticed the edit; it does not show that the statement of every theorem listed is false of the edited program.
Automatic edits were stopped at the first proof that failed, which may be that of a lemma; only that one is listed. Most later edits were
built only as far as the theorems they were meant for. Edits that did not type-check are listed with a note and show nothing.
