{"id": "C01", "title": "Duration text round trip", "statement": "For every std Duration d, duration::parse(duration::to_string(d)) is Ok and equals d truncated to whole microseconds; in particular it is never an error and never a panic.", "quantifier": "all Durations (all u64 seconds, all nanoseconds below 10^9)", "why_tests_cant": "2^64 * 10^9 inputs; the carries between h/m/s/ms/us and the u64 overflow checks only matter at extreme values that sampling does not reach.", "anchors": ["src/duration.rs: to_string, push_value, parse, add_duration"]}
{"id": "C02", "title": "Duration parser meaning", "statement": "duration::parse(s) succeeds exactly when s is a non-empty concatenation of terms digits+unit with unit in {h,m,s,ms,us}, every value and partial sum in range, and then returns exactly the sum of the terms; every other non-panicking input is rejected.", "quantifier": "all strings", "why_tests_cant": "soundness and completeness against a grammar quantify over infinitely many strings.", "anchors": ["src/duration.rs: parse, add_duration"]}
{"id": "C03", "title": "Duration parser does not panic", "statement": "duration::parse returns Ok or Err for every string (the documentation promises an overflow error for values that are too large).", "quantifier": "all strings", "why_tests_cant": "absence of panics over all strings; proptest strings practically never contain a 20-digit run.", "anchors": ["src/duration.rs: parse (expect at line 117)"]}
{"id": "C04", "title": "Project name language", "statement": "Name::new(s) succeeds iff s matches ^[a-z0-9][a-z0-9_-]*$; the value prints back as s, and on failure the error names the first offending character.", "quantifier": "all strings", "why_tests_cant": "language equality over all strings.", "anchors": ["src/name.rs: Name::new"]}
{"id": "C05", "title": "Identifier language", "statement": "Identifier::new(s) succeeds iff s matches ^[a-zA-Z0-9][a-zA-Z0-9._-]*$; the value prints back as s, and on failure the error names the first offending character.", "quantifier": "all strings", "why_tests_cant": "language equality over all strings.", "anchors": ["src/common/keys.rs: Identifier::new"]}
{"id": "C06", "title": "Map key and extension key languages", "statement": "MapKey::new(s) succeeds iff s is non-empty and has no newline; ExtensionKey::new(s) succeeds iff s is a valid map key starting with x-; strip_prefix on an extension key never panics and undoes the prefix.", "quantifier": "all strings", "why_tests_cant": "language equality over all strings; strip_prefix relies on an invariant of every constructible key.", "anchors": ["src/common/keys.rs: MapKey::new, ExtensionKey::new, ExtensionKey::strip_prefix"]}
{"id": "C07", "title": "Hostname language", "statement": "Hostname::new(s) succeeds iff s is a non-empty dot separated list of labels, each non-empty, made of ASCII letters, digits and -, and neither starting nor ending with -.", "quantifier": "all strings", "why_tests_cant": "language equality over all strings.", "anchors": ["src/service/hostname.rs: Hostname::new"]}
{"id": "C08", "title": "User and group text round trip", "statement": "For every User (and every IdOrName) value, parsing its printed form gives the same value; a valid user name is never read back as a numeric id.", "quantifier": "all u32 ids, all valid names, all user/group combinations", "why_tests_cant": "unbounded names; depends on the interplay of the name grammar with integer parsing.", "anchors": ["src/service/user.rs: User::parse, IdOrName::parse, Name::new, Display"]}
{"id": "C09", "title": "User name language", "statement": "The user name validator accepts exactly the strings of 1 to 32 bytes over [a-zA-Z0-9_$-] that are not all digits, do not start with -, and have $ only as last character.", "quantifier": "all strings", "why_tests_cant": "language equality over all strings.", "anchors": ["src/service/user.rs: Name::new"]}
{"id": "C10", "title": "Port range text round trip", "statement": "For every port Range built by Range::new, parsing its printed form gives the same range; for every string the parser accepts, printing and parsing again gives the same range.", "quantifier": "all pairs of u16, all strings", "why_tests_cant": "2^32 values and all strings.", "anchors": ["src/service/ports.rs: Range::new, Range::from_str, Display for Range"]}
{"id": "C11", "title": "Port ranges are well formed", "statement": "Every Range obtained from the public API (Range::new or parsing) has start < end when an end is present, so that size() is the number of ports and never overflows.", "quantifier": "all strings and all pairs of u16", "why_tests_cant": "invariant over all constructors; the failing inputs (reversed range, 0-65535) are corner cases.", "anchors": ["src/service/ports.rs: Range::new, Range::from_str, Range::size"]}
{"id": "C12", "title": "Short port ranges keep host and container the same size", "statement": "Every ShortRanges value reachable from ShortRanges::new, parsing and the replace/take operations has host and container ranges of equal size, and iterating it yields that many (host, container) pairs, pairing the k-th ports.", "quantifier": "all constructor inputs and all sequences of operations", "why_tests_cant": "invariant under arbitrary operation histories.", "anchors": ["src/service/ports.rs: ShortRanges::{new,replace_host,take_host,replace_container,into_iter}, ShortRangesIter::next"]}
{"id": "C13", "title": "Short port text round trip", "statement": "For every well-formed ShortPort (optional host IP, v4 or v6, optional host range, container range, optional protocol), parsing the printed form gives the same value.", "quantifier": "all ShortPort values whose protocol is representable", "why_tests_cant": "combinatorial in four fields over 2^128 addresses; the colon counting of the parser must be right for IPv6.", "anchors": ["src/service/ports.rs: ShortPort::from_str, Display for ShortPort", "src/service.rs: strip_brackets"]}
{"id": "C14", "title": "Port short/long conversion is lossless", "statement": "If Port::into_short succeeds, expanding the short port into long form yields exactly the original port; if it fails, the original port is handed back unchanged; expanding a short port gives one long port per container port, in order.", "quantifier": "all Port and ShortPort values", "why_tests_cant": "all field combinations.", "anchors": ["src/service/ports.rs: Port::into_short, ShortPort::into_long_iter"]}
{"id": "C15", "title": "Byte value text round trip and magnitude", "statement": "For every ByteValue, parsing the printed form gives the same value; into_bytes returns the exact number of bytes or None on overflow, never a wrapped value.", "quantifier": "all ByteValues", "why_tests_cant": "2^64 values per unit; overflow only near the boundary.", "anchors": ["src/service/byte_value.rs: FromStr, Display, into_bytes"]}
{"id": "C16", "title": "Byte value parser language", "statement": "A string parses as a ByteValue iff it is a u64 literal followed by nothing or one of b,B,k,K,kb,m,M,mb,g,G,gb, and the unit chosen is the one written.", "quantifier": "all strings", "why_tests_cant": "language equality; suffix stripping order matters for overlapping suffixes.", "anchors": ["src/service/byte_value.rs: FromStr"]}
{"id": "C17", "title": "Limit round trip", "statement": "For every Limit<T>, text and serde round trips give the same value, and -1 (text or integer) always means unlimited.", "quantifier": "all Limit values, all i64 integers", "why_tests_cant": "all integers; boundary at -1/-2.", "anchors": ["src/service/limit.rs: Display, FromStr, Serialize, Visitor"]}
{"id": "C18", "title": "CPU set round trip", "statement": "For every set of CPU ids, parsing the printed form gives the same set, and printing never overflows or panics, including ids up to u64::MAX.", "quantifier": "all finite sets of u64", "why_tests_cant": "exponentially many sets; run merging logic is inductive.", "anchors": ["src/service/cpuset.rs: Display, write_range, FromStr"]}
{"id": "C19", "title": "CPU set parser meaning", "statement": "When parsing succeeds the set contains exactly the ids listed singly or inside an inclusive range of the comma separated list.", "quantifier": "all strings", "why_tests_cant": "all strings, unbounded lists.", "anchors": ["src/service/cpuset.rs: FromStr"]}
{"id": "C20", "title": "Device mapping round trip", "statement": "For every Device whose host path has no colon (and container path has no colon), parsing the printed form gives the same device; permissions are read as a set.", "quantifier": "all devices with colon-free paths, all permission sets", "why_tests_cant": "unbounded paths.", "anchors": ["src/service/device.rs: Device::from_str, Display, Permissions"]}
{"id": "C21", "title": "Device cgroup rule round trip", "statement": "For every CgroupRule, parsing the printed form gives the same rule, including wildcards and empty permissions.", "quantifier": "all rules", "why_tests_cant": "2^16 * 2^16 * kinds * permissions.", "anchors": ["src/service/device.rs: CgroupRule::from_str, Display, MajorMinorNumber, Kind"]}
{"id": "C22", "title": "MAC address round trip", "statement": "For every MacAddress, parsing the printed form gives the same six bytes; every accepted string has six groups.", "quantifier": "all 2^48 addresses; all strings", "why_tests_cant": "2^48 values.", "anchors": ["src/service/network_config.rs: MacAddress::from_str, parse_next_hex, Display"]}
{"id": "C23", "title": "Platform round trip and consistency", "statement": "Platform parsing accepts exactly the strings os[/arch[/variant]] of supported combinations; parse and as_str are mutually inverse, os() and arch() agree with the text, and converting to Arch and back for that OS is the identity.", "quantifier": "all strings; all platforms", "why_tests_cant": "rejection ranges over all strings; table consistency ranges over a macro-generated product.", "anchors": ["src/service/platform.rs: platforms!", "compose_spec_macros/src/platforms/os.rs, arch.rs"]}
{"id": "C24", "title": "Expose round trip", "statement": "For every Expose value with a representable protocol, parsing the printed form gives the same value.", "quantifier": "all expose values", "why_tests_cant": "unbounded protocols and 2^32 ranges.", "anchors": ["src/service/expose.rs: FromStr, Display"]}
{"id": "C25", "title": "Short volume text round trip", "statement": "For every ShortVolume whose paths contain no colon, parsing the printed form gives the same volume, with host path/volume-name sources never confused.", "quantifier": "all short volumes with colon-free paths", "why_tests_cant": "unbounded paths and all option combinations.", "anchors": ["src/service/volumes.rs: ShortVolume::from_str, Display, Source::parse"]}
{"id": "C26", "title": "Short volume options are order independent", "statement": "The option list of a short volume is accepted iff no option is repeated, rw and ro are not both present, z and Z are not both present and every option is known; the outcome does not depend on the order.", "quantifier": "all strings / all permutations of option lists", "why_tests_cant": "all lists and permutations.", "anchors": ["src/service/volumes.rs: ShortVolume::from_str"]}
{"id": "C27", "title": "Short/long volume conversion is lossless", "statement": "Converting a short volume to long form and back gives the same short volume; if a long mount converts to a short volume, converting that back gives an equivalent mount (same target, source, read-only flag and options).", "quantifier": "all short volumes and all mounts", "why_tests_cant": "all field combinations of several nested structures.", "anchors": ["src/service/volumes.rs: ShortVolume::into_long", "src/service/volumes/mount.rs: Mount::into_short, Volume::into_short, Bind::into_short"]}
{"id": "C28", "title": "Image accessors decompose the text", "statement": "For every string accepted by Image::parse, the registry, name, tag and digest accessors never panic, and the registry/name/tag/digest pieces put back together are exactly the original string.", "quantifier": "all strings", "why_tests_cant": "byte offset arithmetic over all strings.", "anchors": ["src/service/image.rs: parse, parse_impl, registry, name, tag, digest, as_tag_or_digest"]}
{"id": "C29", "title": "Image language", "statement": "Image::parse accepts exactly name[:tag|@digest] where name, tag and digest are in their grammars.", "quantifier": "all strings", "why_tests_cant": "language equality over all strings.", "anchors": ["src/service/image.rs: parse_impl", "src/service/image/name.rs", "src/service/image/tag.rs", "src/service/image/digest.rs"]}
{"id": "C30", "title": "Image constructors and setters keep the image consistent", "statement": "After Image::from_parts and any sequence of set_registry, set_name, set_tag, set_digest, set_tag_or_digest the accessors return exactly the parts last set, never panic, and the text re-parses to the same image.", "quantifier": "all parts, all operation sequences", "why_tests_cant": "arbitrary histories of in-place string edits with cached byte offsets.", "anchors": ["src/service/image.rs: from_parts, set_registry, set_name, set_tag, set_digest, set_tag_or_digest, update_tag_or_digest_start"]}
{"id": "C31", "title": "Tag, digest and image name languages", "statement": "Tag::new, Digest::new and image Name::new accept exactly their documented grammars.", "quantifier": "all strings", "why_tests_cant": "language equality over all strings.", "anchors": ["src/service/image/tag.rs: Tag::new", "src/service/image/digest.rs: Digest::new", "src/service/image/name.rs: Name::new, validate_part"]}
{"id": "C32", "title": "Scalar value text round trip", "statement": "Value::parse(v.to_string()) gives back v for every bool, unsigned integer, negative integer and for every string that does not itself look like a bool or number; and for every string s, Value::parse(s).to_string() denotes the same value as s.", "quantifier": "all values and strings", "why_tests_cant": "all integers and strings.", "anchors": ["src/common.rs: Value::parse, Display for Value, Number::from_str, Display for Number"]}
{"id": "C33", "title": "Numeric conversions never change the number", "statement": "Every TryFrom from Number/Value/StringOrNumber to an integer type either returns the exact same mathematical integer or an error; it never wraps.", "quantifier": "all Numbers, all target integer types", "why_tests_cant": "boundaries of 12 integer types against u64/i64.", "anchors": ["src/common.rs: TryFrom<Number>, TryFrom<Value>"]}
{"id": "C34", "title": "List or map conversion", "statement": "Converting a ListOrMap map to a list and back into a map gives the same map whenever keys have no = and values are canonical; converting a list with distinct keys to a map preserves the order and content of its entries.", "quantifier": "all maps and lists", "why_tests_cant": "unbounded collections.", "anchors": ["src/common.rs: ListOrMap::into_list, into_map, into_map_split_on"]}
{"id": "C35", "title": "Validation is exact", "statement": "Compose::validate_all succeeds iff every network, config and secret referenced by any service is defined at top level and the named-volume condition holds; when it fails it reports the first violation in the documented order, naming a service that references the reported undefined resource.", "quantifier": "all compose files", "why_tests_cant": "all services, all reference lists.", "anchors": ["src/lib.rs: validate_all, validate_networks, validate_volumes, validate_configs, validate_secrets", "src/service.rs: Service::validate_*"]}
{"id": "C36", "title": "Shared volume validation", "statement": "Compose::validate_volumes fails only if some named volume not defined at top level is used by two different services, and always fails in that case.", "quantifier": "all compose files", "why_tests_cant": "all services and volume lists.", "anchors": ["src/lib.rs: validate_volumes", "src/service/volumes.rs: named_volumes_iter"]}
{"id": "C37", "title": "Links, IPC and volumes_from round trip", "statement": "For every Link, VolumesFrom and canonical Ipc value, parsing the printed form gives the same value.", "quantifier": "all values", "why_tests_cant": "unbounded identifiers and aliases.", "anchors": ["src/service.rs: Link, VolumesFrom, VolumesFromSource, Ipc"]}
{"id": "C38", "title": "Network mode round trip", "statement": "For every NetworkMode value other than an Other that spells one of the structured modes, parsing the printed form gives the same value; every string parses to a mode printing back as that string or is rejected because of an invalid service name.", "quantifier": "all modes and strings", "why_tests_cant": "unbounded strings.", "anchors": ["src/service/network_config.rs: NetworkMode::parse, Display"]}
{"id": "C39", "title": "Network mode and networks are exclusive", "statement": "Deserializing network_mode/networks succeeds iff at most one is present, and re-serializing gives back exactly the present field.", "quantifier": "all presence combinations and contents", "why_tests_cant": "all contents.", "anchors": ["src/service/network_config.rs: NetworkConfig, option::deserialize"]}
{"id": "C40", "title": "Healthcheck deserialization does not depend on field order", "statement": "Healthcheck deserialization gives the same result for every order of the map entries, disable: true or test NONE always wins as disabled, and conflicting combinations are rejected.", "quantifier": "all entry lists and permutations", "why_tests_cant": "all permutations and contents.", "anchors": ["src/service/healthcheck.rs: visit_map, DisableOrTest"]}
{"id": "C41", "title": "Build cache entry round trip", "statement": "For every Cache value, parsing its printed form gives the same value.", "quantifier": "all caches", "why_tests_cant": "unbounded option maps.", "anchors": ["src/service/build/cache.rs: Cache::parse, parse_str, Display, CacheOption::new"]}
{"id": "C42", "title": "SSH authentication round trip", "statement": "For every SshAuth value, parsing its printed form gives the same value.", "quantifier": "all ssh auth values", "why_tests_cant": "unbounded ids and paths.", "anchors": ["src/service/build/ssh_auth.rs: FromStr, Display, Id::new"]}
{"id": "C43", "title": "Open enums print and parse back", "statement": "For Driver, EndpointMode, Capability, Protocol, build Network: parsing any string and printing gives back the string, and printing then parsing any canonical value gives back the value.", "quantifier": "all strings", "why_tests_cant": "all strings.", "anchors": ["src/network.rs: Driver::parse", "src/service/deploy/endpoint_mode.rs", "src/service/deploy/resources.rs: Capability", "src/service/ports.rs: Protocol", "src/service/build/network.rs"]}
{"id": "C44", "title": "Short syntax is used only when nothing is lost", "statement": "For every long-syntax value, if AsShort yields a short form then expanding that short form gives back the same long value; hence serializing and deserializing ShortOrLong values keeps the long value.", "quantifier": "all long values (ulimit, config/secret, env_file, dependency, build, network map)", "why_tests_cant": "all field combinations.", "anchors": ["src/common/short_or_long.rs", "compose_spec_macros/src/as_short.rs", "src/service/ulimit.rs", "src/service/env_file.rs", "src/service/config_or_secret.rs"]}
{"id": "C45", "title": "Config and secret sources are exclusive", "statement": "Deserializing a config (secret) succeeds iff exactly one of file, environment, content (file, environment) is present, and serialization followed by deserialization is the identity.", "quantifier": "all presence combinations and contents", "why_tests_cant": "all contents.", "anchors": ["src/config.rs: Source", "src/secret.rs: Source"]}
{"id": "C46", "title": "Range-checked integers", "statement": "Percent, OomScoreAdj and Weight accept exactly the integers in 0..=100, -1000..=1000 and 10..=1000 and give back the same integer.", "quantifier": "all u8/i16/u16", "why_tests_cant": "boundary values of full integer ranges.", "anchors": ["src/service.rs: Percent::new, OomScoreAdj::new", "src/service/blkio_config.rs: Weight::new"]}
{"id": "C47", "title": "Extra hosts", "statement": "An extra_hosts entry host=ip or host:ip, with or without square brackets, is read as the pair of that host and that address, for IPv4 and IPv6; duplicates keep the last address.", "quantifier": "all hostnames and addresses", "why_tests_cant": "2^128 addresses and all host names; the first separator must be chosen correctly.", "anchors": ["src/service.rs: extra_hosts, strip_brackets", "src/common.rs: into_map_split_on"]}
{"id": "C48", "title": "Absolute and host paths keep their invariant", "statement": "AbsolutePath and HostPath values stay absolute (respectively absolute or dot-relative) after any sequence of push and pop.", "quantifier": "all paths and operation histories", "why_tests_cant": "arbitrary histories.", "anchors": ["src/service/volumes.rs: AbsolutePath, HostPath push/pop"]}
{"id": "C49", "title": "Parsing a port never panics", "statement": "Parsing any text as a short port or as port ranges returns Ok or Err; it never panics.", "quantifier": "all strings", "why_tests_cant": "The panic needs a reversed or full range on one side of the colon; sampled texts are unlikely to contain one.", "anchors": ["src/service/ports.rs: ShortRanges::from_str, Range::size"]}
{"id": "C50", "title": "Shifting a port range is exact", "statement": "Adding or subtracting n to a port range moves both bounds by exactly n, or fails loudly; it never wraps around to other ports.", "quantifier": "all ranges and all u16 shifts", "why_tests_cant": "Wrap-around happens only near the ends of the u16 space and only in release builds.", "anchors": ["src/service/ports.rs: impl Add<u16>/Sub<u16> for Range"]}
{"id": "C51", "title": "Device counts", "statement": "Count deserializes exactly from the word all, an integer that fits u64, or the text of one, and serialization followed by deserialization is the identity.", "quantifier": "all values", "why_tests_cant": "all strings and integers.", "anchors": ["src/service/deploy/resources.rs: Count"]}
{"id": "C52", "title": "Closed enums", "statement": "Every closed enum of the crate (cgroup, depends_on condition, uts, pull_policy, restart, deploy mode, restart condition, failure action, order, watch action, bind propagation, port mode) is written as exactly the text its as_str gives, reads that text back, accepts besides only the one alias if_not_present of the pull policy missing, and gives different variants different texts.", "quantifier": "all twelve enums, all variants and all serialized values", "why_tests_cant": "The serde names are derived from the variant names by a rename rule while as_str is written by hand; the claim that nothing else is accepted is about all values.", "anchors": ["src/service.rs: Cgroup, Condition, Uts, PullPolicy, Restart", "src/service/deploy.rs: Mode, Condition, FailureAction, Order", "src/service/develop.rs: Action", "src/service/volumes/mount.rs: BindPropagation", "src/service/ports.rs: Mode"]}
{"id": "C53", "title": "Compose files reload", "statement": "For every serialized value that loads as a Compose, saving it and loading the result gives an equal Compose.", "quantifier": "all serialized values, all behaviours of the external parsers", "why_tests_cant": "A compose file nests a hundred field types; the exceptions need specific values of specific fields.", "anchors": ["src/lib.rs: Compose", "src/service.rs: Service"]}
{"id": "C54", "title": "Saving is stable", "statement": "Saving, loading and saving again gives the same serialized value as saving once.", "quantifier": "all serialized values that load", "why_tests_cant": "Two fields could be saved as the same text and merge on loading; only special values do that.", "anchors": ["src/lib.rs: Compose", "src/service/volumes_from"]}
{"id": "C55", "title": "Saved files have no repeated keys", "statement": "The serialized form of every Compose that was loaded contains no map with the same key twice, at any depth.", "quantifier": "all serialized values that load", "why_tests_cant": "Flattened structs, extensions and hash maps are merged into one map at many levels.", "anchors": ["src/lib.rs: Compose", "src/service.rs: Service", "src/common.rs: Resource"]}
{"id": "C56", "title": "No unknown fields", "statement": "In an accepted compose file, every key of the file, of each service and of each struct with extensions below it is one of the documented field names or an extension key starting with x-; everything else is rejected.", "quantifier": "all serialized values, all keys", "why_tests_cant": "The claim is about every key that is not a field name.", "anchors": ["src/lib.rs: Compose", "src/service.rs: Service", "src/common.rs: Extensions, ExtensionKey"]}
{"id": "C57", "title": "No field twice", "statement": "A compose file in which a key is given twice in the same map is rejected.", "quantifier": "all serialized values", "why_tests_cant": "The claim is about every field of every struct.", "anchors": ["src/lib.rs: Compose", "src/service.rs: Service", "src/common.rs: Resource, Extensions"]}
{"id": "C58", "title": "Services of a compose file", "statement": "A compose file is accepted only with a services map; its services are the entries of that map, each read by itself, in the same order.", "quantifier": "all serialized values that load", "why_tests_cant": "All maps of services.", "anchors": ["src/lib.rs: Compose"]}
{"id": "C59", "title": "Order of fields", "statement": "Reordering the entries of a compose file or of a service does not change the result, except that the extensions keep the order of the file.", "quantifier": "all serialized values with distinct keys, all permutations", "why_tests_cant": "Exponentially many orders; flattened fields are buffered and read after the others.", "anchors": ["src/lib.rs: Compose", "src/service.rs: Service"]}
{"id": "C60", "title": "is_empty is exact", "statement": "For every struct with an is_empty method, is_empty is true exactly for the values whose serialized form has no content: only names of fields with empty lists and maps, at any depth.", "quantifier": "all values of the 23 structs", "why_tests_cant": "A forgotten field shows only for values with exactly that field set; nested optional structs multiply the cases.", "anchors": ["src/network.rs: Network, Ipam, IpamConfig is_empty", "src/volume.rs: Volume::is_empty", "src/service/deploy.rs", "src/service/deploy/resources.rs", "src/service/volumes/mount.rs", "src/service/build.rs: Build::is_empty"]}
{"id": "C61", "title": "IP address texts", "statement": "An address is accepted exactly if it is dotted decimal without leading zeros, or eight groups of hexadecimal digits with at most one :: standing for at least one group and perhaps an IPv4 tail; the value is the one written. Every accepted text has one meaning.", "quantifier": "all strings, all addresses", "why_tests_cant": "The grammar with :: and an embedded IPv4 address has many boundary cases (:: for exactly one group, IPv4 at the end only).", "anchors": ["src/service/ports.rs: ShortPort host_ip", "src/service.rs: extra_hosts", "std::net::IpAddr::from_str"]}
{"id": "C62", "title": "Short port texts", "statement": "A short port is accepted exactly if it is [[address:][host]:]container[/protocol], the address optionally in brackets, with ranges of the same size; the value is the one written.", "quantifier": "all strings, all short ports, both overflow-check settings", "why_tests_cant": "Splitting on the second last colon interacts with IPv6 addresses, empty host ports and protocols containing colons; only a language theorem shows that no other text is accepted.", "anchors": ["src/service/ports.rs: FromStr for ShortPort", "src/service/ports.rs: FromStr for ShortRanges"]}
{"id": "C63", "title": "A schema of compose files", "statement": "A document is accepted exactly if it matches a schema, written out separately: for every type at every depth the fields, which are required, the exact set of values of each field down to the languages of the texts, which fields exclude each other, which keys may be repeated and what may be there besides.", "quantifier": "all documents (values of the data model), all externals", "why_tests_cant": "The set of accepted documents is infinite and closed under nesting; a test shows that one document is accepted or rejected, not that no other is.", "anchors": ["src/lib.rs: Compose", "src/service.rs: Service", "src/service/build.rs", "src/service/deploy.rs", "src/service/volumes/mount.rs", "src/service/healthcheck.rs", "src/serde.rs"]}
{"id": "C64", "title": "Numbers are taken where the specification has numbers", "statement": "cpus takes any number which is not negative, and max_failure_ratio any rate; every entry of extra_hosts is checked.", "quantifier": "all numbers, all entries", "why_tests_cant": "False as stated: every integer cpus and every float max_failure_ratio is rejected, shown for all of them and all other fields around them.", "anchors": ["src/service/deploy/resources.rs: Deserialize for Cpus", "src/service/deploy.rs: UpdateRollbackConfig", "src/service.rs: extra_hosts"]}
{"id": "C65", "title": "Port range comparisons and setters", "statement": "A range equals a port exactly if it is the range of that port alone, and equals a..=b exactly if its first and last port are a and b. The setters of short ranges change their own part, keep the other, and return what was there before.", "quantifier": "all ranges, ports, short ranges, both overflow-check settings", "why_tests_cant": "A setter that returns or keeps the wrong part is right whenever the parts coincide.", "anchors": ["src/service/ports.rs: PartialEq for Range", "src/service/ports.rs: ShortRanges::replace_host, take_host, replace_container"]}
{"id": "C66", "title": "Validation in terms of the document", "statement": "A document which loads is validated by what it says: validation of networks, configs and secrets succeeds exactly if every network, config and secret that any service of the document uses, in the short or the long form, is a key of the top-level map of that kind; a named volume mounted by two services and not declared is rejected, and what is rejected is undeclared and mounted twice. An error names a service of the document which uses the named resource, which the document does not declare.", "quantifier": "all documents that load", "why_tests_cant": "Loading and validation together: every mixture of short and long forms, repeated keys, nulls and missing fields.", "anchors": ["src/lib.rs", "src/service.rs", "src/service/volumes.rs", "src/service/network_config.rs", "src/service/config_or_secret.rs"]}
{"id": "C67", "title": "Defaults and absent entries", "statement": "An empty map is read as the Default of its struct and the Default is written as an empty map, for every struct that has one and no required field; the three with a required field (Compose, deploy Device, Dependency) write that field, do not read an empty map and read their own default back. A field whose entry is absent has its default value in any document, and each field of Compose, Service, Build and Deploy is decided by the entries with its own names, the extensions by the other entries.", "quantifier": "all structs with Default; all documents that load, all fields", "why_tests_cant": "Default, the serde default of each of the 120 fields and skip_serializing_if are written separately and have to agree; independence of fields is about pairs of documents.", "anchors": ["compose_spec_macros/src/default.rs", "src/service.rs: Service, Dependency", "src/lib.rs: Compose", "src/common.rs: Default for ListOrMap", "src/common/short_or_long.rs: Default", "src/service/healthcheck.rs: Default for Healthcheck"]}
{"id": "C68", "title": "What is written", "statement": "Every struct is written as a map whose keys are its declared names in the order of declaration, each present exactly if its own field is not skipped by its attribute, followed by the extensions in their order; a mount starts with its tag, and flattened fields stand where they are declared.", "quantifier": "all values of all structs of the crate", "why_tests_cant": "Each of the fields has its own name, place and skip condition, to be checked for every value of every other field.", "anchors": ["src/service.rs", "src/lib.rs", "src/service/build.rs", "src/service/deploy.rs", "src/service/volumes/mount.rs", "src/network.rs"]}
{"id": "C69", "title": "Options and merge keys", "statement": "Without options a document is read as it is. With apply_merge, in every mapping an entry of its own wins over a merged one and an earlier merged mapping over a later one, merging goes on in the result, no key is repeated, it fails exactly if a << holds something else than mappings, and a document without << is not changed. No << is left over, and a document which has nothing to merge loads with the option as it does without.", "quantifier": "all documents, all settings of the options", "why_tests_cant": "Precedence among any number of merged mappings at any depth, and the equality of two ways of reading for all documents.", "anchors": ["src/options.rs", "src/lib.rs: Compose::options"]}
{"id": "C70", "title": "Equality and hashing", "statement": "Every type kept in an index set, including those with hand-written Hash impls, has an equality that is an equivalence and a hash that is the same for equal values; hence an index set keeps the first of each group of equal elements in order, whatever the hasher. Image and Name compare, order and hash consistently by their text, and equal images answer alike.", "quantifier": "all values of the types, all hashers, all sequences of insertions", "why_tests_cant": "The laws are about all pairs and triples of values; a hash that disagrees with equality shows only for particular hashers.", "anchors": ["src/service/volumes/mount.rs: Hash for VolumeOptions, BindOptions, TmpfsOptions, Common", "src/service/ports.rs: Hash for Port", "src/service/image.rs: PartialEq, Ord, Hash for Image", "src/service/image/name.rs"]}
{"id": "C71", "title": "Order of the entries of a resource", "statement": "Networks, volumes, configs and secrets are read through a HashMap of unspecified order; the outcome (accepted or not, external or not, every field) does not depend on that order, nor, if no key is repeated, on the order of the entries in the document.", "quantifier": "all maps, all iteration orders of the hash map", "why_tests_cant": "The iteration order is random per process; a test sees one of n! orders.", "anchors": ["src/common.rs: Deserialize for Resource"]}
{"id": "C72", "title": "Git repositories as build contexts", "statement": "A context is a git repository exactly if it is a URL with scheme http or https, in any case, whose path ends in .git; the part of its fragment before the first colon is the branch or tag and the rest the subdirectory, and there is no subdirectory without a branch or tag.", "quantifier": "all contexts, all URLs", "why_tests_cant": "Infinitely many URLs; dot files, trailing slashes and several colons are corner cases of Path::extension and split_once.", "anchors": ["src/service/build/context.rs: is_git_repo_url, branch_or_tag, subdirectory"]}
{"id": "C73", "title": "Errors name their cause", "statement": "When a text is rejected, the error is the one documented for it: for every parser of the crate that reports a structured error, the texts that give each error are exactly those with that defect and no defect looked at before; a character, option, number or part named in the error is the first offending one.", "quantifier": "all texts, all errors", "why_tests_cant": "The error depends on the order in which defects are looked for and on the first offender in a text of any length; tests fix a text with a single defect.", "anchors": ["src/common/keys.rs", "src/service/image.rs", "src/service/image/name.rs", "src/service/image/tag.rs", "src/service/image/digest.rs", "src/service/user.rs", "src/service/byte_value.rs", "src/service/device.rs", "src/service/ports.rs", "src/service/expose.rs", "src/service/volumes.rs", "src/service/hostname.rs", "src/service/build/network.rs", "src/service/build/cache.rs", "src/service/build/ssh_auth.rs", "src/service/cpuset.rs", "src/service/network_config.rs", "src/service.rs"]}
{"id": "C74", "title": "Loading a file never panics", "statement": "Loading a document as a compose file, with or without merging, gives a value or an error, never a panic.", "quantifier": "all documents, all builds", "why_tests_cant": "A panic hides in one text at one of many places of an arbitrarily large document and depends on what is read before it; tests load a few files.", "anchors": ["src/lib.rs", "src/service.rs", "src/serde.rs", "src/duration.rs", "src/service/ports.rs", "src/service/healthcheck.rs", "src/service/deploy.rs"]}
{"id": "C75", "title": "Defaults may be written or left out", "statement": "An attribute written with its default (null for an optional one, the default of a flag, an empty list or map) loads like a file in which the attribute is left out: the loaded value is the same, and a file which is rejected with it is rejected without it.", "quantifier": "all documents, all places where such an attribute may stand", "why_tests_cant": "There are some two hundred attributes with a default at 47 kinds of places, and the rest of the document, valid or not, is arbitrary; tests fix a document and an attribute.", "anchors": ["src/lib.rs", "src/service.rs", "src/service/build.rs", "src/service/deploy.rs", "src/service/deploy/resources.rs", "src/service/env_file.rs", "src/service/depends_on.rs", "src/service/network_config.rs", "src/service/volumes/mount.rs", "src/service/healthcheck.rs", "src/network.rs", "src/volume.rs", "src/config.rs", "src/secret.rs"]}
{"id": "C76", "title": "The order of attributes has no meaning", "statement": "Putting the entries of an object of a compose file in another order does not change the loaded value, nor whether the file loads.", "quantifier": "all documents, all objects of a compose file, all permutations", "why_tests_cant": "The number of orders grows with the factorial of the entries and hand-written visitors keep state between entries; tests use one order.", "anchors": ["src/lib.rs", "src/service.rs", "src/service/healthcheck.rs", "src/service/volumes/mount.rs", "src/service/build.rs", "src/service/deploy.rs", "src/serde.rs"]}
{"id": "C77", "title": "Spellings with the same meaning load alike", "statement": "A value of a compose file that can be written in several ways loads the same whichever way is used: times in units or microseconds, ports, exposed ports, group ids and device counts as integers or text, byte sizes with any suffix of their unit, -1 as integer or text for a limit, IP addresses in any notation, CPU sets in any order and grouping, extra_hosts as a list or a map, a shell test as a string or a CMD-SHELL list, a disabled health check by disable or NONE, and the two names of pull_policy missing. So does a file that is rejected for another reason.", "quantifier": "all documents, all 56 places, all pairs of spellings with the same meaning", "why_tests_cant": "Each value has unboundedly many spellings and stands in an arbitrary document; tests compare a few literals.", "anchors": ["src/serde.rs", "src/duration.rs", "src/service/ports.rs", "src/service/expose.rs", "src/service/user.rs", "src/service/byte_value.rs", "src/service/limit.rs", "src/service/cpuset.rs", "src/service/deploy/resources.rs", "src/service/healthcheck.rs", "src/service.rs"]}
{"id": "C78", "title": "Reading text and reading a Value", "statement": "A compose file accepted from YAML text and from a serde_yaml::Value of the same document means the same both ways. What a strict reading accepts, both accept; a document without written nulls that is accepted as a Value is accepted as text; one accepted as text is accepted as a Value once quotes are put around some scalars. A saved file loads again from text. Setting apply_merge on a document with nothing to merge does not change what it means. (Claimed and false: that both accept the same documents.)", "quantifier": "all documents, all ways of telling numbers from other scalars", "why_tests_cant": "The two readers differ in scalars, keys and nulls at every place of a document; tests read a few literals in one of the two ways.", "anchors": ["src/options.rs", "src/serde.rs", "src/common.rs", "src/lib.rs", "src/service.rs"]}
{"id": "C79", "title": "AsShort and FromShort derive macros", "statement": "The macros accept a struct exactly if it has named fields, one field is marked #[as_short(short)] and every other has at most one if_fn and one default, spread over its as_short attributes in any order; what they see is what the attributes say. The generated as_short gives the short field exactly if every other field passes its test (Option::is_none, Not::not, is_empty or if_fn); it undoes the generated From<Short> if every default passes, and is undone by it if nothing else does. For Build, ConfigOrSecret, env_file::Config and ShortRanges this is what the model has. (Claimed and false: that what is accepted compiles, and that every Option is seen to be one.)", "quantifier": "all structs and attributes, all values of fields", "why_tests_cant": "Macro tests expand a handful of structs; which attribute lists are accepted and what the code generated for any struct does is a statement about all inputs.", "anchors": ["compose_spec_macros/src/as_short.rs", "src/common/short_or_long.rs"]}
{"id": "C80", "title": "Default, serde and platforms macros", "statement": "Default is derived exactly for structs with named fields and at most one #[default = ...] on each field, and each field gets that or its type's default. The string (de)serialization macros find the text of #[serde(expecting = \"...\")] given at most once and let only #[serde(transparent)] through beside it. platforms! takes the enums Platform, Os and Arch and the types ParseError and TryFromArchError, each once and in any order, and nothing else. (Claimed and false: that its message for another enum is 'expected `A` or `B`'.)", "quantifier": "all structs, attribute lists and lists of definitions", "why_tests_cant": "The inputs of a macro are unbounded lists of attributes and definitions; tests expand a few.", "anchors": ["compose_spec_macros/src/default.rs", "compose_spec_macros/src/serde.rs", "compose_spec_macros/src/platforms.rs", "compose_spec_macros/src/platforms/prefix.rs"]}
{"id": "C81", "title": "Short and long syntax mean the same", "statement": "Replacing a short form by the long form it stands for, at any place of a compose file (include, build, args, labels, additional contexts, configs, secrets, depends_on, dns, dns_search, tmpfs, env_file, environment, annotations, sysctls, networks, ports, ulimits, volumes), does not change whether the file loads; what is loaded is equal after conversion to the long form; networks, configs and secrets are validated with the same result. (Claimed and false: that validation as a whole has the same result; it has if no service has an undefined volume more than once.)", "quantifier": "all documents, all places, all short forms with their long forms", "why_tests_cant": "Documents, places and texts are unbounded; tests compare a few pairs.", "anchors": ["src/common/short_or_long.rs", "src/common.rs", "src/include.rs", "src/service.rs", "src/service/ports.rs", "src/service/volumes.rs", "src/lib.rs"]}
{"id": "C82", "title": "Hashing tells unequal elements apart", "statement": "For every type kept in an index set (volumes, ports, devices, ssh, capabilities, cgroup rules, ids, links, volumes_from, expose, addresses), the pieces given to a hasher, followed by any other pieces, determine the value up to == and the rest; so two values give the same pieces exactly if they are equal, also where Hash is written by hand. Assumed of std::path::Path and serde_yaml::Value: the same.", "quantifier": "all pairs of values of each type and all following pieces", "why_tests_cant": "Pairs of values are unbounded; a collision of two fields only shows with values chosen for it.", "anchors": ["src/service/ports.rs:115-137", "src/service/volumes/mount.rs:355-367,537-552,706-718,816-830", "src/service/volumes.rs", "src/service/device.rs", "src/service/user.rs"]}
{"id": "C83", "title": "Quotes around text", "statement": "When a compose file is read from YAML text, putting quotes around a scalar (not a null) where the file has text, or around keys of maps, changes nothing: the file is accepted or not as before, with the same result. (Claimed and false for the fields of networks, volumes, configs and secrets, for flattened fields such as build.dockerfile, and for the fields of a long volume: there a scalar that looks like a number or boolean is only accepted in quotes.)", "quantifier": "all documents, all sets of scalars at the places, all numeral syntaxes", "why_tests_cant": "Documents and scalars are unbounded; tests write text without thought to whether it looks like a number.", "anchors": ["src/lib.rs:140-224", "src/service.rs:81-682", "src/service/build.rs:30-197", "src/service/deploy.rs", "src/common.rs:964-997", "src/service/volumes/mount.rs"]}
{"id": "C84", "title": "Values made without a check are valid", "statement": "Conversions that skip validation only make values which validation would accept: the text of any image made by parsing, from_parts, or any sequence of setters is not empty and has no white space (so it is a cache option), in both build profiles; tags and digests taken out of such an image are tags and digests; names taken out of it are names (claimed and false: as_name of an image made by from_parts returns name and tag together); a host path made from an absolute path, the default weight and the key behind an extension key's prefix are valid; a volume source, user, cache or build context made from its parts is what its text is read as.", "quantifier": "all texts, all images, names, tags and digests that any sequence of public calls can make, debug and release builds", "why_tests_cant": "The claim is about every sequence of calls, including those after which the cached positions are wrong.", "anchors": ["src/service/build/cache.rs:116-149", "src/service/build/cache.rs:313-337", "src/service/image.rs:132-468", "src/service/image/name.rs:112-117", "src/service/image/tag.rs:64", "src/service/image/digest.rs:103", "src/service/volumes.rs:524-572", "src/service/volumes.rs:656-660", "src/common/keys.rs:154-159", "src/service/user.rs:49-111", "src/service/blkio_config.rs:128-131"]}
{"id": "C85", "title": "NAME=TEXT items keep their text", "statement": "An item NAME=TEXT of a list (environment, labels, build args, additional contexts and so on) keeps its text when the list is converted to a map: the entry is printed with the same text, converting back to a list gives the same list, and an additional context named by an item is the URL or path with this very text. Claimed and false: 007 becomes 7, 1.10 becomes 1.1 and an empty text is dropped; the texts which are kept are exactly those which are no number, integers without plus sign and leading zeros, integers too large for 64 bits, and floats that print as they were written.", "quantifier": "all texts, all lists of items with distinct names, all URL parsers and float conversions", "why_tests_cant": "Whether a text survives depends on its digits: tests use names and paths, never texts which look like numbers.", "anchors": ["src/common.rs:194-250", "src/common.rs:306-315", "src/common.rs:627-643", "src/service/build.rs:256-271"]}
{"id": "C86", "title": "One round of saving settles every file", "statement": "Every file that can be loaded can be saved and loaded again, whatever is in it, and what comes back then comes back unchanged every further time. All validations give the same result, with the same error, before and after. Apart from empty maps which come back as empty lists, the only difference is in volumes_from: a container called ro or rw, read-write, comes back as a service called container, and entries which became equal are merged.", "quantifier": "all documents that load, all externals", "why_tests_cant": "Round trips are tested for single values that survive; that one round suffices for every file, including those which change, is a statement about all files.", "anchors": ["src/lib.rs:168-224", "src/lib.rs:262-371", "src/service.rs:81-690", "src/service.rs:1432-1560"]}
{"id": "C87", "title": "What error messages say", "statement": "The message of an error, with those of its sources, tells the error: errors of one type never share a message. The messages of a parser are finitely many one-line texts around a piece of the rejected text, so that nothing unprintable is in a message unless it is in the text; an error about an extension key says so. Errors passed on without their sources have none.", "quantifier": "all errors of all error types, all rejected texts", "why_tests_cant": "Tests compare error values or check that parsing fails, not messages; that two errors differ in text, that the quoted piece comes from the input and that no line break is in a message are claims about every error and every text.", "anchors": ["src/serde.rs", "src/common/keys.rs", "src/name.rs", "src/duration.rs", "src/service/ports.rs", "src/service/image.rs", "src/service/image/digest.rs", "src/service/image/name.rs", "src/service/image/tag.rs", "src/service/volumes.rs", "src/service/build/cache.rs", "src/service/device.rs", "src/service/user.rs", "src/service/hostname.rs", "src/service/byte_value.rs", "src/service/cpuset.rs", "src/service/network_config.rs", "src/common.rs"]}
{"id": "C88", "title": "Variants in long volume syntax", "statement": "The propagation of a bind mount is accepted only as one of its eight names, like every other closed enum. (False: the long volume syntax is internally tagged, and there serde also reads a map whose only key is the name or the number of a variant.) Exactly the names and these maps are accepted, and each gives one propagation.", "quantifier": "all YAML values given as the propagation", "why_tests_cant": "Tests give the eight names; that a value of another kind is read as a variant shows only when all values are considered, and depends on how serde buffers tagged enums.", "anchors": ["src/service/volumes/mount.rs"]}
{"id": "C89", "title": "MAC addresses in the usual notation", "statement": "The text of a MAC address is six pairs of hexadecimal digits separated by colons. (False: the first byte is not padded; true exactly if it is at least 16, otherwise only the zero is missing.) Every address in this notation is read, in lower and upper case.", "quantifier": "all MAC addresses", "why_tests_cant": "The example address of the tests starts with a byte which has two digits; 16 of 256 first bytes show the difference, and it is the text which matters to other tools, not the round trip.", "anchors": ["src/service/network_config.rs"]}
{"id": "C90", "title": "Comparisons of amounts", "statement": "Comparisons follow what is compared: a limit is at most another exactly if it allows no more; MAC addresses are ordered as numbers; a count equals an integer exactly if it is that integer; numbers of CPUs are totally ordered with only identical floats equal, and made from an integer they are that integer; byte values are equal exactly if they stand for the same number of bytes (false across units).", "quantifier": "all limits, addresses, byte values, counts and numbers of CPUs", "why_tests_cant": "The laws of an order quantify over triples, and agreement with the meaning over all pairs; derived comparisons depend on the order of variants, which tests do not look at.", "anchors": ["src/service/limit.rs", "src/service/network_config.rs", "src/service/byte_value.rs", "src/service/deploy/resources.rs", "src/common/short_or_long.rs"]}
{"id": "C91", "title": "Changes made through the public fields survive saving", "statement": "A Compose value, however it was made, comes back from its saved file exactly when each service and each field does on its own; so after setting one field of one service of a file that comes back, the whole file comes back exactly if the new value does, and a field may be moved between files. That every value a field can have comes back is false: times with a fraction of a microsecond lose it, a period of more than 2^64 microseconds makes the file unreadable, a non-negative signed number comes back unsigned, an empty map as an empty list, and an open variant with the text of a named one as the named one.", "quantifier": "all Compose and Service values of the types (not only loaded ones), all fields, all new values", "why_tests_cant": "Tests reload a few values made by hand; that fields never interfere when they are written and read together is a statement about all combinations of the 83 fields of a service, and the exceptions are rare values of single fields.", "anchors": ["src/lib.rs", "src/service.rs", "src/serde/duration_us_option.rs", "src/serde/duration_option.rs", "src/common.rs"]}
{"id": "C92", "title": "Exactly which services and files come back unchanged after saving", "statement": "A Service or Compose value comes back equal from its saved form if and only if it is possible (each field is within what its type's constructors allow) and lossless (each field meets an explicit condition, written out for each of the 83 fields of a service and for all top-level sections). Everything loaded is possible, so for loaded files the condition is losslessness alone; and setting one field of a surviving service to a possible value keeps it surviving exactly if the condition of that field holds.", "quantifier": "all Service and Compose values of the types, all fields, all build modes and all oracles for floats, URLs, addresses and extension values which meet externals_ok", "why_tests_cant": "An equivalence in both directions over all values: tests can show that chosen values survive, not that the list of exceptions is complete.", "anchors": ["src/lib.rs", "src/service.rs", "src/service/build.rs", "src/service/deploy.rs", "src/service/volumes.rs", "src/service/ports.rs", "src/common.rs", "src/serde.rs", "src/network.rs"]}
{"id": "C93", "title": "What a saved file comes back as", "statement": "A possible service or file whose text-like parts (images, devices, caches, ports, short volumes, modes, ...) are legible can always be loaded after saving, and what is loaded is given field by field: times cut to whole microseconds, non-negative signed numbers unsigned, an empty map of a ListOrMap an empty list, an empty long depends_on an empty short one, everything else unchanged. The result is written in the same way again, so a second round changes nothing. A value is lossless exactly if it is legible and already settled. A loaded file is legible exactly if no service mounts the volumes of a container named ro or rw read-write.", "quantifier": "all Service and Compose values, all loaded files, all oracles which meet externals_ok", "why_tests_cant": "The claim is that nothing else changes in any of the fields at any depth, for all values; tests compare chosen values only.", "anchors": ["src/lib.rs", "src/service.rs", "src/serde/duration_option.rs", "src/serde/duration_us_option.rs", "src/common.rs", "src/service/deploy.rs", "src/service/build.rs", "src/service/healthcheck.rs", "src/network.rs"]}
{"id": "C94", "title": "The message for a value of a wrong kind names the kinds which are accepted", "statement": "For every type with its own deserializer, the text which follows \"expected\" in the error message names a kind of value (null, boolean, integer, float, string, sequence, map) if and only if the deserializer accepts some value of this kind.", "quantifier": "all kinds, all values of each kind, all types with an expecting text which speaks of kinds, all types read from one string, all oracles", "why_tests_cant": "That a kind is never accepted is a statement about all values of the kind; tests check that some message appears, not that it agrees with what is accepted.", "anchors": ["src/serde.rs", "src/common.rs", "src/service/deploy/resources.rs", "src/service/cpuset.rs", "src/service/healthcheck.rs", "src/service/ports.rs", "src/service/byte_value.rs", "src/service/user.rs"]}
{"id": "C95", "title": "Conversions into strings agree with what is written", "statement": "For every type with its own conversion into String or Cow<str> (drivers, modes, capabilities, protocols, links, IPC modes, volumes_from, users, values, contexts), the string which a value is converted to is the text which is written for it in a file, although most conversions take a shortcut around Display.", "quantifier": "all values of all types with such a conversion, all oracles", "why_tests_cant": "The shortcuts are taken for some variants only; tests convert few values and mostly go through Display.", "anchors": ["src/network.rs: From<Driver>", "src/service/network_config.rs: From<NetworkMode>", "src/service/deploy/endpoint_mode.rs", "src/service/deploy/resources.rs: From<Capability>", "src/service/ports.rs: From<Protocol>", "src/service/build/network.rs", "src/service.rs: From<Link>, From<Ipc>, From<VolumesFrom>", "src/service/user.rs", "src/common.rs: From<Value>, From<StringOrNumber>"]}
{"id": "C96", "title": "Saving does not change the validation of files made through the API", "statement": "If a possible, legible file is saved and what was saved is loaded, validate_all and each of its four parts give the same result, with the same error, as before.", "quantifier": "all Compose values which are possible and legible (C92, C93), all oracles which meet externals_ok", "why_tests_cant": "The validation looks at four fields of every service and four of the file, which saving may rewrite; tests validate files as they were loaded, not values built in memory.", "anchors": ["src/lib.rs: Compose::validate_all", "src/service.rs: Service::validate_networks"]}
{"id": "C97", "title": "What a validated file uses is defined", "statement": "If validate_all succeeds, every network, volume, config and secret used in a service of the document, also while its image is built, is defined at top level; and if all of them are defined validate_all succeeds. No other field of a service has a bearing on the result.", "quantifier": "all documents which load, all oracles", "why_tests_cant": "Tests name one resource of each kind in one or two services; they do not show which of the places where a service can name a resource are looked at.", "anchors": ["src/lib.rs: Compose::validate_all", "src/service/build.rs: Build::secrets", "src/service.rs: Service::validate_secrets"]}
{"id": "C98", "title": "The verdict of the validation does not depend on order", "statement": "Whether validate_all succeeds depends only on which services a document has and which networks, volumes, configs and secrets it defines, not on the order of either; and it still succeeds if services are removed or more names are defined.", "quantifier": "all pairs of documents which load, all oracles", "why_tests_cant": "The loop over volumes keeps a table of what it has seen, so that its steps depend on the order of all services; tests use one order.", "anchors": ["src/lib.rs: Compose::validate_all", "src/lib.rs: Compose::validate_volumes"]}
{"id": "C99", "title": "Attributes can be removed", "statement": "If an attribute or extension is removed from a service, from its build or deploy section or from the file (other than services), what is left is still accepted; every field which does not belong to the attribute keeps its value, a field which belongs to it and is not given in another way gets its default, and of the extensions only that one is gone. The file without services is not accepted.", "quantifier": "all objects which are accepted, all keys, all oracles", "why_tests_cant": "There are 100 attributes, any subset of which may be given; tests load a few documents and do not compare what is left after a removal.", "anchors": ["src/service.rs: Service", "src/service/build.rs: Build", "src/service/deploy.rs: Deploy", "src/lib.rs: Compose", "src/service/network_config.rs: NetworkConfig"]}
{"id": "C100", "title": "Attributes can be added", "statement": "If an attribute or extension which a service, a build or a deploy section does not have is accepted as the only one of such an object, it is accepted beside those which are there, except for network_mode, networks, dockerfile and dockerfile_inline; the fields which do not belong to it keep their values, those which belong to it get the value they have when it is alone, and an extension comes after the others.", "quantifier": "all accepted objects, all keys and values, all oracles", "why_tests_cant": "The number of combinations of attributes is beyond tests, which try a few pairs at most.", "anchors": ["src/service.rs: Service", "src/service/build.rs: Build", "src/service/deploy.rs: Deploy", "src/service/network_config.rs: NetworkConfig", "src/service/build/dockerfile.rs"]}
{"id": "C101", "title": "Attributes which must be consistent", "statement": "In a file which is loaded and validated, cpus, mem_limit, mem_reservation, pids_limit and scale of a service agree with the attributes of its deploy section with the same meaning, as the documentation of the fields demands; and the network in which a service has a static address has ipam set.", "quantifier": "all documents", "why_tests_cant": "No test gives both attributes of a pair.", "anchors": ["src/service.rs: Service::cpus", "src/service.rs: Service::mem_limit", "src/service.rs: Service::scale", "src/service/deploy.rs: Deploy::replicas", "src/lib.rs: Compose::validate_all", "src/service/network_config.rs: Network::ipv4_address"]}
{"id": "C102", "title": "Attributes which exclude each other", "statement": "In a file which is loaded and validated, no reserved device has both count and device_ids, and no service with network mode host publishes ports, as the documentation of the fields demands; as network_mode and networks exclude each other (C39).", "quantifier": "all documents", "why_tests_cant": "No test gives both attributes of such a pair.", "anchors": ["src/service/deploy/resources.rs: Device::count", "src/service/deploy/resources.rs: Device::device_ids", "src/service.rs: Service::ports", "src/service/network_config.rs: NetworkMode", "src/lib.rs: Compose::validate_all"]}
