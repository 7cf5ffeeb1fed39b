{"claims": [
 {"property": "C01", "status": "proved", "theorems": ["duration_round_trip", "duration_round_trip_exact"], "note": "all durations"},
 {"property": "C02", "status": "proved", "theorems": ["duration_parse_meaning", "duration_parse_errors", "duration_parse_normalizes"], "note": "all strings"},
 {"property": "C03", "status": "partial", "theorems": ["duration_parse_total_refuted", "duration_parse_panics_exactly"], "note": "the property is false: refuted, with an exact characterization of the panicking inputs"},
 {"property": "C04", "status": "proved", "theorems": ["project_name_language", "project_name_errors"], "note": "all strings"},
 {"property": "C05", "status": "proved", "theorems": ["identifier_language", "identifier_errors"], "note": "all strings"},
 {"property": "C06", "status": "proved", "theorems": ["map_key_language", "extension_key_language", "extension_key_strip_total"], "note": "all strings of code points"},
 {"property": "C07", "status": "proved", "theorems": ["hostname_language", "hostname_language_labels"], "note": "all strings"},
 {"property": "C08", "status": "proved", "theorems": ["user_name_is_not_an_id", "id_or_name_text_round_trip", "user_text_round_trip", "user_parse_normalizes"], "note": "all users"},
 {"property": "C09", "status": "proved", "theorems": ["user_name_language"], "note": "all strings"},
 {"property": "C10", "status": "proved", "theorems": ["port_range_round_trip", "port_range_parse_normalizes", "port_range_parse_meaning"], "note": ""},
 {"property": "C11", "status": "partial", "theorems": ["port_range_parse_ordered_refuted", "port_range_size_refuted", "port_range_new_ordered", "port_range_new_rejects", "port_range_size_exact", "port_range_size_panics_exactly"], "note": "false as stated: parsed ranges may be reversed and the size of 0-65535 overflows; the true part is proved for constructed ranges, with the exact set of panicking ranges"},
 {"property": "C12", "status": "partial", "theorems": ["short_ranges_pairing", "short_ranges_pairing_release", "short_ranges_pairing_release_refuted", "short_ranges_text_round_trip"], "note": "holds with overflow checks; false in release builds for reversed ranges, proved there for ordered ranges"},
 {"property": "C13", "status": "proved", "theorems": ["short_port_text_round_trip", "short_port_parse_normalizes", "ip_text_round_trip"], "note": "Other(tcp) and Other(udp) protocols excluded, they parse as the named variants"},
 {"property": "C14", "status": "proved", "theorems": ["port_short_long", "port_short_exists", "short_port_expand", "ports_short_long", "ports_short_rest", "port_new_short"], "note": ""},
 {"property": "C15", "status": "proved", "theorems": ["byte_value_text_round_trip", "byte_value_into_bytes_exact"], "note": ""},
 {"property": "C16", "status": "proved", "theorems": ["byte_value_language", "byte_value_table_units", "byte_value_text_injective"], "note": ""},
 {"property": "C17", "status": "proved", "theorems": ["limit_integer_round_trip", "limit_byte_value_round_trip", "limit_integer_meaning", "limit_string_meaning"], "note": ""},
 {"property": "C18", "status": "proved", "theorems": ["cpuset_text_round_trip", "cpuset_show_maximal_runs"], "note": ""},
 {"property": "C19", "status": "proved", "theorems": ["cpuset_parse_meaning", "cpuset_reversed_range_empty"], "note": "a reversed range is silently empty (finding)"},
 {"property": "C20", "status": "proved", "theorems": ["device_text_round_trip", "device_parse_meaning", "device_parse_normalizes", "device_colon_round_trip_refuted"], "note": "colon-free hypothesis shown necessary by the refutation"},
 {"property": "C21", "status": "proved", "theorems": ["cgroup_rule_round_trip", "cgroup_rule_parse_meaning", "cgroup_rule_parse_normalizes", "device_kind_texts"], "note": ""},
 {"property": "C22", "status": "proved", "theorems": ["mac_text_round_trip", "mac_parse_meaning", "mac_parse_normalizes"], "note": ""},
 {"property": "C23", "status": "proved", "theorems": ["platform_language", "platform_inverse", "platform_accessors", "platform_arch_conversion", "platform_parts_inverse", "platform_macro_checks", "crate_platforms", "crate_platform_texts", "platform_variants_inverse"], "note": "proved for every legal macro table and instantiated with the crate's table"},
 {"property": "C24", "status": "proved", "theorems": ["expose_text_round_trip", "expose_parse_meaning"], "note": ""},
 {"property": "C25", "status": "proved", "theorems": ["short_volume_text_round_trip", "volume_source_kinds", "short_volume_colon_refuted"], "note": ""},
 {"property": "C26", "status": "proved", "theorems": ["volume_options_exact", "volume_options_accepts", "volume_options_order", "short_volume_parse_meaning"], "note": "the error reported may depend on the order; acceptance and value do not"},
 {"property": "C27", "status": "partial", "theorems": ["short_long_short", "short_long_short_iff", "short_long_lossless_refuted", "long_short_long", "long_short_read_only_refuted", "long_short_create_host_path_refuted", "mount_into_short_total", "named_volumes_form", "volumes_short_long", "volumes_short_rest"], "note": "false as stated: three refutations; the exact conditions under which conversion is lossless are proved"},
 {"property": "C28", "status": "proved", "theorems": ["image_accessors", "image_parts"], "note": "accessors never panic on parsed images and the pieces concatenate to the text"},
 {"property": "C29", "status": "partial", "theorems": ["image_language_partial", "image_language_refuted", "image_parts_unique"], "note": "the exact accepted language is proved; the property as stated is false: a registry with a port and no path cannot carry a digest"},
 {"property": "C30", "status": "partial", "theorems": ["image_history_partial", "image_step_total", "image_set_registry_refuted", "image_set_registry_tag_refuted", "image_set_registry_reparse_refuted", "image_remove_registry_reparse_refuted", "image_set_name_reparse_refuted", "image_from_parts_name", "image_from_parts_text", "image_from_parts_panics", "image_from_parts_refuted"], "note": "true for every history that does not remove the registry of a registry-only image, with the exact re-parse condition; false as stated: from_parts caches a wrong position, set_registry(None) can panic"},
 {"property": "C31", "status": "proved", "theorems": ["tag_language", "digest_language", "image_name_language", "image_name_registry", "tag_oci", "tag_oci_refuted", "name_port_plus_refuted"], "note": "exact languages as regular expressions"},
 {"property": "C32", "status": "partial", "theorems": ["value_parse_kind", "value_text_round_trip", "value_parse_print_meaning", "value_reparse_refuted", "value_float_text_refuted", "string_or_number_kind", "string_or_number_text", "string_or_number_integers"], "note": "Proved for booleans, integers and strings; what each text is read as is characterised exactly. Floats: value and Display are parameters, round trip under the stated condition. Refuted: -0 and floats printed without a dot."},
 {"property": "C33", "status": "proved", "theorems": ["number_conversions_exact", "string_conversions_exact", "value_conversions_exact", "number_to_f64_exact", "number_to_f64_domain", "boolean_conversions_exact", "string_or_number_exact"], "note": "Success iff the integer is in range, and then the same integer; also exact for floats."},
 {"property": "C34", "status": "proved", "theorems": ["map_to_list_and_back", "list_to_map_meaning", "list_to_map_order", "list_to_map_duplicates", "map_to_list_refuted"], "note": "The refutation shows the conditions on keys and values are needed."},
 {"property": "C35", "status": "proved", "theorems": ["validate_all_iff", "validate_all_error", "validate_networks_spec", "validate_volumes_spec", "validate_configs_spec", "validate_secrets_spec", "named_volumes_mounts", "validation_error_texts"], "note": "The named volume condition is the one the code checks (repeats_defined); see C36 for how it differs from the documented one."},
 {"property": "C36", "status": "partial", "theorems": ["validate_volumes_shared", "validate_volumes_fails_only", "validate_volumes_one_service_refuted"], "note": "The 'always fails' half is proved; the 'fails only if' half is false (refuted: a volume mounted twice by one service is reported), and validate_volumes_fails_only shows that is the only other case."},
 {"property": "C37", "status": "partial", "theorems": ["link_language", "link_round_trip", "ipc_language", "ipc_round_trip", "ipc_reprint", "volumes_from_language", "volumes_from_round_trip", "volumes_from_round_trip_refuted", "volumes_from_reload_refuted"], "note": "Proved for links and canonical IPC modes. False for volumes_from: a writable container called ro or rw is printed as container:ro and read back as the service called container (refuted); volumes_from_round_trip shows these are the only exceptions."},
 {"property": "C38", "status": "proved", "theorems": ["network_mode_text", "network_mode_rejects"], "note": ""},
 {"property": "C39", "status": "proved", "theorems": ["network_config_iff", "service_network", "service_network_conflict", "network_config_written"], "note": ""},
 {"property": "C40", "status": "partial", "theorems": ["healthcheck_disabled", "healthcheck_command", "healthcheck_order_refuted", "healthcheck_order_partial", "healthcheck_disable_wins", "healthcheck_conflict", "healthcheck_round_trip"], "note": "False as stated: 'disable: false' before 'test: [NONE]' reads as disabled, after it is an error (healthcheck_order_refuted). For every other list of entries the order makes no difference to the fields; extensions keep entry order. Accepted inputs are characterised exactly for both results. The reading is of a self-describing value, see DESIGN.md."},
 {"property": "C41", "status": "partial", "theorems": ["cache_language", "cache_parse_canonical", "cache_round_trip", "cache_serde_round_trip", "cache_into_options_text", "cache_round_trip_refuted", "cache_comma_refuted", "cache_registry_type_refuted"], "note": "False as stated (refutations); cache_round_trip characterises exactly the values that come back."},
 {"property": "C42", "status": "partial", "theorems": ["ssh_auth_language", "ssh_auth_round_trip", "ssh_auth_reprint", "ssh_auth_round_trip_refuted"], "note": "False for ids with an equals sign (refuted); ssh_auth_round_trip shows these are the only exceptions."},
 {"property": "C43", "status": "proved", "theorems": ["driver_open_enum", "endpoint_mode_open_enum", "capability_open_enum", "protocol_open_enum", "build_network_language", "build_network_reprint", "build_network_round_trip"], "note": ""},
 {"property": "C44", "status": "partial", "theorems": ["ulimit_short_exact", "config_or_secret_short_exact", "env_file_config_short_exact", "short_ranges_short_exact", "dependencies_short_exact", "build_short", "build_short_written", "build_short_back", "build_short_exact_partial", "build_short_exact_refuted", "service_networks_short", "service_networks_short_exact_partial", "service_networks_short_exact_refuted", "include_short", "include_short_exact_refuted", "env_file_single", "as_short_exact", "as_short_iter_exact", "one_form", "keys_long", "item_list", "set_equal", "item_or_list_equal"], "note": "Exact for ulimits, configs and secrets, env files, port ranges and dependencies. False for Build (empty maps of args and labels become lists), networks (an empty network becomes none) and Include (a one-element list becomes an item): the exceptions are refuted and everything else is proved."},
 {"property": "C45", "status": "partial", "theorems": ["config_source_iff", "secret_source_iff", "config_source_given", "secret_source_given", "config_round_trip", "secret_round_trip", "config_source_back"], "note": "Exactly-one-source is proved. The round trip is the identity except that labels given as an empty map come back as an empty list (see compose_reload_refuted); the source always comes back."},
 {"property": "C46", "status": "proved", "theorems": ["percent_range", "oom_score_adj_range", "weight_range", "range_errors", "percent_deserialize_iff", "oom_score_adj_deserialize_iff", "weight_deserialize_iff"], "note": ""},
 {"property": "C47", "status": "proved", "theorems": ["extra_hosts_exact", "extra_hosts_printed", "extra_hosts_last"], "note": "For every address text and both delimiters, with and without brackets."},
 {"property": "C48", "status": "proved", "theorems": ["path_history", "path_languages"], "note": ""},
 {"property": "C49", "status": "partial", "theorems": ["short_port_parse_total_refuted", "short_ranges_parse_panics_exactly", "short_ranges_parse_release_total"], "note": "false with overflow checks; the panicking texts are characterized"},
 {"property": "C50", "status": "partial", "theorems": ["port_range_shift", "port_range_shift_release_refuted"], "note": "holds with overflow checks, false in release builds"},
 {"property": "C51", "status": "proved", "theorems": ["count_round_trip", "count_deserialize_iff"], "note": ""},
 {"property": "C52", "status": "proved", "theorems": ["closed_enums", "only_alias", "closed_enum_texts"], "note": ""},
 {"property": "C53", "status": "partial", "theorems": ["compose_reload_partial", "compose_reload_refuted", "compose_reload_volumes_from_refuted", "reload_exact"], "note": "False as stated: empty maps of list-or-map fields come back as lists, and volumes_from container:ro:rw is misread; proved for all other files, both exceptions refuted."},
 {"property": "C54", "status": "partial", "theorems": ["compose_save_stable_partial", "compose_save_stable_refuted", "reload_settles"], "note": "False as stated because of volumes_from container:ro:rw; proved for all files without that text, refuted with it."},
 {"property": "C55", "status": "proved", "theorems": ["compose_save_tidy"], "note": ""},
 {"property": "C56", "status": "partial", "theorems": ["compose_keys", "service_keys", "compose_services_accepted", "parts_keys", "other_keys_ignored"], "note": "Proved for the file, services and every struct with extensions. The structs without extensions drop unknown keys silently, which other_keys_ignored proves."},
 {"property": "C57", "status": "partial", "theorems": ["compose_no_field_twice", "service_no_field_twice", "repeated_keys_refuted"], "note": "Proved for the fields of Compose and Service; false for service names, extension keys and the fields of networks (last one wins)."},
 {"property": "C58", "status": "proved", "theorems": ["compose_requires_services", "compose_minimal", "compose_services_are"], "note": ""},
 {"property": "C59", "status": "proved", "theorems": ["compose_order", "service_order"], "note": ""},
 {"property": "C60", "status": "proved", "theorems": ["ipam_config_is_empty", "ipam_is_empty", "network_is_empty", "top_volume_is_empty", "limits_is_empty", "deploy_device_is_empty", "discrete_resource_spec_is_empty", "generic_resource_is_empty", "reservations_is_empty", "resources_is_empty", "preference_is_empty", "placement_is_empty", "restart_policy_is_empty", "update_config_is_empty", "deploy_is_empty", "blkio_config_is_empty", "service_network_is_empty", "health_command_is_empty", "logging_is_empty", "build_is_empty", "volume_options_empty_iff", "bind_options_empty_iff", "tmpfs_options_is_empty"], "note": ""},
 {"property": "C61", "status": "proved", "theorems": ["ip_language", "ip_text_unique"], "note": "all strings"},
 {"property": "C62", "status": "proved", "theorems": ["short_ranges_language", "short_port_language"], "note": "all strings, with and without overflow checks"},
 {"property": "C63", "status": "proved", "theorems": ["compose_schema", "service_schema"], "note": "The schema is in Schema.v, SchemaText.v and ComposeSchema.v; it does not mention the codecs."},
 {"property": "C64", "status": "partial", "theorems": ["integer_cpus_rejected", "cpus_number_refuted", "fractional_failure_ratio_rejected", "failure_ratio_number_refuted", "extra_hosts_all_checked_refuted", "cpus_accepted", "cpus_positive_refuted"], "note": "False as stated; each part is refuted, see DESIGN.md section 5."},
 {"property": "C65", "status": "proved", "theorems": ["port_range_equalities", "short_ranges_setters"], "note": ""},
 {"property": "C66", "status": "proved", "theorems": ["document_networks", "document_configs", "document_secrets", "document_volumes_rejected", "document_volumes_only", "document_error"], "note": ""},
 {"property": "C67", "status": "proved", "theorems": ["service_empty_default", "parts_empty_default", "top_level_empty_default", "required_default", "service_fields_local", "compose_fields_local", "build_fields_local", "deploy_fields_local", "service_absent_default", "build_absent_default", "deploy_absent_default", "compose_absent_default"], "note": ""},
 {"property": "C68", "status": "proved", "theorems": ["service_written", "compose_written", "build_written", "deploy_written", "resources_written", "service_parts_written", "mounts_written", "top_level_written"], "note": "The keys come from WrittenSpec.v, which is written from the attributes of the structs."},
 {"property": "C69", "status": "partial", "theorems": ["merge_meaning", "merge_accepts", "merge_plain", "merge_removes_partial", "merge_nested_refuted", "options_off", "options_merge", "options_plain_partial", "options_plain_refuted", "options_nested_refuted"], "note": "The last sentence is false: a << inside a merged mapping is left over, and repeated keys are rejected only with the option. Both are refuted; the restricted versions are proved. apply_merge is serde_yaml's, modelled from knowledge of version 0.9.34."},
 {"property": "C70", "status": "partial", "theorems": ["hand_written_lawful", "volumes_ports_lawful", "sets_lawful", "index_set_hashed", "index_set_uniques", "image_lawful", "image_equal_parsed", "image_equal_refuted"], "note": "All proved except 'equal images answer alike', which is proved for parsed images (image_equal_parsed) and refuted for images made by from_parts (image_equal_refuted)."},
 {"property": "C71", "status": "proved", "theorems": ["resource_order", "resource_order_model", "resource_entries", "resource_order_refuted"], "note": "The order of extensions is not part of the claim and does depend on the hash map, so saving the same document can give two texts (resource_order_refuted)."},
 {"property": "C72", "status": "partial", "theorems": ["git_url_iff", "git_url_path", "git_fragment", "git_fragment_branch", "git_fragment_none", "git_subdirectory_branch", "git_url_documented_refuted"], "note": "'The path ends in .git' as documented is refuted in both directions (git_url_documented_refuted); git_url_path is the exact condition. The rest is proved. Url is a parameter."},
 {"property": "C73", "status": "proved", "theorems": ["uint_language", "uint_errors", "map_key_errors", "extension_key_errors", "cache_option_errors", "key_errors", "hostname_errors", "user_name_errors", "user_errors", "byte_value_errors", "device_errors", "cgroup_errors", "tag_errors", "image_name_errors", "digest_errors", "image_errors", "mac_errors", "range_text_errors", "expose_errors", "short_ranges_errors", "short_volume_errors", "cache_errors", "ssh_auth_errors", "short_ranges_sizes", "short_port_errors", "link_errors", "ipc_errors", "network_mode_errors", "build_network_errors", "volumes_from_errors", "count_errors", "cpuset_errors", "empty_error_unreachable", "duration_parse_errors"], "note": "Exact texts for each error of each parser, specification in ErrorSpec (durations: DurationSpec). The wording of messages is not included. Two declared errors (Empty of devices and cgroup rules) are never reported."},
 {"property": "C74", "status": "partial", "theorems": ["load_total_refuted", "load_panics_located", "loaded_without_panics", "load_panics_exactly", "load_panics_release", "from_yaml_panics_located"], "note": "False as stated: a duration with a number of 2^64 or more panics in every build (load_total_refuted), and so does, with overflow checks, a port with a reversed or full range. Proved: loading panics only if such a text is at one of 14 listed places, and in a file that loads, replacing the value at such a place makes loading panic exactly if the new one is such a text."},
 {"property": "C75", "status": "partial", "theorems": ["default_changes_nothing", "default_refuted", "same_file_loads_same"], "note": "False as stated: a null is rejected where a duration is expected and in an external resource, and an empty map of labels is not the same value as no labels (default_refuted). Proved for every document without repeated keys and for all attributes listed in ChangeSpec.objects, ChangeSpec.managed_objects and the disable flag of a health check, at every place they may stand."},
 {"property": "C76", "status": "partial", "theorems": ["order_changes_nothing", "order_refuted", "same_file_loads_same"], "note": "False as stated: the order of extensions is kept, and a health check with disable false and test NONE depends on the order (order_refuted). Proved for every document without repeated keys, at every object of a compose file, for all permutations which keep extensions in order, excluding only that health check."},
 {"property": "C77", "status": "proved", "theorems": ["spelling_changes_nothing", "same_meaning_loads_same", "spelling_refuted"], "note": "For every document without repeated keys. spelling_refuted shows spellings outside the list which are not exchangeable: integers and their texts for pids_limit and uid, and sizes in different units."},
 {"property": "C78", "status": "partial", "theorems": ["load_text", "load_value", "value_text_partial", "text_value_partial", "text_value_agree", "text_value_refuted", "value_text_refuted", "left_out_text", "left_out_forms_refuted", "saved_text_partial", "options_text", "options_text_agree", "options_text_refuted", "text_flag"], "note": "That text and Value accept the same documents is false (refutations); proved: agreement where both accept, and both inclusions under exact conditions (no written null; after quoting)."},
 {"property": "C79", "status": "partial", "theorems": ["attribute_meaning", "attribute_order", "derive_meaning", "as_short_meaning", "short_there_and_back", "long_there_and_back", "default_test", "as_short_compiles_iff", "derived_as_short", "derived_from_short", "single_field_refuted", "qualified_option_refuted"], "note": "Two clauses are false: a struct with only the short field is accepted and expands to invalid Rust (as_short_compiles_iff is exact), and an Option written with its path is not recognised (default_test is exact). The rest is proved."},
 {"property": "C80", "status": "partial", "theorems": ["derive_default_meaning", "expecting_meaning", "platforms_parse_meaning", "peek_error_says", "peek_error_refuted", "platforms_parse_errors"], "note": "The message clause is false; peek_error_says gives the actual message. The rest is proved."},
 {"property": "C81", "status": "partial", "theorems": ["forms_same", "forms_validate", "forms_validate_partial", "forms_validate_refuted"], "note": "forms_same and forms_validate are the full statements for loading and for networks, configs and secrets. Validation of volumes is refuted (forms_validate_refuted); forms_validate_partial needs that a volume a service has more than once is defined."},
 {"property": "C82", "status": "proved", "theorems": ["hand_written_apart", "sets_apart", "volumes_ports_faithful", "index_set_pieces"], "note": ""},
 {"property": "C83", "status": "partial", "theorems": ["quotes_free_partial", "quotes_either_partial", "quotes_free_refuted"], "note": "False as stated for resources, flattened fields and long volumes (refuted for every scalar that is a number or boolean); proved for all the other places that have text, listed in QuoteSpec."},
 {"property": "C84", "status": "partial", "theorems": ["image_texts", "unchecked_names_refuted", "unchecked_names_partial", "unchecked_tags", "image_is_cache_option", "into_options_valid", "cache_from_image_text", "host_path_from_absolute_valid", "source_from_path_parse", "source_from_identifier_parse", "context_from_path", "extension_key_strips", "user_from_text", "weight_default_valid"], "note": "False for names: as_name of an image made by from_parts is not a name (unchecked_names_refuted); true for parsed images and the histories of C30 (unchecked_names_partial). Everything else holds for every sequence of public calls."},
 {"property": "C85", "status": "partial", "theorems": ["text_kept_iff", "list_items_kept_partial", "list_items_kept_refuted", "contexts_kept_partial", "contexts_kept_refuted"], "note": "False as stated for texts which look like numbers and for empty texts (refuted); text_kept_iff says exactly which texts are kept, and list_items_kept_partial that a list comes back exactly if all its texts are. Value and Display of floats and the URL parser are parameters."},
 {"property": "C86", "status": "proved", "theorems": ["reload_settles", "reload_validation", "reload_exact"], "note": "For every file that loads; the exact difference is stated for files without empty maps in list-or-map fields (see C53 for those)."},
 {"property": "C87", "status": "partial", "theorems": ["messages_tell", "short_port_tells_refuted", "short_port_tells_partial", "messages_fill_partial", "digest_message_refuted", "digest_message_lines", "port_messages", "lone_messages", "extension_key_message_refuted"], "note": "False as stated in three places: the error about a host address does not show the address, the message about a character of a digest algorithm has a line break in it, and an extension key of several lines is called a map key. Proved for all other errors, with the exact exceptions."},
 {"property": "C88", "status": "partial", "theorems": ["propagation_reads", "gives_one", "only_names_refuted", "only_names_partial", "mount_accepts"], "note": "False as stated: propagation: {4: null} is accepted and saved as rprivate (only_names_refuted). Proved: which values are accepted and as what (propagation_reads, mount_accepts); the enums read directly take only names (only_names_partial)."},
 {"property": "C89", "status": "partial", "theorems": ["mac_usual_refuted", "mac_usual_partial", "mac_usual_read", "mac_only_usual_refuted"], "note": "False as stated: the first byte is not padded (mac_usual_refuted). Proved: true exactly for a first byte of at least 16, otherwise a zero is missing (mac_usual_partial); the usual notation is always read (mac_usual_read)."},
 {"property": "C90", "status": "partial", "theorems": ["limit_ordered", "limit_order_meaning", "short_or_long_ordered", "mac_order_meaning", "byte_value_equal", "byte_value_equal_refuted", "byte_value_equal_partial", "count_equal", "cpus_ordered", "cpus_from_exact"], "note": "False only for byte values of different units: 1kb and 1000b are not equal (byte_value_equal_refuted); everything else is proved."},
 {"property": "C91", "status": "partial", "theorems": ["service_kept", "service_set", "compose_kept", "compose_set_services", "compose_set_field", "compose_move_field", "loaded_set_field", "times_kept", "ipc_kept", "maps_kept", "volumes_from_kept", "api_values_kept_refuted", "compose_set_reloads"], "note": "That every value comes back is false (api_values_kept_refuted). Proved: a file comes back exactly if each field of it does on its own, and for times, maps, ipc and volumes_from exactly which values do."},
 {"property": "C92", "status": "proved", "theorems": ["service_survives", "file_survives", "loaded_possible", "service_loaded_possible", "loaded_survives", "survivors", "service_survivors", "set_survives"], "note": "Equivalence for all values; the conditions are in KeepSpec.v. externals_ok is the assumption on the oracles already used for C53."},
 {"property": "C93", "status": "proved", "theorems": ["service_becomes", "file_becomes", "settled_survives", "lossless_settled", "service_lossless_settled", "loaded_legible", "loaded_becomes", "saved_alike", "save_injective"], "note": "For all values. legible is the condition of C92 on texts only; values which are not legible may be unreadable or read as another value (see the findings of C29, C53, C91)."},
 {"property": "C94", "status": "partial", "theorems": ["messages_tell_kinds_partial", "strings_tell", "messages_tell_kinds_refuted", "string_or_number_kinds", "cpus_kinds", "cpuset_kinds"], "note": "False as stated: the texts of StringOrNumber, Cpus and CpuSet name a kind which is not accepted. Proved for all other types, and for these three it is proved which kinds differ. Texts which do not speak of kinds are left out (listed in ExpectModel.v)."},
 {"property": "C95", "status": "proved", "theorems": ["converted_as_written", "converted_reads_back", "mount_kind_written"], "note": "For all values. Conversions which only unwrap a string are not listed."},
 {"property": "C96", "status": "proved", "theorems": ["saved_validates", "saved_validates_refuted"], "note": "For all legible values; for loaded files without that condition see reload_validation (C86). saved_validates_refuted shows that the condition legible, which is part of the property, is needed."},
 {"property": "C97", "status": "partial", "theorems": ["passes_defined_partial", "defined_passes", "validation_ignores", "build_secrets_defined_refuted", "volumes_defined_refuted", "services_defined_refuted", "default_network_refuted", "validation_fields"], "note": "The claim, which the documentation of validate_all makes, is false: the secrets of a build are not looked at and a volume used once need not be defined. Proved: networks, configs, secrets of the service itself and volumes of two services are defined; the converse; which fields are looked at."},
 {"property": "C98", "status": "proved", "theorems": ["validation_monotone", "verdict_order", "error_order_refuted"], "note": "The error itself, which names the first service, does depend on the order: error_order_refuted."},
 {"property": "C99", "status": "proved", "theorems": ["service_removable", "build_removable", "deploy_removable", "compose_removable"], "note": "For every key; compose_removable is an equivalence: exactly services cannot be removed."},
 {"property": "C100", "status": "proved", "theorems": ["service_addable", "build_addable", "deploy_addable", "all_addable_refuted"], "note": "all_addable_refuted shows that the four exceptions, which are part of the statement, are needed."},
 {"property": "C101", "status": "partial", "theorems": ["agree_refuted", "deploy_beside_anything", "static_address_refuted"], "note": "False for all five pairs. Proved instead: any accepted deploy section goes with any accepted service and has no bearing on the validation, so that nothing is compared."},
 {"property": "C102", "status": "partial", "theorems": ["no_conflict_refuted", "host_ports_refuted", "device_conflict_refuted", "ports_beside_anything", "count_beside_anything", "device_ids_beside_anything"], "note": "False for both. Proved instead: any accepted count or device_ids goes with any accepted device without it, and any accepted ports with any accepted service without them, with no bearing on the validation."}
]}
