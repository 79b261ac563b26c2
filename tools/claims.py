C["C01"] = ("proved", ["C01_verbose_roundtrip"], "Leibniz equality of type and registry, all documents and registries.")
C["C02"] = ("proved", ["C02_limits"], "")
C["C03"] = ("proved", ["C03_terminates"], "Fuel psize(document) always suffices; Python's recursion limit is not modelled.")
C["C04"] = ("proved", ["C04_aliases"], "")
C["C05"] = ("proved", ["C05_registry_grows", "C05_first_registration_wins", "C05_failure_changes_nothing"], "")
C["C06"] = ("proved", ["C06_alias_grammar"], "ASCII regex semantics; the trailing-newline subtlety of $ does not arise with fullmatch.")
C["C07"] = ("partial", ["C07_resolve_overrides_partial", "C07_resolve_overrides_refuted"], "Proved for override attributes stored in extra_attrs. False for doc and logical (dropped) and for bytes (lands beside bytes_).")
C["C08"] = ("partial", ["C08_unfolding_refuted", "C08_second_unfolding_always_fails", "C07_resolve_overrides_partial"], "The property is false: the first unfolding works, the second always raises TypeError.")
C["C09"] = ("proved", ["C09_make_nullable", "C09_applies_to_parsed_types"], "For types whose extra attributes do not collide with constructor parameters (otherwise Python raises TypeError); all parsed types qualify.")
C["C10"] = ("partial", ["C10_receiver_partial", "C10_receiver_refuted"], "False in general; the exact condition under which the receiver is unchanged is proved.")
C["C11"] = ("proved", ["C11_equality_refl", "C11_equality_sym", "C11_equality_trans", "C11_equality_meaning", "C11_equal_same_nullability", "C11_applies_to_parsed_types"], "Floats are rationals (no NaN).")
C["C16"] = ("partial", ["C16_struct_fields", "C16_union_members_partial", "C16_list_members", "C16_names_kept", "C16_type_list_refuted"], "Proved for fields, types and list documents; false for type lists with nested lists, which are dropped.")
C["C56"] = ("partial", ["C56_rejected_document_partial", "C56_rejected_document_refuted"], "False: aliases of inner types stay registered; existing entries always survive.")
C["C57"] = ("proved", ["C57_optional_shorthand"], "")
C["C17"] = ("proved", ["C17_registry_is_a_map"], "Refinement of a history-based map for every sequence of operations; json dump/load is the identity on documents, local-filesystem semantics, no name length limits.")
C["C18"] = ("proved", ["C18_fresh_version", "C18_counts_up"], "")
C["C19"] = ("proved", ["C19_isolation", "C19_presence"], "For every disk content, names other than the empty name, '.' and '..'.")
C["C20"] = ("partial", ["C20_confined_partial", "C20_confined_refuted"], "False for the name '..', which quote_plus leaves as it is; proved for all names other than '', '.', '..'.")
C["C21"] = ("proved", ["C21_quote_reversible", "C21_quote_one_component"], "Names as byte strings (UTF-8).")
C["C22"] = ("proved", ["C22_crash_keeps_others", "C22_executions_with_crashes"], "")
C["C23"] = ("partial", ["C23_latest_readable_partial", "C23_put_repairs", "C23_latest_readable_refuted"], "False exactly between opening the file and the end of the write; proved at every other point, and a further put repairs it.")
C["C24"] = ("proved", ["C24_distinct_versions"], "One process, one event loop; every schedule of await points.")
C["C25"] = ("partial", ["C25_put_conflict_partial", "C25_sequential_partial", "C25_overlap_refuted"], "False when two PUTs overlap; proved when the version is stored at check time and for non-interleaved requests.")
C["C27"] = ("proved", ["C27_listed_urls_have_no_credentials", "C27_listing_independent_of_secrets"], "For URLs with scheme and host; pydantic's AnyUrl (not modelled) rejects credentials without a host, where the code would list them (example C27_empty_host).")
C["C28"] = ("partial", ["C28_strict_configured_partial", "C28_strict_configured_refuted"], "Proved for empty and absolute input paths; false for relative paths against a configured URL without host, where the path becomes the host of the result.")
C["C29"] = ("partial", ["C29_below_configured_path_partial", "C29_below_configured_path_refuted"], "False for siblings that extend the last component and for dot segments; proved that all components but the last agree, the last is a text prefix, and the path is passed on unchanged.")
C["C30"] = ("partial", ["C30_listed_url_accepted_partial", "C30_listed_url_accepted_refuted"], "False for URLs without path, paths that start with two slashes and IPv6 hosts with credentials; proved otherwise.")
C["C31"] = ("partial", ["C31_connects_to_configured_host_partial", "C31_connects_to_configured_host_refuted"], "Proved for PostgreSQL and MySQL without steering query parameters; false with ?host= or ?account=.")
C["C32"] = ("partial", ["C32_positions_partial", "C32_mysql_positions_partial", "C32_positions_refuted"], "Exact behaviour of parse for PostgreSQL, Snowflake and MySQL; false in that surplus segments are ignored by schema and by ls of MySQL.")
C["C58"] = ("partial", ["C58_relational_requests_open_partial", "C58_hive_requests_refuted", "C58_confluent_requests_refuted"], "Proved for PostgreSQL, MySQL and Snowflake; no Hive or Confluent request can ever be opened.")
C["C59"] = ("partial", ["C58_relational_requests_open_partial", "C59_bigquery_ls_refuted"], "Proved for PostgreSQL, MySQL and Snowflake; ls of BigQuery gets three arguments for two parameters and always fails.")
C["C47"] = ("proved", ["C47_columns_become_fields"], "For MySQL, PostgreSQL (both array modes), Snowflake and SQLite.")
C["C48"] = ("partial", ["C48_not_null_partial", "C48_sqlite_not_null_partial", "C48_not_null_refuted"], "Proved (as an equivalence) for MySQL, Snowflake and PostgreSQL without enforced dimensions, and for SQLite outside numeric affinity; false otherwise.")
C["C49"] = ("proved", ["C49_coarsest_unit", "C49_timestamp_columns", "C49_snowflake_timestamps", "C49_snowflake_times"], "For precisions given by DATETIME_PRECISION (MySQL, PostgreSQL) or in the type text (Snowflake).")
C["C50"] = ("partial", ["C50_distinct_reads_partial", "C50_second_read_refuted"], "False for every table with an array column; proved for histories in which no array column name occurs twice.")
C["C51"] = ("proved", ["C51_array_dimensions"], "")
C["C52"] = ("proved", ["C52_affinity", "C52_no_type"], "")
C["C53"] = ("proved", ["C53_bigquery", "C53_bigquery_supported"], "field_type and mode are strings.")
C["C60"] = ("partial", ["C60_arrays_readable_partial", "C60_arrays_unreadable_refuted", "C60_names_refuted"], "Exact for eleven element types (readable iff the name is an identifier after replacing dots); false for timestamp, numeric, bool, int2 and bpchar elements and for other names.")
C["C61"] = ("partial", ["C61_array_unfolding_refuted"], "False for every array column: the first step works, the second raises TypeError.")
C["C62"] = ("partial", ["C62_snowflake_time_partial", "C62_snowflake_plain_time_refuted", "C62_bigquery_time_refuted"], "Snowflake TIME(p) holds the day exactly for p <= 3; TIME without parameter and BigQuery TIME never do.")
C["C63"] = ("partial", ["C63_mysql_decimals", "C63_snowflake_decimals", "C63_bigquery_decimals", "C63_bigquery_default_decimals", "C63_postgresql_decimals_partial", "C63_postgresql_decimals_refuted"], "Proved for MySQL, Snowflake and BigQuery; for PostgreSQL exactly up to 76 of 1000 digits.")
C["C64"] = ("partial", ["C64_signed_partial", "C64_unsigned_refuted"], "Proved for signed columns; false for every unsigned column.")
C["C65"] = ("partial", ["C65_limits_partial", "C65_limits_refuted"], "Proved when the reported lengths are within the limits; false for CHAR(0) of MySQL and huge declared lengths of SQLite.")
C["C66"] = ("partial", ["C66_sqlite_nullable_partial", "C66_sqlite_primary_key_refuted"], "Proved for columns outside the primary key; false for primary keys other than INTEGER PRIMARY KEY.")
C["C67"] = ("partial", ["C67_bigquery_types_partial", "C67_bigquery_types_refuted"], "The exact set of readable schemas is proved; BOOL, BIGINT, GEOGRAPHY, INTERVAL and RANGE are not in it.")
C["C54"] = ("proved", ["C54_columns", "C54_supported"], "")
C["C55"] = ("partial", ["C55_attributes_kept_partial", "C55_attributes_kept_refuted", "C55_all_collections_changed"], "Proved for unions without lists and maps; false for every list or map in a union, which gets an attribute named extra_attrs.")
C["C68"] = ("proved", ["C68_statistics", "C68_applies_to_tables", "C68_schema"], "For tables with distinct column names.")
C["C69"] = ("partial", ["C69_timestamps_partial", "C69_timestamps_refuted"], "The type counts nanoseconds in 64 bits, which covers 1677 to 2262; Hive's range is larger.")
C["C70"] = ("proved", ["C70_limits"], "")
C["C71"] = ("proved", ["C71_documents"], "")
C["C33"] = ("partial", ["C33_integers_partial", "C33_integers_refuted"], "Proved for signed widths up to 64 and unsigned up to 32; false for every larger width that converts, because the precision is one digit short.")
C["C34"] = ("proved", ["C34_records"], "For references whose overrides are plain attributes other than doc.")
C["C35"] = ("partial", ["C35_roundtrip_partial", "C35_roundtrip_refuted"], "Proved for schemas whose field types are written into the field; false for every field whose type is a record definition of its own.")
C["C36"] = ("partial", ["C36_sizes_partial", "C36_fixed_refuted", "C36_decimal_refuted", "C36_duration_refuted"], "Holds for plain bytes; false for every fixed type, every decimal and every duration.")
C["C37"] = ("partial", ["C37_names_partial", "C37_names_refuted"], "Proved when all names are distinct; false for every schema that uses a name twice.")
C["C72"] = ("partial", ["C72_builtin_references_partial", "C72_builtin_references_refuted"], "Proved for references with a name; false for every nameless reference to a type that is written as a plain Avro type name.")
C["C73"] = ("partial", ["C73_unions_partial", "C73_unions_refuted"], "Proved for field types; array items, map values and top-level schemas given as a JSON array always fail.")
C["C74"] = ("partial", ["C74_logical_types_partial", "C74_logical_types_refuted"], "Proved for all logical types but durations and fixed decimals; every duration that is read is rejected when written.")
C["C75"] = ("proved", ["C75_reading_terminates", "C75_writing_terminates"], "")
C["C76"] = ("partial", ["C76_names_partial", "C76_names_refuted"], "Proved for types with a name attribute; false for all others.")
C["C38"] = ("proved", ["C38_required", "C38_nested"], "")
C["C39"] = ("proved", ["C39_read"], "The required entry is absent or a list, as JSON Schema demands.")
C["C40"] = ("partial", ["C40_refs_partial", "C40_refs_refuted"], "Proved when references are to built-in types only and no alias shadows one; false for references to aliases of the user.")
C["C77"] = ("partial", ["C77_references_partial", "C77_references_refuted"], "The alias is right, but it is never registered, so resolving fails.")
C["C78"] = ("partial", ["C78_round_trip_partial", "C78_round_trip_refuted"], "Proved for booleans, 32 bit integers, 64 bit floats, strings, lists, structs and optional fields; false for maps, enums, bytes and unions.")
C["C79"] = ("partial", ["C79_alias_partial", "C79_alias_refuted"], "Proved for web addresses with a plain host and path; false for ids without a host, with a port, a hyphen in the host, or a path part that starts with a digit.")
C["C80"] = ("proved", ["C80_read", "C80_write", "C80_start"], "")
C["C81"] = ("partial", ["C81_widths_partial", "C81_widths_refuted"], "False for string32 and bytes32, whose largest length needs 33 bits.")

C["C41"] = ("partial", ["C41_partial", "C41_refuted"],
  "Numbers are distinct and positive if only the last field of a struct is a union of several types. Whenever such a union is followed by another field, two fields have the same number.")
C["C42"] = ("partial", ["C42_partial", "C42_refuted"],
  "True for lists. Every nullable list is written as an optional single value.")
C["C43"] = ("partial", ["C43_partial", "C43_refuted"],
  "True for files without strings, bytes and maps. A message with such a field is read but never written.")
C["C44"] = ("partial", ["C44_partial", "C44_refuted"],
  "True if the package of the alias is that of the file or a struct of the type. Otherwise the type is used but not declared.")
C["C45"] = ("proved", ["C45_to_terminates"],
  "On every file after every history of calls.")
C["C46"] = ("partial", ["C46_partial", "C46_refuted"],
  "True for files with a package statement. Of two files without one the second is always rejected.")
C["C82"] = ("partial", ["C82_partial", "C82_refuted"],
  "True for fields that are neither lists nor optional; those are named after the type of their values, or by a number.")
C["C83"] = ("partial", ["C83_partial", "C83_order_refuted", "C83_nested_names_refuted", "C83_bool_key_refuted"],
  "True if messages other than the first refer only to earlier ones, to themselves and to the first, simple names are distinct and no map has bool keys. Each condition is needed.")
C["C84"] = ("proved", ["C84_write"],
  "For every placed struct (see C44).")
C["C85"] = ("proved", ["C85_first_message"],
  "For every file with a package statement, after any history of calls.")
C["C86"] = ("partial", ["C86_partial", "C86_lists_refuted", "C86_maps_refuted"],
  "True for scalars, references and lists, maps and unions of them. Lists of lists and maps to lists lose a level.")
C["C87"] = ("partial", ["C87_partial", "C87_refuted", "C87_names_refuted"],
  "True for later files with a package statement and new names. A rejected file leaves its package and its names behind.")
C["C12"] = ("partial", ["C12_compact_partial", "C12_compact_refuted", "C12_equal_refuted"],
  "True when every union with a default value and a bare null member is one that the optional notation can express (compact_ok). False otherwise: writing such a union can raise AssertionError, or lose its documentation, its default value or the order of its members.")
C["C13"] = ("partial", ["C13_builtin_partial", "C13_builtin_refuted", "C13_attribute_refuted"],
  "True when no attribute stored under values, keys, fields or types holds a document (plain_attributes). False otherwise: such an attribute is rewritten like a child, or ends in AssertionError.")
C["C14"] = ("partial", ["C14_writes_partial", "C14_full_partial", "C14_writes_refuted", "C14_optional_refuted"],
  "True, with the same meaning after reading back, when unions are expressible (compact_ok) and aliases are defined at most one level below a type without alias (alias_ok). False otherwise: ValueError for an alias two levels down, AssertionError for an optional union of a union.")
C["C26"] = ("partial", ["C26_get_posted_partial", "C26_get_document_partial", "C26_get_posted_refuted"],
  "True for all requests in any interleaving, when the posted type is one that to_dict can express (compact_ok, alias_ok). False otherwise: the documentation of an optional union moves to its member.")
C["C15"] = ("partial", ["C15_clean_twice_partial", "C15_clean_twice_refuted"],
  "True for every document whose types are strings or lists and whose defaulted unions have one bare null that does not meet a second nullable union (tidy). False otherwise: a second cleaning loses the default value and the alias, or reaches into a type given as a dictionary.")
C["C88"] = ("proved", ["C88_serial", "C88_alone"],
  "For every interleaving and every registry history; the specification (SpecServer.v) fixes each status code. Routing, response validation and the text of errors are not modelled.")
C["C89"] = ("proved", ["C89_complete"],
  "For every converter state that any sequence of files leads to.")
C["C90"] = ("partial", ["C90_direct_partial", "C90_fields_partial", "C90_refuted"],
  "True for the references in the fields of the message itself, through lists, maps, unions and oneof groups; what replaces them is complete by itself. False inside a message that replaced a reference: there only the first reference to each other message is replaced.")
C["C91"] = ("partial", ["C91_tables_partial", "C91_bigquery_partial", "C91_hive_partial", "C91_refuted", "C91_comment_refuted"],
  "True for tables whose columns are named and whose lengths are within the limits of from_dict, for BigQuery fields without a description on nullable fields, and for Hive columns without comments whose lengths are within Hive's limits; the registry must not have the aliases of array columns. False otherwise: a MySQL CHAR(0) column cannot be printed, and the description of a nullable BigQuery field or of a Hive column moves to its type. Hive tables with statistics are the subject of C128.")
C["C92"] = ("partial", ["C92_named_file_partial", "C92_refuted", "C92_host_refuted"],
  "True for absolute paths below the root without '?', '#' and control characters, with and without file://. False otherwise: a relative path loses its first character, percent escapes are not decoded, a query parameter url replaces the path, and a host (even localhost) becomes the first directory.")
C["C93"] = ("partial", ["C93_subjects_partial", "C93_topics", "C93_refuted"],
  "True for subjects that end in -key or -value. False for every other subject: the schema of another subject is returned, or none.")
C["C94"] = ("partial", ["C94_formats_partial", "C94_refuted"],
  "True for the exact media types. False with parameters such as charset, or in capital letters: status 415.")
C["C95"] = ("partial", ["C95_reads_partial", "C95_accepts_partial", "C95_reads_refuted", "C95_names_refuted"],
  "True for every document whose namespaces are strings, up to the variable flag of fixed types, decimals and durations (C36). False for two details: the documentation of a field whose type is an object becomes an extra attribute, and a fixed type with a logical type loses its full name.")
C["C96"] = ("partial", ["C96_written_partial", "C96_written_refuted"],
  "True for types whose aliases are strings and whose references are to dotted names. False for references to built-in types without a name: a Recap name is written that Avro does not know.")
C["C97"] = ("proved", ["C97_registered"], "For every JSON document, namespace and registry.")
C["C98"] = ("partial", ["C98_listed_partial", "C98_read_partial", "C98_opens_partial", "C98_sqlite_partial", "C98_files_partial", "C98_closed_refuted", "C98_names_refuted"],
  "True for names without '/', '?', '#' and dropped control characters, for PostgreSQL databases that accept connections, for SQLite files with a relative path outside strict mode and tables whose name needs no quotes. False otherwise: template0 is listed and cannot be opened, a name with a slash leads to another table, and a SQLite table called order cannot be read. BigQuery, Hive and Confluent requests fail before (C58, C59).")
C["C99"] = ("partial", ["C99_named_database_partial", "C99_sqlite_partial", "C99_snowflake_refuted", "C99_sqlite_refuted"],
  "True for PostgreSQL and MySQL, and for SQLite files with a relative path. False for every Snowflake URL: the connector is not told the database. False for SQLite files with an absolute path, which schema turns into a relative one, and with a query, which ls takes for a part of the file name.")
C["C100"] = ("partial", ["C100_absent_partial", "C100_files_partial", "C100_listed_refuted", "C100_absent_refuted"],
  "True for SQLite tables, also of files that do not exist, and for paths of files. False for listing a SQLite file that does not exist: it has no tables. False for every PostgreSQL and MySQL table that does not exist in an existing schema: a struct without fields is returned.")
C["C101"] = ("proved", ["C101_reads", "C101_accepts"],
  "Both directions, for every schema whose \"required\" is always a list; the specification (SpecJsonSchema.v) relates schemas to types without the reader.")
C["C102"] = ("partial", ["C102_values_partial", "C102_values_refuted"],
  "True for documents with whole numbers within 32 bits, for schemas whose ids are names of their own. False for larger whole numbers: a schema of type integer accepts them, and is read as a 32-bit integer.")
C["C103"] = ("partial", ["C103_fits_partial", "C103_null_refuted", "C103_default_refuted", "C103_union_refuted"],
  "True for values that leave optional fields out rather than null and have all other fields, of types whose references are to built-in types, whose aliases are tokens that belong to one part each, and whose unions are optional or have members of different JSON types. False otherwise: null in an optional field, a defaulted field left out, and a value of two members of a union are rejected.")
C["C104"] = ("proved", ["C104_names", "C104_own_name"],
  "By a simulation between the processes and those processes without the calls about other names; each file access (a listing, a mkdir, an open, reading or writing a text) is atomic.")
C["C105"] = ("partial", ["C105_order_partial", "C105_given", "C105_distinct_refuted"],
  "True if one put begins after the other has returned. False for puts that overlap: both read the latest version before either writes, and return the same one.")
C["C106"] = ("proved", ["C106_get", "C106_failures"],
  "For every interleaving; texts that overlapping writes have mixed give a JSON error, never a type that nobody stored.")
C["C107"] = ("partial", ["C107_stored_partial", "C107_read_partial", "C107_stored_refuted", "C107_readable_refuted"],
  "True if no other put of the name gets the same version. False for overlapping puts without a version: both return the same version, one type is lost, and if the longer text is written first the file is no JSON document any more.")
C["C108"] = ("partial", ["C108_rows_partial", "C108_readable_partial", "C108_lost_refuted"],
  "The values that survive are characterised exactly. False for unsigned integers, CHAR, ENUM with labels of different lengths and BIT up to 56 bits: a column has values that are not values of its type. DATE, TIME and spatial columns make the table unreadable.")
C["C109"] = ("partial", ["C109_rows_partial", "C109_readable_partial", "C109_lost_refuted", "C109_enum_arrays_refuted"],
  "The values that survive are characterised exactly, for both settings of enforce_array_dimensions, for tables without arrays of enumerations. Those are read only if the name of the enumeration looks like that of a built-in type, and then without the labels. False for CHAR, NUMERIC without limits or with 77 digits, late timestamps and arrays.")
C["C110"] = ("partial", ["C110_rows_partial", "C110_readable_partial", "C110_lost_refuted"],
  "The values that survive are characterised exactly. False for TIME, which is counted in nanoseconds of 32 bits, and for timestamps that do not fit 64 bits as nanoseconds.")
C["C111"] = ("partial", ["C111_rows_partial", "C111_readable", "C111_lost_refuted"],
  "The values that survive are characterised exactly. False because SQLite does not enforce column types, nor the numbers in parentheses.")
C["C112"] = ("partial", ["C112_rows_partial", "C112_readable_partial", "C112_lost_refuted"],
  "The values that survive are characterised exactly, for nested and repeated fields. False for STRING(n), TIME and NUMERIC and BIGNUMERIC without parameters, which are read with scale 0.")
C["C113"] = ("partial", ["C113_rows_partial", "C113_kept_partial", "C113_lost_refuted"],
  "The values of the struct are characterised exactly; every type without timestamps, VARCHAR and CHAR keeps all its values. False for those: their lengths are taken as bytes, and instants as nanoseconds of 64 bits.")
C["C114"] = ("partial", ["C114_passed_partial", "C114_configured_partial", "C114_unknown_partial", "C114_passed_refuted", "C114_witness_refuted"],
  "True for all non-empty values of parameters that do not name a part of the URL or a place to connect to (C31) and are not the database. False for empty values: they are dropped and do not replace a configured value.")
C["C115"] = ("partial", ["C115_bigquery_partial", "C115_hive_partial", "C115_confluent_partial", "C115_scheme_partial", "C115_refuted"],
  "True outside strict mode for names that can be written in a path as they are, hosts that need no brackets and Confluent URLs without another plus sign. False for IPv6 metastores, for include_stats=false and for a Confluent URL without a subject, which raises IndexError. Requests for these clients fail afterwards (C58, C59).")
C["C116"] = ("partial", ["C116_kept_partial", "C116_field_refuted", "C116_ignored_refuted", "C116_reference_refuted"],
  "True for every schema whose logical types have a meaning where they stand, whose fields have none, whose arrays, maps and annotated primitives are not named, and whose references are not to logical types; aliases are looked up in the registry after reading. False otherwise: a logical type on a field or on a type it does not belong to changes what is read, and a reference to a decimal is read as bytes.")
C["C117"] = ("partial", ["C117_exact_partial", "C117_fixed_refuted", "C117_range_refuted"],
  "True for the schemas of C116 that define every name they use and have no UUIDs, times of day or fixed types without a logical type. False for those: shorter bytes, negative times and other texts of 36 bytes are values of what is read.")
C["C118"] = ("partial", ["C118_values_partial", "C118_field_refuted", "C118_logical_refuted"],
  "True for primitive types, fixed bytes, decimals, dates, timestamps, enums, lists, maps, unions and named structs whose fields are primitive types or unions. False for fields that are lists, maps, structs or enums, whose schemas have no data in Avro, and for fields with a logical type, which are numbers. Wide integers written as decimals (C33), UUIDs, times, durations and references are left out.")
C["C119"] = ("partial", ["C119_kept_partial", "C119_instant_refuted"],
  "True for every file whose fields name the messages and enums of the file by their simple names or by the package and the simple name, for messages whose timestamps fit into 64 bits of nanoseconds. False for timestamps before 1677 or after 2262. Files that refer to imported messages are left out.")
C["C120"] = ("partial", ["C120_exact_partial", "C120_length_refuted"],
  "True for the files of C119 up to texts and bytes of exactly 2^31 bytes. False for those, which no message can have.")
C["C121"] = ("partial", ["C121_values_partial", "C121_positions_partial", "C121_names_refuted", "C121_fields_refuted"],
  "True for structs and enums whose names lie in the package or in another struct, with fields that are scalars, lists or maps of scalars or unions of scalars without logical types, when the names of fields are where from_recap looks for them; elsewhere values keep their order under other names. False for the names of optional fields and lists, and for instants, decimals, lists in lists, null in lists, lists in maps and lists that may be null.")
C["C122"] = ("partial", ["C122_flat_partial", "C122_references_refuted", "C122_leading_dot_refuted", "C122_keys_refuted"],
  "True for the structs of C121 without references to structs or enums and with integers or strings as keys of maps. False for every struct whose fields refer to or contain a struct or an enum: full names are written with a leading dot, which to_recap takes for a part of the name, so that it raises TypeError or returns an inner struct. False for boolean keys.")
C["C123"] = ("partial", ["C123_json_partial", "C123_required_partial", "C123_required_refuted", "C123_arrays_refuted", "C123_bigquery_partial", "C123_hive_partial", "C123_hive_required_refuted", "C123_protobuf_refuted", "C123_avro_refuted", "C123_avro_hive_partial", "C123_avro_text_refuted"],
  "JSON Schema: every table with distinct column names of the four SQL databases, of BigQuery and of Hive is printed with its columns; the required ones are those that cannot be null, except that SQLite columns of numeric affinity and Hive columns of type void and of most union types are always required, and array columns of PostgreSQL refer to a definition that refers to itself. Protobuf: no table of any client can be printed (AssertionError). Avro: the record has no name except for Hive tables, and BigQuery tables with texts of any length cannot be printed.")
C["C124"] = ("partial", ["C124_json_partial", "C124_json_text_refuted", "C124_json_name_refuted", "C124_avro_partial", "C124_avro_deep_partial", "C124_avro_text_refuted", "C124_avro_direct_refuted", "C124_avro_fields_refuted", "C124_proto_json_partial", "C124_proto_name_refuted"],
  "True: a JSON schema without references is printed as a JSON schema; a record of primitive types and unions of them is printed as a JSON schema and as an Avro schema that has all its data, also with unions of dates, timestamps, decimals, enums, arrays, maps and such records of any depth; a proto file whose first message refers to nothing is printed as a JSON schema. False: JSON schemas with a text anywhere are printed neither as Avro nor as Protobuf, Avro schemas with a text not as Protobuf (proto files with a string: C43_refuted), the Avro record printed for a JSON schema or a proto file has no name, and an Avro record with a list, map, record or enum as a field that is not in a union is printed as a schema without data. Left out: references, whose definitions stay in the converter that read them.")
C["C125"] = ("partial", ["C125_mysql_objects_partial", "C125_postgresql_objects_partial", "C125_snowflake_objects_partial", "C125_mysql_rows_partial", "C125_postgresql_rows_partial", "C125_snowflake_rows_partial", "C125_null_refuted", "C125_instant_refuted", "C125_sqlite_refuted", "C125_arrays_refuted"],
  "MySQL, Snowflake and PostgreSQL without array columns: the objects that are accepted are exactly those with all columns that cannot be NULL and with the JSON types of the columns, so rows whose NULLs are left out are accepted if instants are counted and decimals and bytes are texts. False for a NULL that is written as null, for instants as texts, and for SQLite columns of numeric affinity, for which every whole number and every text is rejected because two members of oneOf accept it. False for PostgreSQL arrays: every object with a member for one is rejected, and if the array cannot be NULL nothing is accepted at all.")
C["C126"] = ("partial", ["C126_same_partial", "C126_lost_refuted", "C126_gained_refuted", "C126_reference_refuted"],
  "True for schemas of basic types, lists of types that exclude each other, arrays and objects, nested and with ids, when a property that is not required has one type other than null, every required name is a property, null is not a default, and there are no other keywords that can reject a document. False without each of these: null, absent properties and whole numbers get rejected, absent required properties, null and values outside of enum get accepted, and a schema that refers to itself is printed as a definition that refers to itself and accepts nothing.")
C["C127"] = ("partial", ["C127_snowflake_listed_partial", "C127_snowflake_read_partial", "C127_bigquery_read_partial", "C127_snowflake_other_refuted", "C127_snowflake_session_refuted", "C127_bigquery_ls_refuted", "C127_bigquery_client_partial"],
  "Snowflake: true for the database in which the sessions of the user start. False for all others: the connector is not told which database the URL names, so they have no schemas and no tables and each of their tables is a struct without fields; and for users without such a database, for whom every request fails. BigQuery: true for schema without configured URLs; no URL can be listed, although the method of the client lists exactly the names below those that it is given.")
C["C128"] = ("partial", ["C128_statistics_partial", "C128_names_refuted"],
  "For columns without comments the document is always printed and read back with the types and the statistics of all columns. The names are kept for the columns without statistics and for void columns only: every other column with statistics loses its name and its default value.")
C["C129"] = ("proved", ["C129_schema", "C129_ls", "C129_schema_back", "C129_ls_back", "C129_printed", "C129_root", "C129_servers"],
  "For arbitrary clients. Routing, the layout of the printed text and the generator of proto text are not modelled.")
C["C130"] = ("partial", ["C130_bigquery_partial", "C130_hive_partial", "C130_rows_partial", "C130_null_refuted", "C130_unions_refuted"],
  "False for NULL: a member that is null is rejected, and so is null as an element of an array of Hive, because the schema of a nullable column is that of its other type. False for unions of Hive: the member must be present, and a value with two of the types, such as a whole number in a union of int and double, is rejected. True, as an exact description of the accepted objects, for BigQuery tables and for Hive tables whose unions have scalar members; every row that BigQuery or Hive can store is accepted if NULLs are left out of objects, for Hive if no array or map holds a NULL, no column is always NULL and no type is a union. Missing: Hive columns with unions of arrays, maps and structs.")
C["C131"] = ("partial", ["C131_printed_partial", "C131_rows_partial", "C131_hidden_refuted", "C131_structs_refuted", "C131_unnamed_refuted"],
  "True for Hive tables with columns of numbers, truth values, bytes, days, decimals, VARCHAR and CHAR, arrays and unions of them. False for Hive columns of texts of any length, instants, intervals and maps, alone or in arrays, unions and structs, with which nothing is printed; for structs of Hive, whose records have no name; and for all tables of the other databases, which are printed as records without a name and so have no data.")
