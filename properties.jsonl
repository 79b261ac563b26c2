{"id": "C01", "title": "Verbose dictionary round trip is lossless", "statement": "If from_dict accepts a document and returns a type t, then from_dict(to_dict(t, clean=False, alias=False)) is also accepted, returns a type equal to t, and registers exactly the same aliases.", "quantifier": "every JSON-like document (dict, list or string, any nesting, any extra attributes) and every starting registry", "why_tests_cant": "the set of documents is infinite in depth, width and attribute values; tests cover a dozen literals", "anchors": ["recap/types.py:from_dict", "recap/types.py:to_dict"]}
{"id": "C02", "title": "Accepted types respect the numeric limits of the type spec at every depth", "statement": "Every int/float node inside a type returned by from_dict has 1 <= bits <= 2147483647; every string/bytes/list node has a length that is absent or within 1..9223372036854775807, and never has variable false with no length.", "quantifier": "every document accepted by from_dict and every node of the returned tree", "why_tests_cant": "requires looking at all nodes of all accepted documents, including members of unions, whose own validate() does not recurse", "anchors": ["recap/types.py:from_dict", "recap/types.py:IntType.validate", "recap/types.py:ListType.validate", "recap/types.py:StringType.validate", "recap/types.py:StructType.validate"]}
{"id": "C03", "title": "from_dict always terminates", "statement": "from_dict returns a type or raises an exception on every finite document: no document makes it recurse for ever.", "quantifier": "every finite document and starting registry", "why_tests_cant": "non-termination cannot be observed by running finitely many inputs; the optional=True rewriting re-enters the parser on a document that is not a sub-document", "anchors": ["recap/types.py:from_dict"]}
{"id": "C04", "title": "Aliases are unique, fully qualified and never shadow built-ins", "statement": "After from_dict succeeds, the aliases defined inside the returned type are pairwise distinct, match the dotted-name grammar, were not in the registry before, and are exactly the names added to the registry; every other registry entry is unchanged.", "quantifier": "every accepted document and every starting registry", "why_tests_cant": "alias clashes can occur between any two positions of an arbitrarily large tree", "anchors": ["recap/types.py:from_dict", "recap/types.py:RecapTypeRegistry.register_alias", "recap/types.py:ALIAS_REGEX"]}
{"id": "C05", "title": "The alias registry only grows and never redefines a name", "statement": "Through any history of register_alias calls, successful or failing, a name once present keeps the type it was first registered with, built-in names keep their built-in meaning, and a failing call changes nothing.", "quantifier": "every finite sequence of register_alias calls on a new registry", "why_tests_cant": "quantifies over all histories of calls", "anchors": ["recap/types.py:RecapTypeRegistry.register_alias", "recap/types.py:RecapTypeRegistry.from_alias", "recap/types.py:BUILTIN_ALIASES"]}
{"id": "C06", "title": "Alias names are accepted exactly when they are dotted identifiers", "statement": "register_alias accepts an unused name if and only if it consists of two or more dot-separated non-empty segments, each of which starts with an ASCII letter or underscore and continues with ASCII letters, digits or underscores.", "quantifier": "every string", "why_tests_cant": "the set of strings is infinite; trailing-newline and empty-segment corner cases are the usual regex mistakes", "anchors": ["recap/types.py:ALIAS_REGEX", "recap/types.py:RecapTypeRegistry.register_alias"]}
{"id": "C07", "title": "A proxy resolves to the registered type with its attribute overrides applied", "statement": "Resolving a reference returns the type that was registered under its alias, without alias, doc and default, with every override attribute of the reference set on it and every other attribute unchanged.", "quantifier": "every registry, alias and set of override attributes", "why_tests_cant": "override names range over all strings; the code decides per name whether it is a real attribute of the resolved object", "anchors": ["recap/types.py:ProxyType.resolve", "recap/types.py:RecapTypeRegistry.register_alias"]}
{"id": "C08", "title": "Recursive types can be unfolded any number of times", "statement": "If a document defines an aliased type that refers to itself, resolving the inner reference again and again keeps returning the type.", "quantifier": "every number of unfoldings of every self-referential accepted document", "why_tests_cant": "tests unfold a recursive type once; the property speaks about every depth", "anchors": ["recap/types.py:ProxyType.resolve", "recap/types.py:RecapTypeRegistry.register_alias"]}
{"id": "C09", "title": "make_nullable yields a nullable type and moves doc, default and name outwards", "statement": "make_nullable returns a union that contains a null member and all members of the original; doc, default (None if unset) and name are on the union; no second null is added to a type that already has one; applying it to its own result adds no further member.", "quantifier": "every type object", "why_tests_cant": "quantifies over all types, all attribute sets and repeated application", "anchors": ["recap/types.py:RecapType.make_nullable", "recap/types.py:RecapType.is_nullable"]}
{"id": "C10", "title": "make_nullable leaves its receiver unchanged", "statement": "Calling make_nullable on a type does not change that type.", "quantifier": "every type object", "why_tests_cant": "needs to hold for every attribute combination; a test compares only the returned value", "anchors": ["recap/types.py:RecapType.make_nullable"]}
{"id": "C11", "title": "Type equality is an equivalence relation", "statement": "== on type objects is reflexive, symmetric and transitive, and equal types have the same nullability.", "quantifier": "all pairs and triples of type objects", "why_tests_cant": "infinitely many triples; equality mixes int/bool coercion and order-insensitive dict comparison", "anchors": ["recap/types.py:RecapType.__eq__", "recap/types.py:IntType.__eq__", "recap/types.py:ListType.__eq__", "recap/types.py:UnionType.__eq__", "recap/types.py:ProxyType.__eq__"]}
{"id": "C12", "title": "Compact round trip preserves the type", "statement": "If from_dict accepts a document and returns t, then to_dict(t, clean=True, alias=False) succeeds and from_dict of the result returns a type equal to t.", "quantifier": "every accepted document", "why_tests_cant": "the compacting rules interact at every depth; tests check a fixed list of examples", "anchors": ["recap/types.py:clean_dict", "recap/types.py:to_dict", "recap/types.py:from_dict"]}
{"id": "C13", "title": "Built-in aliasing in to_dict preserves meaning", "statement": "For a type without user-defined aliases, to_dict(t, alias=True, clean=False) succeeds, and parsing the result gives a type equal to t once references to built-in aliases are resolved.", "quantifier": "every accepted document that defines no alias", "why_tests_cant": "replacement may happen at any node of any tree", "anchors": ["recap/types.py:alias_dict", "recap/types.py:to_dict", "recap/types.py:BUILTIN_ALIASES"]}
{"id": "C14", "title": "to_dict succeeds on every type that from_dict can return", "statement": "to_dict with its default arguments never raises on a type returned by from_dict.", "quantifier": "every accepted document", "why_tests_cant": "failures appear only for particular nestings of aliases or unions", "anchors": ["recap/types.py:to_dict", "recap/types.py:alias_dict", "recap/types.py:clean_dict"]}
{"id": "C15", "title": "clean_dict is idempotent", "statement": "Cleaning an already clean document changes nothing: clean_dict(clean_dict(d)) equals clean_dict(d) whenever the first call succeeds.", "quantifier": "every document", "why_tests_cant": "infinitely many documents", "anchors": ["recap/types.py:clean_dict"]}
{"id": "C16", "title": "from_dict keeps every struct field and every union member in order", "statement": "The struct (union) returned for a document has one field (member) for each entry of the document's fields (types, or type list), in the same order.", "quantifier": "every accepted document", "why_tests_cant": "infinitely many documents; a dropped element only shows for some element shapes", "anchors": ["recap/types.py:from_dict"]}
{"id": "C17", "title": "The registry behaves as a map from (name, version) to type documents", "statement": "For any sequence of put/get/latest/versions/ls calls on names other than the empty name, '.' and '..', every result is the one a plain two-level map would give: get returns the document of the last put for that name and version, versions lists exactly the versions put, ascending, and ls lists exactly the names put, sorted.", "quantifier": "every finite sequence of storage operations with any names and versions", "why_tests_cant": "quantifies over all histories and all names, including names with slashes, percent signs, spaces and non-ASCII bytes", "anchors": ["recap/storage/registry.py:RegistryStorage.put", "recap/storage/registry.py:RegistryStorage.get", "recap/storage/registry.py:RegistryStorage.versions", "recap/storage/registry.py:RegistryStorage.latest", "recap/storage/registry.py:RegistryStorage.ls"]}
{"id": "C18", "title": "Automatically assigned versions are fresh and increasing", "statement": "put without an explicit version returns one more than the highest version present (1 if there is none), so it never overwrites a stored version; n such puts on a fresh name return 1, 2, ..., n.", "quantifier": "every reachable storage state and every number of puts", "why_tests_cant": "quantifies over all histories, including explicit, zero and negative versions", "anchors": ["recap/storage/registry.py:RegistryStorage.put", "recap/storage/registry.py:RegistryStorage.latest"]}
{"id": "C19", "title": "Operations on one schema name never affect another", "statement": "Storing under one name leaves the versions, the documents and the presence of every other name unchanged.", "quantifier": "every pair of different names and every storage state", "why_tests_cant": "needs injectivity of the name quoting on all strings and the absence of path separators in quoted names", "anchors": ["recap/storage/registry.py:RegistryStorage.put", "recap/storage/registry.py:RegistryStorage.ls"]}
{"id": "C20", "title": "All registry data stays below the storage root", "statement": "No storage operation reads or writes a file outside the storage root directory.", "quantifier": "every schema name and version", "why_tests_cant": "path traversal depends on unusual names that tests do not try", "anchors": ["recap/storage/registry.py:RegistryStorage.put", "recap/storage/registry.py:RegistryStorage.get"]}
{"id": "C21", "title": "Name quoting is reversible and yields one path component", "statement": "unquote_plus(quote_plus(name)) == name, and the quoted name contains no slash.", "quantifier": "every byte string", "why_tests_cant": "all strings, in particular those that contain '%', '+', '/' or bytes above 127", "anchors": ["recap/storage/registry.py:RegistryStorage.ls", "recap/storage/registry.py:RegistryStorage.put"]}
{"id": "C22", "title": "A crash during put leaves every other stored version intact", "statement": "If the process dies at any point of a put, every (name, version) document stored before, other than the one being written, is still returned unchanged after restart.", "quantifier": "every storage state, every put, every crash point", "why_tests_cant": "crash points cannot be enumerated by unit tests", "anchors": ["recap/storage/registry.py:RegistryStorage.put"]}
{"id": "C23", "title": "After a crash during put the latest version is still readable", "statement": "If the process dies at any point of a put, reading the latest version after restart returns either the old latest document or the new one.", "quantifier": "every storage state, every put, every crash point", "why_tests_cant": "crash points cannot be enumerated by unit tests", "anchors": ["recap/storage/registry.py:RegistryStorage.put", "recap/storage/registry.py:RegistryStorage.get"]}
{"id": "C24", "title": "Concurrent POSTs to one server process get distinct versions", "statement": "Whatever the interleaving of POST (and PUT) requests handled by one server process, two POST requests for the same name never receive the same version.", "quantifier": "every number of concurrent requests and every schedule of their await points", "why_tests_cant": "the number of schedules is unbounded", "anchors": ["recap/server/registry.py:post", "recap/server/registry.py:_request_to_type", "recap/storage/registry.py:RegistryStorage.put"]}
{"id": "C25", "title": "PUT never overwrites an existing version", "statement": "A PUT for a (name, version) that is already stored is answered 409 and changes nothing, also when requests overlap.", "quantifier": "every storage state, every set of concurrent requests and every schedule", "why_tests_cant": "the failing schedules need a second request between the existence check and the write", "anchors": ["recap/server/registry.py:put", "recap/server/registry.py:_request_to_type"]}
{"id": "C26", "title": "GET after a successful POST returns the posted type", "statement": "If POST answers with version v, then GET of that name and version answers with a document that denotes the posted type, until somebody writes that version again.", "quantifier": "every posted document and every later history of requests on other names or versions", "why_tests_cant": "quantifies over all documents and all histories", "anchors": ["recap/server/registry.py:post", "recap/server/registry.py:version", "recap/storage/registry.py:RegistryStorage.get"]}
{"id": "C27", "title": "Listed URLs never contain credentials", "statement": "No URL returned by safe_urls carries a user name or password of the configured URL it was made from.", "quantifier": "every configured URL", "why_tests_cant": "URL strings are unbounded; leaks hide in corner cases such as empty hosts", "anchors": ["recap/settings.py:RecapSettings.safe_urls"]}
{"id": "C28", "title": "Strict mode only yields configured scheme, host and port", "statement": "With strict=True, unsafe_url either raises or returns a URL whose scheme, user info, host and port are those of one configured URL.", "quantifier": "every list of configured URLs and every input URL", "why_tests_cant": "all strings; the merged URL is re-assembled and re-parsed", "anchors": ["recap/settings.py:RecapSettings.unsafe_url"]}
{"id": "C29", "title": "Credentials are only used below the configured path", "statement": "With strict=True, credentials of a configured URL are only merged into input URLs whose path is the configured path or a descendant of it.", "quantifier": "every list of configured URLs and every input URL", "why_tests_cant": "needs all path strings, including dot segments and sibling names that share a prefix", "anchors": ["recap/settings.py:RecapSettings.unsafe_url"]}
{"id": "C30", "title": "A listed URL can be opened in strict mode", "statement": "Every URL returned by safe_urls is accepted by unsafe_url in strict mode.", "quantifier": "every list of configured URLs", "why_tests_cant": "round trip over all URL strings", "anchors": ["recap/settings.py:RecapSettings.safe_urls", "recap/settings.py:RecapSettings.unsafe_url"]}
{"id": "C31", "title": "In strict mode connections only go to configured hosts", "statement": "The host and port a database client connects to for a gateway request are those of a configured URL.", "quantifier": "every request URL and every configuration", "why_tests_cant": "query parameters are merged into the same dictionary as the parsed URL parts; all parameter names must be considered", "anchors": ["recap/clients/__init__.py:_url_to_dict", "recap/clients/__init__.py:create_client", "recap/settings.py:RecapSettings.unsafe_url", "recap/clients/postgresql.py:PostgresqlClient.create"]}
{"id": "C32", "title": "Relational URLs split into catalog, schema and table by position", "statement": "For database URLs, ls and schema receive exactly the non-empty path segments in order, reject the wrong number of segments, and connect to a URL that contains at most the first segment.", "quantifier": "every URL path", "why_tests_cant": "all paths, including repeated and trailing slashes", "anchors": ["recap/clients/dbapi.py:DbapiClient.parse", "recap/clients/mysql.py:MysqlClient.parse", "recap/clients/bigquery.py:BigQueryClient.parse", "recap/clients/__init__.py:_url_to_dict"]}
{"id": "C33", "title": "Avro integer types can hold every value of the Recap integer", "statement": "For every int type without logical annotation, the Avro type chosen by from_recap can represent every value of the Recap type.", "quantifier": "every bit width and signedness and every value in range", "why_tests_cant": "bit widths are unbounded, values even more so", "anchors": ["recap/converters/avro.py:AvroConverter._from_recap"]}
{"id": "C34", "title": "Avro conversion keeps record structure", "statement": "from_recap maps a struct to a record with one field per struct field, in order, each carrying the struct field's name, doc and default.", "quantifier": "every struct whose fields are convertible", "why_tests_cant": "all structs", "anchors": ["recap/converters/avro.py:AvroConverter._from_recap"]}
{"id": "C35", "title": "Avro to Recap to Avro is the identity on primitive schemas", "statement": "A record schema built from primitive types, arrays, maps, unions, enums and nested records is returned unchanged (up to the alias annotations) by to_recap followed by from_recap.", "quantifier": "every schema of that grammar", "why_tests_cant": "infinitely many schemas", "anchors": ["recap/converters/avro.py:AvroConverter._parse", "recap/converters/avro.py:AvroConverter._from_recap"]}
{"id": "C36", "title": "Avro fixed, decimal and duration keep their size semantics", "statement": "Reading an Avro fixed or decimal or duration type yields a bytes type that is fixed-length exactly when the Avro type is fixed.", "quantifier": "every size, precision and scale", "why_tests_cant": "all sizes", "anchors": ["recap/converters/avro.py:AvroConverter._parse_logical", "recap/converters/avro.py:AvroConverter._parse"]}
{"id": "C37", "title": "Avro records may reuse field names", "statement": "Two records in one Avro schema may have fields with the same name.", "quantifier": "every Avro schema", "why_tests_cant": "depends on pairs of fields anywhere in the schema", "anchors": ["recap/converters/avro.py:AvroConverter._parse"]}
{"id": "C38", "title": "JSON schema required list is exact", "statement": "In the object produced for a struct, a property is listed as required exactly when the field is not an optional union, and properties keep their names.", "quantifier": "every struct with named fields", "why_tests_cant": "all structs", "anchors": ["recap/converters/json_schema.py:JSONSchemaConverter._convert_field"]}
{"id": "C39", "title": "Properties that are not required are read as nullable with a default", "statement": "Reading a JSON schema object makes a field nullable with a default exactly for the properties outside the required list, and keeps property order and names.", "quantifier": "every object schema", "why_tests_cant": "all schemas", "anchors": ["recap/converters/json_schema.py:JSONSchemaConverter._parse"]}
{"id": "C40", "title": "Every $ref emitted points to a definition", "statement": "In the document returned by from_recap each $ref names an entry of $defs, and that entry is not merely a reference to itself.", "quantifier": "every convertible type tree", "why_tests_cant": "all trees; definitions are merged with later ones overriding earlier ones", "anchors": ["recap/converters/json_schema.py:JSONSchemaConverter._generate_alias_defs", "recap/converters/json_schema.py:JSONSchemaConverter._convert_field"]}
{"id": "C41", "title": "Protobuf field numbers are unique within a message", "statement": "Each message produced by from_recap gives distinct positive numbers to its fields, including the members of oneof groups.", "quantifier": "every struct with an alias", "why_tests_cant": "all structs, any number of unions", "anchors": ["recap/converters/protobuf.py:ProtobufConverter._from_recap_gather_types", "recap/converters/protobuf.py:ProtobufConverter._recap_to_field"]}
{"id": "C42", "title": "Protobuf lists stay repeated", "statement": "A struct field that is a list, nullable or not, is written as a repeated field.", "quantifier": "every struct field", "why_tests_cant": "all fields", "anchors": ["recap/converters/protobuf.py:ProtobufConverter._recap_to_field"]}
{"id": "C43", "title": "Protobuf to Recap to Protobuf succeeds", "statement": "A type read by to_recap can be written by from_recap.", "quantifier": "every parsed proto file", "why_tests_cant": "all files", "anchors": ["recap/converters/protobuf.py:ProtobufConverter.to_recap", "recap/converters/protobuf.py:ProtobufConverter.from_recap"]}
{"id": "C44", "title": "Every referenced message appears in the generated file", "statement": "Every struct and enum inside the converted type is declared in the generated proto file.", "quantifier": "every struct with aliases in arbitrary packages", "why_tests_cant": "all package layouts", "anchors": ["recap/converters/protobuf.py:ProtobufConverter._from_recap_construct_elements"]}
{"id": "C45", "title": "Proxy resolution in proto files terminates", "statement": "to_recap terminates on every proto file, including mutually recursive messages.", "quantifier": "every set of messages, any reference cycles", "why_tests_cant": "non-termination", "anchors": ["recap/converters/protobuf.py:ProtobufConverter._resolve_proxies"]}
{"id": "C46", "title": "A protobuf converter can be used repeatedly", "statement": "Calling to_recap several times on one converter works for any sequence of files with distinct message names.", "quantifier": "every sequence of files", "why_tests_cant": "all histories", "anchors": ["recap/converters/protobuf.py:ProtobufConverter._parse"]}
{"id": "C47", "title": "Each database column becomes one field with its name and nullability", "statement": "to_recap of a list of columns gives one field per column in order, named after the column; it is nullable whenever the column is nullable; its default is the column default.", "quantifier": "every list of columns, for MySQL, PostgreSQL, Snowflake and SQLite", "why_tests_cant": "all column lists", "anchors": ["recap/converters/dbapi.py:DbapiConverter.to_recap"]}
{"id": "C48", "title": "NOT NULL columns are not nullable", "statement": "A column reported as not nullable becomes a field that is not nullable.", "quantifier": "every column of every supported database", "why_tests_cant": "all columns and types", "anchors": ["recap/converters/dbapi.py:DbapiConverter.to_recap", "recap/converters/sqlite.py:SQLiteConverter._parse_type"]}
{"id": "C49", "title": "Time precision selects the coarsest sufficient unit", "statement": "A fractional-seconds precision p in 0..9 is mapped to the coarsest of second, millisecond, microsecond, nanosecond that can represent p decimal places.", "quantifier": "every precision", "why_tests_cant": "small domain, but combined with every column type", "anchors": ["recap/converters/dbapi.py:DbapiConverter._get_time_unit"]}
{"id": "C50", "title": "PostgreSQL schemas can be read repeatedly", "statement": "Reading table schemas through PostgreSQL clients succeeds again when it has succeeded before, whatever tables were read in between.", "quantifier": "every history of schema reads in one process", "why_tests_cant": "all histories; the converter object is shared by all clients of the process", "anchors": ["recap/clients/postgresql.py:PostgresqlClient.__init__", "recap/converters/postgresql.py:PostgresqlConverter._parse_type"]}
{"id": "C51", "title": "PostgreSQL arrays keep their dimensions when asked to", "statement": "With enforce_array_dimensions, an n-dimensional array column is read as exactly n nested lists around a nullable element type.", "quantifier": "every n", "why_tests_cant": "unbounded n", "anchors": ["recap/converters/postgresql.py:PostgresqlConverter._create_n_dimension_list"]}
{"id": "C52", "title": "SQLite affinity follows the SQLite rules", "statement": "get_affinity returns the affinity that the five ordered rules of the SQLite documentation prescribe, independent of letter case.", "quantifier": "every declared type string", "why_tests_cant": "all strings, overlapping keywords", "anchors": ["recap/converters/sqlite.py:SQLiteConverter.get_affinity"]}
{"id": "C53", "title": "BigQuery fields keep structure, mode and metadata", "statement": "Each BigQuery field becomes one struct field with its name and description: NULLABLE fields are nullable, REPEATED fields are lists, REQUIRED fields are neither made nullable nor repeated; records recurse.", "quantifier": "every nested list of schema fields", "why_tests_cant": "unbounded nesting", "anchors": ["recap/converters/bigquery.py:BigQueryConverter.to_recap"]}
{"id": "C54", "title": "Hive columns are always nullable and unions are flat", "statement": "Each Hive column becomes a field that is nullable, has the column name, and contains no union directly inside a union and no duplicate member.", "quantifier": "every Hive type tree", "why_tests_cant": "unbounded nesting", "anchors": ["recap/converters/hive_metastore.py:HiveMetastoreConverter._parse_schema", "recap/converters/hive_metastore.py:HiveMetastoreConverter._flatten_unions"]}
{"id": "C55", "title": "Flattening Hive unions keeps the attributes of nested types", "statement": "Flattening a union does not change the attributes of the list, map and struct types inside it.", "quantifier": "every Hive union type", "why_tests_cant": "unbounded nesting", "anchors": ["recap/converters/hive_metastore.py:HiveMetastoreConverter._flatten_unions"]}
{"id": "C56", "title": "A rejected document leaves the alias registry unchanged", "statement": "If from_dict raises, the registry it was given has the same content as before the call.", "quantifier": "every rejected document and every starting registry", "why_tests_cant": "failure can occur at any position of a document after any number of nested aliases", "anchors": ["recap/types.py:from_dict", "recap/types.py:RecapTypeRegistry.register_alias"]}
{"id": "C57", "title": "optional: true means a union of null and the type, with a default", "statement": "A non-union document with optional set denotes the union of a plain null and the type denoted by the document without optional, name and default; the union carries the name and the default (None when absent) and nothing else.", "quantifier": "every document with a truthy optional attribute", "why_tests_cant": "the rewriting has to commute with parsing for every document, including nested shorthands", "anchors": ["recap/types.py:from_dict"]}
{"id": "C58", "title": "A request whose URL parses can be opened", "statement": "If parse_url accepts a URL of a supported scheme, create_client accepts the connection URL it returns, and opens the client that belongs to the scheme of the request.", "quantifier": "every request URL and every configuration", "why_tests_cant": "the connection URL is re-assembled from parts, merged with a configured URL and parsed again", "anchors": ["recap/clients/__init__.py:parse_url", "recap/clients/__init__.py:create_client", "recap/commands.py:ls", "recap/commands.py:schema"]}
{"id": "C59", "title": "Parsed arguments fit the method they are for", "statement": "For every client, the argument list returned by parse for ls or schema is accepted by the signature of ls or schema.", "quantifier": "every request URL and every configuration", "why_tests_cant": "the number of arguments depends on the number of path segments and on the client", "anchors": ["recap/clients/bigquery.py:BigQueryClient.parse", "recap/clients/bigquery.py:BigQueryClient.ls", "recap/clients/dbapi.py:DbapiClient.parse", "recap/clients/mysql.py:MysqlClient.parse"]}
{"id": "C60", "title": "PostgreSQL array columns can be read whenever their element type can", "statement": "If a column of some type can be converted, then a column holding an array of that type can be converted too, whatever the column is called.", "quantifier": "every array column, every column name and every registry content", "why_tests_cant": "column names and element types are unbounded", "anchors": ["recap/converters/postgresql.py:PostgresqlConverter._parse_type"]}
{"id": "C61", "title": "The self-reference of a PostgreSQL array type can be followed repeatedly", "statement": "The type of an array column refers to itself; resolving the reference, and the reference inside the result, always succeeds.", "quantifier": "every array column and every number of steps", "why_tests_cant": "arbitrarily deep unfolding", "anchors": ["recap/converters/postgresql.py:PostgresqlConverter._parse_type", "recap/types.py:ProxyType.resolve", "recap/types.py:RecapTypeRegistry.register_alias"]}
{"id": "C62", "title": "Time-of-day columns hold every time of the day", "statement": "The integer type chosen for a TIME column can represent every time of the day in its unit.", "quantifier": "every precision, Snowflake and BigQuery", "why_tests_cant": "all values of all precisions", "anchors": ["recap/converters/snowflake.py:SnowflakeConverter._parse_type", "recap/converters/bigquery.py:BigQueryConverter.to_recap"]}
{"id": "C63", "title": "Decimal columns get enough bytes for their precision", "statement": "The fixed-size bytes type chosen for a decimal column is large enough for every value of the declared precision.", "quantifier": "every precision the database allows, for MySQL, PostgreSQL, Snowflake and BigQuery", "why_tests_cant": "all values of all precisions", "anchors": ["recap/converters/mysql.py:MysqlConverter._parse_type", "recap/converters/postgresql.py:PostgresqlConverter._parse_type", "recap/converters/snowflake.py:SnowflakeConverter._parse_type", "recap/converters/bigquery.py:BigQueryConverter.to_recap"]}
{"id": "C64", "title": "MySQL integer columns hold every value of the column", "statement": "The integer type chosen for a MySQL integer column can represent every value the column can hold.", "quantifier": "every integer column type, signed or unsigned, and every value", "why_tests_cant": "all values", "anchors": ["recap/converters/mysql.py:MysqlConverter._parse_type"]}
{"id": "C65", "title": "Schemas read from a database respect the limits of the type specification", "statement": "Every node of a schema read from a database satisfies the limits on bits and lengths.", "quantifier": "every list of columns, for MySQL, PostgreSQL, Snowflake and SQLite", "why_tests_cant": "all nodes of all schemas; converters never call validate", "anchors": ["recap/converters/mysql.py:MysqlConverter._parse_type", "recap/converters/postgresql.py:PostgresqlConverter._parse_type", "recap/converters/snowflake.py:SnowflakeConverter._parse_type", "recap/converters/sqlite.py:SQLiteConverter._parse_type"]}
{"id": "C66", "title": "SQLite columns that may hold NULL become nullable fields", "statement": "A column of a SQLite table that can contain NULL is read as a nullable field, with the name of the column.", "quantifier": "every list of PRAGMA table_info rows", "why_tests_cant": "combinations of declared type, NOT NULL and primary key", "anchors": ["recap/clients/sqlite.py:SQLiteClient.add_information_schema", "recap/converters/sqlite.py:SQLiteConverter._parse_type"]}
{"id": "C67", "title": "Every BigQuery column type can be read", "statement": "BigQueryConverter.to_recap succeeds on every schema.", "quantifier": "every nested list of schema fields", "why_tests_cant": "unbounded nesting", "anchors": ["recap/converters/bigquery.py:BigQueryConverter.to_recap"]}
{"id": "C68", "title": "Hive column statistics go to the column they describe", "statement": "Reading a Hive table with statistics changes only the statistics attributes of the fields the statistics name; it fails exactly when they name a column the table does not have.", "quantifier": "every table, every list of column statistics", "why_tests_cant": "all combinations of tables and statistics, including repeated and unknown column names", "anchors": ["recap/clients/hive_metastore.py:HiveMetastoreClient._load_stats", "recap/clients/hive_metastore.py:HiveMetastoreClient.schema"]}
{"id": "C69", "title": "Every Hive timestamp is a value of the type chosen for it", "statement": "The integer type chosen for a Hive TIMESTAMP column can represent every timestamp Hive can hold, in the unit the type declares.", "quantifier": "every timestamp between years 0000 and 9999", "why_tests_cant": "all timestamps", "anchors": ["recap/converters/hive_metastore.py:HiveMetastoreConverter"]}
{"id": "C70", "title": "Schemas read from Hive respect the limits of the type specification", "statement": "Every node of a schema read from a Hive table satisfies the limits on bits and lengths.", "quantifier": "every table whose VARCHAR and CHAR lengths are ones Hive accepts", "why_tests_cant": "all nodes of arbitrarily nested types", "anchors": ["recap/converters/hive_metastore.py:HiveMetastoreConverter"]}
{"id": "C71", "title": "A schema read from Hive can be stored as a document and read back", "statement": "to_dict of a schema read from a Hive table succeeds, and from_dict of the result is the same schema in any registry.", "quantifier": "every supported table whose type lengths are ones Hive accepts", "why_tests_cant": "arbitrarily nested structs, lists, maps and unions, with all the attributes the converter adds", "anchors": ["recap/converters/hive_metastore.py:HiveMetastoreConverter", "recap/types.py:to_dict", "recap/types.py:from_dict"]}
{"id": "C72", "title": "References to built-in types are written as the Avro type they stand for", "statement": "from_recap writes a reference to a built-in alias as the Avro type of the aliased type.", "quantifier": "every built-in alias, wherever the reference stands", "why_tests_cant": "every combination of alias, name, doc and position", "anchors": ["recap/converters/avro.py:AvroConverter.from_recap"]}
{"id": "C73", "title": "Avro unions can be read wherever Avro allows a schema", "statement": "A union written as a JSON array is accepted as the type of a field, of array items and of map values.", "quantifier": "every list of member schemas and every position", "why_tests_cant": "all member lists, at all nesting depths", "anchors": ["recap/converters/avro.py:AvroConverter.to_recap"]}
{"id": "C74", "title": "Avro logical types that are read can be written back", "statement": "Every logical type that to_recap accepts is written back by from_recap with the same type and logicalType.", "quantifier": "every logical type of the Avro specification, every precision and scale", "why_tests_cant": "all precisions, scales, names, docs and defaults", "anchors": ["recap/converters/avro.py:AvroConverter"]}
{"id": "C75", "title": "The Avro conversions terminate", "statement": "to_recap returns or raises on every JSON value, and from_recap on every type tree whose dotless references are to built-in types.", "quantifier": "every JSON value; every type tree, also with references to recursive types", "why_tests_cant": "unbounded nesting depth and recursive types", "anchors": ["recap/converters/avro.py:AvroConverter"]}
{"id": "C76", "title": "Every Avro definition that is written has a name", "statement": "Each record, enum and fixed schema written by from_recap has a name, as the Avro specification requires.", "quantifier": "every struct, enum and fixed-length bytes type", "why_tests_cant": "all types, with and without name attribute and alias", "anchors": ["recap/converters/avro.py:AvroConverter.from_recap"]}
{"id": "C77", "title": "References in a JSON schema lead to the schema they name", "statement": "Each $ref that to_recap reads becomes a reference whose alias is that of a schema with this id that was read before, and resolving the reference gives that schema.", "quantifier": "every JSON schema, with any history of schemas read before", "why_tests_cant": "all schemas, any nesting of ids and references, any alias strategy", "anchors": ["recap/converters/json_schema.py:JSONSchemaConverter._parse"]}
{"id": "C78", "title": "A struct written as a JSON schema is read back unchanged", "statement": "to_recap of the document returned by from_recap is the struct that was written.", "quantifier": "every struct that from_recap accepts", "why_tests_cant": "arbitrarily nested types with defaults, docs and optional fields", "anchors": ["recap/converters/json_schema.py:JSONSchemaConverter.from_recap", "recap/converters/json_schema.py:JSONSchemaConverter.to_recap"]}
{"id": "C79", "title": "The alias made from a schema id is a legal alias", "statement": "urn_to_alias of a schema id is a dotted name that the type registry accepts.", "quantifier": "every URI", "why_tests_cant": "all hosts, paths and fragments", "anchors": ["recap/converters/json_schema.py:urn_to_alias", "recap/types.py:RecapTypeRegistry.register_alias"]}
{"id": "C80", "title": "The JSON Schema conversions terminate", "statement": "to_recap returns or raises on every JSON value, and from_recap on every type made from a document.", "quantifier": "every JSON value; every type made by from_dict, after any history of documents", "why_tests_cant": "unbounded nesting depth and recursive types", "anchors": ["recap/converters/json_schema.py:JSONSchemaConverter"]}
{"id": "C81", "title": "Built-in types have the width in their name", "statement": "The type behind a built-in alias such as int16, decimal128 or string32 has the number of bits, or of bits of its lengths, that its name ends in, and the class and sign that it starts with.", "quantifier": "every built-in alias", "why_tests_cant": "a table is checked entry by entry against a rule", "anchors": ["recap/types.py:BUILTIN_ALIASES"]}
{"id": "C82", "title": "Protobuf fields keep their names", "statement": "Each field of a message written by from_recap has the name of the struct field.", "quantifier": "every struct with an alias, every named field", "why_tests_cant": "all field types, nested to any depth", "anchors": ["recap/converters/protobuf.py:ProtobufConverter._recap_to_field"]}
{"id": "C83", "title": "A proto file whose references are declared in it is read", "statement": "to_recap accepts every proto file with a package and at least one message in which each reference is to a message or enum of the file.", "quantifier": "every proto file, any number of messages, any order and nesting", "why_tests_cant": "all orders of declarations, all reference graphs", "anchors": ["recap/converters/protobuf.py:ProtobufConverter.to_recap", "recap/converters/protobuf.py:ProtobufConverter._resolve_proxies", "recap/converters/protobuf.py:ProtobufConverter._parse_message"]}
{"id": "C84", "title": "Protobuf integer types hold the values of the Recap type", "statement": "The proto type that from_recap chooses for an integer field holds every value of the Recap type.", "quantifier": "every integer type, any number of bits", "why_tests_cant": "all widths and both signs", "anchors": ["recap/converters/protobuf.py:ProtobufConverter._recap_to_field"]}
{"id": "C85", "title": "A proto message becomes the struct with its fields", "statement": "to_recap returns the first message of the file as a struct with the same fields in the same order: the same names, the type that each proto type stands for, a list for a repeated field, and a null default unless the field is required.", "quantifier": "every proto file with a package", "why_tests_cant": "all combinations of types, labels, maps, oneof groups and references", "anchors": ["recap/converters/protobuf.py:ProtobufConverter.to_recap", "recap/converters/protobuf.py:ProtobufConverter._parse_message", "recap/converters/protobuf.py:ProtobufConverter._parse_field", "recap/converters/protobuf.py:ProtobufConverter._parse_map_field", "recap/converters/protobuf.py:ProtobufConverter._parse_oneof"]}
{"id": "C86", "title": "A struct becomes the proto message with its fields", "statement": "from_recap writes each struct as a message with the same fields in the same order, each with the proto type, label or oneof group that stands for its Recap type.", "quantifier": "every struct with an alias", "why_tests_cant": "all nestings of lists, maps and unions", "anchors": ["recap/converters/protobuf.py:ProtobufConverter.from_recap", "recap/converters/protobuf.py:ProtobufConverter._recap_to_field"]}
{"id": "C87", "title": "A proto file that is rejected does not affect later ones", "statement": "After to_recap raised an exception, the converter reads every other file as it would have before.", "quantifier": "every history of files, every rejected file and every later file", "why_tests_cant": "all histories and all failure points", "anchors": ["recap/converters/protobuf.py:ProtobufConverter.to_recap", "recap/converters/protobuf.py:ProtobufConverter._parse"]}
{"id": "C88", "title": "Overlapping registry requests are answered like a map that serves one request at a time", "statement": "Whatever the interleaving, the answers are those of a map from (name, version) to documents that handles the requests one at a time, in the order in which they are answered, except that PUT looks for a conflict when it arrives: 404 for a name or version that is not stored, 415 for another content type, 400 for a document from_dict rejects, 409 for PUT of a stored version, otherwise the type, the ascending list of versions or names, or the version stored.", "quantifier": "every list of requests, every interleaving, every registry history including crashes", "why_tests_cant": "all interleavings, all histories", "anchors": ["recap/server/registry.py:ls", "recap/server/registry.py:latest", "recap/server/registry.py:versions", "recap/server/registry.py:version", "recap/server/registry.py:post", "recap/server/registry.py:put", "recap/server/registry.py:_request_to_type"]}
{"id": "C89", "title": "Nothing is left to look up in what Protobuf to_recap returns", "statement": "Every reference in the type that to_recap returns names a message or enum that is written out in full in that type.", "quantifier": "every history of files, every file that is accepted", "why_tests_cant": "all reference graphs, recursive or not, to any depth", "anchors": ["recap/converters/protobuf.py:ProtobufConverter.to_recap", "recap/converters/protobuf.py:ProtobufConverter._resolve_proxies"]}
{"id": "C90", "title": "Protobuf references are replaced by what they name unless they are recursive", "statement": "In the type that to_recap returns, a reference is left only inside the message it names.", "quantifier": "every history of files, every file that is accepted", "why_tests_cant": "all reference graphs, any number of references to the same message", "anchors": ["recap/converters/protobuf.py:ProtobufConverter._resolve_proxies"]}
{"id": "C91", "title": "The Recap document printed for a database schema can be read back", "statement": "The schema command in Recap format prints, for every schema a MySQL, PostgreSQL, Snowflake, SQLite, BigQuery or Hive client returns, a document that from_dict reads back as a type with the same meaning.", "quantifier": "every table, BigQuery table or Hive table of columns the client accepts, every type registry that has none of its aliases", "why_tests_cant": "all column types, lengths, defaults and nestings", "anchors": ["recap/commands.py:schema", "recap/types.py:to_dict", "recap/types.py:from_dict", "recap/converters/dbapi.py:DbapiConverter.to_recap", "recap/converters/bigquery.py:BigQueryConverter.to_recap", "recap/converters/hive_metastore.py:HiveMetastoreConverter.to_recap"]}
{"id": "C92", "title": "A file request reads the file its URL names, with the converter for its extension", "statement": "The schema of a file path or file URL is read from that path, as Avro, JSON Schema or Protobuf according to the extension in any letter case; any other extension is refused.", "quantifier": "every path, with and without a file:// scheme, every extension", "why_tests_cant": "all paths and letter cases", "anchors": ["recap/clients/fs.py:FilesystemClient.parse", "recap/clients/fs.py:FilesystemClient.schema", "recap/clients/__init__.py:parse_url"]}
{"id": "C93", "title": "Every subject a Confluent registry lists can be read", "statement": "schema returns for each subject in ls the latest schema of that subject, read by the converter for its type; a topic name stands for the value schema of the topic.", "quantifier": "every registry, every subject name", "why_tests_cant": "all subject names", "anchors": ["recap/clients/confluent_registry.py:ConfluentRegistryClient.ls", "recap/clients/confluent_registry.py:ConfluentRegistryClient.schema"]}
{"id": "C94", "title": "The gateway answers in the format that the media type asks for", "statement": "Each supported media type selects its output format, in any letter case and with any parameters; no media type selects Recap; any other is answered with status 415.", "quantifier": "every content type header", "why_tests_cant": "all header values", "anchors": ["recap/server/gateway.py:schema", "recap/commands.py:FORMAT_MAP"]}
{"id": "C95", "title": "An Avro schema is read as the type it describes", "statement": "to_recap returns a struct with the fields, names, aliases, documentation, defaults, sizes and logical types that the Avro schema describes, and accepts every record schema whose full names are well-formed, distinct and new.", "quantifier": "every JSON document, every namespace, every type registry", "why_tests_cant": "all nestings of records, enums, arrays, maps, unions, references and logical types", "anchors": ["recap/converters/avro.py:AvroConverter.to_recap", "recap/converters/avro.py:AvroConverter._parse", "recap/converters/avro.py:AvroConverter._parse_logical"]}
{"id": "C96", "title": "A Recap type is written as the Avro schema that describes it", "statement": "from_recap writes each type as the Avro schema that describes it, with documentation, name, default, aliases and logical type, and raises exactly when there is no such schema.", "quantifier": "every type tree, every type registry", "why_tests_cant": "all type trees", "anchors": ["recap/converters/avro.py:AvroConverter.from_recap", "recap/converters/avro.py:AvroConverter._from_recap", "recap/converters/avro.py:AvroConverter._from_recap_logical"]}
{"id": "C97", "title": "Reading an Avro schema registers each of its full names once", "statement": "After to_recap the registry has the names it had and, parts first, each full name in the returned type; no name is registered twice.", "quantifier": "every JSON document, every namespace, every type registry", "why_tests_cant": "all documents and registries", "anchors": ["recap/converters/avro.py:AvroConverter._parse", "recap/types.py:RecapTypeRegistry.register_alias"]}
{"id": "C98", "title": "A listed name can be appended to the URL and opened", "statement": "ls returns the names of the children of the URL, each once; appending a listed name to the URL lists its children in turn or, for a table or schema file, returns its columns by position or its text.", "quantifier": "every PostgreSQL or MySQL server, directory of SQLite files and file system, every name in it, strict mode or not", "why_tests_cant": "all trees of databases, schemas, tables and columns with arbitrary names", "anchors": ["recap/commands.py:ls", "recap/commands.py:schema", "recap/clients/dbapi.py:DbapiClient.ls", "recap/clients/dbapi.py:DbapiClient.schema", "recap/clients/mysql.py:MysqlClient.ls", "recap/clients/postgresql.py:PostgresqlClient.schema", "recap/clients/sqlite.py:SQLiteClient.schema", "recap/clients/fs.py:FilesystemClient.ls"]}
{"id": "C99", "title": "A request connects to the database that its URL names", "statement": "The database handed to the driver is the first name in the path of a PostgreSQL, MySQL or Snowflake URL, and the path of a SQLite URL, for ls and for schema alike.", "quantifier": "every URL, every configuration, strict mode or not", "why_tests_cant": "all paths, queries and configurations", "anchors": ["recap/clients/postgresql.py:PostgresqlClient.create", "recap/clients/mysql.py:MysqlClient.create", "recap/clients/snowflake.py:SnowflakeClient.create", "recap/clients/sqlite.py:SQLiteClient.create", "recap/clients/sqlite.py:SQLiteClient.parse"]}
{"id": "C100", "title": "Reading a table that does not exist fails", "statement": "schema raises for a table name that the server or the SQLite file does not have, and ls and schema raise for a path that names no file.", "quantifier": "every server, every name that is not a table of it", "why_tests_cant": "all names and servers", "anchors": ["recap/clients/dbapi.py:DbapiClient.schema", "recap/clients/postgresql.py:PostgresqlClient.schema", "recap/clients/sqlite.py:SQLiteClient.schema", "recap/clients/sqlite.py:SQLiteClient._table_exists", "recap/clients/fs.py:FilesystemClient.ls", "recap/clients/fs.py:FilesystemClient.schema"]}
{"id": "C101", "title": "A JSON schema is read as the type it describes", "statement": "to_recap returns the struct whose fields, types, optionality, defaults, documentation and aliases the JSON schema describes, and reads every object schema that describes one and whose references are to ids read before.", "quantifier": "every JSON document, every type registry", "why_tests_cant": "all nestings of objects, arrays, references, defaults and required lists", "anchors": ["recap/converters/json_schema.py:JSONSchemaConverter.to_recap", "recap/converters/json_schema.py:JSONSchemaConverter._parse", "recap/types.py:UnionType.make_nullable"]}
{"id": "C102", "title": "Documents that a JSON schema accepts are values of the type read from it", "statement": "Every JSON document that the schema accepts under draft 2020-12 is a value of the type that to_recap returns for the schema.", "quantifier": "every schema that is read, every document", "why_tests_cant": "all pairs of schemas and documents", "anchors": ["recap/converters/json_schema.py:JSONSchemaConverter.to_recap", "recap/converters/json_schema.py:JSONSchemaConverter._parse", "recap/types.py:UnionType.make_nullable"]}
{"id": "C103", "title": "Values of a Recap type fit the JSON schema written for it", "statement": "Every value of a Recap type is accepted by the JSON schema that from_recap writes for the type.", "quantifier": "every type tree, every type registry, every value of the type", "why_tests_cant": "all pairs of types and values", "anchors": ["recap/converters/json_schema.py:JSONSchemaConverter.from_recap", "recap/converters/json_schema.py:JSONSchemaConverter._convert_field", "recap/converters/json_schema.py:JSONSchemaConverter._generate_alias_defs"]}
{"id": "C104", "title": "Processes that work on different schema names do not affect each other", "statement": "When several processes share the directory of a registry, the answers to calls about one name and the stored content of that name are those of some execution without the calls about other names; a process that has a name to itself gets the answers it would get on its own.", "quantifier": "every number of processes, every sequence of calls in each, every interleaving of their file accesses, crashes at any point", "why_tests_cant": "unbounded interleavings of file accesses", "anchors": ["recap/storage/registry.py:RegistryStorage.put", "recap/storage/registry.py:RegistryStorage.get", "recap/storage/registry.py:RegistryStorage.versions", "recap/storage/registry.py:RegistryStorage.latest"]}
{"id": "C105", "title": "Versions given out by several processes are distinct and ordered", "statement": "Two puts of one name without a version, made by processes that share the directory, return different versions, the later one the greater.", "quantifier": "every number of processes, every interleaving of their file accesses", "why_tests_cant": "unbounded interleavings of file accesses", "anchors": ["recap/storage/registry.py:RegistryStorage.put", "recap/storage/registry.py:RegistryStorage.latest", "recap/storage/registry.py:RegistryStorage.versions"]}
{"id": "C106", "title": "get returns only types that were put under that name and version", "statement": "When several processes share the directory, a type returned by get was stored at the start or is that of a put of the same name and version by one of them; calls fail only where they would without other processes, or with a JSON error in get.", "quantifier": "every number of processes, every interleaving of their file accesses, texts of any length", "why_tests_cant": "unbounded interleavings of file accesses", "anchors": ["recap/storage/registry.py:RegistryStorage.get", "recap/storage/registry.py:RegistryStorage.put", "recap/storage/registry.py:RegistryStorage.ls", "recap/storage/registry.py:RegistryStorage.versions"]}
{"id": "C107", "title": "A type whose put has returned can be read from then on", "statement": "When several processes share the directory, every get of a name and version that begins after a put of it has returned gives the type that was put.", "quantifier": "every number of processes, every interleaving of their file accesses, texts of any length", "why_tests_cant": "unbounded interleavings of file accesses", "anchors": ["recap/storage/registry.py:RegistryStorage.put", "recap/storage/registry.py:RegistryStorage.get"]}
{"id": "C108", "title": "Every row of a MySQL table is a value of the type that is read from it", "statement": "For a table whose columns have types of MySQL 8 with legal parameters, described by information_schema.columns: if the converter returns a struct, every row that the table can hold is a value of it. Proved exactly: a row is a value of the struct if and only if each of its values is NULL in a nullable column or covered; not covered are the upper half of the unsigned integers, CHAR texts and ENUM labels shorter than the longest possible, and BIT values of at most 56 bits. The tables that can be read are exactly those without DATE, TIME and spatial columns.", "quantifier": "all lists of columns with all legal types and all rows of them", "why_tests_cant": "Values at the limits of a type matter, and no finite set of rows shows that no other value is lost.", "anchors": ["recap/converters/mysql.py:MysqlConverter._parse_type", "recap/converters/dbapi.py:DbapiConverter.to_recap"]}
{"id": "C109", "title": "Every row of a PostgreSQL table is a value of the type that is read from it", "statement": "For a table whose columns have built-in types of PostgreSQL 15, enumerations, or arrays of built-in types, described by information_schema.columns and pg_attribute: if the converter returns a struct, every row that the table can hold is a value of it. Proved exactly, for both settings of enforce_array_dimensions; not covered are CHAR(n) texts with a character of fewer than four bytes, NUMERIC without limits or with 77 digits and more, timestamps of more than three digits at the end of their range, arrays with NULL elements or (enforced) with another number of dimensions than declared, and arrays of BIT. The tables that can be read are those without DATE, TIME and INTERVAL columns and without arrays of other element types than ten.", "quantifier": "all lists of columns with all legal types, all rows of them and both settings", "why_tests_cant": "Values at the limits of a type and arrays of any depth matter, and no finite set of rows shows that no other value is lost.", "anchors": ["recap/converters/postgresql.py:PostgresqlConverter._parse_type", "recap/converters/postgresql.py:PostgresqlConverter._create_n_dimension_list", "recap/converters/dbapi.py:DbapiConverter.to_recap"]}
{"id": "C110", "title": "Every row of a Snowflake table is a value of the type that is read from it", "statement": "For a table whose columns have types of Snowflake with legal parameters, described by INFORMATION_SCHEMA.COLUMNS: if the converter returns a struct, every row that the table can hold is a value of it. Proved exactly; not covered are times from 2.147 seconds after midnight on and timestamps that do not fit 64 bits as nanoseconds (from 2262 on, and before 1677). The tables that can be read are exactly those without semi-structured, geospatial and vector columns.", "quantifier": "all lists of columns with all legal types and all rows of them", "why_tests_cant": "Values at the limits of a type matter, and no finite set of rows shows that no other value is lost.", "anchors": ["recap/converters/snowflake.py:SnowflakeConverter._parse_type", "recap/converters/dbapi.py:DbapiConverter.to_recap"]}
{"id": "C111", "title": "Every row of a SQLite table is a value of the type that is read from it", "statement": "For a table whose columns have any type text with at most two numbers in parentheses, described by PRAGMA table_info: a struct is returned, and every row that the table can hold is a value of it. Proved exactly; not covered are values of another storage class than the affinity of their column says, floating point numbers in REAL columns with a number below 24 in parentheses that need more than 24 bits, and texts and blobs longer than the number in parentheses.", "quantifier": "all lists of columns with all type texts and all rows of them", "why_tests_cant": "SQLite takes any text as a type and does not enforce it; examples cover neither all texts nor all values.", "anchors": ["recap/converters/sqlite.py:SQLiteConverter._parse_type", "recap/converters/sqlite.py:SQLiteConverter.get_affinity", "recap/converters/dbapi.py:DbapiConverter.to_recap"]}
{"id": "C112", "title": "Every row of a BigQuery table is a value of the type that is read from it", "statement": "For a table whose fields, nested to any depth, have types of BigQuery with legal parameters and any of the three modes: if the converter returns a struct, every row that the table can hold is a value of it. Proved exactly; not covered are STRING(n) texts of more than n bytes, times from about 35 minutes and 47 seconds after midnight on, and fractional numbers in NUMERIC and BIGNUMERIC fields without parameters. The tables that can be read are exactly those without GEOGRAPHY, INTERVAL and RANGE fields and without the spelling BOOL.", "quantifier": "all schemas of any depth and all rows of them", "why_tests_cant": "Fields nest without bound, and values at the limits of a type matter.", "anchors": ["recap/converters/bigquery.py:BigQueryConverter.to_recap"]}
{"id": "C113", "title": "Every row of a Hive table is a value of the type that is read from it", "statement": "For a table whose columns have types of Hive nested to any depth: if the converter returns a struct, every row that the table can hold is a value of it. Proved exactly, also for flattened unions; not covered are VARCHAR(n) and CHAR(n) texts of more than n bytes and timestamps that do not fit 64 bits as nanoseconds.", "quantifier": "all types of any depth and all rows of them", "why_tests_cant": "Types nest without bound, and flattening merges members of nested unions that compare equal.", "anchors": ["recap/converters/hive_metastore.py:HiveMetastoreConverter.to_recap", "recap/converters/hive_metastore.py:HiveMetastoreConverter._parse_schema", "recap/converters/hive_metastore.py:HiveMetastoreConverter._flatten_unions"]}
{"id": "C114", "title": "Query parameters of a request reach the database driver", "statement": "For PostgreSQL and MySQL requests, every value given for a parameter of the driver in the query of the URL is passed to it decoded, several values as a list in order, and takes precedence over the query of the configured URL; parameters only the configured URL gives are passed as well, others are not passed at all.", "quantifier": "every list of parameters with any names and values, every configuration, strict mode or not", "why_tests_cant": "All texts have to survive encoding, merging with a configured URL, encoding again and decoding.", "anchors": ["recap/clients/__init__.py:_url_to_dict", "recap/settings.py:RecapSettings.unsafe_url", "recap/clients/postgresql.py:PostgresqlClient.create", "recap/clients/mysql.py:MysqlClient.create"]}
{"id": "C115", "title": "BigQuery, Hive and Confluent URLs are taken apart by position", "statement": "parse_url returns for a BigQuery URL the first three names of its path, for a Hive URL the address of the metastore, the names of its path and whether statistics are asked for, and for a Confluent URL the address of the registry and the last name as the subject; a wrong number of names is a ValueError.", "quantifier": "every location, every list of names, every list of parameters", "why_tests_cant": "all locations with user info, host and port, and all names", "anchors": ["recap/clients/bigquery.py:BigQueryClient.parse", "recap/clients/hive_metastore.py:HiveMetastoreClient.parse", "recap/clients/confluent_registry.py:ConfluentRegistryClient.parse", "recap/clients/__init__.py:_url_to_dict", "recap/clients/__init__.py:parse_url"]}
{"id": "C116", "title": "Every datum of an Avro schema is a value of the type that is read from it", "statement": "When to_recap accepts an Avro schema, each datum that the Avro specification allows for the schema is a value of the Recap type that is returned, with references standing for the types that to_recap registered.", "quantifier": "every Avro schema, every datum, every registry, every starting namespace", "why_tests_cant": "nested and recursive schemas with all data of each", "anchors": ["recap/converters/avro.py:AvroConverter.to_recap", "recap/converters/avro.py:AvroConverter._parse", "recap/converters/avro.py:AvroConverter._parse_logical"]}
{"id": "C117", "title": "Every value of the type read from an Avro schema is a datum of the schema", "statement": "When to_recap accepts an Avro schema, each value of the Recap type that is returned is a datum that the Avro specification allows for the schema.", "quantifier": "every Avro schema, every value, every registry, every starting namespace", "why_tests_cant": "all values of all types that can be read, recursive ones included", "anchors": ["recap/converters/avro.py:AvroConverter.to_recap", "recap/converters/avro.py:AvroConverter._parse", "recap/converters/avro.py:AvroConverter._parse_logical"]}
{"id": "C118", "title": "Every value of a Recap type is a datum of the Avro schema written for it", "statement": "When from_recap writes a type as an Avro schema, each value of the type is a datum that the Avro specification allows for the schema.", "quantifier": "every Recap type that from_recap accepts, every value of it", "why_tests_cant": "all nested types and all their values", "anchors": ["recap/converters/avro.py:AvroConverter.from_recap", "recap/converters/avro.py:AvroConverter._from_recap", "recap/converters/avro.py:AvroConverter._from_recap_logical"]}
{"id": "C119", "title": "Every message of a proto file is a value of the type that is read from it", "statement": "When to_recap accepts a proto file, each message that Protobuf allows for the first message type of the file is a value of the struct that is returned, with references standing for the types that to_recap registered.", "quantifier": "every proto file with a package, every message, every converter whatever it was called with before", "why_tests_cant": "nested and recursive messages, with name lookup through all enclosing scopes and all values of every field", "anchors": ["recap/converters/protobuf.py:ProtobufConverter.to_recap", "recap/converters/protobuf.py:ProtobufConverter._parse", "recap/converters/protobuf.py:ProtobufConverter._parse_message", "recap/converters/protobuf.py:ProtobufConverter._resolve_proxies"]}
{"id": "C120", "title": "Every value of the type read from a proto file is a message of the file", "statement": "When to_recap accepts a proto file, each value of the struct that is returned is a message that Protobuf allows for the first message type of the file.", "quantifier": "every proto file with a package, every value, every converter whatever it was called with before", "why_tests_cant": "all values of all structs that can be read, recursive ones included", "anchors": ["recap/converters/protobuf.py:ProtobufConverter.to_recap", "recap/converters/protobuf.py:ProtobufConverter._parse", "recap/converters/protobuf.py:ProtobufConverter._parse_message", "recap/converters/protobuf.py:ProtobufConverter._resolve_proxies"]}
{"id": "C121", "title": "Every value of a struct is a message of the proto file written for it", "statement": "When from_recap writes a struct as a proto file, each value of the struct is a message that Protobuf allows for the message type with the name of the struct in that file.", "quantifier": "every struct that from_recap accepts, nested and recursive ones included, every value of it", "why_tests_cant": "all nested structs with all their values, and where names are looked up in the file", "anchors": ["recap/converters/protobuf.py:ProtobufConverter.from_recap", "recap/converters/protobuf.py:ProtobufConverter._from_recap_gather_types", "recap/converters/protobuf.py:ProtobufConverter._from_recap_construct_elements"]}
{"id": "C122", "title": "A struct can be read back from the proto file written for it", "statement": "When from_recap writes a struct as a proto file, to_recap of a converter that does not know its name reads the file and returns a struct of that name, and each value of the written struct is a value of the struct that is returned.", "quantifier": "every struct that from_recap accepts, every converter whatever it was called with before, every value", "why_tests_cant": "all combinations of fields, names and nested structs, and every history of the converter", "anchors": ["recap/converters/protobuf.py:ProtobufConverter.from_recap", "recap/converters/protobuf.py:ProtobufConverter.to_recap", "recap/converters/protobuf.py:ProtobufConverter._recap_to_field", "recap/converters/protobuf.py:ProtobufConverter._resolve_proxies"]}
{"id": "C123", "title": "The schema of every table can be printed in every format", "statement": "When a client returns the schema of a table, the schema command prints it as JSON Schema with the columns as properties and exactly those required that cannot be null, as an Avro record with a name, and as a proto file.", "quantifier": "every MySQL, PostgreSQL, Snowflake, SQLite, BigQuery and Hive table that is accepted, every list of columns", "why_tests_cant": "all types of columns with all lengths, and every number of columns", "anchors": ["recap/commands.py:schema", "recap/converters/json_schema.py:JSONSchemaConverter.from_recap", "recap/converters/json_schema.py:JSONSchemaConverter._generate_alias_defs", "recap/converters/avro.py:AvroConverter.from_recap", "recap/converters/protobuf.py:ProtobufConverter.from_recap", "recap/converters/dbapi.py:DbapiConverter.to_recap"]}
{"id": "C124", "title": "A schema that is read in one format can be printed in the others", "statement": "When a converter reads an Avro schema, a JSON schema or a proto file, the schema command prints what it read as an Avro schema with a name, as a JSON schema and as a proto file; printed in the format in which it was read, it still describes the same data.", "quantifier": "every Avro schema, JSON schema and proto file that is read, every datum of an Avro schema", "why_tests_cant": "schemas of any depth with all combinations of types, read by one converter and written by another", "anchors": ["recap/commands.py:schema", "recap/converters/json_schema.py:JSONSchemaConverter.to_recap", "recap/converters/json_schema.py:JSONSchemaConverter.from_recap", "recap/converters/avro.py:AvroConverter.to_recap", "recap/converters/avro.py:AvroConverter.from_recap", "recap/converters/protobuf.py:ProtobufConverter.to_recap", "recap/converters/protobuf.py:ProtobufConverter.from_recap"]}
{"id": "C125", "title": "Rows of a table are accepted by the JSON schema printed for the table", "statement": "When the schema command prints the schema of a table as JSON Schema, the JSON schema accepts each row of the table as a JSON object whose members are the columns, and rejects objects that lack a column that cannot be NULL or have a member of another JSON type than the column.", "quantifier": "every MySQL, PostgreSQL, Snowflake and SQLite table that is accepted, every row of it and every JSON object", "why_tests_cant": "all lists of columns with all rows, and every JSON object against the schema", "anchors": ["recap/commands.py:schema", "recap/converters/json_schema.py:JSONSchemaConverter.from_recap", "recap/converters/json_schema.py:JSONSchemaConverter._convert_field", "recap/converters/dbapi.py:DbapiConverter.to_recap", "recap/converters/mysql.py:MysqlConverter._parse_type", "recap/converters/postgresql.py:PostgresqlConverter._parse_type", "recap/converters/snowflake.py:SnowflakeConverter._parse_type", "recap/converters/sqlite.py:SQLiteConverter._parse_type"]}
{"id": "C126", "title": "A JSON schema that is read and printed again accepts the same documents", "statement": "When the schema command reads a JSON schema and prints it as JSON Schema, the printed schema accepts exactly the JSON documents that the schema that was read accepts.", "quantifier": "every JSON schema that is read, every JSON document", "why_tests_cant": "schemas of any depth, and every document against both schemas", "anchors": ["recap/commands.py:schema", "recap/converters/json_schema.py:JSONSchemaConverter.to_recap", "recap/converters/json_schema.py:JSONSchemaConverter._parse", "recap/converters/json_schema.py:JSONSchemaConverter.from_recap", "recap/converters/json_schema.py:JSONSchemaConverter._generate_alias_defs", "recap/converters/json_schema.py:JSONSchemaConverter._convert_field"]}
{"id": "C127", "title": "Snowflake and BigQuery URLs lead to what they name", "statement": "The ls command returns the names of the databases, schemas and tables of a Snowflake account, or of the projects, datasets and tables of BigQuery, that are in what its URL names; the schema command returns the type of the columns of the table that its URL names, in their order.", "quantifier": "every Snowflake account with any databases, schemas and tables, all BigQuery projects, every URL, with any settings, strict or not", "why_tests_cant": "every server with every URL, and the databases in which a session does not start", "anchors": ["recap/commands.py:ls", "recap/commands.py:schema", "recap/clients/snowflake.py:SnowflakeClient.create", "recap/clients/snowflake.py:SnowflakeClient.ls_catalogs", "recap/clients/dbapi.py:DbapiClient.ls", "recap/clients/dbapi.py:DbapiClient.schema", "recap/clients/bigquery.py:BigQueryClient.ls", "recap/clients/bigquery.py:BigQueryClient.schema"]}
{"id": "C128", "title": "The Recap document printed for a Hive table keeps its columns and their statistics", "statement": "When a Hive client that loads statistics returns the schema of a table, the schema command in Recap format prints a document that from_dict reads as a struct with the same columns, in their order, each with its name, its type and its statistics.", "quantifier": "every Hive table that is accepted, every list of statistics of its columns, every type registry", "why_tests_cant": "all types of columns with all combinations of statistics", "anchors": ["recap/commands.py:schema", "recap/types.py:to_dict", "recap/types.py:clean_dict", "recap/types.py:from_dict", "recap/clients/hive_metastore.py:HiveMetastoreClient.schema", "recap/clients/hive_metastore.py:HiveMetastoreClient._load_stats", "recap/converters/hive_metastore.py:HiveMetastoreConverter.to_recap"]}
{"id": "C129", "title": "The command line prints what the gateway answers", "statement": "Whatever the gateway answers to ls and schema requests, the ls and schema commands of the command line print for the same URL and format: the same JSON document or proto file, and nothing for an empty list. What the command line prints the gateway answers too, or it raises ValueError because no configured URL matches. A schema that commands.schema returns is always printed. Without a URL both list the configured ones in order, without user names and passwords; for a URL of a PostgreSQL or MySQL server they list the names of what is there.", "quantifier": "every URL, content type and format, all configured URLs, clients that return any list and any type", "why_tests_cant": "every type in every format, and every combination of configured URLs with a requested one", "anchors": ["recap/cli.py:ls", "recap/cli.py:schema", "recap/commands.py:ls", "recap/commands.py:schema", "recap/server/gateway.py:ls", "recap/server/gateway.py:schema", "recap/settings.py:RecapSettings.unsafe_url"]}
{"id": "C130", "title": "The JSON schema printed for a BigQuery or Hive table accepts the objects of its rows", "statement": "The JSON schema that the schema command prints for a BigQuery or Hive table accepts exactly the objects that have a member for every column that cannot be NULL and whose members have the JSON types of their columns, nested records, arrays and maps included, where a NULL may be absent or null.", "quantifier": "every BigQuery table with fields nested to any depth, every Hive table with columns of any type, every JSON document", "why_tests_cant": "tables nested to any depth against every document", "anchors": ["recap/commands.py:schema", "recap/converters/bigquery.py:BigQueryConverter.to_recap", "recap/converters/hive_metastore.py:HiveMetastoreConverter.to_recap", "recap/converters/hive_metastore.py:HiveMetastoreConverter._parse_schema", "recap/types.py:RecapType.make_nullable", "recap/converters/json_schema.py:JSONSchemaConverter.from_recap", "recap/converters/json_schema.py:JSONSchemaConverter._convert_field"]}
{"id": "C131", "title": "Rows of a table are data of the Avro schema printed for the table", "statement": "The schema command prints an Avro schema for every table that a client can read, and every row that the table can store is a datum of that schema as the Avro specification defines it.", "quantifier": "every table of MySQL, PostgreSQL, Snowflake, SQLite, BigQuery and Hive that can be read, every row that it can store", "why_tests_cant": "all combinations of column types, nested to any depth, against all rows", "anchors": ["recap/commands.py:schema", "recap/converters/avro.py:AvroConverter.from_recap", "recap/converters/avro.py:AvroConverter._from_recap", "recap/converters/dbapi.py:DbapiConverter.to_recap", "recap/converters/bigquery.py:BigQueryConverter.to_recap", "recap/converters/hive_metastore.py:HiveMetastoreConverter.to_recap", "recap/converters/hive_metastore.py:HiveMetastoreConverter._parse_schema"]}
