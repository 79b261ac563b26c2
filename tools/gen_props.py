#!/usr/bin/env python3
"""Generates /verif/properties.jsonl (one JSON object per line)."""
import json, os
P = []
def p(title, statement, quantifier, why, anchors):
    P.append(dict(id=f"C{len(P)+1:02d}", title=title, statement=statement,
                  quantifier=quantifier, why_tests_cant=why, anchors=anchors))

T = "recap/types.py"
S = "recap/storage/registry.py"
W = "recap/server/registry.py"
ST = "recap/settings.py"
CL = "recap/clients/__init__.py"

# ---------------------------------------------------------------- types.py
p("Verbose dictionary round trip is lossless",
  "If from_dict accepts a document and returns a type t, then from_dict(to_dict(t, clean=False, alias=False)) is also accepted, returns a type equal to t, and registers exactly the same aliases.",
  "every JSON-like document (dict, list or string, any nesting, any extra attributes) and every starting registry",
  "the set of documents is infinite in depth, width and attribute values; tests cover a dozen literals",
  [f"{T}:from_dict", f"{T}:to_dict"])
p("Accepted types respect the numeric limits of the type spec at every depth",
  "Every int/float node inside a type returned by from_dict has 1 <= bits <= 2147483647; every string/bytes/list node has a length that is absent or within 1..9223372036854775807, and never has variable false with no length.",
  "every document accepted by from_dict and every node of the returned tree",
  "requires looking at all nodes of all accepted documents, including members of unions, whose own validate() does not recurse",
  [f"{T}:from_dict", f"{T}:IntType.validate", f"{T}:ListType.validate", f"{T}:StringType.validate", f"{T}:StructType.validate"])
p("from_dict always terminates",
  "from_dict returns a type or raises an exception on every finite document: no document makes it recurse for ever.",
  "every finite document and starting registry",
  "non-termination cannot be observed by running finitely many inputs; the optional=True rewriting re-enters the parser on a document that is not a sub-document",
  [f"{T}:from_dict"])
p("Aliases are unique, fully qualified and never shadow built-ins",
  "After from_dict succeeds, the aliases defined inside the returned type are pairwise distinct, match the dotted-name grammar, were not in the registry before, and are exactly the names added to the registry; every other registry entry is unchanged.",
  "every accepted document and every starting registry",
  "alias clashes can occur between any two positions of an arbitrarily large tree",
  [f"{T}:from_dict", f"{T}:RecapTypeRegistry.register_alias", f"{T}:ALIAS_REGEX"])
p("The alias registry only grows and never redefines a name",
  "Through any history of register_alias calls, successful or failing, a name once present keeps the type it was first registered with, built-in names keep their built-in meaning, and a failing call changes nothing.",
  "every finite sequence of register_alias calls on a new registry",
  "quantifies over all histories of calls",
  [f"{T}:RecapTypeRegistry.register_alias", f"{T}:RecapTypeRegistry.from_alias", f"{T}:BUILTIN_ALIASES"])
p("Alias names are accepted exactly when they are dotted identifiers",
  "register_alias accepts an unused name if and only if it consists of two or more dot-separated non-empty segments, each of which starts with an ASCII letter or underscore and continues with ASCII letters, digits or underscores.",
  "every string",
  "the set of strings is infinite; trailing-newline and empty-segment corner cases are the usual regex mistakes",
  [f"{T}:ALIAS_REGEX", f"{T}:RecapTypeRegistry.register_alias"])
p("A proxy resolves to the registered type with its attribute overrides applied",
  "Resolving a reference returns the type that was registered under its alias, without alias, doc and default, with every override attribute of the reference set on it and every other attribute unchanged.",
  "every registry, alias and set of override attributes",
  "override names range over all strings; the code decides per name whether it is a real attribute of the resolved object",
  [f"{T}:ProxyType.resolve", f"{T}:RecapTypeRegistry.register_alias"])
p("Recursive types can be unfolded any number of times",
  "If a document defines an aliased type that refers to itself, resolving the inner reference again and again keeps returning the type.",
  "every number of unfoldings of every self-referential accepted document",
  "tests unfold a recursive type once; the property speaks about every depth",
  [f"{T}:ProxyType.resolve", f"{T}:RecapTypeRegistry.register_alias"])
p("make_nullable yields a nullable type and moves doc, default and name outwards",
  "make_nullable returns a union that contains a null member and all members of the original; doc, default (None if unset) and name are on the union; no second null is added to a type that already has one; applying it to its own result adds no further member.",
  "every type object",
  "quantifies over all types, all attribute sets and repeated application",
  [f"{T}:RecapType.make_nullable", f"{T}:RecapType.is_nullable"])
p("make_nullable leaves its receiver unchanged",
  "Calling make_nullable on a type does not change that type.",
  "every type object",
  "needs to hold for every attribute combination; a test compares only the returned value",
  [f"{T}:RecapType.make_nullable"])
p("Type equality is an equivalence relation",
  "== on type objects is reflexive, symmetric and transitive, and equal types have the same nullability.",
  "all pairs and triples of type objects",
  "infinitely many triples; equality mixes int/bool coercion and order-insensitive dict comparison",
  [f"{T}:RecapType.__eq__", f"{T}:IntType.__eq__", f"{T}:ListType.__eq__", f"{T}:UnionType.__eq__", f"{T}:ProxyType.__eq__"])
p("Compact round trip preserves the type",
  "If from_dict accepts a document and returns t, then to_dict(t, clean=True, alias=False) succeeds and from_dict of the result returns a type equal to t.",
  "every accepted document",
  "the compacting rules interact at every depth; tests check a fixed list of examples",
  [f"{T}:clean_dict", f"{T}:to_dict", f"{T}:from_dict"])
p("Built-in aliasing in to_dict preserves meaning",
  "For a type without user-defined aliases, to_dict(t, alias=True, clean=False) succeeds, and parsing the result gives a type equal to t once references to built-in aliases are resolved.",
  "every accepted document that defines no alias",
  "replacement may happen at any node of any tree",
  [f"{T}:alias_dict", f"{T}:to_dict", f"{T}:BUILTIN_ALIASES"])
p("to_dict succeeds on every type that from_dict can return",
  "to_dict with its default arguments never raises on a type returned by from_dict.",
  "every accepted document",
  "failures appear only for particular nestings of aliases or unions",
  [f"{T}:to_dict", f"{T}:alias_dict", f"{T}:clean_dict"])
p("clean_dict is idempotent",
  "Cleaning an already clean document changes nothing: clean_dict(clean_dict(d)) equals clean_dict(d) whenever the first call succeeds.",
  "every document",
  "infinitely many documents",
  [f"{T}:clean_dict"])
p("from_dict keeps every struct field and every union member in order",
  "The struct (union) returned for a document has one field (member) for each entry of the document's fields (types, or type list), in the same order.",
  "every accepted document",
  "infinitely many documents; a dropped element only shows for some element shapes",
  [f"{T}:from_dict"])
# ---------------------------------------------------------------- storage
p("The registry behaves as a map from (name, version) to type documents",
  "For any sequence of put/get/latest/versions/ls calls on names other than the empty name, '.' and '..', every result is the one a plain two-level map would give: get returns the document of the last put for that name and version, versions lists exactly the versions put, ascending, and ls lists exactly the names put, sorted.",
  "every finite sequence of storage operations with any names and versions",
  "quantifies over all histories and all names, including names with slashes, percent signs, spaces and non-ASCII bytes",
  [f"{S}:RegistryStorage.put", f"{S}:RegistryStorage.get", f"{S}:RegistryStorage.versions", f"{S}:RegistryStorage.latest", f"{S}:RegistryStorage.ls"])
p("Automatically assigned versions are fresh and increasing",
  "put without an explicit version returns one more than the highest version present (1 if there is none), so it never overwrites a stored version; n such puts on a fresh name return 1, 2, ..., n.",
  "every reachable storage state and every number of puts",
  "quantifies over all histories, including explicit, zero and negative versions",
  [f"{S}:RegistryStorage.put", f"{S}:RegistryStorage.latest"])
p("Operations on one schema name never affect another",
  "Storing under one name leaves the versions, the documents and the presence of every other name unchanged.",
  "every pair of different names and every storage state",
  "needs injectivity of the name quoting on all strings and the absence of path separators in quoted names",
  [f"{S}:RegistryStorage.put", f"{S}:RegistryStorage.ls"])
p("All registry data stays below the storage root",
  "No storage operation reads or writes a file outside the storage root directory.",
  "every schema name and version",
  "path traversal depends on unusual names that tests do not try",
  [f"{S}:RegistryStorage.put", f"{S}:RegistryStorage.get"])
p("Name quoting is reversible and yields one path component",
  "unquote_plus(quote_plus(name)) == name, and the quoted name contains no slash.",
  "every byte string",
  "all strings, in particular those that contain '%', '+', '/' or bytes above 127",
  [f"{S}:RegistryStorage.ls", f"{S}:RegistryStorage.put"])
p("A crash during put leaves every other stored version intact",
  "If the process dies at any point of a put, every (name, version) document stored before, other than the one being written, is still returned unchanged after restart.",
  "every storage state, every put, every crash point",
  "crash points cannot be enumerated by unit tests",
  [f"{S}:RegistryStorage.put"])
p("After a crash during put the latest version is still readable",
  "If the process dies at any point of a put, reading the latest version after restart returns either the old latest document or the new one.",
  "every storage state, every put, every crash point",
  "crash points cannot be enumerated by unit tests",
  [f"{S}:RegistryStorage.put", f"{S}:RegistryStorage.get"])
p("Concurrent POSTs to one server process get distinct versions",
  "Whatever the interleaving of POST (and PUT) requests handled by one server process, two POST requests for the same name never receive the same version.",
  "every number of concurrent requests and every schedule of their await points",
  "the number of schedules is unbounded",
  [f"{W}:post", f"{W}:_request_to_type", f"{S}:RegistryStorage.put"])
p("PUT never overwrites an existing version",
  "A PUT for a (name, version) that is already stored is answered 409 and changes nothing, also when requests overlap.",
  "every storage state, every set of concurrent requests and every schedule",
  "the failing schedules need a second request between the existence check and the write",
  [f"{W}:put", f"{W}:_request_to_type"])
p("GET after a successful POST returns the posted type",
  "If POST answers with version v, then GET of that name and version answers with a document that denotes the posted type, until somebody writes that version again.",
  "every posted document and every later history of requests on other names or versions",
  "quantifies over all documents and all histories",
  [f"{W}:post", f"{W}:version", f"{S}:RegistryStorage.get"])
# ---------------------------------------------------------------- settings / urls
p("Listed URLs never contain credentials",
  "No URL returned by safe_urls carries a user name or password of the configured URL it was made from.",
  "every configured URL",
  "URL strings are unbounded; leaks hide in corner cases such as empty hosts",
  [f"{ST}:RecapSettings.safe_urls"])
p("Strict mode only yields configured scheme, host and port",
  "With strict=True, unsafe_url either raises or returns a URL whose scheme, user info, host and port are those of one configured URL.",
  "every list of configured URLs and every input URL",
  "all strings; the merged URL is re-assembled and re-parsed",
  [f"{ST}:RecapSettings.unsafe_url"])
p("Credentials are only used below the configured path",
  "With strict=True, credentials of a configured URL are only merged into input URLs whose path is the configured path or a descendant of it.",
  "every list of configured URLs and every input URL",
  "needs all path strings, including dot segments and sibling names that share a prefix",
  [f"{ST}:RecapSettings.unsafe_url"])
p("A listed URL can be opened in strict mode",
  "Every URL returned by safe_urls is accepted by unsafe_url in strict mode.",
  "every list of configured URLs",
  "round trip over all URL strings",
  [f"{ST}:RecapSettings.safe_urls", f"{ST}:RecapSettings.unsafe_url"])
p("In strict mode connections only go to configured hosts",
  "The host and port a database client connects to for a gateway request are those of a configured URL.",
  "every request URL and every configuration",
  "query parameters are merged into the same dictionary as the parsed URL parts; all parameter names must be considered",
  [f"{CL}:_url_to_dict", f"{CL}:create_client", f"{ST}:RecapSettings.unsafe_url", "recap/clients/postgresql.py:PostgresqlClient.create"])
p("Relational URLs split into catalog, schema and table by position",
  "For database URLs, ls and schema receive exactly the non-empty path segments in order, reject the wrong number of segments, and connect to a URL that contains at most the first segment.",
  "every URL path",
  "all paths, including repeated and trailing slashes",
  ["recap/clients/dbapi.py:DbapiClient.parse", "recap/clients/mysql.py:MysqlClient.parse", "recap/clients/bigquery.py:BigQueryClient.parse", f"{CL}:_url_to_dict"])
# ---------------------------------------------------------------- avro
p("Avro integer types can hold every value of the Recap integer",
  "For every int type without logical annotation, the Avro type chosen by from_recap can represent every value of the Recap type.",
  "every bit width and signedness and every value in range",
  "bit widths are unbounded, values even more so",
  ["recap/converters/avro.py:AvroConverter._from_recap"])
p("Avro conversion keeps record structure",
  "from_recap maps a struct to a record with one field per struct field, in order, each carrying the struct field's name, doc and default.",
  "every struct whose fields are convertible",
  "all structs",
  ["recap/converters/avro.py:AvroConverter._from_recap"])
p("Avro to Recap to Avro is the identity on primitive schemas",
  "A record schema built from primitive types, arrays, maps, unions, enums and nested records is returned unchanged (up to the alias annotations) by to_recap followed by from_recap.",
  "every schema of that grammar",
  "infinitely many schemas",
  ["recap/converters/avro.py:AvroConverter._parse", "recap/converters/avro.py:AvroConverter._from_recap"])
p("Avro fixed, decimal and duration keep their size semantics",
  "Reading an Avro fixed or decimal or duration type yields a bytes type that is fixed-length exactly when the Avro type is fixed.",
  "every size, precision and scale",
  "all sizes",
  ["recap/converters/avro.py:AvroConverter._parse_logical", "recap/converters/avro.py:AvroConverter._parse"])
p("Avro records may reuse field names",
  "Two records in one Avro schema may have fields with the same name.",
  "every Avro schema",
  "depends on pairs of fields anywhere in the schema",
  ["recap/converters/avro.py:AvroConverter._parse"])
# ---------------------------------------------------------------- json schema
p("JSON schema required list is exact",
  "In the object produced for a struct, a property is listed as required exactly when the field is not an optional union, and properties keep their names.",
  "every struct with named fields",
  "all structs",
  ["recap/converters/json_schema.py:JSONSchemaConverter._convert_field"])
p("Properties that are not required are read as nullable with a default",
  "Reading a JSON schema object makes a field nullable with a default exactly for the properties outside the required list, and keeps property order and names.",
  "every object schema",
  "all schemas",
  ["recap/converters/json_schema.py:JSONSchemaConverter._parse"])
p("Every $ref emitted points to a definition",
  "In the document returned by from_recap each $ref names an entry of $defs, and that entry is not merely a reference to itself.",
  "every convertible type tree",
  "all trees; definitions are merged with later ones overriding earlier ones",
  ["recap/converters/json_schema.py:JSONSchemaConverter._generate_alias_defs", "recap/converters/json_schema.py:JSONSchemaConverter._convert_field"])
# ---------------------------------------------------------------- protobuf
p("Protobuf field numbers are unique within a message",
  "Each message produced by from_recap gives distinct positive numbers to its fields, including the members of oneof groups.",
  "every struct with an alias",
  "all structs, any number of unions",
  ["recap/converters/protobuf.py:ProtobufConverter._from_recap_gather_types", "recap/converters/protobuf.py:ProtobufConverter._recap_to_field"])
p("Protobuf lists stay repeated",
  "A struct field that is a list, nullable or not, is written as a repeated field.",
  "every struct field",
  "all fields",
  ["recap/converters/protobuf.py:ProtobufConverter._recap_to_field"])
p("Protobuf to Recap to Protobuf succeeds",
  "A type read by to_recap can be written by from_recap.",
  "every parsed proto file",
  "all files",
  ["recap/converters/protobuf.py:ProtobufConverter.to_recap", "recap/converters/protobuf.py:ProtobufConverter.from_recap"])
p("Every referenced message appears in the generated file",
  "Every struct and enum inside the converted type is declared in the generated proto file.",
  "every struct with aliases in arbitrary packages",
  "all package layouts",
  ["recap/converters/protobuf.py:ProtobufConverter._from_recap_construct_elements"])
p("Proxy resolution in proto files terminates",
  "to_recap terminates on every proto file, including mutually recursive messages.",
  "every set of messages, any reference cycles",
  "non-termination",
  ["recap/converters/protobuf.py:ProtobufConverter._resolve_proxies"])
p("A protobuf converter can be used repeatedly",
  "Calling to_recap several times on one converter works for any sequence of files with distinct message names.",
  "every sequence of files",
  "all histories",
  ["recap/converters/protobuf.py:ProtobufConverter._parse"])
# ---------------------------------------------------------------- relational
p("Each database column becomes one field with its name and nullability",
  "to_recap of a list of columns gives one field per column in order, named after the column; it is nullable whenever the column is nullable; its default is the column default.",
  "every list of columns, for MySQL, PostgreSQL, Snowflake and SQLite",
  "all column lists",
  ["recap/converters/dbapi.py:DbapiConverter.to_recap"])
p("NOT NULL columns are not nullable",
  "A column reported as not nullable becomes a field that is not nullable.",
  "every column of every supported database",
  "all columns and types",
  ["recap/converters/dbapi.py:DbapiConverter.to_recap", "recap/converters/sqlite.py:SQLiteConverter._parse_type"])
p("Time precision selects the coarsest sufficient unit",
  "A fractional-seconds precision p in 0..9 is mapped to the coarsest of second, millisecond, microsecond, nanosecond that can represent p decimal places.",
  "every precision",
  "small domain, but combined with every column type",
  ["recap/converters/dbapi.py:DbapiConverter._get_time_unit"])
p("PostgreSQL schemas can be read repeatedly",
  "Reading table schemas through PostgreSQL clients succeeds again when it has succeeded before, whatever tables were read in between.",
  "every history of schema reads in one process",
  "all histories; the converter object is shared by all clients of the process",
  ["recap/clients/postgresql.py:PostgresqlClient.__init__", "recap/converters/postgresql.py:PostgresqlConverter._parse_type"])
p("PostgreSQL arrays keep their dimensions when asked to",
  "With enforce_array_dimensions, an n-dimensional array column is read as exactly n nested lists around a nullable element type.",
  "every n",
  "unbounded n",
  ["recap/converters/postgresql.py:PostgresqlConverter._create_n_dimension_list"])
p("SQLite affinity follows the SQLite rules",
  "get_affinity returns the affinity that the five ordered rules of the SQLite documentation prescribe, independent of letter case.",
  "every declared type string",
  "all strings, overlapping keywords",
  ["recap/converters/sqlite.py:SQLiteConverter.get_affinity"])
p("BigQuery fields keep structure, mode and metadata",
  "Each BigQuery field becomes one struct field with its name and description: NULLABLE fields are nullable, REPEATED fields are lists, REQUIRED fields are neither made nullable nor repeated; records recurse.",
  "every nested list of schema fields",
  "unbounded nesting",
  ["recap/converters/bigquery.py:BigQueryConverter.to_recap"])
p("Hive columns are always nullable and unions are flat",
  "Each Hive column becomes a field that is nullable, has the column name, and contains no union directly inside a union and no duplicate member.",
  "every Hive type tree",
  "unbounded nesting",
  ["recap/converters/hive_metastore.py:HiveMetastoreConverter._parse_schema", "recap/converters/hive_metastore.py:HiveMetastoreConverter._flatten_unions"])
p("Flattening Hive unions keeps the attributes of nested types",
  "Flattening a union does not change the attributes of the list, map and struct types inside it.",
  "every Hive union type",
  "unbounded nesting",
  ["recap/converters/hive_metastore.py:HiveMetastoreConverter._flatten_unions"])
p("A rejected document leaves the alias registry unchanged",
  "If from_dict raises, the registry it was given has the same content as before the call.",
  "every rejected document and every starting registry",
  "failure can occur at any position of a document after any number of nested aliases",
  [f"{T}:from_dict", f"{T}:RecapTypeRegistry.register_alias"])
p("optional: true means a union of null and the type, with a default",
  "A non-union document with optional set denotes the union of a plain null and the type denoted by the document without optional, name and default; the union carries the name and the default (None when absent) and nothing else.",
  "every document with a truthy optional attribute",
  "the rewriting has to commute with parsing for every document, including nested shorthands",
  [f"{T}:from_dict"])

p("A request whose URL parses can be opened",
  "If parse_url accepts a URL of a supported scheme, create_client accepts the connection URL it returns, and opens the client that belongs to the scheme of the request.",
  "every request URL and every configuration",
  "the connection URL is re-assembled from parts, merged with a configured URL and parsed again",
  ["recap/clients/__init__.py:parse_url", "recap/clients/__init__.py:create_client", "recap/commands.py:ls", "recap/commands.py:schema"])
p("Parsed arguments fit the method they are for",
  "For every client, the argument list returned by parse for ls or schema is accepted by the signature of ls or schema.",
  "every request URL and every configuration",
  "the number of arguments depends on the number of path segments and on the client",
  ["recap/clients/bigquery.py:BigQueryClient.parse", "recap/clients/bigquery.py:BigQueryClient.ls", "recap/clients/dbapi.py:DbapiClient.parse", "recap/clients/mysql.py:MysqlClient.parse"])

PG = "recap/converters/postgresql.py:PostgresqlConverter._parse_type"
MY = "recap/converters/mysql.py:MysqlConverter._parse_type"
SN = "recap/converters/snowflake.py:SnowflakeConverter._parse_type"
SQ = "recap/converters/sqlite.py:SQLiteConverter._parse_type"
BQ = "recap/converters/bigquery.py:BigQueryConverter.to_recap"
p("PostgreSQL array columns can be read whenever their element type can",
  "If a column of some type can be converted, then a column holding an array of that type can be converted too, whatever the column is called.",
  "every array column, every column name and every registry content",
  "column names and element types are unbounded",
  [PG])
p("The self-reference of a PostgreSQL array type can be followed repeatedly",
  "The type of an array column refers to itself; resolving the reference, and the reference inside the result, always succeeds.",
  "every array column and every number of steps",
  "arbitrarily deep unfolding",
  [PG, f"{T}:ProxyType.resolve", f"{T}:RecapTypeRegistry.register_alias"])
p("Time-of-day columns hold every time of the day",
  "The integer type chosen for a TIME column can represent every time of the day in its unit.",
  "every precision, Snowflake and BigQuery",
  "all values of all precisions",
  [SN, BQ])
p("Decimal columns get enough bytes for their precision",
  "The fixed-size bytes type chosen for a decimal column is large enough for every value of the declared precision.",
  "every precision the database allows, for MySQL, PostgreSQL, Snowflake and BigQuery",
  "all values of all precisions",
  [MY, PG, SN, BQ])
p("MySQL integer columns hold every value of the column",
  "The integer type chosen for a MySQL integer column can represent every value the column can hold.",
  "every integer column type, signed or unsigned, and every value",
  "all values",
  [MY])
p("Schemas read from a database respect the limits of the type specification",
  "Every node of a schema read from a database satisfies the limits on bits and lengths.",
  "every list of columns, for MySQL, PostgreSQL, Snowflake and SQLite",
  "all nodes of all schemas; converters never call validate",
  [MY, PG, SN, SQ])
p("SQLite columns that may hold NULL become nullable fields",
  "A column of a SQLite table that can contain NULL is read as a nullable field, with the name of the column.",
  "every list of PRAGMA table_info rows",
  "combinations of declared type, NOT NULL and primary key",
  ["recap/clients/sqlite.py:SQLiteClient.add_information_schema", SQ])
p("Every BigQuery column type can be read",
  "BigQueryConverter.to_recap succeeds on every schema.",
  "every nested list of schema fields",
  "unbounded nesting",
  [BQ])

HV = "recap/converters/hive_metastore.py:HiveMetastoreConverter"
p("Hive column statistics go to the column they describe",
  "Reading a Hive table with statistics changes only the statistics attributes of the fields the statistics name; it fails exactly when they name a column the table does not have.",
  "every table, every list of column statistics",
  "all combinations of tables and statistics, including repeated and unknown column names",
  ["recap/clients/hive_metastore.py:HiveMetastoreClient._load_stats", "recap/clients/hive_metastore.py:HiveMetastoreClient.schema"])
p("Every Hive timestamp is a value of the type chosen for it",
  "The integer type chosen for a Hive TIMESTAMP column can represent every timestamp Hive can hold, in the unit the type declares.",
  "every timestamp between years 0000 and 9999",
  "all timestamps",
  [HV])
p("Schemas read from Hive respect the limits of the type specification",
  "Every node of a schema read from a Hive table satisfies the limits on bits and lengths.",
  "every table whose VARCHAR and CHAR lengths are ones Hive accepts",
  "all nodes of arbitrarily nested types",
  [HV])
p("A schema read from Hive can be stored as a document and read back",
  "to_dict of a schema read from a Hive table succeeds, and from_dict of the result is the same schema in any registry.",
  "every supported table whose type lengths are ones Hive accepts",
  "arbitrarily nested structs, lists, maps and unions, with all the attributes the converter adds",
  [HV, "recap/types.py:to_dict", "recap/types.py:from_dict"])

AVR = "recap/converters/avro.py:AvroConverter"
p("References to built-in types are written as the Avro type they stand for",
  "from_recap writes a reference to a built-in alias as the Avro type of the aliased type.",
  "every built-in alias, wherever the reference stands",
  "every combination of alias, name, doc and position",
  [AVR + ".from_recap"])
p("Avro unions can be read wherever Avro allows a schema",
  "A union written as a JSON array is accepted as the type of a field, of array items and of map values.",
  "every list of member schemas and every position",
  "all member lists, at all nesting depths",
  [AVR + ".to_recap"])
p("Avro logical types that are read can be written back",
  "Every logical type that to_recap accepts is written back by from_recap with the same type and logicalType.",
  "every logical type of the Avro specification, every precision and scale",
  "all precisions, scales, names, docs and defaults",
  [AVR])
p("The Avro conversions terminate",
  "to_recap returns or raises on every JSON value, and from_recap on every type tree whose dotless references are to built-in types.",
  "every JSON value; every type tree, also with references to recursive types",
  "unbounded nesting depth and recursive types",
  [AVR])
p("Every Avro definition that is written has a name",
  "Each record, enum and fixed schema written by from_recap has a name, as the Avro specification requires.",
  "every struct, enum and fixed-length bytes type",
  "all types, with and without name attribute and alias",
  [AVR + ".from_recap"])

JSC = "recap/converters/json_schema.py:JSONSchemaConverter"
p("References in a JSON schema lead to the schema they name",
  "Each $ref that to_recap reads becomes a reference whose alias is that of a schema with this id that was read before, and resolving the reference gives that schema.",
  "every JSON schema, with any history of schemas read before",
  "all schemas, any nesting of ids and references, any alias strategy",
  [JSC + "._parse"])
p("A struct written as a JSON schema is read back unchanged",
  "to_recap of the document returned by from_recap is the struct that was written.",
  "every struct that from_recap accepts",
  "arbitrarily nested types with defaults, docs and optional fields",
  [JSC + ".from_recap", JSC + ".to_recap"])
p("The alias made from a schema id is a legal alias",
  "urn_to_alias of a schema id is a dotted name that the type registry accepts.",
  "every URI",
  "all hosts, paths and fragments",
  ["recap/converters/json_schema.py:urn_to_alias", "recap/types.py:RecapTypeRegistry.register_alias"])
p("The JSON Schema conversions terminate",
  "to_recap returns or raises on every JSON value, and from_recap on every type made from a document.",
  "every JSON value; every type made by from_dict, after any history of documents",
  "unbounded nesting depth and recursive types",
  [JSC])

p("Built-in types have the width in their name",
  "The type behind a built-in alias such as int16, decimal128 or string32 has the number of bits, or of bits of its lengths, that its name ends in, and the class and sign that it starts with.",
  "every built-in alias",
  "a table is checked entry by entry against a rule",
  ["recap/types.py:BUILTIN_ALIASES"])

PRO = "recap/converters/protobuf.py:ProtobufConverter"
p("Protobuf fields keep their names",
  "Each field of a message written by from_recap has the name of the struct field.",
  "every struct with an alias, every named field",
  "all field types, nested to any depth",
  [PRO + "._recap_to_field"])
p("A proto file whose references are declared in it is read",
  "to_recap accepts every proto file with a package and at least one message in which each reference is to a message or enum of the file.",
  "every proto file, any number of messages, any order and nesting",
  "all orders of declarations, all reference graphs",
  [PRO + ".to_recap", PRO + "._resolve_proxies", PRO + "._parse_message"])
p("Protobuf integer types hold the values of the Recap type",
  "The proto type that from_recap chooses for an integer field holds every value of the Recap type.",
  "every integer type, any number of bits",
  "all widths and both signs",
  [PRO + "._recap_to_field"])
p("A proto message becomes the struct with its fields",
  "to_recap returns the first message of the file as a struct with the same fields in the same order: the same names, the type that each proto type stands for, a list for a repeated field, and a null default unless the field is required.",
  "every proto file with a package",
  "all combinations of types, labels, maps, oneof groups and references",
  [PRO + ".to_recap", PRO + "._parse_message", PRO + "._parse_field", PRO + "._parse_map_field", PRO + "._parse_oneof"])
p("A struct becomes the proto message with its fields",
  "from_recap writes each struct as a message with the same fields in the same order, each with the proto type, label or oneof group that stands for its Recap type.",
  "every struct with an alias",
  "all nestings of lists, maps and unions",
  [PRO + ".from_recap", PRO + "._recap_to_field"])
p("A proto file that is rejected does not affect later ones",
  "After to_recap raised an exception, the converter reads every other file as it would have before.",
  "every history of files, every rejected file and every later file",
  "all histories and all failure points",
  [PRO + ".to_recap", PRO + "._parse"])
p("Overlapping registry requests are answered like a map that serves one request at a time",
  "Whatever the interleaving, the answers are those of a map from (name, version) to documents that handles the requests one at a time, in the order in which they are answered, except that PUT looks for a conflict when it arrives: 404 for a name or version that is not stored, 415 for another content type, 400 for a document from_dict rejects, 409 for PUT of a stored version, otherwise the type, the ascending list of versions or names, or the version stored.",
  "every list of requests, every interleaving, every registry history including crashes",
  "all interleavings, all histories",
  [W + x for x in (":ls", ":latest", ":versions", ":version", ":post", ":put", ":_request_to_type")])
p("Nothing is left to look up in what Protobuf to_recap returns",
  "Every reference in the type that to_recap returns names a message or enum that is written out in full in that type.",
  "every history of files, every file that is accepted",
  "all reference graphs, recursive or not, to any depth",
  [PRO + ".to_recap", PRO + "._resolve_proxies"])
p("Protobuf references are replaced by what they name unless they are recursive",
  "In the type that to_recap returns, a reference is left only inside the message it names.",
  "every history of files, every file that is accepted",
  "all reference graphs, any number of references to the same message",
  [PRO + "._resolve_proxies"])

p("The Recap document printed for a database schema can be read back",
  "The schema command in Recap format prints, for every schema a MySQL, PostgreSQL, Snowflake, SQLite, BigQuery or Hive client returns, a document that from_dict reads back as a type with the same meaning.",
  "every table, BigQuery table or Hive table of columns the client accepts, every type registry that has none of its aliases",
  "all column types, lengths, defaults and nestings",
  ["recap/commands.py:schema", "recap/types.py:to_dict", "recap/types.py:from_dict", "recap/converters/dbapi.py:DbapiConverter.to_recap", "recap/converters/bigquery.py:BigQueryConverter.to_recap", "recap/converters/hive_metastore.py:HiveMetastoreConverter.to_recap"])
p("A file request reads the file its URL names, with the converter for its extension",
  "The schema of a file path or file URL is read from that path, as Avro, JSON Schema or Protobuf according to the extension in any letter case; any other extension is refused.",
  "every path, with and without a file:// scheme, every extension",
  "all paths and letter cases",
  ["recap/clients/fs.py:FilesystemClient.parse", "recap/clients/fs.py:FilesystemClient.schema", "recap/clients/__init__.py:parse_url"])
p("Every subject a Confluent registry lists can be read",
  "schema returns for each subject in ls the latest schema of that subject, read by the converter for its type; a topic name stands for the value schema of the topic.",
  "every registry, every subject name",
  "all subject names",
  ["recap/clients/confluent_registry.py:ConfluentRegistryClient.ls", "recap/clients/confluent_registry.py:ConfluentRegistryClient.schema"])
p("The gateway answers in the format that the media type asks for",
  "Each supported media type selects its output format, in any letter case and with any parameters; no media type selects Recap; any other is answered with status 415.",
  "every content type header",
  "all header values",
  ["recap/server/gateway.py:schema", "recap/commands.py:FORMAT_MAP"])
p("An Avro schema is read as the type it describes",
  "to_recap returns a struct with the fields, names, aliases, documentation, defaults, sizes and logical types that the Avro schema describes, and accepts every record schema whose full names are well-formed, distinct and new.",
  "every JSON document, every namespace, every type registry",
  "all nestings of records, enums, arrays, maps, unions, references and logical types",
  ["recap/converters/avro.py:AvroConverter.to_recap", "recap/converters/avro.py:AvroConverter._parse", "recap/converters/avro.py:AvroConverter._parse_logical"])
p("A Recap type is written as the Avro schema that describes it",
  "from_recap writes each type as the Avro schema that describes it, with documentation, name, default, aliases and logical type, and raises exactly when there is no such schema.",
  "every type tree, every type registry",
  "all type trees",
  ["recap/converters/avro.py:AvroConverter.from_recap", "recap/converters/avro.py:AvroConverter._from_recap", "recap/converters/avro.py:AvroConverter._from_recap_logical"])
p("Reading an Avro schema registers each of its full names once",
  "After to_recap the registry has the names it had and, parts first, each full name in the returned type; no name is registered twice.",
  "every JSON document, every namespace, every type registry",
  "all documents and registries",
  ["recap/converters/avro.py:AvroConverter._parse", "recap/types.py:RecapTypeRegistry.register_alias"])

CL = "recap/clients/"
p("A listed name can be appended to the URL and opened",
  "ls returns the names of the children of the URL, each once; appending a listed name to the URL lists its children in turn or, for a table or schema file, returns its columns by position or its text.",
  "every PostgreSQL or MySQL server, directory of SQLite files and file system, every name in it, strict mode or not",
  "all trees of databases, schemas, tables and columns with arbitrary names",
  ["recap/commands.py:ls", "recap/commands.py:schema", CL + "dbapi.py:DbapiClient.ls", CL + "dbapi.py:DbapiClient.schema", CL + "mysql.py:MysqlClient.ls", CL + "postgresql.py:PostgresqlClient.schema", CL + "sqlite.py:SQLiteClient.schema", CL + "fs.py:FilesystemClient.ls"])
p("A request connects to the database that its URL names",
  "The database handed to the driver is the first name in the path of a PostgreSQL, MySQL or Snowflake URL, and the path of a SQLite URL, for ls and for schema alike.",
  "every URL, every configuration, strict mode or not",
  "all paths, queries and configurations",
  [CL + "postgresql.py:PostgresqlClient.create", CL + "mysql.py:MysqlClient.create", CL + "snowflake.py:SnowflakeClient.create", CL + "sqlite.py:SQLiteClient.create", CL + "sqlite.py:SQLiteClient.parse"])
p("Reading a table that does not exist fails",
  "schema raises for a table name that the server or the SQLite file does not have, and ls and schema raise for a path that names no file.",
  "every server, every name that is not a table of it",
  "all names and servers",
  [CL + "dbapi.py:DbapiClient.schema", CL + "postgresql.py:PostgresqlClient.schema", CL + "sqlite.py:SQLiteClient.schema", CL + "sqlite.py:SQLiteClient._table_exists", CL + "fs.py:FilesystemClient.ls", CL + "fs.py:FilesystemClient.schema"])
JS = "recap/converters/json_schema.py:JSONSchemaConverter."
p("A JSON schema is read as the type it describes",
  "to_recap returns the struct whose fields, types, optionality, defaults, documentation and aliases the JSON schema describes, and reads every object schema that describes one and whose references are to ids read before.",
  "every JSON document, every type registry",
  "all nestings of objects, arrays, references, defaults and required lists",
  [JS + "to_recap", JS + "_parse", "recap/types.py:UnionType.make_nullable"])
p("Documents that a JSON schema accepts are values of the type read from it",
  "Every JSON document that the schema accepts under draft 2020-12 is a value of the type that to_recap returns for the schema.",
  "every schema that is read, every document",
  "all pairs of schemas and documents",
  [JS + "to_recap", JS + "_parse", "recap/types.py:UnionType.make_nullable"])
p("Values of a Recap type fit the JSON schema written for it",
  "Every value of a Recap type is accepted by the JSON schema that from_recap writes for the type.",
  "every type tree, every type registry, every value of the type",
  "all pairs of types and values",
  [JS + "from_recap", JS + "_convert_field", JS + "_generate_alias_defs"])
p("Processes that work on different schema names do not affect each other",
  "When several processes share the directory of a registry, the answers to calls about one name and the stored content of that name are those of some execution without the calls about other names; a process that has a name to itself gets the answers it would get on its own.",
  "every number of processes, every sequence of calls in each, every interleaving of their file accesses, crashes at any point",
  "unbounded interleavings of file accesses",
  [S + ":RegistryStorage.put", S + ":RegistryStorage.get", S + ":RegistryStorage.versions", S + ":RegistryStorage.latest"])
p("Versions given out by several processes are distinct and ordered",
  "Two puts of one name without a version, made by processes that share the directory, return different versions, the later one the greater.",
  "every number of processes, every interleaving of their file accesses",
  "unbounded interleavings of file accesses",
  [S + ":RegistryStorage.put", S + ":RegistryStorage.latest", S + ":RegistryStorage.versions"])
p("get returns only types that were put under that name and version",
  "When several processes share the directory, a type returned by get was stored at the start or is that of a put of the same name and version by one of them; calls fail only where they would without other processes, or with a JSON error in get.",
  "every number of processes, every interleaving of their file accesses, texts of any length",
  "unbounded interleavings of file accesses",
  [S + ":RegistryStorage.get", S + ":RegistryStorage.put", S + ":RegistryStorage.ls", S + ":RegistryStorage.versions"])
p("A type whose put has returned can be read from then on",
  "When several processes share the directory, every get of a name and version that begins after a put of it has returned gives the type that was put.",
  "every number of processes, every interleaving of their file accesses, texts of any length",
  "unbounded interleavings of file accesses",
  [S + ":RegistryStorage.put", S + ":RegistryStorage.get"])

p("Every row of a MySQL table is a value of the type that is read from it",
  "For a table whose columns have types of MySQL 8 with legal parameters, described by information_schema.columns: if the converter returns a struct, every row that the table can hold is a value of it. Proved exactly: a row is a value of the struct if and only if each of its values is NULL in a nullable column or covered; not covered are the upper half of the unsigned integers, CHAR texts and ENUM labels shorter than the longest possible, and BIT values of at most 56 bits. The tables that can be read are exactly those without DATE, TIME and spatial columns.",
  "all lists of columns with all legal types and all rows of them",
  "Values at the limits of a type matter, and no finite set of rows shows that no other value is lost.",
  ["recap/converters/mysql.py:MysqlConverter._parse_type", "recap/converters/dbapi.py:DbapiConverter.to_recap"])
p("Every row of a PostgreSQL table is a value of the type that is read from it",
  "For a table whose columns have built-in types of PostgreSQL 15, enumerations, or arrays of built-in types, described by information_schema.columns and pg_attribute: if the converter returns a struct, every row that the table can hold is a value of it. Proved exactly, for both settings of enforce_array_dimensions; not covered are CHAR(n) texts with a character of fewer than four bytes, NUMERIC without limits or with 77 digits and more, timestamps of more than three digits at the end of their range, arrays with NULL elements or (enforced) with another number of dimensions than declared, and arrays of BIT. The tables that can be read are those without DATE, TIME and INTERVAL columns and without arrays of other element types than ten.",
  "all lists of columns with all legal types, all rows of them and both settings",
  "Values at the limits of a type and arrays of any depth matter, and no finite set of rows shows that no other value is lost.",
  ["recap/converters/postgresql.py:PostgresqlConverter._parse_type", "recap/converters/postgresql.py:PostgresqlConverter._create_n_dimension_list", "recap/converters/dbapi.py:DbapiConverter.to_recap"])
p("Every row of a Snowflake table is a value of the type that is read from it",
  "For a table whose columns have types of Snowflake with legal parameters, described by INFORMATION_SCHEMA.COLUMNS: if the converter returns a struct, every row that the table can hold is a value of it. Proved exactly; not covered are times from 2.147 seconds after midnight on and timestamps that do not fit 64 bits as nanoseconds (from 2262 on, and before 1677). The tables that can be read are exactly those without semi-structured, geospatial and vector columns.",
  "all lists of columns with all legal types and all rows of them",
  "Values at the limits of a type matter, and no finite set of rows shows that no other value is lost.",
  ["recap/converters/snowflake.py:SnowflakeConverter._parse_type", "recap/converters/dbapi.py:DbapiConverter.to_recap"])
p("Every row of a SQLite table is a value of the type that is read from it",
  "For a table whose columns have any type text with at most two numbers in parentheses, described by PRAGMA table_info: a struct is returned, and every row that the table can hold is a value of it. Proved exactly; not covered are values of another storage class than the affinity of their column says, floating point numbers in REAL columns with a number below 24 in parentheses that need more than 24 bits, and texts and blobs longer than the number in parentheses.",
  "all lists of columns with all type texts and all rows of them",
  "SQLite takes any text as a type and does not enforce it; examples cover neither all texts nor all values.",
  ["recap/converters/sqlite.py:SQLiteConverter._parse_type", "recap/converters/sqlite.py:SQLiteConverter.get_affinity", "recap/converters/dbapi.py:DbapiConverter.to_recap"])
p("Every row of a BigQuery table is a value of the type that is read from it",
  "For a table whose fields, nested to any depth, have types of BigQuery with legal parameters and any of the three modes: if the converter returns a struct, every row that the table can hold is a value of it. Proved exactly; not covered are STRING(n) texts of more than n bytes, times from about 35 minutes and 47 seconds after midnight on, and fractional numbers in NUMERIC and BIGNUMERIC fields without parameters. The tables that can be read are exactly those without GEOGRAPHY, INTERVAL and RANGE fields and without the spelling BOOL.",
  "all schemas of any depth and all rows of them",
  "Fields nest without bound, and values at the limits of a type matter.",
  ["recap/converters/bigquery.py:BigQueryConverter.to_recap"])
p("Every row of a Hive table is a value of the type that is read from it",
  "For a table whose columns have types of Hive nested to any depth: if the converter returns a struct, every row that the table can hold is a value of it. Proved exactly, also for flattened unions; not covered are VARCHAR(n) and CHAR(n) texts of more than n bytes and timestamps that do not fit 64 bits as nanoseconds.",
  "all types of any depth and all rows of them",
  "Types nest without bound, and flattening merges members of nested unions that compare equal.",
  ["recap/converters/hive_metastore.py:HiveMetastoreConverter.to_recap", "recap/converters/hive_metastore.py:HiveMetastoreConverter._parse_schema", "recap/converters/hive_metastore.py:HiveMetastoreConverter._flatten_unions"])
p("Query parameters of a request reach the database driver",
  "For PostgreSQL and MySQL requests, every value given for a parameter of the driver in the query of the URL is passed to it decoded, several values as a list in order, and takes precedence over the query of the configured URL; parameters only the configured URL gives are passed as well, others are not passed at all.",
  "every list of parameters with any names and values, every configuration, strict mode or not",
  "All texts have to survive encoding, merging with a configured URL, encoding again and decoding.",
  [CL + "__init__.py:_url_to_dict", "recap/settings.py:RecapSettings.unsafe_url", CL + "postgresql.py:PostgresqlClient.create", CL + "mysql.py:MysqlClient.create"])
p("BigQuery, Hive and Confluent URLs are taken apart by position",
  "parse_url returns for a BigQuery URL the first three names of its path, for a Hive URL the address of the metastore, the names of its path and whether statistics are asked for, and for a Confluent URL the address of the registry and the last name as the subject; a wrong number of names is a ValueError.",
  "every location, every list of names, every list of parameters",
  "all locations with user info, host and port, and all names",
  [CL + "bigquery.py:BigQueryClient.parse", CL + "hive_metastore.py:HiveMetastoreClient.parse", CL + "confluent_registry.py:ConfluentRegistryClient.parse", CL + "__init__.py:_url_to_dict", CL + "__init__.py:parse_url"])
p("Every datum of an Avro schema is a value of the type that is read from it",
  "When to_recap accepts an Avro schema, each datum that the Avro specification allows for the schema is a value of the Recap type that is returned, with references standing for the types that to_recap registered.",
  "every Avro schema, every datum, every registry, every starting namespace",
  "nested and recursive schemas with all data of each",
  ["recap/converters/avro.py:AvroConverter.to_recap", "recap/converters/avro.py:AvroConverter._parse", "recap/converters/avro.py:AvroConverter._parse_logical"])
p("Every value of the type read from an Avro schema is a datum of the schema",
  "When to_recap accepts an Avro schema, each value of the Recap type that is returned is a datum that the Avro specification allows for the schema.",
  "every Avro schema, every value, every registry, every starting namespace",
  "all values of all types that can be read, recursive ones included",
  ["recap/converters/avro.py:AvroConverter.to_recap", "recap/converters/avro.py:AvroConverter._parse", "recap/converters/avro.py:AvroConverter._parse_logical"])
p("Every value of a Recap type is a datum of the Avro schema written for it",
  "When from_recap writes a type as an Avro schema, each value of the type is a datum that the Avro specification allows for the schema.",
  "every Recap type that from_recap accepts, every value of it",
  "all nested types and all their values",
  ["recap/converters/avro.py:AvroConverter.from_recap", "recap/converters/avro.py:AvroConverter._from_recap", "recap/converters/avro.py:AvroConverter._from_recap_logical"])
p("Every message of a proto file is a value of the type that is read from it",
  "When to_recap accepts a proto file, each message that Protobuf allows for the first message type of the file is a value of the struct that is returned, with references standing for the types that to_recap registered.",
  "every proto file with a package, every message, every converter whatever it was called with before",
  "nested and recursive messages, with name lookup through all enclosing scopes and all values of every field",
  ["recap/converters/protobuf.py:ProtobufConverter.to_recap", "recap/converters/protobuf.py:ProtobufConverter._parse", "recap/converters/protobuf.py:ProtobufConverter._parse_message", "recap/converters/protobuf.py:ProtobufConverter._resolve_proxies"])
p("Every value of the type read from a proto file is a message of the file",
  "When to_recap accepts a proto file, each value of the struct that is returned is a message that Protobuf allows for the first message type of the file.",
  "every proto file with a package, every value, every converter whatever it was called with before",
  "all values of all structs that can be read, recursive ones included",
  ["recap/converters/protobuf.py:ProtobufConverter.to_recap", "recap/converters/protobuf.py:ProtobufConverter._parse", "recap/converters/protobuf.py:ProtobufConverter._parse_message", "recap/converters/protobuf.py:ProtobufConverter._resolve_proxies"])
p("Every value of a struct is a message of the proto file written for it",
  "When from_recap writes a struct as a proto file, each value of the struct is a message that Protobuf allows for the message type with the name of the struct in that file.",
  "every struct that from_recap accepts, nested and recursive ones included, every value of it",
  "all nested structs with all their values, and where names are looked up in the file",
  ["recap/converters/protobuf.py:ProtobufConverter.from_recap", "recap/converters/protobuf.py:ProtobufConverter._from_recap_gather_types", "recap/converters/protobuf.py:ProtobufConverter._from_recap_construct_elements"])
p("A struct can be read back from the proto file written for it",
  "When from_recap writes a struct as a proto file, to_recap of a converter that does not know its name reads the file and returns a struct of that name, and each value of the written struct is a value of the struct that is returned.",
  "every struct that from_recap accepts, every converter whatever it was called with before, every value",
  "all combinations of fields, names and nested structs, and every history of the converter",
  ["recap/converters/protobuf.py:ProtobufConverter.from_recap", "recap/converters/protobuf.py:ProtobufConverter.to_recap", "recap/converters/protobuf.py:ProtobufConverter._recap_to_field", "recap/converters/protobuf.py:ProtobufConverter._resolve_proxies"])
p("The schema of every table can be printed in every format",
  "When a client returns the schema of a table, the schema command prints it as JSON Schema with the columns as properties and exactly those required that cannot be null, as an Avro record with a name, and as a proto file.",
  "every MySQL, PostgreSQL, Snowflake, SQLite, BigQuery and Hive table that is accepted, every list of columns",
  "all types of columns with all lengths, and every number of columns",
  ["recap/commands.py:schema", "recap/converters/json_schema.py:JSONSchemaConverter.from_recap", "recap/converters/json_schema.py:JSONSchemaConverter._generate_alias_defs", "recap/converters/avro.py:AvroConverter.from_recap", "recap/converters/protobuf.py:ProtobufConverter.from_recap", "recap/converters/dbapi.py:DbapiConverter.to_recap"])
p("A schema that is read in one format can be printed in the others",
  "When a converter reads an Avro schema, a JSON schema or a proto file, the schema command prints what it read as an Avro schema with a name, as a JSON schema and as a proto file; printed in the format in which it was read, it still describes the same data.",
  "every Avro schema, JSON schema and proto file that is read, every datum of an Avro schema",
  "schemas of any depth with all combinations of types, read by one converter and written by another",
  ["recap/commands.py:schema", "recap/converters/json_schema.py:JSONSchemaConverter.to_recap", "recap/converters/json_schema.py:JSONSchemaConverter.from_recap", "recap/converters/avro.py:AvroConverter.to_recap", "recap/converters/avro.py:AvroConverter.from_recap", "recap/converters/protobuf.py:ProtobufConverter.to_recap", "recap/converters/protobuf.py:ProtobufConverter.from_recap"])
p("Rows of a table are accepted by the JSON schema printed for the table",
  "When the schema command prints the schema of a table as JSON Schema, the JSON schema accepts each row of the table as a JSON object whose members are the columns, and rejects objects that lack a column that cannot be NULL or have a member of another JSON type than the column.",
  "every MySQL, PostgreSQL, Snowflake and SQLite table that is accepted, every row of it and every JSON object",
  "all lists of columns with all rows, and every JSON object against the schema",
  ["recap/commands.py:schema", "recap/converters/json_schema.py:JSONSchemaConverter.from_recap", "recap/converters/json_schema.py:JSONSchemaConverter._convert_field", "recap/converters/dbapi.py:DbapiConverter.to_recap", "recap/converters/mysql.py:MysqlConverter._parse_type", "recap/converters/postgresql.py:PostgresqlConverter._parse_type", "recap/converters/snowflake.py:SnowflakeConverter._parse_type", "recap/converters/sqlite.py:SQLiteConverter._parse_type"])
p("A JSON schema that is read and printed again accepts the same documents",
  "When the schema command reads a JSON schema and prints it as JSON Schema, the printed schema accepts exactly the JSON documents that the schema that was read accepts.",
  "every JSON schema that is read, every JSON document",
  "schemas of any depth, and every document against both schemas",
  ["recap/commands.py:schema", "recap/converters/json_schema.py:JSONSchemaConverter.to_recap", "recap/converters/json_schema.py:JSONSchemaConverter._parse", "recap/converters/json_schema.py:JSONSchemaConverter.from_recap", "recap/converters/json_schema.py:JSONSchemaConverter._generate_alias_defs", "recap/converters/json_schema.py:JSONSchemaConverter._convert_field"])
p("Snowflake and BigQuery URLs lead to what they name",
  "The ls command returns the names of the databases, schemas and tables of a Snowflake account, or of the projects, datasets and tables of BigQuery, that are in what its URL names; the schema command returns the type of the columns of the table that its URL names, in their order.",
  "every Snowflake account with any databases, schemas and tables, all BigQuery projects, every URL, with any settings, strict or not",
  "every server with every URL, and the databases in which a session does not start",
  ["recap/commands.py:ls", "recap/commands.py:schema", "recap/clients/snowflake.py:SnowflakeClient.create", "recap/clients/snowflake.py:SnowflakeClient.ls_catalogs", "recap/clients/dbapi.py:DbapiClient.ls", "recap/clients/dbapi.py:DbapiClient.schema", "recap/clients/bigquery.py:BigQueryClient.ls", "recap/clients/bigquery.py:BigQueryClient.schema"])
p("The Recap document printed for a Hive table keeps its columns and their statistics",
  "When a Hive client that loads statistics returns the schema of a table, the schema command in Recap format prints a document that from_dict reads as a struct with the same columns, in their order, each with its name, its type and its statistics.",
  "every Hive table that is accepted, every list of statistics of its columns, every type registry",
  "all types of columns with all combinations of statistics",
  ["recap/commands.py:schema", "recap/types.py:to_dict", "recap/types.py:clean_dict", "recap/types.py:from_dict", "recap/clients/hive_metastore.py:HiveMetastoreClient.schema", "recap/clients/hive_metastore.py:HiveMetastoreClient._load_stats", "recap/converters/hive_metastore.py:HiveMetastoreConverter.to_recap"])
p("The command line prints what the gateway answers",
  "Whatever the gateway answers to ls and schema requests, the ls and schema commands of the command line print for the same URL and format: the same JSON document or proto file, and nothing for an empty list. What the command line prints the gateway answers too, or it raises ValueError because no configured URL matches. A schema that commands.schema returns is always printed. Without a URL both list the configured ones in order, without user names and passwords; for a URL of a PostgreSQL or MySQL server they list the names of what is there.",
  "every URL, content type and format, all configured URLs, clients that return any list and any type",
  "every type in every format, and every combination of configured URLs with a requested one",
  ["recap/cli.py:ls", "recap/cli.py:schema", "recap/commands.py:ls", "recap/commands.py:schema", "recap/server/gateway.py:ls", "recap/server/gateway.py:schema", "recap/settings.py:RecapSettings.unsafe_url"])
p("The JSON schema printed for a BigQuery or Hive table accepts the objects of its rows",
  "The JSON schema that the schema command prints for a BigQuery or Hive table accepts exactly the objects that have a member for every column that cannot be NULL and whose members have the JSON types of their columns, nested records, arrays and maps included, where a NULL may be absent or null.",
  "every BigQuery table with fields nested to any depth, every Hive table with columns of any type, every JSON document",
  "tables nested to any depth against every document",
  ["recap/commands.py:schema", "recap/converters/bigquery.py:BigQueryConverter.to_recap", "recap/converters/hive_metastore.py:HiveMetastoreConverter.to_recap", "recap/converters/hive_metastore.py:HiveMetastoreConverter._parse_schema", "recap/types.py:RecapType.make_nullable", "recap/converters/json_schema.py:JSONSchemaConverter.from_recap", "recap/converters/json_schema.py:JSONSchemaConverter._convert_field"])

p("Rows of a table are data of the Avro schema printed for the table",
  "The schema command prints an Avro schema for every table that a client can read, and every row that the table can store is a datum of that schema as the Avro specification defines it.",
  "every table of MySQL, PostgreSQL, Snowflake, SQLite, BigQuery and Hive that can be read, every row that it can store",
  "all combinations of column types, nested to any depth, against all rows",
  ["recap/commands.py:schema", "recap/converters/avro.py:AvroConverter.from_recap", "recap/converters/avro.py:AvroConverter._from_recap", "recap/converters/dbapi.py:DbapiConverter.to_recap", "recap/converters/bigquery.py:BigQueryConverter.to_recap", "recap/converters/hive_metastore.py:HiveMetastoreConverter.to_recap", "recap/converters/hive_metastore.py:HiveMetastoreConverter._parse_schema"])


out = os.path.join(os.path.dirname(os.path.abspath(__file__)), "..", "properties.jsonl")
with open(out, "w") as f:
    for x in P:
        f.write(json.dumps(x) + "\n")
print(len(P))
