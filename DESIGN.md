# Formal model of `recap` in Rocq (Coq 8.16.1)

This file says what is modelled, how each property of `properties.jsonl` is
expressed and proved, and what has to be trusted.

## 1. Method

* The Python source in `/repo` was read as text; nothing was executed.
* Each Python function that matters for a property is transcribed into a total,
  computable Gallina function, branch by branch.  Comments cite file and lines.
* Exceptions are values: `res A := Ok a | Err exn`.  Functions that mutate a
  registry and may fail half-way are state transformers
  `registry -> registry * res A`, so partial mutations before an exception stay visible.
* Non-structural recursion uses fuel with a dedicated `OutOfFuel` error; theorems
  show that the fuel used is always enough.
* Specifications (`Spec*.v`) are separate from the model and do not use its helpers.
* When a property as a user would expect it is false of the code, the strongest true
  version is proved as `..._partial` and the failure is proved as `..._refuted`
  with a concrete witness.
* Standard library only.  No axioms, no `Admitted`.

## 2. Representation choices (trusted)

* Strings are Coq `string`s read as UTF-8 bytes; upper/lower case handling is ASCII only.
* JSON-like Python values are `pyval` (None, bool, int, float, str, list, dict).  Floats are
  rationals (no NaN, no infinities).  Dicts are association lists in insertion order; `pwf`
  says keys are unique (always true of a Python dict).  Dict keys are strings.
* Python recursion limits, memory exhaustion and exception messages are not modelled.
* Object identity matters only where it is observable: `make_nullable` (mutation of the
  receiver) and `ProxyType.registry` (live registry versus deep-copied snapshot) are modelled
  explicitly.

## 3. Plan per property

* **C01** Verbose dictionary round trip is lossless — from_dict and raw to_dict; lemma A (accepted => well-formed and registration replay succeeds), lemma B (well-formed + replay => raw document parses to the same term); Leibniz equality.
* **C02** Accepted types respect the numeric limits of the type spec at every depth — invariant on from_dict results by induction on fuel; separate recursive predicate.
* **C03** from_dict always terminates — fuel bound psize(document): from_dict never returns OutOfFuel, result independent of extra fuel.
* **C04** Aliases are unique, fully qualified and never shadow built-ins — registry effect of from_dict characterised as appending the aliases of the tree in post-order.
* **C05** The alias registry only grows and never redefines a name — trace induction over register_alias calls.
* **C06** Alias names are accepted exactly when they are dotted identifiers — regex AST + derivative matcher for ALIAS_REGEX against an independent segment-wise spec.
* **C07** A proxy resolves to the registered type with its attribute overrides applied — model of resolve with hasattr/setattr; spec by attribute lookup.
* **C08** Recursive types can be unfolded any number of times — proxies carry live/snapshot registries; refuted by witness, partial for the first unfolding.
* **C09** make_nullable yields a nullable type and moves doc, default and name outwards — make_nullable as (mutated receiver, result).
* **C10** make_nullable leaves its receiver unchanged — refuted by witness; partial: exactly doc-less/default-less/name-less non-union receivers are unchanged.
* **C11** Type equality is an equivalence relation — boolean __eq__ on well-formed values proved reflexive, symmetric, transitive.
* **C12** Compact round trip preserves the type — clean_dict model; refuted in general; proved for the fragment described in the theorem.
* **C13** Built-in aliasing in to_dict preserves meaning — alias_dict model; `same_meaning builtin_ref` relates a type to the same type with references (`SpecCompact.v`); refuted for attributes that look like children.
* **C14** to_dict succeeds on every type that from_dict can return — refuted (two failure modes); proved, with the meaning after reading back, on the fragment `compact_ok` and `alias_ok`.
* **C15** clean_dict is idempotent — refuted by three witnesses; proved on the documents `tidy` (SpecTidy.v).
* **C16** from_dict keeps every struct field and every union member in order — fields: proved; type-list with non-dict members: refuted.
* **C17** The registry behaves as a map from (name, version) to type documents — file system model (directory tree keyed by quoted names) refines a two-level map; simulation over op sequences.
* **C18** Automatically assigned versions are fresh and increasing — from the refinement plus arithmetic.
* **C19** Operations on one schema name never affect another — injectivity of quote_plus, separation lemma.
* **C20** All registry data stays below the storage root — path normalisation model; refuted for '..'; proved for names other than '', '.', '..'.
* **C21** Name quoting is reversible and yields one path component — byte-level quote_plus / unquote_plus.
* **C22** A crash during put leaves every other stored version intact — put as a sequence of file-system steps, crash = prefix of the steps.
* **C23** After a crash during put the latest version is still readable — refuted by crash between open(truncate) and write; partial.
* **C24** Concurrent POSTs to one server process get distinct versions — handlers as coroutines; invariant over all schedules.
* **C25** PUT never overwrites an existing version — refuted by a schedule; proved when no other request is interleaved between check and write.
* **C26** GET after a successful POST returns the posted type — storage invariant over all interleavings (`ServerTrip.v`) composed with writing and reading twice (`CompactAgain.v`).
* **C27** Listed URLs never contain credentials — byte-level urlsplit/urlunsplit; refuted when hostname is None; partial otherwise.
* **C28** Strict mode only yields configured scheme, host and port — unsafe_url model.
* **C29** Credentials are only used below the configured path — refuted (sibling with same prefix, dot segments); partial.
* **C30** A listed URL can be opened in strict mode — refuted (empty path); partial.
* **C31** In strict mode connections only go to configured hosts — refuted by ?host=; partial for URLs without query.
* **C32** Relational URLs split into catalog, schema and table by position — model of parse functions.
* **C33** Avro integer types can hold every value of the Recap integer — from_recap integer branch; arithmetic over Z.
* **C34** Avro conversion keeps record structure — from_recap record branch by induction on fields.
* **C35** Avro to Recap to Avro is the identity on primitive schemas — round trip by mutual induction on a schema grammar, else partial.
* **C36** Avro fixed, decimal and duration keep their size semantics — refuted for fixed and decimal.
* **C37** Avro records may reuse field names — refuted by witness, partial.
* **C38** JSON schema required list is exact — _convert_field model.
* **C39** Properties that are not required are read as nullable with a default — _parse model.
* **C40** Every $ref emitted points to a definition — refuted / partial.
* **C41** Protobuf field numbers are unique within a message — refuted with oneof; proved without unions of more than one non-null member.
* **C42** Protobuf lists stay repeated — refuted for nullable lists; proved for plain lists.
* **C43** Protobuf to Recap to Protobuf succeeds — refuted for string fields; partial.
* **C44** Every referenced message appears in the generated file — refuted; partial.
* **C45** Proxy resolution in proto files terminates — well-founded measure on unresolved aliases.
* **C46** A protobuf converter can be used repeatedly — refuted without package; partial with package.
* **C47** Each database column becomes one field with its name and nullability — generic DbapiConverter over an abstract per-column parser.
* **C48** NOT NULL columns are not nullable — proved for MySQL/PostgreSQL/Snowflake; refuted for SQLite NUMERIC.
* **C49** Time precision selects the coarsest sufficient unit — arithmetic spec.
* **C50** PostgreSQL schemas can be read repeatedly — refuted by two reads; partial.
* **C51** PostgreSQL arrays keep their dimensions when asked to — induction on n.
* **C52** SQLite affinity follows the SQLite rules — substring search spec.
* **C53** BigQuery fields keep structure, mode and metadata — induction over nested fields.
* **C54** Hive columns are always nullable and unions are flat — induction over Hive type trees.
* **C55** Flattening Hive unions keeps the attributes of nested types — refuted; partial for structs.
* **C56** A rejected document leaves the alias registry unchanged — refuted; existing entries survive.
* **C57** optional: true means a union of null and the type — commutation of the rewriting with parsing.
* **C58** A request whose URL parses can be opened — parse_url followed by create_client; refuted for Hive and Confluent for all URLs, proved for relational databases.
* **C59** Parsed arguments fit the method they are for — arity of ls/schema per client; refuted for BigQuery ls for all URLs.
* **C60** PostgreSQL array columns can be read whenever their element type can — parse_column on array type names; decidable set of element names (partial).
* **C61** The self-reference of a PostgreSQL array type can be followed repeatedly — iterated resolve on the array proxy (partial).
* **C62** Time-of-day columns hold every time of the day — value ranges of logical times (DbRanges.v) (partial).
* **C63** Decimal columns get enough bytes for their precision — bytes needed for 10^p against the chosen width (partial).
* **C64** MySQL integer columns hold every value of the column — value ranges per column type (partial).
* **C65** Schemas read from a database respect the limits of the type specification — limits predicate of C02 over converter output (partial).
* **C66** SQLite columns that may hold NULL become nullable fields — table model with primary keys (partial).
* **C67** Every BigQuery column type can be read — the readable schemas as an inductive predicate (partial).
* **C68** Hive column statistics go to the column they describe — list surgery over columns with distinct names (proved).
* **C69** Every Hive timestamp is a value of the type chosen for it — integer ranges of nanosecond timestamps (partial).
* **C70** Schemas read from Hive respect the limits of the type specification — induction over Hive type trees (proved).
* **C71** A schema read from Hive can be stored as a document and read back — converter output is in the fragment of C01 (proved).
* **C72** References to built-in types are written as the Avro type they stand for — from_recap on proxies (partial).
* **C73** Avro unions can be read wherever Avro allows a schema — read on union positions (partial).
* **C74** Avro logical types that are read can be written back — inverse of the logical type tables (partial).
* **C75** The Avro conversions terminate — fuel bound as in C03 (proved).
* **C76** Every Avro definition that is written has a name — inductive predicate over written schemas (partial).
* **C77** References in a JSON schema lead to the schema they name — registry after reading, then resolve (partial).
* **C78** A struct written as a JSON schema is read back unchanged — write then read by induction over the fragment (partial).
* **C79** The alias made from a schema id is a legal alias — segments of the id against the alias regex (partial).
* **C80** The JSON Schema conversions terminate — fuel bound (proved).
* **C81** Built-in types have the width in their name — computed over the alias table (partial).
* **C82** Protobuf fields keep their names — names of written fields (partial).
* **C83** A proto file whose references are declared in it is read — resolution over the message graph; invariant over the pending set (partial).
* **C84** Protobuf integer types hold the values of the Recap type — value ranges of proto integers (proved).
* **C85** A proto message becomes the struct with its fields — independent relation between messages and structs (SpecProto.v) (proved).
* **C86** A struct becomes the proto message with its fields — same relation, written direction (partial).
* **C87** A proto file that is rejected does not affect later ones — converter state after an exception (partial).
* **C88** Overlapping registry requests are answered like a map that serves one request at a time — linearisation: invariant over all schedules against SpecServer.v (proved).
* **C89** Nothing is left to look up in what Protobuf `to_recap` returns — invariant over `_resolve_proxies` and its two sets (proved).
* **C90** Protobuf references are replaced by what they name unless they are recursive — same invariant, at the fields of the message itself (partial).
* **C91** The Recap document printed for a database schema can be read back — the round trip of C14 with its hypotheses proved of every type the converters build (partial).
* **C92** A file request reads the file its URL names, with the converter for its extension — URL model plus a relation between names and kinds (partial).
* **C93** Every subject a Confluent registry lists can be read — registry as a map from subjects (partial).
* **C94** The gateway answers in the format that the media type asks for — case analysis over all headers (partial).
* **C95** An Avro schema is read as the type it describes — soundness and completeness of the reader for a relation after the Avro specification (`SpecAvroSchema.v`), by induction on the size of the document (partial).
* **C96** A Recap type is written as the Avro schema that describes it — soundness and completeness of the writer, by induction on the type (partial).
* **C97** Reading an Avro schema registers each of its full names once — induction on the size of the document.
* **C98** A listed name can be appended to the URL and opened — refinement of the SQL queries and path handling by a tree of names (`SpecBrowse.v`) (partial).
* **C99** A request connects to the database that its URL names — URL model up to the arguments of the driver (partial).
* **C100** Reading a table that does not exist fails — same model as C98 (partial).
* **C101** A JSON schema is read as the type it describes — mutual relation between schemas and types (`SpecJsonSchema.v`), soundness and completeness (proved).
* **C102** Documents that a JSON schema accepts are values of the type read from it — instance semantics of draft 2020-12 and of Recap types (`SpecInstances.v`) (partial).
* **C103** Values of a Recap type fit the JSON schema written for it — same semantics (partial).
* **C104** Processes that work on different schema names do not affect each other — small-step model of several processes, simulation.
* **C105** Versions given out by several processes are distinct and ordered — invariant over interleavings (partial).
* **C106** get returns only types that were put under that name and version — invariant over interleavings.
* **C107** A type whose put has returned can be read from then on — invariant over interleavings (partial).
* **C108** Every row of a MySQL table is a value of the type read from it — exact characterisation of the values that survive (partial).
* **C109** The same for PostgreSQL, with arrays of any depth (partial).
* **C110** The same for Snowflake (partial).
* **C111** The same for SQLite, for every type text (partial).
* **C112** The same for BigQuery, with nested and repeated fields; induction on schemas (partial).
* **C113** The same for Hive, with flattened unions; induction on types (partial).
* **C114** Query parameters of a request reach the database driver — decoding inverts encoding, merged dictionaries stay well formed (partial).
* **C115** BigQuery, Hive and Confluent URLs are taken apart by position — URLs built from their components (partial).
* **C116** Every datum of an Avro schema is a value of the type read from it — mutual induction on data against the visited parts of the document (partial).
* **C117** Every value of the type read from an Avro schema is a datum of it — induction on values (partial).
* **C118** Every value of a Recap type is a datum of the Avro schema written for it — induction on types (partial).
* **C119** Every message of a proto file is a value of the type read from it — mutual induction on messages; resolving references keeps the values (partial).
* **C120** Every value of the type read from a proto file is a message of it — induction on values (partial).
* **C121** Every value of a struct is a message of the proto file written for it — induction on values; where the messages of the file lie (partial).
* **C122** A struct can be read back from the proto file written for it — composition of C83, C119 and C121; names in a registry have no leading dot (partial).
* **C123** The schema of every table can be printed in every format — induction on columns and types; each definition of an array refers to itself; Hive tables by the shape of the schema of each type (partial).
* **C124** A schema that is read in one format can be printed in the others — induction on the relations between schemas and types of C95 and C101, composition with C116 and C118 (partial).
* **C125** Rows of a table are accepted by the JSON schema printed for the table — the schema written for each column takes exactly the JSON type of its values; composition with C108-C110 and C123; a definition that refers to itself accepts nothing, by induction on validity (partial).
* **C126** A JSON schema that is read and printed again accepts the same documents — induction over the schema along the reader and the writer; a definition that only refers to itself accepts nothing, by induction over acceptance (partial).
* **C127** Snowflake and BigQuery URLs lead to what they name — the queries of C98 against the information schema of the current database of a session (`Warehouse.v`) (partial).
* **C128** The Recap document printed for a Hive table keeps its columns and their statistics — the invariant of the fields of C91, kept by the loading of statistics, and the one case in which the "optional" shorthand is begun and abandoned (`StatsPrinted.v`) (partial; the names are lost, exactly for the columns with statistics that are not void).
* **C129** The command line prints what the gateway answers — the matching loop with and without strictness, by induction on the configured URLs; every converter returns an object (case analysis on types); clients are parameters, except in C129_servers, which puts in the servers of C98.
* **C130** The JSON schema printed for a BigQuery or Hive table accepts the objects of its rows — partial: types without aliases and references whose unions are optional or have scalar members are printed as schemas that accept exactly their values (induction on types, NestedJson.v), instantiated by induction on BigQuery fields and Hive types; the rows that these databases store, without their NULLs, are accepted (NestedRows.v); refuted for NULL that is written as null and for values with two types of a Hive union.
* **C131** Rows of a table are data of the Avro schema printed for the table — partial: a property of all nodes of the types read from Hive (`HiveAvro.v`) makes them printable and lets C113 and C118 apply, after texts of the types have been given the length that Avro allows, which does not change the schema; refuted for texts of any length, instants, intervals, maps and structs of Hive and for all tables of other databases.

## 4. What is modelled and what is not

### Types (`recap/types.py`)
`from_dict`, `to_dict`, `clean_dict`, `alias_dict`, `RecapTypeRegistry`, `ProxyType.resolve`,
`make_nullable`, `is_nullable` and `__eq__` are transcribed.  `__repr__`/`__str__` are not.

### Storage and server (`recap/storage/registry.py`, `recap/server/registry.py`)
The file system is a finite tree of directories and files; `json.dump` followed by
`json.load` is the identity on documents; there is no limit on file name length.  Except in
C104-C107 one process with one event loop serves requests.  Those are about several processes on
one directory: `Processes.v` cuts each method into its file accesses, which are atomic; the accesses
of the processes interleave in any order, and a process that crashes makes no more.  A text is
written at once from the start of the file; what an earlier, longer text leaves behind it makes the
file unreadable (a complete JSON document followed by more characters is an error).  The lengths of
texts are a parameter of every theorem.  `get_storage`, fsspec back ends other than the local one, and
FastAPI's routing and validation are not modelled.

### URLs, settings and clients (`recap/settings.py`, `recap/clients/__init__.py`, `recap/commands.py`)
`Url.v` models the parts of `urllib.parse` and `pathlib.PurePosixPath` that the code calls:
`urlsplit`, `urlunsplit`, `urlparse`, the `netloc` properties, `parse_qs`, `urlencode`,
`as_posix`.  These functions belong to Python's standard library, not to `/repo`; the model was
compared with CPython 3.11 on 1000 random URLs and 600 random queries and paths (a test, not a
proof).  The check of bracketed hosts (`ipaddress`) is a parameter `ip_ok` of every theorem.  A
network location with non-ASCII bytes raises `Unmodelled` (NFKC check).  Percent-decoding is
byte-wise.  The `DEFAULT_CONFIGURATION` keys of mysql.connector are a parameter.
pydantic's `AnyUrl` is not modelled: configured URLs are arbitrary strings unless a hypothesis
says otherwise.

`Commands.v` has the output formats of `commands.schema`, the media types of the gateway, and the choice
of a converter by `FilesystemClient.schema` and `ConfluentRegistryClient.schema`.  `Cli.v` has `cli.py` and `gateway.py` over arbitrary clients.  Talking to the registry server, the generator of proto text and rich's layout are not modelled; the
subjects of a registry are a map.  `Path.suffix` was compared with CPython 3.11 on 300000 random paths.
C124 composes the readers with `schema_output`; the registry of the reader is not passed on, so references to
what a schema itself defines are left out of its positive statements.  SpecDeepAvro.v has the nested types of `C124_avro_deep_partial`, SpecFlatProto.v the messages without references of `C124_proto_json_partial`.
C125 leaves the encoding of bytes and decimals as texts and the unit of a count of time in JSON open.
C126 uses the validation of C102/C103 (SpecInstances.v), with schemas that have no other keywords than those told apart there and annotations.

`Browse.v` has the `ls` and `schema` methods of the PostgreSQL, MySQL, SQLite and file clients over a
database server, a directory of SQLite files and a file system.  Its queries are read as filters and
sorts of the rows of the information schema; comparison in SQL is exact (no collation), the user may see
everything, and each column has one row in the joins of `PostgresqlClient.schema`.  The names that
`PRAGMA table_info` takes without quotes were compared with SQLite 3.46: the list of keywords is complete
for it.  Errors of the drivers are one exception.  `Warehouse.v` has those of the Snowflake and BigQuery
clients; that the information schema of Snowflake belongs to the current database of the session follows its
documentation.  The project of a BigQuery client is not modelled, and the Hive client up to its arguments
and its conversion only.

### Database converters (`recap/converters/{dbapi,mysql,postgresql,snowflake,sqlite,bigquery}.py`)
`_parse_type` of the four SQL converters, `DbapiConverter.to_recap`, `_parse_parameters`,
`_get_time_unit`, `get_affinity`, `SQLiteClient.add_information_schema` and
`BigQueryConverter.to_recap` are transcribed.  A column is an arbitrary dict.  Letter case, white
space, digits and word characters are ASCII.  `ceil(n / 8)` is exact (Python divides floats, which
agrees below 2^53).  A negative number of array dimensions is reported as `OutOfFuel` (Python exceeds
its recursion limit).  The database drivers are not modelled (the queries are in `Browse.v`); that
a history of PostgreSQL reads shares one registry follows from the default argument of
`PostgresqlClient.__init__`, which is evaluated once.

C108-C113 rest on a semantics of values in `SpecRows.v` and `SpecNested.v`: the values of Recap types
(`holds`), the values of each column type, and what the information schema, `PRAGMA table_info`, the
BigQuery API and the metastore report for a column of that type.  These follow the documentation of the
databases and are trusted.  Texts are UTF-8 and the lengths of Recap strings count bytes
(the attribute is called `bytes`); a limit of None is no limit.  Floating point numbers are the finite ones.  Zero dates,
the infinities of PostgreSQL and NULL in primary keys of SQLite (C66) are left out, and intervals
have no values.  A reference holds the values of the type registered under its alias.

### Hive (`recap/converters/hive_metastore.py`, `recap/clients/hive_metastore.py`)
The converter is transcribed whole, with `_load_stats` and the parts of `schema` that use them.  A Hive
type is a term of an inductive type with the constructors of `pymetastore.htypes`; the package itself is
external.  A class of statistics is one constructor with the attributes that `_load_stats` reads, so
subclasses of two statistics classes at once are excluded.  Extra attributes handed to constructors are
never named like a constructor argument, which holds for the attributes the converter itself creates.
Partition columns are not read by the code, and no property mentions them.

### Avro (`recap/converters/avro.py`)
The converter is transcribed whole.  `json.loads` is external: a schema is a JSON value.  A name that is
a list or a dict and a namespace that is a number, a list or a dict would be printed into the alias; these
give the exception `Unmodelled`.  `str` of an integer with more than 4300 digits raises ValueError, the
default limit of CPython.  `resolve` of a proxy is modelled by its first call.  The properties about Avro
itself are stated with a grammar of schemas in `SpecAvro.v` that follows the Avro 1.11 specification; the
grammar has no `fixed` type, because reading one is not faithful (C36).  C116-C118 use a semantics of data
in `SpecAvroData.v`, which follows the same specification: a document, the namespace around it, the
definitions in it, and the data of each schema; a logical type with missing or wrong attributes is
ignored.  Lengths of strings and bytes are at most 2^63 - 1, and `duration` has no data.

### JSON Schema (`recap/converters/json_schema.py`)
The converter is transcribed whole, with `urn_to_alias`.  `json.loads` is external: a schema is a JSON
value.  The packages `referencing` and `httpx` are external: the converter's JSON registry is the list of
the ids that were added to it.  A reference to an id that is not in it, which the code fetches over the
network, and a schema with an id in a dialect other than 2020-12 give the exception `Unmodelled`, as does
a non-ASCII path in an id.  The strategy that makes aliases is a parameter where the property does not
depend on it.  C102 and C103 use a semantics of documents in `SpecInstances.v`: the keywords `type`,
`properties`, `required`, `items`, `additionalProperties`, `enum`, `oneOf`, `$ref` and `$dynamicRef` of draft
2020-12, and the values of Recap types; `format` is an annotation, and the encoding of bytes is left open.

### Protobuf (`recap/converters/protobuf.py`)
The converter is transcribed whole.  The package `proto_schema_parser` is external: a proto file is a
list of the elements that the converter looks at (`felement`, `element`), and any other element is
`EOther` or `FOther`; the text that from_recap prints is the list of elements it hands to the generator.
Field numbers of files that are read are not used by the code.  The shared sets `seen` and `resolved` of
`_resolve_proxies` and the repeated extension of shared messages in `_from_recap_construct_elements` are
modelled by their values.  `_resolve_proxies` changes types in place; the model returns new types, so that
effects of one answer on another through shared objects are not covered.  Names of messages are strings
and names of fields any value.  The depth bound of the model is shown to be sufficient (C45).  C119 to
C121 use a semantics of messages in `SpecProtoData.v`: the scopes of a file, the search for a name from the
innermost scope outwards, and the values of every field.  A field that is not set has no value, whatever
its default; Duration and other well-known types have no values; group fields, extensions and imports are
left out.  protoc stops the search for a dotted name at the first scope that has its first part; for the
files that it accepts the search is the same.
