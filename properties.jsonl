{"id": "C01", "title": "JSON-pointer tokens survive encoding and decoding", "statement": "Encoding any list of tokens with jp_compose on a non-empty base pointer and decoding it with jp_split gives back exactly the decoded base followed by the original tokens, whatever '/', '~', '~0', '~1' the tokens contain. Without a base it gives back the token list, except for the single list [''] (which encodes to '' and decodes to []).", "quantifier": "all token lists, all strings as tokens, all base pointers", "why_tests_cant": "the escaping interacts with itself ('~1' inside a token, '~01', ...); only a proof over all strings shows no token is mangled", "anchors": ["pyswagger/utils.py:jp_compose", "pyswagger/utils.py:jp_split"]}
{"id": "C02", "title": "JSON pointers of different locations never collide", "statement": "Two different token lists composed on the same base give different pointer strings, and a composed token never contains a bare '/'.", "quantifier": "all pairs of token lists, all bases", "why_tests_cant": "injectivity quantifies over pairs of unbounded strings", "anchors": ["pyswagger/utils.py:jp_compose"]}
{"id": "C03", "title": "Scope names compose and split consistently", "statement": "scope_compose joins scope and name with the separator, ignores an absent part, is associative over non-empty parts, and scope_split recovers the parts whenever no part contains (or overlaps) the separator; an empty scope splits to [None].", "quantifier": "all scopes, names and separators", "why_tests_cant": "separator overlap cases (e.g. a scope ending in '!##') are not enumerable", "anchors": ["pyswagger/utils.py:scope_compose", "pyswagger/utils.py:scope_split"]}
{"id": "C04", "title": "Lookup in App.op / App.m follows the documented precedence", "statement": "Indexing a ScopeDict with a key (or a tuple of names) returns the exact entry if present; otherwise the only entry whose key ends with it; otherwise, among several, the only one whose last scope component equals the last component of the key; otherwise ValueError when several match and KeyError when none does.", "quantifier": "all dictionaries, all keys and tuples, all separators", "why_tests_cant": "depends on every combination of stored keys", "anchors": ["pyswagger/utils.py:ScopeDict.__getitem__"]}
{"id": "C05", "title": "Every named operation is reachable in App.op and duplicates are refused", "statement": "After preparation, App.op holds exactly one entry per operation having an operationId, keyed by first tag + operationId, mapping to that very operation; if two operations would share a key, preparation raises SchemaError.", "quantifier": "all sequences of operations", "why_tests_cant": "must hold for any number and order of operations", "anchors": ["pyswagger/scanner/type_reducer.py:TypeReduce._op", "pyswagger/core.py:App.prepare"]}
{"id": "C06", "title": "Dereferencing terminates and returns the end of the reference chain", "statement": "deref(obj) returns the object at the end of the $ref chain when the chain is finite and raises CycleDetectionError exactly when it runs into a cycle; it never loops for ever.", "quantifier": "all reference graphs, all start objects", "why_tests_cant": "termination and cycles quantify over all graphs", "anchors": ["pyswagger/utils.py:deref", "pyswagger/utils.py:CycleGuard"]}
{"id": "C07", "title": "Cycle search finds exactly the elementary cycles", "statement": "walk(start, edges) always terminates on a finite graph and returns the already known cycles plus exactly the elementary cycles reachable from start, each listed once, rotated to start at its smallest vertex and closed by repeating it.", "quantifier": "all finite directed graphs (with duplicate edges and self loops), all start vertices, all prior results", "why_tests_cant": "soundness and completeness over all graphs", "anchors": ["pyswagger/utils.py:walk"]}
{"id": "C08", "title": "Strict preparation rejects exactly the documents with schema reference cycles", "statement": "After scanning all schemas, the recorded schema cycles are exactly the elementary cycles of the reference graph reachable from any schema in the document; App.prepare(strict=True) raises CycleDetectionError iff there is at least one, strict=False never does.", "quantifier": "all documents (reference graphs)", "why_tests_cant": "quantifies over all reference graphs and scan orders", "anchors": ["pyswagger/scanner/cycle_detector.py:CycleDetector", "pyswagger/core.py:App.prepare", "pyswagger/utils.py:walk"]}
{"id": "C09", "title": "Structural diff reports nothing only for equal documents", "statement": "_diff_(src, dst) returns an empty list only if the two JSON documents are equal; comparing a document whose lists are homogeneous with itself returns an empty list; every reported pointer locates a real difference (include/exclude filters restrict object keys at every level).", "quantifier": "all pairs of JSON documents", "why_tests_cant": "recursion over unbounded documents", "anchors": ["pyswagger/utils.py:_diff_"]}
{"id": "C10", "title": "ISO-8601 date-times and dates round-trip", "statement": "For every valid date, naive date-time, and date-time with a whole-minute UTC offset of magnitude below 24h, parsing its isoformat() text with from_iso8601 (as the date / date-time primitives do) gives the same value back.", "quantifier": "all dates 0001..9999, all times to the microsecond, all offsets", "why_tests_cant": "the value space is far beyond sampling and digits/padding/sign cases interact", "anchors": ["pyswagger/utils.py:from_iso8601", "pyswagger/primitives/_time.py:Datetime", "pyswagger/primitives/_time.py:Date"]}
{"id": "C11", "title": "ISO-8601 parser only yields calendar-valid values with the offset that was written", "statement": "Whatever from_iso8601 accepts, the result has a valid month, day of month, hour, minute, second and microsecond, every field equals the digits in the text, the fraction is scaled to microseconds, and the UTC offset has the written sign and size; everything not starting with a YYYY-MM-DD date is rejected with ValueError.", "quantifier": "all strings", "why_tests_cant": "all strings, including malformed ones", "anchors": ["pyswagger/utils.py:from_iso8601", "pyswagger/utils.py:FixedTZ"]}
{"id": "C12", "title": "Relative references are normalised to clean absolute URLs", "statement": "Resolving a relative $ref against a document URL yields a URL on the same host whose path has no '.', '..' or '...' segments and never climbs above the root; a local '#/...' reference keeps its fragment and gets the document URL; an absolute reference is unchanged; normalising again changes nothing.", "quantifier": "all references and base URLs", "why_tests_cant": "path segment arithmetic over unbounded paths", "anchors": ["pyswagger/utils.py:normalize_jr", "pyswagger/utils.py:derelativise_url"]}
{"id": "C13", "title": "A JSON reference splits into document URL and pointer", "statement": "jr_split of 'url#frag' gives the normalised url without any '#' and '#'+frag ('#' when there is no fragment), and the two parts recombine to the reference.", "quantifier": "all references", "why_tests_cant": "all strings", "anchors": ["pyswagger/utils.py:jr_split", "pyswagger/utils.py:normalize_url"]}
{"id": "C14", "title": "URL joining uses exactly one slash and url_dirname drops only a file name", "statement": "url_join(url, path) keeps scheme/host/query and puts exactly one '/' between the parts; url_dirname removes the last path component iff the path ends in json/yaml.", "quantifier": "all URLs and paths", "why_tests_cant": "boundary cases of slashes over all strings", "anchors": ["pyswagger/utils.py:url_join", "pyswagger/utils.py:url_dirname"]}
{"id": "C15", "title": "Header dictionaries are case-insensitive maps", "statement": "After any sequence of sets, updates and deletes, a CaseInsensitiveDict holds at most one entry per case-insensitive name, a lookup in any spelling returns the last value set, iteration yields the spelling last used, the length is the number of distinct names, and KeyError is raised exactly for absent names.", "quantifier": "all operation histories", "why_tests_cant": "state after arbitrary histories", "anchors": ["pyswagger/utils.py:CaseInsensitiveDict"]}
{"id": "C16", "title": "Query credentials replace, never duplicate", "statement": "nv_tuple_list_replace sets the named pair, keeps every other pair and their order, appends only if the name was absent, and applying it twice equals applying it once.", "quantifier": "all lists of pairs", "why_tests_cant": "all lists", "anchors": ["pyswagger/utils.py:nv_tuple_list_replace"]}
{"id": "C17", "title": "Security injects exactly the credentials the operation requires", "statement": "Applying Security to a request adds, for each security name required by the operation and configured by update_with, the right header or query entry (Basic base64(user:pass) in Authorization, apiKey in its declared name and place, oauth2 access_token), nothing for other names, leaves all other parameters untouched and is idempotent; unknown names or types raise ValueError.", "quantifier": "all security definitions, configured credentials, requirements and requests", "why_tests_cant": "all histories of update_with and any requirement list", "anchors": ["pyswagger/core.py:Security.update_with", "pyswagger/core.py:Security.__call__"]}
{"id": "C18", "title": "The chosen scheme is one both sides support", "statement": "The scheme a client uses is supported by the client and allowed by the operation; a preferred scheme (Request.scheme) is honoured if available and refused otherwise; ValueError when there is no common scheme.", "quantifier": "all scheme sets and preferences", "why_tests_cant": "all combinations", "anchors": ["pyswagger/core.py:BaseClient.prepare_schemes", "pyswagger/io.py:Request.prepare"]}
{"id": "C19", "title": "Path parameters cannot break out of their URL position", "statement": "Each {name} in the operation URL is replaced by the percent-encoded argument, which contains only unreserved characters, '+' and %XX escapes, so it cannot add '/', '?', '#', '&', '{' or whitespace to the URL, and decoding it gives the argument back.", "quantifier": "all argument strings and URL templates", "why_tests_cant": "adversarial strings", "anchors": ["pyswagger/io.py:Request.prepare"]}
{"id": "C20", "title": "Form data round-trips through urlencoding", "statement": "Decoding the application/x-www-form-urlencoded body gives exactly the list of (name, value) pairs, in order.", "quantifier": "all lists of pairs of strings", "why_tests_cant": "all strings", "anchors": ["pyswagger/io.py:Request._prepare_forms"]}
{"id": "C21", "title": "Multipart bodies carry exactly the given fields and files", "statement": "Parsing the multipart/form-data body with its boundary yields exactly the form fields followed by the files, in order, with their contents byte for byte, provided the boundary does not occur in the data.", "quantifier": "all field/file lists, contents and boundaries", "why_tests_cant": "framing must hold for arbitrary contents", "anchors": ["pyswagger/io.py:Request._prepare_files"]}
{"id": "C22", "title": "A request can be prepared again after reset", "statement": "After reset(), prepare() gives the same URL, path, headers, data and scheme as the first time, for any number of reset/prepare/_patch rounds (with security applied each time); with file-like objects as file arguments, which the first prepare() reads to the end, the outcome, URL, path and headers are still the same.", "quantifier": "all histories of reset/prepare/security/patch", "why_tests_cant": "arbitrary histories", "anchors": ["pyswagger/io.py:Request.reset", "pyswagger/io.py:Request.prepare", "pyswagger/core.py:BaseClient.request"]}
{"id": "C23", "title": "Calling an operation puts each argument in its declared place", "statement": "Operation(**args) raises ValueError for a missing required parameter without default or for an unknown argument; otherwise each supplied or defaulted parameter appears in exactly the container given by its 'in' (file/array rules included) and nothing else appears.", "quantifier": "all operations and argument sets", "why_tests_cant": "all parameter lists and argument dictionaries", "anchors": ["pyswagger/spec/v2_0/objects.py:Operation.__call__"]}
{"id": "C24", "title": "Responses use the declaration for their status, else default", "statement": "Response.apply_with interprets headers and body with the response declared for the status code, falling back to 'default', else leaves data as it was (None initially); raw keeps the bytes; headers accumulate in order per case-insensitive name across calls; raw without a status raises.", "quantifier": "all operations, statuses, headers and call histories", "why_tests_cant": "histories of apply_with calls", "anchors": ["pyswagger/io.py:Response.apply_with", "pyswagger/io.py:Response._convert_header"]}
{"id": "C25", "title": "MIME codecs are selected independent of case and parameters", "statement": "After any history of register/unregister, codec(mime) ignores case, surrounding blanks and ';' parameters and returns the codec last registered; marshal/unmarshal raise when there is none.", "quantifier": "all registration histories and MIME strings", "why_tests_cant": "arbitrary histories and strings", "anchors": ["pyswagger/primitives/codec.py:MimeCodec"]}
{"id": "C26", "title": "Numeric primitives respect their declared range", "statement": "A value accepted for an integer/number schema satisfies minimum/maximum (strictly when exclusive), of the schema and of each member of allOf applied to it, and for numbers multipleOf; a violation raises ValidationError.", "quantifier": "all numeric values and bounds", "why_tests_cant": "all numbers", "anchors": ["pyswagger/primitives/comm.py:min_max", "pyswagger/primitives/_int.py", "pyswagger/primitives/_float.py"]}
{"id": "C27", "title": "String primitives respect enum and length limits", "statement": "A value accepted for a string schema is a member of a non-empty enum, not longer than a non-zero maxLength and not shorter than minLength; a violation raises ValidationError; the string itself is unchanged.", "quantifier": "all strings and constraints", "why_tests_cant": "all strings", "anchors": ["pyswagger/primitives/_str.py"]}
{"id": "C28", "title": "Array primitives respect item count and uniqueness", "statement": "An accepted array has the converted items in order, at least minItems and at most a non-zero maxItems of them, and under uniqueItems contains each distinct input once, keeping the first occurrence; strings are split according to collectionFormat; unknown formats raise SchemaError.", "quantifier": "all arrays and constraints", "why_tests_cant": "all lists", "anchors": ["pyswagger/primitives/_array.py:Array.apply_with"]}
{"id": "C29", "title": "Arrays round-trip through their collection format", "statement": "Splitting the text an array sends (csv, ssv, tsv, pipes) gives back its elements if no element contains the separator and the first is non-empty; 'multi' sends one value per element.", "quantifier": "all arrays of strings", "why_tests_cant": "all lists of strings", "anchors": ["pyswagger/primitives/_array.py:Array.__str__", "pyswagger/primitives/_array.py:Array.to_url"]}
{"id": "C30", "title": "Object primitives contain what their schema requires", "statement": "An accepted object holds every required property, every supplied declared property converted by its own schema, declared defaults for missing ones, the discriminator, and undeclared keys only as additionalProperties allows; read-only properties in a write context and missing required keys raise.", "quantifier": "all schemas and values", "why_tests_cant": "recursion over unbounded schemas and data", "anchors": ["pyswagger/primitives/_model.py:Model.apply_with", "pyswagger/primitives/_model.py:Model.cleanup", "pyswagger/primitives/__init__.py:Primitive.produce"]}
{"id": "C31", "title": "allOf composition enforces every member", "statement": "Producing a value for a schema with allOf enforces the required properties of the schema and of each allOf member (after dereferencing).", "quantifier": "all schemas with allOf, all values", "why_tests_cant": "arbitrary composition graphs", "anchors": ["pyswagger/primitives/__init__.py:Primitive.produce"]}
{"id": "C32", "title": "Byte primitives are exchanged as reversible base64url", "statement": "The JSON form of a byte primitive is URL-safe base64 which decodes to the original bytes and only uses the URL-safe alphabet.", "quantifier": "all byte strings", "why_tests_cant": "all byte strings and paddings", "anchors": ["pyswagger/primitives/_byte.py:Byte.to_json"]}
{"id": "C33", "title": "Model equality is dictionary equality modulo None", "statement": "Two Models (or a Model and a dict) are equal iff for every key their values agree, treating an absent key as None; it is reflexive and symmetric, and != is its negation.", "quantifier": "all models", "why_tests_cant": "all dictionaries", "anchors": ["pyswagger/primitives/_model.py:Model.__eq__"]}
{"id": "C34", "title": "Loading then dumping preserves the document", "statement": "Dumping a freshly parsed 2.0 document gives the document restricted to known fields, without fields equal to their default and without empty containers; nothing is invented or altered.", "quantifier": "all JSON documents of the expected shape", "why_tests_cant": "recursion over unbounded documents", "anchors": ["pyswagger/spec/base.py:Context.parse", "pyswagger/spec/base.py:BaseObj.dump"]}
{"id": "C35", "title": "Scanning visits every object exactly once, at its own JSON pointer", "statement": "Traversing a document yields each sub-object exactly once together with a JSON pointer which, when resolved from the root, leads to that very object.", "quantifier": "all object trees, all key strings", "why_tests_cant": "unbounded trees and arbitrary keys", "anchors": ["pyswagger/scan.py:default_tree_traversal", "pyswagger/spec/base.py:BaseObj._children_", "pyswagger/spec/base.py:BaseObj.resolve"]}
{"id": "C36", "title": "Parsing distinguishes set fields from defaults and parents every child", "statement": "After parsing, each known field holds the document's value or its default, is_set reports the keys of the document (plus container children), every child object's parent is the object that contains it, and malformed children raise.", "quantifier": "all JSON documents", "why_tests_cant": "unbounded documents", "anchors": ["pyswagger/spec/base.py:BaseObj.__init__", "pyswagger/spec/base.py:BaseObj._assign_parent", "pyswagger/spec/base.py:BaseObj.is_set"]}
{"id": "C37", "title": "Merging fills gaps and never overwrites", "statement": "a.merge(b) keeps every non-default scalar and child of a, takes b's value where a has the default, unions dictionaries with a's entries winning, unions lists, skips excluded fields, and never changes b.", "quantifier": "all pairs of objects", "why_tests_cant": "all field combinations", "anchors": ["pyswagger/spec/base.py:BaseObj.merge"]}
{"id": "C38", "title": "Object comparison accepts equal objects and reports a real difference", "statement": "compare(a, a) succeeds; when compare reports a difference the named location differs.", "quantifier": "all objects", "why_tests_cant": "unbounded trees", "anchors": ["pyswagger/spec/base.py:BaseObj.compare"]}
{"id": "C39", "title": "Operations inherit exactly the missing document-wide settings", "statement": "After patching, an operation's consumes/produces/schemes/security are its own if given and the document's otherwise; its parameters are its own plus those of its path item with other names; its URL is //host + basePath + path and its method the verb it is declared under.", "quantifier": "all documents", "why_tests_cant": "all combinations of present/absent settings", "anchors": ["pyswagger/scanner/v2_0/patch_obj.py:PatchObject"]}
{"id": "C40", "title": "Reference chains of parameters, responses and path items merge nearest first", "statement": "The effective object for a $ref chain takes each field from the first object along the chain that sets it, terminates on cyclic chains, and rejects references to another kind of object with TypeError.", "quantifier": "all reference graphs", "why_tests_cant": "all chains, including cyclic ones", "anchors": ["pyswagger/scanner/v2_0/merge.py:_merge"]}
{"id": "C41", "title": "Aggregated schemas contain the properties of all allOf ancestors", "statement": "After aggregation the final schema of an acyclic composition holds every property of the schema and of all its (transitive, dereferenced) allOf members, own properties winning; it terminates on cyclic compositions.", "quantifier": "all composition graphs", "why_tests_cant": "arbitrary graphs", "anchors": ["pyswagger/scanner/v2_0/aggt.py:_compose"]}
{"id": "C42", "title": "A document is fetched once and pointers select the right part", "statement": "Resolver.resolve fetches each URL at most once while its content is non-empty, later resolutions return parts of the cached document, and the JSON pointer selects exactly the addressed part or raises.", "quantifier": "all resolve histories and documents", "why_tests_cant": "arbitrary histories", "anchors": ["pyswagger/resolve.py:Resolver.resolve"]}
{"id": "C43", "title": "Resolving a reference returns the object at that location", "statement": "App.resolve(ref) returns the object stored at the reference's location; equal references give the same object; empty references raise ValueError.", "quantifier": "all histories of resolve calls", "why_tests_cant": "cache state depends on history", "anchors": ["pyswagger/core.py:App.resolve", "pyswagger/core.py:App.prepare_obj"]}
{"id": "C44", "title": "Upgrading 1.2 to 2.0 keeps every operation and model", "statement": "Each 1.2 operation appears in the upgraded document at basePath+path under its method with its nickname, resource tag, parameters, consumes/produces and security; each model appears in definitions under resource and id, sub-types refer to their parent.", "quantifier": "all 1.2 documents", "why_tests_cant": "any number of resources, operations and models in any order", "anchors": ["pyswagger/scanner/v1_2/upgrade.py:Upgrade"]}
{"id": "C45", "title": "Validation reports exactly the rule violations", "statement": "App.validate returns one entry per violated rule with its location and raises ValidationError in strict mode iff there is one.", "quantifier": "all documents", "why_tests_cant": "all documents", "anchors": ["pyswagger/scanner/v2_0/validate.py:Validate", "pyswagger/scanner/v1_2/validate.py:Validate", "pyswagger/core.py:App.validate"]}
{"id": "C46", "title": "Rendered random input satisfies the schema", "statement": "Every value the Renderer can generate for a schema, whatever the random choices, satisfies every keyword of the schema (bounds, multiples, lengths, enum, item counts, required properties) and is accepted by the primitive factory, for every schema whose keywords the generator honours: enum values that count as true, no bound of 0, bounds that rounding to multipleOf cannot cross, no uniqueItems, no made-up name equal to a skipped property. For each excluded case there is a schema for which the claim fails. Rendering returns a value for every schema without empty ranges and with finite nesting; render_all supplies every required parameter and never an excluded one.", "quantifier": "all schemas meeting the listed conditions, all options, all sequences of random choices, all behaviours of the unmodelled conversions", "why_tests_cant": "all random outcomes", "anchors": ["pyswagger/primitives/render.py:Renderer"]}
{"id": "C47", "title": "Local files are located by the documented rules", "statement": "LocalGetter opens the given file, or a well-known file name inside the given folder, or the path with a known extension, in the documented order, and raises ValueError if none exists; text starting with '{' is parsed as JSON, anything else as YAML. A file: URL stands for its path, whatever its host, query and fragment; a path that is a slash and a drive is looked for without the slash.", "quantifier": "all paths and file systems", "why_tests_cant": "all file-system states", "anchors": ["pyswagger/getter.py:LocalGetter", "pyswagger/getter.py:Getter.__next__", "pyswagger/utils.py:patch_path"]}
{"id": "C48", "title": "YAML integer status codes become strings without losing responses", "statement": "After the YAML fix every response is keyed by a string, integer codes by their decimal text, each response object unchanged.", "quantifier": "all response tables", "why_tests_cant": "all tables", "anchors": ["pyswagger/scanner/v2_0/yaml.py:YamlFixer"]}
{"id": "C49", "title": "Custom headers combine with request headers as documented", "statement": "compose_headers returns the request headers plus the custom ones: a request header wins over a custom one in dictionary form without joining; with join_headers values of one name are joined by ',' in order; list form keeps all pairs in order; inputs of other types raise.", "quantifier": "all header collections and options", "why_tests_cant": "all combinations", "anchors": ["pyswagger/core.py:BaseClient.compose_headers"]}
{"id": "C50", "title": "Content negotiation only uses declared media types", "statement": "A prepared request only carries a Content-Type from the operation's consumes (when declared) and an Accept from its produces (when declared); an explicit Accept, or for body requests an explicit Content-Type, outside them raises SchemaError.", "quantifier": "all operations and choices", "why_tests_cant": "all combinations", "anchors": ["pyswagger/io.py:Request._prepare_body", "pyswagger/io.py:Request.prepare"]}
{"id": "C51", "title": "Only supported Swagger versions are loaded", "statement": "Documents are parsed as 1.2 or 2.0 according to swaggerVersion/swagger (the former winning); anything else raises NotImplementedError unless a parser for a fragment is supplied.", "quantifier": "all documents", "why_tests_cant": "all documents", "anchors": ["pyswagger/utils.py:get_swagger_version", "pyswagger/core.py:App.load_obj"]}
{"id": "C52", "title": "Registered primitive handlers take effect for their type and format only", "statement": "After any history of register, get(type, format) returns the handler last registered for that pair, else the type's default handler, else none; other pairs are unaffected.", "quantifier": "all registration histories", "why_tests_cant": "arbitrary histories", "anchors": ["pyswagger/primitives/__init__.py:Primitive.get", "pyswagger/primitives/__init__.py:Primitive.register"]}
{"id": "C53", "title": "References are completed with their document's URL", "statement": "When an object is prepared, every reference of a Schema, Parameter, Response or PathItem inside it is completed against the URL of its document and nothing else in the object changes; preparing fails at this point only on a reference that cannot be completed.", "quantifier": "all object trees and URLs", "why_tests_cant": "arbitrary nesting and references", "anchors": ["pyswagger/scanner/v2_0/norm_ref.py:NormalizeRef", "pyswagger/core.py:App.prepare_obj", "pyswagger/utils.py:normalize_jr"]}
{"id": "C54", "title": "A scan calls every matching handler once per object", "statement": "A scan calls every handler registered for an object's class or one of its base classes exactly once per visited object, ordered by objects as they are visited, then by scanners as given, then by classes from the object's own upwards; results go to the scanner's result function; the first exception ends the scan; only classes of specification objects can be registered.", "quantifier": "all object trees, routes, handlers and leaves", "why_tests_cant": "arbitrary nesting and registrations", "anchors": ["pyswagger/scan.py:Dispatcher.register", "pyswagger/scan.py:Scanner.scan"]}
{"id": "C55", "title": "A 1.2 listing loads exactly the resources it names", "statement": "Loading a 1.2 resource list gives the fields the document states and, under its name, exactly each resource the listing names, read from the document of that name next to the listing; every operation of a resource is found under its nickname with the path of its API, two operations of a resource may not share a nickname, children have the object holding them as parent, and a listing loads exactly if its documents have this form.", "quantifier": "all listings, resource documents and root URLs", "why_tests_cant": "arbitrary documents, names, nesting and numbers of APIs, operations and models", "anchors": ["pyswagger/spec/v1_2/parser.py:ResourceListContext.parse", "pyswagger/spec/v1_2/objects.py:Resource.__init__", "pyswagger/spec/v1_2/objects.py:DataTypeObj.__init__", "pyswagger/spec/base.py:Context.parse"]}
{"id": "C56", "title": "The clients send exactly the prepared request and fill the response from the answer alone", "statement": "Sending a request with the requests, tornado or flask client sends at most one message: the method in capitals, the URL of the operation with the encoded path arguments and the chosen scheme, with the host and scheme the options ask for, the query and the headers with the credentials the operation requires and the caller's headers, and the prepared body and files. Nothing is sent exactly if preparing fails, and then the call raises. Afterwards the response holds the answer's status, headers, body and decoded data and nothing of an earlier answer; without an answer it is empty. Sending again after any earlier calls sends the same.", "quantifier": "all requests, operations, options, headers, credentials, servers, earlier states of the objects and histories of calls", "why_tests_cant": "tests need servers and only see single calls; every history of calls on the same objects and every server behaviour must be covered", "anchors": ["pyswagger/contrib/client/requests.py:Client.request", "pyswagger/contrib/client/tornado.py:TornadoClient.request", "pyswagger/contrib/client/flask.py:FlaskTestClient.request", "pyswagger/core.py:BaseClient.request", "pyswagger/io.py:Request._patch"]}
{"id": "C57", "title": "An application created from a 2.0 document serves every operation of the document, completed", "statement": "When App.create (or load and prepare) succeeds for the URL of a Swagger 2.0 document, the application holds that document. Every object of it is found under the same pointer as before. Every operation is found in app.op under its operationId, after its first tag if it has one, and no two operations have the same name and there are no other names. The operation found knows its method, path and URL (host of the document or of its URL, base path, path); consumes, produces, security and schemes are its own or, if it has none, those of the document; its parameters are its own followed by those of its path item that have other names, where names are those that references lead to. Every parameter and response says what the references that start at it lead to: what the objects met on the way set, the first one winning. Schemas of the definitions are found in app.m by their names. Strict creation gives the same application or none: none exactly if rules are violated or schemas form a cycle.", "quantifier": "all 2.0 documents without repeated keys, all webs of documents they refer to (none of version 1.2), all URLs, all operations, parameters and responses in them, strict or not", "why_tests_cant": "tests load a few documents; the statement is about any document, any chain of references in it and the interplay of all passes over it (normalising, resolving, merging, patching, naming), each of which changes what the next one reads", "anchors": ["pyswagger/core.py: App.create, App.load, App.prepare, App._prepare_obj", "pyswagger/scanner/v2_0/merge.py", "pyswagger/scanner/v2_0/patch_obj.py", "pyswagger/scanner/v2_0/resolve.py", "pyswagger/scanner/type_reducer.py", "pyswagger/scan.py"]}
{"id": "C58", "title": "An application created from a 1.2 listing offers the operations, models and authorizations of the listing", "statement": "When App.create succeeds for the URL of a Swagger 1.2 resource listing whose operations all share one scheme and host (or have none), the application offers exactly the operations of the listing: for each path and method the first one of the listing. It is found in app.op under the name of its resource and its nickname, and there are no other names. What is found knows its URL (host of the listing, else of the listing's URL, else localhost), path, method and the schemes http and https; its id, tags, texts, consumes, produces and security are what the conversion (C44) makes of it, and each of its parameters and its response is there, in order, with complete references and what they lead to. The models and named sub-types are exactly the names of app.m, and authorizations are found by name. All objects know their place. Violations of the rules for 1.2 are what the application reports.", "quantifier": "all 1.2 listings without repeated keys and all resources they name, all URLs, all operations, models and authorizations in them, strict or not", "why_tests_cant": "tests convert a few listings; the statement is about any listing and the interplay of loading, upgrading, placing, assigning parents, normalising, resolving, merging, patching and naming, each of which reads what the others changed", "anchors": ["pyswagger/core.py: App.create, App.load, App.prepare, App._prepare_obj", "pyswagger/scanner/v1_2/upgrade.py: Upgrade", "pyswagger/scanner/v2_0/assign_parent.py: AssignParent", "pyswagger/scanner/v2_0/patch_obj.py", "pyswagger/scanner/type_reducer.py"]}
{"id": "C59", "title": "Calling an operation of a created application sends what the document describes, and reads the answer as it describes", "statement": "In an application created from a Swagger 2.0 document, calling an operation accepts exactly the parameters that the document gives it (its own, and those of its path item with other names, references followed), uses their defaults, refuses unknown arguments and succeeds if nothing required is missing and the values can be converted. Handing the result to a client sends at most one message: with the method of the operation, a URL made of a scheme, host and base path of the document and the path with the encoded arguments, the query pairs and headers of the arguments and the credentials configured for the security the document requires, and the body encoded by the schema of the body parameter as the first type consumed, the form or the files. The response object then holds the status, body and headers of the answer, headers and body converted as the response object of the document for that status (else the default one) declares, references followed.", "quantifier": "all 2.0 documents and webs as in C57, all operations of them whose path item has no reference, all arguments, clients, credentials, options and headers, all servers", "why_tests_cant": "tests call a few operations of a few documents with fixed arguments against a fake server; the statement composes loading, preparing, calling, securing, sending and reading for every document, argument and answer", "anchors": ["pyswagger/spec/v2_0/objects.py: Operation.__call__, Parameter._prim_", "pyswagger/io.py: Request, Response", "pyswagger/core.py: App.op, Security", "pyswagger/contrib/client/requests.py", "pyswagger/contrib/client/tornado.py", "pyswagger/contrib/client/flask.py", "pyswagger/scanner/v2_0/merge.py", "pyswagger/scanner/v2_0/patch_obj.py"]}
{"id": "C60", "title": "A value becomes what the type and format of its schema say", "statement": "Converting a value by a schema without allOf gives what its type and format name: integers as they are and floats cut towards zero, floats, booleans by whether the value is empty (and True or False in a URL), dates and date-times from timestamps, dates and ISO-8601 texts, UUIDs from UUIDs, texts and 16 bytes in network order, files from dicts with a file name or data. Values of other kinds are refused, so are unknown types. Dates and date-times survive being sent as text and read back. None stays None unless there is a default.", "quantifier": "all schema graphs, all values, both read and write contexts, any behaviour of int(), float(), uuid.UUID() and timestamps", "why_tests_cant": "the conversions range over all values and schemas; tests try a few per format", "anchors": ["pyswagger/primitives/__init__.py: Primitive.produce, Primitive.get", "pyswagger/primitives/_int.py", "pyswagger/primitives/_float.py", "pyswagger/primitives/_bool.py", "pyswagger/primitives/_time.py", "pyswagger/primitives/_uuid.py", "pyswagger/primitives/_file.py"]}
{"id": "C61", "title": "Circular schemas of a loaded document are found, all of them and only them", "statement": "When an application is created from a self-contained document (2.0, or a 1.2 listing), cycles are reported if and only if some schema of the document refers to itself through properties, items, allOf, additionalProperties and $ref, however indirectly. What is reported are exactly the elementary cycles of references, each starting at its smallest reference and closed by it. With strict, an application that is created has no such schema, and one that would have is refused.", "quantifier": "all documents (as JSON without repeated keys), any nesting and number of schemas, any length of cycle, any URLs; both versions of documents; the recursion limit of resolving", "why_tests_cant": "tests look at a handful of fixed documents; that no cycle of any length or position is missed, and that nothing else is reported, is a statement about all documents", "anchors": ["pyswagger/core.py:App.prepare", "pyswagger/core.py:App.create", "pyswagger/scanner/cycle_detector.py:CycleDetector", "pyswagger/utils.py:walk", "pyswagger/core.py:App.resolve"]}
{"id": "C62", "title": "Every field of the specification is on the parsed objects, and says what the document says", "statement": "Whatever document is parsed as an object of the Swagger 2.0 specification (or as a resource, model, operation, ... of the 1.2 specification), the result has exactly the fields that the specification has for this object; each field says what the document says there: plain values as they are, objects, lists of objects and objects by name as objects of the right kind, recursively; what the document does not give has the default of the specification (or nothing, or an empty container), and null is nothing. One deviation: the externalDocs of a 2.0 operation stay what they are in the document, although the specification has an object there.", "quantifier": "all JSON documents, all object kinds of both specifications, all nesting depths", "why_tests_cant": "A field that is missing in a table is noticed only by a test that uses this very field in this very object; the claim is about all fields of all objects, at all depths, for all documents.", "anchors": ["pyswagger/spec/v2_0/objects.py:*.__swagger_fields__", "pyswagger/spec/v2_0/parser.py:*Context.__swagger_child__", "pyswagger/spec/v1_2/objects.py", "pyswagger/spec/v1_2/parser.py", "pyswagger/spec/base.py:BaseObj.__init__", "pyswagger/spec/base.py:Context"]}
{"id": "C63", "title": "In created applications, composed schemas have the properties and requirements of all their parts", "statement": "When an application has been created from a document whose schemas refer to schemas of the same document, every schema of the document is kept as it is, and the schema that following its references ends at has a composed schema ('final') besides. That one has a property for each name that some part has, and no others: its own properties are like those of the document, others like those of some part; it requires exactly what some part requires, and its own plain values stay. Parts are the schema itself and what its allOf lists (after following references), at any distance.", "quantifier": "all documents of one file, 2.0 or 1.2, whose path items are no references; all schemas; all depths of allOf and lengths of reference chains", "why_tests_cant": "Which schemas are composed, and in which order, depends on the whole document; sharing between schemas at any distance may write the properties of one schema into another, which only shows for particular combinations.", "anchors": ["pyswagger/scanner/v2_0/aggt.py:Aggregate", "pyswagger/utils.py:final", "pyswagger/utils.py:deref", "pyswagger/core.py:App.prepare", "pyswagger/spec/base.py:BaseObj.merge"]}
{"id": "C64", "title": "Pointers lead where their tokens say, and fail at the first token that leads nowhere", "statement": "Resolving a list of tokens from an object follows them one after the other: a token names a field or internal field of an object, the number of an element of a list (any text that is an integer for Python: sign, white space around and single underscores are allowed, negative numbers count from the end), a key of a dict; below plain values it is passed over. If a token leads nowhere, the exception says how: AttributeError, ValueError (no integer), IndexError, KeyError. App.resolve of a pointer into the application's document returns just what its tokens lead to, changes nothing, and fails besides when nothing (None) or a float is there.", "quantifier": "all values, all token lists, all texts as list indices, all applications", "why_tests_cant": "Tokens are arbitrary texts and values arbitrary trees; the claim is an equivalence, so it also says that nothing else is accepted and which exception each failure has.", "anchors": ["pyswagger/spec/base.py:BaseObj.resolve", "pyswagger/core.py:App.resolve"]}
{"id": "C65", "title": "Documents that are in order are accepted", "statement": "If the references of schemas, parameters and responses of a document lead to such objects of the document, lists and dicts are where the specification has them, and no two operations have a name in common, then App.create succeeds on it, for documents of any size; with strict it succeeds just when no required property is read-only and no schema refers to itself, and otherwise raises ValidationError or CycleDetectionError. The same holds for 1.2 listings whose converted document is in order.", "quantifier": "all documents at all URLs, all sizes and depths, however references are chained or circular", "why_tests_cant": "Success and termination for every acceptable document: chains and cycles of references may be arbitrarily long, and any of the steps of creating an application could raise.", "anchors": ["pyswagger/core.py:App.create", "pyswagger/core.py:App.prepare", "pyswagger/scanner/v2_0/merge.py:Merge", "pyswagger/scanner/v2_0/patch_obj.py:PatchObject", "pyswagger/scanner/v2_0/aggt.py:Aggregate", "pyswagger/scanner/type_reducer.py:TypeReduce", "pyswagger/scanner/cycle_detector.py:CycleDetector"]}
{"id": "C66", "title": "Arguments and headers are checked and converted as the document declares", "statement": "What a declaration of a document (a parameter outside the body, a header, items) takes is said by its fields: type and format give the kind of value, minimum, maximum and their exclusive flags, multipleOf, minLength, maxLength, minItems, maxItems, enum, uniqueItems, collectionFormat, items and default the rest. Calling an operation of a created application succeeds only if every given argument is a value that its parameter takes, and then what is sent is built from exactly the values they become; if an argument is none of these the call fails; if all are, and nothing required is missing, it succeeds. Headers of responses become what the response declares. Limits of length 0 do not count, enum is only checked for texts, and patterns are not checked.", "quantifier": "all documents, all declarations with any nesting of arrays, all arguments and headers", "why_tests_cant": "The claim is an equivalence between a value being sent and a specification of the declarations, over all declarations, nestings and values, through merging of references.", "anchors": ["pyswagger/primitives/__init__.py:Primitive.produce", "pyswagger/primitives/comm.py", "pyswagger/primitives/_int.py", "pyswagger/primitives/_float.py", "pyswagger/primitives/_str.py", "pyswagger/primitives/_array.py", "pyswagger/spec/v2_0/objects.py:Operation.__call__", "pyswagger/io.py:Response.apply_with"]}
{"id": "C67", "title": "Bodies and response data are checked and converted as the schemas of the document say", "statement": "What a Schema Object of a created application takes is said by its fields and those of the schemas it refers to, through any recursion: type, format and limits, items and the sizes of arrays, properties, required, additionalProperties, discriminator, default and readOnly. A value becomes something only if the schema takes it, and then it becomes what the schema says: every given property what its schema says, missing ones their default or nothing, further ones what additionalProperties says. Values that the schema takes are accepted, all others refused. Calls send bodies, and responses have data, that are made in this way. Objects made by a schema with allOf have what the schema and its parts require; if the schema itself has a property of the object, each property is as the first of them that declares it says. Not as one may expect: readOnly properties inside of the object that is sent are sent, null is taken for required properties, defaults and readOnly of a schema that is referred to do not count, the empty schema refuses what is no object, and where nothing at all may be in an object nothing is made of any value.", "quantifier": "all documents, all schemas (in both directions those without allOf, in one direction those with it), all values, any recursion of schemas", "why_tests_cant": "The claim is an equivalence between the conversion of a value and a specification over the fields of schemas, for all schemas, also recursive ones, all nestings of values, and through the preparation of the document.", "anchors": ["pyswagger/primitives/__init__.py:Primitive.produce", "pyswagger/primitives/_model.py:Model.apply_with", "pyswagger/primitives/_array.py:Array.apply_with", "pyswagger/primitives/comm.py", "pyswagger/spec/v2_0/objects.py:Schema", "pyswagger/spec/v2_0/objects.py:Operation.__call__", "pyswagger/io.py:Response.apply_with"]}
{"id": "C68", "title": "What arguments and headers are sent as is read again as the same values", "statement": "If a value is converted for a declared parameter, header or item, and is then sent as text, the text is converted by the same declaration to the same value: integers, numbers, bytes and UUIDs if Python reads what it has written, texts and valid dates always, arrays in every collection format if the texts of their elements have no separators, differ where they have to, and the first is not empty. So a server with the same document gets what the client gave, a client gets what a server put into a header, different values are never sent as the same text, and calling an operation with the texts makes the same request as calling it with the values. Requests have that text under the name of the parameter, in its location, and no other. Not as one may expect: booleans (False comes back as true), elements with separators, elements that are unique as values but not when converted, and empty arrays do not come back.", "quantifier": "all documents, operations, declarations, values and nestings of arrays", "why_tests_cant": "It is an equation between conversions and texts for all declarations and values, with arrays nested to any depth, and for all operations of all documents.", "anchors": ["pyswagger/primitives/_array.py:Array.__str__", "pyswagger/primitives/_array.py:Array.to_url", "pyswagger/primitives/_time.py", "pyswagger/primitives/_byte.py", "pyswagger/primitives/_uuid.py", "pyswagger/primitives/__init__.py:Primitive.produce", "pyswagger/spec/v2_0/objects.py:Operation.__call__", "pyswagger/io.py:Response.apply_with"]}
{"id": "C69", "title": "JSON bodies are read again by the same schema as the same values", "statement": "What a schema of a created application makes of a value is determined by the document, up to the order of the entries of objects. The JSON document written for a body shows each part of it, and nothing else, and is refused for files and for what is not of JSON. If a value is converted by a schema, written as JSON and read again, then the same schema takes what has been read, whether or not properties are readOnly, and makes the same of it, with objects nested to any depth and schemas that refer to themselves. This holds if the parts are booleans, numbers, texts, valid dates, UUIDs that Python reads again, and values that are kept as they are, if elements that have to be unique differ in the document, and if discriminators are properties that take the name of the schema. Not as one may expect: bytes come back as the bytes of their base64 text, datetimes given for dates as dates, and converted elements of arrays with unique items may be dropped.", "quantifier": "all documents, schemas of them without allOf, values, nestings and recursion limits that suffice", "why_tests_cant": "It relates conversion, encoding, decoding and conversion again for all schemas and values, at any depth, with circular schemas.", "anchors": ["pyswagger/primitives/comm.py:PrimJSONEncoder", "pyswagger/primitives/codec.py:JsonCodec", "pyswagger/primitives/__init__.py:Primitive.produce", "pyswagger/primitives/_model.py:Model", "pyswagger/primitives/_array.py:Array", "pyswagger/primitives/_byte.py", "pyswagger/primitives/_time.py"]}
{"id": "C70", "title": "The address of a document is taken as a URL or as the path of a local file", "statement": "An address with a scheme is a URL and stays as it is, unless it starts with a Windows drive (one letter, a colon and a backslash): then it becomes the URL of that file. An address without a scheme that names a path, that is, something is left when the query, the fragment and the parameters of the last segment are dropped, becomes the URL of the file of that path below the current directory; an address that starts with two slashes does so only if a third one follows. All other addresses (a host without a scheme, only a query or a fragment), and URLs whose host has only one of the two brackets of IPv6 addresses, are refused with ValueError, except the empty one, which stays empty. An address that has been taken is not changed when it is taken again. When a path is given, the file that is looked for is the one of that absolute path if it has only letters, digits and the characters _ . - ~ /. Not as one may expect: otherwise (for example with a blank in the path) it is another one, because the path is quoted in the URL and not unquoted again, so an existing file is not found.", "quantifier": "all texts", "why_tests_cant": "Addresses are arbitrary texts, and what is a scheme, a host or a path depends on the interplay of seven separators.", "anchors": ["pyswagger/utils.py:normalize_url", "pyswagger/utils.py:path2url", "pyswagger/resolve.py:Resolver.resolve", "pyswagger/getter.py:LocalGetter"]}
