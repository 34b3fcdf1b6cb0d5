# Formal model of pyswagger in Rocq (Coq 8.16.1)

## Method

* Each modelled Python function is a small executable Gallina function in a
  `M_*.v` file, with a comment citing the file and lines in /repo and naming
  every simplification. No proofs live in `M_*.v`.
* `S_*.v` holds the independent specifications (declarative definitions that
  use no helper of the model beyond its data types).
* `P_*.v` holds lemmas and proofs.
* `T_*.v` holds only the property theorems (`Proof. exact ... Qed.`), each
  followed by `Print Assumptions` and by an `Example` that a concrete,
  non-trivial case meets the hypotheses. Outputs that the unit tests of /repo
  expect are re-computed there with `vm_compute` as fidelity checks.
* Exceptions are values: `res A := Ok a | Err exn`. Loops without a syntactic
  measure take fuel and return `Err OutOfFuel`; for each a theorem excludes it.
* A property that the code violates is stated as `..._refuted : exists ...`
  next to the strongest positive statement that does hold.

## Shared simplifications

* `str` is a list of code points in the Latin-1 range (`list ascii`).
  `lower()` is modelled on Latin-1. Characters above U+00FF are not modelled.
* `dict` is an insertion-ordered association list without duplicate keys.
* `int` is `Z`. `float` is a rational (`Q`): finite, comparisons are exact;
  rounding, inf and nan are not modelled.
* Text of exception messages and logging are omitted; the class is kept.
* External libraries (json, yaml, requests/tornado/flask/webtest, time) are
  explicit parameters (oracles) quantified over in the theorems, or out of scope.
* Python 3 behaviour is modelled (`six` picks the Python 3 branch).

## Trusted base

Coq's kernel (and `coqc` 8.16.1); the reading of Python semantics written in
the `M_*.v` comments; the list of axioms shown by `Print Assumptions` below
every theorem (target: "Closed under the global context" everywhere).

## Plan per property

* **C01 JSON-pointer tokens survive encoding and decoding** — model jp_compose/jp_split on strings; proof by induction on tokens with an escaping homomorphism.
* **C02 JSON pointers of different locations never collide** — corollary of C01 plus an alphabet lemma.
* **C03 Scope names compose and split consistently** — model str.join/split; split-join inverse under a no-occurrence condition; counterexample for overlap.
* **C04 Lookup in App.op / App.m follows the documented precedence** — model __getitem__; declarative lookup relation; prove equivalence.
* **C05 Every named operation is reachable in App.op and duplicates are refused** — model TypeReduce._op as a fold; invariant over the fold.
* **C06 Dereferencing terminates and returns the end of the reference chain** — heap of ref_obj edges; fuel = number of objects+1; prove relation with chains.
* **C07 Cycle search finds exactly the elementary cycles** — model the worklist loop literally; invariant: every simple path is expanded once; measure for termination.
* **C08 Strict preparation rejects exactly the documents with schema reference cycles** — fold of walk over schemas; corollary of C07.
* **C09 Structural diff reports nothing only for equal documents** — model _diff_ on JSON trees; nested induction.
* **C10 ISO-8601 date-times and dates round-trip** — model the two regexes as parsers, int(), isoformat printing; digit arithmetic.
* **C11 ISO-8601 parser only yields calendar-valid values with the offset that was written** — inversion of the parser.
* **C12 Relative references are normalised to clean absolute URLs** — concrete urlparse/urlunparse model; segment fold invariant.
* **C13 A JSON reference splits into document URL and pointer** — same URL model.
* **C14 URL joining uses exactly one slash and url_dirname drops only a file name** — same URL model.
* **C15 Header dictionaries are case-insensitive maps** — state machine over operation histories; invariant.
* **C16 Query credentials replace, never duplicate** — induction over the list.
* **C17 Security injects exactly the credentials the operation requires** — fold model, base64 model.
* **C18 The chosen scheme is one both sides support** — list membership, sorted().
* **C19 Path parameters cannot break out of their URL position** — quote_plus model and str.format on {name} fields; alphabet invariant and decoder.
* **C20 Form data round-trips through urlencoding** — urlencode model and an independent decoder (parse_qsl).
* **C21 Multipart bodies carry exactly the given fields and files** — byte-level model with an independent multipart reader in the spec.
* **C22 A request can be prepared again after reset** — state model of Request; history induction.
* **C23 Calling an operation puts each argument in its declared place** — fold over parameters; spec per container.
* **C24 Responses use the declaration for their status, else default** — state model; history induction.
* **C25 MIME codecs are selected independent of case and parameters** — registry model; history induction.
* **C26 Numeric primitives respect their declared range** — exact arithmetic on Z/Q.
* **C27 String primitives respect enum and length limits** — direct.
* **C28 Array primitives respect item count and uniqueness** — fold models; NoDup/first-occurrence spec.
* **C29 Arrays round-trip through their collection format** — join/split inverse.
* **C30 Object primitives contain what their schema requires** — schema heap, mutual fuelled produce/apply/cleanup; invariants by induction on fuel.
* **C31 allOf composition enforces every member** — same model; counterexample for nested members.
* **C32 Byte primitives are exchanged as reversible base64url** — bit-level base64 with an independent decoder.
* **C33 Model equality is dictionary equality modulo None** — association lists.
* **C34 Loading then dumping preserves the document** — class tables and generic parser/dumper; nested induction; counterexamples for dropped values.
* **C35 Scanning visits every object exactly once, at its own JSON pointer** — stack DFS over object trees; multiset spec via structural recursion; the order: depth first, later siblings before earlier ones.
* **C36 Parsing distinguishes set fields from defaults and parents every child** — parse model with parent pointers by construction path.
* **C37 Merging fills gaps and never overwrites** — field-wise model.
* **C38 Object comparison accepts equal objects and reports a real difference** — tree induction; counterexample for longer lists.
* **C39 Operations inherit exactly the missing document-wide settings** — direct model over records.
* **C40 Reference chains of parameters, responses and path items merge nearest first** — heap with chain relation.
* **C41 Aggregated schemas contain the properties of all allOf ancestors** — schemas in a numbered heap (so references may be circular), fuelled `_compose`, `merge` and `deref` with its shared guard (M_Aggt). Copies are a relation (S_Aggt); invariant: every set composed schema satisfies `composed`; termination by the number of schemas not yet in the guard.
  `c41_alone` and `c41_read` (T_AggtAlone.v): without allOf the composed schema is a copy of the schema, with all its values and the schemas inside, also for the copies inside composed schemas and for schemas that refer to each other in circles.
* **C42 A document is fetched once and pointers select the right part** — cache state machine.
* **C43 Resolving a reference returns the object at that location** — cache state machine; counterexample for the prefix cache hit.
* **C44 Upgrading 1.2 to 2.0 keeps every operation and model** — the handlers on the generic object values (M_Upgrade); S_Upgrade describes each converted object field by field; invariants over the objects visited so far, using the order of the visit (C35); the common prefix separately; counterexamples for what is lost.
* **C45 Validation reports exactly the rule violations** — direct.
* **C46 Rendered random input satisfies the schema** — random choices as an arbitrary stream read by a generator monad (M_Render); `conforms` (S_Render) states satisfaction keyword by keyword without mentioning generator or factory; generator ⇒ conforms by induction on recursion depth, conforms ⇒ accepted by induction on `conforms` using monotonicity of the factory in its depth (P_PrimMono); totality by induction on `ready`.
  In a prepared application every schema has a composed schema (`final`), and the renderer takes that one. `S_Copies.v` says when those are copies of the schemas they stand for (no allOf). `c46_copied` and `c46_prepared` (T_Copies.v) then state that what is rendered satisfies, and is taken by, the schemas themselves.
  `c46_aggregated` (T_Aggregated.v) joins this with C41: the composed schemas are those the model of `Aggregate` makes (M_Aggt), read field by field (`S_Aggregated.v`). It is for documents without allOf and with enums of texts only: of equal numbers such as 1 and 1.0 a merged enum keeps either one, which the copies of C41 leave open.
* **C47 Local files are located by the documented rules** — file system as a predicate.
  T_FileUrl.v has the same claims for file: URLs and for paths with a drive: S_FileUrl.v says by the
  shape of the text which path it stands for (`stands`).
* **C48 YAML integer status codes become strings without losing responses** — fold over responses.
* **C49 Custom headers combine with request headers as documented** — direct on CaseInsensitiveDict model.
* **C50 Content negotiation only uses declared media types** — part of the Request model.
* **C51 Only supported Swagger versions are loaded** — direct.
* **C52 Registered primitive handlers take effect for their type and format only** — registry model; history induction.
* **C53 References are completed with their document's URL** — scan model applied to the generic object tree; induction over the tree.
* **C54 A scan calls every matching handler once per object** — dispatch model over class chains; fold induction.
* **C55 A 1.2 listing loads exactly the resources it names** — the contexts of 1.2 on the generic object values (M_OldParse); `says` (S_OldParse) relates a document to the object it describes; induction on the nesting of contexts in both directions.
* **C56 The clients send exactly the prepared request and fill the response from the answer alone** — the three clients as functions on a world of request, response, opt, headers and sent messages (M_Contrib), the HTTP library and server an arbitrary function of everything sent; `faithful` (S_Contrib) says what must be sent; case analysis on top of C17-C24 and C49, and an invariant (the request's inputs, possibly secured) for histories.
* **C57 A created application offers every operation of its document, complete** — `create_app` (M_Prepare) runs load, prepare_obj and all scanners on one state; an invariant over the Merge scan (`grown`, P_Grown: objects only gain `final` values and the fields of path items that refer elsewhere) composes with C39, C05 and C35 so that the result is stated against the document as it was parsed (S_Prepare).
* **C58 Applications made from 1.2 listings offer the operations of the listing** — the same pipeline behind the upgrade (C44, C55). What relocating and assigning parents do to the converted document is an inductive relation (`moved`, S_Convert); the converted document is shown to have the shape of a parsed 2.0 document (P_Convert2, P_Convert3: fields filled by the converter hold no stray objects), so that the invariants of C57 apply; `offers` (S_Convert) states the result against the converted operation of C44.
* **C59 Calling operations of created applications** — M_Invoke reads the objects of a prepared application the way Operation.__call__, Request, Response and Security do (which attributes, of `final` objects) and hands them to the models of calls (C23), requests (C15 ff.), responses (C24) and clients (C56). S_Invoke says what the document declares: `accepted` parameters, `stands_for`, `answers`, `taken`; the theorems compose C57 with C23, C24 and C56 to speak of the document and the message only.
* **C60 A value becomes what its type and format say** — the factory model (M_Prim), one exact theorem per type and format, by computing the single pass the factory makes for it; S_PrimKinds has what the words mean (cut, empty, network order).
* **C61 Circular schemas of loaded documents** — S_Cycles says what a schema mentions (itself or inside), which place a
  reference text leads to, and when a schema is circular (transitive closure). P_Cycles shows that the graph the
  detector walks (M_Prepare.find_cycles over M_Graph) is that one when the document is self-contained; with the
  exactness of the walk (C08) and what preparing leaves in the application (P_Prepare5) this gives the theorems for 2.0
  documents and 1.2 listings.
* **C62 Fields of the specifications** — the fields of each object of Swagger 2.0 and 1.2 are
  written down from the specifications (S_Swagger20.v, S_Swagger12.v), independently of the
  tables the model has from `spec/v2_0/objects.py`, `parser.py` and their 1.2 counterparts. By
  induction on the document: what is parsed has exactly these fields, and they say what the
  document says. The `externalDocs` of operations are the exception (`_refuted`).
* **C63 Composed schemas of applications** — S_Compose.v says what the parts of a schema of the
  document are and what their composed schema has to have; c63_composed and c63_old_composed prove
  it of the heap of schemas that `create_app` leaves, by C41 for that heap and by showing that the
  heap represents the schemas of the final document (P_Compose.v).  Schemas are told apart by their
  places, so these have to be different: c63_told_apart, from the places after parsing through
  normalising, merging and patching (P_Compose2.v).  References to other documents and path items
  that are references are excluded: what is merged in from elsewhere keeps its place there, so
  that two schemas may have the same one.
* **C64 Tokens** — S_Resolve.v says by rules where one token leads from a value (`step`), when and
  with which exception it leads nowhere (`stuck`), and which texts are integers (`integer_text`);
  `resolve` is proved equivalent to following these rules, by induction on the tokens; `int()` of
  a text (PyInt.v) is proved equivalent to `integer_text`.
* **C65 Acceptance** — S_Create.v says when a document is in order (`acceptable`): what its
  references lead to, where lists and dicts are, which names operations have.  Each step of
  `create_app` is proved to succeed on such documents (P_Create*.v), with a bound on the fuel
  that does not matter beyond it: chains of references visit each object once, composing schemas
  and looking for cycles end.  Circular schemas of the completed document are those of the
  document that was loaded, in both directions, so that `strict` is characterised exactly.
* **C66 Declarations** — M_Declared.v reads the fields of objects of specifications as M_Prim's
  `produce` does (`view`, `declared`).  S_Declared.v says by rules over the fields of the object
  what a value becomes (`becomes`), when a declaration is in order, and when one that is written
  in a document is.  `produce_declared` is proved equivalent to `becomes` by induction over the
  nesting of items (P_Declared*.v); with C59 it follows what calls send and what headers become.
  Body schemas stay a parameter here; see C30 and C31.
* **C67 Bodies and data** — M_Body.v makes the heap of schemas that M_Prim's `produce` works on
  from the Schema Objects of a created application (`schema_view`, `body_heap`).  S_Body.v says by
  rules over the fields of Schema Objects what a value becomes (`takes`).  Soundness is proved by
  induction over the fuel (P_Body2.v), acceptance by induction over the derivation (P_Body3.v),
  for any heap that shows the schemas; that the heap shows them follows from C57 and C63
  (P_Body4.v, P_Body5.v).  For schemas composed by allOf, P_Body6.v carries C31 over: what is
  required is there, and objects are `joined` from the schema and its parts.
* **C68 Texts that are read again** — no new model: M_Declared (C66), M_PrimText (C29) and
  M_Invoke (C59) together.  S_Back.v says which primitives have texts that say what they are
  (`carries`).  P_Back.v proves by induction over `carries` that those texts become the same
  (with C10 for dates and C29 for arrays); P_Back2.v that calls only depend on what their values
  are converted to, and what requests have for a parameter. `c68_message` (T_Back2) says it of the messages: the query, the form that is read from the payload and the headers have that text, under that name and once.
* **C69 JSON bodies that are read again** — M_JBody.v is the JSON encoder and codec, between
  primitives and JSON documents; the texts of documents are parameters, with the hypothesis that
  Python reads again the well-formed documents it writes.  S_JBody.v says which document shows a
  primitive (`shows`) and which primitives can be told from their document (`returns`).  The
  proofs: `dump` and `shows` agree (P_JBody.v); schemas take what they have made (P_JBody2.v, by
  induction over primitives, with C10 for dates); what they make is unique (P_JBody3.v); primitives
  have each key once, so documents are well-formed (P_JBody4.v, P_JBody5.v).  With C67 follows
  the claim for the executable model. `c69_sent` (T_JBody2) is about the messages: using an operation with one body parameter that consumes JSON sends the document of what the schema makes of the value for the body, and the payload is read again by the same schema as the same. `c69_received` says that the data of a response whose body is such a document is the same.
* **C70 Addresses of documents** — `normalize_url` of M_Url.v against S_Address.v, which says by
  the shape of the text, without splitting URLs, what becomes of an address (`taken`).  The proofs
  (P_Address.v) relate each shape to what `urlparse` finds.  `c70_total` and `c70_unique` show that
  the specification says one thing about each text.  os.path.abspath and
  pathlib's as_uri are parameters; `c70_again` assumes that they give URLs with a scheme.
  M_AsUri.v models as_uri (quoting included), and T_AsUri.v joins it with the choice of the getter
  (M_Getter.v): `c70_path_found` and `c70_path_other` say for which paths the file of the path is
  looked for, `c70_existing_path_refuted` shows a file that is not found.
  `c70_path_opened` and `c70_folder_opened` (T_Opened.v) join this with C47, from the given path to the
  file that is opened.

## What is modelled

| code in /repo/pyswagger | model | notes |
|---|---|---|
| utils.py 15-93 (scopes), scanner/type_reducer.py | M_Scope | |
| utils.py 96-106, 265-273, 439-480, scanner/cycle_detector.py | M_Graph | |
| utils.py 112-205, primitives/_time.py | M_Time, M_Prim | `time.localtime` is a parameter (`date_at`, `datetime_at`) |
| utils.py 232-254 | M_JsonPtr | |
| utils.py 256-263, 299-424, 575-596 | M_Url | urllib.parse of CPython 3.11, posixpath |
| utils.py 286-296, 599-637, core.py Security and BaseClient | M_Client, M_Base64 | |
| utils.py 426-437, core.py load/prepare_obj/resolve/normalise | M_App | parsing and fetching are parameters |
| utils.py 482-565 | M_Diff | |
| io.py Request | M_Request, M_Quote | |
| contrib/client/requests.py, tornado.py, flask.py | M_Contrib | the HTTP library and the server are a parameter |
| the objects of a prepared application as calls, requests, responses and Security read them | M_Invoke | values, primitives and codecs are parameters, as in the models it composes |
| core.py 195-231, 312-366 (prepare, create, load of whole applications), scanner/v2_0/assign_parent.py | M_Prepare | composes M_App, M_OldParse, M_UpgradeDoc, M_MergeRef, M_Patch, M_Scope, M_Aggt, M_Graph and M_Validate; the order of the scanners is that of core.py |
| core.py 433-460 (the shortcut `App.s`) | M_App | |
| io.py Response, spec/v2_0/objects.py Operation.__call__ | M_Op | |
| primitives/codec.py | M_Codec | json is a parameter |
| primitives/__init__.py, _int, _float, _str, _bool, _byte, _uuid, _file, _array, _model, comm | M_Prim, M_PrimText, M_ModelEq, M_Registry | text to number, `str()` of arbitrary values, uuid parsing and the e-mail check are parameters |
| utils.py 299-308 (POSIX, Python 3) | M_AsUri | file names are encoded in UTF-8; os.path.abspath is a parameter |
| primitives/comm.py 6-12, codec.py 47-55 | M_JBody | JSON documents instead of their texts; a key of an object is a text |
| primitives/__init__.py 151-243 as they read the Schema Objects of an application | M_Body | composes M_Prim with M_Prepare; schemas are looked at before they are needed |
| primitives/__init__.py 74-150, comm.py as they read the objects of a specification | M_Declared | composes M_Prim with M_SpecVal; body schemas are a parameter |
| primitives/render.py | M_Render | random choices are a parameter |
| getter.py, resolve.py | M_Getter | the file system, HTTP and YAML/JSON readers are parameters |
| scan.py | M_Scan | |
| spec/base.py, spec/v2_0/objects.py, spec/v2_0/parser.py | M_SpecVal, M_Parse, M_SpecTree, M_Merge | |
| scanner/v2_0/merge.py | M_MergeRef | |
| scanner/v2_0/aggt.py | M_Aggt | |
| scanner/v2_0/patch_obj.py | M_Patch | |
| scanner/v2_0/norm_ref.py, validate.py, yaml.py | M_App, M_Validate, M_Yaml | |
| spec/v1_2/objects.py, spec/v1_2/parser.py | M_SpecVal, M_OldParse | nicknames and paths are texts |
| scanner/v1_2/validate.py | M_OldValidate | |
| scanner/v1_2/upgrade.py | M_Upgrade | which types are primitive, and text to number, are parameters |

Not modelled: the webapp2 client (it refuses to start on Python 3), the HTTP
libraries below the clients, logging, exception messages,
`__repr__`, deprecated aliases, Python 2 branches.

Parameters are quantified over in every theorem (Coq section variables); none is
an axiom. Where a theorem needs a fact about one (for example that the e-mail
check takes addresses of the generated shape), the fact is a premise of the theorem.
