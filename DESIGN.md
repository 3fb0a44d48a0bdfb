# Formal model of hunyadi/strong_typing in Rocq (Coq 8.16.1)

## Method

* `/repo` is read as text only.  Each Python function in scope is transcribed,
  branch by branch, to a total Gallina function.  Exceptions are values
  (`res A := Ok a | Err e`, `e : exn`).  Exception *messages* are not modelled,
  exception *classes* are.
* Python `str` is a list of code points (`list N`), `int` is `Z`, `bytes` is a
  list of `N`, `float` is the type `flt` of Json.v (binary64 data, no axioms).
* Every definition carries a comment with the file and lines it models and the
  simplifications made.
* Specifications (typing judgement, ISO text grammar, JSON-Schema semantics,
  reachability, ...) live in separate `Spec*` files that do not use the model's
  helpers.
* Property theorems live in `Prop*.v`: each is closed by a lemma,
  is followed by `Print Assumptions`, and has an `Example` that shows that the
  hypotheses are met by a concrete non-trivial case.
* A property that is false of the code is recorded by a theorem with suffix
  `_refuted` (a witness), next to the strongest true form found (suffix
  `_partial` if it does not cover the property as stated in
  `properties.jsonl`).

## Reference Python

CPython 3.11 (the version on the box).  Library behaviour used by the
(de)serializers (`datetime.isoformat/fromisoformat`, `uuid.UUID`, `ipaddress`,
`base64`) is modelled from the library sources and documented at the
definitions; it is part of the trusted base that the model describes it
faithfully.

## Plan per property

| id | model | proof method |
|----|-------|--------------|
| C01 | types, values, class environments, `object_to_json`, `json_to_object` | induction on the typing derivation / value |
| C02 | same | induction on the document, inner induction on type |
| C03 | serializer construction + generation | induction on the typing derivation |
| C04 | deserializer | induction on the document |
| C05 | `UnionDeserializer` | induction on member list; `_refuted` for ValueError leaks |
| C06 | `TaggedUnionDeserializer`, set order = arbitrary permutation | case analysis, permutation invariance |
| C07 | `ClassDeserializer` | induction |
| C08 | field deserializers | case analysis for every layout |
| C09 | deserializer | induction on fuel with permutation relations on documents and values (SpecPerm.v, PermProofs.v); false of some unions without tags (refuted) |
| C10-C12 | heap + cache state machine of `_get_deserializer` | simulation invariant over all histories; `_refuted` witnesses |
| C13 | alias unfolding budget | well-founded argument |
| C14 | `TypedClassSerializer` | induction over fields |
| C15 | `mapping.py` | case analysis |
| C16, C17 | `TimeDelta*` | decimal arithmetic lemmas, grammar spec |
| C18 | Base64 encoder/strict decoder | induction on 3-byte groups |
| C19, C20 | ISO date/time formatter and parser | digit lemmas |
| C21 | UUID/IPv4/IPv6 text codecs | digit lemmas, zero-run compression invariant |
| C22-C24, C45, C46 | deserializer | per-type lemmas; equality of set items against a day-by-day calendar (PropEqual.v) |
| C25, C26 | `topological_sort` DFS with marks | invariant over the DFS, path construction |
| C27, C28 | `TypeCollector`, `type_topological_sort` | closure invariant |
| C29, C30, C32, C33 | `JsonSchemaGenerator` + separate JSON-Schema semantics | induction |
| C31 | `TypeCatalog` as a state machine | invariant over histories |
| C34, C35, C49 | `docstring.py` | text lemmas |
| C54 | `docstring.py` (`parse_type`), `schema.py` (lookup of descriptions) | induction along the order of method resolution |
| C36-C38 | `classdef.py` | induction / arithmetic |
| C39-C42 | `inspection.py` | induction |
| C43 | `lru_cache` as a memo table | invariant over histories |
| C44 | `name.py` | exact characterisation of types written alike (prefix-free text) |
| C56 | `serialization.py` (`json_to_object`, `json_to_generic`), contexts | induction on the budget of construction and reading; the module is a parameter |
| C51, C55 | `classdef.py` (`schema_to_type`) | induction on the nesting of nodes; invariant on the growing program; C55: relation between schemas and types (SpecTypeShape.v) |
| C57 | `JsonSchemaGenerator` and `schema_to_type` composed | the shape of generated schemas (SchemaForm.v) and of made types (C55) matched by induction on the budget; copies in SpecMirror.v |
| C58 | `JsonSchemaGenerator`, the keywords `title`, `description`, `default`, `examples` | induction on the budget of the generator, with the notes of a type apart from those of a field or definition; composed with C54 for docstrings |
| C59 | `classdef_to_schema` against `json_to_object` | what is read is legible (induction on the budget of the reader); what is legible and exact is accepted (induction on exactness, over the tools of C29); the converse of C33 |
| C60 | `core.py`, `register_schema` | induction on documents for reading, writing and for the verdict of the schema, which is computed for abstract catalogs; invariants of registration for all sequences of registrations |
| C61 | `TypeCatalog`, `register_schema`, `json_schema_type`, `get_schema_identifier`, the generator | invariants of the catalog over sequences of decorations (entries by name and by type agree; names mean their classes); the generator sees the catalog through its lookups only |
| C62 | `json_to_object`, `object_to_json` | the relation `rewritten` between documents (SpecRewrite) is defined on types and documents only; induction on the readers made by the deserializer, with the images of C14 |
| C63 | `JsonSchemaGenerator`, `schema_to_type`, (de)serializer | composition of C29 for validators that check formats of exact texts only, the well-formedness of written documents (C62), and C51 |
| C64 | two versions of a program; deserializer | `evolved` relates the class tables; simulation of `parse` by induction on fuel: equal on types without objects and on documents of kinds the type does not admit, hence equal decisions of unions; fields by induction on the insertion |
| C65 | two versions of a program; generator, deserializer | from the old schema to the old reader (C33), to the new reader (C64), to the new schema (C59); refutations for defaults, unions and the other direction |
| C66 | inspection.py helpers (TypeParts.v) | case analysis on canonical types; item types, literal values and fields related to `has_type` |
| C67 | class hierarchies (Inherit.v) | induction on the order of definition; ordered updates of dictionaries; lookup along the order of resolution; refutations by four small hierarchies |
| C68 | serializers (Ser.v) on values with objects of other classes (SpecStands.v) | induction on the construction of serializers; fuel monotonicity; composition with C01 |
| C69 | making objects (Construct.v), with the `__init__` of data classes | case analysis on the class, lookup in dictionaries; arbitrary `__post_init__`; refutations by two small classes |
| C70 | `schema_to_type`: the schemas of SpecMake.v | mutual induction on the schemas (MakeRead.v: they are read; MakeAll.v: types are made), invariant on the growing program, distinct names by induction on paths (MakeNames.v); composed with C51 |
| C71 | `classdef_to_schema` followed by `schema_to_type`: the types of SpecSend.v | induction on the depth of generation (SendProofs.v): the keywords written, and those added to properties and definitions (`dressed`), obey the rules of SpecMake.v; its parts list their properties, have distinct labels and refer to earlier definitions (SendForms.v); well-formed documents (SchemaWf.v); composed with C70, C57, C63 |
| C72 | `TypeFormatter`, `python_type_to_str`: read with the grammar of Python expressions in SpecNotation.v | induction on the type over `show` of NamesProofs.v (NotationProofs.v) |
| C73 | `get_module_classes`, `get_module_functions`, `create_module`, `get_exceptions` | permutations and sorted lists (PropModules.v) |
| C74 | `get_resolved_hints` (PyTypes.v) against `mentions_undefined` of SpecHints.v | induction on the number of expansions and on types; strong induction on the number of steps to an undefined name (HintProofs.v) |
| C75 | `evaluate_type` on identifiers, with the scopes that `eval` searches (Scopes.v) | induction on the evaluations; distinct names bound their number (ScopesProofs.v) |
| C52 | Python's `json` text writer and reader | induction on documents and on texts; grammar in SpecText.v |
| C53 | `JsonSchemaGenerator` | rules of the meta-schema (SpecMeta.v); induction on the budget, invariant over definitions |
| C50 | `JsonSchemaGenerator` | inductive derivations (SpecDraw.v); soundness by induction on the budget, completeness by induction on derivations |

## Trusted base

* The kernel of Coq 8.16.1 (and `coqchk`, which re-checks the compiled files).
* `Print Assumptions` follows every property theorem; each prints "Closed under
  the global context".  No axiom is declared here, and no theorem depends on an
  axiom of the standard library.  (`coqchk` lists seven declarations of
  `Coq.ssr.ssrunder.Under_rel`, a sealed module of the standard library that
  gets loaded with it; nothing uses them.)
* That the model describes the code.  What is modelled, and what is not, follows.

### Modelled

| code | model |
|------|-------|
| topological.py `topological_sort` | Topological.v |
| auxiliary/serializer/deserializer: timedelta, Base64, ISO dates and times, UUID, IPv4, IPv6 as text | TimeDelta.v, Base64.v, IsoTime.v, Addresses.v, with PyStr.v and Digits.v for the string functions used |
| types, classes and values of a program; resolution of forward references; `Union[...]`, `Optional`, `Literal`, `Annotated` and the helpers of inspection.py on them | PyTypes.v, TypeAlgebra.v, TypeParts.v |
| fields and annotations of classes that inherit: inspection.py `get_resolved_hints`, `get_class_properties`, deserializer.py 718-755 and 770-792, with CPython's `dataclasses._process_class` and `typing.get_type_hints` | Inherit.v (orders of resolution are data, subject to `hierarchy_ok`) |
| making objects: deserializer.py `create` (686-694, 711-712, 758-769), inspection.py `create_object`, with CPython's `dataclasses.__init__` and `__post_init__`, `InitVar`, `init=False` | Construct.v (no user-written `__init__` or `__setattr__`, no properties, no `__slots__`) |
| mapping.py | Mapping.v |
| deserializer.py: all deserializers, `create_deserializer`, `_get_deserializer`, `json_to_object` (serialization.py) | Deser.v; with the cache and the sharing of deserializer objects, DeserCache.v |
| serializer.py: all serializers, `create_serializer`, `object_to_json` | Ser.v; with `lru_cache`, SerCache.v |
| classdef.py: `integer_range_to_type`, `enum_safe_name`, `enum_values_to_type`; inspection.py: `enum_value_types`, `extend_enum` | ClassDef.v |
| schema.py: `TypeCatalog` | Catalog.v |
| core.py; schema.py: `register_schema`, `json_schema_type`, the registrations made on import | JsonTypes.v |
| schema.py: `JsonSchemaGenerator`, `classdef_to_schema`; auxiliary.py: `get_auxiliary_format` | Schema.v (the meaning of the schemas: SpecSchema.v) |
| serialization.py: `json_dump_string`, `json_dump`; Python's `json.dumps`, `json.dump`, `json.loads` | Text.v (`float.__repr__` and `float` of text are parameters; recursion depth of Python not limited) |
| classdef.py: `schema_to_type`, `node_to_typedef` | TypeDef.v (decimal numbers from bounds, clashes of names within the module, docstrings: not modelled, `EUnmodelled`) |
| classdef.py: schema node classes (26-129), `flatten_schema`, `SchemaFlattener` | Flatten.v (recursion depth of Python not limited) |
| name.py: `TypeFormatter`, `python_type_to_str`, `python_type_to_name`; auxiliary.py 28-40 and `repr` of str, bytes, int, bool, enumeration members | Names.v (no Ellipsis, Any, Self, type variables, ParamSpec, Callable; which characters beyond ASCII are printable, `repr` of floats and of unknown metadata, `str.isidentifier` are parameters) |
| inspection.py: `TypeCollector`, `get_referenced_types`; topological.py: `type_topological_sort` | Collector.v |
| docstring.py: rendering, `parse_text` (with `inspect.cleandoc`), `check_dataclass_docstring`, `check_function_docstring` | Docstring.v |
| docstring.py: `parse_type`, `get_docstring`, `has_default_docstring`, `check_docstring`; schema.py: `get_class_docstrings`, `get_class_property_docstrings` | DocType.v (`inspect.getmro`, the exceptions of a module and the properties of a class are data) |
| serialization.py: `json_to_object`, `json_to_generic` with contexts; `create_serializer` with a context | Context.v |
| inspection.py: `is_generic_instance`, `RecursiveChecker`, `check_recursive` | Inspect.v |
| inspection.py: `get_module_classes`, `get_module_functions`, `create_module`; docstring.py: `get_exceptions` | Modules.v (namespaces are data; no `__dir__` in modules) |
| inspection.py: `evaluate_type`, `evaluate_member_type` on identifiers | Scopes.v (elsewhere the outcome is data: `lookup`) |

### Not modelled

* exception message texts, logging; in
  serialization.py the frames of callers (the module of the caller is given); encodings of files.
* schema.py: the check of the outcome against the meta-schema (C53 says when it
  passes), `validate_object`,
  `print_schema`, exceptions of `eval` other than NameError, docstrings that
  fail to parse; literals of bytes and enumeration members in schemas.
* inspection.py: `create_data_type`, `get_signature`, and `evaluate_type` beyond
  names.  In all files but Scopes.v, no annotation is the text `typ` or `module`
  (C75 says what happens to these).

### Simplifications, beyond those stated at the definitions

* In the class tables of all files but Inherit.v, classes do not inherit from each
  other: the fields of base classes are written out (C67 says when this makes no
  difference), and an instance of a subclass does not have the type of its base
  class (what is written for it all the same: C68); no
  class-level attributes or user-defined `__eq__`/`__hash__`.  In all files but
  Construct.v there is no `__post_init__`, `ClassVar`, `InitVar` or `init=False`,
  and no field is called `self` (C69 says what happens otherwise); enumerations have no mix-in type, and the values of their
  members are JSON scalars.  A data class has no field annotated literally
  `None`.
* Formatting an error message does not raise (it does for integers of more than
  4300 digits).
* Python compares `Union` and `Literal` types as sets; here comparison is
  structural.  Identity of NaN objects is not tracked.
* Default factories are pure.  Custom `to_json`/`from_json` hooks are functions
  of their argument; hooks of deserializers do not touch the cache, hooks of
  serializers may create serializers.
* (De)serializers of built-in types, which are stateless, are not entered in the
  modelled caches.  A tagged-union deserializer whose construction failed half
  way is outside the model (`EUnmodelled`).
* `str(key)` of a dictionary key is modelled for strings only.
* Recursion has no depth limit, except where the budget of a definition says so
  and a theorem shows that it suffices.
