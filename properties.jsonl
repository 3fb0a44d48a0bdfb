{"id": "C01", "title": "Typed round trip", "statement": "If v is a value of type T (as judged by the annotations) and object_to_json(v) returns a JSON document d, then json_to_object(T, d) returns a value equal to v, for every T in which the alternatives of a union are told apart (by JSON kind, by tag, or by a required first property), each field has one JSON name that is the same for reading and writing and differs from the others, None is the default of optional fields, and to_json/from_json hooks are inverse; and for every v without negative durations and sub-second UTC offsets.", "quantifier": "all class environments, all types T of the supported fragment, all values v of T of any size and depth", "why_tests_cant": "The value, type and nesting-depth space is infinite; tests sample a handful of fixtures.", "anchors": ["strong_typing/deserializer.py:create_deserializer", "strong_typing/serializer.py:object_to_json", "strong_typing/serialization.py:object_to_json, json_to_object"]}
{"id": "C02", "title": "Type soundness of deserialization", "statement": "Whenever json_to_object(T, d) returns a value v, v is a value of type T: every list item, dict value, tuple slot, set item, union alternative, enum member, literal and (recursively) every class field has the annotated type.", "quantifier": "all types T, all class environments, all JSON documents d", "why_tests_cant": "The value, type and nesting-depth space is infinite; tests sample a handful of fixtures. Malformed documents in particular are unbounded.", "anchors": ["strong_typing/deserializer.py:Deserializer.parse of every class"]}
{"id": "C03", "title": "Serialization is total on well-typed values", "statement": "For every value v whose classes are annotated and non-recursive through typed containers, object_to_json(v) returns a JSON document; the only exception is a timezone-naive datetime (JsonValueError) or a user hook raising.", "quantifier": "all values of all types of the supported fragment", "why_tests_cant": "The value, type and nesting-depth space is infinite; tests sample a handful of fixtures.", "anchors": ["strong_typing/serializer.py:object_to_json", "strong_typing/serializer.py:_create_serializer"]}
{"id": "C04", "title": "Exception discipline of deserialization", "statement": "For every JSON document d and well-formed type T, json_to_object(T, d) either returns a value or raises JsonKeyError, JsonTypeError, JsonValueError, ValueError or OverflowError; it never raises KeyError, AttributeError, IndexError, TypeError or diverges (in the absence of user hooks, unguarded aliases and unhashable tag values).", "quantifier": "all types, all JSON documents", "why_tests_cant": "Robustness against arbitrary input documents is a universal claim; fuzzing only samples.", "anchors": ["strong_typing/deserializer.py"]}
{"id": "C05", "title": "Untagged union picks the first matching member", "statement": "For an untagged Union[T1,...,Tn], json_to_object returns the result of the first member, in annotation order, that does not reject the document; it fails only if every member rejects the document.", "quantifier": "all member lists, all JSON documents", "why_tests_cant": "Order sensitivity and rejection interplay over all member combinations cannot be enumerated.", "anchors": ["strong_typing/deserializer.py:UnionDeserializer.parse"]}
{"id": "C06", "title": "Tagged union picks the class named by the tag, whatever the set iteration order", "statement": "For a union of classes that share literal-typed tag properties with pairwise distinct values: whenever json_to_object yields a value, it is that of the one class of the union that lists the value of a tag given in the document; a document whose tags all belong to one class has the outcome (value or exception) of reading that class; a document without a known tag is rejected with JsonTypeError. If no union met has more than one tag property, the outcome does not depend on the (hash-seed dependent) iteration order of the set of tag properties; with several tag properties the accepted documents and their values do not depend on it provided tags are None/bool/int/str literals stored under the field name itself, and such unions are not nested in a non-last member of an untagged union.", "quantifier": "all tagged unions, all documents, all permutations of the tag property set", "why_tests_cant": "The iteration order of a Python set of strings varies with PYTHONHASHSEED; a test run sees one order.", "anchors": ["strong_typing/deserializer.py:TaggedUnionDeserializer", "strong_typing/deserializer.py:get_discriminating_properties"]}
{"id": "C07", "title": "Unknown properties are rejected or ignored exactly as requested", "statement": "With skip_unassigned=False a document that has a property which is not the JSON name of any field of the class never yields an object; with skip_unassigned=True such properties have no influence on the result.", "quantifier": "all classes, all documents, all sets of extra properties", "why_tests_cant": "Needs all extra-property sets at all nesting depths.", "anchors": ["strong_typing/deserializer.py:ClassDeserializer.parse", "strong_typing/deserializer.py:DeserializerOptions"]}
{"id": "C08", "title": "Missing, null, default and optional fields", "statement": "When an object of a data class or plain class is built from a document: a field without default that is not Optional must be present and non-null (else JsonKeyError / JsonValueError); an absent or null field with a default receives exactly the default; an absent or null Optional field without default receives None; a present field receives the parsed value.", "quantifier": "all classes, all field layouts, all documents", "why_tests_cant": "Cartesian product of field kinds and document shapes.", "anchors": ["strong_typing/deserializer.py:RequiredFieldDeserializer", "strong_typing/deserializer.py:OptionalFieldDeserializer", "strong_typing/deserializer.py:DefaultFieldDeserializer", "strong_typing/deserializer.py:DataclassDeserializer"]}
{"id": "C09", "title": "Property order is irrelevant", "statement": "Permuting the properties of JSON objects at any depth of the document does not change the outcome of a successful json_to_object call beyond the order of dict entries, nor turn a rejected document into an accepted one (or vice versa). Exceptions: from_json functions that look at the order themselves, and unions without tags in which an alternative that reads dictionaries, and can reject data with another exception than JsonKeyError or JsonTypeError, precedes one read from the same kind of data: there the first offending entry decides whether the next alternative is tried. Where no dictionary is read, even the exception is the same.", "quantifier": "all types, all documents, all permutations at every depth", "why_tests_cant": "n! permutations at each of unboundedly many levels.", "anchors": ["strong_typing/deserializer.py:ClassDeserializer.parse", "strong_typing/deserializer.py:DictDeserializer.parse"]}
{"id": "C10", "title": "The deserializer cache is transparent", "statement": "After any sequence of earlier create_deserializer / json_to_object calls, a call json_to_object(T, d) produces the outcome it would produce in a fresh interpreter, provided that class names are unique per module, all calls use the same options, and all earlier builds succeeded.", "quantifier": "all histories of calls, all types and documents", "why_tests_cant": "Depends on global mutable state accumulated over arbitrary call histories.", "anchors": ["strong_typing/deserializer.py:_CACHE", "strong_typing/deserializer.py:_get_deserializer", "strong_typing/deserializer.py:create_deserializer"]}
{"id": "C11", "title": "Options given to one call do not leak into another", "statement": "The outcome of json_to_object(T, d, options=o) depends on o only, not on the options passed to earlier calls.", "quantifier": "all call histories", "why_tests_cant": "Global cache state across calls; tests run with a cold or accidentally warmed cache.", "anchors": ["strong_typing/deserializer.py:_get_deserializer"]}
{"id": "C12", "title": "A failed build does not poison later calls", "statement": "If creating the deserializer of a type fails with an exception, a later attempt for the same type fails in the same way rather than yielding a half-constructed deserializer.", "quantifier": "all histories containing a failed build", "why_tests_cant": "Requires failure at an arbitrary point of a build followed by arbitrary further calls.", "anchors": ["strong_typing/deserializer.py:_get_deserializer"]}
{"id": "C13", "title": "Recursive and mutually recursive types parse to completion", "statement": "For classes that refer to themselves through Optional, list, dict or union fields (directly or via other classes), json_to_object terminates on every finite document and never raises RecursionError in the model, because every unfolding of a class consumes a level of the document.", "quantifier": "all class environments with guarded recursion, all documents", "why_tests_cant": "Termination is a liveness property over unbounded recursion depth.", "anchors": ["strong_typing/deserializer.py:_get_deserializer", "strong_typing/deserializer.py:ClassDeserializer.build"]}
{"id": "C14", "title": "None-valued properties are omitted and property names are the mapped field names", "statement": "The JSON object produced for a class instance has exactly one property per field whose value is not None, named by the field alias or by the field name (less the underscore that protects a keyword), in field order.", "quantifier": "all typed classes and instances", "why_tests_cant": "All field layouts and all None/non-None combinations.", "anchors": ["strong_typing/serializer.py:TypedClassSerializer.generate", "strong_typing/serializer.py:FieldSerializer", "strong_typing/mapping.py"]}
{"id": "C15", "title": "Field names and JSON property names correspond one to one", "statement": "python_field_to_json_property returns the Alias if one is given, otherwise strips one trailing underscore if and only if what remains is a Python keyword; it is therefore injective on the field names of any class (a keyword cannot itself be a field name) unless aliases clash.", "quantifier": "all Python identifiers", "why_tests_cant": "Infinite set of identifiers.", "anchors": ["strong_typing/mapping.py:python_field_to_json_property, python_id_to_json_field"]}
{"id": "C16", "title": "timedelta text round trip", "statement": "For every non-negative datetime.timedelta d, parsing the ISO-8601 text produced by serialization yields d again; distinct durations have distinct texts.", "quantifier": "all 86,399,999,999,999,999,999 non-negative durations (resp. all integers days/seconds/microseconds in range)", "why_tests_cant": "About 8.6e19 values.", "anchors": ["strong_typing/serializer.py:TimeDeltaSerializer.generate", "strong_typing/deserializer.py:TimeDeltaDeserializer.parse"]}
{"id": "C17", "title": "timedelta parser accepts exactly ISO-8601 day-time durations with micro-/millisecond fractions and computes their exact value", "statement": "parse succeeds only on texts of the form P[nW][nD][T[nH][nM][n[.f]S]] (optional final newline) whose fraction has at most nine digits and no precision beyond microseconds, and the result is exactly the sum of the stated weeks, days, hours, minutes, seconds and fraction; all other texts raise an exception.", "quantifier": "all strings", "why_tests_cant": "Infinite set of strings.", "anchors": ["strong_typing/deserializer.py:TimeDeltaDeserializer"]}
{"id": "C18", "title": "bytes round trip through Base64", "statement": "For every byte string b, deserializing the Base64 text produced by serialization yields b; every accepted text re-encodes to a text that decodes to the same bytes, and texts with characters outside the Base64 alphabet are rejected.", "quantifier": "all byte strings, all texts", "why_tests_cant": "Infinite.", "anchors": ["strong_typing/serializer.py:BytesSerializer", "strong_typing/deserializer.py:BytesDeserializer"]}
{"id": "C19", "title": "datetime: timezone is mandatory and round trips", "statement": "object_to_json of a timezone-naive datetime raises; for every timezone-aware datetime whose UTC offset is a whole number of seconds the text has a UTC designator ('Z' exactly for zero offset), parses back to the same wall clock and offset, and json_to_object never returns a naive datetime.", "quantifier": "all datetimes in years 1..9999, all UTC offsets strictly between -24h and 24h; all strings", "why_tests_cant": "More than 1e20 values and all strings.", "anchors": ["strong_typing/serializer.py:DateTimeSerializer", "strong_typing/deserializer.py:DateTimeDeserializer"]}
{"id": "C20", "title": "date and time round trip", "statement": "For every date and every (naive or aware) time with a whole-second UTC offset, parsing the serialized text yields the same date resp. time.", "quantifier": "all dates in years 1..9999 and all times and offsets", "why_tests_cant": "Too many values.", "anchors": ["strong_typing/serializer.py:DateSerializer, TimeSerializer", "strong_typing/deserializer.py:DateDeserializer, TimeDeserializer"]}
{"id": "C21", "title": "UUID and IP address round trips", "statement": "For every 128-bit UUID, 32-bit IPv4 address and 128-bit IPv6 address, parsing the serialized text yields the same value (including zero-run compression of IPv6).", "quantifier": "all 2^128 / 2^32 / 2^128 values", "why_tests_cant": "2^128 values.", "anchors": ["strong_typing/serializer.py:UUIDSerializer, IPv4Serializer, IPv6Serializer", "strong_typing/deserializer.py:UUIDDeserializer, IPv4Deserializer, IPv6Deserializer"]}
{"id": "C22", "title": "Enumerations accept exactly their values", "statement": "json_to_object(E, d) returns the member whose value equals d and raises ValueError otherwise; object_to_json of that member gives back a document equal to d.", "quantifier": "all enumerations with distinct values, all documents", "why_tests_cant": "All enumerations.", "anchors": ["strong_typing/deserializer.py:EnumDeserializer", "strong_typing/serializer.py:EnumSerializer"]}
{"id": "C23", "title": "Literal types accept only the listed values", "statement": "json_to_object(Literal[...], d) succeeds exactly if d denotes one of the listed values (read at the type of that value), and returns that value.", "quantifier": "all literal lists, all documents", "why_tests_cant": "The set of documents is infinite, and Python's loose equality (1 == True) makes near misses hard to enumerate.", "anchors": ["strong_typing/deserializer.py:LiteralDeserializer"]}
{"id": "C24", "title": "Containers preserve content", "statement": "Deserializing into list/tuple keeps length and order; into dict keeps exactly the keys; into set yields exactly the distinct items, where numbers of different types, datetimes of different offsets and tuples of different classes may be the same item; tuple length mismatch is rejected.", "quantifier": "all containers of any size", "why_tests_cant": "Unbounded sizes.", "anchors": ["strong_typing/deserializer.py:ListDeserializer, DictDeserializer, SetDeserializer, TupleDeserializer", "strong_typing/serializer.py:TypedCollectionSerializer, TypedTupleSerializer, TypedStringDictSerializer, TypedEnumDictSerializer"]}
{"id": "C25", "title": "topological_sort returns each key once with dependencies first", "statement": "If topological_sort(graph) returns, the result is a permutation of the keys of the graph and every node comes after all nodes it points to (self references excepted).", "quantifier": "all finite graphs, all iteration orders of the neighbour sets", "why_tests_cant": "All graphs; neighbour sets iterate in hash order.", "anchors": ["strong_typing/topological.py:topological_sort"]}
{"id": "C26", "title": "topological_sort fails exactly on cyclic or dangling graphs", "statement": "topological_sort raises RuntimeError only if the graph has a cycle of length two or more, KeyError only if some neighbour is not a key, and returns normally on every closed graph that is acyclic up to self references.", "quantifier": "all finite graphs", "why_tests_cant": "All graphs of all sizes.", "anchors": ["strong_typing/topological.py:topological_sort"]}
{"id": "C27", "title": "get_referenced_types is closed and sound", "statement": "The set of types returned for a type contains every class/registered type reachable from it through annotations, and nothing that is not reachable; the traversal terminates on recursive types. (Recursive through classes, that is: it comes to an end exactly if all classes exist and evaluating the references in the annotations reached does without entering classes; on a type alias that contains itself it never does.)", "quantifier": "all class environments and types", "why_tests_cant": "Reachability closure over arbitrary graphs.", "anchors": ["strong_typing/inspection.py:TypeCollector, TypeCollector.run, get_referenced_types"]}
{"id": "C28", "title": "type_topological_sort lists dependencies before dependents", "statement": "For a set of types, type_topological_sort (without dependency_fn) returns every input type and every type referenced by them, directly or not, dependencies first; it raises RuntimeError if and only if classes refer to each other in a circle, and TypeError for anything but classes.", "quantifier": "all class environments, all input sets", "why_tests_cant": "Arbitrary dependency graphs.", "anchors": ["strong_typing/topological.py:type_topological_sort"]}
{"id": "C29", "title": "Serialized objects satisfy the generated JSON schema", "statement": "If classdef_to_schema(T) returns a schema and object_to_json(v) returns d for a value v of type T then d is valid under the schema (JSON Schema 2020-12 semantics of the emitted keywords; a validator may check formats). This holds if v respects the metadata in T, the members of each union are visibly different (other kinds of data, or other literals in a field), the elements of sets are written differently, field names have no underscore after a keyword, classes have no to_json of their own, registered names are unique and no schema was given with a registration; addresses (ipaddress) and decimal precision are excepted. Documents visibly not of type T are rejected by the schema.", "quantifier": "all types of the fragment, all values", "why_tests_cant": "The value, type and nesting-depth space is infinite; tests sample a handful of fixtures.", "anchors": ["strong_typing/schema.py:JsonSchemaGenerator.type_to_schema, classdef_to_schema", "strong_typing/schema.py:validate_object"]}
{"id": "C30", "title": "Schema documents have no dangling references", "statement": "Every $ref that occurs anywhere in the output of classdef_to_schema points to an entry of its definitions section, unless it stands for a textual reference that schema.py cannot evaluate and that is not found in the catalog (a plain string or an annotated one is not looked up); schemas given with a registration are taken to have no references of their own.", "quantifier": "all types and class environments, including recursive ones", "why_tests_cant": "Requires closure over all reachable types.", "anchors": ["strong_typing/schema.py:JsonSchemaGenerator.classdef_to_schema"]}
{"id": "C31", "title": "Type catalog lookups return what was registered", "statement": "After any sequence of registrations with pairwise distinct types and identifiers, lookup by type and by identifier return the entry registered for it, and types never registered are reported absent.", "quantifier": "all registration sequences", "why_tests_cant": "Histories of arbitrary length.", "anchors": ["strong_typing/schema.py:TypeCatalog", "strong_typing/schema.py:register_schema"]}
{"id": "C32", "title": "Class schemas are closed and list exactly the mandatory properties", "statement": "The schema of a class with fields has additionalProperties false, its properties are exactly the JSON names of the fields and its required list is exactly the names of the non-Optional fields; so a document with another property, or without one of the required ones, violates it. Names with an underscore after a keyword and aliases in named tuples are excepted.", "quantifier": "all classes", "why_tests_cant": "All field layouts.", "anchors": ["strong_typing/schema.py:JsonSchemaGenerator.type_to_schema"]}
{"id": "C33", "title": "Documents accepted by the schema are accepted by the deserializer", "statement": "If a document is valid under the schema generated for T then json_to_object(T, d) succeeds and gives a value of type T. This holds if the validator checks text formats at least as strictly as the library, no integer is written as a float (1.0) or exceeds the range of floats where a float is expected, elements of sets are hashable, earlier members of a union do not fail for good on data that a later member reads, names of many enumeration keys are plain (they become a regular expression), and classes have fields (unless additional properties are skipped), distinct field names without an underscore after a keyword, and no optional field if they are named tuples; addresses (ipaddress) are excepted.", "quantifier": "all types of the fragment, all documents", "why_tests_cant": "All documents.", "anchors": ["strong_typing/schema.py", "strong_typing/deserializer.py"]}
{"id": "C34", "title": "Docstring text round trip", "statement": "parse_text(str(doc)) == doc for all docstrings whose texts are normalised: no description line starts with a colon, descriptions of parameters, results and exceptions are words separated by single blanks, names have no blank or colon, no tabs, and a long description comes with a short one. Everything parse_text returns is of that form, unless a description starts with a colon or a long description comes without a short one. full_description is None without a short description, and otherwise is read back as the two descriptions.", "quantifier": "all docstrings", "why_tests_cant": "Free-form text.", "anchors": ["strong_typing/docstring.py:Docstring.__str__, Docstring.full_description, parse_text"]}
{"id": "C35", "title": "Docstring parameters are attributed by name", "statement": "parse_text returns one parameter entry per distinct :param name, holding the last description given for it; description text before the first marker is never lost.", "quantifier": "all texts", "why_tests_cant": "Free-form text.", "anchors": ["strong_typing/docstring.py:parse_text"]}
{"id": "C36", "title": "Flattening keeps the required list consistent", "statement": "flatten_schema succeeds on every schema that can be read. In recursive mode every name in required is a property of the result and no property of the result is an object schema; in the other mode the former holds if it does in the nested schemas. The properties of the result are the leaf schemas of the given schema under their flat names, except that of several leaves with the same flat name one remains (which cannot happen with qualified names unless property names contain dots); a flat name is required iff a leaf of that name is required in the schema it occurs in, whether or not the enclosing object is required. Additional properties are refused and the rest of the schema is kept.", "quantifier": "all object schemas of any nesting depth", "why_tests_cant": "Unbounded nesting.", "anchors": ["strong_typing/classdef.py:flatten_schema, SchemaFlattener"]}
{"id": "C37", "title": "Integer width selection is the smallest width that fits", "statement": "integer_range_to_type(lo, hi) yields the narrowest of the fixed-width types whose range contains [lo, hi] if there is one, and the widest otherwise; the same for the values of an enumeration of integers. A schema node for integers has the type its format names (int16, int32, int64) whatever other keywords there are; otherwise that of its enumeration; otherwise that of its two bounds; otherwise int.", "quantifier": "all pairs of integers lo <= hi, all lists of integers", "why_tests_cant": "Infinite.", "anchors": ["strong_typing/classdef.py:integer_range_to_type"]}
{"id": "C38", "title": "Enum labels derived from arbitrary strings are usable", "statement": "enum_safe_name(s) never is a dunder or sunder name and only contains identifier characters; enumerations created from string values keep every value whose safe name is unique.", "quantifier": "all strings", "why_tests_cant": "Infinite.", "anchors": ["strong_typing/classdef.py:enum_safe_name, enum_values_to_type"]}
{"id": "C39", "title": "is_generic_instance agrees with the annotations", "statement": "is_generic_instance(v, T) holds iff v is an instance of T item by item, for list, set, dict, tuple, union, optional and literal types.", "quantifier": "all values and types", "why_tests_cant": "The value, type and nesting-depth space is infinite; tests sample a handful of fixtures.", "anchors": ["strong_typing/inspection.py:is_generic_instance"]}
{"id": "C40", "title": "check_recursive visits every reachable sub-object", "statement": "check_recursive(obj, pred=p, value=q) returns False iff some sub-object reachable through fields and containers satisfies p and violates q.", "quantifier": "all values, all predicates", "why_tests_cant": "The value, type and nesting-depth space is infinite; tests sample a handful of fixtures.", "anchors": ["strong_typing/inspection.py:RecursiveChecker, check_recursive"]}
{"id": "C41", "title": "Optional and union algebra", "statement": "unwrap_optional_type removes exactly None from a union, keeping the order of the other members, and raises TypeError on anything but a union; is_type_optional holds iff None is a member; unwrap_union_types returns the members in order; Annotated metadata is preserved by optional unwrapping and rewrap(unwrap) is the identity.", "quantifier": "all types", "why_tests_cant": "All types.", "anchors": ["strong_typing/inspection.py:is_type_optional, unwrap_optional_type, is_type_union, unwrap_union_types, unwrap_annotated_type, rewrap_annotated_type"]}
{"id": "C42", "title": "extend_enum keeps members and appends new ones", "statement": "The enumeration created by @extend_enum(source) has the members of source, in order and with the same values, followed by the new members; a name clash raises.", "quantifier": "all enumerations", "why_tests_cant": "All enumerations.", "anchors": ["strong_typing/inspection.py:extend_enum"]}
{"id": "C43", "title": "Serialization does not depend on earlier calls", "statement": "The memoisation of serializers (lru_cache) is unobservable: object_to_json(v) returns the same outcome after any history of calls.", "quantifier": "all histories", "why_tests_cant": "Arbitrary histories, evictions included.", "anchors": ["strong_typing/serializer.py:_fetch_serializer"]}
{"id": "C44", "title": "Type names are distinct for distinct types", "statement": "python_type_to_str succeeds on every type whose classes exist and whose forward references are identifiers, and writes two types alike exactly if they are equal up to: Union[A, B] versus A | B, the position of None in Optional[T] (unless the operator form is used), a class versus a text that is its name, and the order/position of the annotations that make up an auxiliary type (int8 etc.); this presumes that no two classes share a name or are called like a built-in type. python_type_to_name succeeds exactly on built-in types, auxiliary types and classes (below annotations) and, with force, on generic types over these, else raises TypeError; provided class names contain no double underscore and do not end in one, two types get the same name exactly if they agree apart from annotations.", "quantifier": "all pairs of types, with classes, literals, annotations, texts", "why_tests_cant": "All pairs of types of unbounded nesting; quoting and escaping of arbitrary literal strings.", "anchors": ["strong_typing/name.py:TypeFormatter, python_type_to_str, python_type_to_name", "strong_typing/auxiliary.py:_compact_dataclass_repr"]}
{"id": "C45", "title": "Container kinds of JSON are never confused", "statement": "json_to_object for a scalar type never accepts arrays or objects, for an array-like type never accepts anything but arrays, and for an object-like type never anything but objects.", "quantifier": "all types, all documents", "why_tests_cant": "All documents.", "anchors": ["strong_typing/deserializer.py"]}
{"id": "C46", "title": "bool/int/float coercions are exactly the documented ones", "statement": "int accepts JSON integers and booleans (as 0/1) but no non-integral number; float accepts integers, booleans and floats, converting an integer to the nearest double and raising OverflowError when none exists; bool accepts only booleans.", "quantifier": "all JSON numbers", "why_tests_cant": "Infinite.", "anchors": ["strong_typing/deserializer.py:IntDeserializer, FloatDeserializer, BoolDeserializer"]}
{"id": "C47", "title": "Serialization of literal fields emits listed values only", "statement": "object_to_json of an object with a field annotated Literal[...] raises if the field holds a value that is not listed.", "quantifier": "all classes with literal-typed fields, all field values", "why_tests_cant": "All literal lists and all field values; wrong values are rarely put in fixtures.", "anchors": ["strong_typing/serializer.py:LiteralSerializer"]}
{"id": "C48", "title": "Named tuples: every field is required under its Python name", "statement": "json_to_object for a typed named tuple succeeds exactly if the document is an object that has each field, under the field's own name (no alias or keyword treatment), with a non-null value that parses at the field's type, and no other property unless skip_unassigned is given.", "quantifier": "all typed named tuples, all documents", "why_tests_cant": "All field layouts and all documents.", "anchors": ["strong_typing/deserializer.py:NamedTupleDeserializer", "strong_typing/deserializer.py:RequiredFieldDeserializer"]}
{"id": "C49", "title": "Docstrings are checked against the signature", "statement": "check_docstring accepts a data-class docstring exactly if it documents only own members (in strict mode all of them), a function docstring exactly if it documents only parameters of the signature and a result only if there is a return annotation (in strict mode all parameters but self, and the result); otherwise it raises TypeError.", "quantifier": "all docstrings and signatures", "why_tests_cant": "All signatures and docstrings.", "anchors": ["strong_typing/docstring.py:check_dataclass_docstring, check_function_docstring"]}
{"id": "C50", "title": "Schema generation is total on describable types", "statement": "classdef_to_schema(T) returns a document whenever T is built from scalar types, lists, sets, dicts with str/int/enum keys, tuples, unions other than nested Optional, one-value literals, bare forms, forward references, enumerations whose members are JSON scalars of one type, classes whose fields are such types (Optional allowed at the top of a field) and whose default values can be serialized, and registered types whose definitions can in turn be drawn up; recursion through registered types is no obstacle. Conversely it returns no document for any other type, in particular not for list[Optional[int]], Literal['a','b'] or a recursive class that is not registered, although such values are serialized and deserialized. The document is unique.", "quantifier": "all types, class tables and catalogs", "why_tests_cant": "Types, class tables and registries are unbounded; that generation ends, and for which types, is a statement on all recursion depths.", "anchors": ["strong_typing/schema.py:JsonSchemaGenerator.type_to_schema, classdef_to_schema"]}
{"id": "C51", "title": "Types made from a schema read the documents of the schema", "statement": "If schema_to_type(schema, module, class_name) returns a type, json_to_object reads every document that satisfies the schema with it (numbers in the range of floats, whole numbers written as integers), provided that: every object lists its properties; no property is named like class_ (a keyword and an underscore); the texts of an enumeration have distinct labels, none of the form of a private name; in a union, either all members but the last reject with JsonKeyError/JsonTypeError only (no formats, enumerations, floats) and not all members are objects with a constant required property, or all members are objects told apart by one constant property; references lead to definitions and not from a definition to itself. The type is a new dataclass named class_name with exactly the properties of the schema as fields, those not required being Optional, fields with defaults last; classes and names of the module that existed are unchanged.", "quantifier": "all schemas, all programs, all documents", "why_tests_cant": "Schemas and documents are unbounded; whether the read and the schema agree on every document is not settled by samples.", "anchors": ["strong_typing/classdef.py:schema_to_type, node_to_typedef"]}
{"id": "C52", "title": "JSON text written is JSON and is read back", "statement": "json_dump_string(doc) is a single line of JSON text (RFC 8259) that denotes doc, if doc has no NaN or infinity; json.loads(json_dump_string(doc)) and json.loads of what json_dump writes (the same line and a newline) are doc, NaN and infinities included; different documents have different texts. It raises ValueError exactly for documents with an integer of more than 4300 digits, and no other exception. json.loads accepts exactly JSON texts with integers of at most 4300 digits, with NaN, Infinity and -Infinity added, the last of several properties of the same name counting. Values whose types satisfy the conditions of C01 come back unchanged when taken through text.", "quantifier": "all documents, all texts, all strings of code points", "why_tests_cant": "Documents, strings and texts are unbounded; escapes, surrogates and white space combine without bound.", "anchors": ["strong_typing/serialization.py:json_dump_string, json_dump"]}
{"id": "C53", "title": "Generated schemas are JSON schemas", "statement": "The document that classdef_to_schema generates is a JSON Schema: it uses only keywords of the specification, each with a value of the kind that the meta-schema of draft 2020-12 demands (in itself, in subschemas and in definitions), so the check at the end of classdef_to_schema does not raise TypeError. Exceptions: tuple[()] (an empty prefixItems); classes with two fields that may not be missing and have the same name in documents (required lists the name twice); Precision with so many decimal digits that 10 ** -n is zero; dictionaries keyed by an enumeration of more than four members whose texts do not make up a regular expression; registered schemas that are no schemas, registered examples that are no list.", "quantifier": "all programs, all types, all registrations, all docstrings and defaults", "why_tests_cant": "The keywords of a schema come from types, annotations, enumerations, defaults, docstrings and registrations nested without bound; the check happens only for the types one tries.", "anchors": ["strong_typing/schema.py:classdef_to_schema, JsonSchemaGenerator"]}
{"id": "C54", "title": "The documentation found for a type is its own", "statement": "The docstring of a class or function is its __doc__, unless it is a data class whose __doc__ is the name of the class followed by text in parentheses on one line, or an enumeration whose __doc__ is 'An enumeration.'. docstring.parse_type returns the parsed docstring exactly if it documents only properties that no base of a data class has, only parameters of a function, a result only of a function with an annotated result, and only exceptions defined in the module of the class or built in; else it raises TypeError. Parameters get the types of the properties or the annotations, exceptions the class of that name, that of the module coming first. get_class_docstrings returns its short and long description. get_class_property_docstrings describes exactly the properties described by some class in the order of method resolution, each by the first class that does, with the text given by transform_fun; it raises exactly if the docstring of one of these classes is at odds with the class, so a data class cannot describe an inherited property anew.", "quantifier": "all classes and class hierarchies, all functions, all docstrings, all modules", "why_tests_cant": "Texts, hierarchies and signatures are unbounded.", "anchors": ["strong_typing/docstring.py:parse_type, get_docstring, has_docstring, has_default_docstring, check_docstring", "strong_typing/schema.py:get_class_docstrings, get_class_property_docstrings"]}
{"id": "C55", "title": "Types made from a schema mirror it", "statement": "If schema_to_type(schema, module, class_name) returns, every part of the schema has become the type it describes: a boolean bool; an integer the 16, 32 or 64 bit type that its format names, else the smallest of these with room for its enum, else for its minimum and maximum if it has both (the widest, if none has), else int; a number float, with storage 4 or 8 if its format says so; a text the class of its format, else an enumeration with exactly the labels of its texts, else a str bounded by maxLength, else str; a constant a Literal; an array a list of its items; an object a data class named after its place, with one field for each property, of the type of the property, Optional if it is not required, with the default of the property read as a value of its type, fields with defaults last; oneOf a Union of its members in order; a reference the type that the name stands for in the module. Every definition is a name of the module, for its type. Provided that objects list their properties and no definition refers to itself.", "quantifier": "all schemas, all programs", "why_tests_cant": "Schemas nest without bound; each type depends on combinations of keywords.", "anchors": ["strong_typing/classdef.py:schema_to_type, node_to_typedef, integer_range_to_type, enum_values_to_type"]}
{"id": "C56", "title": "Where the names in a type are looked up", "statement": "If a context is given, or the type has no names given as text, json_to_object and json_to_generic have the same outcome wherever they are called from, and then the context has no influence on deserializers or serializers: a class is read and written by the names of its own module. Otherwise json_to_generic without a context looks names up in the module it is called from, while json_to_object looks them up in strong_typing.serialization, so it raises an exception for every document if the type has names and none of these is a name there.", "quantifier": "all programs, all types, all contexts, all calling modules, all documents", "why_tests_cant": "Types nest without bound and the outcome depends on the calling module; tests call from their own module.", "anchors": ["strong_typing/serialization.py:json_to_object, json_to_generic", "strong_typing/deserializer.py:create_deserializer", "strong_typing/serializer.py:create_serializer"]}
{"id": "C57", "title": "Types made from the schema of a type are copies of it", "statement": "If schema_to_type(classdef_to_schema(T), module, class_name) returns a type, it is a copy of T, and the names of the registered types that T leads to have become copies of these: bool, int, float, str, datetime, date, time, timedelta and UUID stay, likewise lists, one-value Literals and unions (as Union, members copied); int16, int32 and int64, float32 and float64 and maximal lengths of str stay, int8 and the unsigned types become int, other integer ranges become the smallest of the three with room for them, other annotations are dropped; an enumeration of texts becomes an enumeration with the same values, by labels made from these; an enumeration of integers becomes the smallest integer type with room for them; a class becomes a data class with a field for each of its fields, by its name in documents (which must be an identifier and no keyword), of the copied type, optional if it was, with the default that the class had if this is a truth value, a number, text, enumeration member or point in time; a dict keyed by at most four enumeration members becomes a data class with an optional field per member. Schemas with other keywords than those of these types are refused. It is presumed that the program has no two fields of one name in documents in a class, that the schema refers to no definition from inside of it, and that its objects list their properties.", "quantifier": "all programs, all types, all registrations", "why_tests_cant": "Types and programs are unbounded; the schema generator and the importer are written independently of each other.", "anchors": ["strong_typing/schema.py:classdef_to_schema, JsonSchemaGenerator", "strong_typing/classdef.py:schema_to_type, node_to_typedef"]}
{"id": "C58", "title": "What generated schemas say beside validation", "statement": "In the schema of a type, title and description of a class that is not registered are the short and long description of its docstring (none if empty, or if use_descriptions is off); the schema of a field of a class has as its default the JSON form of the class attribute of that name if this is a Boolean, number, text, enumeration member, date, time, date-time or duration, and no default otherwise; if the field is documented, by the first class in the order of method resolution whose docstring describes it, that text is its description and it has no title, otherwise it has the title and description of its type; the definition of a registered type has, in addition to what its type or the schema registered for it says, the examples registered for it (unless use_examples is off or there are none). Parts of types (items, members, values) say what their types say, and nothing else has titles, descriptions, defaults or examples. Descriptions of fields are written even if use_descriptions is off.", "quantifier": "all programs, all types, all registrations, all documentation", "why_tests_cant": "Types nest without bound, and notes are moved, replaced and removed as schemas are put together.", "anchors": ["strong_typing/schema.py:JsonSchemaGenerator, docstring_to_schema, get_class_property_docstrings"]}
{"id": "C59", "title": "Documents that are read satisfy the schema", "statement": "A document that json_to_object reads as a type satisfies the schema that classdef_to_schema makes for the type, whether or not the validator checks formats (provided it takes the texts that the library reads for what they are), except where the reader is more lenient, which it is in these points only: truth values pass for integers and numbers, in literals and enumerations too; sets may contain an item twice; data may belong to more than one member of a union; annotations (ranges, lengths, precision) are not checked; properties may be null; fields with a default may be left out; properties that belong to no field are skipped if the caller says so; IP addresses and classes with from_json have the schema of an object; fields whose name ends in an underscore to avoid a keyword have another name in the schema; enumeration members as keys, if more than four, are taken for regular expressions. For documents and types in which none of these occurs and to which C33 applies, a document is read if and only if it satisfies the schema.", "quantifier": "all types, including recursive ones, all documents, all validators that trust the formats read", "why_tests_cant": "Types and documents nest without bound, and agreement of reader and schema on one pair says nothing of others.", "anchors": ["strong_typing/schema.py:classdef_to_schema, JsonSchemaGenerator", "strong_typing/serialization.py:json_to_object"]}
{"id": "C60", "title": "The JSON types of the library", "statement": "In a module that binds the name, JsonType reads every JSON document as the data that json.loads makes of it, and object_to_json writes that data back as the same document; StrictJsonType reads exactly the documents without null at any depth and raises JsonKeyError for all others.  In every program that has imported the library, whatever types it registers later (other than the parts of these two types), classdef_to_schema makes a schema for them, but one that is satisfied by fewer documents than are read: none in which a number is an integer, which match both of the alternatives integer and number; the examples registered by the library itself violate it.  JsonObject and JsonArray both have the schema of any object and read the empty object only, so that no array satisfies the schema of JsonArray.  Without a context StrictJsonType reads nothing, since the name is not known in strong_typing.serialization.", "quantifier": "all documents; all programs in which the names are bound; all sequences of registrations, failing ones included", "why_tests_cant": "The types are recursive: each document is an unfolding of its own, and whether a schema rejects an integer depends on how deep in the document it is.", "anchors": ["strong_typing/core.py:JsonType, StrictJsonType, JsonObject, JsonArray", "strong_typing/schema.py:register_schema, json_schema_type, classdef_to_schema", "strong_typing/serialization.py:json_to_object"]}
{"id": "C61", "title": "Decorating classes registers them by name, in any order", "statement": "In a program that imports the library and decorates classes with @json_schema_type (with or without examples), get_schema_identifier returns the name of the class for every decorated class and None for every class that is not decorated; if the names of the decorated classes are unambiguous and names in quotes are of decorated classes, then what is written for a value satisfies the generated schema of its type, and the generated schemas do not depend on the order in which the classes were decorated. Exception: two decorated classes of the same name in different modules are both accepted, and the schema of one is taken for the other.", "quantifier": "all programs (classes, names and modules), all sequences of decorations and their permutations, all types, values and documents", "why_tests_cant": "The catalog is global state filled by import side effects in whatever order the modules of a program are loaded; tests register a handful of classes in one fixed order and in one module, so neither independence of the order nor the effect of equal names in distant modules is exercised.", "anchors": ["strong_typing/schema.py:122-182 TypeCatalog", "strong_typing/schema.py:614-618 get_schema_identifier", "strong_typing/schema.py:621-642 register_schema", "strong_typing/schema.py:653-670 json_schema_type", "strong_typing/schema.py:673-708", "strong_typing/schema.py:487-591"]}
{"id": "C62", "title": "Reading a document and writing it again changes only what has to change", "statement": "If json_to_object reads a document as a type and object_to_json writes the object obtained, then the new document is the old one up to the following: numbers, texts, list items and dictionary keys are the same and in the same order; truth values and integers are converted where integers and floats are called for; texts of dates, UUIDs and so on are normalised; repeated items of sets disappear; enumeration members appear as defined; null and absent properties are left out or replaced by the default of the field; properties that belong to no field are dropped; property names are those of the fields. What is written is a well-formed document (no property twice). If the type is written faithfully (C01), then reading the new document gives the same object, so reading and writing once more changes nothing. Exception: for types not written faithfully the second reading can give another object.", "quantifier": "all programs (classes, hooks, modules), all types, all documents that are read, strict and lenient mode", "why_tests_cant": "Tests start from objects (object to JSON to object) or from a few documents in canonical form; what services do is read documents of others, in any order and with nulls, and store them again, at every nesting depth.", "anchors": ["strong_typing/serialization.py:46-55 object_to_json", "strong_typing/serialization.py:58-83 json_to_object", "strong_typing/deserializer.py:85-905", "strong_typing/serializer.py:48-522"]}
{"id": "C63", "title": "A program that has only the schema reads what the other program writes", "statement": "If program A generates the schema of a type and program B makes types from this schema with schema_to_type, then whatever object_to_json of A writes for a value of the type is read without an exception by json_to_object of B as the type made, provided that the schema is one that types can be made from (C51), unions of A are told apart by their JSON form (C29), and the document has no numbers that B takes for other ones (integers beyond 64 bits; C51). Values whose texts are exact satisfy the schema also for validators that check the formats of texts. Exception: schemas of registered classes refer to their definition at the top, and schema_to_type rejects these.", "quantifier": "all programs A and B, all types and registrations of A, all values of the type, all Unicode tables", "why_tests_cant": "The path crosses four components (serializer, schema generator, schema reader, class generator) and two programs; tests check each one on fixed samples, and none sends documents of one program to classes generated in another.", "anchors": ["strong_typing/schema.py:487-591 JsonSchemaGenerator", "strong_typing/classdef.py:96-409", "strong_typing/serialization.py:46-83", "strong_typing/deserializer.py:85-905"]}
{"id": "C64", "title": "Fields that need not be given can be added to classes without breaking documents", "statement": "If in a new version of a program data classes and plain classes gain fields that have a default or are optional, are not of literal type and do not share a JSON property with another field (and classes and names are added), then (1) the new json_to_object reads every document that the old strict one reads, with the same result except for the further attributes, which have their default or None; (2) the old json_to_object that skips unknown properties reads every document that the new one reads, with the same result except for the further attributes; likewise for what object_to_json of either version writes. This is so for types without sets of changed classes, and whose untagged unions do not have an earlier alternative of object kind that competes with a later one. Exceptions: the strict old version rejects new properties; properties that the old version skipped may not fit the new field; in an untagged union a class that gains a field can take documents of a later one; a further literal field makes a tag and documents without it are rejected; a required field is missing.", "quantifier": "all programs and new versions of them, all types, all documents", "why_tests_cant": "Tests run against one version of the classes; compatibility relates two programs and every document of either.", "anchors": ["strong_typing/deserializer.py:565-794 ClassDeserializer, DataclassDeserializer", "strong_typing/deserializer.py:401-500 UnionDeserializer, TaggedUnionDeserializer", "strong_typing/serialization.py:46-83"]}
{"id": "C65", "title": "Schemas of a new version of a class accept the documents of the old one, unless a further field has a default", "statement": "If data classes and plain classes gain fields as in C64, the new version reads every document that satisfies the schema of the old version (under the conditions of C33), and such a document satisfies the schema generated from the new version as well, provided it is exact for the new version (C59): in particular every further field of a class of which the document has an object is Optional, and no other alternative of a union comes to accept the document. Exceptions: a further field that has a default but is not Optional is required by the new schema, so every old document violates it although the new version reads it; a further Optional field can make a second alternative of a union accept a document, which oneOf rejects; the old schema rejects documents with the further properties.", "quantifier": "all programs and new versions of them, all types, all schema documents generated from either, all JSON documents", "why_tests_cant": "Tests compare one schema with documents written by the same version; the claim relates two schemas and every document of the older one.", "anchors": ["strong_typing/schema.py:182-546 JsonSchemaGenerator", "strong_typing/deserializer.py:565-794 ClassDeserializer, DataclassDeserializer"]}
{"id": "C66", "title": "Types are classified and taken apart consistently", "statement": "is_generic_list, is_generic_set, is_generic_dict, is_type_literal, is_type_enum, is_dataclass_type, is_named_tuple_type and is_type_optional/is_type_union answer for the type that they are named after, also when it is Annotated (except is_named_tuple_type, which denies annotated named tuples), and no two of them hold of one type. unwrap_generic_list, unwrap_generic_set and unwrap_generic_dict return the types of items such that list, set or dict of these has the same values as the type given; metadata of a list or set is added to that of its items, metadata of a dict is dropped; they raise ValueError only for types that are not lists or sets, and succeed only for lists, sets and tuples of one item. unwrap_literal_values, unwrap_literal_types and unwrap_literal_value return the constants of the literal, which are its values, and their types. dataclass_fields lists names and types of fields such that the instances are those that have these; dataclass_field_by_name and get_class_property find the field of the name. Exceptions: unwrap_generic_list does not check that the type is a list; metadata of lists is confused with metadata of items; get_class_property returns the text of a forward reference for data classes.", "quantifier": "all types as Python builds them, all programs, all values", "why_tests_cant": "The set of types is infinite and closed under nesting and annotation; that two functions never agree on a type, and that a type taken apart has the same values, are universal statements.", "anchors": ["strong_typing/inspection.py:98-227 evaluate_type, is_dataclass_type, dataclass_fields, dataclass_field_by_name, is_named_tuple_type, is_type_enum", "strong_typing/inspection.py:357-509 is_type_literal, unwrap_literal_*, is_generic_*, unwrap_generic_*", "strong_typing/inspection.py:568-574 get_class_property"]}
{"id": "C67", "title": "Classes that inherit are treated as if all fields were written out", "statement": "For every name, the resolved annotations of a class (get_resolved_hints, from which it is read) have the annotation of the first class in its method resolution order that declares it, evaluated in the module of that class; they exist just if all annotations of all these classes can be evaluated. If the class and all its bases are data classes, the fields that are written (get_class_properties) and those that are read have the same names in the same order. With single inheritance, or if no field is declared twice, the fields, with types and defaults, are those of the first declaring class, too, so that a class within one module is written, described and read exactly like one class with all fields written out; the same holds for classes of which none is a data class. Exceptions: in a diamond, a field overridden on one side is written with one type and read with another; an inherited forward reference is looked up in the module of the inheriting class when it is written; in a class that is not decorated itself, added fields are ignored and overridden ones are written with one type and read with another; an overridden annotation that cannot be evaluated makes a class unreadable.", "quantifier": "all class hierarchies with consistent method resolution orders, all programs", "why_tests_cant": "The shapes of hierarchies are unbounded, and what counts is that three ways of collecting fields (dataclasses.fields, typing.get_type_hints, and their combination in the deserializer) agree on all of them.", "anchors": ["strong_typing/inspection.py:554-565 get_resolved_hints, get_class_properties", "strong_typing/inspection.py:86-95 evaluate_member_type", "strong_typing/deserializer.py:718-755 DataclassDeserializer", "strong_typing/deserializer.py:770-792 TypedClassDeserializer"]}
{"id": "C68", "title": "Instances of subclasses are written as instances of the annotated class", "statement": "Where a value holds, in a place annotated with a class (a field, an item of a list, set or tuple, a value of a dict), an object of another class that has the fields of the first, such as an instance of a subclass, exactly the document is written that is written with an instance of the annotated class with the same field values; an object with such values in its fields is therefore read back as the one with instances of the annotated classes. Exceptions: what the subclass adds is lost without notice; in a union, and thus in an Optional field, the object is written with all fields of its own class, and the document is rejected by the annotated class unless unknown properties are skipped.", "quantifier": "all programs, all annotations without unions on the way to the object, all values", "why_tests_cant": "The objects may occur at any depth and any number of places of a value of any type; that a document does not depend on them is a statement about all pairs of values.", "anchors": ["strong_typing/serializer.py:193-307 typed serializers, TypedClassSerializer", "strong_typing/serializer.py:321-323 UnionSerializer", "strong_typing/serializer.py:409-535 _create_serializer, object_to_json"]}
{"id": "C69", "title": "How objects are made of the values read", "statement": "Let values have been read for all the fields of a data class, none of which is called `self`. If the class is not frozen, the object has exactly these values as attributes; making it never fails, and it depends neither on `__post_init__` nor on `init=False` nor on `InitVar`s. If the class is frozen, and all of its fields are parameters of `__init__` and all `InitVar`s have defaults, the object is the one that the constructor makes of the values, with `__post_init__` run on them, and an exception raised there is raised to the caller; otherwise TypeError is raised whatever has been read. Without `__post_init__`, `InitVar`s and `init=False`, frozen or not, the object is the one the constructor makes and has the values read. A class (data class or named tuple) that has a field called `self` is never read: TypeError is raised for all documents. So `__post_init__` does not protect the invariants of objects read of classes that are not frozen, what it computes is missing in them, and a frozen object whose `__post_init__` changes fields is not the same after it is written and read.", "quantifier": "all data classes (fields with and without defaults and init=False, InitVar, ClassVar, any `__post_init__`), all values read", "why_tests_cant": "Quantifies over all class definitions and arbitrary `__post_init__` functions; that a function is never called, or that an error occurs for every document, is a statement about all inputs.", "anchors": ["strong_typing/deserializer.py:671-694 ClassDeserializer.parse, create", "strong_typing/deserializer.py:711-712 NamedTupleDeserializer.create", "strong_typing/deserializer.py:758-769 FrozenDataclassDeserializer", "strong_typing/deserializer.py:967-972 choice of the deserializer", "strong_typing/inspection.py:801-809 create_object"]}
{"id": "C70", "title": "From which schemas types are made, and how the classes are named", "statement": "Let a schema document be built of: objects with a list of properties and no others allowed, free objects, arrays, alternatives, texts (with formats and bounds), enumerations of texts, booleans, whole numbers, numbers without exclusive bounds and steps, constants, and references to definitions that come earlier; each with its own keywords only and values of the right types, properties named by identifiers that are no keywords and do not begin with two underscores, enumerations whose values give distinct names, defaults only where schema_to_type allows them, and definitions that are objects or enumerations. Then schema_to_type makes a type and raises no exception, if the new classes have distinct names that are not in use in the module. The classes are called after the path to them: the definition or the class name given, then the names of the properties, joined by two underscores; items of arrays and members of alternatives add nothing. Exactly these classes are added, in the order of definition, inner ones first, and nothing else in the program changes; every definition, and the type itself, can be found in the module by its name. If no property, definition or class name contains two underscores in a row or ends in one, no alternative has two members that are objects or enumerations written in place, and the class name is that of no definition, the names are distinct. Hence for such schemas that are also importable in the sense of C51, a type is made that reads all documents that satisfy the schema. Without the conditions on names two classes can have one name (`a`.`b__c` and `a__b`.`c`; two members of one alternative).", "quantifier": "all schema documents of the form described (any nesting, any number of properties, definitions and references), all programs and modules, all class names", "why_tests_cant": "That no exception is raised is a statement about infinitely many schemas of unbounded nesting; that names do not clash is a statement about all pairs of paths in them.", "anchors": ["strong_typing/classdef.py:167-186 schema_to_type", "strong_typing/classdef.py:202-366 node_to_typedef", "strong_typing/classdef.py:141-164 enum_safe_name, enum_values_to_type", "strong_typing/classdef.py:25-129 schema nodes"]}
{"id": "C71", "title": "Schemas of ordinary classes can be made into types again", "statement": "Let a program generate the schema of a class that is not registered. If the class, and every class registered under a name that the schema defines, is built of: booleans, integers, floats, texts, dates, times, durations, UUIDs, integers with a range and texts with length bounds, lists, unions that are not optional types, literals with one value, enumerations of texts or of integers, classes with fields (registered or not), and texts that name definitions; with fields whose JSON names are distinct identifiers, no keywords, and do not begin with two underscores; class attributes that are written as defaults only on properties whose type is the same scalar type or the enumeration (times without fractions of seconds in the offset, durations that are not negative); enumerations of texts whose values give distinct member names; and registered classes that, in the order of their names, refer only to earlier ones, without examples or schemas of their own: then schema_to_type makes a type from the schema, in any program in whose module the names of the new classes are free and distinct, and raises no exception. The new classes have exactly the names that follow from the paths to them. The new class and the definitions are copies of the original ones in the sense of C57; and what the first program writes for any value of the class the second reads, if no property is named like a keyword with an underscore, no member of an enumeration gets a private name, and alternatives are told apart in the sense of C51. No generated schema has a keyword, property or definition twice. A default on a property with a union type is one that is generated and then refused.", "quantifier": "all programs, catalogs and classes of the form described (any nesting, number of classes and definitions), all receiving programs and modules, all values of the class", "why_tests_cant": "A test generates one schema and reads it back; that no type of a family closed under lists, unions and classes leads to a schema that the reader refuses relates two independent recursive translations over infinitely many types.", "anchors": ["strong_typing/schema.py:227-485 type_to_schema", "strong_typing/schema.py:487-546 classdef_to_schema", "strong_typing/classdef.py:167-186 schema_to_type", "strong_typing/classdef.py:202-366 node_to_typedef", "strong_typing/classdef.py:25-129 schema nodes"]}
{"id": "C72", "title": "The text of a type is a Python expression for it", "statement": "python_type_to_str(t) returns the text of a Python expression whose value equals t, given the names of the classes and of typing and auxiliary types: built-in and auxiliary types by their names, list/set/dict/tuple/Union/Optional/Annotated/Literal with their arguments in order (or unions with |), literals and the arguments of annotations as Python literals with strings and bytes quoted and escaped. This holds for all types except the empty tuple type, literals with members of enumerations and types with exactly the annotations of an auxiliary type in another order, for which the text is no expression.", "quantifier": "all types of the form described, any nesting, all strings and numbers within, both notations for unions", "why_tests_cant": "A test compares the text of a few types; escaping of all characters, signs and digits of all numbers and arbitrary nesting need induction.", "anchors": ["strong_typing/name.py:TypeFormatter, python_type_to_str", "strong_typing/auxiliary.py:_compact_dataclass_repr"]}
{"id": "C73", "title": "What a module declares is listed once per name, in the order of the names", "statement": "get_module_classes(m) and get_module_functions(m) return exactly the classes (functions) that names of the module are bound to and whose __module__ is the name of the module: one item for each such name, in the order of the names, whatever the order in which the names were bound; so nothing imported is listed, and nothing is listed twice unless it has an alias. create_module(name) raises KeyError if there is a module of that name; otherwise it enters a module of that name that declares nothing, and leaves all other modules as they are. get_exceptions(m) maps exactly those names of the module that are bound to exception classes, imported ones included, to these; parse_type assigns a documented exception the class that its name stands for in the defining module, or else in builtins.", "quantifier": "all modules: any namespace, any bindings; all tables of modules", "why_tests_cant": "A test lists the classes of one module; the order of definition, imports and aliases vary without bound.", "anchors": ["strong_typing/inspection.py:get_module_classes, get_module_functions, create_module", "strong_typing/docstring.py:get_exceptions, parse_type"]}
{"id": "C74", "title": "Evaluation of annotations", "statement": "get_resolved_hints returns the annotations of all fields of a class, under their names and in their order, each standing for exactly the same values as the annotation that was written, whether names in quotes stand for classes, for aliases or for texts, and also if names are defined in terms of themselves (only such names are left unevaluated in the result); it fails only if some annotation mentions, directly or through other names, a name that is not defined, and then with NameError.", "quantifier": "all programs, classes and annotations as Python builds them", "why_tests_cant": "Names may lead to each other in cycles and through any number of definitions; a test follows a few of them.", "anchors": ["strong_typing/inspection.py:get_resolved_hints, get_class_properties, get_class_property"]}
{"id": "C75", "title": "Names in quotes mean what they mean in the module", "statement": "evaluate_type(typ, module) on an identifier in quotes returns the object that the module binds it to, or else the one that builtins binds it to, and raises NameError if there is neither; a ForwardRef is followed further through names bound to texts. Exceptions: the names typ and module, which always stand for the parameters of evaluate_type itself, even if the module defines classes of these names.", "quantifier": "all namespaces, all identifiers, chains of names of any length", "why_tests_cant": "A test evaluates a few names; which names clash with variables of the implementation shows only if every name is considered.", "anchors": ["strong_typing/inspection.py:evaluate_type, evaluate_member_type"]}
