{
 "claims": [
  {
   "property": "C01",
   "status": "proved",
   "theorems": [
    "C01_roundtrip",
    "C01_apart",
    "C01_namedtuple_refuted",
    "C01_default_refuted",
    "C01_hidden_alias_refuted",
    "C01_union_refuted"
   ],
   "note": "The conditions are stated as faithful (types) and regular (values) in SpecRoundTrip.v; C01_apart gives a syntactic criterion for untagged unions. The refuted theorems show what is lost without them: keyword-suffixed names in named tuples, None in an optional field with another default, an alias inside a string annotation, alternatives written alike."
  },
  {
   "property": "C02",
   "status": "proved",
   "theorems": [
    "C02_type_soundness"
   ],
   "note": "All types, documents and programs with well-formed classes (names distinct, defaults of the declared type, from_json returns instances)."
  },
  {
   "property": "C03",
   "status": "proved",
   "theorems": [
    "C03_total",
    "C03_error",
    "C03_serializer",
    "C03_recursive_refuted",
    "C03_annotated_refuted"
   ],
   "note": "Storable values: every object is of a class whose types unfold finitely and can be written. The refuted theorems show that recursion through typed containers and annotated forward references lie outside for a reason."
  },
  {
   "property": "C04",
   "status": "proved",
   "theorems": [
    "C04_exception_discipline",
    "C04_unhashable_item_refuted",
    "C04_unhashable_tag_refuted",
    "C04_untyped_namedtuple_rejected"
   ],
   "note": "The exceptions named in the statement (hooks, unguarded aliases, unhashable tags) are hypotheses of the theorem; the refuted theorems show that each is needed."
  },
  {
   "property": "C05",
   "status": "partial",
   "theorems": [
    "C05_union_first_partial",
    "C05_union_fails_partial",
    "C05_union_first_refuted"
   ],
   "note": "Exact characterisation in both directions, with rejection meaning JsonKeyError or JsonTypeError. The property as stated is false: ValueError, JsonValueError and OverflowError of an early member abort the union (witness Union[date, str] on \"hello\")."
  },
  {
   "property": "C06",
   "status": "proved",
   "theorems": [
    "C06_tag_names_class",
    "C06_tag_unique",
    "C06_tag_selects",
    "C06_tag_missing",
    "C06_tag_wrong",
    "C06_order_single",
    "C06_order_independent",
    "C06_order_enum_refuted",
    "C06_order_nested_refuted",
    "C06_tag_name_refuted"
   ],
   "note": "Iteration order of sets is an arbitrary permutation function of the program. The refuted theorems show that the provisos on several tags are needed, and that a tag whose JSON name differs from its field name is not recognised."
  },
  {
   "property": "C07",
   "status": "proved",
   "theorems": [
    "C07_unknown_rejected",
    "C07_unknown_ignored",
    "C07_extra_ignored"
   ],
   "note": "Documents are compared at every depth by the relation alike in SpecFields.v. Values of tag properties of tagged unions count as known."
  },
  {
   "property": "C08",
   "status": "proved",
   "theorems": [
    "C08_fields",
    "C08_errors",
    "C08_received_once"
   ],
   "note": "Exact characterisation of success (field values) and of the exception raised."
  },
  {
   "property": "C09",
   "status": "proved",
   "theorems": [
    "C09_permuted",
    "C09_rejected",
    "C09_exact",
    "C09_settled",
    "C09_union_refuted",
    "C09_exception_refuted"
   ],
   "note": "Statement amended with the exceptions, shown to be real by the refuted theorems. C09_settled gives conditions on types under which unions are unaffected (they hold of JsonType, for example). Documents have distinct names of properties (json_wf)."
  },
  {
   "property": "C10",
   "status": "proved",
   "theorems": [
    "C10_transparent",
    "C10_same_name_refuted"
   ],
   "note": "The cache and the objects it shares are modelled as a store (DeserCache.v); a past is any sequence of calls that succeeded with the same options, failed without entering anything, or concerned unrelated types. Needs that (module, __name__) identifies a class: C10_same_name_refuted."
  },
  {
   "property": "C11",
   "status": "partial",
   "theorems": [
    "C11_unrelated_partial",
    "C11_first_wins",
    "C11_refuted",
    "C11_strict_refuted"
   ],
   "note": "As stated it is false of the code (both directions have a witness): the options of the first call that met a class stay in force (C11_first_wins). It holds for calls on types with no class or alias in common."
  },
  {
   "property": "C12",
   "status": "partial",
   "theorems": [
    "C12_unrelated_partial",
    "C12_poisoned",
    "C12_refuted"
   ],
   "note": "As stated it is false of the code: after any failure to create the deserializer of a class, the next call raises AttributeError on every object (C12_poisoned). It holds for types with no class or alias in common with the failed one."
  },
  {
   "property": "C13",
   "status": "proved",
   "theorems": [
    "C13_build_terminates",
    "C13_parse_terminates",
    "C13_budget_immaterial",
    "C13_unguarded_diverges"
   ],
   "note": "Guarded recursion as an inductive predicate on types; the complementary theorem shows that an unguarded alias diverges."
  },
  {
   "property": "C14",
   "status": "proved",
   "theorems": [
    "C14_image",
    "C14_properties",
    "C14_omission",
    "C14_collision_refuted"
   ],
   "note": "For instances of annotated classes whose attributes have the declared types; C14_image specifies what is written for every kind of value. C14_collision_refuted shows that JSON names must differ."
  },
  {
   "property": "C15",
   "status": "proved",
   "theorems": [
    "C15_property_name",
    "C15_names_distinct"
   ],
   "note": ""
  },
  {
   "property": "C16",
   "status": "proved",
   "theorems": [
    "C16_timedelta_roundtrip",
    "C16_timedelta_injective",
    "C16_timedelta_text_meaning",
    "C16_negative_rejected",
    "C16_timedelta_roundtrip_refuted"
   ],
   "note": "Round trip holds for every non-negative duration; negative durations (outside the stated property) are shown never to round trip."
  },
  {
   "property": "C17",
   "status": "proved",
   "theorems": [
    "C17_timedelta_parse_sound",
    "C17_timedelta_parse_complete",
    "C17_timedelta_parse_errors"
   ],
   "note": "Grammar and value given declaratively in SpecTimeDelta.v."
  },
  {
   "property": "C18",
   "status": "proved",
   "theorems": [
    "C18_bytes_roundtrip",
    "C18_bytes_canonical",
    "C18_bytes_parse_sound",
    "C18_bytes_meaning_unique",
    "C18_bytes_accepted",
    "C18_bytes_errors"
   ],
   "note": ""
  },
  {
   "property": "C19",
   "status": "proved",
   "theorems": [
    "C19_datetime_naive_rejected",
    "C19_datetime_aware_accepted",
    "C19_datetime_text",
    "C19_datetime_roundtrip",
    "C19_subsecond_offset_lost",
    "C19_datetime_parse_aware",
    "C19_datetime_errors",
    "C19_datetime_roundtrip_refuted"
   ],
   "note": "Whole-second UTC offsets; for offsets with microseconds the loss is characterised and the round trip refuted."
  },
  {
   "property": "C20",
   "status": "proved",
   "theorems": [
    "C20_date_roundtrip",
    "C20_date_text",
    "C20_date_parse_wf",
    "C20_date_errors",
    "C20_time_roundtrip",
    "C20_time_text",
    "C20_time_parse_wf",
    "C20_time_errors",
    "C20_subsecond_offset_lost",
    "C20_time_roundtrip_refuted"
   ],
   "note": "Whole-second UTC offsets, as for C19."
  },
  {
   "property": "C21",
   "status": "proved",
   "theorems": [
    "C21_uuid_roundtrip",
    "C21_uuid_text",
    "C21_uuid_parse_total",
    "C21_ipv4_roundtrip",
    "C21_ipv4_exact",
    "C21_ipv4_parse_total",
    "C21_ipv6_roundtrip",
    "C21_ipv6_parse_total",
    "C21_texts_distinct"
   ],
   "note": "uuid and ipaddress library code modelled after CPython 3.11."
  },
  {
   "property": "C22",
   "status": "proved",
   "theorems": [
    "C22_enum_accepts",
    "C22_enum_rejects",
    "C22_enum_roundtrip"
   ],
   "note": ""
  },
  {
   "property": "C23",
   "status": "proved",
   "theorems": [
    "C23_literal_accepts"
   ],
   "note": ""
  },
  {
   "property": "C24",
   "status": "proved",
   "theorems": [
    "C24_list",
    "C24_tuple",
    "C24_tuple_mismatch",
    "C24_dict",
    "C24_set",
    "C24_set_accepts",
    "C24_set_unhashable",
    "C24_equality",
    "C24_distinct"
   ],
   "note": "C24_equality: what counts as the same item, datetimes by the instants they stand for (the calendar is given day by day)."
  },
  {
   "property": "C25",
   "status": "proved",
   "theorems": [
    "C25_topological_order"
   ],
   "note": ""
  },
  {
   "property": "C26",
   "status": "proved",
   "theorems": [
    "C26_topological_failure",
    "C26_topological_total",
    "C26_topological_cyclic_rejected",
    "C26_topological_dangling_rejected"
   ],
   "note": ""
  },
  {
   "property": "C27",
   "status": "proved",
   "theorems": [
    "C27_reachable",
    "C27_terminates",
    "C27_program",
    "C27_endless",
    "C27_alias_refuted"
   ],
   "note": "C27_terminates is exact (iff). Types are canonical (unions of at least two distinct members, not nested), as Python builds them. C27_alias_refuted: the traversal does not terminate on a recursive alias."
  },
  {
   "property": "C28",
   "status": "proved",
   "theorems": [
    "C28_sorted",
    "C28_total",
    "C28_classes_only",
    "C28_dependencies",
    "C28_dependency_refuted"
   ],
   "note": "Without dependency_fn as stated; the internal class _ROOT is in the outcome as well. With dependency_fn, C28_dependencies says which orderings are guaranteed and C28_dependency_refuted shows one that is lost."
  },
  {
   "property": "C29",
   "status": "proved",
   "theorems": [
    "C29_image",
    "C29_valid",
    "C29_regular",
    "C29_typed",
    "C29_rejects",
    "C29_kinds",
    "C29_tags",
    "C29_sets",
    "C29_address_refuted",
    "C29_overlap_refuted",
    "C29_identifier_refuted"
   ],
   "note": "C29_valid is about single values that fit, C29_typed about all values of a type; C29_image covers recursive classes too, whose serializers are never finished. The refuted theorems show that provisos are needed (the one on names: C32_keyword_refuted)."
  },
  {
   "property": "C30",
   "status": "proved",
   "theorems": [
    "C30_references",
    "C30_pointers",
    "C30_text_refuted",
    "C30_annotated_refuted"
   ],
   "note": "The refuted theorems show that the exceptions are real: list[\"Point\"] and Annotated[\"Point\", ...] with Point registered give references that lead nowhere."
  },
  {
   "property": "C31",
   "status": "proved",
   "theorems": [
    "C31_lookup",
    "C31_by_type",
    "C31_by_name",
    "C31_rejected",
    "C31_identifier",
    "C31_same_identifier_refuted"
   ],
   "note": "Arbitrary sequences of registrations, including ones that raise. C31_same_identifier_refuted shows that the condition on identifiers is needed."
  },
  {
   "property": "C32",
   "status": "proved",
   "theorems": [
    "C32_class",
    "C32_document",
    "C32_definition",
    "C32_accepts",
    "C32_extra_rejected",
    "C32_missing_rejected",
    "C32_names",
    "C32_keyword_refuted",
    "C32_namedtuple_refuted",
    "C32_empty_refuted"
   ],
   "note": "Stated on the schema itself and, through the semantics of JSON Schema in SpecSchema.v, on documents. The refuted theorems show that the exceptions are real: the schema of a field class_ calls it \"class_\" and rejects what the serializer writes."
  },
  {
   "property": "C33",
   "status": "proved",
   "theorems": [
    "C33_readable",
    "C33_typed",
    "C33_kinds",
    "C33_float_refuted",
    "C33_key_refuted",
    "C33_empty_refuted",
    "C33_tuple_refuted",
    "C33_name_refuted",
    "C33_union_refuted",
    "C33_set_refuted",
    "C33_address_refuted"
   ],
   "note": "Recursive types included. The refuted theorems show that the provisos are needed: each gives a document that satisfies the schema and is not read."
  },
  {
   "property": "C34",
   "status": "proved",
   "theorems": [
    "C34_round_trip",
    "C34_full",
    "C34_reparse",
    "C34_long_refuted",
    "C34_colon_refuted",
    "C34_spacing_refuted"
   ],
   "note": "The refuted theorems show that the conditions are needed; for the first two parse_text itself produces such docstrings."
  },
  {
   "property": "C35",
   "status": "proved",
   "theorems": [
    "C35_layout",
    "C35_params",
    "C35_raises",
    "C35_returns",
    "C35_see",
    "C35_description",
    "C35_long",
    "C35_cleaned",
    "C35_error",
    "C35_total_refuted"
   ],
   "note": "Stated on the unique structure (description, fields) of the cleaned text. A line that starts with a colon and has no second one makes parse_text raise ValueError, C35_error."
  },
  {
   "property": "C36",
   "status": "proved",
   "theorems": [
    "C36_total",
    "C36_names",
    "C36_properties",
    "C36_qualified",
    "C36_flat",
    "C36_required",
    "C36_required_listed",
    "C36_rest",
    "C36_schema",
    "C36_plain_names_refuted",
    "C36_dotted_refuted",
    "C36_optional_refuted",
    "C36_empty_refuted",
    "C36_required_listed_refuted"
   ],
   "note": "Statement amended with the exceptions, each shown to be real: leaves with equal flat names replace one another (without qualified names, or with dots in names), names required in an optional object become required, an object without listed properties disappears even if required."
  },
  {
   "property": "C37",
   "status": "proved",
   "theorems": [
    "C37_smallest",
    "C37_beyond",
    "C37_declared",
    "C37_enum",
    "C37_format",
    "C37_bounds"
   ],
   "note": ""
  },
  {
   "property": "C38",
   "status": "partial",
   "theorems": [
    "C38_label",
    "C38_safe_name",
    "C38_stable",
    "C38_enum_partial",
    "C38_enum_members",
    "C38_enum_rejected",
    "C38_private_refuted",
    "C38_mro_refuted"
   ],
   "note": "The claim on labels is proved in full. The claim on enumerations is false as stated: a label of the form _Class__x is dropped, and \"mro\" and the empty string raise ValueError; C38_enum_members and C38_enum_rejected say what happens in every case."
  },
  {
   "property": "C39",
   "status": "partial",
   "theorems": [
    "C39_characterised",
    "C39_complete",
    "C39_sound_partial",
    "C39_tuple_refuted",
    "C39_unsupported",
    "C39_outcome",
    "C39_literal_refuted",
    "C39_pep604_refuted"
   ],
   "note": "C39_characterised says exactly when the outcome is True, C39_outcome what it is for all types, exceptions included. As stated the property is false: tuples of another length pass, and Literal, Annotated and X | Y types raise TypeError. Forward references are not modelled."
  },
  {
   "property": "C40",
   "status": "partial",
   "theorems": [
    "C40_pred_partial",
    "C40_value_partial",
    "C40_typed_partial",
    "C40_arguments",
    "C40_visited",
    "C40_optional_refuted",
    "C40_untyped_refuted",
    "C40_address_refuted",
    "C40_annotated_refuted",
    "C40_outcome"
   ],
   "note": "The outcome is characterised exactly by the leaves that are visited; C40_outcome characterises it for values of any shape, exceptions included. As stated the property is false: nothing below an optional type, in an unparametrised container or of an IP address is visited, and annotated fields of data classes raise TypeError."
  },
  {
   "property": "C41",
   "status": "proved",
   "theorems": [
    "C41_unwrap_optional",
    "C41_members",
    "C41_unwrap_optional_fails",
    "C41_is_optional",
    "C41_unwrap_union",
    "C41_is_union",
    "C41_rewrap",
    "C41_hints_canonical"
   ],
   "note": "For types as Python builds them (canonical); evaluation of annotations preserves that form."
  },
  {
   "property": "C42",
   "status": "partial",
   "theorems": [
    "C42_members_partial",
    "C42_overridden",
    "C42_name_clash_refuted",
    "C42_private_refuted"
   ],
   "note": "A clash of names does not raise: the new value replaces the old one (C42_overridden). Names of the form _Class__x are dropped. Values of members are JSON scalars."
  },
  {
   "property": "C43",
   "status": "proved",
   "theorems": [
    "C43_transparent",
    "C43_create"
   ],
   "note": "The table, its misses and hits, and what exceptions leave in it are modelled (SerCache.v). Custom to_json methods may create serializers themselves; their outcome is a function of the value."
  },
  {
   "property": "C44",
   "status": "proved",
   "theorems": [
    "C44_str_total",
    "C44_str",
    "C44_str_injective",
    "C44_name_given",
    "C44_name_fails",
    "C44_name",
    "C44_optional_refuted",
    "C44_shadow_refuted",
    "C44_name_annotation_refuted",
    "C44_name_ambiguous_refuted",
    "C44_name_nested_refuted",
    "C44_comma_refuted"
   ],
   "note": "Both directions of the characterisation, for both union syntaxes; repr of strings, bytes, integers and enumeration members is modelled character by character. The _refuted theorems show that each stated exception is real. Not covered: Ellipsis, Any, Self, type variables, Callable, transformations supplied by the caller (modelled, no theorem), metadata other than that of auxiliary.py."
  },
  {
   "property": "C45",
   "status": "proved",
   "theorems": [
    "C45_kinds",
    "C45_no_confusion"
   ],
   "note": ""
  },
  {
   "property": "C46",
   "status": "proved",
   "theorems": [
    "C46_int",
    "C46_bool",
    "C46_float",
    "C46_float_overflow"
   ],
   "note": ""
  },
  {
   "property": "C47",
   "status": "partial",
   "theorems": [
    "C47_literal_checked_refuted",
    "C47_as_is_partial",
    "C47_listed_partial"
   ],
   "note": "False of the code: LiteralSerializer never looks at the listed values; witness given. What holds: a field with a literal type is written as the value it holds (C47_as_is_partial), so for booleans, integers and texts the property is a listed value exactly if the field holds one (C47_listed_partial)."
  },
  {
   "property": "C48",
   "status": "proved",
   "theorems": [
    "C48_namedtuple_fields",
    "C48_namedtuple_optional_refuted"
   ],
   "note": "The refuted theorem shows that an Optional field of a named tuple may be neither absent nor null, unlike in data classes."
  },
  {
   "property": "C49",
   "status": "proved",
   "theorems": [
    "C49_dataclass",
    "C49_function",
    "C49_inherited_refuted"
   ],
   "note": "The member lists (own, inherited) and the signature are arguments of the model."
  },
  {
   "property": "C50",
   "status": "proved",
   "theorems": [
    "C50_type",
    "C50_document",
    "C50_needed",
    "C50_unique",
    "C50_optional_refuted",
    "C50_literal_refuted",
    "C50_recursive_refuted"
   ],
   "note": "Exact for type_to_schema (iff). For whole documents sufficient and necessary conditions, the latter without the identity of the types behind equal names. The _refuted theorems show types that can be (de)serialized but have no schema. Not covered: dataclass/Union extensions outside the type grammar of PyTypes.v, keys of type float."
  },
  {
   "property": "C51",
   "status": "proved",
   "theorems": [
    "C51_documents",
    "C51_class",
    "C51_program",
    "C51_order_refuted",
    "C51_builtin_refuted",
    "C51_array_refuted",
    "C51_keyword_refuted",
    "C51_free_refuted",
    "C51_name_refuted",
    "C51_label_refuted",
    "C51_union_refuted",
    "C51_self_refuted",
    "C51_bounds_refuted"
   ],
   "note": "The provisos of the statement are shown to be needed by the _refuted theorems; others show schemas for which no type is made, and that bounds are not enforced by the types. Not modelled (EUnmodelled): Decimal numbers made from exclusiveMinimum/exclusiveMaximum/multipleOf, names that the module already has, docstrings."
  },
  {
   "property": "C52",
   "status": "proved",
   "theorems": [
    "C52_reader",
    "C52_text",
    "C52_defined",
    "C52_roundtrip",
    "C52_injective",
    "C52_line",
    "C52_object",
    "C52_nan_refuted",
    "C52_digits_refuted",
    "C52_spelling_refuted"
   ],
   "note": "float.__repr__ and float(str) are parameters; the theorems assume of the floats inside the document that repr is a JSON numeral with a fraction or exponent that reads back as the number. The nesting depth that Python's json allows and the encoding of the file are not modelled. The _refuted theorems show that NaN is written as text that is no JSON, that integers of more than 4300 digits have no text, and that text read need not be the text written."
  },
  {
   "property": "C53",
   "status": "proved",
   "theorems": [
    "C53_schema",
    "C53_tuple_refuted",
    "C53_required_refuted",
    "C53_precision_refuted",
    "C53_pattern_refuted",
    "C53_registered_refuted"
   ],
   "note": "SpecMeta.v states the rules of the meta-schema for the keywords that occur; which texts are regular expressions is a parameter. Formats of the meta-schema other than regex (uri-reference for $ref) are not considered. Each condition is shown to be needed by a refuted theorem, except that of non-empty unions and of examples being a list."
  },
  {
   "property": "C54",
   "status": "proved",
   "theorems": [
    "C54_default",
    "C54_docstring",
    "C54_parse",
    "C54_otherwise",
    "C54_types",
    "C54_class",
    "C54_properties",
    "C54_described",
    "C54_inherited",
    "C54_dropped_refuted",
    "C54_override_refuted"
   ],
   "note": "Classes and functions are records of name, __doc__, properties or signature, and the exception classes of the module; each name stands for one thing (names_once). inspect.getmro and inspect.getmembers are data. C54_dropped_refuted: a docstring written by the user is dropped if it looks like a generated one. C54_override_refuted: documenting an inherited property is a TypeError."
  },
  {
   "property": "C55",
   "status": "proved",
   "theorems": [
    "C55_types",
    "C55_importable",
    "C55_self_refuted"
   ],
   "note": "shaped (SpecTypeShape.v) says which type belongs to which schema, by recursion on the schema. That references to the definition itself must be excluded is shown by C55_self_refuted. Docstrings, Decimal and names that the module already has are not modelled."
  },
  {
   "property": "C56",
   "status": "proved",
   "theorems": [
    "C56_equivalent",
    "C56_context_unused",
    "C56_serializer_context",
    "C56_texts_fail",
    "C56_equivalent_refuted"
   ],
   "note": "The modules of the caller and of strong_typing.serialization are parameters. C56_equivalent_refuted shows that json_to_generic is not \"equivalent to json_to_object\" for types with texts."
  },
  {
   "property": "C57",
   "status": "proved",
   "theorems": [
    "C57_copies",
    "C57_keywords",
    "C57_made_refuted",
    "C57_order_refuted",
    "C57_same_refuted",
    "C57_address_refuted",
    "C57_reads_refuted"
   ],
   "note": "copy (SpecMirror.v) says what a copy is. The refutations show that copies need not exist (sets, tuples, dictionaries keyed by text, bytes; registered classes that refer to one whose name comes later in the alphabet), and that they are no equal substitutes: int8 becomes int, IP addresses become any document, numbers that are no member of an enumeration are read."
  },
  {
   "property": "C58",
   "status": "proved",
   "theorems": [
    "C58_notes",
    "C58_class",
    "C58_docstrings",
    "C58_switch_refuted"
   ],
   "note": "noted, own, field_notes and definition_notes (SpecNotes.v) say which notes belong where. C58_docstrings composes the generator with the docstring parser (C54). C58_switch_refuted shows that use_descriptions=False does not silence the descriptions of fields. Docstrings and class attributes of the classes are parameters of the generator (s_short, s_long, s_props, s_attrs)."
  },
  {
   "property": "C59",
   "status": "proved",
   "theorems": [
    "C59_valid",
    "C59_same",
    "C59_bool_refuted",
    "C59_literal_refuted",
    "C59_address_refuted",
    "C59_set_refuted",
    "C59_range_refuted",
    "C59_union_refuted",
    "C59_null_refuted",
    "C59_extra_refuted",
    "C59_hook_refuted",
    "C59_default_refuted",
    "C59_enum_refuted",
    "C59_key_refuted",
    "C59_name_refuted"
   ],
   "note": "exact (SpecExact.v) lists the exceptions; one refutation for each shows that it is needed. C59_same is the equivalence, with C33."
  },
  {
   "property": "C60",
   "status": "proved",
   "theorems": [
    "C60_reads",
    "C60_writes",
    "C60_strict",
    "C60_schema",
    "C60_strict_schema",
    "C60_placeholders",
    "C60_integer_refuted",
    "C60_example_refuted",
    "C60_array_refuted",
    "C60_object_refuted",
    "C60_context_refuted"
   ],
   "note": "data_of, anywhere (SpecJsonTypes.v) say what the data of a document is and what occurs in it. library and attempts (JsonTypes.v) are the catalogs that a program can reach. C60_schema and C60_strict_schema characterise the documents that satisfy and violate the schemas; the refutations show where reader, schema and documentation differ."
  },
  {
   "property": "C61",
   "status": "proved",
   "theorems": [
    "C61_registered",
    "C61_coherent",
    "C61_valid",
    "C61_order",
    "C61_names_refuted"
   ],
   "note": "for all programs and all sequences of decorations: which classes are registered and under what names; unambiguous names give the coherent catalog that C29 to C33, C57 and C59 ask for; values satisfy the schemas; permutations of the decorations give equal schemas. Two decorated classes of one name are accepted and confused (refutation)."
  },
  {
   "property": "C62",
   "status": "proved",
   "theorems": [
    "C62_rewritten",
    "C62_well_formed",
    "C62_stable",
    "C62_stable_refuted"
   ],
   "note": "for all programs, types and documents: the relation between a document and what is written for the object it is read as; written documents are well formed if those of to_json hooks are; for faithful types the rewritten document is read as the same object. For types not written faithfully (C01) stability fails (refutation)."
  },
  {
   "property": "C63",
   "status": "proved",
   "theorems": [
    "C63_exchange",
    "C29_regular",
    "C63_registered_refuted"
   ],
   "note": "composition of C29 (valid documents), C62 (well-formed documents) and C51 (documents of a schema are read by the types made from it), for all pairs of programs; the exception for registered classes at the top is shown by a refutation."
  },
  {
   "property": "C64",
   "status": "proved",
   "theorems": [
    "C64_backward",
    "C64_forward",
    "C64_old_to_new",
    "C64_new_to_old",
    "C64_strict_refuted",
    "C64_skipped_refuted",
    "C64_union_refuted",
    "C64_literal_refuted",
    "C64_required_refuted"
   ],
   "note": "simulation between the two versions by induction on the reading, in both directions, with the same union decisions; each exception of the statement is shown by a refutation."
  },
  {
   "property": "C65",
   "status": "proved",
   "theorems": [
    "C65_read",
    "C65_valid",
    "C65_default_refuted",
    "C65_union_refuted",
    "C65_forward_refuted"
   ],
   "note": "composition of C33 (documents of the old schema are read), C64 (also by the new version) and C59 (exact documents that are read satisfy the schema); each exception is shown by a refutation with a document that both versions read."
  },
  {
   "property": "C66",
   "status": "proved",
   "theorems": [
    "C66_answers",
    "C66_exclusive",
    "C66_list",
    "C66_set",
    "C66_dict",
    "C66_rejected",
    "C66_taken",
    "C66_literal",
    "C66_evaluate",
    "C66_fields",
    "C66_by_name",
    "C66_property",
    "C66_named_tuple_refuted",
    "C66_unchecked_refuted",
    "C66_metadata_refuted",
    "C66_text_refuted"
   ],
   "note": "classification against a small specification of what each question is about; item types, literals and fields against the values of types (has_type); each exception is shown by a refutation."
  },
  {
   "property": "C67",
   "status": "proved",
   "theorems": [
    "C67_rule",
    "C67_evaluated",
    "C67_names",
    "C67_fields",
    "C67_flat",
    "C67_plain",
    "C67_diamond_refuted",
    "C67_module_refuted",
    "C67_undecorated_refuted",
    "C67_overridden_refuted"
   ],
   "note": "induction on the order of definition of classes, names by an algebra of ordered updates, fields against the rule of attribute lookup; each exception is shown by a refutation."
  },
  {
   "property": "C68",
   "status": "proved",
   "theorems": [
    "C68_written",
    "C68_document",
    "C68_read",
    "C68_lost_refuted",
    "C68_union_refuted"
   ],
   "note": "induction on the construction of the serializer, for every value and depth; reading by C01. What is lost, and the inconsistency of unions, are shown by refutations."
  },
  {
   "property": "C69",
   "status": "proved",
   "theorems": [
    "C69_mutable",
    "C69_frozen",
    "C69_frozen_never",
    "C69_self",
    "C69_constructor",
    "C69_post_init_refuted",
    "C69_twice_refuted"
   ],
   "note": "for all class definitions, values and __post_init__ functions; the constructor is the __init__ of CPython 3.11, modelled from dataclasses.py. The three consequences at the end are shown by witnesses."
  },
  {
   "property": "C70",
   "status": "proved",
   "theorems": [
    "C70_made",
    "C70_names",
    "C70_reader",
    "C70_clash_refuted",
    "C70_members_refuted"
   ],
   "note": "mutual induction on the schemas of SpecMake.v: each is read as a node of the right class, and made into a type in a growing program; names by induction on paths. C70_reader composes with C51. What happens to classes that share a name is not modelled."
  },
  {
   "property": "C71",
   "status": "proved",
   "theorems": [
    "C71_well_formed",
    "C71_forms",
    "C71_regular",
    "C71_importable",
    "C71_copies",
    "C71_exchange",
    "C71_default_refuted"
   ],
   "note": "induction on the generator for the types of SpecSend.v: what it writes, with the title, description and default added to it, is of the forms of SpecMake.v; definitions by an invariant of the loop that collects them; then C70 makes the type, C57 says that it is a copy and C63 that it reads the values. The family is sufficient, not necessary."
  },
  {
   "property": "C72",
   "status": "proved",
   "theorems": [
    "C72_expression",
    "C72_tuple_refuted",
    "C72_member_refuted"
   ],
   "note": "Relative to the grammar of Python expressions in SpecNotation.v (numerals, string and bytes literals with their escapes, subscripts, the operator for unions). The refuted theorems show two of the exceptions that the statement names; C44_comma_refuted shows the third."
  },
  {
   "property": "C73",
   "status": "proved",
   "theorems": [
    "C73_listed",
    "C73_order",
    "C73_once",
    "C73_alias_refuted",
    "C73_create",
    "C73_exceptions",
    "C73_raises",
    "C73_declared_refuted"
   ],
   "note": "Namespaces, kinds of objects and the names of their modules are data; inspect.getmembers is modelled after CPython 3.11. C73_alias_refuted shows that aliases do lead to repetitions."
  },
  {
   "property": "C74",
   "status": "proved",
   "theorems": [
    "C74_meaning",
    "C74_fails",
    "C74_total",
    "C74_names"
   ],
   "note": "typing.get_type_hints is modelled after CPython 3.11; what a text evaluates to in a module is data."
  },
  {
   "property": "C75",
   "status": "proved",
   "theorems": [
    "C75_text",
    "C75_reference",
    "C75_reference_unbound",
    "C75_hidden",
    "C75_any_name_refuted"
   ],
   "note": "For texts that are identifiers and objects that are classes, texts, references or modules; eval and ForwardRef._evaluate are modelled after CPython 3.11. C75_any_name_refuted shows that the exception in the statement is needed."
  }
 ]
}