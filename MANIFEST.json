{
 "claims": [
  {
   "property": "C01",
   "status": "proved",
   "theorems": [
    "C01_round_trip"
   ],
   "note": "instances canonical in the sense of Canon.v; classes healthy and readable"
  },
  {
   "property": "C02",
   "status": "proved",
   "theorems": [
    "C02_trailing_data"
   ],
   "note": "classes without read-to-end field"
  },
  {
   "property": "C03",
   "status": "proved",
   "theorems": [
    "C03_pack_write_agrees",
    "C03_pack_into_agrees",
    "C03_pack_into_too_small",
    "C03_pack_into_too_small_rest_refuted",
    "C03_program"
   ],
   "note": "pack_into of a class with a read-to-end string grows a too small buffer: refuted separately"
  },
  {
   "property": "C04",
   "status": "proved",
   "theorems": [
    "C04_region",
    "C04_region_rest_refuted"
   ],
   "note": "same exception as C03"
  },
  {
   "property": "C05",
   "status": "proved",
   "theorems": [
    "C05_read_agrees",
    "C05_from_agrees",
    "C05_three_methods",
    "C05_from_read_any",
    "C05_unpack_read_any",
    "C05_any_data",
    "C05_any_counted_refuted",
    "C05_any_net_refuted",
    "C05_any_terminated_refuted"
   ],
   "note": "on packed data, classes for which all three methods work (terminated strings do not with unpack_from); on arbitrary data for classes without counted, NET and terminated strings, whose exclusion is shown necessary by refutations"
  },
  {
   "property": "C06",
   "status": "proved",
   "theorems": [
    "C06_size_after_packing",
    "C06_size_after_read",
    "C06_size_after_unpack_from",
    "C06_conditional_class_refuted",
    "C06_size_after_unpack",
    "C06_program",
    "C06_program_read"
   ],
   "note": "a class consisting of one conditional field has no size: refuted separately"
  },
  {
   "property": "C07",
   "status": "proved",
   "theorems": [
    "C07_stream_of_objects",
    "C07_program"
   ],
   "note": "any list of instances of any classes of the table"
  },
  {
   "property": "C08",
   "status": "proved",
   "theorems": [
    "C08_pack_any_state",
    "C08_pack_after_any_history",
    "C08_pack_write_any_state",
    "C08_unpack_any_state",
    "C08_unpack_from_any_state",
    "C08_unpack_read_any_state",
    "C08_unpack_into_object_any_state"
   ],
   "note": "for class tables in the fragment 'healthy' (Pure.v classes_ok)"
  },
  {
   "property": "C09",
   "status": "proved",
   "theorems": [
    "C09_limit_pack",
    "C09_limit_unpack",
    "C09_limit_unpack_into",
    "C09_pack_any_depth",
    "C09_round_trip_any_depth",
    "C09_binary_trees"
   ],
   "note": "limit independence for every class table; sufficient limits for packing every instance; round trip for canonical instances"
  },
  {
   "property": "C10",
   "status": "proved",
   "theorems": [
    "C10_join_layout",
    "C10_join_general_refuted",
    "C10_join_checks_byte_order"
   ],
   "note": "formats that overlap with more specifiers following are dropped: refuted separately"
  },
  {
   "property": "C11",
   "status": "proved",
   "theorems": [
    "C11_repeat_layout",
    "C11_repeat_bounds",
    "C11_matmul_layout",
    "C11_repeat_general_refuted"
   ],
   "note": "formats whose ends overlap: refuted separately"
  },
  {
   "property": "C12",
   "status": "proved",
   "theorems": [
    "C12_integers",
    "C12_array_pack",
    "C12_portable_pack",
    "C12_portable_write",
    "C12_portable_unpack",
    "C12_tuple_refuted",
    "C12_union_refuted",
    "C12_unicode_refuted",
    "C12_net_refuted",
    "C12_nested_refuted",
    "C12_statement_pack",
    "C12_statement_unpack",
    "C12_statement_unpack_from",
    "C12_statement_unpack_read",
    "C12_statement_refuted",
    "C12_exchange",
    "C12_read_all",
    "C12_file"
   ],
   "note": "integers, array headers, and independence of the host for fields that with_byte_order reaches; tuples, unions, unicode, NET strings and nested classes keep their own order: refuted separately. PropsStatement.v: for programs of class statements whose hints are `anywhere` (read off the text), packing and all reading methods agree on both machines; PropsExchange.v: objects and files written on one are read back on the other"
  },
  {
   "property": "C13",
   "status": "proved",
   "theorems": [
    "C13_last_wins",
    "C13_idempotent",
    "C13_num_values",
    "C13_final",
    "C13_instance_pack",
    "C13_instance_back"
   ],
   "note": ""
  },
  {
   "property": "C14",
   "status": "proved",
   "theorems": [
    "C14_accepted",
    "C14_inherited",
    "C14_trailing",
    "C14_field_trailing",
    "C14_union_default_refuted",
    "C14_self_refuted",
    "C14_class",
    "C14_class_rejected",
    "C14_subclass_rejected",
    "C14_array_item"
   ],
   "note": "union defaults and Self are not checked: refuted separately"
  },
  {
   "property": "C15",
   "status": "proved",
   "theorems": [
    "C15_flat",
    "C15_pack_runs",
    "C15_pack",
    "C15_pack_error",
    "C15_instance_pack",
    "C15_unpack",
    "C15_fields_native_refuted"
   ],
   "note": "explicit byte order or unaligned layouts for concatenation of single fields; native alignment refuted separately"
  },
  {
   "property": "C16",
   "status": "proved",
   "theorems": [
    "C16_pack",
    "C16_too_long",
    "C16_unpack",
    "C16_empty_pack_refuted",
    "C16_empty_unpack_refuted",
    "C16_byte_order_refuted"
   ],
   "note": "non-empty values in the default byte order; empty values and other byte orders cannot be packed: refuted separately"
  },
  {
   "property": "C17",
   "status": "proved",
   "theorems": [
    "C17_pack",
    "C17_unpack",
    "C17_unterminated",
    "C17_unpack_from",
    "C17_unpack_from_unterminated",
    "C17_double_terminator_refuted",
    "C17_unpack_from_size_refuted"
   ],
   "note": "the terminator is always appended and unpack_from reports a wrong size: refuted separately"
  },
  {
   "property": "C18",
   "status": "proved",
   "theorems": [
    "C18_pack",
    "C18_too_long",
    "C18_unpack",
    "C18_empty_refuted",
    "C18_big_endian_refuted"
   ],
   "note": "little-endian hosts and non-empty values; the rest refuted separately"
  },
  {
   "property": "C19",
   "status": "proved",
   "theorems": [
    "C19_pack",
    "C19_unpack",
    "C19_round_trip",
    "C19_encode_error",
    "C19_decode_error",
    "C19_counted",
    "C19_terminated",
    "C19_net",
    "C19_empty_refuted"
   ],
   "note": "parametric in the byte string field that carries the encoded text; empty text in a counted field refuted separately"
  },
  {
   "property": "C20",
   "status": "proved",
   "theorems": [
    "C20_pack",
    "C20_unpack"
   ],
   "note": ""
  },
  {
   "property": "C21",
   "status": "proved",
   "theorems": [
    "C21_basic_pack",
    "C21_basic_unpack",
    "C21_pack",
    "C21_pack_error",
    "C21_unpack",
    "C21_pad_refuted",
    "C21_size_dropped_refuted"
   ],
   "note": "items that carry a value; arrays of pad items refuted separately"
  },
  {
   "property": "C22",
   "status": "proved",
   "theorems": [
    "C22_pack",
    "C22_pack_error",
    "C22_unpack",
    "C22_unpack_sound"
   ],
   "note": ""
  },
  {
   "property": "C23",
   "status": "proved",
   "theorems": [
    "C23_pack",
    "C23_unpack",
    "C23_native_refuted",
    "C23_field_refuted"
   ],
   "note": "aligned layouts; native alignment padding and use next to other fields refuted separately"
  },
  {
   "property": "C24",
   "status": "proved",
   "theorems": [
    "C24_true",
    "C24_false",
    "C24_raise",
    "C24_class_pack_true",
    "C24_class_pack_false",
    "C24_class_unpack_true",
    "C24_class_unpack_false",
    "C24_truthy_refuted",
    "C24_array_refuted"
   ],
   "note": "conditions returning booleans, wrapped serializers that do not use the object; other true values and wrapped arrays, tuples, unions refuted separately"
  },
  {
   "property": "C25",
   "status": "proved",
   "theorems": [
    "C25_lookback_pack",
    "C25_lookback_unpack",
    "C25_lookahead_pack",
    "C25_unmapped",
    "C25_lookahead_unpack",
    "C25_lookahead_unpack_error"
   ],
   "note": "lookback exact for every table and state; lookahead unpacking for healthy fields"
  },
  {
   "property": "C26",
   "status": "proved",
   "theorems": [
    "C26_truncated_unpack",
    "C26_truncated_unpack_from",
    "C26_truncated_unpack_read",
    "C26_short_stream",
    "C26_short_buffer",
    "C26_counted_string_unpack_refuted",
    "C26_net_string_unpack_refuted"
   ],
   "note": "counted strings with unpack and NET strings with unpack / unpack_read accept truncated input: refuted separately"
  },
  {
   "property": "C27",
   "status": "proved",
   "theorems": [
    "C27_int",
    "C27_no_wrap",
    "C27_array_count",
    "C27_dynarr_count"
   ],
   "note": ""
  },
  {
   "property": "C28",
   "status": "proved",
   "theorems": [
    "C28_pack",
    "C28_unpack",
    "C28_not_bytes",
    "C28_zero_refuted"
   ],
   "note": "n >= 1; char[0] takes no value: refuted separately"
  },
  {
   "property": "C29",
   "status": "proved",
   "theorems": [
    "C29_pad",
    "C29_body",
    "C29_not_attribute",
    "C29_conditional_pad_refuted",
    "C29_future_refuted"
   ],
   "note": "n >= 1; postponed evaluation of annotations and conditional paddings refuted separately"
  },
  {
   "property": "C30",
   "status": "proved",
   "theorems": [
    "C30_pack",
    "C30_unpack",
    "C30_action_error",
    "C30_join_pack",
    "C30_join_unpack",
    "C30_repeat",
    "C30_with_byte_order",
    "C30_one_value",
    "C30_matmul_refuted",
    "C30_join_byte_order_refuted"
   ],
   "note": "formats repeated with @ lose their actions and byte orders are not compared: refuted separately"
  },
  {
   "property": "C31",
   "status": "proved",
   "theorems": [
    "C31_unpack",
    "C31_pack_struct",
    "C31_pack_one",
    "C31_pack_compound",
    "C31_dynarr_refuted",
    "C31_dynarr_field_refuted",
    "C31_dynchar_refuted"
   ],
   "note": "dynamic arrays of basic types report no values: refuted separately"
  },
  {
   "property": "C32",
   "status": "proved",
   "theorems": [
    "C32_refill",
    "C32_self_refuted",
    "C32_late_refuted"
   ],
   "note": "deciders that look at earlier fields only, classes that do not use Self; both restrictions shown necessary by refutations"
  },
  {
   "property": "C33",
   "status": "proved",
   "theorems": [
    "C33_order",
    "C33_inherited",
    "C33_extend",
    "C33_promoted_refuted",
    "C33_redefine_generic_refuted"
   ],
   "note": "names that get a serialized hint only in the subclass, and redefinitions under a specialized generic base: refuted separately"
  },
  {
   "property": "C34",
   "status": "proved",
   "theorems": [
    "C34_strict",
    "C34_same_order",
    "C34_override",
    "C34_as_if"
   ],
   "note": ""
  },
  {
   "property": "C35",
   "status": "proved",
   "theorems": [
    "C35_resolve",
    "C35_resolved",
    "C35_compose",
    "C35_one_step",
    "C35_steps",
    "C35_confluent",
    "C35_capture_refuted",
    "C35_array_alias_refuted",
    "C35_mixed_arguments_refuted",
    "C35_nested_tuple_refuted",
    "C35_tuple_item_refuted",
    "C35_implicit_generic_refuted",
    "C35_condition_refuted",
    "C35_nested_order_refuted"
   ],
   "note": "Term level: resolve equals substitution followed by building what became concrete, for all alias trees and maps whose images do not mention the mapped variables; it composes. Class level: chains of specializations of a generic class whose own annotations use its type variables. Reusing a variable inside its own argument, fixed arguments next to variables, tuples in tuples, implicit Generic, conditions on variables and explicit byte orders of nested classes are refuted separately."
  },
  {
   "property": "C36",
   "status": "proved",
   "theorems": [
    "C36_unpack_pack",
    "C36_unpack_from_pack",
    "C36_unpack_read_pack",
    "C36_packs_again",
    "C36_packs_again_from",
    "C36_bool_refuted",
    "C36_pad_refuted",
    "C36_alignment_refuted",
    "C36_net_refuted",
    "C36_text_refuted",
    "C36_nan_refuted",
    "C36_empty_items_refuted",
    "C36_cut_short_refuted"
   ],
   "note": "values without NaN; for counted strings the packing is a hypothesis, for the rest of the fragment it is shown to succeed; booleans, paddings, native alignment, NET strings, text, NaN payloads, empty counted strings as array items and counted strings cut short: refuted separately"
  },
  {
   "property": "C37",
   "status": "proved",
   "theorems": [
    "C37_iff",
    "C37_other_class",
    "C37_not_an_instance",
    "C37_ignores",
    "C37_symmetric",
    "C37_reflexive",
    "C37_transitive",
    "C37_floats",
    "C37_same",
    "C37_int_float",
    "C37_round_trip",
    "C37_byte_order",
    "C37_nan_refuted",
    "C37_zero_refuted",
    "C37_order_refuted"
   ],
   "note": "values have no identity in the model; reflexive for values without NaN and suspended generators (NaN refuted), also transitive; equal objects may pack to different bytes (0.0 and -0.0, byte order of the instance: refuted separately)"
  },
  {
   "property": "C38",
   "status": "proved",
   "theorems": [
    "C38_unambiguous",
    "C38_program"
   ],
   "note": ""
  },
  {
   "property": "C39",
   "status": "proved",
   "theorems": [
    "C39_one_value_each",
    "C39_distinct",
    "C39_self_refuted",
    "C39_zero_refuted"
   ],
   "note": "fields of one value each (paddings aside) and no field called self; zero-length fields, dynamic arrays of basic types and a field called self refuted separately"
  },
  {
   "property": "C40",
   "status": "proved",
   "theorems": [
    "C40_accepted",
    "C40_classes",
    "C40_char",
    "C40_header",
    "C40_bare",
    "C40_array_default_refuted"
   ],
   "note": "programs without generics and without unindexed hints in the text (those are covered by C40_bare, on class bodies); dynamic arrays of basic types count as no value, so that conditions with one default and union members of that type are rejected: refuted separately"
  },
  {
   "property": "C41",
   "status": "proved",
   "theorems": [
    "C41_written",
    "C41_join_layout",
    "C41_join_accepted",
    "C41_with_byte_order",
    "C41_add",
    "C41_matmul",
    "C41_mul",
    "C41_ends_in_x"
   ],
   "note": "format strings as character lists; digits of the regular expressions are the ASCII digits"
  },
  {
   "property": "C42",
   "status": "proved",
   "theorems": [
    "C42_healthy",
    "C42_reads_back",
    "C42_round_trip",
    "C42_three_methods",
    "C42_trailing",
    "C42_uses_earlier",
    "C42_tuple_refuted",
    "C42_shared_union_refuted",
    "C42_condition_refuted"
   ],
   "note": "programs in the fragment of Programs.v (frag), with serializer objects created one after the other; the excluded combinations are those refuted under C12-C32"
  },
  {
   "property": "C43",
   "status": "proved",
   "theorems": [
    "C43_pack",
    "C43_unpack",
    "C43_back",
    "C43_special",
    "C43_double",
    "C43_int",
    "C43_native_refuted",
    "C43_twice_refuted"
   ],
   "note": "stated on the serializer of the field; in native byte order a too large float32 becomes an infinity, and integers are rounded twice on their way to a float32: both refuted separately"
  },
  {
   "property": "C44",
   "status": "proved",
   "theorems": [
    "C44_pack",
    "C44_pack_into",
    "C44_pack_write",
    "C44_program",
    "C44_sharing",
    "C44_zero_length_refuted"
   ],
   "note": "classes for which attributes and values line up (regular_class): char[0] and conditions on dynamic arrays of basic types are refuted; instances that pack; depth of objects bounded by the stack as in the model"
  },
  {
   "property": "C45",
   "status": "proved",
   "theorems": [
    "C45_pack",
    "C45_pack_into",
    "C45_pack_write",
    "C45_create",
    "C45_unpack",
    "C45_write_atomic",
    "C45_unpack_atomic",
    "C45_write_refuted",
    "C45_into_refuted",
    "C45_unpack_refuted"
   ],
   "note": "streams write all they are given, buffers are bytearrays; offsets and positions are not negative"
  },
  {
   "property": "C46",
   "status": "proved",
   "theorems": [
    "C46_create_unpack",
    "C46_create_unpack_from",
    "C46_create_unpack_read",
    "C46_complete",
    "C46_complete_from",
    "C46_complete_read",
    "C46_unique",
    "C46_sharing",
    "C46_program",
    "C46_wire_parse",
    "C46_zero_length_refuted"
   ],
   "note": "same classes as C44; successful reads in both directions, which exception a failing read raises is not described; the amount of stack is a parameter"
  },
  {
   "property": "C47",
   "status": "proved",
   "theorems": [
    "C47_init",
    "C47_rejects",
    "C47_which",
    "C47_unique",
    "C47_keyword_order",
    "C47_parameters",
    "C47_create",
    "C47_create_default",
    "C47_compatible_init",
    "C47_inherited_init",
    "C47_with_byte_order",
    "C47_rebuild",
    "C47_inherited_init_refuted",
    "C47_own_init_refuted"
   ],
   "note": "keyword and positional arguments without defaults, as the generated signature has them; a __post_init__ or own __init__ of nested classes is outside the model; the *_refuted theorems are about expectations that do not hold"
  },
  {
   "property": "C48",
   "status": "proved",
   "theorems": [
    "C48_refill",
    "C48_complete",
    "C48_unique",
    "C48_keeps",
    "C48_blind",
    "C48_self_fails"
   ],
   "note": "same classes as C46; successful calls in both directions, what a failing call leaves in the object is C45"
  },
  {
   "property": "C49",
   "status": "proved",
   "theorems": [
    "C49_pack",
    "C49_enough",
    "C49_otherwise",
    "C49_program",
    "C49_layout_is_enough_refuted"
   ],
   "note": "same classes as C44; both directions. A call that runs out of stack is left out of the equivalence; C49_layout_is_enough_refuted has an instance for each exception"
  },
  {
   "property": "C50",
   "status": "proved",
   "theorems": [
    "C50_accepted",
    "C50_same_classes",
    "C50_same_bytes",
    "C50_same_values",
    "C50_program",
    "C50_round_trip",
    "C50_pack",
    "C50_create",
    "C50_create_complete",
    "C50_redeclared_refuted",
    "C50_unspecialized_refuted"
   ],
   "note": "specialization in one step; type variables where Generics.v lists them. The byte and value theorems are for healthy classes, which C50_program derives from the text for the fragment of C42. Annotations redeclared below C[args] and bases without arguments: refuted separately"
  },
  {
   "property": "C51",
   "status": "proved",
   "theorems": [
    "C51_rows",
    "C51_strict",
    "C51_python39",
    "C51_two",
    "C51_emulation_refuted",
    "C51_loop",
    "C51_attrgetter",
    "C51_dotted",
    "C51_create",
    "C51_refill",
    "C51_agree",
    "C51_stale_refuted",
    "C51_kind_refuted"
   ],
   "note": "iterators are finite and their items known in advance; in the class level theorems the values are produced one by one. A missing attribute called cls is missing in the model (the proxy has one of its own)"
  },
  {
   "property": "C52",
   "status": "proved",
   "theorems": [
    "C52_create_unpack",
    "C52_create_unpack_from",
    "C52_create_unpack_read",
    "C52_unpack",
    "C52_create_reached",
    "C52_unpack_reached",
    "C52_simple",
    "C52_only_usual_refuted"
   ],
   "note": "programs of class statements whose classes are in the fragment of the refinement (healthy); the callables are taken on all objects, and for regular classes (C52_create_reached, C52_unpack_reached) on the objects that reading can reach; MemoryError is outside the model. C52_only_usual_refuted has a class for each of the other exceptions"
  },
  {
   "property": "C53",
   "status": "proved",
   "theorems": [
    "C53_create_unpack",
    "C53_create_unpack_from",
    "C53_create_unpack_read",
    "C53_refill",
    "C53_attributes",
    "C53_integer",
    "C53_scalar_packs",
    "C53_string",
    "C53_unicode",
    "C53_array",
    "C53_tuple",
    "C53_class",
    "C53_array_count_refuted"
   ],
   "note": "programs of class statements whose classes are in the fragment of the refinement (healthy) and regular; the type system is TypeSpec.v. C53_array_count_refuted: arrays of counted strings read from an offset or a stream can be shorter than the annotation says"
  },
  {
   "property": "C54",
   "status": "proved",
   "theorems": [
    "C54_pack",
    "C54_pack_write",
    "C54_program",
    "C54_exact",
    "C54_no_reason",
    "C54_pack_into",
    "C54_kinds"
   ],
   "note": "same classes as C44; both directions, RecursionError aside. The reasons are WhySpec.v; which of several reasons is the one raised is determined up to the first field that fails"
  },
  {
   "property": "C55",
   "status": "proved",
   "theorems": [
    "C55_pack",
    "C55_unpack",
    "C55_unpack_from",
    "C55_unpack_read",
    "C55_short",
    "C55_records"
   ],
   "note": "programs of C42 with regular class statements. Conditional fields, counted, terminated and .NET strings, arrays with a count and Self have no size of their own; C55_records needs canonical instances (C42) and a class that does not read to the end"
  },
  {
   "property": "C56",
   "status": "proved",
   "theorems": [
    "C56_create_unpack",
    "C56_create_unpack_from",
    "C56_create_unpack_read",
    "C56_raises",
    "C56_raises_from",
    "C56_raises_read",
    "C56_exact",
    "C56_reads",
    "C56_complete",
    "C56_complete_from",
    "C56_complete_read",
    "C56_determined",
    "C56_determined_from",
    "C56_determined_read",
    "C56_exactly",
    "C56_sharing"
   ],
   "note": "classes of C46; the exception is FaultSpec.v. RecursionError aside; after an empty counted string read from an offset or a stream the values are out of step and the exception is left open (Unspecified); C56_determined has it for classes where that does not happen; C56_complete: with enough stack it is raised, C56_exactly both directions"
  },
  {
   "property": "C57",
   "status": "proved",
   "theorems": [
    "C57_extend",
    "C57_extend_from",
    "C57_stream",
    "C57_cut",
    "C57_methods",
    "C57_methods_read",
    "C57_methods_unpack",
    "C57_ahead_refuted",
    "C57_short_refuted",
    "C57_methods_refuted"
   ],
   "note": "classes of C46; which of them is LocalSpec.v. What is left out is refuted: read-ahead unions on streams (C57_ahead_refuted), counted strings cut short with create_unpack (C57_short_refuted), empty counted strings in tuples (C57_methods_refuted)"
  },
  {
   "property": "C58",
   "status": "proved",
   "theorems": [
    "C58_unpack",
    "C58_unpack_from",
    "C58_unpack_read",
    "C58_unpack_back",
    "C58_unpack_from_back",
    "C58_unpack_read_back",
    "C58_bool_refuted",
    "C58_nan_refuted",
    "C58_text_refuted",
    "C58_empty_refuted"
   ],
   "note": "classes of C46; which of them is BackSpec.v. Needed, and refuted otherwise: no booleans (C58_bool_refuted), no NaN (C58_nan_refuted), no text (C58_text_refuted), and for packing to succeed no counted strings with create_unpack (C58_empty_refuted)"
  },
  {
   "property": "C59",
   "status": "proved",
   "theorems": [
    "C59_unpack",
    "C59_unpack_from",
    "C59_unpack_read",
    "C59_gap_refuted",
    "C59_net_refuted"
   ],
   "note": "classes of C46; which of them is SteadySpec.v; the packing call is one on objects of the annotated classes (conforms). Refuted otherwise: counted arrays of aligned scalars (C59_gap_refuted), .NET strings on big-endian machines (C59_net_refuted). Not covered: fields that read to the end, SerializeAs, unions that read ahead, and counted text with create_unpack_from/create_unpack_read"
  },
  {
   "property": "C60",
   "status": "proved",
   "theorems": [
    "C60_copy",
    "C60_unique",
    "C60_verbatim",
    "C60_prefix_refuted"
   ],
   "note": "classes of C46 that are steady (C59) or lossless and settled (C58); objects are packed with objects of the annotated classes inside (conforms). C60_prefix_refuted: with fields that read to the end the bytes of one object can be the beginning of those of another"
  }
 ]
}