{"id": "C01", "title": "pack/create_unpack round trip", "statement": "For a Structured class and an instance whose attribute values are canonical for their hints (ints in range, exact-length static chars, ...), if obj.pack() succeeds then create_unpack of those bytes returns an object equal to obj.", "quantifier": "every class definition in the supported (healthy) fragment, every instance with canonical values, every nesting depth and length", "why_tests_cant": "the space of class definitions, values and nesting depths is infinite; tests sample a few classes", "anchors": ["structured/serializers/api.py:CompoundSerializer", "structured/structured.py:Structured.pack", "structured/structured.py:Structured.create_unpack"]}
{"id": "C02", "title": "trailing data is ignored", "statement": "create_unpack accepts a buffer longer than needed: unpacking pack(obj) followed by arbitrary extra bytes gives the same object as unpacking pack(obj) alone (unless the class contains a read-to-end char[math.inf]/unicode[math.inf] field).", "quantifier": "every healthy class without a read-to-end field, every canonical instance, every suffix of bytes", "why_tests_cant": "must hold for all suffixes", "anchors": ["structured/serializers/api.py:Serializer.unpack", "structured/serializers/structs.py:StructSerializer.unpack", "structured/serializers/strings.py:DynamicCharSerializer.unpack"]}
{"id": "C03", "title": "the three packing methods agree", "statement": "For every healthy class, pack(), pack_into(buffer, offset) and pack_write(stream) produce the same bytes: pack succeeds iff pack_write succeeds, pack_into into a large enough buffer places exactly pack()'s bytes at the offset, and pack_into into a buffer that is too small fails. (Classes with a read-to-end string grow a bytearray that is too small instead: the unrestricted last part is refuted.)", "quantifier": "every healthy class, every instance, every buffer and offset, every stream state", "why_tests_cant": "three separately written code paths per serializer; agreement is a property of all values", "anchors": ["structured/serializers/api.py:CompoundSerializer.pack_into", "structured/serializers/arrays.py:ArraySerializer.pack_into", "structured/serializers/strings.py"]}
{"id": "C04", "title": "pack_into writes nothing outside its region", "statement": "A successful pack_into(buffer, offset) leaves buffer[:offset] and buffer[offset+size:] unchanged and does not change the length of the buffer. (Classes with a read-to-end string are excluded: for them the claim is refuted.)", "quantifier": "every healthy class, instance, buffer contents and non-negative offset", "why_tests_cant": "must hold for every surrounding buffer contents and offset", "anchors": ["structured/serializers/api.py:CompoundSerializer.pack_into", "structured/serializers/strings.py:ConsumingCharSerializer.pack_into"]}
{"id": "C05", "title": "the three unpacking methods agree", "statement": "create_unpack(buf[offset:]), create_unpack_from(buf, offset) and create_unpack_read(stream positioned at offset of the same data) return equal objects on data produced by packing a canonical instance of a class all three methods support, whatever surrounds it; and for classes without counted strings, .NET strings and terminated strings the three methods succeed on the same inputs with the same objects on arbitrary data.", "quantifier": "every healthy class, every canonical instance, every prefix/suffix around the packed bytes", "why_tests_cant": "three separately written code paths per serializer", "anchors": ["structured/serializers/api.py:CompoundSerializer.unpack_from", "structured/serializers/strings.py:TerminatedCharSerializer.unpack_from", "structured/serializers/arrays.py:ArraySerializer.unpack_from"]}
{"id": "C06", "title": "size is the number of bytes just processed", "statement": "Immediately after a successful pack/pack_into/pack_write/unpack/unpack_from/unpack_read, cls.serializer.size equals the number of bytes produced or consumed by that call. (A class consisting of a single conditional field has no size attribute: refuted for it.)", "quantifier": "every healthy class, instance, method and prior history of operations", "why_tests_cant": "the attribute is mutable shared state; must hold after every history", "anchors": ["structured/serializers/api.py:Serializer.size", "structured/serializers/api.py:_SpecializedCompoundSerializer", "structured/serializers/structured.py:StructuredSerializer"]}
{"id": "C07", "title": "stream reads consume exactly the object", "statement": "create_unpack_read leaves the stream positioned exactly after the bytes of the object, so objects written back to back by pack_write are read back, in order, by repeated create_unpack_read.", "quantifier": "every healthy class without read-to-end field, every list of canonical instances, every stream content before and after", "why_tests_cant": "unbounded sequences of objects", "anchors": ["structured/serializers/strings.py:TerminatedCharSerializer.unpack_read", "structured/serializers/strings.py:NETCharSerializer.unpack_read", "structured/serializers/unions.py:LookaheadDecider.unpack_read"]}
{"id": "C08", "title": "results do not depend on earlier operations", "statement": "The outcome of any pack/unpack method depends only on its arguments: serializer objects are shared between classes and calls and carry mutable size / partial-object state, but no earlier call (successful or failed) can change the bytes or values a later call produces.", "quantifier": "every healthy class, every method, every initial state of the mutable serializer fields (hence every history)", "why_tests_cant": "quantifies over all histories", "anchors": ["structured/serializers/api.py:Serializer.size", "structured/serializers/arrays.py:ArraySerializer.prepack", "structured/serializers/unions.py:AUnion.prepack", "structured/serializers/tuples.py:TupleSerializer.prepack"]}
{"id": "C09", "title": "recursive (typing.Self) structures", "statement": "A class containing Self (directly in arrays or unions) packs and unpacks trees of any depth correctly, limited only by the recursion limit; a larger recursion limit never changes a result that was already produced.", "quantifier": "every tree depth/shape and every recursion limit", "why_tests_cant": "unbounded depth", "anchors": ["structured/serializers/self.py:SelfSerializer", "structured/serializers/structured.py:StructuredSerializer"]}
{"id": "C10", "title": "joining struct formats preserves layout", "statement": "Adding StructSerializers a + b of the same byte order packs exactly like the concatenation of their struct formats whenever the right hand format is a single counted specifier or does not begin with the specifier the left one ends with: folding adjacent equal specifiers ('h'+'h' -> '2h') never changes the number of values, the size or the bytes; different byte orders are refused. (For longer right hand formats that overlap, the rest of the format is dropped: the unrestricted claim is refuted.)", "quantifier": "every pair of counted-specifier formats satisfying the non-overlap condition, and every byte order", "why_tests_cant": "all format strings", "anchors": ["structured/serializers/structs.py:fold_overlaps", "structured/serializers/structs.py:StructSerializer.__add__"]}
{"id": "C11", "title": "repeating struct serializers", "statement": "st * n packs and unpacks exactly n consecutive groups of st's values (single specifier, or first and last specifier different); char[n]/pad[n]/pascal[n] (st @ n) is one counted specifier of n bytes; n = 0 behaves as the empty serializer and negative n raises ValueError. (Formats of several specifiers whose ends overlap lose specifiers: the unrestricted claim is refuted.)", "quantifier": "every n and every single-specifier serializer", "why_tests_cant": "all n", "anchors": ["structured/serializers/structs.py:StructSerializer._mul_impl"]}
{"id": "C12", "title": "byte order applies to every field", "statement": "For a class declared with byte_order=b (LE, BE or NETWORK) every multi-byte integer field, array element and array length/size header that with_byte_order reaches is encoded with byte order b, and the packed bytes do not depend on the byte order of the host. Fields inside tuples, unions and unicode hints, NET strings and nested Structured classes keep their own byte order (the unrestricted claim is refuted). For whole programs of class statements: if every multi-byte number lies where the byte order given in the statement reaches it (nested classes judged by their own statements; single bytes may lie anywhere), what is packed on a little-endian machine is packed on a big-endian machine as the same bytes, and what create_unpack, create_unpack_from and create_unpack_read read on one from arbitrary bytes they read on the other. Objects, and files of objects, packed on one machine are read back as they were on the other.", "quantifier": "every class definition and byte order", "why_tests_cant": "all combinations of hints and byte orders", "anchors": ["structured/structured.py:Structured.__init_subclass__", "structured/serializers/api.py:Serializer.with_byte_order", "structured/serializers/arrays.py:ArraySerializer.with_byte_order"]}
{"id": "C13", "title": "with_byte_order laws", "statement": "serializer.with_byte_order(b) keeps num_values and finality, is idempotent, and the last byte order set wins: s.with_byte_order(a).with_byte_order(b) behaves as s.with_byte_order(b).", "quantifier": "every serializer and every pair of byte orders", "why_tests_cant": "all nested serializers", "anchors": ["structured/serializers/structs.py:StructSerializer.with_byte_order", "structured/serializers/conditional.py:ConditionalSerializer.with_byte_order"]}
{"id": "C14", "title": "read-to-end fields must be last", "statement": "Defining a class in which a field that reads to the end of the input (char[math.inf], unicode[math.inf], or a tuple/union result/Structured containing one) is followed by another serialized field raises TypeError, and using it as an array item raises TypeError; a class definition that succeeds has such a field only in last position. (The default of a union and a field typed Self are not checked: refuted for these two.)", "quantifier": "every sequence of field hints", "why_tests_cant": "all sequences", "anchors": ["structured/serializers/api.py:Serializer.__add__", "structured/serializers/api.py:CompoundSerializer._add_impl", "structured/serializers/unions.py:AUnion.get_final", "structured/hint_types/arrays.py:array.__class_getitem__"]}
{"id": "C15", "title": "serializer addition is order preserving", "statement": "Summing the field serializers of a class yields a serializer that handles the fields' values in declaration order: it never contains nested compounds, its num_values is the sum of the parts, packing it equals concatenating the packing of its runs in order, and equals concatenating the packing of the single fields when the layout has no alignment gaps (explicit byte order, or unaligned formats). (With native alignment the concatenation of single fields is refuted.)", "quantifier": "every list of field serializers", "why_tests_cant": "all lists", "anchors": ["structured/serializers/api.py:CompoundSerializer._add_impl", "structured/serializers/api.py:NullSerializer.__add__", "structured/serializers/structs.py:StructSerializer.__add__"]}
{"id": "C16", "title": "length-prefixed byte strings", "statement": "char[uintN] in the default byte order packs any non-empty bytes value whose length fits the header as header ++ data and unpacks it back through all three methods; a longer value raises. (Empty values, and classes with an explicit byte order, cannot be packed: refuted for these.)", "quantifier": "every bytes value and header type", "why_tests_cant": "all lengths, including the boundary values", "anchors": ["structured/serializers/strings.py:DynamicCharSerializer"]}
{"id": "C17", "title": "terminated byte strings", "statement": "char[t] packs a value as the value followed by one terminator; unpacking returns the bytes before the first terminator and consumes exactly through the terminator (unpack, unpack_read); unpack_from returns the same value; a missing terminator raises ValueError. (A value that already ends with the terminator gets a second one, and unpack_from reports a wrong size: these two documented behaviours are refuted.)", "quantifier": "every terminator byte, value, offset and surrounding data", "why_tests_cant": "all values, all offsets and all stream chunk boundaries", "anchors": ["structured/serializers/strings.py:TerminatedCharSerializer"]}
{"id": "C18", "title": ".NET strings", "statement": "On a little-endian host char[NET] encodes lengths 1..127 in one byte and lengths up to 0x7FFF in two, decoding is the inverse of encoding, longer values raise ValueError, and every non-empty value up to that length round trips. (Empty values, and big-endian hosts, fail: refuted for these.)", "quantifier": "every length 0..0x7FFF and beyond, every data, both host byte orders", "why_tests_cant": "bit manipulation over the full range, and host endianness", "anchors": ["structured/serializers/strings.py:NETCharSerializer"]}
{"id": "C19", "title": "unicode fields", "statement": "unicode[...] with a codec for which decode(encode(s)) = s round trips every string without trailing NULs whose encoding the underlying byte string field carries; trailing NULs are stripped; encoding and decoding errors are raised. (Empty text in a counted field cannot be packed: refuted.)", "quantifier": "every codec satisfying the law, every string", "why_tests_cant": "all strings and codecs", "anchors": ["structured/serializers/strings.py:UnicodeSerializer"]}
{"id": "C20", "title": "read-to-end byte strings", "statement": "char[math.inf] unpacks to all the remaining bytes of the input, for each of the three unpack methods, and packs the value verbatim.", "quantifier": "every value and every preceding field", "why_tests_cant": "all values", "anchors": ["structured/serializers/strings.py:ConsumingCharSerializer"]}
{"id": "C21", "title": "static array length is enforced", "statement": "Packing an array[Header[n], T] / array[Header[n, uintN], T] field whose list does not have exactly n items raises ValueError, for items T that carry a value; unpacking always yields exactly n items. (Arrays of padding items, and the size header of static arrays of basic types, which is dropped: refuted.)", "quantifier": "every n, item type and list", "why_tests_cant": "all lengths", "anchors": ["structured/serializers/arrays.py:ArraySerializer._header_pack_values", "structured/serializers/arrays.py:StaticStructArraySerializer._check_length"]}
{"id": "C22", "title": "array data-size header is written and checked", "statement": "array[Header[c, uintN], T] stores before the items the exact byte length of the packed items, and unpacking data whose stored size differs from the bytes actually consumed raises ValueError.", "quantifier": "every item type, list and header value", "why_tests_cant": "all lists and all corrupted headers", "anchors": ["structured/serializers/arrays.py:ArraySerializer._check_data_size", "structured/hint_types/arrays.py:array.__class_getitem__"]}
{"id": "C23", "title": "dynamic arrays of basic types", "statement": "array[Header[uintN], T] for a basic T, as the only field of its class, packs as the count followed by the items and unpacks to the same list, for layouts without alignment gap between count and items (any explicit byte order). (Native alignment gaps, and use next to other fields, which raises: refuted.)", "quantifier": "every list, header type, basic item type, byte order, class context", "why_tests_cant": "all combinations incl. native alignment", "anchors": ["structured/serializers/arrays.py:DynamicStructArraySerializer"]}
{"id": "C24", "title": "conditional fields", "statement": "With Condition(f, default) around a serializer that does not itself use the object: when f(obj) is True the field packs/unpacks exactly as without the Condition; when False it contributes no bytes, unpacks to the default and does not touch the input; an exception of f is raised. (Other true values, and conditions around arrays, tuples and unions, fail: refuted for these.)", "quantifier": "every condition function, every wrapped hint, every default, every input", "why_tests_cant": "all conditions and wrapped serializers", "anchors": ["structured/serializers/conditional.py:ConditionalSerializer", "structured/serializers/conditional.py:SkipSerializer"]}
{"id": "C25", "title": "union dispatch", "statement": "A LookbackDecider packs/unpacks exactly as the serializer its decision maps to, or the default; an unmapped decision without default raises ValueError. A LookaheadDecider unpacks with the serializer selected by the value read ahead, starting again at the same position.", "quantifier": "every decider, map, value and input", "why_tests_cant": "all deciders and inputs", "anchors": ["structured/serializers/unions.py:LookbackDecider", "structured/serializers/unions.py:LookaheadDecider"]}
{"id": "C26", "title": "truncated input is rejected", "statement": "If the input is shorter than the object's encoding (a proper prefix of pack(obj), class without read-to-end field), every unpack method raises instead of returning an object, for classes without counted strings (unpack) and .NET strings (unpack, unpack_read). (Those strings accept truncated input: refuted for them.)", "quantifier": "every healthy class, instance and every proper prefix", "why_tests_cant": "all truncation points", "anchors": ["structured/serializers/strings.py:DynamicCharSerializer.unpack", "structured/serializers/strings.py:NETCharSerializer.unpack", "structured/serializers/structs.py:StructSerializer.unpack"]}
{"id": "C27", "title": "out of range values are rejected", "statement": "Packing an integer outside the range of its field type, a non-integer for an integer field or a list longer than its count header can express raises an error; no value is silently wrapped.", "quantifier": "every integer and field type", "why_tests_cant": "all integers", "anchors": ["structured/serializers/structs.py:StructSerializer", "structured/serializers/arrays.py:ArraySerializer.pack"]}
{"id": "C28", "title": "static byte strings", "statement": "char[n], n >= 1, packs a bytes value as exactly n bytes: the first n bytes of the value, zero-padded at the end; unpacking returns exactly n bytes; values that are not bytes are refused. (char[0] takes no value at all: refuted for n = 0.)", "quantifier": "every n >= 1 and value", "why_tests_cant": "all lengths", "anchors": ["structured/serializers/strings.py:static_char_serializer"]}
{"id": "C29", "title": "padding", "statement": "pad[n] fields, n >= 1, occupy n bytes, are written as zeros, ignored when reading (whatever the bytes are) and do not appear among the attributes. (Under postponed evaluation of annotations, and for conditional paddings, the last part is refuted.)", "quantifier": "every n, position, and contents of the skipped bytes", "why_tests_cant": "all contents", "anchors": ["structured/hint_types/basic_types.py:pad", "structured/structured.py:ispad"]}
{"id": "C30", "title": "custom types via SerializeAs", "statement": "A SerializeAs field packs as the underlying basic type and unpacks to action(value); joining with +, repeating with * and re-byte-ordering serializers keeps every action attached to its own value. (Repeating with @ loses the actions and + does not compare byte orders: refuted.)", "quantifier": "every action, every list of fields", "why_tests_cant": "all combinations of joins", "anchors": ["structured/serializers/structs.py:StructActionSerializer"]}
{"id": "C31", "title": "num_values is the number of values", "statement": "For each serializer, a successful unpack returns exactly num_values values and pack takes exactly num_values values. (Dynamic arrays of basic types report 0 values, and an empty counted string read with unpack_from or unpack_read returns no value: refuted for these two.)", "quantifier": "every serializer and input", "why_tests_cant": "all serializers and inputs", "anchors": ["structured/serializers/api.py:Serializer.num_values", "structured/serializers/arrays.py:DynamicStructArraySerializer.__init__"]}
{"id": "C32", "title": "unpacking into an existing object", "statement": "obj.unpack*(data) leaves obj equal to create_unpack*(data), whatever obj held before, for classes that do not use Self and whose deciders and conditions depend only on earlier fields. (Both restrictions are shown necessary by refutations.)", "quantifier": "every healthy class, prior attribute values and data", "why_tests_cant": "all prior states", "anchors": ["structured/structured.py:Structured.unpack", "structured/structured.py:_Proxy"]}
{"id": "C33", "title": "inheritance keeps field order", "statement": "In a subclass, the serialized attributes are those of the base class in the base order, with redefined hints keeping their position and hints redefined to a non-serializable type removed, followed by the new serializable attributes in definition order. (A name that already had a non-serialized hint in the base keeps its place among the names of the base, and redefining a field of a specialized generic base has no effect: refuted separately.)", "quantifier": "every base and derived annotation dict", "why_tests_cant": "all annotation dicts", "anchors": ["structured/structured.py:filter_typehints", "structured/structured.py:Structured.__init_subclass__"]}
{"id": "C34", "title": "byte order inheritance check", "statement": "Subclassing with a byte order different from the base raises ValueError unless OVERRIDE mode is given; with OVERRIDE the subclass uses the new byte order for inherited fields.", "quantifier": "every pair of byte orders and modes", "why_tests_cant": "all combinations with all field lists", "anchors": ["structured/structured.py:Structured.__init_subclass__"]}
{"id": "C35", "title": "generic specialization substitutes type variables", "statement": "Specializing a generic class in one step or in several partial steps yields the same field types: resolving type variables is simultaneous substitution and composes, for type variable maps whose images do not mention the mapped variables. (Variable capture, nested aliases as array items, mixed arguments, tuples in tuples, implicit Generic and conditions on variables are refuted.)", "quantifier": "every alias tree and type variable map", "why_tests_cant": "all alias trees and maps", "anchors": ["structured/utils.py:StructuredAlias.resolve", "structured/structured.py:Structured._get_specialization_hints"]}
{"id": "C36", "title": "unpack then pack reproduces the bytes", "statement": "For classes made of integer and float fields, exact byte strings, counted strings and arrays, tuples, lookback unions and nested classes thereof, packing the result of create_unpack(data) reproduces exactly the consumed prefix of data, provided no NaN was read; and packing succeeds when the class has no counted strings and no dynamic array of a basic type beside other fields. (Booleans, paddings, alignment gaps, .NET strings, text, NaN payloads, empty counted strings in arrays and truncated counted strings are refuted.)", "quantifier": "every such class and every input buffer, including ones not produced by pack", "why_tests_cant": "all inputs", "anchors": ["structured/serializers/structs.py:StructSerializer", "structured/serializers/arrays.py"]}
{"id": "C37", "title": "Structured equality", "statement": "Instances compare equal iff they have the same class and equal serialized attributes; equality is symmetric and transitive on serialized values, reflexive in the absence of NaN, and ignores non-serialized attributes and the byte order of the instance. (Reflexivity with NaN, and equal objects packing to equal bytes, are refuted.)", "quantifier": "all pairs of instances", "why_tests_cant": "all pairs", "anchors": ["structured/structured.py:Structured.__eq__"]}
{"id": "C38", "title": "encodings are unambiguous", "statement": "Two instances of the same class with canonical values that pack to byte strings one of which is a prefix of the other are equal (no read-to-end field).", "quantifier": "every healthy class, every pair of instances", "why_tests_cant": "all pairs", "anchors": ["structured/serializers/api.py:CompoundSerializer.pack"]}
{"id": "C39", "title": "one attribute per serialized field", "statement": "In a class whose fields hold one value each (paddings aside) and have no field called self, the names in attrs are distinct, paddings are not among them, and there are exactly as many as the class's serializer has values: filling attributes from unpacked values never drops or misplaces one. (Zero-length fields, dynamic arrays of basic types and a field called self are refuted.)", "quantifier": "every class definition accepted by __init_subclass__ whose fields hold one value each", "why_tests_cant": "all annotation dicts and inheritance chains", "anchors": ["structured/structured.py:Structured.__init_subclass__", "structured/structured.py:filter_typehints", "structured/structured.py:MetaDict"]}
{"id": "C41", "title": "format strings and counted specifiers", "statement": "The serializers of structs.py keep a format string; joining (+), repeating (*, @) and changing the byte order of strings with the regular expressions of structs.py yields, for every accepted format string, a string that struct.Struct accepts and that denotes exactly the byte order, the list of counted specifiers and the actions the corresponding operation on lists of specifiers yields (with the errors of that operation); where folding is allowed the joined string has the layout of the concatenation.", "quantifier": "every format string accepted by struct.Struct without blanks, every byte order, every count", "why_tests_cant": "unboundedly many strings: any number of specifiers, any decimal counts, leading zeros", "anchors": ["structured/serializers/structs.py:fold_overlaps", "structured/serializers/structs.py:_split_byte_order", "structured/serializers/structs.py:StructSerializer", "structured/serializers/structs.py:StructActionSerializer"]}
{"id": "C42", "title": "from class statements to bytes and back", "statement": "For every sequence of class statements that Python executes without error (hints built by the factories from basic types, pad, pascal, char, unicode, Header, array, tuple, Condition, SerializeAs, both union deciders, earlier classes, Self, ClassVar and other types; single inheritance, byte orders, postponed evaluation), whose hints avoid the combinations the library does not handle, the classes are such that packing an instance and unpacking the bytes gives the instance back with unpack, unpack_from and unpack_read, from any state of the serializers, after any data and, unless the class reads to the end, before any data; unpacking depends only on the bytes it consumes; and classes use only earlier classes.", "quantifier": "every program in the fragment, every instance with canonical attribute values, every state and surrounding data", "why_tests_cant": "unboundedly many programs, hint nestings and instances", "anchors": ["structured/structured.py:Structured.__init_subclass__", "structured/structured.py:filter_typehints", "structured/type_checking.py:annotated.transform", "structured/hint_types/arrays.py:array", "structured/hint_types/strings.py:char", "structured/serializers/unions.py:AUnion", "structured/structured.py:Structured.unpack", "structured/structured.py:Structured.pack"]}
{"id": "C40", "title": "which class statements are accepted", "statement": "A sequence of class statements executes without error exactly if its text satisfies the documented rules: counts are not negative, terminators are single bytes, lengths and sizes are unsigned integer types, array items and union members are serialized hints, union members and SerializeAs types have one value, a condition has as many defaults as its hint has values, classes named are those of earlier statements, the byte order is that of the base class or explicitly overridden, and nothing follows a field that reads to the end, in a class, a tuple or an array. The classes then have the attributes the text shows, in that order, the byte order of the statement and are final exactly if one of their fields is. char and Header accept exactly the documented arguments and reject the others with ValueError for negative counts and terminators that are not one byte, TypeError otherwise. A class body with a hint that must be indexed and is not raises.", "quantifier": "every program of class statements; every argument of char and Header; every class body", "why_tests_cant": "the hints nest without bound and rejection may depend on any inner part or earlier class", "anchors": ["structured/structured.py:Structured.__init_subclass__", "structured/structured.py:filter_typehints", "structured/hint_types/strings.py:char", "structured/hint_types/strings.py:unicode", "structured/hint_types/arrays.py:Header", "structured/hint_types/arrays.py:array", "structured/serializers/conditional.py:ConditionalSerializer", "structured/serializers/unions.py:AUnion", "structured/serializers/tuples.py:TupleSerializer", "structured/base_types.py:requires_indexing"]}
{"id": "C43", "title": "floats are stored as the nearest number of the format", "statement": "A finite float given for a float16 or float32 field is stored as the number of the format nearest to it (ties to the even mantissa), keeping the sign, in the field's byte order, and reading gives exactly the number stored; if it lies at least half way beyond the largest finite number, packing raises OverflowError in the explicit byte orders. Infinities and NaNs stay what they are. float64 keeps all 64 bits; an integer given for it is stored as the nearest double, or refused with struct.error if too large.", "quantifier": "every finite, infinite and NaN binary64 value, every integer, every float16/float32 pattern, every byte order, method and state", "why_tests_cant": "2^64 inputs times all candidate results; the claim compares with every other number of the format", "anchors": ["structured/hint_types/basic_types.py:float16", "structured/hint_types/basic_types.py:float32", "structured/hint_types/basic_types.py:float64", "structured/serializers/structs.py:StructSerializer.pack", "structured/serializers/structs.py:StructSerializer.unpack"]}
{"id": "C44", "title": "the bytes of an instance can be read off the class statement", "statement": "Packing an instance of a class defined by class statements writes exactly the layout its annotations describe: the fields in order, inherited ones first and redefined ones in place; integers in two's complement and floats as the nearest number, in the byte order of the class or of the instance; gaps only in native order and only to align fixed-size fields within a run of such fields; counts, lengths and sizes before what they describe, in the type the hint names, the size field being the number of bytes of the items; fixed strings cut or filled with zeros, terminated ones followed by the terminator, .NET lengths in one or two bytes; a condition contributes its field or nothing, a union the member its key selects, nested classes their own layout in their own byte order; tuples, union members and encoded strings in the machine's order. pack returns these bytes, pack_into and pack_write put them into the buffer and the stream. They do not depend on which serializer objects the library shares, nor on earlier calls.", "quantifier": "every program of class statements, every instance that packs, every machine byte order, state, buffer and stream", "why_tests_cant": "hints nest without bound and the layout of a field depends on its neighbours (alignment, merging of formats) and on the history of shared objects", "anchors": ["structured/structured.py:Structured.pack", "structured/structured.py:Structured.pack_into", "structured/structured.py:Structured.pack_write", "structured/structured.py:Structured.__init_subclass__", "structured/serializers/structs.py:StructSerializer.__add__", "structured/serializers/structs.py:fold_overlaps", "structured/serializers/api.py:CompoundSerializer", "structured/serializers/arrays.py", "structured/serializers/strings.py", "structured/serializers/tuples.py:TupleSerializer", "structured/serializers/unions.py", "structured/serializers/conditional.py:ConditionalSerializer"]}
{"id": "C45", "title": "what a call can change, also when it fails", "statement": "pack leaves buffers and streams alone. pack_into changes nothing before its offset, nor the stream, and never shortens the buffer; unless a class has a field that reads to the end, it keeps the length. pack_write only moves forward and changes only what lies between the old and the new position. Reading never changes a buffer or the contents of a stream, and only create_unpack_read / unpack_read move the position. Unpacking into an object changes only the attributes of its fields. For classes of fixed-size fields a failing pack_write writes nothing and a failing unpack leaves the object as it was; for others this is false (half an object is left in the stream, the buffer, the instance).", "quantifier": "every class table, instance, argument, state, machine byte order, and every outcome including each exception", "why_tests_cant": "failures can happen at any depth of any nesting and at any field; the set of untouched positions is unbounded", "anchors": ["structured/structured.py:Structured.pack", "structured/structured.py:Structured.pack_into", "structured/structured.py:Structured.pack_write", "structured/structured.py:Structured.unpack", "structured/structured.py:Structured.create_unpack_read", "structured/serializers/api.py:CompoundSerializer", "structured/serializers/arrays.py", "structured/serializers/strings.py"]}
{"id": "C46", "title": "what arbitrary bytes mean for a class statement", "statement": "create_unpack, create_unpack_from and create_unpack_read return exactly what the class statement says about the bytes: the fields in the order of the annotations, inherited ones first, scalars in the byte order of the class, aligned only in native order and only within a run of fixed-size fields; counted, terminated, .NET and remaining strings; counts and sizes in front of array items, with the size checked; tuples, unions and encoded strings in the machine's order; conditions and deciders applied to the fields already read. The bytes need not have been written by the library. Conversely whatever the statement makes of the bytes is returned by every call with enough stack, the stream is left after it, and the meaning is unique: it does not depend on shared serializer objects. The meaning of the layout of an instance (C44) is the instance.", "quantifier": "every accepted program of class statements whose attributes and values line up, every class of it, all byte strings, offsets, stream positions, states and machine byte orders", "why_tests_cant": "hints nest without bound and the bytes are arbitrary; sums, fused formats and shared serializer objects must not change the meaning of any of them", "anchors": ["structured/structured.py:Structured.create_unpack", "structured/structured.py:Structured.create_unpack_from", "structured/structured.py:Structured.create_unpack_read", "structured/serializers/api.py:CompoundSerializer", "structured/serializers/structs.py:StructSerializer", "structured/serializers/arrays.py", "structured/serializers/strings.py", "structured/serializers/unions.py", "structured/serializers/conditional.py:ConditionalSerializer", "structured/serializers/tuples.py", "structured/serializers/self.py"]}
{"id": "C47", "title": "the constructor, and what the library makes with it", "statement": "The generated constructor takes one value for each serialized attribute, by position or by name in any order: a call that gives each exactly one value makes the object with those values and then calls __post_init__; every other call (too many or too few values, an unknown name, a name given twice, the name self) raises TypeError. create_unpack, create_unpack_from, create_unpack_read and with_byte_order return what the constructor makes of the values, including what __post_init__ does; without one of its own, that is the object the other properties speak of. An __init__ of the user's (init=False) serves as well if it accepts one value for each serialized attribute; an inherited one of another length makes every create_unpack of the class fail, and one written in the body of a class without init=False is replaced. Calling a class with the attributes of an instance makes an equal instance, unless an attribute is not equal to itself.", "quantifier": "every class, all argument lists and keyword arguments, every __post_init__ and user __init__ as functions, all bytes, states and machine byte orders", "why_tests_cant": "argument lists, attribute lists and user functions are arbitrary; every attribute name a class statement can produce has to be fit as a parameter", "anchors": ["structured/structured.py:gen_init", "structured/structured.py:Structured.__init_subclass__", "structured/structured.py:Structured.__post_init__", "structured/structured.py:Structured.create_unpack", "structured/structured.py:Structured.with_byte_order", "structured/structured.py:_Proxy"]}
{"id": "C48", "title": "what arbitrary bytes do to an existing object", "statement": "obj.unpack, obj.unpack_from and obj.unpack_read leave in obj exactly what the class statement says about the bytes: the fields in order, over the attributes obj had, in the byte order of obj (its own if it was made by with_byte_order, for the nested runs of the class too), nested objects new; conditions and deciders see the fields already read, and old values for the later ones. Conversely what the statement makes of the bytes is what every call with enough stack leaves, and the stream is left behind it. Attributes that are not serialized are not touched. An object of a class without conditions, look-back unions and Self holds afterwards what the bytes say, whatever it held before. With a Self field, or an array of Self, the call always raises, unless there is an attribute called cls.", "quantifier": "every accepted program of class statements whose attributes and values line up, every class of it, all byte orders of the object, old attributes, byte strings, offsets, stream positions, states and machine byte orders", "why_tests_cant": "old attributes, bytes and nesting are arbitrary", "anchors": ["structured/structured.py:Structured.unpack", "structured/structured.py:Structured.unpack_from", "structured/structured.py:Structured.unpack_read", "structured/structured.py:Structured.with_byte_order", "structured/serializers/api.py:CompoundSerializer", "structured/serializers/self.py"]}
{"id": "C49", "title": "which instances can be packed", "statement": "pack returns exactly when the instance has a layout (C44) and is none of the listed exceptions, and then it returns the layout; pack_write and pack_into write it whenever there is room. Every other instance makes pack raise. The exceptions are: an empty string with a length in front, a string with a length of type uintN in another byte order than the default one, padding where a value is handed over (array items), more values than members in a tuple of fixed-size members, an array (even an empty one) whose item condition cannot be evaluated, and a condition that holds on a Self field or on another condition.", "quantifier": "every accepted program of class statements whose attributes and values line up, every class of it, all attribute values, byte orders of the instance, buffers, streams, states and machine byte orders", "why_tests_cant": "hints nest without bound and the values are arbitrary; a test finds one instance that can be packed but not that the list of those that cannot is complete", "anchors": ["structured/structured.py:Structured.pack", "structured/structured.py:Structured.pack_into", "structured/structured.py:Structured.pack_write", "structured/serializers/api.py:CompoundSerializer", "structured/serializers/structs.py:StructSerializer.__add__", "structured/serializers/arrays.py", "structured/serializers/strings.py:DynamicCharSerializer", "structured/serializers/unions.py", "structured/serializers/conditional.py:ConditionalSerializer", "structured/serializers/tuples.py"]}
{"id": "C50", "title": "a specialization is its text with the arguments written in", "statement": "A program with generic classes whose text makes sense is accepted. Subclassing C[args] defines the class whose annotations are those of C with the arguments in the place of the type variables: the same serializer up to the identity of the objects, attributes and byte order as the program that writes this text out without type variables. Both pack, create and refill with the same results, exceptions included; what is packed is the layout of that text (C44, C49), arbitrary bytes mean what they mean for that text (C46), and packed instances read back.", "quantifier": "every program of class statements with type variables in fields, char, unicode, array headers and items, and direct tuple members, all arguments, inheritance from generic and specialized classes, all ways objects are shared, all instances, bytes, states and machine byte orders", "why_tests_cant": "the arguments, the hints around the type variables and the inheritance are unbounded; a test compares one specialization with one hand-written class on a few values", "anchors": ["structured/structured.py:Structured.__init_subclass__", "structured/structured.py:Structured._get_specialization_hints", "structured/hint_types/arrays.py", "structured/hint_types/strings.py", "structured/hint_types/tuples.py"]}
{"id": "C51", "title": "strict zip, attrgetter, and unpacking on Python 3.9", "statement": "zip(..., strict=True) and its replacement for Python 3.9 give the same rows, as many as the shortest iterable has items. The first raises ValueError unless all have the same length; the replacement also lets pass the case in which the iterables before the first of the shortest have one item more, i.e. one attribute more than values. Therefore create_unpack* on Python 3.9 succeeds for the same bytes with the same objects as on later versions (nested objects included), and obj.unpack* leaves the same attributes; it raises in the same cases except that one missing value is not noticed and the last attribute keeps its old value. That cannot happen for classes whose num_values is reliable. attrgetter returns the attribute values in order for any number of names.", "quantifier": "all finite iterables; all class tables with distinct attribute names, classes, objects, byte strings, offsets, states and machine byte orders", "why_tests_cant": "the replacement runs on one Python version only and differs from zip in one relation between the lengths, for any number of iterables of any length", "anchors": ["structured/utils.py:zips", "structured/utils.py:attrgetter", "structured/structured.py:_Proxy.__call__", "structured/structured.py:Structured.unpack", "structured/structured.py:Structured.unpack_from", "structured/structured.py:Structured.unpack_read"]}
{"id": "C52", "title": "which exceptions reading can raise", "statement": "On arbitrary bytes, create_unpack, create_unpack_from, create_unpack_read and unpack into an existing object raise only struct.error, ValueError and RecursionError, plus what can be read off the hints of the program: what the user's callables (conditions, deciders, conversions, codecs) raise, KeyError or TypeError when a condition answers something that is not yes or no, TypeError for unhashable keys, IndexError for a text or a read-ahead that may have no value (zero length; counted strings in unpack_from and unpack_read), NotImplementedError for conditions and Self directly in conditions or read-aheads, AttributeError for Self in an existing object or behind a field called cls. Classes of numbers, byte strings, paddings, arrays, tuples and nested classes raise only the three. For regular classes the conditions and deciders need to be taken only on the objects they get: those whose attributes have been read, out of some bytes, from the fields before.", "quantifier": "every accepted program of class statements in the modelled fragment, every class, method, byte string, offset, stream position, earlier state, stack depth, machine byte order and instance that is refilled", "why_tests_cant": "fuzzing samples inputs; that no input raises any other exception is a statement about all byte strings of all lengths, all nestings of hints and all methods", "anchors": ["structured/structured.py:Structured.create_unpack", "structured/structured.py:Structured.unpack", "structured/serializers/conditional.py:ConditionalSerializer.prepack", "structured/serializers/unions.py", "structured/serializers/strings.py:UnicodeSerializer", "structured/serializers/self.py:SelfSerializer.preunpack"]}
{"id": "C53", "title": "what is read has the type of its annotation", "statement": "Whatever the bytes, an object made by create_unpack, create_unpack_from or create_unpack_read has exactly the attributes of its class statement, in order, and each holds a value of the annotated type: booleans, integers in the range of the type, floats that the format has; byte strings of exactly n bytes for char[n], of no more bytes than the length prefix can say, without the terminator for terminated ones, at most 32767 bytes for char[NET]; decoded text without trailing NULs; lists with the number of items of the annotation (or one its count type can say), tuples with a member per member; for a condition the value of the type or the stated defaults; for a union a value of the member its key selects; for SerializeAs what calling the type returns; for a class (or Self) an instance of exactly that class, to any depth. unpack into an existing object gives the fields their types and leaves the other attributes. Exception: empty counted strings read from an offset or a stream are no value, so an array of them can be shorter than its annotation.", "quantifier": "every accepted program of regular class statements in the modelled fragment, every class, method, byte string, offset, stream, earlier state, stack depth, machine byte order and refilled instance", "why_tests_cant": "type soundness of a parser is about all inputs: one byte string for which some nested field holds a value outside its declared type is enough to break it", "anchors": ["structured/structured.py:Structured.create_unpack", "structured/structured.py:Structured.unpack", "structured/structured.py:Structured.__init_subclass__", "structured/serializers/structs.py", "structured/serializers/strings.py", "structured/serializers/arrays.py", "structured/serializers/unions.py"]}
{"id": "C54", "title": "why packing fails", "statement": "Every exception that pack or pack_write raises has a reason that can be read off the class statement and the instance: an attribute of a field is missing (AttributeError), or the first field that fails is one whose hint does not take the value, with the exception that belongs to that: struct.error for a number out of range or of the wrong type (OverflowError for float16 and float32), for a string that is not bytes, too long or empty behind a length; ValueError for a wrong number of array items, an unknown union key, a too long .NET string or a counted string in a class of another byte order; TypeError for something that is not iterable, not text, or an unhashable key; what a codec, condition or decider raises; KeyError for a condition that answers neither True nor False; AttributeError for a value that is no instance; and recursively for nested objects, arrays, tuples and unions. And these are reasons: pack raises an exception exactly when one of them applies. So classes without short floats never raise OverflowError, and classes without conditions neither KeyError nor NotImplementedError, unless the program's own callables do.", "quantifier": "every accepted program of regular class statements, every class, every instance whose nested objects are of allowed classes, all attribute values, byte orders, earlier states and stack depths (RecursionError aside)", "why_tests_cant": "a test shows that one wrong value raises one exception; that every exception of every nesting of hints has one of the listed reasons, and that everything before the field to blame was right, is a statement about all values", "anchors": ["structured/structured.py:Structured.pack", "structured/structured.py:Structured.pack_write", "structured/serializers/api.py:CompoundSerializer", "structured/serializers/structs.py", "structured/serializers/strings.py", "structured/serializers/arrays.py", "structured/serializers/unions.py", "structured/serializers/conditional.py"]}
{"id": "C55", "title": "classes of a fixed size", "statement": "A class whose fields are numbers, paddings, strings and encoded strings of a fixed length, arrays without a count, tuples, unions whose members have the same size, and classes of the same kind has a size that can be computed from the class statements: alignment included. Every instance packs to exactly that many bytes; create_unpack, create_unpack_from and create_unpack_read use exactly that many, whatever the bytes are, refuse fewer, report it as the size, and move the stream by it. Instances packed one after the other can be read in any order: number i starts at i times the size.", "quantifier": "every program of C42 with regular class statements, every class with a size, all values, byte orders (also of the instances in the fields, when the alignment makes no difference), buffers, streams, offsets, earlier states and stack depths", "why_tests_cant": "a test measures a few instances; that no value changes the length, and that reading arbitrary bytes never uses more or fewer, is a statement about all values and all bytes", "anchors": ["structured/structured.py:Structured.pack", "structured/structured.py:Structured.create_unpack", "structured/structured.py:Structured.create_unpack_from", "structured/structured.py:Structured.create_unpack_read", "structured/serializers/structs.py", "structured/serializers/arrays.py", "structured/serializers/tuples.py", "structured/serializers/unions.py"]}
{"id": "C56", "title": "why reading fails", "statement": "For arbitrary bytes the class statement alone says whether create_unpack, create_unpack_from and create_unpack_read raise, and which exception: StructError when the bytes end within a number, a count, a string or a run of fixed-size fields (before anything of the run is converted), ValueError for a missing terminator, an unknown union key or a data size that does not match, the exception of a condition, decider, conversion or codec, IndexError for an encoded string without a value, and the exception of the first field, member or item that fails otherwise. There is an exception exactly when the bytes have no meaning (C46), and it does not depend on the stack depth, on which serializer objects are shared, nor on what was done before; only RecursionError can come instead.", "quantifier": "every program of class statements whose classes are in the fragment of the refinement and regular, all bytes, offsets, streams, earlier states and stack depths, and all conditions, deciders, conversions and codecs", "why_tests_cant": "tests try a few malformed inputs; which of several things that are wrong is reported, for all bytes and all nestings, needs a proof", "anchors": ["structured/structured.py:Structured.create_unpack", "structured/structured.py:Structured.create_unpack_from", "structured/structured.py:Structured.create_unpack_read", "structured/serializers/api.py:CompoundSerializer.unpack", "structured/serializers/arrays.py", "structured/serializers/strings.py", "structured/serializers/unions.py", "structured/serializers/conditional.py"]}
{"id": "C57", "title": "reading looks only at the bytes it uses", "statement": "For arbitrary bytes that a class reads: bytes appended to them change nothing; on a stream the bytes between the position before and the position after decide the object, so that any stream with those bytes next gives the same object and is left behind them, whatever follows; cut anywhere before their end they are refused, however much stack there is; and create_unpack, create_unpack_from and create_unpack_read make the same object of the same bytes. The exceptions are read off the class statement: fields that read to the end, unions that read their key ahead (they look further than they move), .NET strings on streams and counted and .NET strings with create_unpack (they take what is left), and empty counted strings within tuples and arrays.", "quantifier": "every program of class statements whose classes are in the fragment of the refinement and regular, all bytes, appended bytes, cuts, offsets, streams, earlier states and stack depths", "why_tests_cant": "a reader that peeks beyond what it uses, or accepts a cut message, does so for particular bytes only; that no bytes at all, for no nesting of fields, make it do so needs a proof", "anchors": ["structured/structured.py:Structured.create_unpack", "structured/structured.py:Structured.create_unpack_from", "structured/structured.py:Structured.create_unpack_read", "structured/serializers/strings.py", "structured/serializers/arrays.py", "structured/serializers/unions.py"]}
{"id": "C58", "title": "what was read is written back as the same bytes, read off the class statement", "statement": "For arbitrary bytes that a class reads (none of them written by the library), packing the object gives exactly the bytes it was read from: the prefix used by create_unpack, the bytes at the offset for create_unpack_from, the bytes between the stream positions for create_unpack_read. Which classes do this is read off the class statement: integers and floats (without NaN) that leave no alignment gap, byte strings that are fixed, counted, terminated or to the end, arrays with or without a size, tuples, conditions with one default, unions, nested classes and Self. For those of them whose counted strings are in the default byte order and not read with create_unpack, and whose conditions are not on conditions or Self, packing moreover succeeds with enough stack, and pack_write and pack_into over the bytes that were read leave stream and buffer as they were.", "quantifier": "every program of class statements whose classes are in the fragment of the refinement and regular, all classes of it that lose nothing, all bytes, offsets, streams, earlier states and stack depths", "why_tests_cant": "a round trip from objects never sees the bytes the library would not write; that all accepted bytes come back, for all nestings of fields and all lengths, ranges over an unbounded set of inputs", "anchors": ["structured/structured.py:Structured.create_unpack", "structured/structured.py:Structured.create_unpack_from", "structured/structured.py:Structured.create_unpack_read", "structured/structured.py:Structured.pack", "structured/structured.py:Structured.pack_write", "structured/structured.py:Structured.pack_into"]}
{"id": "C59", "title": "what was read and packed is read again as the same object, read off the class statement", "statement": "For arbitrary bytes that a class reads, whatever paddings, alignment gaps, truth bytes, length forms, NaN payloads or trailing NULs they have: if the object is packed, then reading the packed bytes, followed and (for create_unpack_from and create_unpack_read) preceded by anything, gives the same object again, with enough stack, and a stream is left right behind them. So one trip through the library reaches a fixed point. Which classes do this is read off the class statement: all scalars, paddings, Pascal, fixed, counted, terminated and .NET strings, text in an encoding that decodes what it encodes, arrays whose count leaves no gap before aligned items, tuples, conditions, unions, nested classes and Self.", "quantifier": "every program of class statements whose classes are in the fragment of the refinement and regular, all classes of it that are steady, all bytes, offsets, streams, earlier states and stack depths, all packing calls that succeed", "why_tests_cant": "bytes the library would not write itself are many for each object (any nonzero byte for True, any padding), and that all of them settle after one trip, for all nestings and lengths, ranges over an unbounded set", "anchors": ["structured/structured.py:Structured.create_unpack", "structured/structured.py:Structured.create_unpack_from", "structured/structured.py:Structured.create_unpack_read", "structured/structured.py:Structured.pack"]}
{"id": "C60", "title": "files of objects that were read from arbitrary bytes", "statement": "Objects of any classes are read one after the other from a stream of arbitrary bytes with create_unpack_read. (a) If they can be written with pack_write, in the middle of any other stream, then reading from where writing began gives the same objects and leaves the stream where writing ended. (b) Where the class statements lose nothing (C58), they can be written, and exactly the bytes that were read are written, over as many bytes of what was there before. (c) The packed bytes tell the object and where it ends: if the bytes of two objects that were read agree, each followed by anything, then the objects are equal, and so are their bytes and what follows.", "quantifier": "every program of class statements whose classes are in the fragment of the refinement and regular, all sequences of classes of it that are steady (a, c) or lossless and settled (b), all streams and positions, earlier states and stack depths", "why_tests_cant": "files of any number of objects, of bytes the library would not have written, and pairs of objects whose bytes could collide range over unbounded sets", "anchors": ["structured/structured.py:Structured.create_unpack_read", "structured/structured.py:Structured.pack_write", "structured/structured.py:Structured.pack"]}
