{"id": "C01", "title": "Base64 output is the RFC 4648 text", "statement": "base64_encode turns every byte sequence into exactly the padded RFC 4648 base64 text of that sequence: the bit string of the input, cut big-endian into 6-bit groups, each group mapped through the standard alphabet, padded with '='. The 48-bit fast path, on little-endian and on big-endian machines, and the byte-wise tail give the same text, whatever the bytes after the buffer contain.", "quantifier": "for all byte sequences of any length, both byte orders, and all contents of the memory after the buffer", "why_tests_cant": "the input space is unbounded and the fast path only starts at 24 bytes; tests cover one machine byte order and a handful of lengths", "anchors": ["include/persistence/base64.hpp: base64_encode", "include/persistence/base64.hpp: encode_sextet", "include/persistence/base64.hpp: encode_triplet"]}
{"id": "C02", "title": "Base64 round trip", "statement": "Decoding the text produced by base64_encode succeeds and returns the original bytes, whatever was in the output object before.", "quantifier": "for all byte sequences and all prior output contents", "why_tests_cant": "unbounded input lengths and 256^n contents", "anchors": ["include/persistence/base64.hpp: base64_encode", "include/persistence/base64.hpp: base64_decode"]}
{"id": "C03", "title": "Base64 decoder accepts exactly padded base64", "statement": "base64_decode returns true exactly for texts whose length is a multiple of four, whose characters are all in the standard alphabet except for at most two '=' at the very end in the last two places; on success the result is the bytes spelled by the 6-bit groups, with unused trailing bits dropped.", "quantifier": "for all character strings, over all 256 character values", "why_tests_cant": "the set of strings to reject is infinite; tests try a few malformed strings", "anchors": ["include/persistence/base64.hpp: base64_decode", "include/persistence/base64.hpp: decode_quadruplet"]}
{"id": "C04", "title": "Base64 decode then encode", "statement": "If base64_decode accepts a text, re-encoding the result gives back the text exactly when the unused trailing bits of the text are zero; two accepted texts with zero unused bits and the same bytes are equal.", "quantifier": "for all accepted character strings", "why_tests_cant": "needs all accepted texts, including every non-canonical one", "anchors": ["include/persistence/base64.hpp: base64_decode", "include/persistence/base64.hpp: base64_encode"]}
{"id": "C05", "title": "Base64 encoder reads beyond its input for some lengths", "statement": "The encoder reads only bytes of its input view exactly when the length is below 24 or leaves a remainder of at least 2 modulo 24; for length 24k it reads two bytes past the end and for 24k+1 one byte past the end (k>=1), never more. Output is written only inside the allocated text and every character of it is written.", "quantifier": "for all input lengths", "why_tests_cant": "an over-read of one or two bytes is invisible in the result, and the lengths are unbounded", "anchors": ["include/persistence/base64.hpp: base64_encode"]}
{"id": "C06", "title": "Date-time text survives parse and format", "statement": "If parse_datetime accepts a text, then formatting the resulting time point with to_iso_datetime gives the same text with 'T' as the separator (for time points representable by the clock).", "quantifier": "for all 20-character texts accepted, all calendar dates of years 0000 to 9999", "why_tests_cant": "3*10^11 accepted texts; leap year and century rules interact with month lengths", "anchors": ["include/persistence/datetime.hpp: parse_datetime", "include/persistence/datetime.hpp: to_iso_datetime", "include/persistence/datetime.hpp: make_datetime"]}
{"id": "C07", "title": "Time point survives format and parse", "statement": "For every time point on a whole second between 0000-01-01T00:00:00Z and 9999-12-31T23:59:59Z that the clock can represent, parsing its formatted text succeeds and gives the same time point. A time point with a fraction of a second comes back rounded towards the epoch, less than one second away.", "quantifier": "for all time points of the system clock in that range, at any clock resolution", "why_tests_cant": "2^63 time points", "anchors": ["include/persistence/datetime.hpp: to_iso_datetime", "include/persistence/datetime.hpp: parse_datetime"]}
{"id": "C08", "title": "Date-time parser accepts exactly ISO dates and gives the right instant", "statement": "parse_datetime accepts exactly YYYY-MM-DD(T or space)hh:mm:ssZ with decimal digits, an existing Gregorian date and a time of day below 24:00:00; the instant is the number of seconds from 1970-01-01 in the proleptic Gregorian calendar. parse_date accepts exactly YYYY-MM-DD and gives midnight of that day.", "quantifier": "for all character strings of any length and content", "why_tests_cant": "256^20 strings of the right length alone", "anchors": ["include/persistence/datetime.hpp: parse_datetime", "include/persistence/datetime.hpp: parse_date", "include/persistence/datetime.hpp: is_valid_date", "include/persistence/datetime.hpp: from_digits"]}
{"id": "C09", "title": "Formatted date-times sort like time points", "statement": "Within years 0000 to 9999, the formatted text of one time point is lexicographically before that of another only if the first time point is earlier, an earlier or equal time point never has the later text, and the text is strictly before when the time point is at least two seconds earlier, or at least one second earlier on the same side of 1970. (One second is not enough across 1970, where truncation towards zero merges two seconds.)", "quantifier": "for all pairs of time points in the range", "why_tests_cant": "pairs of 2^63 values", "anchors": ["include/persistence/datetime.hpp: to_iso_datetime"]}
{"id": "C10", "title": "Formatting outside years 0000-9999 gives wrong text silently", "statement": "to_iso_datetime writes the year zero padded for 0..9999; for any other year the year field of the text stays 0000 and no error is reported, so the text never parses to the same instant.", "quantifier": "for all time points outside years 0 to 9999 whose year fits an int", "why_tests_cant": "the clock range depends on the platform and the failure is silent", "anchors": ["include/persistence/datetime.hpp: to_iso_datetime", "include/persistence/datetime.hpp: AlignedDigitWriter"]}
{"id": "C11", "title": "Numeric range check is exact", "statement": "is_assignable<T>(v) holds for integer types exactly when the value of v is in the range of T, for every pair of source and destination widths and signedness; an integer accepted for a floating-point type is stored without rounding; a float or double accepted for an integer type never happens; narrowing a floating-point value is accepted exactly when it lies between the lowest and the largest finite value.", "quantifier": "for all source and target types and all source values", "why_tests_cant": "pairs of types times 2^64 values", "anchors": ["include/persistence/detail/numeric_traits.hpp: is_assignable"]}
{"id": "C12", "title": "Integers are read exactly or rejected", "statement": "Reading a JSON integer into an integer type of any width and signedness, by deserialize or by parse, succeeds exactly when the number lies in the range of the type and then stores that number; JSON numbers with fraction or exponent are rejected for integer types.", "quantifier": "for all integer types and all JSON numbers", "why_tests_cant": "2^64 numbers times eleven types times two readers and the reader picks one of four setter methods by magnitude", "anchors": ["include/persistence/deserialize_fundamental.hpp", "include/persistence/parse_fundamental.hpp: JsonNumberParser", "include/persistence/detail/numeric_traits.hpp"]}
{"id": "C13", "title": "Perfect hash finds every member name and no out-of-range index", "statement": "For every list of distinct names for which construction terminates, looking up the i-th name gives i, and looking up any other string gives some index below the number of names, so that comparing the name found decides membership exactly.", "quantifier": "for all non-empty lists of distinct names and all lookup strings", "why_tests_cant": "the hash construction searches for a displacement; whether it covers all key sets cannot be sampled", "anchors": ["include/persistence/detail/perfect_hash.hpp: PerfectHash"]}
{"id": "C14", "title": "Member dispatch of the parser is lookup by name", "statement": "The object parser routes a JSON key to the member with exactly that name in every case (one member, two members, three or more via the hash), and reports failure for a key that is no member name.", "quantifier": "for all classes with distinct member names and all keys", "why_tests_cant": "three code paths and unbounded key strings", "anchors": ["include/persistence/parse_object.hpp: JsonObjectParserSolo, JsonObjectParserPair, JsonObjectParser"]}
{"id": "C15", "title": "Paths printed for references and errors are JSON pointers to the right place", "statement": "The text of a path, read as an RFC 6901 JSON pointer, resolves in any document to the value reached by the path's segments, provided names are non-empty and free of '/' and '~' and indexes are in range; without that proviso it can resolve to a different value.", "quantifier": "for all documents, all paths", "why_tests_cant": "unbounded paths and documents", "anchors": ["include/persistence/detail/path.hpp: Path::str", "include/persistence/detail/segment.hpp"]}
{"id": "C16", "title": "Reference tables keep the first entry", "statement": "Looking up an object in a reference table gives the value registered first for that object and nothing if it has never been registered, after any sequence of registrations.", "quantifier": "for all sequences of get and put", "why_tests_cant": "histories are unbounded", "anchors": ["include/persistence/detail/references.hpp"]}
{"id": "C17", "title": "DOM round trip", "statement": "deserialize<T>(serialize_to_document(x)) succeeds and gives back x for every supported type built from fundamental types, strings, bytes, time points, dates, enums, vector, array, set, map, pair, tuple, optional members, default members, classes (also recursive and derived), unique_ptr and shared_ptr without aliasing, when x holds only finite numbers, whole-second times, and map keys without NUL.", "quantifier": "for all types of the family and all values of the type, any size and depth", "why_tests_cant": "types and values are unbounded; tests use a dozen classes", "anchors": ["include/persistence/serialize.hpp", "include/persistence/deserialize.hpp", "include/persistence/serialize_object.hpp", "include/persistence/deserialize_object.hpp", "include/persistence/deserialize_vector.hpp", "include/persistence/deserialize_map.hpp", "include/persistence/deserialize_set.hpp"]}
{"id": "C18", "title": "Writing directly and writing via DOM give the same text", "statement": "write_to_string(x) and document_to_string(serialize_to_document(x)) give the same text whenever no member holds a value that cannot be written.", "quantifier": "for all types and all values, including shared pointers", "why_tests_cant": "unbounded types and values; two independent implementations of each type", "anchors": ["include/persistence/write.hpp", "include/persistence/write_object.hpp", "include/persistence/serialize_object.hpp", "include/persistence/utility.hpp: document_to_string"]}
{"id": "C19", "title": "Write then parse round trip", "statement": "parse<T>(write_to_string(x)) succeeds and gives back x for every type the parser supports (no variant, no string enum or small-integer below a container, no aliasing pointers), as long as nesting stays within the parser's stack.", "quantifier": "for all types of the family and all values", "why_tests_cant": "unbounded types, values and nesting; the parser is a stack machine driven by events", "anchors": ["include/persistence/parse.hpp", "include/persistence/write.hpp", "include/persistence/parse_object.hpp", "include/persistence/parse_vector.hpp", "include/persistence/parse_array.hpp", "include/persistence/parse_map.hpp", "include/persistence/parse_set.hpp"]}
{"id": "C20", "title": "parse and deserialize agree", "statement": "On documents without duplicate keys or NUL characters in keys, and for classes whose default members are initialised, if parse<T>(s) succeeds for a freshly constructed object and all required members are present, then deserialize<T>(s) succeeds with the same value; the converse holds when the document has no members unknown to the class, has at most 84 levels, and avoids what only the DOM reader supports: string enums inside containers, containers of small integers, and numbers not exactly countable in the floating-point type.", "quantifier": "for all parser-supported types and all JSON documents", "why_tests_cant": "pairs of unbounded types and documents, two independent readers", "anchors": ["include/persistence/parse.hpp", "include/persistence/deserialize.hpp"]}
{"id": "C21", "title": "Throwing deserialization accepts exactly the documents of the type", "statement": "deserialize<T>(doc) without back-references returns normally exactly when the document denotes a value of T: right JSON kinds, numbers in range, sizes as declared, every required member present; then the returned value is the denoted one.", "quantifier": "for all types (variants and back-references aside) and all documents", "why_tests_cant": "unbounded documents and types", "anchors": ["include/persistence/deserialize.hpp: T deserialize<T>", "include/persistence/deserialize_object.hpp", "include/persistence/deserialize_check.hpp"]}
{"id": "C22", "title": "Boolean deserialization can report success for a bad document", "statement": "deserialize(doc, obj) returning true does not imply that every member was read: the flag of a class reflects only the last member found or required, so an earlier failure is forgotten. A class all of whose members are read correctly always gives true, and false is always justified by some failing member.", "quantifier": "for all classes and all documents", "why_tests_cant": "depends on the position of the failing member; tests only try classes where the failing member is last or only", "anchors": ["include/persistence/deserialize_object.hpp: JsonObjectDeserializer"]}
{"id": "C23", "title": "Deserialization errors point at the culprit", "statement": "When deserialize<T>(doc) throws a type, size, range or missing-property error, the reported path leads from the document root to a value that does not denote a value of the type expected at that place, the error is what is wrong with it, and no other defect comes before it when elements and map entries are taken in document order and members in order of declaration. Conversely a document with a defect is rejected with the first one.", "quantifier": "for all types and all documents that are rejected", "why_tests_cant": "unbounded documents; error position varies with nesting", "anchors": ["include/persistence/deserialize_check.hpp", "include/persistence/detail/deserialize_context.hpp: segments", "include/persistence/deserialize_object.hpp"]}
{"id": "C24", "title": "Shared pointers are written once and stay shared", "statement": "Serializing an object graph in which several shared_ptr refer to the same object writes the object once and a $ref elsewhere; deserializing the document recreates exactly the same sharing: two pointers alias after the round trip exactly when they aliased before, and pointees are equal.", "quantifier": "for all acyclic object graphs and all types without sets of shared pointers, whose variants have no alternative that looks like an earlier one, member names and keys without '/' and '~'", "why_tests_cant": "sharing patterns grow combinatorially with size", "anchors": ["include/persistence/serialize_pointer.hpp", "include/persistence/deserialize_pointer.hpp", "include/persistence/detail/output_context.hpp", "include/persistence/detail/deserialize_context.hpp"]}
{"id": "C25", "title": "Variants take the first alternative that reads", "statement": "Deserializing a variant gives the first alternative, in declaration order, whose own (non-throwing) deserialization succeeds, with that alternative's value; it fails exactly when none succeeds.", "quantifier": "for all lists of alternatives and all documents", "why_tests_cant": "unbounded combination of alternatives and documents", "anchors": ["include/persistence/deserialize_variant.hpp", "include/persistence/serialize_variant.hpp"]}
{"id": "C26", "title": "Generated schema accepts what is written", "statement": "Whenever the library generates a JSON schema for a type T without enums and vectors of string-keyed pairs, whose variants have alternatives of different JSON types, every document written for a value of T in which no object is shared twice, sets hold no shared pointers and times are whole seconds validates against that schema. Each exception is needed: the schema of an enum rejects every document, and that of variant<int, double> rejects 3.", "quantifier": "for all types of the family and all values", "why_tests_cant": "unbounded types and values; tests compare a few schema texts and never validate", "anchors": ["include/persistence/schema.hpp"]}
{"id": "C27", "title": "Parser consumes exactly one value and restores its stack", "statement": "While reading a value the parser either fails or, after the events of exactly that value, has popped the handler it started with (a string enum, which is never popped, aside) and left every handler below untouched; it is not popped before; it never touches the target outside the sub-object being read.", "quantifier": "for all types, all documents, all stacks below", "why_tests_cant": "handlers replace and destroy themselves while running; interleavings unbounded", "anchors": ["include/persistence/parse_base.hpp: ReaderContext", "include/persistence/parse_array.hpp", "include/persistence/parse_object.hpp", "include/persistence/parse_vector.hpp", "include/persistence/parse_map.hpp"]}
{"id": "C28", "title": "Polymorphic stack is a bounded LIFO that never overruns", "statement": "After any sequence of emplace and pop the stack holds exactly the frames emplaced and not popped, in last-in first-out order; frames occupy disjoint space inside the buffer; they are aligned when all sizes are multiples of the strictest alignment used, and need not be otherwise; an emplace that does not fit throws and leaves the stack as it was; each frame is destroyed exactly once.", "quantifier": "for all sequences of operations and all frame sizes and alignments", "why_tests_cant": "unbounded histories; overruns do not show in results", "anchors": ["include/persistence/detail/polymorphic_stack.hpp"]}
{"id": "C29", "title": "Unknown members: parser rejects, deserializer ignores", "statement": "A JSON object with a member name not declared by the class makes parse fail; deserialize gives the same result as without that member.", "quantifier": "for all classes, documents and unknown names", "why_tests_cant": "unbounded set of names and positions", "anchors": ["include/persistence/parse_object.hpp", "include/persistence/deserialize_object.hpp"]}
{"id": "C30", "title": "Missing members", "statement": "A missing required member makes the throwing deserializer throw with the path of the containing object; a missing default member keeps the object's previous value; a missing optional member becomes empty. The parser accepts a document with any subset of members and leaves the others as they were.", "quantifier": "for all classes and all documents", "why_tests_cant": "2^n subsets of members for every class", "anchors": ["include/persistence/deserialize_object.hpp", "include/persistence/parse_object.hpp"]}
{"id": "C31", "title": "Order of members in the document does not matter", "statement": "Permuting the members of JSON objects with distinct names does not change the result of deserialize nor of parse for classes and maps.", "quantifier": "for all permutations, all documents and types", "why_tests_cant": "n! orders", "anchors": ["include/persistence/deserialize_object.hpp", "include/persistence/parse_object.hpp", "include/persistence/deserialize_map.hpp", "include/persistence/parse_map.hpp"]}
{"id": "C32", "title": "Enum names convert back and forth", "statement": "With a converter table of distinct names and values, from_string(to_string(v)) gives v for every listed value, to_string(from_string(s)) gives s for every listed name, any other name is rejected, and a value not listed is written as the empty string.", "quantifier": "for all converter tables, values and names", "why_tests_cant": "tables are user defined and unbounded", "anchors": ["include/persistence/enum_utility.hpp: EnumConverter", "include/persistence/serialize_enum.hpp", "include/persistence/deserialize_enum.hpp", "include/persistence/parse_enum.hpp"]}
{"id": "C33", "title": "Reading replaces or merges old content", "statement": "Deserializing a document that denotes a value gives that value whatever the object held before, unless a default member is missing in the document; for other documents, members that cannot be read keep their old values; parsing a vector appends to old elements, parsing a map reads only into the keys in the document, parsing an array or tuple reads into each element.", "quantifier": "for all types, documents and prior object states", "why_tests_cant": "product of prior states and documents", "anchors": ["include/persistence/deserialize_vector.hpp", "include/persistence/parse_vector.hpp", "include/persistence/parse_map.hpp", "include/persistence/deserialize_map.hpp"]}
{"id": "C34", "title": "Non-finite numbers", "statement": "Writing a value that contains a NaN or infinity anywhere makes write_to_string fail and leaves the output untouched, except in a derived class's own members; serializing to a document drops the class member concerned silently, and fails if the number is reached without passing through a class member.", "quantifier": "for all values and positions of the non-finite number", "why_tests_cant": "positions in unbounded values", "anchors": ["include/persistence/write_fundamental.hpp", "include/persistence/serialize_fundamental.hpp", "include/persistence/serialize_object.hpp", "include/persistence/write.hpp: write_to_string", "include/persistence/write_object.hpp"]}
{"id": "C35", "title": "Members of derived classes are not checked", "statement": "For a class whose persist calls the base class's persist first, failures in the derived class's own members do not make boolean deserialization or writing fail; writing then yields text that is not JSON.", "quantifier": "for all derived classes and values", "why_tests_cant": "inherited persist returns the archive by value; tests have no failing derived member", "anchors": ["include/persistence/object.hpp", "include/persistence/write_object.hpp", "include/persistence/deserialize_object.hpp", "include/persistence/serialize_object.hpp"]}
{"id": "C36", "title": "Duplicate keys", "statement": "For an object with a repeated key, deserialize reads the first occurrence into a class member, a map takes the last occurrence, and parse takes the last occurrence for members of fundamental type.", "quantifier": "for all classes, keys, positions", "why_tests_cant": "positions and counts unbounded", "anchors": ["include/persistence/deserialize_object.hpp", "include/persistence/parse_object.hpp", "include/persistence/deserialize_map.hpp"]}
{"id": "C37", "title": "Written text is valid JSON and reads back as the same document", "statement": "The text produced by write_to_string for a value without floating-point numbers is a JSON text; parsing it with a conforming JSON reader gives back exactly the document of the value, for strings with any control character, quote or backslash.", "quantifier": "for all documents without floating point, all byte strings", "why_tests_cant": "unbounded strings and nesting", "anchors": ["include/persistence/write.hpp", "include/persistence/write_string.hpp", "include/persistence/utility.hpp"]}
{"id": "C38", "title": "Float survives the passage through double", "statement": "A finite float written as JSON number (widened to double) and read back into float gives the same float; a double read into float gives the nearest float, ties to even.", "quantifier": "for all finite floats and doubles", "why_tests_cant": "2^32 and 2^64 values", "anchors": ["include/persistence/serialize_fundamental.hpp", "include/persistence/deserialize_fundamental.hpp"]}
{"id": "C39", "title": "Nesting limit of the parser", "statement": "parse uses at most as many handlers as the nesting of the document requires; it throws std::out_of_range exactly when one more handler would not fit, also in the bool overload; a document of nesting below the limit never throws out_of_range.", "quantifier": "for all documents and types", "why_tests_cant": "unbounded nesting", "anchors": ["include/persistence/detail/polymorphic_stack.hpp: emplace", "include/persistence/parse_base.hpp"]}
{"id": "C40", "title": "Bit set operations", "statement": "count, get, set, first_set, first_unset and pick of the fixed-size bit set agree with the set of positions set so far, for every history of set operations.", "quantifier": "for all sizes and histories", "why_tests_cant": "2^n states", "anchors": ["include/persistence/detail/bitset.hpp"]}
{"id": "C41", "title": "String enums below a container cannot be parsed", "statement": "The parser never returns from a string enum, so any array, map, class or tuple containing one is rejected at its end, although writing and DOM deserialization of the same type round-trip.", "quantifier": "for all containers and all names", "why_tests_cant": "tests only parse string enums at top level", "anchors": ["include/persistence/parse_enum.hpp", "include/persistence/deserialize_enum.hpp"]}
{"id": "C42", "title": "Containers of small integers cannot be parsed", "statement": "parse rejects every non-empty JSON array for a vector or set of char, signed char, unsigned char, integer enum or pointer to number, although write and DOM deserialization support them; empty arrays are accepted.", "quantifier": "for all element values and all such element types", "why_tests_cant": "tests cover vector<int> and friends only, which use other specialisations", "anchors": ["include/persistence/parse_vector.hpp: JsonArrayParser", "include/persistence/parse_set.hpp", "include/persistence/parse_fundamental.hpp"]}
{"id": "C43", "title": "Fixed-size containers need the exact count", "statement": "array<T,N>, pair and tuple are read exactly from JSON arrays of length N resp. 2 resp. the number of components, element i from item i; every other length is rejected by both readers.", "quantifier": "for all N, component types and arrays", "why_tests_cant": "unbounded N", "anchors": ["include/persistence/deserialize_array.hpp", "include/persistence/deserialize_tuple.hpp", "include/persistence/parse_array.hpp"]}
{"id": "C44", "title": "Failed throwing-mode back-reference is silent", "statement": "A $ref that resolves to nothing, or to a value not read before through a shared pointer, makes the throwing deserializer return normally with a null pointer in a class member instead of throwing.", "quantifier": "for all documents and back-references", "why_tests_cant": "depends on reading order", "anchors": ["include/persistence/deserialize_pointer.hpp", "include/persistence/deserialize.hpp"]}
{"id": "C45", "title": "A constructor that throws corrupts the handler stack", "statement": "If the constructor of a frame throws during emplace, the exception leaves the stack with one frame too many; destroying the stack afterwards destroys the frame below a second time or follows a null pointer.", "quantifier": "for all histories of the stack and all frames", "why_tests_cant": "needs a throwing default constructor below a pointer or optional during parsing", "anchors": ["include/persistence/detail/polymorphic_stack.hpp: emplace", "include/persistence/parse_pointer.hpp", "include/persistence/parse_object.hpp"]}
{"id": "C46", "title": "The parser accepts exactly the documents that can be merged into the object", "statement": "parse(s, obj) returns true exactly when the document can be merged into the value obj holds, member by member and element by element, and obj then holds the merged value: vectors extended, set elements inserted, map entries and class members read into, arrays, pairs and tuples read item by item, pointers and optionals newly made; apart from the stack of handlers running out of space, which cannot happen up to 84 levels.", "quantifier": "for all parser-supported types, documents and prior object states", "why_tests_cant": "unbounded documents, types and states; the result emerges from many small handlers", "anchors": ["include/persistence/parse.hpp", "include/persistence/parse_base.hpp", "include/persistence/parse_object.hpp", "include/persistence/parse_vector.hpp", "include/persistence/parse_set.hpp", "include/persistence/parse_map.hpp", "include/persistence/parse_array.hpp", "include/persistence/parse_pointer.hpp"]}
{"id": "C47", "title": "Documents have the documented format", "statement": "serialize_to_document(x) succeeds for every value of a plain type (no variants, shared or raw pointers) and gives exactly the JSON document of the value: numbers and strings as they are, bytes as base64, times as ISO texts, enumerations by name, sequences as arrays in order, maps as objects, classes as objects with the members in order and without empty optionals.", "quantifier": "for all plain types and all values that JSON can express", "why_tests_cant": "unbounded types and values", "anchors": ["include/persistence/serialize.hpp", "include/persistence/serialize_object.hpp", "include/persistence/serialize_map.hpp", "include/persistence/serialize_vector.hpp", "include/persistence/serialize_tuple.hpp", "include/persistence/serialize_datetime.hpp"]}
{"id": "C48", "title": "Some sets of distinct member names have no perfect hash", "statement": "Compilation of a parser for a class whose number of members is a power of two (at least four) never ends if two of its members have names of equal length whose characters agree modulo that number, for example members x, y, z and t.", "quantifier": "for all such sets of names and any number of seeds tried", "why_tests_cant": "a test with such a class does not compile, and tests use few classes", "anchors": ["include/persistence/detail/perfect_hash.hpp: hash", "include/persistence/detail/perfect_hash.hpp: scatter", "include/persistence/parse_object.hpp"]}
{"id": "C49", "title": "Types with a schema", "statement": "schema_document<T>() returns exactly if T is composed of supported types (no raw pointers, no pointers to types without parts, no class members with a default) and no type is contained in itself, directly or through other types; the result is the same for any size of the stack, and its first member, $schema, and no other says that it is written in JSON Schema 2020-12. For a type that contains a recursive class, and that compiles, the call recurses until the stack is exhausted.", "quantifier": "all environments of classes, all types, all stack depths", "why_tests_cant": "Class graphs are unbounded, and a program that overflows its stack cannot be part of a test suite.", "anchors": ["include/persistence/schema.hpp"]}
{"id": "C50", "title": "References in schemas resolve", "statement": "In every document that schema_document<T>() returns, each $ref is of the form #/definitions/NAME and resolves to one of the definitions; the definitions have different names; each of them is the schema that the class with this type name has on its own, and each is referred to from somewhere in the document. Pointers are transparent: the schema of a pointer is the schema of what it points to.", "quantifier": "all environments of classes, all types, all places in the schema document", "why_tests_cant": "Which classes are defined, inlined or repeated depends on the whole type graph; tests see single classes.", "anchors": ["include/persistence/schema.hpp"]}
{"id": "C51", "title": "Documents that fit the schema can be read", "statement": "If schema_document<T>() accepts a document, then deserialize<T>(document) returns a value instead of throwing an exception, and deserialize into an object returns true, for types without times and dates and documents that write whole numbers without fraction and exponent and, if there are shared pointers in T, have no member $ref. Without these restrictions there are documents that fit the schema and are not read: 1.0 for an integer, times with an offset, dates that the clock cannot represent, a map with a key $ref behind a shared pointer. Conversely, unknown members are read but do not fit.", "quantifier": "all environments of classes, all types, all documents", "why_tests_cant": "The schema and the deserializer are separate programs over the same types; agreement concerns every pair of type and document.", "anchors": ["include/persistence/schema.hpp", "include/persistence/deserialize.hpp"]}
{"id": "C52", "title": "Number literals", "statement": "parse_number<T>(text, value) for an integral T returns true exactly if the text is a decimal numeral (digits, leading zeros allowed; a minus sign only for signed types; no plus sign, blanks, fraction or exponent) of a number in the range of T, and then stores this number; for signed types and texts that are JSON numbers these are exactly the integers in range. If it returns false, the variable is unchanged, unless the text starts with a numeral in range that is followed by something else, which is then stored. For floating-point types the result is true exactly if the text is the longest numeral of all that is in memory from there on, or is empty and no numeral follows: it depends on the characters that follow the text in memory, and the empty text is accepted.", "quantifier": "all integral types, all texts, all previous values", "why_tests_cant": "Texts and ranges are unbounded; the effect of neighbouring memory cannot be seen with string literals.", "anchors": ["include/persistence/number.hpp", "include/persistence/parse_fundamental.hpp"]}
{"id": "C53", "title": "Untrusted input is read without undefined behaviour, with two exceptions", "statement": "For every type without raw pointers and every text or document, JSON or not, deserialize (both forms) has no undefined behaviour, unless the document contains (1) a correct date or date-time that the ticks of the system clock do not reach (never, if the clock has at most 36 million ticks per second) where the type has times or dates, or (2) where the type has shared pointers, an object with a $ref member whose value is not the text of a JSON pointer (plain or as a URI fragment), or which may point to an object of another type. parse, which knows no references, has no undefined behaviour for any text, except for (1), also while it reads the beginning of a text that turns out to be no JSON. Both exceptions are real: each such date and each such reference is undefined behaviour. Copies of values that were never set are not considered here, but in C78.", "quantifier": "all types, all texts and documents, all objects read into, all clocks", "why_tests_cant": "Hostile inputs are unbounded, and undefined behaviour may pass unnoticed in a test.", "anchors": ["include/persistence/deserialize_pointer.hpp", "include/persistence/deserialize_datetime.hpp", "include/persistence/parse_datetime.hpp", "include/persistence/datetime.hpp", "include/persistence/deserialize.hpp", "include/persistence/parse.hpp"]}
{"id": "C54", "title": "What was read can be written and read again", "statement": "If deserialize returns an object from a document or text, then serialize and write succeed for this object, and what they produce is read as an equal object, however untidy the first document was (order of members, repeated and unknown members, repeated elements of sets, other spellings of dates). This assumes that the numbers in the object are finite (a number that is too big for a float is read as infinity, which is not written), that there are no vectors of pairs of a string and something (read from arrays, written as objects), that enumerations have one name for each constant, that elements of sets are ordered, and that the default values of members can be written.", "quantifier": "all such types, all documents and texts, all objects read into", "why_tests_cant": "The inputs are arbitrary documents, not only those that the library writes itself.", "anchors": ["include/persistence/deserialize.hpp", "include/persistence/serialize.hpp", "include/persistence/write.hpp", "include/persistence/serialize_vector.hpp", "include/persistence/deserialize_fundamental.hpp"]}
{"id": "C55", "title": "Variants survive the round trip", "statement": "Serializing a value with variants anywhere in it and deserializing the document gives back an equal value whose variants hold the same alternatives, provided that in each variant no alternative before the one it holds can be read from the kind of JSON value (null, boolean, integer, other number, string, array, object) that this one is written as. The proviso is needed: a value that looks like an earlier alternative comes back as that one, and if both are shared pointers and the value is an alias, reading it is undefined behaviour.", "quantifier": "all types with such variants, nested to any depth, and all their values", "why_tests_cant": "Which alternative is found depends on all the alternatives before it and on the kind of every value; tests cover a few variants.", "anchors": ["include/persistence/serialize_variant.hpp", "include/persistence/deserialize_variant.hpp", "include/persistence/deserialize_pointer.hpp"]}
{"id": "C56", "title": "Object graphs are serialized exactly if they have no cycle", "statement": "Finitely many objects that point to each other by unique, shared and raw pointers, without null pointers and without numbers that cannot be written: if no object leads back to itself, serialize and write succeed (given enough stack) and produce the document of the tree that one gets by following the pointers, with aliases as $ref. Also with null pointers and numbers that cannot be written, both do the same as for that tree, whatever it is, if there is one: the same document, the same text, the same failure with the string untouched. If there is a cycle anywhere, of shared pointers or of others, each of the calls recurses without end and exhausts the stack, however large it is, because an object is registered for references only after its content.", "quantifier": "all types, all heaps and all shapes of graphs, all sizes of the stack", "why_tests_cant": "A test with a cycle crashes the test program; graphs come in any shape and size, and whether recursion ends for all of them is not observable.", "anchors": ["include/persistence/serialize_pointer.hpp", "include/persistence/write_pointer.hpp", "include/persistence/serialize.hpp", "include/persistence/write.hpp", "include/persistence/detail/output_context.hpp"]}
{"id": "C57", "title": "A member that is left out leaves references to nothing", "statement": "When serialize leaves out a member because a number in it is not finite, shared objects that it had already written inside this member stay registered. A later shared_ptr to such an object is written as a $ref to a place that is not in the document, although the object itself could be written; reading the document back with deserialize<T> gives a null pointer without an exception (deserialize into an object returns false).", "quantifier": "all classes with an optional pair of a shared_ptr and a double and another shared_ptr, all types and contents of the shared object, all names of the members without / and ~, all numbers that are not finite", "why_tests_cant": "A combination of three features; the existing tests check each alone, and the loss is silent.", "anchors": ["include/persistence/serialize_object.hpp", "include/persistence/serialize_pointer.hpp", "include/persistence/deserialize_pointer.hpp", "include/persistence/detail/output_context.hpp"]}
{"id": "C58", "title": "Temporary strings are read in place with the same result", "statement": "deserialize for a temporary string (std::string&&), which decodes strings inside the buffer of the argument, gives the same object, the same result flag and the same exceptions as for a constant string, and never writes outside the buffer. string_to_document for a temporary string gives the same document while the string exists. Afterwards the document can be used exactly if it contains no string and no member name: otherwise it refers to freed memory.", "quantifier": "all texts, JSON or not, with all escapes, all types and objects read into", "why_tests_cant": "The decoded text overlaps the text still to be read, for strings of any length with any escapes; use after free may go unnoticed in a test.", "anchors": ["include/persistence/deserialize.hpp", "include/persistence/utility.hpp"]}
{"id": "C59", "title": "Deeply nested input exhausts the stack in deserialize, not in parse", "statement": "Making a document from a text (string_to_document, deserialize from a string) nests calls as deep as the text nests arrays and objects, whatever type is to be read: a well-formed text is read if the stack has room for its nesting and overflows the stack otherwise, and for every size of the stack a text of that many opening brackets overflows it. parse never nests deeper than 129 calls, for every type and every text, well-formed or not: beyond that it reports an error or throws std::out_of_range, and its result is the same as with an unlimited stack.", "quantifier": "all texts (any bytes), all types and class definitions, all stack sizes", "why_tests_cant": "The claim is about all nestings and all malformed texts; tests use shallow inputs, and a stack overflow ends the test program.", "anchors": ["include/persistence/utility.hpp:27-32", "include/persistence/deserialize.hpp:61-118", "include/persistence/parse.hpp:11-31", "include/persistence/detail/parse_event.hpp:134-207", "include/persistence/parse_base.hpp:19-37", "include/persistence/detail/polymorphic_stack.hpp:22-38"]}
{"id": "C60", "title": "The offset of a parse error is the place where the text stops being JSON, or the token that does not fit", "statement": "When parse or deserialize report an error in a text, the characters before the offset start some JSON text, and no JSON text starts with these and the character at the offset (for errors in an escape sequence: with these and the next 2 or 12 characters; for a number that is too big: the number starts at the offset). So a text that is cut off outside an escape sequence is reported at its end. The object given to parse has then taken every whole token before the offset and nothing of the token with the error. When parse reports that a value does not fit the type, it is the first token of the text that the object refuses, and the offset is the end of the token, or its start if it is a number.", "quantifier": "all texts (any bytes), all types and class definitions, all earlier contents of the object, all readings of floating-point numbers", "why_tests_cant": "Two offsets are tested. The claim relates the offset of every error in every malformed text to the grammar of JSON, and quantifies over all continuations of a text.", "anchors": ["include/persistence/parse.hpp:11-50", "include/persistence/exception.hpp:15-25", "include/persistence/deserialize.hpp:43-59", "include/persistence/utility.hpp:27-40", "include/persistence/parse_base.hpp:19-79", "test/main.cpp:13-26"]}
{"id": "C61", "title": "The text of a parse error says what was expected at the offending token", "statement": "The text of the JsonParseError that parse throws is \"parse error at offset N: \" with N in decimal and a reason, cut at the first NUL byte. For a text that is not JSON the reason is RapidJSON's sentence for the error at this place; deserialize uses the same sentences, and different errors have different ones. Otherwise the reason is about the first token of the text that does not fit: if its kind is not one that can come next, the reason lists the kinds that can come next for the type at this place and names the kind of the token; if a number, a Base64 text, a date, a date-time, an enumerator or a member name is not a possible one, it says so and quotes it. There is at most one such token with such a reason in a text, parse does not return an object if there is one, and it does not throw for a text that is JSON if there is none. It is not true that the text always makes sense: it can be 'expected JSON token: number; got: number'.", "quantifier": "all texts (any bytes), all types and class definitions, all readings of floating-point numbers, all sizes of the handler stack", "why_tests_cant": "The tests look at the offsets of two errors and never at a text. What can come next depends on the type and on all tokens before; the claim is about every type, text and place of the first wrong token.", "anchors": ["include/persistence/parse.hpp:24-50", "include/persistence/exception.hpp:13-25", "include/persistence/parse_base.hpp:38-80", "include/persistence/detail/parse_event.hpp:6-117", "include/persistence/parse_fundamental.hpp:54-64", "include/persistence/parse_items.hpp:8-11", "include/persistence/parse_vector.hpp:21-33", "include/persistence/parse_array.hpp:8-133", "include/persistence/parse_map.hpp:9-30", "include/persistence/parse_object.hpp:78-195", "include/persistence/deserialize.hpp:43-59"]}
{"id": "C62", "title": "The text of a deserialization error says what is wrong with the first defect of the document", "statement": "The text of the JsonDeserializationError that deserialize throws is a reason, \" at \" and the path, cut at the first NUL byte; the member path of the exception is the same path, that of the first defect (C23). The reason depends on the type expected and the value found there: for a value of another kind it names the kind expected; for a number out of range, the signedness of the type; for a malformed text, the format and the text found; for an array of the wrong length, both lengths in decimal; for an object without a required property, the first such property in the order of the class; for a variant, that no alternative fits. There is exactly one such reason for a value, and it holds only of values that do not denote one of the type. Conversely (without byte strings, times and dates) the first defect of every document is reported in these words. It is not true that the path can always be read from the text: a quoted string may contain \" at /\" or a NUL; nor that the kind found differs from the kind expected: an integer of more than 32 bits is rejected with 'wrong JSON data type; expected: integer'.", "quantifier": "all types and class definitions (variants of types without classes, variants and pointers), all documents (without references that are followed)", "why_tests_cant": "No test looks at the text of a JsonDeserializationError, and one looks at a path. The claim is about every type, every document and every place of its first defect.", "anchors": ["include/persistence/exception.hpp:27-37", "include/persistence/deserialize.hpp:43-59", "include/persistence/deserialize_check.hpp:12-76", "include/persistence/deserialize_fundamental.hpp:11-205", "include/persistence/deserialize_fundamental.hpp:273-296", "include/persistence/deserialize_bytes.hpp:15-33", "include/persistence/deserialize_datetime.hpp:15-33", "include/persistence/deserialize_date.hpp:18-38", "include/persistence/deserialize_enum.hpp:36-62", "include/persistence/deserialize_object.hpp:50-70", "include/persistence/deserialize_variant.hpp:16-30"]}
{"id": "C63", "title": "A serialized document outlives the object that it was made from, except for the texts of views", "statement": "When serialize_to_document has returned, the document can be read, changed or written whatever becomes of the object: if all texts of the object are std::string, the document reads the same after the object has been modified or destroyed. Keys of maps, base64, dates, times and references are copied into the document; names of members and enumerators are constants of the program; nothing in the document refers to a local variable of a serializer. Where the object has a std::string_view or an array of characters the document refers to the characters, so the text of that value (and nothing else: no name, no key, not the structure) is the one that is in memory when the document is read.", "quantifier": "all types, objects and graphs of shared objects, all choices of the places where the object has views, all changes of the memory that the views refer to", "why_tests_cant": "The tests compare the document while the object exists, where a dangling reference looks like a copy.", "anchors": ["include/persistence/serialize_string.hpp:8-43", "include/persistence/serialize_map.hpp:16-31", "include/persistence/serialize_object.hpp:56-72", "include/persistence/serialize_pointer.hpp:38-62", "include/persistence/serialize_bytes.hpp:11-25", "include/persistence/serialize_datetime.hpp:9-19", "include/persistence/serialize_date.hpp:12-22", "include/persistence/serialize_enum.hpp:20-36", "include/persistence/serialize.hpp:33-53"]}
{"id": "C64", "title": "The text of a schema is a JSON text of the schema document", "statement": "schema_document_to_string<T>() never throws, and gives a JSON text (RFC 8259) of the schema document of T that C26 and C49 to C51 are about; string_to_document reads it back as that document. schema_to_string<T>() gives a JSON text of the same document without its first member, $schema. There is a text for exactly the types with a schema document. So, for the types and values of C26, the text of the schema is read as a document that accepts the document that the text of the value is read as. The limits and lengths in the schema object are in the range of the member variables (long long, unsigned long long) that hold them.", "quantifier": "all types with a schema and all class definitions, with integers of at most 64 bits and lengths that fit std::size_t; for the last claim the values of C26", "why_tests_cant": "The tests compare a few texts of schemas with literals. The schema classes are themselves written by the library, through optional members, variants of classes, unique pointers and a base class.", "anchors": ["include/persistence/schema.hpp:22-240", "include/persistence/schema.hpp:583-665", "include/persistence/schema_utility.hpp:13-24", "include/persistence/write.hpp:30-68", "include/persistence/write_map.hpp:11-42", "include/persistence/write_variant.hpp:8-23", "include/persistence/write_string.hpp:8-41", "include/persistence/utility.hpp:13-31"]}
{"id": "C65", "title": "Base classes leave no trace but in the result flag", "statement": "A class whose persist function calls those of its bases, before, between or after visiting its own members and through any number of levels, each time going on with the archive returned, is serialized and gets a schema exactly like a class without bases that visits all the members in the same order; class_traits lists those members in that order, with their count. Deserializing reads the same values, makes the same shared objects and throws the same exceptions; only the bool returned may differ. Writing makes the same calls on the writer unless a member fails. If one fails, the calls up to the failure are the same, and then either the failure is reported, which is so exactly if the members visited before an archive is first returned fail on their own, or the object is ended there and success is reported. If an archive returned is discarded, the document, the schema and the values read are still the same, but class_traits and so the parser lack the members of that base, and a failure can make the writer report success for calls that are not those of a document.", "quantifier": "all trees of persist functions, with any number of bases and levels, all members, values, documents and contexts", "why_tests_cant": "The tests have two classes with one base each, with values that do not fail. The archives are passed by reference and returned by value, which the tests cannot see.", "anchors": ["include/persistence/object.hpp:7-35", "include/persistence/object.hpp:62-109", "include/persistence/object_members.hpp:13-79", "include/persistence/serialize_object.hpp:20-113", "include/persistence/write_object.hpp:20-114", "include/persistence/deserialize_object.hpp:31-135", "include/persistence/schema.hpp:418-466", "include/persistence/schema.hpp:583-618", "README.md:187-204"]}
{"id": "C66", "title": "The types that can be written, read, parsed and described are the documented ones", "statement": "For every program (with whatever enumerations, classes with a persist function and member variables it declares) and every C++ type made of the types of the standard library that the library knows: the compiler finds at most one best specialization of the templates for serializing, writing, deserializing, parsing and describing a type, and a call compiles for exactly the types of the documented list, parts included. In particular: serialize_to_document and write_to_string take the same types; what can be deserialized can be serialized (if enumerations with names convert both ways); string views and raw pointers can only be written; variants cannot be parsed; a std::optional that is not a plain member variable can only be parsed; a class with a defaulted member variable has no schema, nor has a pointer to a simple type; what can be parsed can be deserialized if optionals are members, elements of arrays can be copied and no array is empty, and not otherwise; a vector of pairs with a string is written by the templates for dictionaries and read by those for vectors.", "quantifier": "all programs, all types of any nesting, recursive classes included, all five operations", "why_tests_cant": "A test shows that one type compiles; a type that does not compile cannot even be in a test, and the selection among partial specializations is a property of all types at once.", "anchors": ["include/persistence/serialize_base.hpp:12-17", "include/persistence/serialize_map.hpp:34-68", "include/persistence/serialize_array.hpp:8-31", "include/persistence/serialize_set.hpp:8-31", "include/persistence/serialize_enum.hpp:13-52", "include/persistence/write_base.hpp:14-19", "include/persistence/write_map.hpp:32-66", "include/persistence/deserialize_base.hpp:13-18", "include/persistence/deserialize_array.hpp:10-38", "include/persistence/deserialize_pointer.hpp:10-60", "include/persistence/deserialize_variant.hpp:11-44", "include/persistence/parse_base.hpp:157-162", "include/persistence/parse_array.hpp:140-161", "include/persistence/parse_enum.hpp:100-138", "include/persistence/parse_object.hpp:79-247", "include/persistence/detail/make_array.hpp:21-38", "include/persistence/schema.hpp:242-585", "include/persistence/object_members.hpp:13-78", "README.md:7-24"]}
{"id": "C67", "title": "Described enumerations are written by name and read up to a NUL", "statement": "For every enumeration that is described with BOOST_DESCRIBE_ENUM (any enumerators, several may share a value): serializing or writing a value that has an enumerator gives the name of one of its enumerators, and deserializing or parsing this name gives the value back; a value without an enumerator is written as an empty text, which is not read. A JSON value is read exactly if it is a string whose part before the first NUL character is the name of an enumerator, and the value is that of this enumerator; the parser takes the same texts as the deserializer. Texts without NUL characters are treated as by an EnumConverter of the same table; a text such as \"Left\\u0000over\", however, is read as Left although it is no name and an EnumConverter refuses it.", "quantifier": "all described enumerations, all values of the underlying type, all JSON values", "why_tests_cant": "Tests read the names of one enumeration; that everything else is refused, and that the only exception are names followed by a NUL character, is about all texts.", "anchors": ["include/persistence/serialize_enum.hpp:37-47", "include/persistence/write_enum.hpp:37-47", "include/persistence/deserialize_enum.hpp:64-91", "include/persistence/parse_enum.hpp:108-133", "README.md:237-239", "test/boost.cpp"]}
{"id": "C68", "title": "Threads that format times at once mix them up, unless calls do not overlap", "statement": "For any number of threads, each making any sequence of calls of to_iso_date and to_iso_datetime, and for every interleaving of their loads and stores: as long as no two calls are in progress at the same time (a program with one thread is an example), every thread gets the texts of its own times, in order. If calls do overlap, every text still has the layout of a date or date-time, and each of its six parts is that of some time that one of the threads formats; so dates are right if all times are on one day. Beyond this nothing holds: of two threads formatting 1999-12-31T23:59:59Z and 2000-01-01T00:00:00Z one may get 2000-12-31T00:00:00Z, a text of neither, because std::gmtime gives all threads the same object.", "quantifier": "all numbers of threads, all sequences of calls, all interleavings, all orders in which gmtime stores the members", "why_tests_cant": "A test with threads shows the interleavings that happen to occur; the mix-up needs a switch between two instructions, and that non-overlapping calls never interfere is about all schedules.", "anchors": ["include/persistence/datetime.hpp:247-266", "include/persistence/datetime.hpp:271-296", "include/persistence/serialize_datetime.hpp", "include/persistence/write_datetime.hpp"]}
{"id": "C69", "title": "make_datetime takes any numbers and carries them over", "statement": "For all six unsigned arguments of make_datetime: each argument stands for itself or, if it came from a negative number, for that number, and the result is the time point that one reaches from the first day of the given month (twelve months being a year, in both directions) by going on by the days, hours, minutes and seconds; so 30 February 2023 gives 2 March, month 0 the December before, and no argument is refused. For a date and time that exist, the text of the result shows the six arguments, and on the arguments that the parsers pass the function is the one of C06 to C10. If the year that the carrying leads to does not fit the int of a std::tm, timegm fails and the result is 1969-12-31T23:59:59Z, silently. A time point that does not fit the clock's 64-bit count is undefined behaviour. Not true: a call that returns had a date that exists.", "quantifier": "all six arguments of type unsigned int, all resolutions of the clock", "why_tests_cant": "There are 2^192 argument tuples; carrying over between fields of different lengths, wrapped negative numbers and the failure of timegm are easily left out of the cases that a test picks.", "anchors": ["include/persistence/datetime.hpp:41-52", "include/persistence/datetime.hpp:27-29"]}
{"id": "C70", "title": "The parser never uses a reference to an object that is gone", "statement": "For every type, every object given to parse, every sequence of events (so also texts that end early or are refused) and every policy by which vectors get new buffers: no parse handler uses a reference to an element, content or pointee whose lifetime has ended, or a member variable of a handler that has been replaced or popped; outcome and object are the same whenever the buffers move. References that the caller holds to parts of the object that lie in the object itself (members that are not optional, elements of std::array, components of pairs and tuples) or are mapped values are still good when parse returns. Not true: that holds for all parts; elements of a vector, the content of an optional member and pointees can be gone after a parse that returned true.", "quantifier": "all programs (tables of classes), types, objects, event sequences, capacities of the handler stack, and all functions that decide whether a vector moves when it grows", "why_tests_cant": "Use after free depends on when the allocator moves a buffer and goes unnoticed without a sanitizer; nested containers, replaced handlers and early failures give unboundedly many orders of events.", "anchors": ["include/persistence/parse_vector.hpp:21-33", "include/persistence/parse_set.hpp:22-41", "include/persistence/parse_object.hpp:78-84", "include/persistence/parse_pointer.hpp:13-41", "include/persistence/parse_array.hpp:33-95", "include/persistence/parse_base.hpp:19-37", "include/persistence/detail/polymorphic_stack.hpp:40-47"]}
{"id": "C71", "title": "What another version of the program reads from a document", "statement": "For every value v of a type t in one program and every type t' of another program with other classes (a later or an earlier version): deserialize_throw of the document that serialize_to_document writes for v returns exactly what becomes of v by a description on values and types: numbers that fit stay, integers and floating-point numbers are rounded to the new type, texts are read as the new type reads them, vectors, arrays, sets, pairs and tuples turn into each other element by element, fields of classes and dictionaries go to the members or keys of the same name wherever they stand, members without a field keep their default or are empty, fields without a member are lost, unique pointers do not count. If classes only get members that are not required, lose members, reorder them, change kinds other than optional to required, and change types only to wider ones, every value is readable. A required member without a field makes reading fail. parse on the text reads the same if no field is unknown and numbers are exact. Not true: that parse reads the documents of all compatible programs; it refuses members that were removed.", "quantifier": "all pairs of programs, all types without variants, shared pointers and raw pointers on both sides, all values that can be written", "why_tests_cant": "Tests try single changes of single classes; every pair of versions, types and values, nested through containers, is beyond them.", "anchors": ["include/persistence/deserialize.hpp:18-59", "include/persistence/deserialize_object.hpp:22-82", "include/persistence/deserialize_map.hpp:13-45", "include/persistence/deserialize_vector.hpp:9-35", "include/persistence/serialize_object.hpp:11-80", "include/persistence/parse_object.hpp:87-190"]}
{"id": "C72", "title": "How often the values of a document are read", "statement": "Reading an object from a document calls the deserializer of a type on a value of the document only where the type asks for that value: elements of containers, members of classes found by name, alternatives of variants, what pointers point to. If no variant and no shared pointer is involved and an object is returned, every such call has been made. If no variant is involved, no call is made twice, so that the number of calls is at most w times the number of values in the document, where w is the largest number of types that one value has (one, more only for enumerations and pointers). With variants each level of nesting counts as often as there are alternatives with parts. Not true: that the number of calls is linear in the size of the document for all types. There is a type with a variant of two classes for which documents of n + 1 nested objects (6 n + 2 bytes) are accepted after exactly 5 * 2^n - 4 calls.", "quantifier": "all programs, types, documents, objects, with and without exceptions", "why_tests_cant": "Tests check what is returned, not what is done for it; the worst case is exponential and needs documents that nobody writes by hand.", "anchors": ["include/persistence/deserialize.hpp:18-59", "include/persistence/deserialize_variant.hpp:11-44", "include/persistence/deserialize_object.hpp:22-82", "include/persistence/deserialize_enum.hpp:10-45", "include/persistence/deserialize_pointer.hpp:15-68"]}
{"id": "C73", "title": "A syntax error names what is missing or malformed at the offset, and there is exactly one such error in a text that is not JSON", "statement": "For a text that is not JSON, the sentence of the exception says what is wrong at the offset, as the grammar has it. There are fifteen errors. A value is due there but none starts, or a word is not null, true or false, or no digit comes after a minus (\"Invalid value.\"); a member name is due but there is no quotation mark; no colon comes after a name; neither a comma nor the closing mark comes after a member or an element; a second value comes after the first; the text has only white space; a digit is missing after a decimal point or in an exponent; the number at the offset is too large; a string is not closed; a control character is in a string; the escape sequence at the offset is unknown, has no four hexadecimal digits, or is half of a surrogate pair. Every text has at most one of these errors, in one place, and it has one if and only if it is not JSON. deserialize reports this error (if the stack suffices for the nesting), and so does parse, in the same words and with the same offset, whatever the type, unless a token before does not fit the type.", "quantifier": "all texts (any bytes), all types and class definitions, all readings of floating-point numbers, all sizes of the stack", "why_tests_cant": "The tests have two texts that are not JSON. The claim is about each of the fifteen errors at any place in any text, and that the same text never gets another one.", "anchors": ["include/persistence/parse.hpp:24-50", "include/persistence/exception.hpp:13-25", "include/persistence/utility.hpp:23-41", "include/persistence/deserialize.hpp:43-59"]}
{"id": "C74", "title": "A reference is read the same in both forms of a JSON pointer", "statement": "A $ref member may hold a plain JSON pointer (/a/0) or one in a URI fragment (#/a/0, with percent signs for bytes of UTF-8). A text is a reference in at most one way. deserialize reads an object with such a member, where a shared pointer is expected, as the shared object that was read at the value the names lead to (first member of a name, element of a position in decimal without leading zeros); if there is none, it returns false and leaves the pointer alone; the behaviour is undefined exactly if the text is no reference or the object has another type. Two documents that differ only in the form of their references are read alike: same result, same object, same exception, for every type that does not read a member called $ref as a string. Two limits: an encoded slash is part of a name and an encoded digit after a tilde is refused, against section 6 of RFC 6901; and in arrays of more than 429496729 elements an index beyond 2^32 may lead to an element.", "quantifier": "all texts, all documents, all types and class definitions, all objects read into, all states of the reader, with and without exceptions", "why_tests_cant": "The tests have two or three plain references. The texts, with all their escapes and encodings, and the documents they stand in are unbounded.", "anchors": ["include/persistence/deserialize_pointer.hpp:34-66", "include/persistence/detail/deserialize_context.hpp", "include/persistence/detail/references.hpp"]}
{"id": "C75", "title": "Two object graphs have the same document exactly if they are the same up to addresses", "statement": "Replacing the addresses of the objects behind shared pointers by others, different ones by different ones, changes neither the document serialize_to_document gives nor whether there is one, nor the text write_to_string gives; this holds for all types and values. Conversely, let two graphs of the same type be such that they can be read back (C24: no shared pointers in sets, names without / and ~ on the way to shared pointers, and so on). If they have the same document, or the same text, then one is the other with addresses replaced: the values are equal and the same pointers share their objects. It is false if names have slashes, as references do not escape them: two graphs with different sharing have the same document.", "quantifier": "all types and class definitions, all values and graphs of any size, all ways to choose addresses, all ways to print doubles that can be read back", "why_tests_cant": "A test writes a graph at the addresses it happens to have. That the addresses never leak into the document, and that no two different graphs are ever written alike, is about all pairs of graphs.", "anchors": ["include/persistence/serialize_pointer.hpp", "include/persistence/write_pointer.hpp", "include/persistence/detail/output_context.hpp"]}
{"id": "C76", "title": "The document of an object graph has the size of its objects, shared ones counted once", "statement": "Count the JSON values of an object by itself, a shared pointer in it as two (the object with $ref and its text). The document of a value has at most as many values as the value by itself and all the different objects behind shared pointers by themselves together, however many pointers and paths there are to them. If all numbers are finite and there are no vectors of pairs with a string, the number is exact: that sum, less two for each of these objects. With raw pointers in the place of shared pointers, n + 1 objects that each point twice to the next have a document of 2^(n+1) - 1 values; with shared pointers it is 3 n + 1.", "quantifier": "all types and class definitions, all values and graphs of any size, all orders of iteration over unordered maps", "why_tests_cant": "The tests share one or two objects and do not look at the size of what is written. How the size grows with the graph is about all graphs.", "anchors": ["include/persistence/serialize_pointer.hpp:15-62", "include/persistence/detail/references.hpp"]}
{"id": "C77", "title": "Documents read one after the other into the same object are layers", "statement": "Reading any document with deserialize(doc, obj) a second time, accepted or not, reports the same and leaves obj as it is; what is reported never depends on what obj held. Reading two accepted documents in turn is the same as reading one document, the second on top of the first: members with a default that only the first has are kept, members and components that both have are put on top of each other in the same way, and for everything else, also optional members, the second counts alone. The second document is accepted exactly when the combined one is. parse(s, obj) also leaves obj as it is the second time if the type has no vectors or sets that are read in place and no object names a member twice; with such a vector the elements are added again.", "quantifier": "for all types (layers: without variants and back-references), all programs, all pairs of documents and all prior object states", "why_tests_cant": "unbounded types, documents and states; whether anything of the first document survives differs by kind of type and member", "anchors": ["include/persistence/deserialize.hpp: deserialize(rapidjson::Document& doc, T& obj)", "include/persistence/deserialize_object.hpp", "include/persistence/deserialize_tuple.hpp", "include/persistence/parse.hpp", "include/persistence/parse_object.hpp", "include/persistence/parse_map.hpp"]}
{"id": "C78", "title": "Copies of values that were never set", "statement": "The deserializers read elements and optional members into local variables without an initialiser and then move them. For types without variants, shared and raw pointers, and classes that initialise their members with a default, a value that was never set is not copied by deserialize<T>(document), which throws, whatever the document, and the object it returns has no part without a value; nor by the form that reports success, if the document is accepted. If all members of classes are initialised and optional members are of types that initialise themselves (strings, containers, such classes), it is not copied for any type and any document by either form. Otherwise it happens exactly if a copied object has a part without a value: if an element of a vector, set, array or dictionary is reported as read, behind others that are, but has such a part, or an alternative of a variant behind others that are not accepted (there also in the form that throws), or, whatever is reported, an optional member, the behaviour is undefined. So if the document has a value that is not accepted for an optional member of a type like int, bool, double or an enumeration (but not unsigned char), the form that reports success has undefined behaviour, whatever the rest of the document and the class; so it has for a vector of objects with two int members of which the first has a wrong document value, although it reports true, and inside a variant so has the form that throws.", "quantifier": "all types and classes, all documents and objects read into", "why_tests_cant": "An indeterminate int that is copied looks like any other number; the outcome depends on the compiler, and tests with wrong documents check only the flag or the exception.", "anchors": ["include/persistence/deserialize_object.hpp", "include/persistence/deserialize_vector.hpp", "include/persistence/deserialize_set.hpp", "include/persistence/deserialize_map.hpp", "include/persistence/deserialize_array.hpp", "include/persistence/deserialize_variant.hpp", "include/persistence/deserialize_pointer.hpp", "include/persistence/deserialize.hpp"]}
{"id": "C79", "title": "Whatever is read, the object stays an object of its type", "statement": "Let an object have a content that its type allows: numbers in the range of their types, float and double values of their formats, named enumerations with one of their values (or 0, if value-initialised), arrays, pairs, tuples and classes with all their parts, sets with elements in order and without duplicates, dictionaries with keys in order and without duplicates, variants with one of their alternatives, pointers to such objects or null; variables of fundamental types may be unset. Then it has such a content again after deserialize or parse into it, whether the input is accepted, rejected in the middle, or, for parse, turns out not to be JSON. The objects that the throwing forms return are of that kind as well. An enumeration with names may be left with the value 0 though no name belongs to it: behind a new pointer after a rejected name.", "quantifier": "all programs whose classes are initialised with contents of their types, all types, all documents and texts, all previous contents, all capacities of the stack of handlers", "why_tests_cant": "A rejected input leaves objects half filled, and there are as many ways to do so as places for a mistake in a document; tests look at the reported failure, not at every part of the object that is left.", "anchors": ["include/persistence/deserialize.hpp", "include/persistence/detail/parse_event.hpp", "include/persistence/parse.hpp"]}
{"id": "C80", "title": "Writing an object of its type is undefined only for unset values, null pointers, short byte strings and far dates", "statement": "If an object has a content that its type allows, and no part of it is a variable without a value, a null pointer, a byte string with fewer readable bytes behind it than the Base64 encoder reads, or a date whose time point the system clock cannot represent, then serialize to a document and writing to a string have no undefined behaviour: they write or they report failure. This holds in particular for what is left in an object after reading into it, accepted or not. Conversely, writing a value of one of the four kinds is undefined.", "quantifier": "all types, all objects of these types, all contexts, all clocks with at least 1000 ticks a second, all orders in which unordered maps are visited", "why_tests_cant": "Undefined behaviour need not show in a test, and the objects left behind by rejected input are seldom written in tests.", "anchors": ["include/persistence/serialize.hpp", "include/persistence/write.hpp"]}
