{"id": "C01", "title": "Single-index access", "statement": "Indexing a dimension of size n with an integer i removes that dimension and selects element i when 0<=i<n, element i+n when -n<=i<0, and throws index_out_of_bounds for every other i; the selected position is always inside [0,n).", "quantifier": "every dimension size n>=0 and every 64-bit index i", "why_tests_cant": "the index and size ranges are 64-bit; tests only sample a handful of pairs", "anchors": ["src/dynd/shape_tools.cpp:apply_single_linear_index", "include/dynd/irange.hpp:irange"]}
{"id": "C02", "title": "Positive-step slices", "statement": "Indexing with start:finish:step (step>0) either throws irange_out_of_bounds or selects exactly the indices start, start+step, ... strictly below finish (negative bounds counted from the end, oversized finish clipped, very negative start meaning the beginning), in order, every one inside [0,n); it throws exactly when start>=n or finish<-n.", "quantifier": "every n, start, finish, step>0 (64-bit), with signed overflow of the intermediate arithmetic reported as a separate outcome", "why_tests_cant": "unbounded combinations of boundary cases, including the overflow corner", "anchors": ["src/dynd/shape_tools.cpp:apply_single_linear_index"]}
{"id": "C03", "title": "Negative-step slices", "statement": "Indexing with step<0 either throws or selects exactly the indices start, start+step, ... strictly above finish (with the begin/end sentinels meaning last element / past the first), in order, every one inside [0,n).", "quantifier": "every n, start, finish, step<0 (64-bit), overflow a separate outcome", "why_tests_cant": "unbounded combinations of boundary cases, including the sentinel and overflow corners", "anchors": ["src/dynd/shape_tools.cpp:apply_single_linear_index"]}
{"id": "C04", "title": "Range-builder notation", "statement": "The comparison notation on irange (a <= irange() < b, a < irange() <= b, a >= irange().by(-k) > b, ...) applied to a dimension selects exactly the indices the comparisons describe.", "quantifier": "every bound a,b and every dimension size", "why_tests_cant": "infinitely many bound values; sentinels collide with special values", "anchors": ["include/dynd/irange.hpp:irange::operator<=", "include/dynd/irange.hpp:operator<"]}
{"id": "C05", "title": "Broadcast compatibility", "statement": "shape_can_broadcast(dst,src) is true exactly when src has no more dimensions than dst and, aligned on the right, every source extent is 1 or equals the destination extent; the relation is reflexive and transitive on shapes.", "quantifier": "every pair of shapes of any rank", "why_tests_cant": "unbounded rank and extents", "anchors": ["src/dynd/shape_tools.cpp:shape_can_broadcast"]}
{"id": "C06", "title": "Axis permutation of strides", "statement": "strides_to_axis_perm returns a permutation of the axes which visits them in non-decreasing absolute stride; C-ordered strides give the reversal.", "quantifier": "every rank and every stride vector (any result of std::sort allowed for rank>=4)", "why_tests_cant": "all rank/stride combinations, and every outcome the unstable sort may produce", "anchors": ["src/dynd/shape_tools.cpp:strides_to_axis_perm"]}
{"id": "C07", "title": "Strides from an axis permutation", "statement": "axis_perm_to_strides produces packed strides: the axis at position k of the permutation gets stride element_size times the product of the extents of the earlier axes (0 for extents <=1), so that distinct indices address disjoint elements.", "quantifier": "every rank, permutation, shape and element size", "why_tests_cant": "unbounded rank/extents", "anchors": ["src/dynd/shape_tools.cpp:axis_perm_to_strides"]}
{"id": "C08", "title": "Joint axis permutation of several operands", "statement": "multistrides_to_axis_perm always returns a permutation of the axes, for any number of operands; for one operand whose strides are all nonzero it sorts by absolute stride; for agreeing C-order operands it returns the reversal.", "quantifier": "every rank, operand count and stride table", "why_tests_cant": "unbounded ranks/operands; the comparison is not transitive so the sort loop must be reasoned about", "anchors": ["src/dynd/shape_tools.cpp:multistrides_to_axis_perm", "src/dynd/shape_tools.cpp:compare_strides"]}
{"id": "C09", "title": "Codepoint encode/decode round trip", "statement": "For each of the five string encodings, appending a representable Unicode code point and decoding it again returns the same code point and consumes exactly the bytes that were written.", "quantifier": "every Unicode scalar value and every encoding that can represent it, in both error modes, at every position in a buffer", "why_tests_cant": "1.1 million code points x 5 encodings x buffer positions", "anchors": ["src/dynd/string_encodings.cpp:append_utf8", "src/dynd/string_encodings.cpp:next_utf8", "src/dynd/string_encodings.cpp:append_utf16", "src/dynd/string_encodings.cpp:next_utf16"]}
{"id": "C10", "title": "UTF-8 validation", "statement": "The checked UTF-8 decoder accepts exactly the well-formed UTF-8 byte sequences of the Unicode standard (no overlong forms, no surrogates, nothing above U+10FFFF) and returns the code point they encode; on anything else it throws.", "quantifier": "every byte string", "why_tests_cant": "2^32 four-byte prefixes at every buffer length", "anchors": ["src/dynd/string_encodings.cpp:next_utf8", "thirdparty/utf8/source/utf8/core.h:validate_next"]}
{"id": "C11", "title": "Decoders stay in bounds and make progress", "statement": "Every decoder called with begin<end reads only bytes in [begin,end) and, unless it throws, advances the position by at least one byte and to at most end.", "quantifier": "every byte buffer, both error modes, all five encodings", "why_tests_cant": "malformed buffers of every length; reads past the end are invisible to a passing test", "anchors": ["src/dynd/string_encodings.cpp:noerror_next_utf8", "src/dynd/string_encodings.cpp:noerror_next_utf16"]}
{"id": "C12", "title": "Transcoding preserves the text", "statement": "Converting a valid UTF-16, UCS-2 or UTF-32 buffer to UTF-8 (string_range_as_utf8_string) yields UTF-8 which decodes to the same code point sequence.", "quantifier": "every sequence of code points of any length", "why_tests_cant": "unbounded text length", "anchors": ["src/dynd/string_encodings.cpp:string_range_as_utf8_string"]}
{"id": "C13", "title": "Escape/unescape round trip", "statement": "Printing a valid UTF-8 string with print_escaped_utf8_string (double quotes) and reading the literal back with parse_doublequote_string_no_ws followed by unescape_string returns the original bytes, consuming exactly the literal.", "quantifier": "every valid UTF-8 string", "why_tests_cant": "unbounded strings over the whole of Unicode, including quotes, control characters and astral characters", "anchors": ["src/dynd/string_encodings.cpp:print_escaped_utf8_string", "src/dynd/parse_util.cpp:parse_doublequote_string_no_ws", "src/dynd/parse_util.cpp:unescape_string"]}
{"id": "C14", "title": "Checked unsigned integer parsing", "statement": "parse<uintN>(text) returns v only if text is decimal digits (optionally followed by a zero fraction or a non-negative exponent) denoting exactly v with v<2^N; it throws on every other text, in particular on overflow.", "quantifier": "every byte string and every width N", "why_tests_cant": "infinitely many strings; overflow boundaries of every width", "anchors": ["include/dynd/parse_util.hpp:parse"]}
{"id": "C15", "title": "Checked signed integer parsing", "statement": "parse<intN>(text) of a digit string with optional minus sign returns exactly its value when it lies in [-2^(N-1),2^(N-1)) and throws otherwise.", "quantifier": "every digit string of any length and every width N", "why_tests_cant": "infinitely many strings", "anchors": ["include/dynd/parse_util.hpp:parse", "include/dynd/parse_util.hpp:is_overflow"]}
{"id": "C16", "title": "Number assignment from text into a typed slot", "statement": "string_to_number with error checking stores the exact value of the text in the destination integer type or throws; it never stores a wrapped value, and missing-value tokens store the type's NA.", "quantifier": "every text and destination integer type", "why_tests_cant": "boundary values of 9 types times unbounded text", "anchors": ["include/dynd/parse_util.hpp:string_to_number", "include/dynd/parse_util.hpp:overflow_check", "src/dynd/parse_util.cpp:parse_na"]}
{"id": "C17", "title": "JSON number recognition", "statement": "json::parse_number succeeds exactly when the input starts with a JSON number, and then consumes the longest such prefix apart from the documented all-or-nothing handling of a trailing '.' or 'e'; it never reads outside the buffer and leaves the position unchanged on failure.", "quantifier": "every byte buffer", "why_tests_cant": "all strings over the number alphabet of every length", "anchors": ["src/dynd/parse_util.cpp:parse_number"]}
{"id": "C18", "title": "Identifier and whitespace scanning", "statement": "parse_name_no_ws matches exactly the longest prefix of [a-zA-Z_][a-zA-Z0-9_]*, parse_alpha_name_no_ws the longest prefix of [a-zA-Z]+, skip_whitespace stops at the first non-space, skip_whitespace_and_pound_comments removes exactly whitespace and #-to-end-of-line comments; none reads past the end.", "quantifier": "every byte buffer", "why_tests_cant": "unbounded buffers", "anchors": ["src/dynd/parse_util.cpp:parse_name_no_ws", "include/dynd/parse_util.hpp:skip_whitespace_and_pound_comments"]}
{"id": "C19", "title": "Quoted-string scanning", "statement": "parse_doublequote_string_no_ws on success returns the exact content between the opening quote and the first unescaped closing quote, with every escape inside well-formed, and otherwise throws or reports no match with the position unchanged; it never reads past the end.", "quantifier": "every byte buffer", "why_tests_cant": "unbounded buffers and escape nesting", "anchors": ["src/dynd/parse_util.cpp:parse_doublequote_string_no_ws"]}
{"id": "C20", "title": "Fixed-digit integers", "statement": "parse_{2,1or2,4,6}digit_int_no_ws succeed exactly when the buffer starts with the required digits, return their decimal value and consume exactly them.", "quantifier": "every byte buffer", "why_tests_cant": "all digit combinations and buffer lengths", "anchors": ["src/dynd/parse_util.cpp:parse_2digit_int_no_ws", "src/dynd/parse_util.cpp:parse_6digit_int_no_ws"]}
{"id": "C21", "title": "Substring find", "statement": "string_find(h,n) returns the smallest byte offset at which non-empty n occurs in h, or -1 when it does not occur; string_contains agrees with it.", "quantifier": "every pair of byte strings", "why_tests_cant": "unbounded strings; skip heuristics (bloom filter, delta table) only misbehave on particular alignments", "anchors": ["include/dynd/string_search.hpp:string_search", "include/dynd/string.hpp:string_find"]}
{"id": "C22", "title": "Substring reverse find", "statement": "string_rfind(h,n) returns the largest byte offset at which non-empty n occurs in h, or -1.", "quantifier": "every pair of byte strings", "why_tests_cant": "as C21", "anchors": ["include/dynd/string_search.hpp:string_search_reverse", "include/dynd/string.hpp:string_rfind"]}
{"id": "C23", "title": "Occurrence counting", "statement": "string_count(h,n) returns the number of non-overlapping occurrences of non-empty n in h found by scanning left to right.", "quantifier": "every pair of byte strings", "why_tests_cant": "as C21", "anchors": ["include/dynd/string.hpp:string_count"]}
{"id": "C24", "title": "Replace", "statement": "string_replace(dst,src,old,new) makes dst equal src with every left-to-right non-overlapping occurrence of old replaced by new, all writes inside dst.", "quantifier": "every quadruple of byte strings", "why_tests_cant": "as C21, plus buffer-size arithmetic", "anchors": ["include/dynd/string.hpp:string_replace", "include/dynd/string_search.hpp:string_copy_replacer"]}
{"id": "C25", "title": "Split", "statement": "string_split(h,n) returns pieces which joined with n give back h.", "quantifier": "every pair of byte strings", "why_tests_cant": "as C21", "anchors": ["include/dynd/kernels/string_split_kernel.hpp:string_split_kernel", "include/dynd/string_search.hpp:string_splitter"]}
{"id": "C26", "title": "Prefix, suffix and concatenation", "statement": "string_startswith/endswith decide prefix/suffix; string_concat stores the concatenation of its inputs in order.", "quantifier": "every list of byte strings", "why_tests_cant": "unbounded strings", "anchors": ["include/dynd/string.hpp:string_startswith", "include/dynd/string.hpp:string_concat"]}
{"id": "C27", "title": "Bytestring value semantics", "statement": "A string/bytes value behaves like a plain byte sequence under every history of construct, copy, move, assign, append, resize, reserve, clear: size() and the bytes read back are those of the abstract sequence (bytes exposed by a growing resize are unspecified).", "quantifier": "every finite history of operations over any number of values, any contents", "why_tests_cant": "the representation switches between inline and heap storage; histories are unbounded", "anchors": ["include/dynd/types/sso_bytestring.hpp:sso_bytestring"]}
{"id": "C28", "title": "Bytestring storage safety", "statement": "After every history each heap buffer is owned by exactly one live value (no leak, no double delete), size()<=capacity(), and for NUL-padded strings the byte after the last one is 0.", "quantifier": "every finite history of operations", "why_tests_cant": "as C27; leaks and off-by-one writes are invisible to value tests", "anchors": ["include/dynd/types/sso_bytestring.hpp:sso_bytestring"]}
{"id": "C29", "title": "Arena allocation", "statement": "Every block returned by alloc of a POD or zero-initialising memory block is aligned as requested, lies inside a live chunk and is disjoint from every block handed out earlier and not resized away.", "quantifier": "every history of alloc/resize/finalize/reset, any sizes and any malloc placement", "why_tests_cant": "unbounded histories and allocator behaviours", "anchors": ["include/dynd/memblock/pod_memory_block.hpp:alloc", "include/dynd/memblock/zeroinit_memory_block.hpp:alloc"]}
{"id": "C30", "title": "Arena resize keeps contents", "statement": "Resizing the most recent allocation preserves its first min(old,new) bytes, whether or not the data moves, and touches no byte outside the block.", "quantifier": "every history, sizes and malloc placement", "why_tests_cant": "as C29", "anchors": ["include/dynd/memblock/pod_memory_block.hpp:resize", "include/dynd/memblock/zeroinit_memory_block.hpp:resize"]}
{"id": "C31", "title": "Zero-initialising arena", "statement": "Every byte newly exposed by alloc or resize of a zeroinit memory block reads 0.", "quantifier": "every history and malloc contents", "why_tests_cant": "stale heap contents are usually zero in tests", "anchors": ["include/dynd/memblock/zeroinit_memory_block.hpp:alloc", "include/dynd/memblock/zeroinit_memory_block.hpp:resize"]}
{"id": "C32", "title": "128-bit arithmetic", "statement": "uint128/int128 +, -, unary -, ~, * by 32-bit, / and divrem by a non-zero 32-bit agree with arithmetic modulo 2^128 (two's complement for int128).", "quantifier": "every pair of 128-bit values and every 32-bit factor", "why_tests_cant": "2^256 operand pairs", "anchors": ["include/dynd/uint128.hpp:uint128", "src/dynd/uint128.cpp:operator*", "include/dynd/int128.hpp:int128"]}
{"id": "C33", "title": "128-bit ordering", "statement": "<,<=,>,>=,==,!= on uint128 and int128 agree with the order of the represented integers.", "quantifier": "every pair of 128-bit values", "why_tests_cant": "2^256 operand pairs", "anchors": ["include/dynd/uint128.hpp:operator<", "include/dynd/int128.hpp:operator<"]}
{"id": "C34", "title": "128-bit decimal printing", "statement": "Printing a uint128 or int128 writes its canonical decimal representation (no leading zeros) within the 40-character buffer.", "quantifier": "every 128-bit value", "why_tests_cant": "2^128 values", "anchors": ["src/dynd/uint128.cpp:operator<<", "src/dynd/int128.cpp:operator<<"]}
{"id": "C35", "title": "float16 widening is exact", "statement": "Converting float16 bits to float or double gives the same real value, the same infinity or a NaN, sign preserved.", "quantifier": "all 2^16 bit patterns (both targets)", "why_tests_cant": "exhaustive, and needs a definition of the value of a bit pattern", "anchors": ["src/dynd/float16.cpp:halfbits_to_float", "src/dynd/float16.cpp:halfbits_to_double"]}
{"id": "C36", "title": "float16 narrowing", "statement": "Converting a float to float16 rounds to nearest, ties to even, for every input in range, keeps NaN a NaN and the sign, maps overflow beyond the exponent range to infinity, and otherwise throws exactly on the documented underflow/overflow cases; narrowing after widening is the identity on non-NaN.", "quantifier": "all 2^32 float bit patterns and 2^64 double bit patterns", "why_tests_cant": "2^64 inputs", "anchors": ["src/dynd/float16.cpp:float_to_halfbits", "src/dynd/float16.cpp:double_to_halfbits"]}
{"id": "C37", "title": "Topological sort", "statement": "topological_sort outputs a permutation of the vertices in which every vertex precedes all its successors when the graph is acyclic, and throws 'not a dag' when it has a cycle.", "quantifier": "every finite directed graph", "why_tests_cant": "unbounded graphs", "anchors": ["include/dynd/dispatcher.hpp:topological_sort"]}
{"id": "C38", "title": "Multidispatch picks a most specific overload", "statement": "Calling a dispatcher returns a registered overload whose signature matches the arguments and such that no other matching overload is strictly more specific, and throws out_of_range exactly when none matches; the answer does not depend on later copies.", "quantifier": "every set of overloads, every insertion order and every argument tuple", "why_tests_cant": "overload sets and insertion histories are unbounded", "anchors": ["include/dynd/dispatcher.hpp:dispatcher::assign", "include/dynd/dispatcher.hpp:dispatcher::operator()"]}
{"id": "C39", "title": "Ambiguous overload sets are rejected", "statement": "Building a dispatcher throws exactly when two overloads are mutually consistent, neither supersedes the other, and no third overload supersedes both.", "quantifier": "every overload set", "why_tests_cant": "as C38", "anchors": ["include/dynd/dispatcher.hpp:ambiguous", "include/dynd/dispatcher.hpp:dispatcher::assign"]}
{"id": "C40", "title": "Arithmetic type promotion", "statement": "promote_types_arithmetic on builtin types is commutative, its result is at least as large as each operand's kind and, for integers, at least int32; promotion of optional types is the optional of the promotion.", "quantifier": "every pair of builtin types and every nesting of option types", "why_tests_cant": "unbounded nesting; the table is asymmetric code", "anchors": ["src/dynd/type_promotion.cpp:promote_types_arithmetic"]}
{"id": "C41", "title": "Type-id registry", "statement": "new_id always returns an id never returned before, keeps the name and base of all earlier ids, and lookup_id_by_name returns the smallest id registered under the name, or uninitialized when there is none; a construction can be registered at most once per id.", "quantifier": "every history of registrations and lookups", "why_tests_cant": "unbounded histories", "anchors": ["src/dynd/type_registry.cpp:new_id", "src/dynd/type_registry.cpp:lookup_id_by_name", "src/dynd/type_registry.cpp:register_known_type_id_constructor"]}
{"id": "C42", "title": "Reference-counted memory blocks", "statement": "Under every interleaving of retain/release/copy/destroy by any number of threads holding references, a block is freed exactly once, exactly when the last reference goes, and is never accessed after that.", "quantifier": "every number of threads and every interleaving of atomic steps", "why_tests_cant": "schedules are unbounded", "anchors": ["include/dynd/memblock/base_memory_block.hpp:intrusive_ptr_release"]}
{"id": "C43", "title": "Tuple and struct layout", "statement": "Default field offsets are aligned for each field, fields do not overlap, all lie inside the default data size, and the size is a multiple of the type's alignment; arrmeta areas of the fields are likewise disjoint and in bounds.", "quantifier": "every list of field types", "why_tests_cant": "unbounded field lists", "anchors": ["src/dynd/types/tuple_type.cpp:get_default_data_size", "include/dynd/types/tuple_type.hpp:tuple_type", "include/dynd/types/tuple_type.hpp:fill_default_data_offsets"]}
{"id": "C44", "title": "128-bit conversions", "statement": "Constructing an int128/uint128 from a machine integer preserves its value (modulo 2^128 for uint128), and converting an int128 to a floating point number preserves its sign.", "quantifier": "every machine integer, every int128, every monotone rounding", "why_tests_cant": "2^128 values; negative values are the corner tests miss", "anchors": ["include/dynd/int128.hpp:int128", "include/dynd/uint128.hpp:uint128"]}
{"id": "C45", "title": "Integer overflow predicate", "statement": "is_overflow<Dst>(src) is true exactly when the value of src is outside the range of Dst.", "quantifier": "all source values and all combinations of signedness and widths of the two integer types", "why_tests_cant": "eight template overloads over all values of all width pairs", "anchors": ["include/dynd/parse_util.hpp:is_overflow"]}
{"id": "C46", "title": "Encoders stay in bounds and write only valid forms", "statement": "A code point encoder given a buffer with room for at least one unit writes only inside the buffer (or throws), and the checked encoders write nothing but the valid form of the code point; the no-error ASCII and UCS-2 encoders substitute '?' for what they cannot represent.", "quantifier": "every 32-bit value, every buffer size in whole units, both error modes, all five encodings", "why_tests_cant": "2^32 values times all buffer positions; writes past the end are silent", "anchors": ["src/dynd/string_encodings.cpp:append_utf16", "src/dynd/string_encodings.cpp:append_utf8", "src/dynd/string_encodings.cpp:noerror_append_utf16", "src/dynd/string_encodings.cpp:append_utf32"]}
{"id": "C47", "title": "Tokens and integer literals", "statement": "parse_token_no_ws matches exactly when the buffer starts with the token; parse_token and datashape::parse_token additionally skip exactly whitespace (and # comments); compare_range_to_literal is equality; parse_unsigned_int_no_ws reads exactly a decimal integer without leading zeros that ends at a non-digit; parse_int_no_ws reads exactly such an integer with an optional '-' and no whitespace; a failed match leaves the position unchanged and nothing is read outside the buffer.", "quantifier": "every byte buffer and token", "why_tests_cant": "unbounded buffers and every token length/alignment against the buffer end", "anchors": ["include/dynd/parse_util.hpp:parse_token", "include/dynd/parse_util.hpp:parse_unsigned_int_no_ws", "include/dynd/parse_util.hpp:parse_int_no_ws"]}
{"id": "C48", "title": "Boolean words", "statement": "parse<bool> returns true exactly for 1/y/t/on/yes/true and false exactly for 0/n/f/no/off/false in any letter case, and throws on every other text; the nocheck version agrees with it on all accepted words and is total.", "quantifier": "every byte buffer", "why_tests_cant": "all texts of every length, all case combinations", "anchors": ["include/dynd/parse_util.hpp:parse"]}
{"id": "C49", "title": "Datashape quoted strings", "statement": "datashape::parse_quoted_string succeeds exactly when, after whitespace and comments, a single- or double-quoted literal with valid escapes stands there, and returns the bytes it denotes; text printed by print_escaped_utf8_string (as struct field names are) is read back unchanged; it never reads past the end.", "quantifier": "every byte buffer; every valid UTF-8 string and both quote characters", "why_tests_cant": "unbounded strings over the whole of Unicode", "anchors": ["src/dynd/parse_util.cpp:parse_quoted_string", "src/dynd/string_encodings.cpp:print_escaped_utf8_string", "src/dynd/types/struct_type.cpp:print_type"]}
{"id": "C50", "title": "Missing-value words", "statement": "parse_na accepts exactly the empty text, NA, None and null in any letter case.", "quantifier": "every byte buffer", "why_tests_cant": "all texts of every length", "anchors": ["src/dynd/parse_util.cpp:parse_na"]}
{"id": "C51", "title": "String encoding names", "statement": "string_to_encoding maps each documented encoding name to its encoding and throws on every other text.", "quantifier": "every string", "why_tests_cant": "all texts of every length", "anchors": ["src/dynd/parse_util.cpp:string_to_encoding"]}
{"id": "C52", "title": "String order", "statement": "For any two string values exactly one of a<b, a==b, a>b holds; a<=b is !(a>b) and a>=b is !(a<b); < is transitive and is the lexicographic order of the bytes.", "quantifier": "every pair of string values after every history of operations", "why_tests_cant": "an order law ranges over all pairs and triples of contents, and over inline and heap representations", "anchors": ["include/dynd/types/string_type.hpp:string::operator<", "include/dynd/types/sso_bytestring.hpp:begin/end"]}
{"id": "C53", "title": "File mappings select exactly the Python slice of the file", "statement": "Mapping [begin, end) of a file with memmap clips the bounds like a Python slice: exactly the positions file[begin:end] selects are visible; the mapping starts at a page boundary at or before them, the returned pointer addresses the first of them, the returned size is their number, and the mapping is later unmapped with the size it was mapped with.", "quantifier": "All file sizes below 2^63, all page sizes, all signed 64-bit begin and end values", "why_tests_cant": "Bounds range over 2^128 pairs with special cases at negative, out-of-range and crossing values, and mapping granularity depends on the platform page size.", "anchors": ["include/dynd/memblock/memmap_memory_block.hpp:clip_begin_end", "include/dynd/memblock/memmap_memory_block.hpp:memmap_memory_block"]}
{"id": "C54", "title": "Dispatch does not depend on the order of registration", "statement": "If one registered overload accepts the arguments and is strictly more specific than every other that accepts them, a dispatcher answers with it whatever the order, grouping and number of the registrations; and registering an overload that does not accept the arguments never changes the answer of a call.", "quantifier": "every history of constructions and insertions, every argument tuple", "why_tests_cant": "unbounded registration histories and orders", "anchors": ["include/dynd/dispatcher.hpp:dispatcher::insert", "include/dynd/dispatcher.hpp:topological_sort"]}
{"id": "C55", "title": "A rejected overload leaves the dispatcher as it was", "statement": "When insert throws because of an ambiguity, every later call of the dispatcher behaves as if insert had not been called.", "quantifier": "every history, every rejected overload list, every argument tuple", "why_tests_cant": "failure points in unbounded histories", "anchors": ["include/dynd/dispatcher.hpp:dispatcher::assign", "include/dynd/dispatcher.hpp:dispatcher::insert"]}
{"id": "C56", "title": "is_lossless_assignment is exact", "statement": "is_lossless_assignment(dst, src) answers true only if every value of src is representable in dst, and false only if some value of src is not; the answer does not depend on whether the compile-time trait or the run-time function is asked.", "quantifier": "every pair of builtin scalar types, bare or wrapped in option, and every value of the source type", "why_tests_cant": "The claim ranges over every value of each source type (up to 2^128 integers), not only over the yes/no table.", "anchors": ["src/dynd/type.cpp:is_lossless_assignment", "src/dynd/types/option_type.cpp:option_type::is_lossless_assignment", "include/dynd/types/type_id.hpp:is_lossless_assignable"]}
{"id": "C57", "title": "Destroying an array destroys each value in it exactly once", "statement": "When an array that owns its data is destroyed, the destructor of every string, bytes and type value in the array runs exactly once, whatever the nesting of dimensions, tuples, structs and options, and no destructor runs on any other address.", "quantifier": "all concrete types without pointers to destructible values, all dimension sizes (including those destroyed in several chunks), all addresses", "why_tests_cant": "A missed or doubled destructor shows up only as a leak or a double free, for particular combinations of nesting, chunk boundary and stride; tests see a few types and sizes.", "anchors": ["include/dynd/memblock/buffer_memory_block.hpp:~buffer_memory_block", "src/dynd/types/tuple_type.cpp:data_destruct_strided", "src/dynd/types/fixed_dim_type.cpp:data_destruct", "src/dynd/types/string_type.cpp:data_destruct", "src/dynd/types/option_type.cpp:data_destruct"]}
{"id": "C58", "title": "Array metadata keeps its memory block references balanced", "statement": "Creating the metadata of an array allocates memory blocks which destroying the array releases exactly once each; copying metadata refers to the same elements, retains each block it stores once and leaves the source alone, so that destroying the copy releases exactly what it retained; a creation that runs out of memory part way does not leak or doubly release what it had allocated.", "quantifier": "all concrete types, all contents of the metadata, every point at which allocation fails", "why_tests_cant": "Requires every type nesting and every allocation failure point; a wrong count is invisible until memory is reused.", "anchors": ["src/dynd/types/tuple_type.cpp:arrmeta_default_construct", "src/dynd/types/struct_type.cpp:arrmeta_default_construct", "src/dynd/types/var_dim_type.cpp:arrmeta_copy_construct", "src/dynd/types/pointer_type.cpp:arrmeta_copy_construct", "include/dynd/buffer.hpp:buffer"]}
{"id": "C59", "title": "Indexing gives a view of exactly the selected elements", "statement": "a(i, j, ...) and a(irange...) on an array of fixed and ragged dimensions, tuples, structs and pointers return an array without copying, in which every selected element is at the position the index gives it and is the very element (same type, same address) of the original; nothing that was not selected is in it, only the arrmeta of the result is written, and the index_out_of_bounds error is raised only when nothing is selected.", "quantifier": "every type built from those constructors, every arrmeta and data content, every list of 64-bit indices and slices (positive, negative and full), every path of item numbers", "why_tests_cant": "the offsets, strides and recursion depend on the nesting of types and on the combination of plain indices and slices, which tests can only sample", "anchors": ["src/dynd/array.cpp: nd::array::at_array", "src/dynd/types/fixed_dim_type.cpp: apply_linear_index", "src/dynd/types/tuple_type.cpp: apply_linear_index", "src/dynd/types/var_dim_type.cpp: apply_linear_index", "src/dynd/types/pointer_type.cpp: apply_linear_index"]}
{"id": "C60", "title": "Matching a type against a pattern is right", "statement": "When pattern.match(type, tp_vars) returns true, the type is an instance of the pattern with the variables standing for what tp_vars says: every use of a type variable is the same type, every use of a dimension variable the same kind and size, an ellipsis stands for dimensions that broadcast to the recorded ones, fields and their names agree, and variables that already had a value keep it. Conversely every instance is recognised, matching never throws on a type without symbolic parts, and a concrete pattern matches exactly itself.", "quantifier": "every pattern (dimensions, kinds, type variables, ellipses, dimension powers, options, pointers, tuples, structs, callables, variadic or not), every concrete type and every set of variables already bound", "why_tests_cant": "patterns and types nest without bound and the variables carry information from one part of the pattern to another; tests see a few dozen pairs", "anchors": ["src/dynd/type.cpp: type::match", "src/dynd/types/typevar_type.cpp", "src/dynd/types/typevar_dim_type.cpp", "src/dynd/types/ellipsis_dim_type.cpp", "src/dynd/types/pow_dimsym_type.cpp", "src/dynd/types/dim_fragment_type.cpp: broadcast_with_type", "src/dynd/types/tuple_type.cpp: match", "src/dynd/types/struct_type.cpp: match", "src/dynd/types/callable_type.cpp: match"]}
{"id": "C61", "title": "Substituting what a match found gives the matched type back", "statement": "After pattern.match(type, tp_vars) returned true, ndt::substitute(pattern, tp_vars, true) returns that type; when an ellipsis name was used several times, it returns a type that the matched one broadcasts to.", "quantifier": "every pattern and every concrete type it matches", "why_tests_cant": "it relates two recursive traversals over all patterns and types through the variables in between", "anchors": ["include/dynd/types/substitute_typevars.hpp: substitute", "src/dynd/types/substitute_typevars.cpp: internal_substitute", "src/dynd/types/dim_fragment_type.cpp: apply_to_dtype", "src/dynd/types/callable_type.cpp: substitute_types"]}
{"id": "C62", "title": "Substitution asked for a concrete type returns one", "statement": "ndt::substitute(pattern, tp_vars, true) either throws or returns a type without symbolic parts; a type without symbolic parts is returned unchanged, and without any variables and with concrete=false a pattern is returned unchanged.", "quantifier": "every pattern and every set of variables", "why_tests_cant": "it is a claim about every nesting of pattern constructors and every content of the variable map", "anchors": ["include/dynd/types/substitute_typevars.hpp: substitute", "src/dynd/types/substitute_typevars.cpp: internal_substitute"]}
{"id": "C63", "title": "Checked integer assignment stores the value or throws", "statement": "Assigning an integer to an integer type in any error mode but nocheck stores exactly that value when the destination can hold it and throws overflow_error otherwise; nocheck stores the value reduced modulo 2^bits.", "quantifier": "all values, all source and destination widths 8..64, both signednesses, all modes", "why_tests_cant": "there are 64 type pairs and up to 2^64 values for each; the comparisons mix signed and unsigned operands", "anchors": ["include/dynd/assignment.hpp: overflow_cast, is_overflow", "include/dynd/kernels/assignment_kernels.hpp: assignment_virtual_kernel"]}
{"id": "C64", "title": "Checked assignment of a real number to an integer", "statement": "In overflow mode a float, double or complex value is truncated when its value lies in the destination's range and rejected with overflow_error when it does not; fractional and inexact mode also reject fractions with runtime_error; an imaginary part is always rejected; no input is undefined behaviour.", "quantifier": "all values of float, double and both complex types, all integer destinations, all checked modes", "why_tests_cant": "the range test converts the integer limits to floating point, which rounds them for some pairs of types only: the failing values are single points", "anchors": ["include/dynd/assignment.hpp: overflow_cast, fractional_cast"]}
{"id": "C65", "title": "Inexact mode never changes a number", "statement": "If an assignment in inexact mode returns, the stored value is a value of the destination type and equals the source number (real and imaginary part). Fractional mode has the same guarantee for integer destinations.", "quantifier": "all pairs of numeric types, all values", "why_tests_cant": "it is a statement about every bit pattern of every pair of types", "anchors": ["include/dynd/assignment.hpp: check_cast, inexact_check_cast", "include/dynd/kernels/assignment_kernels.hpp"]}
{"id": "C66", "title": "A representable number is assigned exactly in every mode", "statement": "If the destination type has a value equal to the source number, assigning it returns that value, whatever the error mode and the source type.", "quantifier": "all pairs of numeric types, all values, all modes", "why_tests_cant": "needs the absence of spurious errors for all values, including infinities and NaN", "anchors": ["include/dynd/assignment.hpp", "include/dynd/kernels/assignment_kernels.hpp"]}
{"id": "C67", "title": "The error modes form a chain and keep the destination well typed", "statement": "Whatever a stricter error mode stores, every weaker mode stores too (nocheck, overflow, fractional, inexact); a stored value is always a value of the destination type; assignment to bool in a checked mode accepts exactly 0 and 1.", "quantifier": "all pairs of numeric types, all values, all pairs of modes", "why_tests_cant": "compares all modes on all inputs", "anchors": ["include/dynd/kernels/assignment_kernels.hpp"]}
{"id": "C68", "title": "Conversion to floating point rounds to nearest", "statement": "Assigning an integer or a real number to float or double stores the representable number nearest to it, ties to even; overflow mode throws overflow_error exactly when a finite source exceeds the largest finite value; inexact mode throws exactly when the number is not representable.", "quantifier": "all integers, all floats and doubles, all modes", "why_tests_cant": "rounding is decided by ties and boundaries among 2^64 inputs", "anchors": ["include/dynd/assignment.hpp: overflow_cast, check_cast", "include/dynd/kernels/assignment_kernels.hpp"]}
{"id": "C69", "title": "A kernel run along a dimension does each element", "statement": "Running a kernel over n elements (any n, strides including negative and zero source strides) stores the kernel's function of the i-th source elements in the i-th destination element and changes nothing else; the same for two chained kernels with a temporary buffer and for assigning options to plain values, which throws overflow_error when an element is missing. If some element's function throws, one of these exceptions is thrown.", "quantifier": "every count, every chunk size, every placement of operands where the output overlaps no source, every element function", "why_tests_cant": "the loops work in chunks of 128: behaviour depends on the count modulo the chunk, on strides and on where the operands lie", "anchors": ["include/dynd/kernels/base_strided_kernel.hpp", "include/dynd/kernels/compose_kernel.hpp: strided", "include/dynd/kernels/assignment_kernels.hpp: option_to_value_ck"]}
{"id": "C70", "title": "Calling a function with converted arguments does each element", "statement": "When arguments of a callable need conversion, calling it over n elements stores the function of the converted i-th arguments in the i-th destination element.", "quantifier": "every count, every set of arguments with and without conversion", "why_tests_cant": "chunks of 128 elements: small tests never reach the second chunk", "anchors": ["include/dynd/kernels/convert_kernel.hpp: convert_kernel::strided"]}
{"id": "C71", "title": "Assigning options to options does each element", "statement": "Assigning n optional values stores, in every destination element, the missing value if the source element is missing and the converted value otherwise.", "quantifier": "every count, every pattern of missing values, every stride", "why_tests_cant": "runs of missing and available values are processed separately within chunks of 128: the number of patterns is exponential", "anchors": ["include/dynd/kernels/assignment_kernels.hpp: assignment_kernel<option_type, option_type>"]}
{"id": "C72", "title": "An element-wise call has the broadcast shape of its arguments", "statement": "Calling an element-wise function on arrays with fixed dimensions returns an array whose shape is the broadcast of the arguments' shapes (aligned on the right, extents 1 stretched); it throws exactly if they do not broadcast together, or do not broadcast to the given destination.", "quantifier": "every number of arguments, every number of dimensions and every extent, including 0 and 1", "why_tests_cant": "the decision is taken dimension by dimension over all arguments; the combinations of dimensions and extents are unbounded", "anchors": ["include/dynd/callables/elwise_entry_callable.hpp: elwise_entry_callable::resolve", "include/dynd/callables/base_elwise_callable.hpp: base_elwise_callable::resolve", "include/dynd/callables/elwise_dispatch_callable.hpp: elwise_dispatch_callable::resolve"]}
{"id": "C73", "title": "Every element of an element-wise result is the function of the matching elements", "statement": "After an element-wise call on arrays with fixed dimensions, the element of the result at every index is the function of the arguments' elements at the broadcast index, nothing else is written, and if the function throws, the exception for the first such index in row-major order leaves the call.", "quantifier": "every function, every number of arguments and dimensions, every shape, all strides including zero and negative ones", "why_tests_cant": "strides and shapes are arbitrary integers and the kernel nest has arbitrary depth", "anchors": ["include/dynd/callables/elwise_callable.hpp: elwise_callable<fixed_dim_id, fixed_dim_id>::subresolve", "include/dynd/kernels/elwise_kernel.hpp: elwise_kernel<fixed_dim_id, fixed_dim_id>", "include/dynd/kernels/base_strided_kernel.hpp: base_strided_kernel::strided"]}
{"id": "C74", "title": "Element-wise calls on ragged arguments", "statement": "With arguments that have var dimensions and a result of fixed dimensions, every result element is the function of the matching elements, rows of one element are repeated, and a row whose size is neither 1 nor the extent of the result is a broadcast error.", "quantifier": "every nesting of fixed and var dimensions in every argument, every row size", "why_tests_cant": "row sizes are data, found only while the kernels run, and the mixtures of dimension kinds are unbounded", "anchors": ["include/dynd/callables/elwise_callable.hpp: elwise_callable<fixed_dim_id, var_dim_id>::subresolve", "include/dynd/kernels/elwise_kernel.hpp: elwise_kernel<fixed_dim_id, var_dim_id>::single"]}
{"id": "C75", "title": "Element-wise calls into a var dimension", "statement": "A var destination that has data receives the function of the operands broadcast to its size; one without data is given exactly the common size of the operands, and its elements are filled; sizes that do not broadcast are an error.", "quantifier": "every number of var and strided operands, every size", "why_tests_cant": "sizes are data; the running computation of the common size has an unbounded number of cases", "anchors": ["include/dynd/kernels/elwise_kernel.hpp: elwise_kernel<var_dim_id, fixed_dim_id>::single", "include/dynd/callables/elwise_callable.hpp: elwise_callable<var_dim_id, fixed_dim_id>::subresolve"]}
{"id": "C76", "title": "Marking an element missing", "statement": "After nd::assign_na on an element of option[T], or after storing a JSON null in it, nd::is_na and nd::array::is_na say that it is missing.", "quantifier": "every value type T and every previous content of the element", "why_tests_cant": "two independent tables of reserved values (the kernels and the builtin switch) over all types and contents", "anchors": ["include/dynd/kernels/assign_na_kernel.hpp:assign_na_kernel", "include/dynd/kernels/is_na_kernel.hpp:is_na_kernel", "src/dynd/types/option_type.cpp:assign_na_builtin", "src/dynd/option.cpp:old_assign_na"]}
{"id": "C77", "title": "Which values are missing", "statement": "An element of option[T] is reported missing exactly when it holds the value reserved for T (a bool other than 0 and 1, the smallest signed integer, the largest uint32, any NaN, the complex number of two NA NaNs), and nd::is_na(x) and x.is_na() give the same answer.", "quantifier": "every bit pattern of every value type", "why_tests_cant": "all 2^64 patterns of a double, all types", "anchors": ["include/dynd/kernels/is_na_kernel.hpp:is_na_kernel", "src/dynd/types/option_type.cpp:is_avail_builtin", "src/dynd/array.cpp:is_na"]}
{"id": "C78", "title": "Arithmetic and comparison with missing arguments", "statement": "A binary operation with an option argument gives a missing result, without carrying out the operation, when one of its option arguments is missing; when none is, it gives the present result of the operation on the values.", "quantifier": "every operation, all argument values and all combinations of option and plain arguments", "why_tests_cant": "all operations and values; the operation may throw or be undefined for a missing argument", "anchors": ["include/dynd/kernels/forward_na_kernel.hpp:forward_na_kernel", "include/dynd/callables/forward_na_callable.hpp:forward_na_callable"]}
{"id": "C79", "title": "Texts stored in an option", "statement": "Storing one of the texts that mean missing (empty, NA, null in any case, None) in an option makes it missing, by parsing and by string assignment; storing the text of a number makes it present with that number.", "quantifier": "every text, every value type", "why_tests_cant": "all texts and all types; two separate code paths", "anchors": ["src/dynd/option.cpp:set_option_from_utf8_string", "include/dynd/callables/assign_callable.hpp:assign_callable", "include/dynd/kernels/assignment_kernels.hpp:string_to_option_tp_ck"]}
{"id": "C80", "title": "Comparing strings", "statement": "The operators <, <=, >, >= and == of strings (also used by nd::total_order) are those of one strict total order: irreflexive, transitive, total, and == is equality of contents.", "quantifier": "all strings", "why_tests_cant": "all triples of strings of any length", "anchors": ["include/dynd/types/string_type.hpp:operator<", "include/dynd/kernels/total_order_kernel.hpp:total_order_kernel", "include/dynd/types/sso_bytestring.hpp:operator=="]}
{"id": "C81", "title": "Strings are ordered by code points", "statement": "For two UTF-8 texts s and t, s < t exactly when s comes before t in the lexicographic order of code points.", "quantifier": "all texts", "why_tests_cant": "all texts", "anchors": ["include/dynd/types/string_type.hpp:operator<"]}
{"id": "C82", "title": "Binary search", "statement": "nd::binary_search(a, x) returns -1 or the index of an element equivalent to x, always terminates, and on an array in order returns -1 only if there is none.", "quantifier": "all arrays, sizes, strides and values", "why_tests_cant": "all array sizes and contents", "anchors": ["include/dynd/kernels/binary_search_kernel.hpp:binary_search_kernel", "include/dynd/callables/binary_search_callable.hpp:binary_search_callable"]}
{"id": "C83", "title": "Taking with a mask", "statement": "nd::take(a, mask) gives the elements of a whose mask is true, in order, and writes nothing else; a mask of another size is refused with an exception.", "quantifier": "all arrays, masks, strides and element assignments", "why_tests_cant": "all masks: the runs of true and false are copied in blocks", "anchors": ["include/dynd/kernels/take_kernel.hpp:masked_take_ck", "include/dynd/callables/take_dispatch_callable.hpp:take_callable<bool_id>"]}
{"id": "C84", "title": "Taking with indices", "statement": "nd::take(a, indices) gives a(i) for every index i, negative indices counting from the end, and throws index_out_of_bounds if some index is outside.", "quantifier": "all arrays and index arrays", "why_tests_cant": "all sizes and indices", "anchors": ["include/dynd/kernels/take_kernel.hpp:indexed_take_ck", "include/dynd/callables/take_dispatch_callable.hpp:indexed_take_callable", "include/dynd/shape_tools.hpp:apply_single_index"]}
{"id": "C85", "title": "where", "statement": "where(predicate, a) gives, in ascending order, exactly the indices for which the predicate is true, replacing what the destination held.", "quantifier": "all predicates, sizes and destinations", "why_tests_cant": "all predicates and sizes; the result is grown one element at a time", "anchors": ["include/dynd/kernels/where_kernel.hpp:where_kernel"]}
{"id": "C86", "title": "Iterators over strided data", "statement": "The iterators nd::sort passes to std::sort obey the laws of random access iterators: order, difference and movement agree with the positions of the elements, and assignment makes a copy.", "quantifier": "all positions, element sizes and strides", "why_tests_cant": "all strides and positions", "anchors": ["include/dynd/bytes.hpp:strided_iterator", "include/dynd/kernels/sort_kernel.hpp:sort_kernel"]}
{"id": "C87", "title": "Reductions", "statement": "A reduction stores, for every index of the kept dimensions, the left fold of its operation, starting from the identity, over all the elements with these coordinates in lexicographic order, and writes nothing else.", "quantifier": "all operations, shapes, strides, sets of reduced axes and values of keepdims", "why_tests_cant": "all shapes, numbers of dimensions and combinations of axes", "anchors": ["include/dynd/kernels/reduction_kernel.hpp:reduction_kernel", "include/dynd/callables/base_reduction_callable.hpp:base_reduction_callable", "include/dynd/callables/reduction_callable.hpp:reduction_callable"]}
{"id": "C88", "title": "sum, min, max and all", "statement": "nd::sum gives the exact sum whenever the element type can represent it; nd::min and nd::max give the least and greatest element; nd::all is true exactly when every element is.", "quantifier": "all integer types and all arrays of elements", "why_tests_cant": "all contents and orders of elements", "anchors": ["include/dynd/kernels/sum_kernel.hpp:sum_kernel", "include/dynd/kernels/min_kernel.hpp:min_kernel", "include/dynd/kernels/max_kernel.hpp:max_kernel", "include/dynd/kernels/all_kernel.hpp:all_kernel"]}
{"id": "C89", "title": "The axes and keepdims arguments", "statement": "The dimensions listed in axes (all if it is missing) are reduced; the result has the other dimensions, and with keepdims dimensions of one element in place of the reduced ones; an axis the array does not have is an error.", "quantifier": "all shapes and axes arguments", "why_tests_cant": "all numbers of dimensions and lists of axes", "anchors": ["include/dynd/callables/base_reduction_callable.hpp:resolve", "include/dynd/callables/reduction_callable.hpp:new_data"]}
{"id": "C90", "title": "Types as text", "statement": "Every spelling of a type, with any whitespace and comments between its tokens, is read as that type and no text spells two types; the text printed for a type is a spelling of it, so it is read back as the same type.", "quantifier": "all types, nested to any depth, all spellings and gaps", "why_tests_cant": "all types and all texts that spell them", "anchors": ["src/dynd/types/datashape_parser.cpp:parse_datashape_nooption", "src/dynd/types/datashape_parser.cpp:parse_struct", "src/dynd/types/datashape_parser.cpp:parse_tuple_or_funcproto", "src/dynd/type.cpp:operator<<", "src/dynd/types/callable_type.cpp:print_type", "src/dynd/types/struct_type.cpp:print_type"]}
{"id": "C91", "title": "Reading any text as a type", "statement": "Constructing a type from any text ends, with a type that satisfies the constraints of its constructors or with an exception; text that goes on after a type is not ignored.", "quantifier": "all texts", "why_tests_cant": "arbitrary and malicious texts", "anchors": ["src/dynd/types/datashape_parser.cpp:type_from_datashape", "src/dynd/types/datashape_parser.cpp:parse_top", "src/dynd/types/fixed_bytes_type.cpp:parse_type_args", "src/dynd/types/fixed_string_type.cpp:parse_type_args"]}
{"id": "C92", "title": "Positions of errors in a datashape", "statement": "The line and column reported for an error in a datashape are those of the offending position, counted from 1.", "quantifier": "all texts and positions, including the end of the text", "why_tests_cant": "all texts with any number of lines", "anchors": ["src/dynd/types/datashape_parser.cpp:get_error_line_column"]}
{"id": "C93", "title": "Aliases in a datashape", "statement": "A text of `type NAME = TYPE` statements and a final type stands for the final type; a name that is taken or already defined cannot be defined; a defined name stands for its type in what follows.", "quantifier": "all sequences of statements", "why_tests_cant": "all histories of definitions", "anchors": ["src/dynd/types/datashape_parser.cpp:parse_stmt", "src/dynd/types/datashape_parser.cpp:parse_top"]}
{"id": "C94", "title": "validate_json accepts exactly JSON texts", "statement": "validate_json(begin, end) returns for every JSON text of RFC 8259 and throws an exception with a position for every text that is not JSON; it never reads past the end and never loops.", "quantifier": "all byte strings", "why_tests_cant": "The grammar is recursive and the set of texts infinite; a test suite samples some of them.", "anchors": ["src/dynd/json_parser.cpp: skip_json_value, validate_json", "include/dynd/parse_util.hpp: json::parse_number, parse_doublequote_string_no_ws"]}
{"id": "C95", "title": "format_json writes JSON that parse_json reads back", "statement": "For every array of bools, integers, strings, options, dimensions and structs, format_json produces a JSON text (RFC 8259), in both the object and the list form of structs, without overrunning its buffer, and parse_json of that text with the same type gives the same value.", "quantifier": "all types of the subset, all values, both forms", "why_tests_cant": "Escapes, buffer growth and nesting combine without bound.", "anchors": ["src/dynd/json_formatter.cpp: output_data, print_escaped_unicode_codepoint, format_json_encoded_string, format_json", "src/dynd/json_parser.cpp: parse_json"]}
{"id": "C96", "title": "parse_json stores what the JSON text means for the type", "statement": "parse_json(type, text) stores the value that the text means for the type: literals by value, arrays element by element, structs from objects by field name (last one wins, other members skipped, absent options missing) or from lists in order; a text that means nothing for the type throws, and nothing that is not JSON is accepted.", "quantifier": "all types of the subset and all byte strings", "why_tests_cant": "Types and texts are unbounded, and the two must agree for all of them.", "anchors": ["src/dynd/json_parser.cpp: parse_json, parse_bool_json, parse_string_json, parse_option_json, parse_strided_dim_json, parse_var_dim_json, parse_struct_json_from_object, parse_tuple_json_from_list", "include/dynd/parse_util.hpp: parse_number_json", "src/dynd/types/string_type.cpp: set_from_utf8_string"]}
{"id": "C97", "title": "JSON parse errors point at the position", "statement": "The report of a JSON parse error names the line and the column of the offending position, shows that line and the one before, and puts the caret under the offending character, whatever the length of the lines.", "quantifier": "all texts and positions", "why_tests_cant": "Line lengths and positions are unbounded; the three layouts switch at 80 and 200 columns.", "anchors": ["src/dynd/json_parser.cpp: get_error_line_column, print_json_parse_error_marker"]}
{"id": "C98", "title": "is_lossless_assignment is exact between number types", "statement": "For builtin number types is_lossless_assignment(dst, src) answers yes exactly when every value of src is a value of dst (128 bit integers, half and quadruple precision included); after a yes, assignment without checks keeps every number and no checked mode rejects a finite one; void and uninitialized types throw.", "quantifier": "all pairs of builtin types, all values", "why_tests_cant": "It relates a table of type pairs to all the values of the types, up to 2^128 of them.", "anchors": ["src/dynd/type.cpp: is_lossless_assignment", "include/dynd/kernels/assignment_kernels.hpp"]}
{"id": "C99", "title": "A lossless assignment keeps every value", "statement": "When is_lossless_assignment(dst, src) answers yes, dst can represent every value of src, for all types: dimensions, structs, options, pointers, bytes.", "quantifier": "all pairs of types, all values", "why_tests_cant": "Types nest without bound.", "anchors": ["src/dynd/type.cpp: is_lossless_assignment", "src/dynd/types/option_type.cpp, pointer_type.cpp, bytes_type.cpp, fixed_bytes_type.cpp: is_lossless_assignment"]}
{"id": "C100", "title": "Losslessness is a preorder", "statement": "is_lossless_assignment is transitive, says yes for a type and itself, and always answers (it throws only when one of the types holds no number).", "quantifier": "all triples of types", "why_tests_cant": "It is a statement about all types.", "anchors": ["src/dynd/type.cpp: is_lossless_assignment", "src/dynd/types/*_type.cpp: is_lossless_assignment"]}
{"id": "C101", "title": "Iterating over arrays visits every element once, in row-major order", "statement": "A loop over an array iterator (array_iter with one operand, with a written and a read operand, or with two read operands) visits each index of the iteration shape exactly once in row-major order; itersize() is the number of turns; index() and data() are the index and the element of every operand, read operands being broadcast; operands that do not broadcast are refused.", "quantifier": "every number of dimensions, every extent including 0 and 1, every stride, every number of leading dimensions iterated", "why_tests_cant": "unbounded dimensions, extents and strides; the position is carried incrementally from turn to turn, so a mistake shows only at particular carries", "anchors": ["include/dynd/array_iter.hpp: array_iter<1,0>, <0,1>, <1,1>, <0,2>", "src/dynd/types/fixed_dim_type.cpp: iterdata_incr, iterdata_reset, fixed_dim_type::iterdata_construct", "src/dynd/type.cpp: iterdata_broadcasting_terminator_incr", "include/dynd/type.hpp: broadcasted_iterdata_construct"]}
{"id": "C102", "title": "equals_exact decides equality of arrays", "statement": "a.equals_exact(b) returns true exactly when a and b are the same object or have the same type, the same sizes and no differing elements, and returns false otherwise; it does not throw.", "quantifier": "every pair of arrays with fixed and var dimensions, every stride and every memory contents", "why_tests_cant": "shapes, strides and contents are unbounded and sizes of var dimensions are data", "anchors": ["src/dynd/array.cpp: nd::array::equals_exact", "src/dynd/view.cpp: view_concrete"]}
{"id": "C103", "title": "Broadcasting of shapes and strides", "statement": "broadcast_input_shapes and incremental_broadcast compute the one common shape of any number of operands aligned on the right, independently of their order, and throw broadcast_error exactly if there is none; broadcast_to_shape gives strides which address, at every index of the result, the operand's element broadcasting assigns to it, and throws exactly if the operand does not broadcast.", "quantifier": "every number of operands, every number of dimensions, every extent including 0, 1 and unknown (var)", "why_tests_cant": "unbounded operands and extents; the running shape depends on the order in which operands come", "anchors": ["src/dynd/array.cpp: broadcast_input_shapes, broadcast_to_shape, incremental_broadcast"]}
{"id": "C104", "title": "permute reorders the axes of an array", "statement": "a.permute(axes) throws invalid_argument exactly when there are more axes than dimensions or the axes are not a permutation of 0..ndim-1; otherwise it returns a view whose dimension k is dimension axes[k] of a, in which the element at the permuted index is the element of a at the index.", "quantifier": "every number of dimensions, every permutation, every extent and stride, fixed and var dimensions", "why_tests_cant": "all permutations of any number of axes, on any mixture of dimensions", "anchors": ["src/dynd/array.cpp: permute_type_dims, nd::array::permute", "include/dynd/shape_tools.hpp: is_valid_perm"]}
{"id": "C105", "title": "transpose and rotate", "statement": "a.transpose() reverses the dimensions of a, and a.rotate(to, from) moves dimension from to position to and keeps the order of the others; every element keeps its address.", "quantifier": "every number of dimensions, every pair of positions, every extent and stride", "why_tests_cant": "unbounded dimensions and positions", "anchors": ["src/dynd/array.cpp: nd::array::rotate, nd::array::transpose"]}
{"id": "C106", "title": "reshape keeps the elements in row-major order", "statement": "nd::reshape(a, shape) throws if the number of elements differs, and otherwise returns an array of that shape whose k-th element in row-major order is the k-th element of a.", "quantifier": "every array of fixed dimensions with any strides, every new shape", "why_tests_cant": "shapes and strides are unbounded; the result depends on the memory layout of the argument", "anchors": ["src/dynd/array.cpp: nd::reshape, nd::make_strided_array_from_data"]}
{"id": "C107", "title": "new_axis inserts dimensions of size one", "statement": "a.new_axis(i, n) returns a view with n dimensions of size 1 before dimension i, each element keeping its address; a position outside the dimensions is refused; adding m and then n axes is adding m + n.", "quantifier": "every array, every position and count", "why_tests_cant": "unbounded dimensions, positions and counts", "anchors": ["src/dynd/array.cpp: nd::array::new_axis", "src/dynd/type.cpp: type::with_new_axis, ndt::pow"]}
{"id": "C108", "title": "view reinterprets only what has the same layout", "statement": "nd::view (a.view(tp)) returns an array of type tp over the same elements at the same addresses exactly when the shapes are equal and the dtypes are equal or both POD with the same size and the new one needs no more alignment; an outermost var dimension may be viewed as a fixed one of its size; every other request throws.", "quantifier": "every array and every concrete type", "why_tests_cant": "unbounded dimensions, all pairs of element types", "anchors": ["src/dynd/view.cpp: try_view, view_concrete, old_view"]}
{"id": "C109", "title": "Integer ranges", "statement": "old_range(begin, end, step) holds exactly begin, begin+step, ... strictly before end, in each integer type, and throws exactly for a zero step.", "quantifier": "every signed and unsigned type of 8 to 64 bits, every begin, end and step", "why_tests_cant": "three integers of up to 64 bits, with wraparound at the limits of each type", "anchors": ["src/dynd/array_range.cpp: range_counter, range_specialization, old_range"]}
{"id": "C110", "title": "Comparisons answer for the values", "statement": "less, less_equal, equal, not_equal, greater and greater_equal on bool and integer elements of any two types answer as the comparison of the two integers; exactly one of less, equal and greater holds; tuples are equal exactly when all their fields are.", "quantifier": "every pair of element types, every pair of values, tuples with any number of fields", "why_tests_cant": "all pairs of values of up to 64 bits for each of the 81 pairs of types; mistakes are at the mixed signs", "anchors": ["include/dynd/kernels/less_kernel.hpp", "include/dynd/kernels/equal_kernel.hpp", "include/dynd/kernels/not_equal_kernel.hpp", "include/dynd/comparison_common.hpp"]}
{"id": "C111", "title": "add, subtract and multiply are exact when the result fits", "statement": "add, subtract and multiply on integer elements return the exact result in the type of the usual arithmetic conversions whenever that type can hold it, and never have undefined behaviour.", "quantifier": "every pair of element types and every pair of values", "why_tests_cant": "all pairs of values of up to 64 bits; overflow happens at the limits of each pair of types", "anchors": ["include/dynd/kernels/arithmetic.hpp: inline_add, inline_subtract, inline_multiply", "src/dynd/add.cpp", "src/dynd/multiply.cpp"]}
{"id": "C112", "title": "divide and mod report zero and truncate", "statement": "divide and mod on integer elements throw zero_division_error exactly when the divisor is zero, and otherwise return the quotient truncated toward zero and the remainder with the sign of the dividend.", "quantifier": "every pair of integer element types and every pair of values", "why_tests_cant": "the check is chosen at compile time from the pair of types; one wrong pair is one untested instantiation", "anchors": ["include/dynd/kernels/arithmetic.hpp: needs_zero_check, inline_divide, inline_mod"]}
{"id": "C113", "title": "Bitwise operations and shifts", "statement": "bitwise_and, bitwise_or and bitwise_xor act on every bit of the two's complement representations; left_shift multiplies by a power of two whenever the result fits; right_shift divides by a power of two rounding down.", "quantifier": "every pair of integer element types, every pair of values and shift counts", "why_tests_cant": "all pairs of values and counts", "anchors": ["include/dynd/kernels/arithmetic.hpp: inline_bitwise_and, inline_bitwise_or, inline_bitwise_xor, inline_left_shift, inline_right_shift"]}
{"id": "C114", "title": "Unary operators and logical operations", "statement": "minus negates, bitwise_not flips all bits and is its own inverse, and the logical operations take every non-zero value as true, on every integer element type and bool, without undefined behaviour.", "quantifier": "every integer element type and bool, every value", "why_tests_cant": "all values of all types; the limits matter", "anchors": ["include/dynd/kernels/arithmetic.hpp: inline_minus, inline_bitwise_not, inline_logical_not, inline_logical_and, inline_logical_or, inline_logical_xor", "include/dynd/bool1.hpp"]}
{"id": "C115", "title": "Compound addition and division", "statement": "a += b stores the exact sum and a /= b the truncated quotient in the type of a whenever that type can hold it, and an element that cannot be stored, or a zero divisor, is reported; adding many elements into one destination gives their total whenever it fits.", "quantifier": "every pair of element types, all values, sums of any number of elements", "why_tests_cant": "lists of any length, with partial sums outside the type", "anchors": ["include/dynd/kernels/compound_add_kernel.hpp", "include/dynd/kernels/compound_div_kernel.hpp", "src/dynd/array.cpp: nd::array::operator+=, operator/="]}
{"id": "C116", "title": "outer calls the child on every combination of elements", "statement": "outer(f) applied to arrays with any numbers of dimensions returns an array with the dimensions of the first argument, then those of the second and so on; f is called exactly once for every index, in row-major order, on the elements the pieces of the index select.", "quantifier": "every number of arguments, every number of dimensions of each, all sizes and strides, scalars in any position", "why_tests_cant": "arguments, dimensions and sizes are all unbounded", "anchors": ["include/dynd/callables/outer_callable.hpp", "include/dynd/callables/outer_entry_callable.hpp", "include/dynd/kernels/outer_kernel.hpp", "include/dynd/functional.hpp: nd::functional::outer"]}
{"id": "C117", "title": "compose and constant", "statement": "compose(f, g) writes g(f(x)) for every element, for any number of elements and also in place, and changes no other element than those of its destination and its temporary; constant(x) writes x to every element.", "quantifier": "any functions, numbers of elements, strides and addresses where the operands do not overlap in the wrong order", "why_tests_cant": "elements go through a buffer in chunks of 128, and mistakes are at the seams", "anchors": ["include/dynd/kernels/compose_kernel.hpp", "include/dynd/kernels/constant_kernel.hpp", "include/dynd/kernels/base_strided_kernel.hpp", "src/dynd/functional.cpp"]}
{"id": "C118", "title": "Compound kernels fold", "statement": "left_compound(f) with a fixed destination leaves there the left fold of f over the elements, starting from the value already there; right_compound(f) the same with the arguments swapped; with a destination that moves both combine element by element.", "quantifier": "every binary function, number of elements, stride and initial value", "why_tests_cant": "the order only shows for functions that are neither associative nor commutative, on any number of elements", "anchors": ["include/dynd/kernels/compound_kernel.hpp", "include/dynd/kernels/base_strided_kernel.hpp"]}
{"id": "C119", "title": "neighborhood windows stay inside the array", "statement": "A neighborhood kernel makes one call for each index of the array, on the window that starts at the index plus the offset: the function when the window is inside the array in every dimension, the boundary function otherwise. The function is never given a window with elements outside.", "quantifier": "any number of dimensions, all sizes, window shapes, offsets and strides", "why_tests_cant": "sizes, shapes and offsets are unbounded; windows larger than the array and offsets beyond it are extreme cases", "anchors": ["include/dynd/kernels/neighborhood.hpp", "include/dynd/callables/neighborhood_callable.hpp"]}
{"id": "C120", "title": "convert applies the function to converted arguments", "statement": "convert(f) writes f of the converted arguments for every element, for any number of elements, and changes nothing but its destination and its buffers.", "quantifier": "any number of arguments, converted or not, any number of elements, all strides", "why_tests_cant": "conversions go through buffers in chunks of 128; a test with fewer elements sees one chunk", "anchors": ["include/dynd/kernels/convert_kernel.hpp: convert_kernel::strided", "include/dynd/callables/convert_callable.hpp"]}
{"id": "C121", "title": "New arrays like another keep its axis order", "statement": "empty_like(a), a.eval() and a.eval_copy() return an array whose strides give every element its own place in the allocated block, with nothing left over; dimensions with a larger stride in a have a larger stride in the result. They always end.", "quantifier": "every shape, every element size, all source strides, positive, negative or zero, sources with var dimensions and pointers", "why_tests_cant": "the layout depends on the order of any number of strides; overlapping elements are only seen for particular shapes", "anchors": ["src/dynd/types/fixed_dim_type.cpp: reorder_default_constructed_strides, arrmeta_default_construct", "src/dynd/array.cpp: nd::empty_like, nd::array::eval, nd::array::eval_copy", "src/dynd/shape_tools.cpp: strides_to_axis_perm"]}
{"id": "C122", "title": "Axis order classification", "statement": "classify_axis_order reports C order exactly when the strides of an array decrease from the first dimension to the last, Fortran order exactly when they do not, and none when fewer than two strides are not zero; dimensions with stride zero are skipped.", "quantifier": "every number of dimensions and all strides", "why_tests_cant": "any number of dimensions in any order", "anchors": ["src/dynd/shape_tools.cpp: classify_strided_axis_order", "src/dynd/types/fixed_dim_type.cpp: classify_axis_order", "src/dynd/types/var_dim_type.cpp: classify_axis_order", "src/dynd/types/pointer_type.cpp: classify_axis_order"]}
{"id": "C123", "title": "substitute_shape completes a pattern", "statement": "substitute_shape(pattern, shape) replaces each Fixed dimension by the size the shape gives, keeps fixed dimensions whose size is equal or unknown and var dimensions, and throws type_error in every other case; the result matches the pattern and has no Fixed among the dimensions that were given a size.", "quantifier": "every pattern of dimensions and every shape, of any lengths", "why_tests_cant": "all patterns and shapes, in particular shapes shorter than the pattern", "anchors": ["src/dynd/types/substitute_shape.cpp", "src/dynd/asarray.cpp", "src/dynd/view.cpp: view"]}
{"id": "C124", "title": "A call gives every parameter its argument", "statement": "When f(args..., {keywords}) goes through, each positional parameter has received the argument at its position, extra positional arguments have gone to the keyword parameters in order, each keyword that was passed was received by the parameter of its name, no argument was dropped or passed twice, optional keywords that were not passed are NA, no required keyword is missing, and the destination is the one given by dst or dst_tp. A call in which everything is there and of a matching type goes through.", "quantifier": "every callable signature, variadic or not, every list of positional arguments and every list of keywords, in any order", "why_tests_cant": "any number of parameters, keywords in any order, and all combinations of positional and named, optional and required, dst and dst_tp", "anchors": ["src/dynd/callable.cpp: nd::callable::call, nd::detail::check_arg", "include/dynd/callable.hpp: nd::detail::is_special_kwd", "include/dynd/types/callable_type.hpp", "src/dynd/types/struct_type.cpp: get_field_index"]}
{"id": "C125", "title": "The arguments of a call have the declared types", "statement": "When a call goes through there is one assignment of the type variables under which every argument, positional or keyword, and the destination are instances of the types the callable declares.", "quantifier": "every callable signature whose types are patterns, all argument types, any number of arguments and keywords", "why_tests_cant": "type variables are shared between any number of arguments, and later arguments may widen the dimensions of earlier ones", "anchors": ["src/dynd/callable.cpp: nd::callable::call, nd::detail::check_arg", "include/dynd/type.hpp: match"]}
{"id": "C126", "title": "Byte swapping reverses the bytes of each element", "statement": "byteswap_value gives the value with its bytes in the opposite order, and applied twice gives the value back. nd::byteswap(a) does the same to each element of an array, in place or into another array, and nd::pairwise_byteswap to each half of each element; no byte outside the destination elements changes.", "quantifier": "every 16, 32 and 64 bit value; elements of every size, any number of elements, any strides and any places of source and destination", "why_tests_cant": "all values, all sizes, in place and overlapping memory", "anchors": ["include/dynd/kernels/byteswap_kernels.hpp: byteswap_value, byteswap_ck, pairwise_byteswap_ck", "include/dynd/callables/byteswap_callable.hpp", "include/dynd/kernels/base_strided_kernel.hpp: strided"]}
{"id": "C127", "title": "Objects built in a kernel buffer stay where and what they are", "statement": "Whatever is emplaced in a kernel builder or call graph starts at a multiple of eight bytes after everything before it, inside the buffer, and keeps its bytes however often the buffer grows afterwards; the rest of the buffer is zero. At most half of the buffer is spare and growing copies at most three times its size in total.", "quantifier": "every sequence of objects of any sizes and contents, whatever new memory contains", "why_tests_cant": "the buffer moves at sizes that depend on all earlier objects; any sequence can occur", "anchors": ["include/dynd/storagebuf.hpp: storagebuf::reserve, emplace_back, emplace_back_sep, aligned_size"]}
{"id": "C128", "title": "What was built is destroyed exactly once", "statement": "When a kernel builder or a call graph goes away, every kernel or closure that was constructed in it is destroyed exactly once and nothing else is, also when a constructor throws or memory runs out while it is being built.", "quantifier": "every sequence of kernels or closures of any sizes, and every point at which a constructor or an allocation fails", "why_tests_cant": "the failure can come at any point of any construction; out of memory cannot be provoked in a test", "anchors": ["include/dynd/kernels/kernel_builder.hpp", "src/dynd/kernels/kernel_builder.cpp", "include/dynd/kernels/kernel_prefix.hpp: kernel_prefix::destroy, get_child", "include/dynd/kernels/base_kernel.hpp: init, destruct", "include/dynd/callables/call_graph.hpp", "include/dynd/callables/call.hpp: call_node::init"]}
{"id": "C129", "title": "Short vectors are independent vectors, whatever is done to them", "statement": "However dimvectors (shortvector) are constructed, copied, moved, swapped, initialised again, written and destroyed, each behaves as a vector of its own: reading gives what was last written to it or came with what it was moved or swapped with. Nothing deleted is touched, every block is deleted exactly once when all vectors are gone, and vectors of at most staticN elements never allocate. A constructor that gets no memory throws and changes nothing.", "quantifier": "every history of operations on any number of vectors of any sizes, each with its own storage switching between the object and the heap at any time", "why_tests_cant": "every combination of inline and heap storage in every order; leaks and double frees depend on the history", "anchors": ["include/dynd/shortvector.hpp: shortvector (constructors, init, operator=, swap, ~shortvector)"]}
{"id": "C130", "title": "A vector survives an init that fails and an init from itself", "statement": "If init of a dimvector throws because memory runs out, the vector can still be destroyed; and init(n, v.get()) with the vector's own elements keeps the first n of them.", "quantifier": "every history before the init, every size", "why_tests_cant": "running out of memory cannot be provoked; own elements work in tests with short vectors", "anchors": ["include/dynd/shortvector.hpp: shortvector::init"]}
{"id": "C131", "title": "multi_shortvector is M independent vectors, through any number of inits", "statement": "After init(n) the M vectors of a multi_shortvector have n elements each, none of which is an element of another; init can be called again with any size, and everything is freed in the end.", "quantifier": "every M, staticN, every sequence of inits, writes and reads", "why_tests_cant": "the defect needs a particular order of sizes", "anchors": ["include/dynd/shortvector.hpp: multi_shortvector"]}
{"id": "C132", "title": "nd::json::parse reads integers exactly", "statement": "For an integer type, nd::json::parse returns the value of the JSON number in the text, with any whitespace around it, when the number is an integer that fits the type, and throws for every other text. A value is never wrapped.", "quantifier": "every text, all integer types of 8 to 64 bits", "why_tests_cant": "all texts, all values around the limits of each type", "anchors": ["include/dynd/parse.hpp: nd::json::parse", "include/dynd/kernels/parse_kernel.hpp: _parse_number, _parse_na, parse_kernel", "include/dynd/callables/parse_callable.hpp", "src/dynd/parse.cpp: make_dynamic_parse"]}
{"id": "C133", "title": "nd::json::parse reads booleans exactly", "statement": "For bool, nd::json::parse accepts true, false, 1, 0 and string literals that denote one of the words for true and false, with whitespace around, returns that value, and accepts nothing else.", "quantifier": "every text", "why_tests_cant": "all texts", "anchors": ["include/dynd/parse.hpp: nd::json::parse", "include/dynd/kernels/parse_kernel.hpp: _parse_number, _parse_na, parse_kernel", "include/dynd/callables/parse_callable.hpp", "src/dynd/parse.cpp: make_dynamic_parse", "src/dynd/parse_util.cpp: json::parse_bool"]}
{"id": "C134", "title": "nd::json::parse returns the string a literal denotes", "statement": "For string, nd::json::parse accepts exactly the string literals with valid escapes, and returns the characters the literal denotes.", "quantifier": "every text", "why_tests_cant": "all literals with all combinations of escapes", "anchors": ["include/dynd/parse.hpp: nd::json::parse", "include/dynd/kernels/parse_kernel.hpp: _parse_number, _parse_na, parse_kernel", "include/dynd/callables/parse_callable.hpp", "src/dynd/parse.cpp: make_dynamic_parse"]}
{"id": "C135", "title": "nd::json::parse of an option: missing, or the value", "statement": "For an option type, nd::json::parse returns a missing value exactly when the text is a word for missing (nothing, NA, None, null in any case), and otherwise what it returns for the value type.", "quantifier": "every text, every option of a scalar", "why_tests_cant": "all texts; a present value that reads back as missing is one out of 2^64", "anchors": ["include/dynd/parse.hpp: nd::json::parse", "include/dynd/kernels/parse_kernel.hpp: _parse_number, _parse_na, parse_kernel", "include/dynd/callables/parse_callable.hpp", "src/dynd/parse.cpp: make_dynamic_parse", "src/dynd/option.cpp: make_assign_na"]}
{"id": "C136", "title": "nd::json::parse always returns a value or throws", "statement": "Whatever the text and the type, nd::json::parse returns an array or throws; it never reads outside the text and never crashes.", "quantifier": "every text, every type", "why_tests_cant": "truncated and malformed texts of every form", "anchors": ["include/dynd/parse.hpp: nd::json::parse", "include/dynd/kernels/parse_kernel.hpp: _parse_number, _parse_na, parse_kernel", "include/dynd/callables/parse_callable.hpp", "src/dynd/parse.cpp: make_dynamic_parse"]}
{"id": "C137", "title": "The two JSON parsers agree", "statement": "nd::json::parse and parse_json, given the same type and text, accept the same texts and never return different values.", "quantifier": "every text, every scalar type and option", "why_tests_cant": "two independent pieces of code compared on all texts", "anchors": ["include/dynd/parse.hpp: nd::json::parse", "include/dynd/kernels/parse_kernel.hpp: _parse_number, _parse_na, parse_kernel", "include/dynd/callables/parse_callable.hpp", "src/dynd/parse.cpp: make_dynamic_parse", "src/dynd/json_parser.cpp: parse_json"]}
{"id": "C138", "title": "Any list of distinct categories makes a categorical type", "statement": "Constructing a categorical type from a one-dimensional array of distinct categories succeeds whatever their order and get_categories returns that array; an array with a repeated category is refused with an error.", "quantifier": "every list of categories, every total order of them", "why_tests_cant": "all lists, all orders", "anchors": ["include/dynd/types/categorical_type.hpp: categorical_type", "src/dynd/types/categorical_type.cpp: categorical_type, factor_categorical"]}
{"id": "C139", "title": "Categories and values correspond one to one", "statement": "Category number i of a categorical type has value i: get_value_from_category of it is i and get_category_data_from_value of i is it; anything that is not a category, and every value that is not one of them, is refused with an error.", "quantifier": "every categorical type, every category and every 32-bit value", "why_tests_cant": "a permutation, its inverse and a binary search must fit together for all lists", "anchors": ["include/dynd/types/categorical_type.hpp: categorical_type", "src/dynd/types/categorical_type.cpp: categorical_type, factor_categorical"]}
{"id": "C140", "title": "The storage of a categorical type holds exactly its values", "statement": "The storage integer of a categorical type is wide enough for all its values, no narrower one would be, and printing whatever is stored prints the category of that value or NA; it never fails.", "quantifier": "every categorical type of up to 2^32 categories, every stored integer", "why_tests_cant": "all counts around the limits of the storage types, all stored integers", "anchors": ["include/dynd/types/categorical_type.hpp: categorical_type", "src/dynd/types/categorical_type.cpp: categorical_type, factor_categorical"]}
{"id": "C141", "title": "Categorical types are equal when their categories are", "statement": "Two categorical types compare equal exactly when they have the same categories in the same order, however each was made, and then all values mean the same category.", "quantifier": "every two categorical types of one category type", "why_tests_cant": "all pairs of lists of categories", "anchors": ["include/dynd/types/categorical_type.hpp: categorical_type", "src/dynd/types/categorical_type.cpp: categorical_type, factor_categorical"]}
{"id": "C142", "title": "factor_categorical makes the type of the distinct values", "statement": "factor_categorical of an array returns the categorical type whose categories are the distinct elements of the array in order; every element is a category of it and nothing else is.", "quantifier": "every array of values, every total order of them", "why_tests_cant": "all arrays with all patterns of repetition", "anchors": ["include/dynd/types/categorical_type.hpp: categorical_type", "src/dynd/types/categorical_type.cpp: categorical_type, factor_categorical"]}
{"id": "C143", "title": "The text of a categorical type can be read back", "statement": "Printing a categorical type gives a text with its categories in the order of their values, for every categorical type, and parsing the text gives the type again.", "quantifier": "every categorical type", "why_tests_cant": "all lists of categories", "anchors": ["include/dynd/types/categorical_type.hpp: categorical_type", "src/dynd/types/categorical_type.cpp: categorical_type, factor_categorical"]}
{"id": "C144", "title": "A categorical value can be missing", "statement": "Every categorical type has a stored value that prints as NA, apart from those of its categories.", "quantifier": "every categorical type of up to 2^32 categories", "why_tests_cant": "fails only at three counts, of which one cannot be tested in practice", "anchors": ["include/dynd/types/categorical_type.hpp: categorical_type", "src/dynd/types/categorical_type.cpp: categorical_type, factor_categorical"]}
{"id": "C145", "title": "A text that fits a fixed string is stored and read back", "statement": "Assigning to a fixed string a text that fits in its encoding and size stores the encoded text followed by zeros, and reading it as UTF-8, assigning it to a string and printing it all give the text back.", "quantifier": "every encoding, size and text that fits", "why_tests_cant": "five encodings with one to four bytes per code point, all texts and sizes", "anchors": ["include/dynd/types/fixed_string_type.hpp: fixed_string_type", "src/dynd/types/fixed_string_type.cpp: get_string_range, set_from_utf8_string, print_data", "include/dynd/kernels/assignment_kernels.hpp: fixed_string assignment kernels", "include/dynd/callables/assign_callable.hpp"]}
{"id": "C146", "title": "Checked assignment to a fixed string accepts exactly the texts that fit", "statement": "An assignment to a fixed string that checks for errors succeeds exactly for valid UTF-8 whose text is in the encoding of the type and fits in its size; for every other list of bytes it throws, and nothing is read or written out of bounds.", "quantifier": "every encoding and size, every list of source bytes", "why_tests_cant": "all byte strings, valid or not, against all sizes", "anchors": ["include/dynd/types/fixed_string_type.hpp: fixed_string_type", "src/dynd/types/fixed_string_type.cpp: get_string_range, set_from_utf8_string, print_data", "include/dynd/kernels/assignment_kernels.hpp: fixed_string assignment kernels", "include/dynd/callables/assign_callable.hpp"]}
{"id": "C147", "title": "Unchecked assignment cuts the text", "statement": "An assignment to a fixed string that does not check for errors writes exactly the size of the destination for any source bytes: the longest prefix of the text that fits, with a question mark for each code point that the encoding does not have or for a stray byte, then zeros.", "quantifier": "every encoding and size, every list of source bytes", "why_tests_cant": "all byte strings and sizes, with code points across the end of the buffer", "anchors": ["include/dynd/types/fixed_string_type.hpp: fixed_string_type", "src/dynd/types/fixed_string_type.cpp: get_string_range, set_from_utf8_string, print_data", "include/dynd/kernels/assignment_kernels.hpp: fixed_string assignment kernels", "include/dynd/callables/assign_callable.hpp"]}
{"id": "C148", "title": "Copying between fixed strings", "statement": "A checked assignment between fixed strings of any encodings and sizes succeeds exactly when the text before the terminator fits in the destination, and an unchecked one cuts it at the last code point that fits.", "quantifier": "every pair of encodings and sizes, every source text and padding", "why_tests_cant": "all pairs of encodings and sizes with texts of any length", "anchors": ["include/dynd/types/fixed_string_type.hpp: fixed_string_type", "src/dynd/types/fixed_string_type.cpp: get_string_range, set_from_utf8_string, print_data", "include/dynd/kernels/assignment_kernels.hpp: fixed_string assignment kernels", "include/dynd/callables/assign_callable.hpp"]}
{"id": "C149", "title": "Reading a fixed string that holds any bytes", "statement": "Reading, printing or converting a fixed string terminates for every content of its bytes without reading out of bounds; in the checked modes the result is the text before the first zero unit, or an error when there is no such text.", "quantifier": "every encoding, every content of the buffer", "why_tests_cant": "all byte contents, including invalid and cut sequences", "anchors": ["include/dynd/types/fixed_string_type.hpp: fixed_string_type", "src/dynd/types/fixed_string_type.cpp: get_string_range, set_from_utf8_string, print_data", "include/dynd/kernels/assignment_kernels.hpp: fixed_string assignment kernels", "include/dynd/callables/assign_callable.hpp"]}
{"id": "C150", "title": "A char gives back the code point it was given", "statement": "char types exist exactly for the encodings with a fixed size per code point, and the code point read from a char after setting it is the same, or a question mark when the encoding does not have it.", "quantifier": "every encoding, every 32-bit number", "why_tests_cant": "2^32 code points for each encoding", "anchors": ["include/dynd/types/char_type.hpp: char_type", "src/dynd/types/char_type.cpp: get_code_point, set_code_point", "include/dynd/callables/assign_callable.hpp"]}
{"id": "C151", "title": "A string converts to a char exactly when it is one code point", "statement": "A checked assignment of a string to a char succeeds exactly when the string is one code point of the encoding of the char, which it then holds; assigning a char to a string gives the string of that code point.", "quantifier": "every encoding of a char, every list of bytes, every code point", "why_tests_cant": "all byte strings and code points", "anchors": ["include/dynd/types/char_type.hpp: char_type", "src/dynd/types/char_type.cpp: get_code_point, set_code_point", "include/dynd/callables/assign_callable.hpp"]}
{"id": "C152", "title": "The type inferred for nested lists", "statement": "The type of an array made from nested lists has one dimension for each depth: of the fixed size that all lists of that level have, or var when two of them have different sizes.", "quantifier": "every nested list of every depth", "why_tests_cant": "all depths and all combinations of sizes", "anchors": ["include/dynd/type.hpp: container_traits, traits<std::vector>::equivalent, traits<std::initializer_list>::equivalent", "include/dynd/kernels/init_kernel.hpp: init_kernel", "include/dynd/buffer.hpp: buffer constructors"]}
{"id": "C153", "title": "Nested lists of even sizes are stored element by element", "statement": "An array made from nested lists whose sizes are the same at each level has these sizes, is stored within its memory, and reads back at each list of indices the element that the lists have there; other indices throw.", "quantifier": "every depth, sizes, elements and element size, vectors and initializer lists, every list of indices", "why_tests_cant": "all depths, sizes and indices", "anchors": ["include/dynd/type.hpp: container_traits, traits<std::vector>::equivalent, traits<std::initializer_list>::equivalent", "include/dynd/kernels/init_kernel.hpp: init_kernel", "include/dynd/buffer.hpp: buffer constructors", "src/dynd/types/fixed_dim_type.cpp: arrmeta_default_construct", "include/dynd/types/var_dim_type.hpp: data_type"]}
{"id": "C154", "title": "Nested lists of uneven sizes are stored as well", "statement": "An array can be made from nested lists whose sizes differ within a level, and reads back the element that the lists have at each list of indices.", "quantifier": "every depth, sizes, elements and element size, vectors and initializer lists", "why_tests_cant": "all ragged shapes of all depths", "anchors": ["include/dynd/type.hpp: container_traits, traits<std::vector>::equivalent, traits<std::initializer_list>::equivalent", "include/dynd/kernels/init_kernel.hpp: init_kernel", "include/dynd/buffer.hpp: buffer constructors", "src/dynd/types/fixed_dim_type.cpp: arrmeta_default_construct", "include/dynd/types/var_dim_type.hpp: data_type"]}
{"id": "C155", "title": "Iterating over nested C arrays", "statement": "A loop from dynd::begin<N> to dynd::end<N> over a C array of N dimensions visits each element once, in order, stops after the last one, and accesses nothing outside the array.", "quantifier": "every number of dimensions, every dimensions and contents, every place in memory", "why_tests_cant": "all numbers of dimensions and sizes; the tests have three shapes", "anchors": ["include/dynd/iterator.hpp: iterator, const_iterator, begin, end"]}
{"id": "C156", "title": "Iterating over nested vectors", "statement": "A loop from dynd::begin<N> to dynd::end<N> over nested vectors visits each element once, in order, and stops after the last one.", "quantifier": "every depth, sizes and contents", "why_tests_cant": "all depths and ragged shapes, with empty vectors", "anchors": ["include/dynd/iterator.hpp: iterator, const_iterator, begin, end"]}
{"id": "C157", "title": "linspace of float32 goes from start to stop", "statement": "linspace of float32 numbers, or of complex numbers of them, has count elements of which the first is start, the last is stop and no element goes back behind the one before, without any overflow; a count below 2 or a type that is not floating point is refused.", "quantifier": "every pair of finite float32 numbers, every count up to 2^29 + 1", "why_tests_cant": "2^64 pairs of numbers with every count", "anchors": ["src/dynd/array_range.cpp: old_linspace, old_linspace_specialization", "include/dynd/complex.hpp: operators of complex and real numbers"]}
{"id": "C158", "title": "linspace of float64 goes from start to stop", "statement": "linspace of float64 numbers has count elements of which the first is start, the last is stop and no element goes back behind the one before, without any overflow.", "quantifier": "every pair of finite float64 numbers, every count", "why_tests_cant": "2^128 pairs of numbers with every count", "anchors": ["src/dynd/array_range.cpp: old_linspace, old_linspace_specialization", "include/dynd/complex.hpp: operators of complex and real numbers"]}
{"id": "C159", "title": "concatenate joins two arrays", "statement": "nd::concatenate of two arrays of one dimension with the same type gives the elements of the first followed by those of the second, for any sizes; other arrays are refused.", "quantifier": "every two arrays of every size", "why_tests_cant": "all sizes, with empty arrays, and all contents", "anchors": ["src/dynd/array.cpp: concatenate", "src/dynd/shape_tools.cpp: apply_single_linear_index"]}
{"id": "C160", "title": "A complex number divided by itself is 1", "statement": "A finite complex number of doubles other than 0, divided by itself with / or /=, is 1 + 0i.", "quantifier": "every pair of finite float64 numbers not both 0", "why_tests_cant": "2^128 numbers; only very large and very small ones fail", "anchors": ["include/dynd/complex.hpp: complex::operator/=(const complex &), operator/"]}
{"id": "C161", "title": "*= and /= of a complex number by a number", "statement": "z *= s and z /= s give the product and the quotient of both components of z by the value that s has before the operation, also when s is a member of z.", "quantifier": "every complex number of doubles, every number, including a reference to one of its own components", "why_tests_cant": "all values with all aliases", "anchors": ["include/dynd/complex.hpp: complex::operator*=(const T &), operator/=(const T &)"]}
{"id": "C162", "title": "!= is the negation of ==", "statement": "x != y is true exactly when x and y differ, for two complex numbers and for a complex number and a real one.", "quantifier": "every pair of finite complex numbers, every finite complex number with every finite real number", "why_tests_cant": "all pairs of values", "anchors": ["include/dynd/complex.hpp: operator==, operator!="]}
{"id": "C163", "title": "Operations of a complex and a real number", "statement": "z + s, s + z, z - s, s - z, z * s, s * z and s / z give the same, component by component, as the operation of two complex numbers with s replaced by s + 0i.", "quantifier": "every finite complex number of doubles and every finite double", "why_tests_cant": "2^192 operands", "anchors": ["include/dynd/complex.hpp: operators +, -, *, / of complex and real numbers, conj"]}
{"id": "C164", "title": "Laws of complex numbers that rounding leaves intact", "statement": "+ and * commute, 0 and 1 are neutral, z - z is 0, z * conj(z) is the real number |z|^2 as computed, and conj is an involution that goes through +, -, * and /.", "quantifier": "every pair of finite complex numbers of doubles (y arbitrary)", "why_tests_cant": "2^256 operands", "anchors": ["include/dynd/complex.hpp: operators +, -, *, / of complex and real numbers, conj"]}
{"id": "C165", "title": "Complex numbers with integer components are exact", "statement": "For components that are integers of absolute value at most 2^26 the sum, the difference and the product are exactly those of the Gaussian integers.", "quantifier": "every pair of Gaussian integers with components up to 2^26", "why_tests_cant": "2^108 pairs", "anchors": ["include/dynd/complex.hpp: operators +, -, *, / of complex and real numbers, conj"]}
