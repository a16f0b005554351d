# Formal model of libdynd in Rocq (Coq 8.16.1)

Source: `/repo` (libdynd, C++), read as text; nothing from it is built or run.
Development: `/verif/rocq/theories/` (logical name `Verif`).

## 1. Method

For each area of the library there are up to four files:

* `XModel.v`  – executable Gallina transcription of the C++ functions.  Every
  definition has a comment citing the file and lines it models and stating
  every simplification.
* `XSpec.v`   – the small, independent specification used in the statements
  (ordinary mathematics: Python slices, mod 2^128, well-formed UTF-8, ...);
  it never mentions the model.
* `XProofs.v` – lemmas.
* `XProps.v`  – only the property theorems, each closed by `exact <lemma>`,
  followed by `Print Assumptions`, and by `Example`s showing that concrete,
  non-trivial cases meet the hypotheses.

Conventions

* C++ integers are `Z` with the wrap-around written out (`mod 2^64`, ...)
  whenever the C++ type is unsigned or the code relies on narrowing.  Signed
  overflow, out-of-bounds access, null/negative lengths are **undefined
  behaviour** and are a distinct outcome (`UB`) of the model.
* C++ exceptions are a distinct outcome (`Throw e`).
* Pointers are offsets into byte lists / maps; "it never reads past the end"
  is a theorem because reading past the end yields `UB`.
* Loops are structural recursion or fuelled recursion with a separate
  `OutOfFuel` outcome; theorems exclude it by proving it is never returned, or
  give an explicit fuel bound.
* A property that the faithful model violates is proved in the form
  `…_refuted` (a concrete witness, found in the model and traced back to the
  code), and the strongest true part is proved as `…_partial`.

## 2. Trusted base

* Coq's kernel and `coqchk`; `vm_compute` (the kernel's VM) is used for closed
  finite computations.
* `Print Assumptions` under each property theorem says "Closed under the
  global context", except for the theorems over real numbers (C157, C158, C160-C165), which
  use axioms of the standard library listed in section 5.
* Faithfulness of the transcription (`*Model.v`) to the C++ text: by reading
  only.  LP64, little-endian, two's complement, `char` signedness as noted,
  IEEE bit layouts for float/double.
* External code modelled by its documented contract: `malloc`, `memcpy`,
  `memchr`, `std::sort`, `std::vector`, `std::map`, atomics (sequentially
  consistent).

## 3. Plan per property

| id | model | proof |
|----|-------|-------|
| C01–C04 | `LinearIndex*`: `irange`, its operators, `apply_single_linear_index`, 64-bit signed arithmetic with overflow = UB | spec = Python index/slice selection as a list of indices; case analysis + `lia`, induction on the selected list |
| C05–C08 | `ShapeTools*`: `shape_can_broadcast`, `strides_to_axis_perm` (unrolled cases, `std::sort` as "any sorted permutation"), `axis_perm_to_strides`, `multistrides_to_axis_perm` | induction over shapes / the insertion-sort invariant; C07 is refuted by a witness |
| C09–C12 | `Encoding*`: utf8cpp `core.h`, `next_*`, `append_*`, transcoding loop over byte lists | bit arithmetic turned into div/mod, then `lia`; induction over code point lists |
| C13, C17–C20 | `Escape*`, `ParseTok*`: scanners over byte lists | induction over the buffer; grammar given as an independent inductive/`bool` spec |
| C14–C16 | `ParseInt*`: `parse<uintN>`, `parse<intN>`, `string_to_number` | loop invariant on the accumulated value; refutation by witness for the overflow test |
| C21–C26 | `StrSearch*`: `string_search`, reverse search, handlers, replace/split/concat | invariant "no occurrence was skipped" |
| C27–C28 | `Sso*`: 16-byte representation + heap | refinement to byte lists over histories |
| C29–C31 | `MemBlock*`: arena over a byte memory with arbitrary `malloc` placement | invariant over histories |
| C32–C34 | `Int128*` | arithmetic on hi/lo words |
| C35–C36 | `Half*` | exhaustive kernel computation for the 2^16 side, arithmetic for the 2^32/2^64 side |
| C37–C39 | `Dispatch*`: topological sort, `assign`, `insert`, `operator()` over an abstract match relation | DFS invariant; order-theoretic argument |
| C40 | `Promote*` | finite table lifted over option nesting |
| C41 | `Registry*` | invariant over histories |
| C42 | `RefCount*` | interleaving transition system, inductive invariant |
| C43 | `Layout*` | induction over field lists |
| C44 | `Int128*` conversions | arithmetic |
| C45 | `ParseInt*` nocheck parsers | loop invariant |
| C46 | `Encoding*` encoders | case analysis |
| C47–C48 | `Scan*` number/bool/token scanners | induction over the buffer, inductive grammar |
| C49–C51 | `Escape*` datashape and JSON literals | induction over code points |
| C52 | `Sso*` comparison operators | induction over the bytes |
| C53 | `Arena*` memmap clipping | arithmetic |
| C54–C55 | `Dispatch*` over histories of inserts | order-theoretic argument, invariants, witnesses |
| C56 | `Promote*` lossless assignment | value ranges of the builtin types |
| C57–C58 | `Layout*` construction, copying, destruction of arrmeta and data | induction over types (nested lists), disjointness of regions |
| C59 | `Index*` apply_linear_index over arrmeta memory | induction over the index list, then over the type; same-layout relation |
| C60 | `Match*` match_ over type patterns with a variable map | induction over patterns against a declarative instance relation, both directions |
| C61 | `Match*` subst | induction: subst of an instance relation rebuilds the instance |
| C62 | `Match*` subst | induction over patterns |
| C63 | `Assign*` the casts and the kernel table | integers of both signednesses as Z with their range; case analysis of the four comparison shapes |
| C64 | `Assign*` the casts and the kernel table | floats as sign and magnitude in units of 2^-1074; limits rounded as the code does; exact domain of undefined behaviour |
| C65 | `Assign*` the casts and the kernel table | soundness of every checked cast in inexact mode against the denotation of values |
| C66 | `Assign*` the casts and the kernel table | completeness of every cast for finite representable numbers; witnesses for the rest |
| C67 | `Assign*` the casts and the kernel table | case analysis of the kernel table |
| C68 | `Assign*` the casts and the kernel table | rounding to nearest even specified by distance, proved for the quotient/remainder algorithm |
| C69 | `Strided*` single and strided functions as memory transformers | a chaining lemma: the first part and then the rest; induction over chunks |
| C70 | `Strided*` convert_strided | the buffers hold the converted chunk; frame property of every chunk for the refutation |
| C71 | `Strided*` o2o_strided with memchr runs | induction over runs and chunks, with the position of the moved pointer array |
| C72 | dimension lists, entry, dispatch and per-dimension resolution | induction over dimensions against right-aligned broadcasting |
| C73 | call graph nodes, kernel instantiation from arrmeta words, nested strided kernels over the memory of C69 | kernel nest = stores in row-major order (induction over dimensions and counts), then per-element |
| C74 | var rows as pointer and size cells | the same induction with an address function that follows the rows; refutations by evaluation with symbolic extents |
| C75 | the var destination kernel with an arbitrary allocator | induction over the operands for the running size |
| C76 | elements as bit patterns; both tables of reserved values | case analysis over the types; string objects by address |
| C77 | the same tables against a decoder of the binary formats | arithmetic on exponent and fraction fields |
| C78 | forward_na with an arbitrary operation | case analysis over the option flags, from C77 |
| C79 | set_option_from_utf8_string and the string to option kernels over the integer parsers | from C16 and C76 |
| C80 | lexicographic comparison of signed chars | induction on the strings |
| C81 | the same against UTF-8 texts | case analysis on the forms of the first code points |
| C82 | the search loop over memory, any comparison | loop invariant; termination by the width of the interval |
| C83 | the run loops over memory with any child | loop invariant over the remaining mask |
| C84 | the indexed loop over memory; the call graph as a list | induction on the count |
| C85 | the growing result as cells, size and capacity | induction; size = capacity = number of hits |
| C86 | iterator records | arithmetic |
| C87 | the four kernels as records of first and followup calls, and their construction | a representation relation between a kernel and the fold over the index set, by induction on the dimensions |
| C88 | the operations on machine integers | induction on the list |
| C89 | selection of axes, shape of the result | induction on the dimensions |
| C90 | the recursive-descent parser over byte lists with fuel, the printers | an inductive grammar of spellings; every spelling is read by induction on fuel; the printed text is a spelling by induction on the type |
| C91 | as C90 | an invariant over the parser: proper suffixes, undefined behaviour only for large numerals, constraints of the result |
| C92 | the search for the line of a position | induction on the lines |
| C93 | the statement loop | an inductive specification of scripts |
| C94 | mutual recursion of skip_json_value over byte lists | grammar of RFC 8259 as an inductive predicate; soundness by induction on fuel, completeness by induction on the derivation |
| C95 | output_data buffer, escaping, format recursion | `emits` invariant (capacity) for every writer; output is in the grammar and means the value; C96 closes the round trip |
| C96 | parse_json recursion structural on the type | meaning relation per type; each parser sound and complete for its meaning; induction on the type |
| C97 | get_error_line_column, print_json_parse_error_marker | invariant on the lines consumed; arithmetic on the three layouts |
| C98 | the table of type.cpp:853 | values of a type as numbers in units of 2^-16494; inclusion of ranges and formats decided per kind, witnesses (2^p+1, least subnormal, NaN) for the negative answers |
| C99 | is_lossless_assignment on all types, recursion on the destination, then on the source | strip pointers and options on both sides; values as trees |
| C100 | same | case analysis on what a positive answer implies |
| C101 | iterators as a list of iterdata entries, index and shape | invariant: every level holds the address of its outer index; enumeration lemma for next() |
| C102 | equals_exact over abstract element comparison | the two-operand loop of C101 |
| C103 | the loops over dimensions and operands, as folds | extents seen from the right; invariant over the operands processed |
| C104 | dimensions with arrmeta; the walk of permute_type_dims | the interval found is the smallest closed block; sums over a permutation |
| C105 | rotate and transpose as permutations | irreducible exactly when a position is 0 |
| C106 | products and strides in 64-bit arithmetic | packed strides enumerate consecutive addresses |
| C107 | insertion of dimensions | dot product with zero strides |
| C108 | try_view on dimension lists | induction on the dimensions |
| C109 | counts and values with C conversions | ceiling division; no overflow inside the bounds |
| C110 | common type by the usual arithmetic conversions, six comparisons, tuple loops | common type = later of two operation types; casts are the identity on held values; induction over fields |
| C111 | a OP b in the common type with signed overflow undefined | congruence modulo 2^bits and uniqueness of the held representative |
| C112 | needs_zero_check, built-in / and % | case analysis on types; truncated division lemmas |
| C113 | bitwise and shift operators on the converted operands | testbit and shiftr distribution; bounds |
| C114 | unary and logical operators, bool1 overloads | enumeration of types, two's complement arithmetic |
| C115 | compound kernels and the accumulating loop | congruence; induction over the elements |
| C116 | resolution over the remaining dimensions of each argument, nested strided loops | induction on the total number of dimensions; indices enumerate the box without repetition |
| C117 | chunk loop with a temporary buffer over a memory | invariant of the chunk loop under non-overlap; strided loop lemma |
| C118 | strided loop with the destination as an argument | induction on the number of elements |
| C119 | three while loops per dimension, nested | split of the index range at the two counts; induction on dimensions |
| C120 | fill buffers, call, fill buffers for each chunk | frame lemmas of the buffers; induction on the loop for the refutation |
| C121 | source type as a list of strides, axis permutation of C06, assignment along it | packed layouts as mixed-radix numbers; sums invariant under permutation; sortedness of the permutation |
| C122 | mutual recursion over the source type | closed form by induction |
| C123 | visitor over pattern and shape | induction with a prefix of the shape already used |
| C124 | signature, arguments, slots; loops of call in order | invariant of the keyword loop: slot contents, number of empty slots; completeness by induction |
| C125 | match_ of MatchModel threaded through the loops | soundness of match_ and its monotonicity in the assignment |
| C126 | values as Z, memory as a function, loops in order | bits of masked shifts; loop invariants for swapping and copying |
| C127 | buffer as a function from offsets with junk in new memory | invariant: contents are the layout followed by zeros; potential argument for copying |
| C128 | sequence of constructions with failures, destruction walks | offsets of placed objects; induction over the chain |
| C129 | objects with a pointer and inline data, heap of blocks, operations as steps with throwing | refinement to a map of lists: ownership invariant (blocks belong to exactly one object) |
| C130 | same | from the invariant for the state before |
| C131 | rows as block and offset, int arithmetic checked | invariant on grid, exact by induction on the sizes |
| C132 | scanner, conversion and the call graph as list of nodes | scanner equal to json::parse_number, then C14/C15/C17 |
| C133 | json::parse_bool | equal to the bool reader of json_parser.cpp, then C96 |
| C134 | string kernel | C19 |
| C135 | option kernel with its two children | words exact by cases; no scalar starts like a word |
| C136 | resolve and instantiate | totality of each scanner |
| C137 | both models side by side | congruence of the two integer conversions modulo 2^W; case analysis on the common scanners |
| C138 | kernels as options; std::set as an ordered list | unique ascending list of a set of elements; permutation of the indices |
| C139 | index maps as lists of numbers, binary search of SearchModel | inverse permutation; C82; sorted lists have no repetitions |
| C140 | storage width from the count; print_data of any cell | cases of the width, C139 |
| C141 | equals_exact of the three arrays | the three arrays are determined by the categories and determine them |
| C142 | the loop of factor_categorical and presorted | invariant: the set is ascending with the elements seen |
| C143 | loop of print_type; parse_type_args | induction over the values |
| C144 | print_data of any cell | C140 |
| C145 | copy, grow and print loops over lists of bytes | induction over the text; lemmas of C09-C12 and C46 for each code point |
| C146 | copy loop with checked decoder and encoder | induction over the room left, with C10 and C46 for each step |
| C147 | the same with the decoders and encoders that do not check | induction over the text; over the room for any bytes |
| C148 | copy loop that stops at U+0000 | as C146 and C147 |
| C149 | grow_loop, print_loop, get_string_range | induction over the bytes left; witnesses for the rest |
| C150 | set_code_point, get_code_point | cases of the encoding; C09, C46 |
| C151 | set_from_utf8 with a size of one unit | C146; all code points have one size |
| C152 | shape with its loop, from_shape | induction over the depth and the list; dim_of is closed under appending levels |
| C153 | kernels that write cells into blocks | induction over the type: each kernel writes within its range and what is stored before stays; then reading by induction over the indices |
| C154 | the same, with blocks of var elements | as C153; choice of the kernel by induction over the shape |
| C155 | the levels of an iterator as addresses | the iterator after k increments in terms of quotients and remainders of k, by induction over the dimensions; then induction over the elements left |
| C156 | the levels as vectors and indices | the outer index stays inside; induction over the number of increments |
| C157 | operations round the exact result to nearest even; overflow is None | products are exact; rounding is monotone, so the elements are monotone and the ends exact |
| C158 | the same in double only | as C157 under exact products; two witnesses |
| C159 | the two ranges of the result, assigned element by element | each assignment replaces its part of the memory; induction over the source |
| C160 | operations round the exact result; None is overflow or division by zero | numerator and denominator are the same expression; bounds by monotone rounding |
| C161 | the number is a value or one of the two members, read again for the second component | case split on the alias; a witness with small integers |
| C162 | == and != over real numbers | case split on equality of the components |
| C163 | both forms of each operation over rounded reals, None for a result that is not finite | 0 added or multiplied is exact, rounding is symmetric |
| C164 | as C163 | commutativity in R, symmetry of rounding, |ab| <= max(aa, bb) |
| C165 | as C163 | integers up to 2^53 are exact |

Further properties are appended in section 4 as the model grows.

## 4. Status and findings

### 4.1 Status

| id | property | status | theorems | note |
|---|---|---|---|---|
| C01 | Single-index access | proved | 1 |  |
| C02 | Positive-step slices | proved | 1 |  |
| C03 | Negative-step slices | proved | 1 |  |
| C04 | Range-builder notation | partial | 4 | True for every bound except two: `-1 < irange()` and `0 > irange().by(-k)` select the whole dimension (refuted by witness). |
| C05 | Broadcast compatibility | proved | 2 |  |
| C06 | Axis permutation of strides | proved | 3 |  |
| C07 | Strides from an axis permutation | partial | 2 | Refuted: the code overwrites each stride with the extent (shape_tools.cpp:122-123); C07_actual_behaviour says what it stores. |
| C08 | Joint axis permutation of several operands | proved | 4 |  |
| C09 | Codepoint encode/decode round trip | proved | 3 |  |
| C10 | UTF-8 validation | proved | 3 |  |
| C11 | Decoders stay in bounds and make progress | partial | 5 | Checked decoders: full. No-error decoders: full except (and refuted exactly at) a UTF-8 byte that cannot start a sequence (no progress) and a UTF-16 lead surrogate in the last unit (read past the end). A buffer ending inside a unit is read past its end by the 16/32-bit decoders. |
| C12 | Transcoding preserves the text | proved | 5 |  |
| C13 | Escape/unescape round trip | proved | 2 |  |
| C14 | Checked unsigned integer parsing | partial | 6 | Exact for every in-range number and every non-number throws; the overflow test `result < prev_result` misses wraps (uint8 "300" -> 44), and "."/"e5" are accepted as 0 (refuted by witness). |
| C15 | Checked signed integer parsing | partial | 3 | Exact whenever the digits denote less than 2^W; beyond that inherits C14's missed wrap (int8 "-300" -> -44). |
| C16 | Number assignment from text into a typed slot | partial | 5 | Exact-or-throw for digits below 2^64 except INT64_MIN, which negates int64 min (UB); beyond 2^64 inherits C14's missed wrap. |
| C17 | JSON number recognition | proved | 5 |  |
| C18 | Identifier and whitespace scanning | proved | 8 |  |
| C19 | Quoted-string scanning | proved | 6 | Scanner exact; unescaping exact; an escape that is not a scalar value (e.g. JSON surrogate pairs) makes unescape_string throw. |
| C20 | Fixed-digit integers | proved | 4 |  |
| C21 | Substring find | proved | 3 |  |
| C22 | Substring reverse find | partial | 4 | Exact for needles of two or more bytes (and for a one-byte haystack). The code is wrong for one-byte needles: the loop condition in string_search_1char_reverse is i <= 0, so a haystack of two or more bytes is never searched (C22_one_byte_refuted, all inputs). |
| C23 | Occurrence counting | partial | 5 | Exact for needles of at most two bytes or whose last two bytes are equal, never too large for any needle. Code defects proved: after a match the loop falls through to the miss step, so every other needle is counted once in needle++needle (C23_adjacent_refuted); the memchr path passes the full length and reads past the end exactly when reads_beyond holds (C23_overrun_refuted). |
| C24 | Replace | partial | 5 | In bounds and only occurrences replaced for all needles unless reads_beyond; every occurrence replaced for steady needles. Same two code defects as C23 (C24_adjacent_refuted, C24_overrun_refuted). dst.resize is taken as correct here; its own defect is C27. |
| C25 | Split | partial | 4 | join of the pieces gives the haystack for every needle unless reads_beyond (then the code reads past the end, C25_overrun_refuted); the pieces are the maximal split for steady needles. |
| C26 | Prefix, suffix and concatenation | proved | 3 |  |
| C27 | Bytestring value semantics | partial | 6 | All operations of the class over every history, inline and heap, except three uses the code gets wrong, each refuted: inline resize whose new size lacks a bit of the old, self assignment of an inline value over 8 bytes, append of a value to itself. |
| C28 | Bytestring storage safety | partial | 3 | Every history without self append and (strings) inline resize to a size reading 15; the latter is refuted by a 14-byte string resized to 1. |
| C29 | Arena allocation | partial | 4 | Proved for every history of create/alloc/resize/finalize/reset with no reset after a failed allocation; after one, reset makes alloc hand out address 0 (refuted). |
| C30 | Arena resize keeps contents | partial | 3 | Proved for the zero-initialising arena and for the POD arena in place; a POD resize that moves is undefined behaviour because the end pointer it reads was already overwritten (refuted, exact condition). |
| C31 | Zero-initialising arena | partial | 3 | Proved for alloc and for a resize that moves; a resize in place never clears the new bytes (refuted). |
| C32 | 128-bit arithmetic | partial | 17 | +, *, /, %, ~ and int128 negation are right for all inputs; -, unary - and ! of uint128 and - of int128 are right exactly on the stated domains; int128 += is never right; int128 * diverges on the minimum. |
| C33 | 128-bit ordering | proved | 2 |  |
| C34 | 128-bit decimal printing | proved | 2 |  |
| C35 | float16 widening is exact | proved | 2 |  |
| C36 | float16 narrowing | proved | 4 |  |
| C37 | Topological sort | partial | 3 | Proved for every non-empty graph, acyclic (sorted) and cyclic (throws); for the empty graph the code forms an iterator before the output range (refuted). |
| C38 | Multidispatch picks a most specific overload | proved | 1 |  |
| C39 | Ambiguous overload sets are rejected | proved | 2 |  |
| C40 | Arithmetic type promotion | partial | 9 | Proved for every pair of builtin types except float16 with an integer, where the result depends on the order of the operands (refuted); commutative at every nesting without float16; option and void rules on all types. |
| C41 | Type-id registry | partial | 9 | Fresh ids, stable names and bases, least-id lookup and single registration proved for every history. Refuted: a throwing registration leaves its singleton behind, entry pointers die at the first new_id, the empty name is found. |
| C42 | Reference-counted memory blocks | partial | 10 | Proved for any number of threads and every race-free interleaving: no access to a freed object, freed once, freed exactly when unreachable, counts exact when quiet, destruction ends, and each operation leaves its variables with the value it should. Refuted for aliasing assignment: p = p and p = p->member free the object and then touch it when p is the only reference. |
| C43 | Tuple and struct layout | partial | 6 | Proved for every concrete type whose data and arrmeta fit 63 bits: elements inside, aligned, pairwise disjoint, arrmeta inside, also in the single allocation of nd::empty. Refuted without the size bound: fixed_dim sizes are multiplied without an overflow check. |
| C44 | 128-bit conversions | partial | 3 | int128 construction right; uint128 from a negative integer is not sign extended; int128 to double loses the sign of every negative value. |
| C45 | Integer overflow predicate | proved | 1 |  |
| C46 | Encoders stay in bounds and write only valid forms | partial | 4 | In-bounds for every value; valid-form-only for ASCII, UCS-2, UTF-8; refuted for UTF-16/UTF-32, which accept lone surrogates and values above U+10FFFF. |
| C47 | Tokens and integer literals | partial | 8 | Full, except that parse_int_no_ws (signed) accepts whitespace before the '-' (exact behaviour proved; 'no whitespace' refuted by witness). |
| C48 | Boolean words | proved | 3 | Checked: exact. nocheck: agrees on all accepted words and total; outside them it guesses (every 4-character text is true). |
| C49 | Datashape quoted strings | partial | 5 | Literals: exact. Print/parse round trip: holds exactly for text without characters above U+FFFF; with one, the printer writes \U and the parser throws (both proved). |
| C50 | Missing-value words | proved | 1 |  |
| C51 | String encoding names | proved | 1 |  |
| C52 | String order | partial | 4 | Strict total order and operator consistency proved; it is the order of signed chars, equal to the byte order on ASCII text and not beyond (refuted). |
| C53 | File mappings select exactly the Python slice of the file | proved | 2 |  |
| C54 | Dispatch does not depend on the order of registration | partial | 3 | Proved when one overload strictly dominates; refuted for duplicate signatures (an unrelated insert flips the answer) and for accepted sets with two incomparable best answers. |
| C55 | A rejected overload leaves the dispatcher as it was | partial | 2 | Calls that had an answer keep it; calls that matched nothing become a null dereference (refuted). |
| C56 | is_lossless_assignment is exact | partial | 4 | Builtin types: exact for every value of every source type. Refuted for option types and for the compile-time trait. |
| C57 | Destroying an array destroys each value in it exactly once | partial | 3 | Proved for every concrete type without pointers to destructible values. Refuted for pointer types, which carry the destructor flag but do not implement data_destruct. |
| C58 | Array metadata keeps its memory block references balanced | partial | 4 | Construct/destruct and copy/destruct are balanced for every type. Failed construction is proved for types whose tuples have at most one field with references, and refuted beyond: the cleanup destroys earlier fields at the arrmeta of the failing one. |
| C59 | Indexing gives a view of exactly the selected elements | partial | 4 | Proved for every type, arrmeta and data on the stated domain (ragged dimensions indexed only after plain indices, a tuple slice followed only by full slices). Refuted beyond: a tuple slice drops the later indices, [:, k] on a ragged dimension neither checks nor wraps k, and a pointer to a ragged array writes past the result's arrmeta. |
| C60 | Matching a type against a pattern is right | partial | 11 | Soundness, exactness, completeness and totality are proved on explicit classes of patterns (no variables below Dim, a known number of dimensions after a power of var or after an ellipsis, ellipsis names used once) and for types without options of arrays; the exclusions are shown necessary by refutations. |
| C61 | Substituting what a match found gives the matched type back | partial | 7 | Proved for every pattern substitution can rebuild (no kinds, variadic parts, unnamed ellipses or keyword parameters; each refuted). |
| C62 | Substitution asked for a concrete type returns one | partial | 6 | Proved when the variables are concrete and the exponents bound; refuted for unbound exponents and for fragments holding Fixed. |
| C63 | Checked integer assignment stores the value or throws | proved | 2 | all integer widths and both signednesses, all checked modes; nocheck reduces modulo 2^bits |
| C64 | Checked assignment of a real number to an integer | partial | 5 | right for every value except one above a maximum the source format rounds (2^63, 2^31, 2^64 ...) and NaN in overflow mode, where the cast is undefined behaviour; exactly these (C64_undefined_iff) |
| C65 | Inexact mode never changes a number | proved | 2 | every pair of types; int128/uint128 not modelled, NaN payloads not kept |
| C66 | A representable number is assigned exactly in every mode | partial | 3 | proved for finite numbers; infinities are rejected when the source is complex and NaN by inexact mode |
| C67 | The error modes form a chain and keep the destination well typed | proved | 3 |  |
| C68 | Conversion to floating point rounds to nearest | partial | 5 | rounding and overflow proved; inexact mode is undefined behaviour for integers whose rounding leaves the integer type (INT64_MAX to double) |
| C69 | A kernel run along a dimension does each element | proved | 4 | element-granular memory; the element types that own memory (buffer reset) are not modelled |
| C70 | Calling a function with converted arguments does each element | partial | 2 | right up to 128 elements; from element 128 on nothing is written, for every callable (C70_rest_unwritten_refuted) |
| C71 | Assigning options to options does each element | partial | 3 | right up to 128 elements and for stride 0; beyond it undefined behaviour when the first chunk ends with an available value, otherwise the first chunk is assigned again |
| C72 | An element-wise call has the broadcast shape of its arguments | proved | 2 |  |
| C73 | Every element of an element-wise result is the function of the matching elements | partial | 3 | right if in no argument a dimension of extent 1 has a longer one below it; otherwise the inner dimensions use the strides of the outer ones (exact characterisation proved, wrong result exhibited for shape [1; n]) |
| C74 | Element-wise calls on ragged arguments | partial | 5 | right for supported combinations; a var array with a scalar, a var array of fewer dimensions, and a fixed dimension with inner dimensions beside a var one misread arrmeta |
| C75 | Element-wise calls into a var dimension | partial | 7 | kernel proved for one dimension over scalars; the resolution picks the fixed-destination kernel for a given var destination with mixed operands, and leaves an arrmeta pointer unset with inner dimensions |
| C76 | Marking an element missing | partial | 5 | proved for every type with a reserved value; refuted for string and bytes (clear() leaves a non-null begin(), so a marked string is never missing) and, for JSON null and missing texts, for uint32 (the builtin switch has no case and the old value stays) |
| C77 | Which values are missing | partial | 2 | exact for every type with a reserved value; for uint8, uint16, uint64, uint128 and float16 x.is_na() is true for every value while nd::is_na throws |
| C78 | Arithmetic and comparison with missing arguments | partial | 2 | propagation proved for every operation and combination of arguments; two present int32 values can give a result that reads as missing (-2147483647 + -1) |
| C79 | Texts stored in an option | partial | 5 | missing texts proved for every reserved type except uint32 (parsing keeps the old value) and bool (string assignment throws); numbers proved for 8..64 bit integers; the text -128 makes an int8 option missing; float texts go through an uninterpreted parser |
| C80 | Comparing strings | proved | 1 |  |
| C81 | Strings are ordered by code points | partial | 3 | proved for ASCII; the exact order of all UTF-8 texts is proved: char is signed, so every non-ASCII character comes before all ASCII ones (refuted by U+00E9 < z) |
| C82 | Binary search | partial | 3 | soundness, completeness and termination proved for every comparison, and for int32 arrays and values; refuted when the value has another type than the elements (its first bytes are taken for an element) |
| C83 | Taking with a mask | proved | 2 | for any element assignment that applies a function (C69); the block is allocated apart from the sources |
| C84 | Taking with indices | partial | 3 | the kernel is proved; nd::take does not reach it: the call graph is built in the wrong order and the call copies element 0 only (the project's tests of indexed take are commented out) |
| C85 | where | partial | 2 | proved from an empty destination; a destination that holds elements is written beyond its end |
| C86 | Iterators over strided data | partial | 3 | proved for positive strides; for negative strides < is reversed, for stride 0 the difference divides by zero, and assignment does not copy the stride |
| C87 | Reductions | partial | 5 | proved for any destination with keepdims or at most one kept dimension, under regular strides, and for newly allocated results; refuted for two kept dimensions without keepdims, for a kept dimension of one element before the innermost kept one, and for empty outer dimensions; var dimensions and reductions of two arrays are not modelled |
| C88 | sum, min, max and all | partial | 6 | min, max and all proved; sum proved for narrow and unsigned types, and for int32 and int64 when the partial sums are representable (refuted otherwise) |
| C89 | The axes and keepdims arguments | partial | 3 | selection and shape proved; axes the array does not have, and negative ones, are ignored (refuted) |
| C90 | Types as text | partial | 7 | reading proved for the full grammar (reads, type, unambiguous); printing proved to be read back for printable types; refuted for empty variadic tuples and structs, Fixed**N, fixed_string of size 0 and type variables named like kinds; some texts that are no spelling are accepted (junk_refuted) |
| C91 | Reading any text as a type | partial | 6 | termination, consumption, constraints of the result and refusal of trailing text proved for all texts; defined behaviour proved for numerals below 2^31, refuted above (atoi) |
| C92 | Positions of errors in a datashape | partial | 3 | proved for all positions but the end of an empty or newline-terminated text, where it is refuted |
| C93 | Aliases in a datashape | partial | 3 | sequences and the refusal of redefinitions proved; defined names are never looked up (use_refuted) |
| C94 | validate_json accepts exactly JSON texts | partial | 4 | Exact: the validator accepts the grammar of RFC 8259 with VT and FF as whitespace and arbitrary bytes and \U escapes in strings; so all JSON is accepted but not only JSON (refuted by a control character in a string). Total: a value or a parse_error. |
| C95 | format_json writes JSON that parse_json reads back | partial | 4 | Proved for bools, 8-64 bit integers, UTF-8 strings, options of them, fixed and var dimensions and structs, nested without bound. Refuted: tuples throw, reading the smallest int64 back is undefined behaviour, a string whose next byte can start no character is written forever. |
| C96 | parse_json stores what the JSON text means for the type | partial | 6 | Exact characterisation for all types of the subset and all texts, with the integer reading of C16; the ideal reading is a sub-case; accepts only what validate_json accepts; total without int64. Refuted: NA/null/empty in quotes is stored as the smallest value of a plain integer, escapes in quoted integers are refused, numbers from 2^64 may wrap, smallest int64 undefined, overflow reported without position. Floats, complex, fixed_string, type and the nocheck modes are not modelled. |
| C97 | JSON parse errors point at the position | partial | 3 | Line, column, both lines and the caret are right for all positions and line lengths; refuted at the end of an empty text or a text ending in a newline, where the report itself throws runtime_error. |
| C98 | is_lossless_assignment is exact between number types | proved | 3 | Exact for all 17 x 17 pairs of number types against IEEE formats and integer ranges; the link to assignment is proved for the types of C63-C68. |
| C99 | A lossless assignment keeps every value | partial | 3 | Proved for every value but the missing one, for all types; refuted: int32 from ?int32 is called lossless. The wrong answers are exactly those with an option above the source's data and none above the destination's. |
| C100 | Losslessness is a preorder | partial | 4 | Transitivity and totality proved. Reflexivity is refuted (text types by design, and options or pointers to anything but a number); the exact set of reflexive types is proved. |
| C101 | Iterating over arrays visits every element once, in row-major order | partial | 10 | Proved for every shape and stride: one operand (all or the leading dimensions), two operands, two read operands, refusal of var dimensions and of shapes that do not broadcast. Refuted for stretched dimensions: a dimension of extent 1 keeps its default stride (the element size) and the iterator walks on with it; C101_broadcast_partial says exactly when the broadcast element is taken (stride 0 in every stretched dimension). The uniform type of a broadcast builtin scalar is never set, a scalar of another type is refused. |
| C102 | equals_exact decides equality of arrays | partial | 4 | Proved for arrays of fixed dimensions and of one leading var dimension: true exactly for the same value. Refuted: two var arrays of different lengths throw type_error; an array with an inner var dimension is never found equal to a copy of itself. |
| C103 | Broadcasting of shapes and strides | partial | 5 | Proved for known extents (broadcast_input_shapes), for strides (broadcast_to_shape) and with unknown extents (incremental_broadcast). Refuted: broadcast_input_shapes with var dimensions depends on the order and lets 5 and 7 pass together. |
| C104 | permute reorders the axes of an array | partial | 8 | Refuted: only permutations without a proper closed prefix are carried out. Exact on fixed dimensions with a builtin dtype (C104_permute_exact_partial: Ok with the permuted dimensions, or undefined behaviour), exact refusals, and the address theorem for every permutation; leading stationary var dimensions are covered by C104_after_var_dims_partial. |
| C105 | transpose and rotate | partial | 4 | transpose proved for every array of one or more fixed dimensions; a scalar is undefined behaviour. rotate is exact: it works when one position is 0, and is undefined when neither is. |
| C106 | reshape keeps the elements in row-major order | partial | 6 | Exact: the result addresses consecutive memory from the data pointer, so it is right exactly when the argument is contiguous; C order suffices. Refuted for transposed and reversed arrays, an empty shape and two negative extents. |
| C107 | new_axis inserts dimensions of size one | partial | 4 | Proved for every position and count; a negative count recurses without end (refuted). |
| C108 | view reinterprets only what has the same layout | partial | 5 | Sound and exact for fixed dimensions, sound for a leading var dimension. Refuted only for raw bytes, whose view is the null array. Symbolic types are not modelled. |
| C109 | Integer ranges | partial | 5 | Proved for all types under an explicit no-overflow condition, for 8-32 bits except the most negative step. Refuted for the most negative step, distant int64_t bounds and uint64_t bounds across 2^63. |
| C110 | Comparisons answer for the values | partial | 8 | Proved for every pair of types whose common type is signed, for values that are not negative and for equal types; exact answer for the rest (C110_mixed_sign_exact). Trichotomy and the tuple comparisons are unrestricted. Refuted: int32 -1 is not less than uint32 1, and equality is not transitive across types. |
| C111 | add, subtract and multiply are exact when the result fits | partial | 4 | C111_arithmetic_exact covers all types and values: exact when representable, else undefined (signed) or wrapped (unsigned). Refuted: never undefined (uint16 65535 * 65535). |
| C112 | divide and mod report zero and truncate | partial | 4 | The zero divisor is decided exactly for all pairs of types; refuted: a signed or bool dividend with an unsigned zero divisor is not checked (needs_zero_check tests the first type twice). The quotient is exact where the operation type holds both operands, INT_MIN / -1 is undefined, and the divide/mod identity holds for all operands. |
| C113 | Bitwise operations and shifts | partial | 4 | Bitwise operations and right_shift are exact for all operands; left_shift is characterised for all operands, and refuted for negative values, which are undefined in C++14. |
| C114 | Unary operators and logical operations | partial | 5 | Exact for all types; refuted for minus of the smallest int32 or int64 (undefined), unsigned values (wrap) and bool, where minus is the identity. |
| C115 | Compound addition and division | partial | 5 | += is exact whenever the sum fits, accumulation is exact by induction on the elements, /= is exact where the quotient fits. Refuted: overflow wraps silently, and /= by zero is undefined while divide throws. |
| C116 | outer calls the child on every combination of elements | partial | 4 | Proved for up to three arguments with any number of dimensions. Refuted for every call with four or more arguments that are not all scalars: outer_entry_callable reads m_children[nsrc], which has entries for up to three arguments (C116_outer_refuted). |
| C117 | compose and constant | proved | 3 | compose (single and strided, over any number of chunks) and constant, for all functions. |
| C118 | Compound kernels fold | proved | 2 | Fold and element-by-element forms of both kernels. |
| C119 | neighborhood windows stay inside the array | proved | 2 | Any number of dimensions; the instantiation in neighborhood_callable.hpp is commented out in this version, so the kernel is reached only through its own interface. |
| C120 | convert applies the function to converted arguments | partial | 2 | Proved for up to 128 elements. Refuted beyond, for every input: the chunk loop advances neither the destination nor the converted sources, so nothing after the first 128 elements is written (C120_convert_refuted). The code that instantiates this kernel is commented out in this version. |
| C121 | New arrays like another keep its axis order | partial | 6 | The elements fill the block for every source and every shape (C121_new_like_fills). The axis order is kept for strides that are not negative; refuted for negative ones (8, -16 counts as C order). Refuted: termination for elements of size zero (the loop at fixed_dim_type.cpp:477 does not change i), and eval of fixed dimensions over a pointer reads strides that were never written. |
| C122 | Axis order classification | partial | 4 | C122_classify_exact gives the report for all strides; right in both directions for two strides that are not zero, and C or Fortran order arrays of any dimension are recognised. Refuted for three: 96, 4, 12 is reported as C order, because the recursion passes on the outer stride. |
| C123 | substitute_shape completes a pattern | partial | 3 | Exact for every pattern and shape except the shape of a scalar with a pattern that has dimensions, where the first size of an empty shape is read (C123_scalar_refuted). |
| C124 | A call gives every parameter its argument | partial | 8 | Proved for every call, except that a required keyword may be missing when dst or dst_tp is passed: the special keywords are counted as keyword parameters (C124_required_refuted; at most as many are missing as special keywords are passed, C124_missing_bound; none without special keywords, C124_required_partial). A callable that is variadic in keywords still refuses keywords it does not name (C124_any_keyword_refuted). |
| C125 | The arguments of a call have the declared types | partial | 2 | Proved for the positional arguments, the keywords passed by name, and the destination, with the matching of MatchModel and the patterns C60 is about. Refuted for keyword parameters that are given by position: their type is not checked (C125_positional_keyword_refuted). |
| C126 | Byte swapping reverses the bytes of each element | partial | 12 | The values, and single elements of every size in place or apart, are proved exactly, also in strided loops. Refuted: nd::byteswap works with the size of the whole array, so the elements of an array change places (C126_elements_refuted, exact description C126_elements_exact); a destination of a smaller type is written past its end; a source that overlaps the destination; pairwise swapping of elements of odd size. |
| C127 | Objects built in a kernel buffer stay where and what they are | proved | 3 | For allocations that succeed and objects smaller than 2^64 bytes; failing allocations are in C128. |
| C128 | What was built is destroyed exactly once | partial | 7 | Proved when nothing fails, and for kernel builders at every failure that leaves room for one more destructor; exact for all failures (C128_kernels_exact, C128_graph_exact). Refuted: an exception before the child of a kernel that ends at the end of the buffer is made reads past the end; a closure whose constructor throws is destroyed; an allocation that fails in a call graph ends in a null pointer being read. |
| C129 | Short vectors are independent vectors, whatever is done to them | proved | 2 |  |
| C130 | A vector survives an init that fails and an init from itself | partial | 3 | Refuted for every vector of more than staticN elements: after a refused init the destructor deletes the block a second time (C130_refused_refuted), and init from its own elements reads the deleted block (C130_self_refuted). Proved: as long as no vector has used the heap a refused init changes nothing. |
| C131 | multi_shortvector is M independent vectors, through any number of inits | partial | 3 | Proved, and exact, for sequences of sizes that never go back from more than staticN to at most staticN (C131_multi_partial, C131_reinit_exact); going back leaves m_alloc_data pointing to the deleted block, which is deleted again (C131_reinit_refuted). |
| C132 | nd::json::parse reads integers exactly | partial | 6 | Refuted: 300 for uint8 is returned as 44, and 1.0e2 and 100e-2 are refused (C132_integers_refuted). Proved: every integer written with zeros after the point or a small exponent that fits is read; whatever is returned is congruent to what is written, and equal to it when that is below 2^W; signed values that do not fit but are below 2^W, negative unsigned ones and everything else throw. |
| C133 | nd::json::parse reads booleans exactly | proved | 1 |  |
| C134 | nd::json::parse returns the string a literal denotes | partial | 3 | Refuted for every literal with an escape: the text between the quotes is returned as written (C134_escapes_refuted). Proved: exactly the valid literals are accepted, with that value; exact for texts without backslashes. |
| C135 | nd::json::parse of an option: missing, or the value | partial | 4 | Refuted for integers and strings: a value equal to the one that stands for missing (the smallest integer, the empty string) is returned as missing (C135_present_refuted). Proved: exact description of what is returned for every text; present values otherwise, and bool without exception. |
| C136 | nd::json::parse always returns a value or throws | partial | 3 | Refuted for structs, fixed and var dimensions: parse_callable::resolve adds nothing to the call graph, and a null function is called for every text (C136_aggregates_refuted); options of uint8, uint16 and uint64 always throw (C136_no_missing_value_refuted). Proved for scalars, options and types without an entry. |
| C137 | The two JSON parsers agree | partial | 3 | Refuted for strings with escapes (C137_parsers_agree_refuted), and each accepts texts the other refuses (C137_same_texts_refuted). Proved: otherwise, whenever both return a value it is the same one. |
| C138 | Any list of distinct categories makes a categorical type | partial | 4 | Refuted: the order and the assignment are taken from an empty kernel builder, so a null function is called for every list that is not empty (C138_construct_refuted), also by get_categories (C138_get_categories_refuted). Proved for any strict total order and an assignment in their place: distinct lists are accepted and read back, others throw; other arrays throw in any case. |
| C139 | Categories and values correspond one to one | partial | 3 | Refuted for presorted categories that are not sorted or distinct, which are not checked (C139_presorted_refuted), and beyond 2^32 categories (C139_wide_refuted). Proved for every type made from sorted categories, or through the constructor with a working order, of up to 2^32 categories. |
| C140 | The storage of a categorical type holds exactly its values | proved | 1 |  |
| C141 | Categorical types are equal when their categories are | proved | 2 |  |
| C142 | factor_categorical makes the type of the distinct values | partial | 2 | Refuted: a null function is called for every array that is not empty (C142_factor_refuted). Proved for any strict total order and an assignment in place of the null functions. |
| C143 | The text of a categorical type can be read back | partial | 3 | Refuted: a type without categories throws when printed (C143_print_empty_refuted) and parse_type_args throws for every text (C143_read_back_refuted). Proved: all others print their categories in the order of their values. |
| C144 | A categorical value can be missing | partial | 2 | Refuted: with exactly 256 categories every byte is a category (C144_na_refuted). Proved: exists unless the count is 256, 65536 or 2^32. |
| C145 | A text that fits a fixed string is stored and read back | partial | 2 | Refuted: a text with U+0000 fits and is read back only up to it (C145_stored_and_read_refuted). Proved for all texts without U+0000. |
| C146 | Checked assignment to a fixed string accepts exactly the texts that fit | proved | 2 |  |
| C147 | Unchecked assignment cuts the text | partial | 4 | Refuted: a byte that starts no UTF-8 sequence is not consumed, so it fills the rest of the buffer with question marks and the text after it is lost (C147_stray_byte_refuted, C147_stray_byte_fills). Proved: total and within bounds for all bytes; cuts as stated for all valid sources. |
| C148 | Copying between fixed strings | partial | 5 | Refuted: a text that fits exactly is refused when it is followed by padding in the source (C148_exact_fit_refuted, C148_exact_fit_always_thrown). Proved: exactly the texts with a byte to spare, or without padding, are accepted; unchecked copies cut. |
| C149 | Reading a fixed string that holds any bytes | partial | 4 | Refuted: printing and unchecked reading never end at a byte that starts no UTF-8 sequence, read out of bounds at a last lead surrogate, and checked reading returns bytes that are not ASCII (C149_reading_refuted). Proved: checked conversion to a string for all bytes; all readers agree on every buffer that holds a text. |
| C150 | A char gives back the code point it was given | proved | 2 |  |
| C151 | A string converts to a char exactly when it is one code point | partial | 3 | Refuted: the empty string is accepted as U+0000 (C151_empty_refuted). Proved: exactly the strings of one code point and the empty string; a char with U+0000 gives the empty string. |
| C152 | The type inferred for nested lists | partial | 3 | Refuted: an empty list that should have lists in it has its first element read (C152_shape_refuted, C152_empty). Proved: holds for all other lists of every depth, and these are exactly the lists for which it is defined. |
| C153 | Nested lists of even sizes are stored element by element | proved | 1 |  |
| C154 | Nested lists of uneven sizes are stored as well | partial | 4 | Refuted: ragged vectors, and initializer lists ragged above the innermost level, put a kernel for a fixed dimension on a var dimension, which takes a pointer for a size (C154_vector_refuted, C154_list_refuted). Proved: initializer lists ragged at the innermost level are stored and read back at any depth; every other ragged list is undefined (C154_exact). |
| C155 | Iterating over nested C arrays | proved | 1 |  |
| C156 | Iterating over nested vectors | partial | 4 | Refuted: with two levels or more such a loop never ends with a defined result, for any vectors (C156_never): ++ on the last element dereferences the end of the outer vector; an empty row or a third level makes it undefined earlier. Proved: with one level; with two levels and no empty vector every element is reached in order up to that last ++. |
| C157 | linspace of float32 goes from start to stop | proved | 3 |  |
| C158 | linspace of float64 goes from start to stop | partial | 3 | Refuted: for large numbers the first element is infinite (C158_overflow_refuted), and rounding can make it differ from start (C158_first_refuted). Proved: holds when the multiples of start and stop up to count - 1 are float64 numbers below 2^1023, for example for integers of moderate size. |
| C159 | concatenate joins two arrays | partial | 4 | Refuted: when the second array is empty it always throws irange_out_of_bounds, because the range from the end of the result is refused (C159_empty_refuted, C159_empty_throws). Proved: holds for every non-empty second array; other dimensions or types are refused. |
| C160 | A complex number divided by itself is 1 | partial | 3 | Refuted: 2^600 divided by itself is not a finite number (C160_self_refuted). Proved: it is 1 exactly when the computed square of the absolute value is finite and not 0, in particular when the larger component is between 2^-500 and 2^500 in absolute value. |
| C161 | *= and /= of a complex number by a number | partial | 3 | Refuted: z *= z.m_real scales the imaginary part by the new real part (C161_own_real_refuted, C161_own_real for all z). Proved: holds for any other number, including z.m_imag. Results that are not finite are not covered. |
| C162 | != is the negation of == | partial | 3 | Refuted for a complex and a real number: != gives the same answer as ==, always (C162_number_refuted, C162_number_always). Proved between complex numbers. |
| C163 | Operations of a complex and a real number | proved | 1 | Over finite operands; a result that is not finite on one side is not finite on the other. |
| C164 | Laws of complex numbers that rounding leaves intact | proved | 1 | A result that is not finite is one outcome; the sign of zero is not modelled. |
| C165 | Complex numbers with integer components are exact | proved | 1 |  |

### 4.2 Findings (behaviour of the code that contradicts a property)

Each finding is a theorem (named) about the model, traced to the cited lines.

* `irange` comparison operators: two bounds select the whole dimension (C04).
* `shape_tools.cpp:122-123` `axis_perm_to_strides`-style loop overwrites strides with extents (C07).
* UTF decoders: `noerror_next_utf8` makes no progress on a byte that cannot start a sequence, `noerror_next_utf16` reads past the end on a dangling lead surrogate, 16/32-bit decoders read past the end of a buffer that ends inside a unit (C11). UTF-16/32 encoders accept surrogates and out-of-range values (C46).
* Integer parsing: the overflow test `result < prev_result` misses wraps; `.` and `e5` are accepted as 0 (C14, C15); `string_to_number` of INT64_MIN is undefined behaviour (C16); nocheck `parse<bool>` returns true for every 4-byte text (C48); `parse_int_no_ws` skips whitespace before `-` (C47).
* Quoted literals: the printer writes `\U........` for astral characters, the datashape parser rejects it (C49); JSON surrogate-pair escapes are scanned but refused by `unescape_string` (C19).
* Substring search: fall-through after a match skips adjacent occurrences (C23, C24); `memchr` called with the full length reads past the end (C23-C25); one-byte `rfind` never searches (C22).
* int128: `+=`, subtraction borrow, unary minus, `!`, conversion to double, multiplication of the minimum (C32, C44).
* float16: values in [65520, 65536) throw while values from 65536 give infinity, subnormals are exact-only (C35, C36 theorems give the exact domain).
* `sso_bytestring`: inline `resize` ORs the new size into the old one (C27, C28); assigning an inline value longer than 8 bytes to itself zeroes its tail; appending a value to itself reads freed memory or its own pointer bytes (C27); string `<` compares signed chars, so non-ASCII text sorts before ASCII (C52).
* Arenas: after `bad_alloc`, `reset` makes `alloc` return address 0 (C29); a POD `resize` that moves copies `m_memory_current - begin` bytes after `m_memory_current` already points into the new chunk (C30); a zero-initialising `resize` in place compares `end` with the value it has just stored and clears nothing (C31); `finalize` does not stop later allocations.
* Dispatcher: `topological_sort` of nothing moves the output iterator before its range (C37); `assign` resizes `m_children` before it can throw, so a rejected overload leaves null entries behind which the next unmatched call dereferences (C55); two overloads with one signature swap places on each unrelated insert, and the ambiguity test accepts sets in which a call has two incomparable best matches (C54).
* Promotion: float16 with an integer gives float16 or float32 depending on the order (C40); `var` with a fixed dimension throws although the code means to promote it, because the base id of a fixed dimension is not the one tested. `is_lossless_assignment` ignores the missing value of option types, and the compile-time trait calls int64 to float32 lossless (C56).
* Registry: `register_known_type_id_constructor` stores the singleton before it throws for a parser without constructor, so the id is lost for good; `lookup_id_by_name` hands out a pointer into a vector that `new_id` reallocates; the empty name is found at id 0 (C41). The enum has no fixed underlying type, so formally only ids up to 63 exist.
* Smart pointers: both assignment operators of `intrusive_ptr` release the old target before they retain the new one, so `p = p` and `p = p->member` use freed memory when `p` is the only reference; `operator!=` returns what `operator==` returns (C42).
* Layout: `fixed_dim_type` multiplies sizes without an overflow check, so a huge dimension gives a too small allocation (C43); `pointer_type` inherits the destructor flag but has no `data_destruct`, so destroying an array of pointers to strings throws from a destructor (C57); when a tuple or struct field cannot be constructed, the fields before it are destroyed at the failing field's arrmeta (`tuple_type.cpp:278`, `struct_type.cpp:339`), releasing blocks twice (C58). Noted while reading: the `struct_type` constructor writes `m_field_types[i]` beyond its size before it checks that the numbers of names and types match; `get_shape` of a tuple without fields leaves the inner shape unset.
* Indexing: a slice of a tuple or struct goes on with the type of the result's field instead of the source's, so later indices are lost or the arrmeta is left unwritten (`tuple_type.cpp:170-180`); a plain index on a ragged dimension after a slice is neither bounds-checked nor counted from the end, and drops `md->offset` (`var_dim_type.cpp`); the type of an indexed pointer is computed with `leading_dimension` passed on, the arrmeta without it, so that words are written past the end of the result's arrmeta (C59).
* Matching and substitution: `Dim` matches its element with a fresh variable map, so `(Dim * T, T)` accepts `(3 * int32, float64)`; the loop for a power of `var` skips dimensions that are not `var`, so `var ** N * Any` accepts `3 * int32`; `dim_fragment_type::broadcast_with_type` copies shape entries nobody wrote when an ellipsis name occurs twice with different numbers of dimensions; an option of an array counts as a dimension, so `D * T` accepts `?3 * int32` and a named ellipsis throws on it; `Bytes` does not accept `fixed_bytes`, `String` not `char`; two ellipses in a row miss instances (C60). Substituting a variadic tuple drops the `...`, a callable inside a tuple without other variables is not substituted, one with keyword parameters dereferences a null buffer (`callable_type.cpp:224-272`, a shadowed variable), an unnamed ellipsis throws (C61). `substitute(..., true)` returns a symbolic type when an exponent is unbound or a fragment holds `Fixed`; kinds such as `Int` cannot be substituted at all (C62). Noted while reading: `ellipsis_dim_type` is accessed through `extended<typevar_dim_type>()`.
* Numeric assignment: the range test for real to integer converts the integer limits to the source's floating point type, which rounds INT64_MAX, UINT64_MAX (to float and double) and INT32_MAX, UINT32_MAX (to float) up, so that 2^63, 2^64, 2^31, 2^32 pass the test and the cast is undefined; NaN to an integer passes overflow mode (C64). The inexact cast of INT64_MAX to double converts 2^63 back to int64, undefined again (C68). Infinities from a complex source are reported as overflow, while real ones pass; inexact mode rejects NaN (`NaN != NaN`), even from double to complex<double> (C66). Noted: the range error of the inexact real to real cast is a `runtime_error`, all others are `overflow_error`; -128.5 to int8 and -0.5 to an unsigned type are rejected in overflow mode although truncation would fit.
* Strided kernels: `convert_kernel::strided` advances neither `dst` nor the buffered `src`, so a call with converted arguments over more than 128 elements leaves element 128 onward unwritten and overwrites the first ones (C70). The option to option assignment advances the pointer array `src` instead of the pointer and starts each chunk from `src[0]` again: more than 128 elements are undefined behaviour or assign the first chunk repeatedly (C71).
* Element-wise calls: an argument dimension of extent 1 that is not innermost is skipped without skipping its arrmeta, so every dimension below it uses the stride of the one above: `[1,3] + [2,3]` reads only element [0][0] of the first argument (C73). `var + scalar` returns a var array but runs the kernel of a fixed destination, taking the memory block's address for the extent; a var argument of fewer dimensions than the others is treated as var at the outer dimension too; a fixed argument beside a var one has its arrmeta advanced by 24 instead of 16 bytes (C74). A given var destination with a var and a longer fixed operand gets the fixed-destination kernel, and a fixed argument with inner dimensions and a var destination uses an arrmeta pointer that was never set (C75).
* Missing values: `assign_na` for an option of string or bytes calls `clear()`, after which `begin()` still points into the object, so `is_na` is never true for them (C76). `assign_na_builtin` has no case for uint32 although `is_avail_builtin` has one: a JSON null or the text NA leaves the previous contents of a `?uint32` (C76, C79). `is_avail_builtin` is false for uint8, uint16, uint64, uint128 and float16, so every value of such an option prints as NA (C77). Assigning the string NA to a `?bool` throws, while parsing it stores a missing value (C79). `-2147483647 + -1` on `?int32` reads as missing (C78).
* Searching: strings compare by signed char, so non-ASCII text sorts before ASCII (C81). `binary_search` reads a value of another type as if it were an element: searching an int32 array for the int64 2^32+5 finds 5 (C82). `nd::take` with indices builds its call graph in the wrong order and copies only element 0 (C84). `where` appends to a non-empty destination without room for it (C85). `strided_iterator`: `<` is reversed for negative strides, the difference divides by zero for stride 0, and `operator=` leaves the stride (C86).
* Reductions: without keepdims a child is given the first stride of the destination again, so with two kept dimensions the inner one is written with the stride of the outer one; a kept dimension of one element right before a kept innermost one loses the first row; an empty outer dimension reads a missing element or runs the loop `i = 1; i != 0` away (C87). The sum of int32 [2^31-1, 1, -1] overflows on the way (C88). Axes out of range, also -1, are silently ignored (C89). Not modelled: with two sources the array of child pointers is initialised with `{src[0]}` only, so the second is null.
* Types as text (C90): the empty variadic tuple and struct print as `(, ...)` and `{, ...}`, which cannot be read; a power with base `Fixed` prints as `**N`; `fixed_string['utf16']` makes a string of size 0 whose text is refused; a type variable named like a kind (`Int`, `Fixed`) is read back as something else; `complex64` means complex[float32], like `complex32`; `Dim**2` makes a type variable named Dim; `3**N {x: int32}` is read as the struct, `int32 int64` as int64, `3**2 *` with no element type, `(x: int32)` without arrow as an empty tuple. Sizes from 2^31 on are given to atoi (C91). An error at the end of an empty or newline-terminated text raises runtime_error instead of type_error (C92). Aliases can be defined but never used (C93).
- JSON (C94-C97): the validator also takes VT/FF as whitespace and raw control characters or invalid UTF-8 in strings; `format_json` loops forever on a string with a stray continuation byte (the no-error decoder makes no progress); `parse_number_json` unescapes a quoted number but converts the original range, so `"\u0031"` is refused; `"NA"` in quotes is stored as INT_MIN in a plain integer; integer overflow and invalid bool words escape as exceptions without a position; an error at the end of a text that ends in a newline (`[` newline) is reported as "Cannot get line number of error".
- Lossless assignment (C98-C100): `is_lossless_assignment(int32, ?int32)` is true although the missing value has no int32; `?(3 * int32)` or `pointer[bytes]` is not lossless to itself, because the destination's option is stripped before the source is compared.
- **Array iterators (C101-C103).** `array_iter` never zeroes the stride of a stretched dimension, while `fixed_dim_type::arrmeta_default_construct` gives a dimension of extent 1 the element size as stride: iterating `3 * int32` with a fresh `1 * int32` reads the second operand at +0, +4, +8 (`C101_broadcast_refuted`). `equals_exact` on two var arrays of different lengths throws type_error instead of returning false, and on `n * var * T` it throws for equal arrays (`C102_var_sizes_refuted`, `C102_nested_var_refuted`). `broadcast_input_shapes` forgets a known extent after two var operands, so 5, var, var, 7 broadcast to -7 (`C103_var_order_refuted`).
- **Views and ranges (C104-C109).** `permute` advances its axis counter only on var dimensions (a fixed_dim's base id is `fixed_dim_kind_id`, not `dim_kind_id`), so any permutation that fixes axis 0 - even the identity on two axes - ends in a virtual call on a builtin type, does nothing for a string dtype, or permutes the wrong axes (`C104_permute_refuted`, `C104_wrong_axes_refuted`); and it recurses into `tp` instead of `subtp` when axes are left after a block, so `[1, 0, 2]` reads past the arrmeta. `rotate` inherits this unless a position is 0; `transpose` of a scalar reads `axes[0]` of nothing. `reshape` ignores the strides of its argument (`C106_reshape_refuted`: a reversed array reads outside its memory), writes `strides[-1]` for an empty shape and accepts an even number of negative extents. `new_axis` with a negative count recurses 2^64 times. A view of raw bytes is the null array. `old_range` with the most negative step returns too few values (int8_t) or overflows; uint64_t ranges across 2^63 are empty var arrays (`C109_range_refuted`).
- Arithmetic kernels: `needs_zero_check` (kernels/arithmetic.hpp:166) tests `is_unsigned_integral<Arg0Type>` where Arg1Type is meant, so a signed or bool dividend divided by an unsigned zero is not checked and is undefined behaviour (SIGFPE on x86), proved exact by `C112_zero_divisor_exact`; `compound_div` (and `operator/=`) has no check at all. Comparisons of mixed signs are done in the unsigned common type: int32 -1 is not less than uint32 1 and equality is not transitive (`C110_equality_not_transitive`). uint16 multiplication overflows int (65535 * 65535), and `minus` is the identity on bool.
- Combining kernels: `outer_entry_callable` calls `m_children[nsrc]` on an array of four entries, so `outer` of four or more arguments, not all scalars, reads out of bounds (`C116_outer_refuted`); `convert_kernel::strided` (kernels/convert_kernel.hpp:187-208) never advances `dst` nor the sources of its converting children between chunks of 128, so a call with more elements overwrites the first 128 and leaves the rest untouched (`C120_convert_refuted`, latent: its instantiation is commented out).
- Layout of new arrays: `reorder_default_constructed_strides` (types/fixed_dim_type.cpp) compares signed strides, so empty_like of strides 8, -16 is laid out in C order (`C121_keeps_order_refuted`); its search for a stride that is not zero never moves, so empty_like of a Fortran-order array with a zero-size element type does not return (`C121_terminates_refuted`); with a pointer or var dimension below dimensions out of C order it sorts a stride that was never written (`C121_initialised_refuted`). `classify_strided_axis_order` compares every stride with the outermost only (`C122_classify_refuted`). `asarray(scalar, Fixed * T)` reads the first size of an empty shape (`C123_scalar_refuted`).
- `callable::call` (callable.cpp:76-193): `dst` and `dst_tp` count as keyword parameters, so a call that passes one of them may leave out a required keyword and the implementation receives a null array (`C124_required_refuted`). Keyword parameters given by position are not type checked (`C125_positional_keyword_refuted`). A callable declared with any keywords (`...`) refuses every keyword it does not name (`C124_any_keyword_refuted`).
- Byte swapping: `nd::byteswap` and `nd::pairwise_byteswap` take the data size of the whole argument (byteswap_callable.hpp:23), so on an array they reverse the array, not its elements (`C126_elements_refuted`), and they write that many bytes into any dst (`C126_dst_size_refuted`); `pairwise_byteswap_ck` leaves the last byte of elements of odd size unwritten when it copies.
- Kernel buffers: a kernel with a child that ends exactly at the end of the buffer (two kernels of 64 bytes in the initial 128) and an exception before its child is made: its destructor reads the child's past the end (`C128_kernels_refuted`). `call_graph`: `m_size` is increased and the node header is written before the closure is constructed, so a throwing copy constructor is followed by the destruction of a closure that does not exist; after a failed allocation `m_data` is NULL and `m_size` is not zero, and `~call_graph` reads through it (`C128_graph_refuted`). The old block of a failed realloc is never freed (storagebuf.hpp:63-66).
- `shortvector::init` deletes m_data before the new[] that may throw and leaves it dangling: the destructor deletes it again (`C130_refused_refuted`); `init(n, v.get())` on a heap vector copies from the block just deleted (`C130_self_refuted`). `multi_shortvector::init` does not reset m_alloc_data when the new size fits in the object: init(10), init(2) and the destructor delete the same block twice (`C131_reinit_refuted`).
- `nd::json::parse` cannot read any struct or dimension: `parse_callable<struct/fixed_dim/var_dim>::resolve` puts no node in the call graph and base_callable::call calls a null function (`C136_aggregates_refuted`). It returns string literals with their escapes unresolved (the unescaped text is computed and dropped, `C134_escapes_refuted`), wraps integers (300 is 44 as uint8), and reads the smallest integer and the empty string of an option as missing (`C135_present_refuted`).
- Making a categorical type crashes: the comparison and the assignment come from an empty `kernel_builder`, so the constructor, `factor_categorical` and `get_categories` call a null function for any category at all; only `presorted` works (`C138_construct_refuted`, `C138_get_categories_refuted`, `C142_factor_refuted`). A type without categories cannot be printed (`C143_print_empty_refuted`), and with exactly 256 or 65536 categories no stored value is left for NA (`C144_na_refuted`).
- A fixed string of UTF-8 with a byte such as 0x80 where a code point should start hangs the process when it is printed, and when it is converted without checks (`C149_reading_refuted`); assigned without checks such a byte fills the destination with question marks (`C147_stray_byte_fills`). Copying between fixed strings refuses a text that fits exactly if the source is longer than the text (`C148_exact_fit_always_thrown`).
- An array made from a ragged `std::vector<std::vector<T>>` is undefined behaviour always: its type has a var dimension, but the kernel that stores it is the one for fixed dimensions and takes the pointer to the memory block for a size (`C154_exact`, `C154_vector_refuted`). Initializer lists are handled only when they are ragged at the innermost level (`C154_ragged_partial`). An empty outer list has its first element read (`C152_empty`).
- `dynd::iterator<N>` works for C arrays of any dimensions only because their memory is in one piece (`C155_array`). Over nested vectors the last `++` dereferences the end of the outer vector and the loop can never end (`C156_never`).
- `nd::old_linspace` of doubles does not always begin at start: from 8444249301319681 * 2^-53 with six elements the first is the next larger number (`C158_first_refuted`), and from the largest double the first element is infinite (`C158_overflow_refuted`). For float32 this cannot happen, because it computes in double (`C157_float32`).
- `nd::concatenate(x, y)` throws irange_out_of_bounds whenever y is empty (`C159_empty_throws`); an empty x is fine.
- A `complex<double>` of large or small absolute value divided by itself is not 1: the denominator overflows or becomes 0 (`C160_self_refuted`, and exactly when: `C160_exact`).
- `z *= z.m_real` and `z /= z.m_real` take the number by reference and use the real part that they have just changed for the imaginary part (`C161_own_real_refuted`).
- `complex != number` has no negation: it is true exactly when the two are equal (`C162_number_refuted`, `C162_number_always`).

## 5. Assumptions

`Print Assumptions` is run under the property theorems in every `*Props.v`; each prints
"Closed under the global context" (no axiom, neither of the standard library nor ours), except
for the theorems about floating-point numbers as reals (C157, C158: `LinspaceProps.v`; C160-C165: `ComplexProps.v`, `ComplexLawsProps.v`; over Flocq and
the real numbers of the standard library). These list exactly four axioms, all of the standard library:
`ClassicalDedekindReals.sig_not_dec`, `ClassicalDedekindReals.sig_forall_dec`,
`FunctionalExtensionality.functional_extensionality_dep` and `Classical_Prop.classic`.
(which of the four, each theorem prints). The sealed constants of the modules `RbaseSymbolsImpl` and `RinvImpl` of
`Coq.Reals.Rdefinitions` are in the loaded context too: the standard library defines the real numbers behind an opaque
signature. The only other axioms in the loaded context are the seven sealed constants of `Coq.ssr.ssrunder`
(`Under_rel*`), which come with the standard library's `Zify`/`ssreflect` files and are not used by any theorem.

## 6. Scope

Modelled (file: what): `include/dynd/irange.hpp`, `src/dynd/irange.cpp` and the single-index application; `src/dynd/shape_tools.cpp`
(broadcast, axis permutations); `include/dynd/int128.hpp`/`uint128.hpp` and sources; `float16`; `include/dynd/parse.hpp`, `parse_util` scanners;
`string_encodings`; quoted-literal printing/unescaping; `string_search.hpp`, `string.hpp`; `sso_bytestring.hpp` and the operators of `bytes`/`string` over it;
`pod_memory_block.hpp`, `zeroinit_memory_block.hpp`, the clipping and mapping arithmetic of `memmap_memory_block.hpp`;
`dispatcher.hpp` (for an arbitrary `type::match`);
`type_promotion.cpp`, `is_lossless_assignment` in `type.cpp`, the `is_lossless_assignable` trait;
`type_registry.cpp` (the table and its three functions);
the default layout, construction, copying and destruction of arrmeta and the destruction of data for builtin, string-like, `fixed_dim`, `var_dim`, `pointer`, `option`, `tuple`/`struct` types, and `make_buffer`; `nd::array::at_array` and both `apply_linear_index` functions of these types;
`type::match` and `ndt::substitute` over builtin, string-like, dimension, option, pointer, tuple, struct, callable and all symbolic types except memory types and constructed type variables;
the numeric casts of `assignment.hpp` and the kernel table of `assignment_kernels.hpp` over bool, 8..64-bit integers, float, double and both complex types (without int128/uint128, NaN payloads, and taking IEEE conversion to infinity where C++ leaves double to float undefined);
the strided loops of `base_strided_kernel.hpp`, `compose_kernel.hpp`, `convert_kernel.hpp` and the option kernels of `assignment_kernels.hpp` over an element-granular memory (buffer reset of element types that own memory left out);
element-wise lifting (`elwise_entry_callable.hpp`, `elwise_dispatch_callable.hpp`, `base_elwise_callable.hpp`, `elwise_callable.hpp`, `elwise_kernel.hpp`) of scalar functions over fixed and var dimensions, without state arguments;
`intrusive_ptr` of `config.hpp` with its atomic counts, as an interleaving semantics.
Missing values (OptionModel): the kernels `is_na_kernel` and `assign_na_kernel` (single functions), `assign_na_builtin`, `is_avail_builtin`, `old_assign_na`, `old_is_avail`, `array::is_na`, `set_option_from_utf8_string`, the string to option kernels, `forward_na`. `std::isnan` is taken as IEEE 754 on the bit pattern; the float, complex, int128, bytes and string parsers are a parameter; options of arrays are left out.
Searching (SearchModel): string comparison, the binary search kernel, masked and indexed take, the order of the call graph of indexed take, the where kernel over one dimension, `strided_iterator`. `std::sort` itself is not modelled; one memory cell holds one element.
Reductions (ReduceModel): the four kernels (outer/inner, reduced/kept) with their first and followup calls, the instantiation that passes strides to the children, the selection of axes and the result's shape, for one source with fixed dimensions; sum, min, max and all of integers. Not modelled: var dimensions, two sources, mean.
Types as text (DatashapeModel): the parser of datashapes with all of its productions (words, bracketed arguments, dimensions, powers, ellipses, type variables, options, pointers, tuples, structs, callables with keywords, alias statements), the printer of every class of types, the computation of the line and column of an error. Not modelled: error messages, types registered by users, categorical, adapt and expr types, the arguments of `callable[...]`, CUDA memory types.
JSON (`JsonModel.v`): `skip_json_value`/`validate_json`, the typed `parse_json` recursion (bool, 8-64 bit integers, string, options of these, fixed and var dimensions, tuples, structs from objects or lists), `set_from_utf8_string` with its buffer, the output buffer and recursion of `format_json`, and the error position and marker functions. Texts are byte lists, values are trees. Not modelled: floats, complex, 128 bit integers, fixed_string, type values, nocheck modes, options of non-scalars (they throw), the newer parse kernels (parse_kernel.hpp), the conversion of the argument array to UTF-8.
Lossless assignment (`LosslessModel.v`): `is_lossless_assignment` with the functions of all the types of `MatchModel.v`. Not modelled: categorical, memory and constructed type-variable types, the compile-time trait `is_lossless_assignable`.
**Iteration (`Iter*.v`).** Modelled: all four `array_iter` forms, the iterdata of fixed dimensions and the broadcasting terminator, `equals_exact` with its view of a leading var dimension, `broadcast_input_shapes`, `broadcast_to_shape`, `incremental_broadcast`. Addresses are unbounded integers; the element comparison is a parameter; the sizes of inner var dimensions are what `get_shape` reports. Not modelled: allocation failure, the memory of the iterdata, element types with arrmeta.
**Views and ranges (`Views*.v`, `Range*.v`).** Modelled: `is_valid_perm`, `permute_type_dims`, `permute`, `rotate`, `transpose`, `new_axis` with `with_new_axis` and `pow`, `reshape` and `make_strided_array_from_data`, `try_view`, `view_concrete`, `old_view` on concrete types, and `old_range` for integer types of up to 64 bits. Not modelled: dtypes with child types, memory types, ownership, symbolic view types, int128 and floating-point ranges, linspace.
`ArithModel.v`: the element kernels of add, subtract, multiply, divide, mod, the bitwise, shift, unary, logical and comparison callables, of compound_add and compound_div, and the tuple equality kernels, on bool and the integers of up to 64 bits. Not modelled: int128/uint128, floating-point, complex and string elements; right shift of a negative value is taken as arithmetic, and narrowing conversions as modular, as on all supported compilers.
`FlowModel.v`: compose_kernel, constant_kernel, left_compound_kernel, right_compound_kernel, the resolution and kernels of outer, the neighborhood kernel for any number of dimensions, and convert_kernel, over a memory of elements at addresses. Not modelled: resetting buffers of types with blocks of memory, the start_stop vectors handed to a neighborhood child, state.
`KeepModel.v`: default strides, reorder_default_constructed_strides with its use in empty_like, eval and eval_copy, classify_axis_order of all dimension types, and substitute_shape over patterns of dimensions on a scalar. Not modelled: overflow of strides modulo 2^64, patterns below a pointer or option.
`CallModel.v`: callable::call up to the call of the implementation: positional arguments, keywords by position and by name, dst and dst_tp, optional keywords, the count of keywords, type matching through the type variables. Arrays are opaque with a type; matching is a parameter, instantiated with `match_` of MatchModel in C125 (a match that throws is a call that throws). Not modelled: null arrays as arguments, the type given to a keyword that is filled with NA.
`SwapModel.v`: byteswap_value, the two byte swapping kernels over a memory of bytes, their strided loop, and the size nd::byteswap uses. `BufModel.v`: storagebuf (reserve, realloc with copying and zeroing, emplace_back), the destruction of chains of kernels, the construction and destruction of call graphs. Not modelled: kernels with several children (the offsets they keep), the release of the buffer itself, relocation of objects that are not trivially copyable (the code copies them byte by byte).
`ShortVecModel.v`: all of shortvector.hpp over a pool of objects and a heap of blocks, with refusable allocations; elements are integers. Not modelled: element types with constructors (the code copies them with memcpy), negative sizes of multi_shortvector in the theorems (the model has them).
`TextParseModel.v`: parse.hpp, parse_kernel.hpp, parse_callable.hpp and parse.cpp for scalars and options of scalars, with the call graph and its instantiation; the struct and dimension kernels cannot be reached (C136) and are not modelled, nor are options of other types.
`CatModel.v`: categorical_type.hpp and categorical_type.cpp, with the two kernels that the code leaves null as parameters (None is what the code has); std::set as an ordered list, std::sort as an insertion sort, m_categories read through the binary search of SearchModel. Not modelled: get_shape, is_lossless_assignment, the arrmeta of the categories, the conversion of an argument of another type in get_value_from_category.
`FixedStrModel.v`: fixed_string_type.cpp:18-99, char_type.{hpp,cpp}, the assignment kernels between strings, fixed strings and chars (assignment_kernels.hpp:1005-1057, 1295-1396; assign_callable.hpp:242-485). A destination is the list of bytes written; what a call that throws leaves in it is not modelled, nor are fixed_string's constructor, printing of the type and make_comparison.
`NestModel.v`: container_traits and equivalent for vectors and initializer lists (type.hpp:991-1048), init_kernel.hpp for elements, fixed dimensions that are not of the same layout, and var dimensions, the buffer constructors. Elements are numbers; std::array and C arrays, strings, bool, types and tuples in lists, and reference counts of the memory blocks are not modelled here.
`WalkModel.v`: iterator.hpp, for C arrays (addresses in one piece of memory) and for vectors (vector and index). const_iterator has the same code. Comparison of iterators of different containers, default-constructed iterators and other containers (std::array, std::list) are not modelled.
`LinspaceModel.v`: old_linspace (array_range.cpp:150-249), with numbers as reals rounded by Flocq. Infinite and NaN arguments, the sign of zero, the conversion of the arguments to the type (192-210) and contraction of the products by the compiler are not modelled.
`ConcatModel.v`: nd::concatenate over arrays of one dimension of numbers, with the model of single linear indices of C01-C04.
`ComplexModel.v`: operator/=, operator*= and /= by a number, == and != (complex.hpp:74-94, 221-258), over finite doubles as reals rounded by Flocq. Infinities, NaN, the sign of zero, contraction by the compiler, complex<float>, and the operators between different component types are not modelled.
Also in `ComplexModel.v`: +, -, *, / of complex numbers and of a complex and a real number of the same component type, and conj (complex.hpp:42-72, 265-429).

Not modelled: everything not cited in a `*Model.v` comment, in particular the CUDA code paths, the LLVM/jit experiments, the
Python-facing glue, date/time parsing, FFT/BLAS bindings, random number kernels, iostream formatting of floating point numbers
(delegated to libc), and the C++ template metaprogramming itself (only its instances are modelled).
