# Formal model of beached/header_libraries: design

## 1. Trusted base

* Coq 8.16.1 kernel (and `vm_compute`, which is part of the kernel).
* `Print Assumptions` is run under every property theorem. The expected answer
  is "Closed under the global context"; any exception is listed in section 5.
* The hand translation C++ -> Gallina. Nothing is extracted or executed against
  the C++ code; every definition cites the file and lines it models, and states
  what it simplifies.

## 2. Modelling conventions

* **Ranges.** A C++ range `[first,last)` is a `list`. Algorithms that move
  forward only are structural recursions on the list; algorithms that use
  random access, unguarded scans or in-place writes work on a list together
  with `nat` positions, and every dereference goes through `nth_error`
  (or an explicit bound test). An out-of-range access is a distinct result
  (`None` / `UB`), so "never reads outside the range" is part of the theorem.
* **Partial outcomes.** `option` or a small `result` type. Undefined behaviour,
  thrown exceptions and fuel exhaustion are separate values; theorems say which
  one cannot occur.
* **Comparators.** A comparator is a `A -> A -> bool`. Where the C++ contract
  asks for a strict weak ordering, the theorem has exactly that hypothesis.
* **Integers.** `nat` for lengths and positions, `Z`/`N` with explicit
  `mod 2^w` wherever the width matters (bit operations, hashes, string view
  positions, parsing, abs, pow).
* **Iterator categories, `constexpr`, `noexcept`, templates** are not modelled:
  a template is modelled as one polymorphic definition.
* **Hash sets / maps** (graph): the set contents are modelled; the iteration
  order is left arbitrary (a parameter of the walk), so the theorems hold for
  every order.
* **Moves** are modelled as copies (moved-from values are not observed), except
  where the model of an area has moved-from objects of its own and says so.

## 3. File layout (`rocq/theories`)

For every area `X`: `X.v` holds the executable model only (with citations),
`XProofs.v` the lemmas, `XProps.v` only the property theorems
(`exact lemma. Qed.`), their `Print Assumptions` and the non-vacuity examples.
Specifications shared by several areas are in `Spec*.v`.

A property that the code violates gets `…_refuted` (a concrete witness, checked
by `vm_compute`) and, where something useful remains, `…_partial` on the exact
domain on which it holds. It has status `partial` in MANIFEST.json and the note
says what fails.

## 4. Plan per property

| id | model | proof |
|----|-------|-------|
| C01 | networks as lists of compare-exchange index pairs run on a list; `swap_if` swaps when `not comp` | 0-1 principle for strict weak orders, then a finite check over boolean vectors (2^n; for 32: two 16-blocks then the merge on 17x17 sorted pairs) |
| C02 | the whole introsort on an array with positions, every read checked | loop invariants for partition/insertion; induction on length; fuel bound |
| C03 | counting pass + sort | refuted for negatives / descending; partial on the good domain |
| C04, C05 | halving loops on positions | invariant + strong induction on the distance |
| C06 | stepping and arithmetic versions on positions | induction / lia, both equal the clamp |
| C07, C08 | list recursions | induction against index-based specifications |
| C09 | nested scan | induction; "smallest position" specification |
| C10-C12 | lockstep recursion | induction; not_equal refuted |
| C13 | running best positions, pairwise scan | invariant on processed prefix |
| C14 | in-place two-pointer compaction | invariant; equals `filter` |
| C15 | merge-style scan | induction; count specification |
| C16 | swap ends inward on an array | invariant; equals `rev` |
| C17, C18, C22 | direct | refuted + partial |
| C19 | adjacent scan | induction |
| C20 | view/pop_front loop | induction on number of parts |
| C21 | source list, destination array | induction; frame part of the statement |
| C23-C35 | string view as (characters, zero-terminated flag, following byte) with explicit 64-bit positions and npos = 2^64-1 | induction over strings; refuted parts with witnesses |
| C36 | Z with explicit conversions mod 2^w | case analysis |
| C37, C38 | N bit operations exactly as coded | bit-level extensionality (`N.bits_inj`) |
| C39, C40 | N bit operations | `testbit` lemmas |
| C41 | element list + bit position | refinement to the bit string |
| C42 | queue word + size | refinement to the bit list; refuted for widened queue types |
| C43-C45 | limb lists | `testbit` lemmas; refuted parts |
| C46 | head/tail/size over an array | refinement to a bounded list, histories |
| C47, C48 | array + index | refinement; refuted parts |
| C49-C53 | finite maps id -> node; walks with arbitrary child order | invariants; reachability |
| C54, C55 | Z with wrap | refuted + partial |
| C56-C58 | character lists | induction |
| C59, C60 | N mod 2^64 | induction against reference definition; signed-char refutations |
| C61-C63 | list recursions / nested loops | induction against folds and products |
| C64 | bit stream position | refinement to the bit string |
| C65-C68 | limb lists | `testbit` lemmas; value of a limb list |
| C69-C76 | string view as for C23-C35 | induction; refuted parts |
| C77-C79 | graph as for C49-C53 | invariants; spanning tree, distance |
| C80-C92 | Z with explicit conversions, float bit patterns as integers | case analysis on widths, induction on exponents |
| C93-C95 | byte lists, words mod 2^64 | reference definitions; bijectivity of a round |
| C96-C98 | the random source is an arbitrary stream of in-range draws | counting of draw sequences per permutation; full period by the Hull-Dobell argument |
| C99-C111 | positions in an array, string views, integer types as (signed, width) | induction over the text; non-termination as "every fuel runs out" |
| C112, C113 | the waiting thread's loads and clock readings as arbitrary functions of its step | induction over the loops; deadlines by monotonicity of the clock |
| C114-C116 | one sequence of atomic steps for all threads | induction over the sequence, permutations |
| C117 | objects, counts and variables as lists; UB on double deletion | invariant: count = number of variables pointing there |
| C118 | ranges as states with end, get, inc, distance; filter with a stateful predicate | loop invariant over any underlying range; TakeWhile refuted |
| C119 | as C118 | induction on the elements; projection refuted |
| C120 | as C118, counts converted to ptrdiff_t | suffix/prefix induction; counts >= 2^63 refuted |
| C121 | chunk iterator with unclamped dereference | induction on the number of chunks; partial last chunk and size 0 refuted |
| C122 | slide iterator | induction on the elements; short ranges refuted |
| C123 | zip of two ranges, iota | simultaneous induction; distances refuted |
| C124 | outer and inner position; list of remaining ranges | nested induction; empty ranges refuted |
| C125 | skip loop of unique | equivalence relation argument |
| C126 | first/next pair with the lazy search | induction on the position; long delimiters and counting refuted |
| C127 | loops of Find, FindIf, Contains, CountIf, Sum, To | induction on the elements |
| C128 | iota iterator with integer types | induction on the interval |
| C129 | reversed array positions | induction on the prefix |
| C130 | list of stages over any range | induction on the stages with the per-stage theorems |
| C131 | Vector.v: slots (raw, object, moved-from), every mutating member on them | refinement: each member against a list operation, then induction on the history |
| C132 | recommend, vallocate | case split on max_size in the refinement |
| C133 | the same with a count that wraps | refuted: writes past the new buffer |
| C134 | capacity as the number of slots | invariant capacity = 2^(reallocations - 1) |
| C135 | positions as indices | the refinement lemmas of insert and erase |
| C136 | constructors, assignments, destructor | direct, with the slot lemmas |
| C137 | access | direct |
| C138 | equal, lexicographical_compare | induction on the lists |
| C139 | erase_if | filter lemmas |
| C140 | operation as any function on the storage | case analysis; three refutations |
| C141 | block_append_from with fuel | refuted for every fuel |
| C142 | assign(n, Elem i) | proved inside the capacity, refuted otherwise |
| C143 | split_buffer | history theorem for trivial types, one step for others, refutations |
| C144 | iota_op | induction on the number of elements |
| C145, C146 | daw_circular_iterator.h | offset arithmetic; induction on histories and on the number of loop steps |
| C147 | daw_chunk_iterator.h | induction on the number of chunks |
| C148 | daw_indexed_iterator.h, with and without debug checks | case analysis, induction on the remaining length |
| C149, C150 | daw_find_iterator.h, daw_find_one_iterator.h | induction on the remaining range |
| C151 | daw_counting_iterators.h | induction on histories |
| C152, C153 | daw_iota_iterator.h, daw_integer_iterator.h for every integer type | modular arithmetic, induction on the number of values |
| C154 | daw_repeat_n_char_iterator.h | induction on the count |
| C155 | daw_zipiter.h for two iterators | induction on the remaining length; the two distances to the end differ |
| C156 | the inserters and sorted insertion | induction on the values |
| C157 | daw_checked_iterator_proxy.h | case analysis of the flags |
| C158 | daw_argument_iterator.h | induction on the remaining arguments |
| C159 | InputIterator.h with a heap | simulation between the heap and a list of values, over all histories |
| C160, C161, C163 | daw_hash_set.h, daw_bounded_hash_set.h over slots, for any hash function | invariant of linear probing: no free slot before a key; simulation of a list of pairs |
| C162 | erase in the bounded hash set and map | the same with every key in its own first slot; counterexamples for any two colliding keys |
| C164, C165 | daw_bounded_hash_map.h | simulation of a list of pairs over all histories |
| C166, C167 | static_hash_table.h, daw_fixed_lookup.h | the same for stored hashes, carried over to keys by injectivity |
| C168 | daw_min_perfect_hash.h | invariant of the placed buckets; every slot is reached by some salt (induction on bits); buckets of two keys claim slots in pairs |
| C169 | daw_span.h | the span covers a part of an array; a loop over it visits that part |
| C170 | daw_span.h | induction on the history; the operations beyond the size computed |
| C171 | daw_contiguous_view.h | as C170, with and without assertions |
| C172 | subspan of daw_contiguous_view.h, daw_iter_view.h | offset 0; the wrong size for every other offset |
| C173 | daw_iter_view.h | as C170, with the stored size |
| C174 | assertions of daw_iter_view.h | the calls that fail, for every view |
| C175 | daw_view.h | as C173 |
| C176 | comparisons of daw_contiguous_view.h, daw_iter_view.h | from the elements read and C12 |
| C177 | daw_span_writer.h | induction on the writes |
| C178 | daw_keep_n.h | invariant: sorted, no dropped value is better than a kept one |
| C179 | daw_unique_ptr.h | heap of cells; invariant: one owner per live cell; refinement to variables that hold values |
| C180 | daw_maybe_unique_ptr.h | the same with the owning flag |
| C181 | daw_copiable_unique_ptr.h | the same, copies take a fresh cell |
| C182 | daw_value_ptr.h, daw_heap_value.h | the same; cases on null |
| C183 | daw_unique_resource.h | the same, restricted histories; counterexamples for the rest |
| C184 | daw_unique_array.h | the same with the size |
| C185 | daw_scope_guard.h | refinement to a book of handlers |
| C186 | daw_union_pair.h | case analysis on the stored object |
| C187 | daw_sbo.h | case analysis |
| C188 | daw_validated.h | induction on the assignments |
| C189 | daw_take.h | direct |
| C190 | daw_optional.h | case analysis over a three way comparison; counterexamples |
| C191 | deprecated/daw_optional_poly.h | the same; a slicing function for copies |
| C192 | daw_expected.h | induction on the operations, case analysis |
| C193 | deprecated/daw_checked_expected.h | case analysis |
| C194 | daw_safe_pointer.h | induction on the moves |
| C195 | daw_reference.h | refutation by induction on the fuel |
| C196 | daw_uint_types.h | table of the 453 overloads with one evaluator; a sufficient condition on the types, proved once and checked for every row by computation |
| C197 | daw_uint_types.h | bitwise, with the undefined shifts characterised |
| C198 | daw_uint_types.h | bitwise; set_bit of UInt64 refuted |
| C199 | daw_uint_types.h | induction on the bytes; case analysis |
| C200 | deprecated/daw_vector.h | blocks of memory with cells; representation invariant kept by every operation; induction on the history |
| C201 | deprecated/daw_vector.h | the same memory model; the copy is described with the capacity it really has |
| C202 | deprecated/daw_vector.h | insert described cell by cell; compared with insertion into a list |
| C203 | deprecated/daw_vector.h | induction on the compared range |
| C204 | deprecated/daw_heap_array.h | memory of deletable arrays; each variable owns its own array, the rest is accounted for; induction on the history |
| C205 | deprecated/daw_fixed_array.h | the same memory model and invariant |
| C206 | deprecated/daw_carray.h | lists of length N; induction on the arguments and on the position |
| C207 | deprecated/daw_ordered_map.h | association list against an order of keys and a value function; induction on the history |
| C208 | deprecated/daw_stack_quick_sort.h | std::partition is any function rearranging positions by the predicate's answers; induction on the left segment |
| C209 | daw_ascii.h, daw_utility.h AsciiUpper/AsciiLower | codes of literals are intervals; case analysis; conversions between character types explicit |
| C210 | daw_utility.h hex | output iterator as buffer position or back_inserter; induction on bytes to a base 16 value |
| C211 | daw_utility.h bitcount | Legendre's formula by induction on the number of bits; the 130 candidate values enumerated |
| C212 | daw_utility.h can_fit, narrow_cast | usual arithmetic conversions modelled, both operands proved to fit the common type |
| C213 | daw_utility.h in_range (three operands) | as C212 |
| C214 | daw_utility.h value_from_chars, or_all | disjoint or is addition |
| C215 | daw_utility.h packs, contains, index_of, copy_vector | induction on the pack |
| C216 | daw_utility.h equal_to_last | memory of cells with lifetimes; induction on the history |
| C217 | daw_string_concat.h string_concat | the evaluation order is an argument of the model |
| C218 | daw_string_concat.h string_join_iterator | induction on the remaining text |
| C219 | deprecated/daw_string_view1.h construction, access, sub-views | pointer-pair views into one array; relation to the list shown |
| C220 | deprecated/daw_string_view1.h pop, try_pop, consume | from the searches and sub-views; cut_first/cut_last of SpecString.v |
| C221 | deprecated/daw_string_view1.h compare, operators | induction on the common length; lexicographic order |
| C222 | deprecated/daw_string_view1.h find functions | induction on the loops; first/last position with a property |
| C223 | deprecated/daw_string_view1.h search, search_last, find_last_of( c ), find_last_not_of | exact description of what the loops return; refuted where it differs |
| C224 | deprecated/daw_string_view1.h starts_with, ends_with, to_string, + | induction on the needle |
| C225 | deprecated/daw_string_view1.h split, make_string_view | induction on the remaining text; inductive specification of the pieces |
| C226 | deprecated/daw_bounded_string.h all modifying members | invariant (characters at the front of the array), one step, induction on the history |
| C227 | deprecated/daw_bounded_string.h c_str( ) after each call | invariant with the terminator; exact memory after erase |
| C228 | deprecated/daw_bounded_string.h constructors, conversions | array contents after the copy loop |
| C229 | deprecated/daw_bounded_string.h substr, copy | from C228 and the copy loop |
| C230 | deprecated/daw_bounded_string.h compare, operators | the comparison of C221 on the array |
| C231 | deprecated/daw_bounded_string.h searches | views of the array and C222 |
| C232 | deprecated/daw_bounded_string.h full, has_room, erase results | arithmetic; exact results of bounded_vector_t |
| C233 | deprecated/daw_bounded_string.h starts_with, ends_with, +, split | C224, C225 and append |
| C234 | deprecated/daw_string.h split, split_if, combine | induction on the rest of the text; inverse by uniqueness of the pieces |
| C235 | deprecated/daw_string.h trim* | position of the first and last other character |
| C236 | deprecated/daw_string.h ends_with | last position of a set of characters, size_t arithmetic |
| C237 | deprecated/daw_string.h search_replace, contains, in | invariant of the loop: replaced front, unchanged rest |
| C238 | deprecated/daw_string.h fmt | leftmost match of the regular expression written out; induction on the format |
| C239 | deprecated/daw_string_split_range.h | pieces by induction on the rest of the text; uniqueness by the leftmost occurrence |
| C240 | deprecated/daw_string_fmt.h v1 | induction on the placeholders; every other format by induction on the rest |
| C241 | deprecated/daw_string_fmt.h v2 | invariant of the parse loop: the tokens so far write the value of the format so far, and fit |
| C242 | daw_shared_function.h | threads interleave at every access to a counter or storage; inductive invariant: each counter is the number of handles and of statements under way that count; a rank falls with every step of a thread alone |
| C243 | daw_shared_function.h | from the invariant: function alive iff the strong sum is positive or its destruction is under way |
| C244 | daw_shared_function.h | a strong count of 0 stays 0; the lock stores an empty handle only after reading 0 |
| C245 | daw_stack_function.h | history refinement against a list of callable states |
| C246 | daw_stack_function.h | invariant: a resource is not released iff exactly one living callable has it; exact traces where the code breaks it |
| C247 | daw_poly_value.h | heap of objects and pointers; refinement against a list of values; pointers are distinct and live |
| C248 | deprecated/daw_bounded_graph.h | on the model of the bounded hash tables; refinement against a directed graph (nodes, edges), invariant: every key is in its first slot |
| C249 | deprecated/daw_bounded_graph.h remove_node | as C248; the loops over the edge sets as iterator loops |
| C250 | deprecated/daw_bounded_graph.h proxies | comparisons of (graph, id) pairs |
| C251 | daw_parse_args.h Argument, Arguments | on the model of string_view and its pop functions; the meaning of a text as an inductive relation, shown to be unique |
| C252 | daw_parse_args.h lookups | find_if as a loop; combined with C251 into a statement about the command line |
| C253 | daw_function_table.h | functions with the lists of argument types they take; the recursion over the tuple by induction |
| C254 | algorithms/daw_array_compare.h | arrays as trees of one shape; induction on the nesting |
| C255 | daw_bitset_helper.h | loop over the positions with std::bitset::set and the conversion to size_t |
| C256 | pipelines/cache_last_view.h | a machine with position, cache and read counter refines a plain iterator |
| C257 | daw_size_literals.h | repeated multiplication modulo 2^64 |
| C258 | daw_do_n.h | loops over a state; the fold over + with every permutation as evaluation order |
| C259 | daw_visit.h | the switches as lists of cases per number of alternatives; induction over the steps of 16 |
| C260 | daw_variant_cast.h | visitors on the model of visit_nt |
| C261 | daw_tuple_helper.h element access | recursion over the positions; the fold over && as a loop over a state |
| C262 | daw_tuple_helper.h operators | integer promotions and conversions of the C++ operators, elementwise by induction |
| C263 | daw_tuple_helper.h min, max | on the model of daw::min and daw::max (C81) |
| C264 | daw_tuple_helper.h operator<< | print_t as a state (flag, text) folded over the elements |
| C265 | daw_format_range.h | std::vformat for one argument as a loop over the format string; balanced specifications as an inductive predicate; formatters as functions of string and position |
| C266 | daw_format_range.h, nested | induction on the shape over C265 |
| C267 | daw_format_tuple.h | as C265 |
| C268 | daw_algorithm_cx.h rotate | loop over positions in the array around the range; invariant: remaining range split in three parts |
| C269 | daw_algorithm_cx.h nth_element | two nested loops over positions; every swap is within the range |
| C270 | daw_algorithm_cx.h partition | loop invariant: satisfying prefix, then elements that do not satisfy, then the rest |
| C271 | daw_contract.h | a contract as its list of predicates and the value; induction over the sequence of uses |
| C272 | daw_read_file.h | the answers of the system as parameters; fread on a zeroed buffer |
| C273 | daw_bind_args_at.h | arguments fetched by index; induction over calls |
| C274 | daw_named_params.h | options as type, value category and value; permutations |
| C275 | daw_piecewise_factory.h | slots and a state for the functions; induction over the settings |
| C276 | daw_tuple2.h tuple2_cat | locations encoded in 64 bits, decoded with shifts; the encoding is inverted for indices below 2^32 |
| C277 | daw_memory_mapped_file.h (POSIX), daw_unique_resource.h | a system with descriptors and mappings whose answers are parameters; an ownership invariant over programs |
| C278 | daw_memory_mapped_file.h (POSIX) | mappings as byte lists; disjointness of owned addresses from the invariant |
| C279 | daw_memory_mapped_file.h (Windows) | the same system model; case analysis |
| C280 | pipelines/numeric.h | a model of IEEE 754 arithmetic on integers with correct rounding; exactness of the error of an addition (Dekker), then induction over the list |
| C281 | daw_math.h | the sum with one half or one is rounded to the nearest number; divisions of integers |
| C282 | daw_math.h | error bounds of the operations |
| C283 | daw_math.h | each division by three more than halves the argument in the rounded arithmetic; fuel |
| C284 | daw_cxmath.h | bit patterns of powers of two; correct rounding of the product |
| C285 | daw_cxmath.h | induction over the steps with a bound of the accumulated error |
| C286 | daw_cxmath.h | bit patterns as integers; the loop that scales the number keeps its significand |
| C287 | daw_cxmath.h | quality of the first approximation, improved by each rounded Newton step; scaling by the exponent is exact |
| C288 | daw_benchmark.h | clock and function as parameters; the loops compute minimum and maximum |
| C289 | daw_benchmark.h | exact rationals; closed forms of the average |
| C290 | daw_benchmark.h | induction over the runs |
| C291 | daw_benchmark.h, daw_cxmath.h comparison objects | case analysis; equality with the comparisons of C36 |
| C292 | daw_benchmark.h | exact rationals; induction over the chain of units |
| C293 | daw_container_algorithm.h loops | induction over the loops, with a split of the list |
| C294 | iterator/daw_sorted_insert_iterator.h | lower_bound of C08 and an invariant over the writes |
| C295 | pipelines/sample.h | the engine is a state machine; induction over the range |
| C296 | pipelines foreach.h, elements.h, swizzle.h, maybe.h | induction over the range |
| C297 | daw_swap.h | memory as a list of cells |
| C298 | daw_function_ref.h | objects at addresses; induction over the history |
| C299 | daw_function_view.h | overload resolution is in the model; induction over the history |
| C300 | daw_not_null.h | an invariant over histories of actions; arithmetic stays in its array |
| C301 | advance by category with increments and decrements that are undefined outside the sequence | induction on the loops |
| C302 | positions in an array with size_t and ptrdiff_t conversions | case analysis and list lemmas |
| C303 | the loop with fuel; outcome OutOfFuel for every fuel | induction on the fuel |
| C304 | in-place removal loop whose predicate sees the current vector | loop invariant: kept elements followed by the untouched tail |
| C305 | heap of typed cells and handles; histories as lists of operations | refinement of a machine of independent values, with an ownership invariant |
| C306 | pointers as optional addresses, calls recorded | case analysis |
| C307 | references as places that are live or gone | case analysis |
| C308 | the fold over the arguments with the number tested | induction over the arguments |
| C309 | std::from_chars for integers as the standard describes it, and the check of its error code | induction over the digits |
| C310 | the member functions over the model of basic_bit_queue | refinement to a list of nibbles, induction over the history |
| C311 | the loop over pop_bits; the overload with a bit count does not compile (it uses pop_value) | invariant of the stream from BitQueueProofs.v, induction over the groups |
| C312 | object representations as lists of bytes (little endian) | induction over the bytes |
| C313 | the loops and the table of powers | induction over the digits; the 20 entries of the table one by one |
| C314 | files and objects as lists, the member functions as steps | invariant over the histories |
| C315 | positions in an array, with the kind of the result | case analysis over the operations |
| C316 | the functions, parametrized by the configuration | case analysis, induction over the elements |
| C317 | containers with their lifetime, tuples of iterators and the loop | induction over the rows |
| C318 | the string and the function as a pair | induction over the history |
| C319 | the representations as numbers; the folds | case analysis, induction over the arguments |
| C320 | the states and the calls | induction over the text |
| C321 | blocks with their objects, pointers with position and mark | invariant over the histories |
| C322 | the living object of each storage | case analysis, induction over the history |
| C323 | the constants as they are computed | evaluation and linear arithmetic |
| C324 | blocks with their objects, vectors and container_data as owners | ownership invariant and refinement to lists of values over all histories |
| C325 | the operations of the output iterator over an arbitrary insert, and insert of a set | induction over the operations |
| C326 | pairs of values, swap as two swaps through references | case analysis and list lemmas |
| C327 | the recursive storage with numbered levels over values and references | refinement to lists over all histories, induction over the storage |
| C328 | the index as a conversion to the type | arithmetic of conversions |
| C329 | a list, with the loop of fill_n reading the value through a reference | induction over the loop and the history |
| C330 | the loops over one memory of bit patterns | induction over the loops |
| C331 | the parser of formats and the loop that makes the format of dump | induction over the format |
| C332 | objects with lifetimes; parameters that end when the constructor returns | invariants over the history of the objects |
| C333 | functions with state that assign to their parameters; values and references as parameters | induction over the calls and the assignments |
| C334 | memory with lifetimes, objects with pointer, size and owner flag | refinement to a program with plain pointers over all histories |
| C335 | as C334 | invariant that every buffer has one pointer; permutations of the pointers |
| C336 | strcmp as a loop over the characters | induction over the first string |
| C337 | iterators with their own copy of the function | refinement to iterators that count their dereferences |
| C338 | the loop of Graph.v with explicit calls of a sorting function that is only defined for strict weak orders | refinement to the unordered walk; invariant that the head of the pending nodes is a greatest |
| C339 | as C338 | induction over the run: the stack is split along the recursive walk |
| C340 | as C338 | invariant that the visits and the queue are the concatenation of the sorted children |
| C341 | containers as lists of nodes; the extract/insert loops | induction over the loop |
| C342 | nodes with an identity; using an iterator whose node has left the container is undefined | induction up to the first match |
| C343 | the loop over an array, with a log of the calls of func | induction over the range |
| C344 | objects that own a value or refer to a variable of an environment | unfolding, with separate environments for construction and call |
| C345 | the shared vector of the walk with a position; moves outside of it are undefined | induction over the rest of the vector and over the operators; the walk is C51 |
| C346 | std::reverse_iterator around the iterators of C345 | case analysis on the walk |
| C347 | buffers with raw, live and moved-from cells, a count of the events that may throw and a schedule that says which do; destroying or releasing the wrong cells is undefined | induction over the copied elements; the split buffer is shown to be released on every path |
| C348 | as C347 | as C347; the elements left are described for each throwing copy |
| C349 | as C347; no destructor runs for an object whose constructor throws | as C347 |
| C350 | as C347 | invariant of the vector and its buffer kept by every call, also by one that throws; induction on the history |
| C351 | the memory of C347; moves mark their source | induction over the moved elements; every path through the new buffer is shown to release it |
| C352 | the memory of C347 | induction over the moved elements |
| C353 | states reached by calls that return or throw | invariant of the vector and its buffer; induction over the calls |
| C354 | the memory of C347, and the argument as an object outside of it | push_back is insert at the end; the cases of C351 with moves in place of copies; induction over the calls |
| C355 | the memory of C347; both branches of insert, inside of the buffer and with a new one | every path through the new buffer is shown to release it; inductions over the constructed, moved and assigned elements |

Nothing in the list is outside what an executable model can express; memory
lifetime, `constexpr` evaluation, overload resolution and exception
specifications are not modelled.

## 5. Assumptions actually used

`Print Assumptions` answers "Closed under the global context" for every theorem
named in MANIFEST.json: no axiom is used, neither ours nor a library's.

`vcheck` also lists seven entries `Coq.ssr.ssrunder.Under_rel.*`. They are
declarations of the opaque module in the standard library's `ssrunder.v`, loaded
because a library file we import requires it. No theorem depends on them.

## 6. What is modelled and what is not

Modelled headers (all under `include/daw`), with the Coq file that models them:

| header | model | left out |
|--------|-------|----------|
| daw_algorithm.h, algorithms/* | AlgSearch.v, AlgCompare.v, AlgModify.v | gather (it does not compile when used), transform_it, convert_copy (it has no return statement); extract_*, consume_if and the predicate objects are in AlgExtract.v |
| daw_sort_n.h | SortNet.v, SortIntro.v, SortTo.v | |
| daw_string_view.h | StringView.v, StringPop.v | conversions from and to std::string and other string types, hashing |
| daw_int_cmp.h, daw_integer_reverse.h, daw_endian.h, daw_bit.h, daw_bitset.h | BitsModel.v | |
| daw_bit_queues.h, daw_bit_stream.h | BitQueue.v | pop_value (does not compile); skip_until and basic_nibble_queue are in MiscTools.v |
| daw_static_bitset.h | StaticBitset.v | to_string( fmt_binary ), one_count and zero_count (ill-formed) |
| daw_ring_adaptor.h, daw_bounded_vector.h | SeqContainers.v | |
| daw_graph.h, daw_graph_algorithm.h | Graph.v | the ordered walks are in GraphOrder.v, the sorted ranges in TopoRange.v |
| daw_math.h, daw_cxmath.h, daw_natural.h, impl/daw_math_impl.h | Math.v, CxMath.v | intxp fallback; floating point computation is in FloatMath.v |
| daw_fnv1a_hash.h, daw_generic_hash.h, daw_sip_hash.h, daw_metro_hash.h | Hash.v | |
| daw_random.h | Random.v | RandomFloat, reseed, generate_seed, the standard engines and distributions |
| daw_parse_to.h | ParseTo.v | float and double (strtod), construct_from, apply_string, values_from_stream |
| daw_parser_helper.h, daw_parser_addons.h, daw_parser_helper_sv.h | ParserHelper.v | is_true with several predicates, expect_true, as, to_string, negate, pred_true, pred_false |
| daw_atomic_wait.h, daw_allow_once.h, daw_countable_resource.h, daw_cx_atomic.h | Atomics.v | memory orders, notify, wait_until forms, pointers and floating point atomics |
| daw_ref_counted_pointer.h | RcPtr.v | custom deleters, comparison operators |
| pipelines/*.h, iterator/daw_reverse_iterator.h | Pipelines.v | lifetimes of the underlying containers; Sort/Min/Max (std algorithms), EnumerateApply, input-only iterators, To for other containers; increments of a Split iterator that was not dereferenced, other than in std::distance |
| vector.h, split_buffer.h, vector_algorithm.h | Vector.v | that a replaced buffer is released and constructors and allocators that throw (for these see VectorThrow.v), wrap_iter, unequal allocators, self assignment, insert of a range of the vector itself, the comparison of iota_op other than less, data_end and iterator access; `emplace( position, ... )` names a class `temp_value` that no header defines and does not compile when it is used: the model takes it to be an object that holds the value |
| iterator/*.h | Iterators.v | daw_split_iterator.h and daw_bit_iterator.h (they do not compile when used), RandomIterator, pointer_iterator and daw_arrow_proxy.h (thin wrappers), daw_output_stream_iterator.h, zip iterators of more than two iterators and their operator->, postfix ++ of integer_range_iterator (ill-formed), the two-argument constructor of find_iterator |
| daw_hash_set.h, static_hash_table.h, daw_min_perfect_hash.h, deprecated/daw_bounded_hash_set.h, deprecated/daw_bounded_hash_map.h, deprecated/daw_fixed_lookup.h | HashTables.v | throwing copies, transparent lookups, iterator operators other than those of a loop, fixed_lookup with other hash sizes; the parts of hash_set_t that do not compile when used; daw_hash_table.h |
| daw_span.h, daw_contiguous_view.h, daw_iter_view.h, daw_view.h, daw_span_writer.h, daw_keep_n.h | Views.v | lifetimes of the viewed containers, conversions between views, hashing, copy_to and as_* helpers, iterator types without random access, contiguous_view< T >::subspan (does not compile) |
| daw_unique_ptr.h, daw_maybe_unique_ptr.h, daw_unique_resource.h, daw_value_ptr.h, daw_unique_array.h, daw_scope_guard.h, daw_union_pair.h, daw_sbo.h, daw_validated.h, daw_take.h, deprecated/daw_copiable_unique_ptr.h, deprecated/daw_heap_value.h | Ownership.v | throwing constructors and deleters, converting constructors, arrays in unique_ptr, objects that own the variables, allocators of sbo_storage |
| daw_optional.h, daw_expected.h, daw_safe_pointer.h, daw_reference.h, deprecated/daw_optional_poly.h, deprecated/daw_checked_expected.h | Wrappers.v | conversions, emplace and swap of optional (std::optional), optional::operator-> (does not compile), visit of expected_t, the other helpers of daw_reference.h |
| daw_uint_types.h | UintTypes.v | conversions of floating-point numbers in to_uintN |
| deprecated/daw_vector.h | OldVector.v | MMapAlloc, failure of malloc, resize_for_overwrite with other operations; resize( n, value ), emplace_back and insert from single-pass iterators do not compile |
| deprecated/daw_heap_array.h, daw_fixed_array.h, daw_carray.h | OldArrays.v | failing allocation, exceptions from element copies, the uninitialised values of new T[n] (a fixed default stands for them), iterator arithmetic other than stated |
| deprecated/daw_ordered_map.h | OldMap.v | constructors from ranges and initializer lists, rbegin and rend (do not compile) |
| deprecated/daw_stack_quick_sort.h | OldMap.v | nothing else; std::partition is abstract |
| daw_ascii.h, daw_string_concat.h | TextUtil.v | the reserve call of string_concat; the members of string_join_iterator that call std::terminate |
| deprecated/daw_string_view1.h, impl/daw_string_impl.h | StringView1.v | size bounds (StringViewBoundsSize) and fixed extents; overloads that only build a view and forward; stream output; hashing (forwards to fnv1a_hash and generic_hash); conversions to other string types |
| deprecated/daw_bounded_string.h | BoundedString.v (on SeqContainers.v, StringView1.v) | operator=( std::string ) and swap (cannot be instantiated), search, search_last, find_last_not_of and find_last_of( c ) (forward to the refuted functions of C223), operator+ with arrays, hashing, stream output |
| deprecated/daw_string.h | OldString.v | lexical_cast, to_string, string_join, BasicString (forwards), operator<<; the numbers of {n:p} are shown by an arbitrary function |
| deprecated/daw_string_split_range.h, deprecated/daw_string_fmt.h | StringFmt.v | conversion of the arguments to text; the other overloads of split_string |
| daw_shared_function.h | SharedFn.v | memory orders (sequentially consistent); functions that destroy handles while called; swap and comparison with nullptr |
| daw_stack_function.h, daw_poly_value.h | StackFn.v | sizes of callables (compile time); callables that throw; conversions between function sizes and from poly_value of a derived type (do not compile) |
| deprecated/daw_bounded_graph.h | BoundedGraph.v | debug precondition checks; reading the default or stale node of an id that is not in the graph (counted as undefined); visitors that change the graph |
| daw_utility.h | TextUtil.v | type traits and std::function helpers, make_range, append, RunIfValid, force_evaluation, get_buffer; find_all_where, to_array_of (do not compile) |
| daw_parse_args.h | ParseArgs.v | allocation failures of the vector; iterators of the argument list |
| daw_function_table.h, algorithms/daw_array_compare.h, daw_bitset_helper.h, pipelines/cache_last_view.h, daw_size_literals.h, daw_do_n.h | SmallTools.v | function results other than integers; array_cmp with comparisons that return int; cache_last_view over input iterators |
| daw_visit.h, daw_variant_cast.h, daw_tuple_helper.h | Variants.v | result type conversions of visitors; tuple elements that are not integers in the operators; make_from_tuple2, forward_nontemp_as_tuple |
| daw_format_range.h, daw_format_tuple.h, impl/formatter_common.h | FmtRange.v | wide characters; compile time checks of format strings |
| daw_algorithm_cx.h | AlgCx.v | slide (does not compile when used) |
| daw_contract.h, daw_read_file.h, daw_bind_args_at.h, daw_named_params.h (get_opt), daw_piecewise_factory.h, daw_tuple2.h (tuple2_cat) | CallTools.v | constant contracts; read_wfile (Windows); moving out of a factory; tuple2_cat of one tuple (does not compile); get_opt helpers |
| daw_memory_mapped_file.h, daw_unique_resource.h | MmapFile.v | writing through the mapping, open modes, the bytes of a path, the conversion to string_view; daw_memory_mapped_file_fwd |
| floating point functions of daw_math.h, daw_cxmath.h; the compensated sum of pipelines/numeric.h | Floats.v, FloatMath.v | accuracy of sin and cos; long double; the cast-free fallbacks of sqrt and ldexp; signed zeros are not distinguished by the arithmetic, rounding is to nearest even, no excess precision |
| daw_benchmark.h; comparison objects of daw_cxmath.h | Benchmark.v | rounding of doubles in the statistics and texts; bench_test2, show_benchmark (the same measurement); the printed text; builds without exceptions |
| daw_container_algorithm.h (loops); iterator/daw_sorted_insert_iterator.h; pipelines/foreach.h, elements.h, swizzle.h, maybe.h, sample.h; daw_swap.h | RangeTools.v | the wrappers of std algorithms; the second copy_n and + / - of the element iterators (do not compile when used); Swizzle of values that are no tuples; cswap of move-only types |
| daw_function_ref.h, daw_function_view.h, daw_not_null.h | RefTools.v | reuse of addresses; parameters passed by move; callables that throw; comparisons of not_null with raw pointers and std::hash |
| cpp_17_iterator.h; deprecated/daw_range_type.h; deprecated/daw_range_collection.h; daw_reference.h to_reference_vector and comparisons; deprecated/daw_range_algorithm.h where | OldRange.v | the members of CollectionRange and ReferenceRange that do not compile (transform, as, find, operator[]), sort, partition and shuffle (std algorithms), from and from_mutable, to_hex_string |
| iterator/InputIterator.h; daw_observer_ptr.h; daw_monadic_pointer_ops.h; daw_rw_ref.h; daw_prop_const_ptr.h; daw_poly_var.h | Erased.v | InputRange (a pair of iterators); allocation failure; the non-const operator* of poly_var (does not compile); constness of the results |
| daw_any_if.h, daw_from_string.h, daw_visit_as.h, impl/daw_int_to_iterator.h; basic_nibble_queue, skip_until | MiscTools.v | from_string for floating point types and the throwing/defaulting front ends; to_os_string (does not compile); big endian hosts in visit_as |
| deprecated/daw_cfile.h, deprecated/daw_safe_string.h, daw_zipcontainer.h, iterator/daw_random_iterator.h, iterator/daw_pointer_iterator.h, wrap_iter.h, daw_exception.h, daw_ordering_to_integer.h, daw_logic.h | SmallClasses.v | hash and comparison of CFile and safe strings; comparison of iterators; the exception classes and their messages; exception_to_string, Terminator details; concepts of daw_logic.h |
| format.h (brace_splitter_t), daw_tracked_allocator.h, daw_uninitialized_storage.h, impl/daw_gcc_clang_int128.h | MoreTools.v | make_formatter (unfinished in the source); rebind and propagation traits of the allocator; rref and raw_data (the latter does not compile) |
| daw_container_help.h (impl/daw_container_help_impl.h, _ins_ext.h, _vector.h), iterator/daw_inserter.h, compressed_pair.h | ContainerHelp.v | impl/daw_container_help_string.h (a copy of the string of libstdc++ with members that are declared only); allocators with state; piecewise construction of compressed_pair |
| daw_tuple.h, algorithms/daw_enumerate_tuple.h, daw_bounded_array.h, daw_simple_array.h, daw_bit_cast_util.h, daw_print.h, daw_fwd_pack_apply.h, daw_bind_front.h | Tuples.v | types and layout of elements, moves out of a tuple, vprintln (does not compile), structured bindings of an enumerated tuple (tuple_element refers to itself) |
| deprecated/daw_cstring.h, daw_operators.h, pipelines/generate.h | CStrings.v | copying and CString::move (do not compile when used), pointers into the middle of an array, is_local_string |
| daw_graph_algorithm.h, ordered walks | GraphOrder.v | throwing comparisons, visitors that change the graph |
| daw_algorithm.h: extract_*, consume_if, predicate objects | AlgExtract.v | allocators, throwing predicates |
| daw_graph_algorithm.h, sorted ranges | TopoRange.v | assignment through the iterators; ranges with a Compare (the walk is that of GraphOrder.v); the const overload of end does not compile when used |
| vector.h, split_buffer.h, exceptions | VectorThrow.v, VectorThrowInsert.v | emplace; move constructors that throw; the members that construct without an argument; unequal allocators |
| `vector.h` push_back and insert of rvalues under exceptions | VectorThrowMove.v | arguments that are elements of the vector; emplace( position, ... ), which names a `temp_value` that no header defines |
| `vector.h` insert of several elements under exceptions | VectorThrowMany.v | input iterators; values that are elements of the vector |

Each model file's head comment lists its simplifications in full. Memory lifetime,
allocation failure, data races, `constexpr` evaluation, overload resolution and
exception specifications are outside the model.
