{"id": "C01", "title": "Fixed-size sorting networks sort their input", "statement": "For each N in {3,4,5,6,7,8,16,32}, sort_N(first, comp) leaves the N elements starting at first in non-descending order with respect to comp and as a permutation of the original N elements.", "quantifier": "every element type, every strict weak ordering comp, every content of the N slots (including duplicates and comparator-equivalent elements)", "why_tests_cant": "32! orderings (and infinitely many element types/comparators) cannot be enumerated; one wrong comparator in a 60- or 190-comparator network only shows up on few inputs", "anchors": ["include/daw/daw_sort_n.h: sort_3, sort_4, sort_5, sort_6, sort_7, sort_8, sort_16, sort_32, impl::swap_if"]}
{"id": "C02", "title": "daw::sort sorts every range", "statement": "daw::sort(first,last,comp) terminates, never touches an element outside [first,last), and leaves the range as a non-descending permutation of its original contents.", "quantifier": "every range length, every content, every strict weak ordering, every element type (both the trivially-copyable and the other size limit)", "why_tests_cant": "the introsort relies on unguarded inner scans whose safety depends on pivot selection; only particular adversarial arrangements and lengths reach each branch", "anchors": ["include/daw/daw_sort_n.h: sort, impl::sort_impl, impl::insertion_sort_incomplete, impl::insertion_sort_3"]}
{"id": "C03", "title": "sort_to copies a sorted permutation", "statement": "sort_to(first,last,out) writes exactly last-first elements starting at out, and they are the sorted permutation of the input.", "quantifier": "every input range, every integral or non-integral element type, every strict weak ordering", "why_tests_cant": "the integral path first distributes by last decimal digit, so failures depend on element signs and on the comparator", "anchors": ["include/daw/daw_sort_n.h: sort_to, impl::counting_sort"]}
{"id": "C04", "title": "lower_bound returns the partition point", "statement": "On a range in which all elements less than value precede the others, lower_bound returns the position of the first element that is not less than value (the end when there is none), reading only elements of the range.", "quantifier": "every length, every partitioned content, every comparator", "why_tests_cant": "halving arithmetic errors appear only for particular length/position combinations; lengths are unbounded", "anchors": ["include/daw/daw_algorithm.h: lower_bound"]}
{"id": "C05", "title": "upper_bound and binary_search agree with a linear scan", "statement": "On a range sorted by comp, upper_bound returns the first position whose element is greater than value, and binary_search over a non-empty range finds an equivalent element exactly when one exists.", "quantifier": "every length, content and strict weak ordering", "why_tests_cant": "unbounded lengths; boundary positions depend on the exact halving", "anchors": ["include/daw/daw_algorithm.h: upper_bound, binary_search"]}
{"id": "C06", "title": "Clamped iterator motion never leaves the container", "statement": "safe_next, safe_prev, begin_at and safe_advance stop exactly at the container boundary: the result is the requested position clamped to [begin,end].", "quantifier": "every container size, every signed or unsigned distance, both random-access and step-by-step iterators", "why_tests_cant": "distances range over all of 64-bit integers and sizes are unbounded", "anchors": ["include/daw/daw_algorithm.h: safe_next, safe_prev, begin_at, impl::safe_advance_impl"]}
{"id": "C07", "title": "Linear searches return the first (or designated) match", "statement": "find, find_if, find_if_not, find_index_of, find_index_of_if, find_index_if and contains return the first position that satisfies the condition, the end/size when none does, and contains is true exactly when a match exists.", "quantifier": "every range, predicate and value", "why_tests_cant": "the first-match guarantee ranges over all arrangements of matching elements", "anchors": ["include/daw/daw_algorithm.h: find, find_if, find_if_not, find_index_of, find_index_of_if, find_index_if, contains"]}
{"id": "C08", "title": "Quantifier algorithms decide their quantifier", "statement": "all_of/any_of/none_of (and satisfies_all/satisfies_one/all_equal/count_if) return exactly the universal, existential, negated-existential or counted answer.", "quantifier": "every range and predicate, including empty ranges", "why_tests_cant": "ranges and predicates are unbounded", "anchors": ["include/daw/daw_algorithm.h: all_of, any_of, none_of, satisfies_one, satisfies_all, all_equal, count_if"]}
{"id": "C09", "title": "search returns the first occurrence of a subsequence", "statement": "search(first,last,s_first,s_last) returns the smallest position at which the pattern occurs contiguously and the end of the range when it occurs nowhere.", "quantifier": "every text, every pattern (including empty and longer than the text), every element equality", "why_tests_cant": "overlapping partial matches give unboundedly many near-miss cases", "anchors": ["include/daw/daw_algorithm.h: search"]}
{"id": "C10", "title": "equal decides element-wise equality", "statement": "equal(f1,l1,f2,l2) is true exactly when both ranges have the same length and equal corresponding elements.", "quantifier": "every pair of ranges", "why_tests_cant": "prefix/suffix relations between the two ranges are unbounded", "anchors": ["include/daw/daw_algorithm.h: equal"]}
{"id": "C11", "title": "not_equal is the negation of equal", "statement": "not_equal(f1,l1,f2,l2) is true exactly when equal(f1,l1,f2,l2) is false.", "quantifier": "every pair of ranges", "why_tests_cant": "a test with all-different or all-equal elements passes even when mixed ranges are wrong", "anchors": ["include/daw/daw_algorithm.h: not_equal"]}
{"id": "C12", "title": "Lexicographic comparison is a strict total order consistent with element order", "statement": "lexicographical_compare is true exactly when the first range precedes the second in dictionary order; compare_range returns -1, 0, 1 exactly for less, equal and greater.", "quantifier": "every pair of ranges over a totally ordered element type", "why_tests_cant": "all prefix/difference-position combinations", "anchors": ["include/daw/daw_algorithm.h: lexicographical_compare, compare_range"]}
{"id": "C13", "title": "min/max element searches return the documented position", "statement": "max_element returns the first largest element, minmax_element the first smallest and the last largest, for non-empty ranges; an empty range yields its end.", "quantifier": "every range and strict weak ordering, with duplicates", "why_tests_cant": "the pairwise scan of minmax_element treats odd/even lengths and ties differently", "anchors": ["include/daw/daw_algorithm.h: max_element, minmax_element, minmax_item"]}
{"id": "C14", "title": "remove and remove_if keep survivors in order", "statement": "remove_if(first,last,p) returns a new end such that [first,new_end) holds exactly the elements not satisfying p in their original relative order.", "quantifier": "every range and predicate", "why_tests_cant": "arrangements of removed/kept elements are exponential in the length", "anchors": ["include/daw/daw_algorithm.h: remove, remove_if"]}
{"id": "C15", "title": "set_intersection computes the multiset intersection", "statement": "For two sorted ranges, set_intersection writes the sorted sequence in which each value occurs min(m,n) times when it occurs m and n times in the inputs.", "quantifier": "every pair of sorted ranges", "why_tests_cant": "multiplicities and interleavings are unbounded", "anchors": ["include/daw/daw_algorithm.h: set_intersection"]}
{"id": "C16", "title": "reverse reverses in place", "statement": "reverse(first,last) replaces the range by its mirror image, so applying it twice restores the original.", "quantifier": "every length (odd, even, empty) and content", "why_tests_cant": "unbounded lengths; the meet-in-the-middle test has parity cases", "anchors": ["include/daw/daw_algorithm.h: reverse"]}
{"id": "C17", "title": "split loses no data", "statement": "Joining the pieces produced by split(first,last,delimiter) with the delimiter gives back the original range, and no piece contains the delimiter.", "quantifier": "every range and delimiter", "why_tests_cant": "the trailing piece matters only for inputs that do not end in the delimiter", "anchors": ["include/daw/daw_algorithm.h: split"]}
{"id": "C18", "title": "are_equal means all arguments are equal", "statement": "are_equal(v1,...,vn) is true exactly when all arguments are pairwise equal.", "quantifier": "every argument count of at least two and every argument list", "why_tests_cant": "needs particular groupings of values to fail", "anchors": ["include/daw/daw_algorithm.h: are_equal"]}
{"id": "C19", "title": "Sortedness tests are exact", "statement": "is_sorted_until returns the end of the longest sorted prefix and is_sorted is true exactly when every adjacent pair is in order.", "quantifier": "every range and comparator", "why_tests_cant": "violations may occur at any position of an unbounded range", "anchors": ["include/daw/daw_algorithm.h: is_sorted_until, is_sorted"]}
{"id": "C20", "title": "partition_range tiles the input", "statement": "partition_range returns consecutive sub-ranges that together cover the whole input exactly once and in order.", "quantifier": "every size, part count of at least one, and minimum part size", "why_tests_cant": "division remainders and the minimum-size adjustment interact", "anchors": ["include/daw/daw_algorithm.h: partition_range"]}
{"id": "C21", "title": "Transform and copy algorithms write exactly the selected outputs", "statement": "transform, transform_n, transform_if, copy_if, copy_n, move and move_n write, in order, f(x) for exactly the selected source elements and return the end of the written range; nothing past it is modified.", "quantifier": "every source, destination, function and predicate", "why_tests_cant": "ranges and selections are unbounded", "anchors": ["include/daw/daw_algorithm.h: transform, transform_n, transform_if, copy_if, copy_n, move, move_n, map"]}
{"id": "C22", "title": "clamp limits its argument", "statement": "The two-argument clamp(v,hi) returns hi when v > hi and v otherwise; the three-argument clamp(v,lo,hi) returns lo when v < lo, hi when v > hi, and v otherwise.", "quantifier": "every v and lo <= hi", "why_tests_cant": "values below the lower bound are needed to see a failure and the domain is the whole type", "anchors": ["include/daw/daw_algorithm.h: clamp", "include/daw/cpp_17.h: cpp_17_details::math::clamp"]}
{"id": "C23", "title": "Substring find returns the first occurrence at or after pos", "statement": "sv.find(needle,pos) for pos <= size() returns the smallest index i >= pos at which needle occurs, and npos when there is none.", "quantifier": "every haystack, needle and position", "why_tests_cant": "self-overlapping needles and boundary positions are unbounded", "anchors": ["include/daw/daw_string_view.h: basic_string_view::find(basic_string_view, size_type)"]}
{"id": "C24", "title": "Character find returns an index into the view", "statement": "sv.find(c,pos) returns the smallest index i >= pos with sv[i] == c and npos when there is none.", "quantifier": "every view, character and position", "why_tests_cant": "a wrong base offset is invisible at pos == 0", "anchors": ["include/daw/daw_string_view.h: basic_string_view::find(CharT, size_type)"]}
{"id": "C25", "title": "rfind returns the last occurrence at or before pos", "statement": "sv.rfind(needle,pos) returns the largest index i <= pos at which needle occurs and npos when there is none.", "quantifier": "every haystack, needle and position", "why_tests_cant": "down-counting loops with unsigned indices fail only at boundaries", "anchors": ["include/daw/daw_string_view.h: basic_string_view::rfind"]}
{"id": "C26", "title": "search and search_last locate occurrences", "statement": "sv.search(needle,pos) returns the first occurrence at or after pos, sv.search_last(needle,pos) the last occurrence, npos when there is none.", "quantifier": "every haystack, needle and position", "why_tests_cant": "matches flush with the end of the view, or repeated matches, are needed to see a failure", "anchors": ["include/daw/daw_string_view.h: basic_string_view::search, search_last"]}
{"id": "C27", "title": "Character-class searches are exact", "statement": "find_first_of, find_first_not_of, find_last_of and find_last_not_of return the first/last index (from/up to pos) whose character is/is not in the set, npos when there is none, and read only characters of the view.", "quantifier": "every view, character set and position, including pos == size()", "why_tests_cant": "the position argument's boundary values and the set contents are unbounded", "anchors": ["include/daw/daw_string_view.h: basic_string_view::find_first_of, find_first_not_of, find_last_of, find_last_not_of"]}
{"id": "C28", "title": "Prefix and suffix removal are exact and clamped", "statement": "remove_prefix(n)/remove_suffix(n) drop exactly min(n,size()) characters from the front/back and leave the others unchanged.", "quantifier": "every view and every 64-bit count", "why_tests_cant": "counts range over all of size_t including values above size()", "anchors": ["include/daw/daw_string_view.h: basic_string_view::remove_prefix, remove_suffix"]}
{"id": "C29", "title": "pop_front_until / pop_back_until split without losing characters", "statement": "The popped piece, the matched delimiter and the remaining view concatenate to the original view; the piece contains no earlier match; with no match the whole view is popped and the remainder is empty.", "quantifier": "every view, delimiter character, delimiter string or predicate", "why_tests_cant": "unbounded strings and overlapping delimiters", "anchors": ["include/daw/daw_string_view.h: basic_string_view::pop_front_until, pop_back_until, pop_front_while, pop_back_while"]}
{"id": "C30", "title": "try_pop_* change nothing on failure", "statement": "When the delimiter does not occur, try_pop_front_until/try_pop_back_until return an empty view and leave the source view unchanged; otherwise they behave like pop_*_until.", "quantifier": "every view, delimiter and predicate", "why_tests_cant": "needs a view without match together with inspection of the source afterwards", "anchors": ["include/daw/daw_string_view.h: basic_string_view::try_pop_front_until, try_pop_back_until"]}
{"id": "C31", "title": "substr is the requested slice", "statement": "sv.substr(pos,count) equals the characters [pos, min(pos+count,size())) and throws exactly when pos > size() (in builds with range checks), even when pos+count overflows 64 bits.", "quantifier": "every view and every pair of 64-bit arguments", "why_tests_cant": "overflowing argument pairs are astronomically many", "anchors": ["include/daw/daw_string_view.h: basic_string_view::substr"]}
{"id": "C32", "title": "The zero-terminated flag is sound", "statement": "is_zero_terminated() is true only if the character one past the end of the view is NUL, for every view obtained from zero-terminated or plain sources by any sequence of view operations.", "quantifier": "every operation history", "why_tests_cant": "the flag is propagated by every mutator; histories are unbounded", "anchors": ["include/daw/daw_string_view.h: basic_string_view::is_zero_terminated, substr_unsafe, remove_suffix, remove_prefix"]}
{"id": "C33", "title": "compare is a total order consistent with ==, <, <=, >, >=", "statement": "compare is antisymmetric, transitive and zero exactly for equal contents; the relational operators are its sign tests.", "quantifier": "all triples of views", "why_tests_cant": "a law over all triples of strings", "anchors": ["include/daw/daw_string_view.h: basic_string_view::compare, operator==, operator<"]}
{"id": "C34", "title": "starts_with / ends_with decide prefix and suffix", "statement": "sv.starts_with(x) is true exactly when sv = x ++ rest, sv.ends_with(x) exactly when sv = rest ++ x.", "quantifier": "every pair of views", "why_tests_cant": "unbounded strings, lengths with size() < x.size() included", "anchors": ["include/daw/daw_string_view.h: basic_string_view::starts_with, ends_with"]}
{"id": "C35", "title": "Trimming removes exactly the outer run", "statement": "trim/trim_prefix/trim_suffix remove the maximal run of whitespace at the respective end(s) and nothing else.", "quantifier": "every view", "why_tests_cant": "all-whitespace and whitespace-inside strings of any length", "anchors": ["include/daw/daw_string_view.h: basic_string_view::trim, trim_prefix, trim_suffix, remove_prefix_while, remove_suffix_while"]}
{"id": "C36", "title": "Mixed-sign integer comparisons are mathematical", "statement": "cmp_equal, cmp_less, cmp_greater, cmp_less_equal, cmp_greater_equal and in_range give the mathematically correct result for any mix of signed/unsigned widths.", "quantifier": "every pair of integer types and every pair of values", "why_tests_cant": "2^128 value pairs per type pair", "anchors": ["include/daw/daw_int_cmp.h: cmp_equal, cmp_less, cmp_greater, cmp_less_equal, cmp_greater_equal, in_range"]}
{"id": "C37", "title": "reverse_bits mirrors all bits", "statement": "reverse_bits(v) on 8/16/32/64-bit values has bit i equal to bit (width-1-i) of v; it is an involution.", "quantifier": "all 2^64 values per width and all bit positions", "why_tests_cant": "2^64 inputs", "anchors": ["include/daw/daw_integer_reverse.h: reverse_bits"]}
{"id": "C38", "title": "Byte swapping reverses bytes", "statement": "swap_bytes on 1/2/4/8-byte values reverses the byte order and is an involution.", "quantifier": "all 2^64 values", "why_tests_cant": "2^64 inputs", "anchors": ["include/daw/daw_endian.h: swap_bytes"]}
{"id": "C39", "title": "Endian conversions invert each other", "statement": "Converting a native value to big (little) endian and back to native restores the value, and network_to_host inverts host_to_network.", "quantifier": "all values of every width, on a little-endian host", "why_tests_cant": "2^64 inputs", "anchors": ["include/daw/daw_endian.h: to_big_endian, to_little_endian, to_native_endian, host_to_network_endian, network_to_host_endian"]}
{"id": "C40", "title": "Bit mask helpers touch exactly the named bits", "statement": "set_bits sets exactly the named bits, unset_bits clears exactly them, get_bits isolates them, mask_msb/mask_lsb have exactly the documented ones.", "quantifier": "every value and every list of bit positions below the width", "why_tests_cant": "2^64 values times all position subsets", "anchors": ["include/daw/daw_bit.h: set_bits, unset_bits, get_bits, mask_msb, mask_lsb, are_set"]}
{"id": "C41", "title": "A bit stream yields the bits of its source in order", "statement": "Successive pop_bits calls return consecutive bit groups of the source, most significant first; the concatenation of all groups is the source bit string regardless of how reads are split.", "quantifier": "every source and every sequence of read sizes", "why_tests_cant": "read sizes straddle element boundaries in unboundedly many ways", "anchors": ["include/daw/daw_bit_stream.h: bit_stream::pop_bits, pop_value, skip_bits"]}
{"id": "C42", "title": "A bit queue returns what was pushed", "statement": "Popping from the back of a bit queue returns the oldest pushed bits, popping from the front the most recently pushed; size tracks the number of stored bits.", "quantifier": "every sequence of push/pop operations within the capacity", "why_tests_cant": "operation histories are unbounded", "anchors": ["include/daw/daw_bit_queues.h: basic_bit_queue::push_back, pop_front, pop_back, size"]}
{"id": "C43", "title": "Bitset set/unset/test act on single bits", "statement": "After set(i), test(i) is true; after unset(i), test(i) is false; no other bit changes.", "quantifier": "every bitset size, content and index", "why_tests_cant": "needs every (state, index, other index) triple", "anchors": ["include/daw/daw_bitset.h: set, unset, test"]}
{"id": "C44", "title": "static_bitset single-bit operations act on single bits", "statement": "set_bit(i) sets exactly bit i, clear_bit(i) clears exactly bit i, get_bit(i) reads it.", "quantifier": "every width, content and index", "why_tests_cant": "needs every (state, index, other index) triple", "anchors": ["include/daw/daw_static_bitset.h: static_bitset::set_bit, clear_bit, get_bit"]}
{"id": "C45", "title": "static_bitset shifts are multiplication/division by powers of two", "statement": "operator<<=(n)/operator>>=(n) move bit i to i+n / i-n within the width and fill with zeros.", "quantifier": "every width, content and shift amount", "why_tests_cant": "cross-word carries depend on amount and content", "anchors": ["include/daw/daw_static_bitset.h: static_bitset::operator<<=, operator>>="]}
{"id": "C46", "title": "Ring adaptor is a bounded FIFO", "statement": "Any sequence of push_back/pop_front/front/back/size/operator[] on a ring_adaptor behaves like the same operations on a queue bounded by the capacity.", "quantifier": "every capacity and every operation sequence respecting the preconditions", "why_tests_cant": "wrap-around positions depend on the whole history", "anchors": ["include/daw/daw_ring_adaptor.h: ring_adaptor"]}
{"id": "C47", "title": "bounded_vector behaves like a sequence bounded by its capacity", "statement": "push_back, pop_back, insert, erase, clear, operator[], at, front, back and size on bounded_vector act like the corresponding list operations; exceeding the capacity is reported.", "quantifier": "every capacity, every operation sequence", "why_tests_cant": "histories are unbounded", "anchors": ["include/daw/daw_bounded_vector.h: bounded_vector_t"]}
{"id": "C48", "title": "bounded_vector swap exchanges the contents", "statement": "After a.swap(b), a holds exactly what b held and vice versa.", "quantifier": "every pair of vectors of the same capacity", "why_tests_cant": "only vectors of different sizes expose a loss", "anchors": ["include/daw/daw_bounded_vector.h: bounded_vector_t::swap"]}
{"id": "C49", "title": "Graph edge sets stay symmetric", "statement": "In every reachable graph, v is an outgoing neighbour of u exactly when u is an incoming neighbour of v, all edge endpoints exist, and node ids are never reused.", "quantifier": "every sequence of add_node/add_directed_edge/add_undirected_edge/remove_*", "why_tests_cant": "histories are unbounded, removals with self loops and mutual edges included", "anchors": ["include/daw/daw_graph.h: graph_t::add_node, add_directed_edge, add_undirected_edge, remove_node, remove_directed_edge, remove_edges"]}
{"id": "C50", "title": "Graph node equality identifies nodes", "statement": "Two node handles compare equal exactly when they denote the same node of the same graph, and != is the negation of ==.", "quantifier": "every pair of handles", "why_tests_cant": "needs handles to different nodes of one graph", "anchors": ["include/daw/daw_graph.h: graph_node_t operator==, operator!="]}
{"id": "C51", "title": "Topological walk visits every node of a DAG once, parents first", "statement": "On an acyclic graph topological_sorted_walk visits every node exactly once and each node after all its predecessors.", "quantifier": "every acyclic graph and every iteration order of the hash sets", "why_tests_cant": "all DAGs of all sizes", "anchors": ["include/daw/daw_graph_algorithm.h: topological_sorted_walk"]}
{"id": "C52", "title": "Breadth-/depth-first walks visit exactly the reachable nodes", "statement": "bfs_walk and dfs_walk from a start node terminate and visit exactly the nodes reachable from it.", "quantifier": "every graph (cycles, self loops, diamonds) and start node", "why_tests_cant": "all graphs of all sizes", "anchors": ["include/daw/daw_graph_algorithm.h: bfs_walk, dfs_walk"]}
{"id": "C53", "title": "Breadth-/depth-first walks visit each node once", "statement": "bfs_walk and dfs_walk call the visitor at most once per node.", "quantifier": "every graph and start node", "why_tests_cant": "needs a node reachable by two queued paths", "anchors": ["include/daw/daw_graph_algorithm.h: bfs_walk, dfs_walk"]}
{"id": "C54", "title": "Integer pow is exponentiation", "statement": "pow(b,e) equals b multiplied by itself e times for unsigned integer exponents (modulo the width).", "quantifier": "every base and exponent", "why_tests_cant": "the domain is 2^128 pairs", "anchors": ["include/daw/daw_math.h: pow, impl::pow_impl"]}
{"id": "C55", "title": "abs is the absolute value", "statement": "abs(v) is |v| for every value of every signed integer type, without undefined behaviour.", "quantifier": "all values of all signed widths including the minimum", "why_tests_cant": "2^64 inputs", "anchors": ["include/daw/daw_math.h: abs"]}
{"id": "C56", "title": "Unsigned integer parsing is exact", "statement": "parse_unsigned_int(first,last) on a string of decimal digits returns its value when the digit count fits numeric_limits::digits10 and reports an error otherwise; it never returns a wrapped value.", "quantifier": "every digit string", "why_tests_cant": "unbounded strings", "anchors": ["include/daw/daw_parser_addons.h: parse_unsigned_int, parse_int"]}
{"id": "C57", "title": "parse_to integers reject overflow", "statement": "parse_to_value<T>(str) for an integral T returns the value of the decimal literal str when it is representable in T and throws otherwise.", "quantifier": "every string and every integral type", "why_tests_cant": "unbounded strings; overflow is rare among short literals", "anchors": ["include/daw/daw_parse_to.h: converters::parse_to_value, helpers::parse_int"]}
{"id": "C58", "title": "Delimiter splitting in parse_to assigns fields in order", "statement": "parse_to's positional split yields, for an input consisting of N fields joined by the delimiter, exactly those N fields.", "quantifier": "every field list whose fields do not contain the delimiter, every non-empty delimiter", "why_tests_cant": "unbounded fields and self-overlapping delimiters", "anchors": ["include/daw/daw_parse_to.h: impl::get_positions, default_splitter"]}
{"id": "C59", "title": "FNV-1a hashing depends only on the bytes", "statement": "All entry points of the FNV-1a hash (integer, iterator range, pointer+length, string view, zero-terminated pointer) return the reference FNV-1a value of the byte sequence.", "quantifier": "every byte sequence", "why_tests_cant": "unbounded inputs; signedness only matters for bytes >= 0x80", "anchors": ["include/daw/daw_fnv1a_hash.h: fnv1a_hash_t, fnv1a_hash"]}
{"id": "C60", "title": "siphash24 is SipHash-2-4", "statement": "siphash24(data,len,key) equals the reference SipHash-2-4 value.", "quantifier": "every byte sequence and key", "why_tests_cant": "unbounded inputs; signedness only matters for bytes >= 0x80 in full words", "anchors": ["include/daw/daw_sip_hash.h: siphash24"]}
{"id": "C61", "title": "Folding algorithms visit every element once, in order", "statement": "accumulate/reduce return op(...op(op(init,x1),x2)...,xn); map_reduce folds f(x_i,y_i); partial_sum writes the running folds; find_transform, find_some and for_each_if apply their function to the elements in order up to the first match.", "quantifier": "every range, every operation (no associativity or commutativity assumed)", "why_tests_cant": "an order or off-by-one error is invisible with commutative operations and short ranges", "anchors": ["include/daw/daw_algorithm.h: reduce, map_reduce, find_some, for_each_if", "include/daw/algorithms/daw_algorithm_accumulate.h: accumulate", "include/daw/algorithms/daw_algorithm_partial_sum.h: partial_sum", "include/daw/algorithms/daw_algorithm_find_transform.h: find_transform"]}
{"id": "C62", "title": "fill, fill_n and iota overwrite exactly their range", "statement": "fill/fill_n set exactly the elements of the range to the value; iota sets the k-th element to the k-th successor of the start; everything outside is unchanged.", "quantifier": "every array, every sub-range, every value", "why_tests_cant": "ranges are unbounded", "anchors": ["include/daw/daw_algorithm.h: fill, fill_n, iota"]}
{"id": "C63", "title": "cartesian_product visits every combination", "statement": "cartesian_product(f, first1, last1, first2) calls f on every pair formed from the two ranges.", "quantifier": "every pair of ranges", "why_tests_cant": "the only test uses aligned one-to-one data", "anchors": ["include/daw/daw_algorithm.h: cartesian_product, cartesian_product_map"]}
{"id": "C64", "title": "skip_bits skips the requested number of bits", "statement": "skip_bits(stream,n) (and skip_bytes) advances the stream by exactly n bits: the next read returns the bits that follow.", "quantifier": "every source and every n", "why_tests_cant": "n is unbounded and need not be a multiple of the element width", "anchors": ["include/daw/daw_bit_stream.h: skip_bits, skip_bytes"]}
{"id": "C65", "title": "static_bitset bitwise operators and comparison", "statement": "a|b, a&b, a^b have bit i equal to the or/and/xor of the operands' bits i; ~a flips every bit; a==b holds exactly when all bits agree and a!=b is its negation.", "quantifier": "every width and every pair of contents", "why_tests_cant": "unbounded widths; the last, partly used word is only visible for widths that are not multiples of 64", "anchors": ["include/daw/daw_static_bitset.h: operator|=, operator&=, operator^, operator~, operator==, operator!="]}
{"id": "C66", "title": "static_bitset construction from integers keeps the value", "statement": "static_bitset<W>(v0,v1,...) holds the number v0 + 2^64 v1 + ... reduced modulo 2^W.", "quantifier": "every width W and every list of integers", "why_tests_cant": "the mask of the last word depends on W; tests use few widths", "anchors": ["include/daw/daw_static_bitset.h: static_bitset::static_bitset(Unsigned...), get_diff_mask"]}
{"id": "C67", "title": "static_bitset construction from a string of binary digits", "statement": "static_bitset<W>(str) holds the number written in binary by str (last character lowest); it throws when str is longer than W or contains another character.", "quantifier": "every width and every string", "why_tests_cant": "unbounded strings, digit groups crossing words", "anchors": ["include/daw/daw_static_bitset.h: static_bitset::static_bitset(string_view)"]}
{"id": "C68", "title": "static_bitset hexadecimal output is the content", "statement": "to_string(fmt_hex) is the content in base 16, 16 digits per word, most significant first.", "quantifier": "every width and content", "why_tests_cant": "position arithmetic across words; zero words take another path", "anchors": ["include/daw/daw_static_bitset.h: static_bitset::to_string(fmt_hex_t)"]}
{"id": "C69", "title": "Popping a count of characters", "statement": "sv.pop_front(n)/pop_back(n) return the first/last min(n,size()) characters and leave exactly the others in the view; pop_front()/pop_back() return the first/last character; the _unsafe forms do the same for n <= size().", "quantifier": "every view and every 64-bit count", "why_tests_cant": "Counts around 0, size() and 2^64 and views inside larger buffers cannot be enumerated; the unsafe overload has no test.", "anchors": ["include/daw/daw_string_view.h: pop_front, pop_back, pop_front_unsafe, pop_back_unsafe"]}
{"id": "C70", "title": "contains answers exactly whether the needle occurs", "statement": "Every sv.contains overload returns true exactly when the character or substring occurs (at or after pos when one is given).", "quantifier": "every haystack, needle, character and position", "why_tests_cant": "Quantifies over all pairs of strings; one overload converts an index to bool and only some inputs show it.", "anchors": ["include/daw/daw_string_view.h: contains"]}
{"id": "C71", "title": "Search for any of several needles", "statement": "sv.find_first_match(needles,pos) returns the smallest index >= pos at which some needle occurs, npos when none does.", "quantifier": "every haystack, list of needles and position", "why_tests_cant": "Wrong answers need a needle that partially matches before another one matches; there are unboundedly many such combinations.", "anchors": ["include/daw/daw_string_view.h: find_first_match, search"]}
{"id": "C72", "title": "Element access and copy are exact", "statement": "operator[], front and back return the character at their index; at(i) does so and throws out_of_range for i >= size() in every build; copy(dest,count,pos) writes the characters [pos,min(pos+count,size())) and nothing else and returns how many.", "quantifier": "every view, index, count and destination", "why_tests_cant": "All indices including those near 2^64.", "anchors": ["include/daw/daw_string_view.h: operator[], at, front, back, copy"]}
{"id": "C73", "title": "Stream output pads to the requested width", "statement": "os << sv writes the characters of sv and fill characters up to the stream width, before or after them according to the adjust field, and never truncates.", "quantifier": "every view, width, fill character and alignment", "why_tests_cant": "All combinations of width and length.", "anchors": ["include/daw/daw_string_view.h: operator<<, sv_insert_aligned, sv_insert_fill_chars"]}
{"id": "C74", "title": "Views of C strings and literals show the text before the NUL", "statement": "A view built from a C string shows the characters before the first NUL and is marked zero-terminated; from an array it drops a final NUL (and marks the view) and otherwise shows the whole array unmarked; null gives the empty view.", "quantifier": "every string and array", "why_tests_cant": "All contents, including embedded NULs.", "anchors": ["include/daw/daw_string_view.h: basic_string_view( const_pointer ), basic_string_view( CharT (&)[N] ), strlen"]}
{"id": "C75", "title": "expand_prefix / expand_suffix undo removals", "statement": "After remove_prefix(n)/remove_suffix(n) with n <= size(), expand_prefix(n)/expand_suffix(n) show the original characters again.", "quantifier": "every view and count", "why_tests_cant": "All counts and views, with and without the zero-termination mark.", "anchors": ["include/daw/daw_string_view.h: expand_prefix, expand_suffix"]}
{"id": "C76", "title": "Removing and popping by content is exact", "statement": "remove_prefix_until drops everything up to (and, unless told otherwise, including) the first delimiter; pop_front_while pops and remove_prefix_while/remove_suffix_while drop the maximal run of matching characters; nothing else changes.", "quantifier": "every view, delimiter string or character, character set and predicate", "why_tests_cant": "All contents, matches at either end and no match at all.", "anchors": ["include/daw/daw_string_view.h: remove_prefix_until, remove_prefix_while, remove_suffix_while, pop_front_while"]}
{"id": "C77", "title": "Graph searches return exactly the matching nodes", "statement": "find, find_by_value, find_roots and find_leaves return every node that satisfies the predicate, has the value, has no incoming or has no outgoing edge, each exactly once, and no other node.", "quantifier": "every graph built by the API, every predicate and iteration order", "why_tests_cant": "all graphs and hash orders", "anchors": ["include/daw/daw_graph.h: graph_t::find, find_by_value, find_roots, find_leaves"]}
{"id": "C78", "title": "mst leaves a spanning tree", "statement": "mst keeps all nodes, removes only edges, keeps every node that a root reaches reachable, and leaves exactly one incoming edge on every reachable node that is not a root.", "quantifier": "every graph, iteration order and number of roots", "why_tests_cant": "all graphs; needs shared nodes and cycles", "anchors": ["include/daw/daw_graph_algorithm.h: mst"]}
{"id": "C79", "title": "Breadth-first walk goes by distance", "statement": "When bfs_walk visits a node for the first time, no node visited before it is farther from the start.", "quantifier": "every graph, start node and iteration order", "why_tests_cant": "all graphs and hash orders", "anchors": ["include/daw/daw_graph_algorithm.h: bfs_walk"]}
{"id": "C80", "title": "pow2 and factorial are exact modulo the width", "statement": "pow2<T>(n) is 2^n converted to T and factorial(t) is |t|! modulo 2^64.", "quantifier": "every n >= 0, every signed argument whose absolute value abs computes correctly", "why_tests_cant": "all arguments including those that overflow", "anchors": ["include/daw/daw_math.h: pow2, factorial"]}
{"id": "C81", "title": "Variadic min and max pick the extreme argument", "statement": "daw::max(v, vs...) and daw::min(v, vs...) return the greatest and least of their arguments; min_comp, max_comp and value_or_min the smaller or larger of two.", "quantifier": "every number of arguments, every mix of integer types, every value, every strict weak ordering", "why_tests_cant": "all value and type combinations", "anchors": ["include/daw/impl/daw_math_impl.h: max, min, min_comp, max_comp", "include/daw/daw_math.h: value_or_min"]}
{"id": "C82", "title": "A natural_t always holds a natural number", "statement": "After any history of assignments, +=, -=, *=, /=, %=, ++ and -- that does not overflow, a natural_t holds the exact result, which is at least one; a call whose result would be less than one throws.", "quantifier": "every integer type and every history of calls", "why_tests_cant": "all histories; overflow excluded by the documentation", "anchors": ["include/daw/daw_natural.h: natural_t"]}
{"id": "C83", "title": "Counting leading and trailing zero bits", "statement": "The portable count_leading_zeroes and count_trailing_zeros return the number of zero bits above the highest and below the lowest one bit, and the width for zero.", "quantifier": "every 32-bit and 64-bit argument", "why_tests_cant": "2^64 arguments", "anchors": ["include/daw/daw_cxmath.h: count_leading_zeroes, cxmath_impl::count_trailing_zeros_cx32, count_trailing_zeros_cx64"]}
{"id": "C84", "title": "round_up_pow2 is the next power of two", "statement": "round_up_pow2(v) is the smallest power of two that is at least v when it is representable, and 0 for v = 0 or when it is not.", "quantifier": "every value of every unsigned width", "why_tests_cant": "all values", "anchors": ["include/daw/daw_cxmath.h: round_up_pow2"]}
{"id": "C85", "title": "popcount counts the one bits", "statement": "popcount(i) is the number of one bits in the representation of i.", "quantifier": "every value of every signed and unsigned type", "why_tests_cant": "all values; negative narrow values need the promotion rules", "anchors": ["include/daw/daw_cxmath.h: popcount"]}
{"id": "C86", "title": "count_digits is the decimal length", "statement": "count_digits(v) is the number of decimal digits of v.", "quantifier": "every 64-bit value", "why_tests_cant": "2^64 values", "anchors": ["include/daw/daw_cxmath.h: count_digits, powers_of_ten"]}
{"id": "C87", "title": "cxmath integer comparisons compare values", "statement": "cmp_equal, cmp_not_equal, cmp_less, cmp_greater, cmp_less_equal and cmp_greater_equal in daw::cxmath give the mathematical comparison of their arguments.", "quantifier": "every pair of integer types and values", "why_tests_cant": "all type pairs and values", "anchors": ["include/daw/daw_cxmath.h: cmp_equal_t, cmp_less_t, cmp_greater_t"]}
{"id": "C88", "title": "pow_n and cxmath::pow are exponentiation", "statement": "pow_n(x,n) and pow(b,e) return the exact power whenever it is representable; for negative exponents pow returns the reciprocal rounded towards zero.", "quantifier": "every integer type, base and exponent", "why_tests_cant": "all bases and exponents; intermediate overflow must not happen", "anchors": ["include/daw/daw_cxmath.h: pow_n, pow"]}
{"id": "C89", "title": "is_odd and is_even decide parity", "statement": "is_odd(i) and is_even(i) return whether i is odd, respectively even.", "quantifier": "every value of every integer type", "why_tests_cant": "all values", "anchors": ["include/daw/daw_cxmath.h: is_odd, is_even"]}
{"id": "C90", "title": "fp_classify is the IEEE class", "statement": "fp_classify names the IEEE 754 class (zero, subnormal, normal, infinity, NaN) of its argument.", "quantifier": "every bit pattern of float and double", "why_tests_cant": "2^64 bit patterns", "anchors": ["include/daw/daw_cxmath.h: fp_classify, cxmath_impl::fp_classify_impl"]}
{"id": "C91", "title": "Exponent access changes only the exponent", "statement": "get_exponent returns the unbiased exponent, set_exponent(r,e) keeps sign and significand and sets the exponent to e, and pow2<Real>(e) is the floating point number 2^e.", "quantifier": "every bit pattern of float and double, every exponent of a normal number", "why_tests_cant": "all bit patterns", "anchors": ["include/daw/daw_cxmath.h: get_exponent, set_exponent, pow2"]}
{"id": "C92", "title": "pow10 is a power of ten", "statement": "pow10(e) is 10^e whenever that fits uintmax_t.", "quantifier": "every e with 10^e < 2^64", "why_tests_cant": "boundary of the lookup table", "anchors": ["include/daw/daw_cxmath.h: pow10, cxmath_impl::pow10_t"]}
{"id": "C93", "title": "generic_hash is FNV-1a", "statement": "generic_hash of an integer, or of a range of integers, is the reference FNV-1a value of the little-endian bytes, and equals what fnv1a_hash gives for the same data; generic_hash of different data through a pointer to an object, or with a 2-byte hash, depends on the data.", "quantifier": "every integer type, value and range", "why_tests_cant": "unbounded inputs", "anchors": ["include/daw/daw_generic_hash.h: generic_hash, generic_hash_t"]}
{"id": "C94", "title": "FNV-1a never maps inputs differing in one byte to one hash", "statement": "Two byte sequences of equal length that differ in exactly one position have different FNV-1a hashes; in particular distinct one-byte integers have distinct hashes.", "quantifier": "every byte sequence, every position, both hash widths", "why_tests_cant": "a statement about all pairs of inputs", "anchors": ["include/daw/daw_fnv1a_hash.h: fnv1a_hash"]}
{"id": "C95", "title": "hash64 is MetroHash64", "statement": "hash64(view, seed) equals the reference MetroHash64 value, reading exactly the bytes of the view.", "quantifier": "every byte sequence and seed", "why_tests_cant": "unbounded inputs; signedness only matters for a trailing byte >= 0x80", "anchors": ["include/daw/daw_metro_hash.h: metro::hash64"]}
{"id": "C96", "title": "shuffle is an unbiased permutation", "statement": "shuffle(first,last) rearranges the elements of the range (nothing lost or duplicated), every arrangement can occur, and with independent uniform draws every arrangement of distinct elements is equally likely.", "quantifier": "every range and every sequence of random draws", "why_tests_cant": "quantifies over all random draws; bias is invisible to single runs", "anchors": ["include/daw/daw_random.h: shuffle"]}
{"id": "C97", "title": "static_random has full period", "statement": "A static_random goes through all 2^w states of a size_t before it repeats, whatever the seed; generators with different seeds never coincide after the same number of calls; every value returned is the FNV-1a hash of the current state.", "quantifier": "every seed and every number of calls, 32- and 64-bit size_t", "why_tests_cant": "the period is 2^64 steps", "anchors": ["include/daw/daw_random.h: static_random, rand_lcg"]}
{"id": "C98", "title": "Random data respects its bounds", "statement": "randint, random_fill, make_random_data and RandomInteger give values between the inclusive bounds, as many as asked for, for all lower <= upper, and report lower > upper.", "quantifier": "all bounds, counts and random draws", "why_tests_cant": "quantifies over all draws and bounds", "anchors": ["include/daw/daw_random.h: randint, random_fill, make_random_data, RandomInteger"]}
{"id": "C99", "title": "Text that is not a number is rejected", "statement": "parse_to_value<T> and parse_unsigned_int never return a value for text that is not a decimal number: other characters, nothing at all, or a sign without digits.", "quantifier": "every string, every integral type", "why_tests_cant": "unbounded strings; a test picks a few malformed inputs", "anchors": ["include/daw/daw_parse_to.h: converters::parse_to_value, helpers::parse_int", "include/daw/daw_parser_addons.h: parse_unsigned_int"]}
{"id": "C100", "title": "White space splitters do as documented", "statement": "whitespace_splitter splits at each white space character, single_whitespace_splitter treats a run of white space as one delimiter; exactly the Unicode White_Space characters separate.", "quantifier": "every text, every number of fields", "why_tests_cant": "unbounded texts, all character values", "anchors": ["include/daw/daw_parse_to.h: basic_whitespace_splitter, whitespace_splitter, single_whitespace_splitter, is_unicode_whitespace"]}
{"id": "C101", "title": "until and skip_ws stop at the first match", "statement": "until(first,last,pred), until_false, until_value and skip_ws stop at the first element that satisfies the condition and report whether there is one; no element outside the range is read.", "quantifier": "every range, every predicate", "why_tests_cant": "unbounded ranges", "anchors": ["include/daw/daw_parser_helper.h: until, until_false, until_value, skip_ws", "include/daw/daw_parser_helper_sv.h: find_first_of_when"]}
{"id": "C102", "title": "Membership predicates answer membership", "statement": "value_in(v,c), in(c) and one_of(\u2026) hold exactly for the values in the container; until_values stops at the first of them; expect accepts exactly the listed values.", "quantifier": "every value and container", "why_tests_cant": "all values and containers", "anchors": ["include/daw/daw_parser_helper.h: value_in, in, one_of, until_values, expect"]}
{"id": "C103", "title": "split_on and split_if terminate with the pieces", "statement": "split_on/split_if return the end positions of the pieces between dividers, for every input.", "quantifier": "every range and every set of dividers", "why_tests_cant": "termination cannot be tested", "anchors": ["include/daw/daw_parser_helper.h: split_on, split_if"]}
{"id": "C104", "title": "trim removes exactly the surrounding white space", "statement": "trim_left, trim_right and trim remove all leading/trailing white space and nothing else, on iterator ranges and on string views.", "quantifier": "every text", "why_tests_cant": "unbounded texts, inner white space, all-blank texts", "anchors": ["include/daw/daw_parser_helper.h: trim_left, trim_right, trim", "include/daw/daw_parser_helper_sv.h: trim_left, trim_right, trim"]}
{"id": "C105", "title": "Parser assertions fail exactly when violated", "statement": "assert_equal throws exactly when the values differ, assert_not_equal when they are equal, assert_empty when the range is not empty.", "quantifier": "all values and ranges", "why_tests_cant": "all pairs of values", "anchors": ["include/daw/daw_parser_helper.h: assert_equal, assert_not_equal, assert_empty"]}
{"id": "C106", "title": "Prefix, last occurrence and text search", "statement": "starts_with decides whether the second range is a prefix of the first under the predicate; until_last_of stops at the last occurrence; matcher finds the first occurrence of a text.", "quantifier": "every pair of ranges, every predicate", "why_tests_cant": "unbounded ranges", "anchors": ["include/daw/daw_parser_helper.h: starts_with, until_last_of, matcher"]}
{"id": "C107", "title": "Quoted strings are returned without their quotes", "statement": "parse_to_value of a quoted string returns the characters between the quotes, escaped quotes included, and throws when there is no closing quote; nothing outside the text is read.", "quantifier": "every text, with and without the debug checks", "why_tests_cant": "unbounded bodies; reading past the end is silent", "anchors": ["include/daw/daw_parse_to.h: converters::parse_to_value( string_view, tag<std::string> ), is_unescaped_quote"]}
{"id": "C108", "title": "String literals are found with their end", "statement": "parse_string_literal skips leading white space and returns the range between the opening quote and the first unescaped closing quote, and throws when there is none.", "quantifier": "every range", "why_tests_cant": "unbounded bodies and escape patterns", "anchors": ["include/daw/daw_parser_addons.h: parse_string_literal"]}
{"id": "C109", "title": "Number and delimited-section search", "statement": "find_number returns the range of the first number; from_to returns the range from the first element with one condition to the next with the other, or throws if it cannot.", "quantifier": "every range", "why_tests_cant": "unbounded ranges", "anchors": ["include/daw/daw_parser_addons.h: find_number", "include/daw/daw_parser_helper.h: from_to, from_to_pred"]}
{"id": "C110", "title": "is_crlf(n) recognises n line ends", "statement": "An is_crlf(n) object called with the characters of a stream answers true exactly when the last 2n characters are n CR LF pairs.", "quantifier": "every stream of characters, every n", "why_tests_cant": "unbounded histories of calls", "anchors": ["include/daw/daw_parser_helper.h: is_crlf"]}
{"id": "C111", "title": "find_first_of_any terminates", "statement": "find_first_of_any(first,last,values) returns the first place where the values occur in sequence, for every input.", "quantifier": "every range and sequence", "why_tests_cant": "termination cannot be tested", "anchors": ["include/daw/daw_parser_helper.h: find_first_of_any"]}
{"id": "C112", "title": "Timed waits report what happened", "statement": "atomic_wait_for, atomic_wait_if_for and atomic_wait_value_equal_for return found only if the condition held at some moment of the call, timeout only once the time is over; they end when the time is over or the condition holds for good, and a condition observed to hold is reported as found, for every relative time.", "quantifier": "every behaviour of the other threads and of the clock, every duration", "why_tests_cant": "quantifies over all schedules", "anchors": ["include/daw/daw_atomic_wait.h: atomic_wait_for, atomic_wait_if_for, atomic_wait_value_equal_for, atomic_wait_impl::poll_with_backoff"]}
{"id": "C113", "title": "Waits for a predicate end exactly when it holds", "statement": "atomic_wait_if returns only after loading a value that satisfies the predicate, and does return if the predicate holds for good from some moment; atomic_wait_value_equal likewise for a value.", "quantifier": "every behaviour of the other threads", "why_tests_cant": "quantifies over all schedules", "anchors": ["include/daw/daw_atomic_wait.h: atomic_wait_if, atomic_wait_value_equal"]}
{"id": "C114", "title": "allow_once has exactly one first caller", "statement": "Among the checks between two resets exactly the first is told that it is the first, whatever threads they come from.", "quantifier": "every interleaving of calls of any number of threads", "why_tests_cant": "quantifies over all schedules", "anchors": ["include/daw/daw_allow_once.h: allow_once_t"]}
{"id": "C115", "title": "The counter of counted resources is the number of live objects", "statement": "After any history of constructions, copies, assignments and destructions the counter equals the number of live objects.", "quantifier": "every history", "why_tests_cant": "unbounded histories", "anchors": ["include/daw/daw_countable_resource.h: counted_resource"]}
{"id": "C116", "title": "atomic<T> loses no update", "statement": "However the operations of several threads interleave, the final value is the initial one plus everything added; x++ hands out different values; of several compare_exchange from one value exactly one succeeds; constant evaluation and run time agree.", "quantifier": "every number of threads, every interleaving, every integral type", "why_tests_cant": "quantifies over all schedules", "anchors": ["include/daw/daw_cx_atomic.h: atomic"]}
{"id": "C117", "title": "rc_ptr deletes its object exactly when the last owner goes", "statement": "After any history of copies, moves, assignments, swaps, resets and destructions of rc_ptr variables, an object exists exactly as long as a variable points to it; it is never deleted twice; reset() empties the pointer.", "quantifier": "every history of statements on any number of variables, single objects and arrays", "why_tests_cant": "unbounded histories; a dangling pointer is silent", "anchors": ["include/daw/daw_ref_counted_pointer.h: rc_ptr<T>, rc_ptr<T[]>"]}
{"id": "C118", "title": "Filter, TakeUntil, TakeWhile and Every select the right elements", "statement": "Over any forward range Filter keeps exactly the elements that satisfy the predicate in order, TakeUntil the longest prefix without one that satisfies it, TakeWhile the longest prefix whose elements satisfy it, and Every(k) the elements 0, k, 2k, ...", "quantifier": "every range, predicate and step", "why_tests_cant": "all inputs", "anchors": ["include/daw/pipelines/filter.h: Filter, filter_view", "include/daw/pipelines/take.h: TakeUntil, TakeWhile", "include/daw/pipelines/every.h: Every"]}
{"id": "C119", "title": "Map applies the function to every projected element", "statement": "Map(f, projection) over a range visits f(projection(x)) for every element x in order and keeps the length and distances; applied to a single value it is f(projection(v)).", "quantifier": "every range, function and projection", "why_tests_cant": "all inputs", "anchors": ["include/daw/pipelines/map.h: Map, map_view"]}
{"id": "C120", "title": "Take, Skip, DropWhile and DropUntil cut at the right place", "statement": "Take(n) is the first min(n, size) elements, Skip(n) everything after them, DropWhile and DropUntil remove exactly the leading elements that (do not) satisfy the predicate; distances of the result are right.", "quantifier": "every range and every size_t count", "why_tests_cant": "all inputs including extreme counts", "anchors": ["include/daw/pipelines/take.h: Take", "include/daw/pipelines/sized_iterator.h: sized_iterator", "include/daw/pipelines/skip.h: Skip", "include/daw/pipelines/drop.h: DropWhile, DropUntil"]}
{"id": "C121", "title": "Chunk partitions a range", "statement": "Chunk(k) visits consecutive pieces of k elements, the last possibly shorter, whose concatenation is the range, and ends for every k.", "quantifier": "every range and chunk size", "why_tests_cant": "all inputs", "anchors": ["include/daw/pipelines/chunk.h: Chunk, chunk_view"]}
{"id": "C122", "title": "Slide visits all windows", "statement": "Slide(w) visits exactly the size-w+1 windows of w consecutive elements in order, and none if the range is shorter than w.", "quantifier": "every range and window size", "why_tests_cant": "all inputs", "anchors": ["include/daw/pipelines/slide.h: Slide, slide_view"]}
{"id": "C123", "title": "Zip and Enumerate pair elements", "statement": "Zip pairs the elements at equal positions and stops at the end of the shorter range, Enumerate pairs every element with its position; the number of elements reported is the number visited.", "quantifier": "every pair of ranges, every index type", "why_tests_cant": "all inputs", "anchors": ["include/daw/pipelines/zip.h: Zip, zip_iterator, zip_view", "include/daw/pipelines/enumerate.h: Enumerate, EnumerateFrom"]}
{"id": "C124", "title": "Flatten and Concat visit all elements of all ranges", "statement": "Flatten over a range of ranges and Concat over several ranges visit the concatenation, also if some of the ranges are empty.", "quantifier": "every sequence of ranges", "why_tests_cant": "all inputs", "anchors": ["include/daw/pipelines/flatten.h: Flatten, flatten_view", "include/daw/pipelines/concat.h: Concat, concat_view"]}
{"id": "C125", "title": "Unique collapses runs", "statement": "Unique visits the first element of each run of equal neighbours.", "quantifier": "every range and equivalence", "why_tests_cant": "all inputs", "anchors": ["include/daw/pipelines/unique.h: Unique, unique_view"]}
{"id": "C126", "title": "Split visits the fields between delimiters", "statement": "Split visits the parts between delimiters (a value, a predicate or a range) in order, without the delimiters; a last empty part is not visited; counting the parts gives their number.", "quantifier": "every range and delimiter", "why_tests_cant": "all inputs", "anchors": ["include/daw/pipelines/split.h: Split, split_view, split_view_iterator"]}
{"id": "C127", "title": "Searches, counts, sums and arrays at the end of a pipeline are right", "statement": "Find and FindIf<W> return the first match (of W neighbours) or the end, Contains whether there is one, First the first element if any, Count and CountIf the number of elements, Sum the sum in the value type, To<std::array> the first N elements padded with the default.", "quantifier": "every range, predicate, projection and width", "why_tests_cant": "all inputs", "anchors": ["include/daw/pipelines/find.h: Find, FindIf", "include/daw/pipelines/algorithm.h: Contains", "include/daw/pipelines/first.h: First", "include/daw/pipelines/numeric.h: Count, CountIf, Sum", "include/daw/pipelines/to.h: To"]}
{"id": "C128", "title": "iota_view counts", "statement": "iota_view{first,last} visits first, first+1, ..., last-1 and its distance is last-first.", "quantifier": "every integer type and bounds", "why_tests_cant": "all inputs", "anchors": ["include/daw/pipelines/iota.h: iota_view, iota_iterator"]}
{"id": "C129", "title": "Reverse visits the elements backwards", "statement": "Reverse visits the elements of an array in reverse order; reversing twice gives the original order.", "quantifier": "every array", "why_tests_cant": "all inputs", "anchors": ["include/daw/pipelines/reverse.h: Reverse", "include/daw/iterator/daw_reverse_iterator.h: reverse_iterator"]}
{"id": "C130", "title": "A pipeline does what its stages mean in order", "statement": "pipeline(r, stages...) visits what applying the meaning of each stage, first to last, to the elements of r gives, for any number of stages.", "quantifier": "every range and every finite list of Filter, Map, Take, Skip, DropWhile, DropUntil, TakeUntil, Unique stages", "why_tests_cant": "unbounded compositions", "anchors": ["include/daw/pipelines/pipeline.h: pipeline"]}
{"id": "C131", "title": "A vector is a list under any history of operations", "statement": "After any sequence of push_back, pop_back, insert (all overloads), emplace, erase, erase_if, append, resize, assign, reserve, shrink_to_fit and clear the vector holds exactly the elements the same sequence of list operations gives, also when the inserted value is one of its own elements; no element is lost, destroyed twice, read after a move or left alive in the unused part of the storage.", "quantifier": "every vector, element type, capacity and operation sequence, arguments inside and outside of the vector", "why_tests_cant": "all histories, all capacities and aliasing", "anchors": ["include/daw/vector.h: vector"]}
{"id": "C132", "title": "length_error exactly when the result is too long", "statement": "A growing member throws length_error if and only if the resulting size would exceed max_size(); otherwise it succeeds.", "quantifier": "every vector, operation and count", "why_tests_cant": "all sizes", "anchors": ["include/daw/vector.h: vector::recommend, push_back, insert, append, resize, assign, reserve"]}
{"id": "C133", "title": "A count of any size is checked", "statement": "append(n, x) and insert(p, n, x) throw length_error for every n for which size() + n is larger than max_size().", "quantifier": "every size_type n", "why_tests_cant": "counts near 2^64 cannot be tested", "anchors": ["include/daw/vector.h: vector::append, insert"]}
{"id": "C134", "title": "Capacity", "statement": "Operations whose result fits keep the storage; reserve(n) gives max(n, capacity()), shrink_to_fit gives size(), push_back doubles up to max_size(), so pushing n elements reallocates at most 1 + log2(n) times.", "quantifier": "every vector and number of pushes", "why_tests_cant": "unbounded histories", "anchors": ["include/daw/vector.h: vector::recommend, reserve, shrink_to_fit, push_back"]}
{"id": "C135", "title": "insert and erase return the position", "statement": "insert and emplace return an iterator to the first inserted element (the position if nothing was inserted); erase returns the position of the element after the erased ones, and keeps the capacity.", "quantifier": "every vector and position", "why_tests_cant": "all positions", "anchors": ["include/daw/vector.h: vector::insert, emplace, erase"]}
{"id": "C136", "title": "Construction, copy, move and destruction of vectors", "statement": "The constructors build exactly the given elements (length_error if too many); copies are equal and leave the source alone; moves empty the source; swap exchanges; the destructor destroys every element exactly once.", "quantifier": "every vector and list of elements", "why_tests_cant": "all inputs, all capacities", "anchors": ["include/daw/vector.h: vector::vector, operator=, swap, ~vector"]}
{"id": "C137", "title": "Element access", "statement": "at(n) throws exactly if n >= size() and is the nth element otherwise; operator[], front, back, size and empty agree with the list; pop_back_value returns the last element and removes it.", "quantifier": "every vector and index", "why_tests_cant": "all inputs", "anchors": ["include/daw/vector.h: vector::at, operator[], front, back, pop_back_value"]}
{"id": "C138", "title": "Comparison of vectors", "statement": "== is equality of the elements, < is the lexicographical order.", "quantifier": "every pair of vectors", "why_tests_cant": "all inputs", "anchors": ["include/daw/vector.h: operator==, operator<"]}
{"id": "C139", "title": "erase_if removes exactly the matches", "statement": "erase and erase_if remove exactly the matching elements, keep the order of the others and return the number removed.", "quantifier": "every vector and predicate", "why_tests_cant": "all inputs", "anchors": ["include/daw/vector.h: erase_if, erase"]}
{"id": "C140", "title": "resize_and_overwrite and append_and_overwrite", "statement": "The operation gets storage for at least n elements, with the old elements; afterwards the vector holds as many of the elements it wrote as its result says; too large a result is caught, nothing leaks.", "quantifier": "every vector, count and operation", "why_tests_cant": "all inputs and callbacks", "anchors": ["include/daw/vector.h: vector::resize_and_overwrite, append_and_overwrite"]}
{"id": "C141", "title": "block_append_from appends the range", "statement": "block_append_from and block_create_from append all elements of the range and return.", "quantifier": "every vector, range and block size", "why_tests_cant": "termination", "anchors": ["include/daw/vector.h: block_append_from, block_create_from"]}
{"id": "C142", "title": "assign(n, u) of an element of the vector", "statement": "assign(n, u) makes the vector n copies of u, also if u is an element of the vector.", "quantifier": "every vector, count and element", "why_tests_cant": "aliasing with and without reallocation", "anchors": ["include/daw/vector.h: vector::assign"]}
{"id": "C143", "title": "split_buffer is a double ended queue", "statement": "After any sequence of push_front, push_back, pop_front, pop_back and shrink_to_fit a split_buffer holds what a double ended queue holds; reserve(n) gives a capacity of at least n and keeps the elements; construct_at_end appends a range.", "quantifier": "every sequence of operations, every element type", "why_tests_cant": "all histories", "anchors": ["include/daw/split_buffer.h: split_buffer"]}
{"id": "C144", "title": "iota_op fills a vector with a progression", "statement": "resize_and_overwrite(n, iota_op{first, step}) gives first, first+step, ..., n elements.", "quantifier": "every integer type, first, step and n", "why_tests_cant": "all inputs", "anchors": ["include/daw/vector_algorithm.h: iota_op"]}
{"id": "C145", "title": "A circular iterator moves modulo the size", "statement": "it + n, it - n, ++ and -- on a circular iterator over a non-empty container end at the position (old position + distance) modulo the size, which can be dereferenced.", "quantifier": "every non-empty container, position and offset (any sign) and every history of ++ and --", "why_tests_cant": "all sizes, offsets and histories", "anchors": ["include/daw/iterator/daw_circular_iterator.h: circular_iterator::get_offset, operator+=, operator-=, operator++, operator--"]}
{"id": "C146", "title": "A loop over a circular iterator ends after one round", "statement": "for( it = make_circular_iterator( c ); it != it.end( ); ++it ) visits every element once and ends.", "quantifier": "every container", "why_tests_cant": "non-termination cannot be observed by a test", "anchors": ["include/daw/iterator/daw_circular_iterator.h: circular_iterator::operator++, end, equal_to"]}
{"id": "C147", "title": "A chunk iterator moves by whole chunks", "statement": "++ and += n advance by one and n chunks; -- and -= n go back as far; the difference of two iterators is the number of chunks between them; a loop visits the first element of every chunk.", "quantifier": "every range, chunk size, position and offset", "why_tests_cant": "all lengths and chunk sizes", "anchors": ["include/daw/iterator/daw_chunk_iterator.h: chunk_iterator"]}
{"id": "C148", "title": "An indexed iterator is a position", "statement": "Arithmetic, differences, comparisons and dereferencing of indexed iterators agree with integer positions from 0 to size(); a loop from ibegin to iend visits all elements in order; with checks compiled in, valid operations pass and invalid ones are caught.", "quantifier": "every container, position and offset, with and without debug checks", "why_tests_cant": "all sizes and offsets", "anchors": ["include/daw/iterator/daw_indexed_iterator.h: indexed_iterator, ibegin, iend"]}
{"id": "C149", "title": "find_iterator visits the elements satisfying the predicate", "statement": "A loop over make_find_iterator( first, last, pred ) visits exactly the elements for which pred holds, in order.", "quantifier": "every range and predicate", "why_tests_cant": "all ranges and predicates", "anchors": ["include/daw/iterator/daw_find_iterator.h: find_iterator"]}
{"id": "C150", "title": "find_one_iterator visits the elements for which some predicate holds", "statement": "A loop over a find_one_iterator visits exactly the elements for which one of the predicates holds, each with the index of the first such predicate.", "quantifier": "every range and list of predicates", "why_tests_cant": "all ranges and predicates", "anchors": ["include/daw/iterator/daw_find_one_iterator.h: find_one_iterator", "include/daw/daw_algorithm.h: find_one_of"]}
{"id": "C151", "title": "A counting iterator knows how far it has moved", "statement": "After any history of ++ and -- distance() is the number of increments less the number of decrements and the iterator stands that far from its start.", "quantifier": "every range, start and history", "why_tests_cant": "all histories", "anchors": ["include/daw/iterator/daw_counting_iterators.h: forward_counting_iterator, bidirectional_counting_iterator"]}
{"id": "C152", "title": "iota_iterator is an arithmetic progression", "statement": "++ and -- move by the step, + n and - n and += n by n steps; differences count steps; comparisons agree with the values; iota_range( first, last, step ) visits first, first + step, ... below last.", "quantifier": "every integer type, start, step and offset", "why_tests_cant": "all types, values near the limits", "anchors": ["include/daw/iterator/daw_iota_iterator.h: iota_iterator, iota_range"]}
{"id": "C153", "title": "integer_range visits [first, last)", "statement": "A loop over integer_range( first, last ) visits first, first + 1, ..., last - 1 (for unsigned types also across the wrap-around).", "quantifier": "every integer type and pair of values", "why_tests_cant": "all types, values at the limits", "anchors": ["include/daw/iterator/daw_integer_iterator.h: integer_range"]}
{"id": "C154", "title": "repeat_n_char_iterator yields n copies", "statement": "From repeat_n_char_iterator( n, c ) to the end are exactly n copies of c; it + n is the iterator reached by n increments.", "quantifier": "every count and value", "why_tests_cant": "all counts", "anchors": ["include/daw/iterator/daw_repeat_n_char_iterator.h: repeat_n_char_iterator"]}
{"id": "C155", "title": "zipiter walks ranges in step", "statement": "A loop over two zipped ranges of equal length visits the pairs of their elements; all components advance together; with different lengths the loop never ends normally.", "quantifier": "every pair of ranges", "why_tests_cant": "all lengths", "anchors": ["include/daw/iterator/daw_zipiter.h: zip_iterator"]}
{"id": "C156", "title": "Output iterators deliver every value once", "statement": "Copying values to a back, end or function inserter appends or applies them in order; copying to a sorted inserter keeps the container sorted, loses and adds nothing else, and puts a new value before older equivalent ones.", "quantifier": "every container, sequence of values and strict weak order", "why_tests_cant": "all sequences and orders", "anchors": ["include/daw/iterator/daw_back_inserter.h: back_inserter", "include/daw/iterator/daw_end_inserter.h: end_inserter_iterator", "include/daw/iterator/daw_function_iterator.h: function_iterator", "include/daw/iterator/daw_sorted_insert_iterator.h: sorted_iterator_vector_callable"]}
{"id": "C157", "title": "A checked iterator throws instead of leaving its range", "statement": "Incrementing at last, decrementing at first and dereferencing at last throw when the respective check is enabled, and are passed through otherwise; postfix operators move the iterator.", "quantifier": "every range, position and choice of checks", "why_tests_cant": "all combinations and positions", "anchors": ["include/daw/iterator/daw_checked_iterator_proxy.h: checked_iterator_proxy_t"]}
{"id": "C158", "title": "arg_iterator visits all arguments", "statement": "A loop over arg_iterator visits every argument in order; at( n ) returns the argument or throws if there is none; comparisons agree with positions.", "quantifier": "every argument list, position and offset", "why_tests_cant": "all argument lists", "anchors": ["include/daw/iterator/daw_argument_iterator.h: arg_iterator_t"]}
{"id": "C159", "title": "Type-erased iterators behave as values", "statement": "After any history of constructions, copies, moves, assignments, increments and destructions every InputIterator reads the value it would have without erasure, and exactly the values that are still held are allocated.", "quantifier": "every history over any number of objects and erased types", "why_tests_cant": "all histories", "anchors": ["include/daw/iterator/InputIterator.h: InputIterator"]}
{"id": "C160", "title": "hash_set_t holds the inserted keys", "statement": "After inserting any keys, exists and count are right for every key as long as there are at most as many different keys as slots; one more key throws; a key keeps the slot that insert returned and different keys have different slots.", "quantifier": "every number of slots, hash function and sequence of keys", "why_tests_cant": "all hash functions and key sequences, including collisions", "anchors": ["include/daw/daw_hash_set.h: hash_set_t"]}
{"id": "C161", "title": "bounded_hash_set holds the inserted keys", "statement": "While nothing is erased, exists, find of a present key and empty are right, up to one key per slot; one more key aborts.", "quantifier": "every positive number of slots, hash function and sequence of keys", "why_tests_cant": "all hash functions and key sequences", "anchors": ["include/daw/deprecated/daw_bounded_hash_set.h: bounded_hash_set_t"]}
{"id": "C162", "title": "Erasing a key leaves the other keys", "statement": "After any history of insertions and erasures a bounded_hash_set or bounded_hash_map contains exactly the keys that were inserted and not erased since.", "quantifier": "every number of slots, hash function and history", "why_tests_cant": "all histories, with and without collisions", "anchors": ["include/daw/deprecated/daw_bounded_hash_set.h: erase", "include/daw/deprecated/daw_bounded_hash_map.h: erase"]}
{"id": "C163", "title": "find, erase and loops of a bounded_hash_set", "statement": "find of an absent key returns end( ), erase of an absent key reports it, and a loop over the set visits every key once.", "quantifier": "every number of slots, hash function and sequence of keys", "why_tests_cant": "all hash functions and key sequences", "anchors": ["include/daw/deprecated/daw_bounded_hash_set.h: find, erase, begin, operator++"]}
{"id": "C164", "title": "bounded_hash_map is a map", "statement": "While nothing is erased, every lookup returns the last value stored for the key, size, count, empty and find agree with the stored keys, and a loop visits every stored pair once; a full map reports an error.", "quantifier": "every number of slots, hash function and history of insert and operator[]", "why_tests_cant": "all histories", "anchors": ["include/daw/deprecated/daw_bounded_hash_map.h: bounded_hash_map"]}
{"id": "C165", "title": "find of an absent key in a bounded_hash_map returns end", "statement": "find of a key that is not in the map returns end( ).", "quantifier": "every history and absent key", "why_tests_cant": "all histories and keys", "anchors": ["include/daw/deprecated/daw_bounded_hash_map.h: find"]}
{"id": "C166", "title": "static_hash_t returns the stored value for each key", "statement": "A table made of key value pairs returns the last value given for each key and a default value for other keys.", "quantifier": "every number of slots, hash function and list of pairs", "why_tests_cant": "all hash functions and pairs", "anchors": ["include/daw/static_hash_table.h: static_hash_t"]}
{"id": "C167", "title": "fixed_lookup returns the stored value for each key", "statement": "After any insertions, lookups return the last value stored for each key, exists and size agree with the stored keys, looking up an absent key throws, one key too many throws, and the position insert returns stays that of the key.", "quantifier": "every number of slots, hash function and list of pairs", "why_tests_cant": "all hash functions and pairs", "anchors": ["include/daw/deprecated/daw_fixed_lookup.h: fixed_lookup"]}
{"id": "C168", "title": "A perfect_hash_table is constructed for any set of keys and finds exactly those", "statement": "The construction ends for all lists of different keys; then find, contains and operator[] find every key with its value, and no other key.", "quantifier": "every hash function and every non-empty list of pairs with different keys", "why_tests_cant": "all key sets and hash functions; the search for salts has no bound", "anchors": ["include/daw/daw_min_perfect_hash.h: perfect_hash_table"]}
{"id": "C169", "title": "A span shows the elements it was made from", "statement": "A span made from a pointer and a size or two pointers has that size; forward and reverse loops, operator[], at, front and back read exactly its elements; at throws past the end.", "quantifier": "every array, span and index", "why_tests_cant": "all arrays and positions", "anchors": ["include/daw/daw_span.h: span"]}
{"id": "C170", "title": "Shrinking a span removes exactly the named elements", "statement": "Any history of remove_prefix, remove_suffix, pop_front, pop_back, pop, subspan and writes leaves the elements that remain, hands out those removed in order, and changes nothing outside the span; asking for more elements than there are is an error or gives what is there.", "quantifier": "every array and history of operations", "why_tests_cant": "all histories", "anchors": ["include/daw/daw_span.h: remove_prefix, remove_suffix, pop_front, pop_back, pop, subspan"]}
{"id": "C171", "title": "A contiguous_view shows and removes exactly its elements", "statement": "Size, loops, operator[], at, front, back, find and find_first_not_of read the viewed elements; any history of removals, pops and searches leaves and hands out the right elements; add_prefix undoes remove_prefix; an index outside the view fails its assertion.", "quantifier": "every array and history, with and without assertions", "why_tests_cant": "all arrays and histories", "anchors": ["include/daw/daw_contiguous_view.h: contiguous_view"]}
{"id": "C172", "title": "subspan of contiguous_view and iter_view gives the requested part", "statement": "subspan( offset, count ) views the count elements after offset, or those there are.", "quantifier": "every view, offset and count", "why_tests_cant": "all offsets and counts", "anchors": ["include/daw/daw_contiguous_view.h: subspan", "include/daw/daw_iter_view.h: subspan"]}
{"id": "C173", "title": "An iter_view shows and removes exactly its elements", "statement": "Size, loops, operator[], front, find and find_first_not_of read the viewed elements; any history of removals, pops and searches leaves and hands out the right elements and keeps the stored size right.", "quantifier": "every array and history, with and without assertions", "why_tests_cant": "all arrays and histories", "anchors": ["include/daw/daw_iter_view.h: iter_view"]}
{"id": "C174", "title": "The assertions of iter_view accept every valid call", "statement": "remove_prefix( n, dont_clip_to_bounds ) works for all n up to the size, and pop_front_until and pop_front_while with discard work when the end is reached, as they do without assertions.", "quantifier": "every view and needle", "why_tests_cant": "all views and needles", "anchors": ["include/daw/daw_iter_view.h: remove_prefix, pop_front_until, pop_front_while"]}
{"id": "C175", "title": "A view shows and removes exactly its elements", "statement": "Size, loops, operator[], at, front and back read the viewed elements; any history of removals and pops leaves and hands out the right elements and keeps the stored size right.", "quantifier": "every array and history", "why_tests_cant": "all arrays and histories", "anchors": ["include/daw/daw_view.h: view"]}
{"id": "C176", "title": "Views compare by their elements", "statement": "Two contiguous_views or iter_views are equal exactly if they have the same length and equal elements; < is the lexicographical order.", "quantifier": "every array, pair of views and comparison", "why_tests_cant": "all pairs of views", "anchors": ["include/daw/daw_contiguous_view.h: operator==, operator<", "include/daw/daw_iter_view.h: operator==, operator<"]}
{"id": "C177", "title": "Writing into a span stores the values in order and never past its end", "statement": "Any sequence of write_to_span or span_writer::write calls stores the values one after another from the start, returns the rest of the span, changes nothing else, and throws when a write does not fit; the _ntz forms leave out the terminator and throw without one.", "quantifier": "every array, span and sequence of writes", "why_tests_cant": "all sequences of writes", "anchors": ["include/daw/daw_span_writer.h: write_to_span, write_to_span_ntz, span_writer"]}
{"id": "C178", "title": "keep_n keeps the n best values in order", "statement": "After any insertions a keep_n holds its n best values (the defaults count as values), best first; none of those dropped is better than one kept.", "quantifier": "every strict weak order, direction, capacity and sequence of values", "why_tests_cant": "all orders and sequences", "anchors": ["include/daw/daw_keep_n.h: keep_n"]}
{"id": "C179", "title": "A unique_ptr deletes its object exactly once", "statement": "In every sequence of constructions, moves, move assignments, swaps, reset( ), reset( p ), release( ), writes and ends of unique_ptr variables, each variable holds the object the sequence implies, every object has exactly one owner, an object is deleted exactly once, when its owner gives it up, and nothing leaks once all variables have ended. The comparison operators order the pointers by address, and the deleter that came with an object deletes it.", "quantifier": "all histories of operations on any number of unique_ptr variables, all values", "why_tests_cant": "tests run a few fixed sequences; aliasing such as self move or assigning a pointer just released shows only in some histories", "anchors": ["include/daw/daw_unique_ptr.h: unique_ptr, make_unique"]}
{"id": "C180", "title": "A maybe_unique_ptr deletes its object if and only if it owns it", "statement": "As for unique_ptr while the pointers own; a maybe_unique_ptr constructed as not owning never deletes, whatever is done with it.", "quantifier": "all histories of operations on owning pointers; all states for the borrowing ones", "why_tests_cant": "the flag and the pointer must agree after every sequence of operations, tests try single operations", "anchors": ["include/daw/daw_maybe_unique_ptr.h: maybe_unique_ptr"]}
{"id": "C181", "title": "A copiable_unique_ptr copies deeply", "statement": "In every sequence of operations, copies own a separate equal object, copying an empty one gives an empty one, move assignment exchanges the objects, and each object is deleted exactly once.", "quantifier": "all histories of operations, all values", "why_tests_cant": "sharing between copies shows only when one of them is changed or destroyed later", "anchors": ["include/daw/deprecated/daw_copiable_unique_ptr.h: copiable_unique_ptr"]}
{"id": "C182", "title": "value_ptr and heap_value behave as values", "statement": "In every sequence of operations a copy is independent of the original, moving transfers the object, assignment of a value creates or overwrites it, each object is deleted exactly once; compare of two value_ptr is a three way comparison in which empty comes first; empty ones can be copied and assigned.", "quantifier": "all histories of operations, all values, all strict weak orders", "why_tests_cant": "empty and moved-from operands are the cases unit tests leave out", "anchors": ["include/daw/daw_value_ptr.h: value_ptr", "include/daw/deprecated/daw_heap_value.h: heap_value"]}
{"id": "C183", "title": "A unique_resource releases its handle exactly once", "statement": "In every sequence of operations the deleter is called exactly once for each handle, when it is replaced, reset or its owner ends, and never for a released one.", "quantifier": "all histories of operations, all handles", "why_tests_cant": "double release depends on what follows a reset", "anchors": ["include/daw/daw_unique_resource.h: unique_resource"]}
{"id": "C184", "title": "A unique_array owns its array", "statement": "In every sequence of constructions, moves, assignments and writes the arrays are deleted exactly once and size, empty, operator[], at, front and back agree with the contents.", "quantifier": "all histories, all arrays and positions", "why_tests_cant": "positions outside the array and moved-from arrays are not tested", "anchors": ["include/daw/daw_unique_array.h: unique_array"]}
{"id": "C185", "title": "A scope guard runs its handler exactly once unless cancelled", "statement": "In every sequence of guard creations, cancellations, early executions and scope exits each handler runs at most once, exactly once if its guard ended or was executed without being cancelled, and in the order of the exits. Moving a guard moves the duty to run the handler. on_exit_success runs its handler exactly if the scope is left without an exception.", "quantifier": "all histories of guards", "why_tests_cant": "the number of calls depends on the interleaving of exits, cancellations and moves", "anchors": ["include/daw/daw_scope_guard.h: ScopeGuard, on_scope_exit, on_exit_success"]}
{"id": "C186", "title": "A union_pair holds what was last stored", "statement": "After any store, assignment, copy or clear, visit calls the function for the stored type with the stored value and which tells the type.", "quantifier": "all states, values and functions", "why_tests_cant": "whether an object of the right type lives in the union is not observable by a test", "anchors": ["include/daw/daw_union_pair.h: union_pair"]}
{"id": "C187", "title": "sbo_storage returns the object put in", "statement": "An object allocated in an empty storage, small or large, is returned by get, for a const storage too, and deallocate makes the storage empty again; a second allocation is refused.", "quantifier": "all values, both sizes, both build modes", "why_tests_cant": "only small sizes and one build mode are tested", "anchors": ["include/daw/daw_sbo.h: sbo_storage"]}
{"id": "C188", "title": "A validated never holds an invalid value", "statement": "Construction and assignment accept exactly the values the validator accepts; a refused assignment leaves the old value; hence the value is always valid.", "quantifier": "all validators, all sequences of assignments", "why_tests_cant": "the invariant is about all sequences of assignments", "anchors": ["include/daw/daw_validated.h: validated"]}
{"id": "C189", "title": "take leaves a default value behind", "statement": "Moving from a take_t, assigning from one and reset return the old value and leave T{ }, for distinct variables and for self assignment.", "quantifier": "all values and variables", "why_tests_cant": "self assignment and the state after a move are not tested", "anchors": ["include/daw/daw_take.h: take, take_t"]}
{"id": "C190", "title": "Optionals compare as if empty came before every value", "statement": "All six comparison operators of daw::optional, between two optionals, an optional and nullopt, and an optional and a value, on either side, agree with the order in which an empty optional comes before every value.", "quantifier": "all values and all orders of the value type", "why_tests_cant": "36 operators times the empty and non-empty cases; tests try a few pairs", "anchors": ["include/daw/daw_optional.h: optional, operator==, operator<, operator>="]}
{"id": "C191", "title": "An optional_poly compares and copies as an optional", "statement": "The comparison operators agree with the order in which empty comes first, and copying an optional_poly gives an equal object, also when it is of a derived class.", "quantifier": "all values, orders and derived classes", "why_tests_cant": "slicing shows only for derived objects that are copied", "anchors": ["include/daw/deprecated/daw_optional_poly.h: optional_poly"]}
{"id": "C192", "title": "An expected_t is what the last operation made it", "statement": "After any sequence of set_value, set_exception, clear and from_code the state is that of the last operation; exactly one of empty, has_value and has_exception holds; get returns the value, rethrows the exception, or terminates when empty; from_code captures the result or the exception of the function; equality compares states.", "quantifier": "all sequences of operations, all values, exceptions and functions", "why_tests_cant": "the exception paths and the state after throwing copies are not tested", "anchors": ["include/daw/daw_expected.h: expected_t, expected_from_code"]}
{"id": "C193", "title": "A checked_expected_t captures only the listed exceptions", "statement": "from_code keeps the result of the function, or the exception if it is of a listed type, and lets other exceptions out; setting a value or an exception replaces what was there; copies and assignments give an equal object.", "quantifier": "all functions, lists of exceptions and states", "why_tests_cant": "exceptions of unlisted types and reassignment are not tested", "anchors": ["include/daw/deprecated/daw_checked_expected.h: checked_expected_t"]}
{"id": "C194", "title": "A safe_pointer never leaves its array", "statement": "In every sequence of ++, --, += and -= the pointer is where a raw pointer would be as long as that is in the array or at its end, and otherwise the program is stopped; * and -> read the element pointed to; a destroyed pointer is refused; differences are right.", "quantifier": "all arrays, all sequences of moves", "why_tests_cant": "moves past either end and the reads at every position are not all tested", "anchors": ["include/daw/daw_safe_pointer.h: safe_pointer"]}
{"id": "C195", "title": "to_reference_vector refers to every element of a range", "statement": "to_reference_vector returns references to the elements of the range in order.", "quantifier": "all ranges", "why_tests_cant": "the function is a template that tests do not instantiate with a range that is not empty", "anchors": ["include/daw/daw_reference.h: to_reference_vector"]}
{"id": "C196", "title": "The UInt operators compute in the right width", "statement": "Each of the 453 binary operators between UInt64, UInt32, UInt16, UInt8 and the built-in unsigned types gives the mathematical result reduced to the bits of its result type, which is bool for comparisons, the left type for compound assignments, the width of the left operand for shifts and the wider of the two operands otherwise; ++, --, ~, ! and unary - do the same; only division by zero and shifts by the promoted width or more are undefined.", "quantifier": "all overloads and all values of the operands", "why_tests_cant": "453 overloads with values near every power of two; tests try a few additions", "anchors": ["include/daw/daw_uint_types.h: operator+, operator*, operator/, operator<<, operator==, operator++, operator~, operator-"]}
{"id": "C197", "title": "Rotating a UInt moves every bit round", "statement": "rotate_left and rotate_right by any number of bits up to the width give the value whose bit i is the bit of the argument the given distance away, modulo the width.", "quantifier": "all widths, values and distances", "why_tests_cant": "the distances 0 and width are special in C++ shifts and are not tested", "anchors": ["include/daw/daw_uint_types.h: rotate_left, rotate_right"]}
{"id": "C198", "title": "set_bit, get_bit and the masks of a UInt", "statement": "set_bit<N> changes bit N and no other; get_bit<N> returns bit N; mask_from_lsb<N> has exactly the N lowest bits set.", "quantifier": "all widths, bits and values", "why_tests_cant": "a set_bit that clears other bits shows only for values with those bits set", "anchors": ["include/daw/daw_uint_types.h: set_bit, get_bit, mask_from_lsb64, mask_from_lsb32"]}
{"id": "C199", "title": "UInts from buffers and literals, and their limits", "statement": "to_uintN_buffer reads the N/8 bytes as a little-endian number, whatever the signedness of the character type, and no more; the literals accept every value that fits and keep it; numeric_limits has the right minimum, maximum and digits; to_uintN reduces modulo 2^N.", "quantifier": "all buffers, literals and widths", "why_tests_cant": "bytes with the sign bit set in each position and the largest literals are not tested", "anchors": ["include/daw/daw_uint_types.h: to_uint64_buffer, operator\"\"_u16, numeric_limits, to_uint64"]}
{"id": "C200", "title": "A deprecated Vector behaves as a list and leaks nothing", "statement": "For every sequence of push_back, pop_back, clear, resize, reserve, element assignment and the insertions that work, a daw::Vector with MallocAlloc holds exactly the elements the same sequence gives on a list, its size never exceeds its capacity, it keeps at most one block of memory, leaves all other memory alone and its destruction frees everything. push_back of a reference to an element of the same Vector is supported.", "quantifier": "all histories, element sizes, page sizes and behaviours of malloc", "why_tests_cant": "Whether growth keeps the elements and frees the old block depends on sizes and on malloc_usable_size; a dangling self reference is usually invisible in a test.", "anchors": ["include/daw/deprecated/daw_vector.h: Vector::push_back, pop_back, resize, reserve, resize_impl, calc_new_size, MallocAlloc"]}
{"id": "C201", "title": "Copies, moves and assignments of a deprecated Vector", "statement": "A copy of a Vector has the same elements in its own memory and can be used like the original; moving leaves the source empty and usable; assignment gives the target the elements of the source and frees what the target had.", "quantifier": "all Vectors made by histories, all later uses of the copy", "why_tests_cant": "The copy claims a capacity its block does not have, which only shows when the heap is inspected; leaks do not change observable values.", "anchors": ["include/daw/deprecated/daw_vector.h: Vector( Vector const & ), operator=, make_copy"]}
{"id": "C202", "title": "insert of a deprecated Vector puts the elements at the position", "statement": "insert( where, first, last ) yields the elements before where, then the new ones, then the rest.", "quantifier": "all contents, positions and numbers of new elements", "why_tests_cant": "The result is right for some positions and sizes (in particular at the end), so a few test cases pass.", "anchors": ["include/daw/deprecated/daw_vector.h: Vector::insert, overlapped_relocate"]}
{"id": "C203", "title": "== and != of deprecated Vectors", "statement": "operator== holds exactly when the elements are equal; operator!= is its negation and reads only elements that exist.", "quantifier": "all pairs of Vectors", "why_tests_cant": "A few comparisons of equal Vectors pass; reading past the end of the shorter one is silent.", "anchors": ["include/daw/deprecated/daw_vector.h: Vector::operator==, operator!="]}
{"id": "C204", "title": "A heap_array owns its elements through any history", "statement": "For every sequence of constructions, copies, moves, assignments, swaps, clears, element writes and destructions of heap_arrays, each one has the elements the same sequence gives on lists; begin( ) to end( ), back( ), empty( ) and at( ) agree with them; find_first_of returns the first element equal to the value or end( ); no array is deleted twice or leaked; operator bool tells whether there is an array.", "quantifier": "all histories over any number of arrays, all values and positions", "why_tests_cant": "A leaked array and an end pointer that is only wrong after a move do not show in tests of single operations; the sentinel write of find_first_of is silent.", "anchors": ["include/daw/deprecated/daw_heap_array.h: heap_array"]}
{"id": "C205", "title": "A fixed_array owns its elements through any history", "statement": "For every sequence of constructions, copies, moves, assignments, swaps, clears, element writes and destructions of fixed_arrays, each has the elements the same sequence gives on lists, every array is deleted exactly once, and release( ) hands the array over.", "quantifier": "all histories over any number of arrays", "why_tests_cant": "Deleting an array twice needs clear( ) followed by a later operation and often goes unnoticed.", "anchors": ["include/daw/deprecated/daw_fixed_array.h: fixed_array"]}
{"id": "C206", "title": "A carray holds its N elements", "statement": "A carray constructed from values has these values first and zero bytes after them, refuses more than N values, at( ) throws for a position beyond the end, and iteration in both directions visits every element once.", "quantifier": "all N, all values, all positions", "why_tests_cant": "Too many constructor arguments and reverse iteration touch memory next to the object, which tests do not see.", "anchors": ["include/daw/deprecated/daw_carray.h: carray"]}
{"id": "C207", "title": "An ordered_map keeps keys in the order of first insertion", "statement": "For every sequence of insert, operator[], at( ) and clear( ), an ordered_map lists its keys in the order in which they were first inserted, has no key twice, gives every key the value the sequence assigns to it, insert reports whether the key was new and where it is, and at( ) throws exactly for keys that are absent.", "quantifier": "all histories, all strict weak orders as comparison", "why_tests_cant": "Uniqueness and order depend on the whole history and on keys that are equivalent without being equal.", "anchors": ["include/daw/deprecated/daw_ordered_map.h: ordered_map::find, insert, operator[], at, clear"]}
{"id": "C208", "title": "quick_sort sorts", "statement": "quick_sort leaves a sorted permutation of the range, for every strict weak order and every length, and its stack of segments never overflows.", "quantifier": "all ranges, comparisons and conforming implementations of std::partition", "why_tests_cant": "The result is right for up to three elements and for many inputs; the overflow of the segment stack needs an adversarial range.", "anchors": ["include/daw/deprecated/daw_stack_quick_sort.h: quick_sort, median, bounded_stack"]}
{"id": "C209", "title": "ASCII classification and case mapping", "statement": "For every integer type and value, is_ascii_digit, is_ascii_alpha, is_ascii_alphanum and is_ascii_printable accept exactly the characters of their class; to_upper_ascii, to_lower_ascii, AsciiUpper and AsciiLower exchange a letter for the other case and leave every other value alone, also through whole strings of any character type.", "quantifier": "all integer types, all values, all strings", "why_tests_cant": "There are more than 2^64 inputs, and negative and wide characters are the ones tests leave out.", "anchors": ["include/daw/daw_ascii.h: is_ascii_digit, is_ascii_alpha, is_ascii_alphanum, is_ascii_printable, to_upper_ascii, to_lower_ascii", "include/daw/daw_utility.h: AsciiUpper, AsciiLower"]}
{"id": "C210", "title": "hex writes the base 16 text of its argument", "statement": "For every integer type and value, hex writes the two digits per byte that denote the value, most significant first, and nothing else; ranges, strings, string literals and other objects are written one after the other, byte by byte; different values have different texts.", "quantifier": "all integer types and values, all ranges and strings, output through a position in a buffer or a back_inserter", "why_tests_cant": "All values of all widths, and the overrun of a buffer of exactly the right size, cannot be tested.", "anchors": ["include/daw/daw_utility.h: hex, hex_lc, utility_details::get_nibble, get_lc_nibble"]}
{"id": "C211", "title": "bitcount counts the one bits", "statement": "For every value of an integer type bitcount( value ) returns the number of one bits.", "quantifier": "all values of all integer types up to 64 bits", "why_tests_cant": "Every value must be right; a test of 0 and 3 passes although every other value is wrong.", "anchors": ["include/daw/daw_utility.h: bitcount"]}
{"id": "C212", "title": "can_fit and narrow_cast decide representability", "statement": "For every pair of integer types and every value, can_fit<D>( v ) is true exactly when D can represent v; narrow_cast<D>( v ) returns v in that case and throws otherwise.", "quantifier": "all pairs of standard integer types, all values", "why_tests_cant": "The implicit conversions differ for each of the pairs of types and at their limits.", "anchors": ["include/daw/daw_utility.h: can_fit, narrow_cast"]}
{"id": "C213", "title": "in_range( value, lower, upper ) decides lower <= value < upper", "statement": "For all integer operands in_range( value, lower, upper ) is true exactly when lower <= value and value < upper.", "quantifier": "all integer types of the three operands, all values", "why_tests_cant": "Wrong answers occur for particular combinations of signed and unsigned operands.", "anchors": ["include/daw/daw_utility.h: in_range"]}
{"id": "C214", "title": "value_from_chars reads big-endian numbers", "statement": "For every sequence of bytes value_from_chars for 1, 2, 4 and 8 bytes returns the number with these base 256 digits, most significant first; or_all has exactly the bits of its arguments.", "quantifier": "all byte sequences, all argument lists", "why_tests_cant": "2^64 inputs; a byte with its top bit set in the first place is the risky one.", "anchors": ["include/daw/daw_utility.h: value_from_chars, or_all"]}
{"id": "C215", "title": "Parameter packs and small containers are searched correctly", "statement": "pack_index_of is the position of the type in the pack (the last one when it is repeated) or the size of the pack; pack_get returns the N-th argument; pack_apply calls the function with exactly the N-th argument or not at all; value_is( v ).one_of / none_of, contains and index_of decide membership, index_of giving the first position; copy_vector copies exactly the first items and throws if there are not enough.", "quantifier": "all packs and containers, all positions and values", "why_tests_cant": "Holds for every length and every arrangement of equal elements.", "anchors": ["include/daw/daw_utility.h: pack_index_of_v, pack_get, pack_apply, value_is, contains, index_of, copy_vector"]}
{"id": "C216", "title": "equal_to_last compares with the previous argument", "statement": "In every sequence of calls, equal_to_last returns false on the first call and afterwards whether the argument equals the one of the previous call.", "quantifier": "all sequences of calls interleaved with changes and destruction of the objects passed", "why_tests_cant": "The functor keeps the address of its argument: the answer depends on what happens to that object between the calls.", "anchors": ["include/daw/daw_utility.h: equal_to_last"]}
{"id": "C217", "title": "string_concat joins its arguments in order", "statement": "string_concat( a, b... ) is the text of a followed by the texts of the other arguments in order, whichever evaluation order the compiler chooses.", "quantifier": "all strings, all evaluation orders C++ permits", "why_tests_cant": "A test only sees the order its compiler happens to choose.", "anchors": ["include/daw/daw_string_concat.h: string_concat"]}
{"id": "C218", "title": "string_join_iterator visits the joined text", "statement": "Iterating from string_join_iterator( strings... ) to the default constructed one visits exactly the characters of the strings one after the other, and last - first is the number of characters still to come.", "quantifier": "all lists of strings, all positions", "why_tests_cant": "Empty strings at any place of the list, and distances from the middle, are outside the usual tests.", "anchors": ["include/daw/daw_string_concat.h: string_join_iterator"]}
{"id": "C219", "title": "The deprecated string view: construction, access and sub-views", "statement": "A sv1::string_view shows exactly the characters it was built from; size, [], at, front, back, remove_prefix, remove_suffix, substr, copy and resize have the list meaning, clamp counts, and throw out_of_range exactly for positions past the end.", "quantifier": "all arrays, sub-ranges, positions and counts", "why_tests_cant": "Positions at and past the end and counts larger than the view are few of infinitely many cases.", "anchors": ["include/daw/deprecated/daw_string_view1.h: basic_string_view constructors, at, remove_prefix, remove_suffix, substr, copy, resize"]}
{"id": "C220", "title": "The deprecated string view: popping", "statement": "pop_front/pop_back return the piece before (after) the first (last) match of a string or predicate and remove it together with the match; without a match everything is popped; the try_ forms then change nothing and return an empty view; consume_front removes through the first match.", "quantifier": "all views, needles and predicates", "why_tests_cant": "Whether the match is the first (last) one and whether nothing is lost must hold for every text.", "anchors": ["include/daw/deprecated/daw_string_view1.h: pop_front, pop_back, try_pop_front, try_pop_back, consume_front"]}
{"id": "C221", "title": "The deprecated string view: comparison", "statement": "compare is negative, zero, positive exactly when the left text is lexicographically before, equal to, after the right text; the six operators agree with it; the sub-range overloads compare the sub-ranges and throw past the end.", "quantifier": "all pairs of views, all positions and counts", "why_tests_cant": "An order over all texts cannot be sampled.", "anchors": ["include/daw/deprecated/daw_string_view1.h: compare, operator==, operator!=, operator<, operator<=, operator>, operator>="]}
{"id": "C222", "title": "The deprecated string view: find functions", "statement": "find, rfind, find_first_of, find_first_not_of, find_last_of( set ), find_first_of_if, find_first_not_of_if and find_last_of_if return the first (last) position not before (not after) pos with the named property, or npos.", "quantifier": "all views, needles, sets, predicates and positions", "why_tests_cant": "Overlapping, boundary and missing matches for every text and position.", "anchors": ["include/daw/deprecated/daw_string_view1.h: find, rfind, find_first_of, find_first_not_of, find_last_of, find_first_of_if, find_first_not_of_if, find_last_of_if"]}
{"id": "C223", "title": "The deprecated string view: search, search_last, find_last_of( c ), find_last_not_of", "statement": "search( v, pos ) is the first occurrence from pos on, search_last( v, pos ) the last one; find_last_of( c, pos ) and find_last_not_of( set, pos ) are the last positions up to pos holding c, or a character outside the set; npos when there is none.", "quantifier": "all views, needles, characters, sets and positions", "why_tests_cant": "Occurrences at the very end, at index 0 and repeated ones are the cases that differ.", "anchors": ["include/daw/deprecated/daw_string_view1.h: search, search_last, find_last_of, find_last_not_of"]}
{"id": "C224", "title": "The deprecated string view: starts_with, ends_with, to_string, operator+", "statement": "starts_with/ends_with hold exactly when the text begins (ends) with the argument; to_string is the text; + concatenates it with a string on either side.", "quantifier": "all views and strings", "why_tests_cant": "Must hold for every pair of texts.", "anchors": ["include/daw/deprecated/daw_string_view1.h: starts_with, ends_with, to_string, operator+"]}
{"id": "C225", "title": "The deprecated string view: split and views of literals", "statement": "split( text, pred ) gives the maximal delimiter-free pieces of the text in order, without an empty piece after a delimiter at the very end; a view made from a string literal shows the text of the literal.", "quantifier": "all texts and predicates", "why_tests_cant": "Empty pieces, adjacent and trailing delimiters in every combination.", "anchors": ["include/daw/deprecated/daw_string_view1.h: split, make_string_view"]}
{"id": "C226", "title": "Bounded string: histories", "statement": "Whatever sequence of push_back, append (character, text, part of a text), remove_suffix, clear, pop_back and erase is applied, the string holds the text those calls describe, every call that would exceed the capacity throws and changes nothing, and size( ), iteration, operator[], at, front, back and to_string agree with the text.", "quantifier": "all capacities, texts and sequences of calls", "why_tests_cant": "The state after a call depends on the whole history.", "anchors": ["include/daw/deprecated/daw_bounded_string.h: basic_bounded_string::push_back, append, remove_suffix, clear, pop_back, erase"]}
{"id": "C227", "title": "Bounded string: c_str( ) is NUL terminated", "statement": "After every call the characters of the string are followed by a NUL, so c_str( ) is a C string of the same text.", "quantifier": "all strings and sequences of calls", "why_tests_cant": "A missing terminator only shows when stale characters lie behind the end.", "anchors": ["include/daw/deprecated/daw_bounded_string.h: c_str, data, erase"]}
{"id": "C228", "title": "Bounded string: construction and conversion", "statement": "A string made from a pointer and a count, a C string, an array, a literal or another bounded string holds that text, or what fits the capacity of it.", "quantifier": "all texts, counts and capacities", "why_tests_cant": "The limits are at lengths around the capacity, and the result must remain usable.", "anchors": ["include/daw/deprecated/daw_bounded_string.h: constructors, conversion operator, make_bounded_string"]}
{"id": "C229", "title": "Bounded string: substr and copy", "statement": "substr( pos, count ) and copy( dest, count, pos ) give the characters from pos on, at most count; positions behind the end throw, the end itself gives nothing.", "quantifier": "all strings, positions and counts", "why_tests_cant": "Counts may be npos, and both limits interact.", "anchors": ["include/daw/deprecated/daw_bounded_string.h: substr, copy"]}
{"id": "C230", "title": "Bounded string: comparison", "statement": "compare and the relational operators order strings lexicographically, for strings of different capacities, views, std::strings and C strings on either side.", "quantifier": "all pairs of texts", "why_tests_cant": "An order must be right for every pair.", "anchors": ["include/daw/deprecated/daw_bounded_string.h: compare, relational operators"]}
{"id": "C231", "title": "Bounded string: searching", "statement": "find, rfind, find_first_of, find_first_not_of, find_last_of and the searches with a predicate return the first (last) matching position, npos if there is none, also for needles given by pointer and count.", "quantifier": "all strings, needles and positions", "why_tests_cant": "The first match among all positions; needles longer than the capacity.", "anchors": ["include/daw/deprecated/daw_bounded_string.h: find, rfind, find_first_of, find_last_of, find_first_not_of, find_first_of_if"]}
{"id": "C232", "title": "Bounded string: room and erase results", "statement": "full( ) and has_room( count ) tell whether characters can be added; erase returns the position of the character after the erased ones, and erase( ) empties the string.", "quantifier": "all strings, counts and ranges", "why_tests_cant": "The answers must be right at every fill level.", "anchors": ["include/daw/deprecated/daw_bounded_string.h: full, has_room, erase"]}
{"id": "C233", "title": "Bounded string: prefixes, concatenation, splitting", "statement": "starts_with and ends_with decide prefixes and suffixes; + concatenates with C strings and std::strings or throws when the result does not fit; split cuts at the delimiters.", "quantifier": "all strings, texts and predicates", "why_tests_cant": "Must hold for every pair of texts, including over-long ones.", "anchors": ["include/daw/deprecated/daw_bounded_string.h: starts_with, ends_with, operator+, split"]}
{"id": "C234", "title": "String functions: splitting and combining", "statement": "split and split_if cut a text at its delimiters into pieces that contain none, combine puts a separator between texts, and the two undo each other.", "quantifier": "all texts, delimiters and pieces", "why_tests_cant": "Every text with every arrangement of delimiters, including none, adjacent ones and ones at the ends.", "anchors": ["include/daw/deprecated/daw_string.h: split, split_if, combine"]}
{"id": "C235", "title": "String functions: trimming", "statement": "trim, trim_left and trim_right remove exactly the delimiters at the ends of a text.", "quantifier": "all texts and delimiter sets", "why_tests_cant": "Includes texts made of delimiters only and empty texts.", "anchors": ["include/daw/deprecated/daw_string.h: trim, trim_left, trim_right, trim_copy, trim_left_copy, trim_right_copy"]}
{"id": "C236", "title": "String functions: ends_with", "statement": "ends_with tells whether a text ends with a character or another text.", "quantifier": "all texts and endings", "why_tests_cant": "All pairs of texts.", "anchors": ["include/daw/deprecated/daw_string.h: ends_with"]}
{"id": "C237", "title": "String functions: search, replace, contains", "statement": "search_replace replaces the occurrences of a text from the left without overlap and terminates; contains and in decide whether a text is part of another.", "quantifier": "all texts, patterns and replacements", "why_tests_cant": "Overlapping occurrences, replacements that contain the pattern, empty patterns.", "anchors": ["include/daw/deprecated/daw_string.h: search_replace, search_replace_copy, contains, in"]}
{"id": "C238", "title": "String functions: fmt", "statement": "fmt replaces each placeholder {n} or {n:p} that does not follow a brace with its argument, keeps everything else, and refuses malformed or out of range placeholders.", "quantifier": "all formats and argument lists", "why_tests_cant": "All formats, including nested braces and malformed placeholders.", "anchors": ["include/daw/deprecated/daw_string.h: impl::fmt, fmt"]}
{"id": "C239", "title": "Split range", "statement": "A loop over split_string( text, delimiter ) terminates and visits the pieces between the occurrences of the delimiter, taken from the left; iterators compare by text, place and delimiter; ++ moves the iterator.", "quantifier": "all texts and delimiters", "why_tests_cant": "Every text and delimiter, including empty ones, overlapping occurrences and delimiters at the ends.", "anchors": ["include/daw/deprecated/daw_string_split_range.h: string_split_iterator, string_split_range, split_string"]}
{"id": "C240", "title": "Formatter, version 1", "statement": "v1 fmt replaces every {n} with the text of argument n, keeps the other text, and throws for placeholders without an argument.", "quantifier": "all formats and argument lists", "why_tests_cant": "Every format, including unterminated and malformed placeholders.", "anchors": ["include/daw/deprecated/daw_string_fmt.h: v1::fmt_t, v1::fmt, get_arg"]}
{"id": "C241", "title": "Formatter, version 2", "statement": "v2 fmt (array or compile-time pointer format) replaces every {n} with the text of argument n, keeps the other text, lets a backslash escape a brace and has room for every format.", "quantifier": "all formats and argument lists", "why_tests_cant": "The capacity of the internal vector depends on the format; every format must fit.", "anchors": ["include/daw/deprecated/daw_string_fmt.h: v2::fmt_t, v2::fmt, parse_tokens, parse_token"]}
{"id": "C242", "title": "Shared functions are safe to use from several threads", "statement": "Any number of threads may construct, copy, move, assign, destroy, call, weaken and lock shared_function and weak_shared_function handles to the same functions, each in its own variables, in any interleaving: no deleted memory is ever used or deleted again, no function is called that does not exist, a statement that has started can always go on and, run alone, ends after at most seven accesses to the counters. Alone, each statement changes the variables as its name says.", "quantifier": "all numbers of threads and variables below the range of int, all programs, all interleavings of the accesses, all spurious failures of compare_exchange_weak", "why_tests_cant": "a test runs a few of the unboundedly many schedules", "anchors": ["include/daw/daw_shared_function.h: shared_function, weak_shared_function, shared_function_storage_base"]}
{"id": "C243", "title": "A shared function lives as long as its owners", "statement": "At every moment of every schedule a function that has an owning handle or is being called is alive; its memory is there while any handle, weak or not, refers to it; it is destroyed exactly once; when no statement is under way exactly the functions with an owner are alive and exactly those with a handle have memory.", "quantifier": "all reachable states of any number of threads and variables", "why_tests_cant": "use after free and leaks appear only in rare schedules", "anchors": ["include/daw/daw_shared_function.h: strong_release, weak_release, reset_storage"]}
{"id": "C244", "title": "Locking a weak handle", "statement": "lock( ) returns an empty handle only if no handle owns the function at that moment, and then no handle ever owns it again; a function that was destroyed is never owned or destroyed again; lock( ) of a function with an owner and without other activity returns an owner.", "quantifier": "all reachable states, all interleavings with copies and destructions in other threads", "why_tests_cant": "the race between lock( ) and the last destruction needs every interleaving", "anchors": ["include/daw/daw_shared_function.h: weak_shared_function::lock, weak_upgrade"]}
{"id": "C245", "title": "daw::function is a value", "statement": "Every program that makes functions from temporary callables, copies, assigns, calls and destroys them sees independent values: a copy has its own state, an assignment replaces the callable, a call returns what the callable returns and changes only this function's callable, an empty function throws std::bad_function_call. The same should hold for functions made from named callables.", "quantifier": "all programs on any number of functions, all callables (state machines)", "why_tests_cant": "value semantics concerns every order of copies, assignments and calls", "anchors": ["include/daw/daw_stack_function.h: function, func_impl::function_storage, func_impl::store_if_not_empty"]}
{"id": "C246", "title": "Resources of the callables of a daw::function", "statement": "A callable with a resource (memory, a file) that is stored in a daw::function releases it exactly once, when the function that holds it is destroyed or gets another callable, and is never used after that.", "quantifier": "all programs on any number of functions and callables", "why_tests_cant": "double release and use after release depend on the history", "anchors": ["include/daw/daw_stack_function.h: function_storage copy, assignment and destructor"]}
{"id": "C247", "title": "poly_value is a value", "statement": "Whatever is made, copied, moved, assigned, changed, read and destroyed in whatever order: every poly_value is a value of its own that keeps the dynamic type it was made with, a moved-from one holds a moved-from object, no heap object is used after its deletion or deleted twice, and there are as many heap objects as values.", "quantifier": "all programs on any number of poly_values, all types and values", "why_tests_cant": "aliasing and leaks depend on the history", "anchors": ["include/daw/daw_poly_value.h: poly_value"]}
{"id": "C248", "title": "bounded_graph_t is the graph that was built", "statement": "After any sequence of adding nodes, adding and removing directed and undirected edges and removing nodes, has_node, the values, the edge sets, size, find_by_value, find_roots and find_leaves describe exactly the directed graph that was built, every add_node gives a new id, and a node for which there is no room is an error.", "quantifier": "all histories, all capacities, all values and hash functions", "why_tests_cant": "the ids share hash slots depending on the capacity and the history", "anchors": ["include/daw/deprecated/daw_bounded_graph.h: bounded_graph_t"]}
{"id": "C249", "title": "remove_node of a bounded_graph_t", "statement": "remove_node removes the node and the edges that touch it, and nothing else, from every graph.", "quantifier": "all histories, all nodes", "why_tests_cant": "edge sets are left and read out of bounds only with edges", "anchors": ["include/daw/deprecated/daw_bounded_graph.h: bounded_graph_t::remove_node"]}
{"id": "C250", "title": "Comparing the nodes of bounded graphs", "statement": "Two node proxies are equal exactly if they name the same node of the same graph, != is the opposite of ==, and < orders the nodes of one graph by id.", "quantifier": "all pairs of proxies", "why_tests_cant": "tests compare few pairs", "anchors": ["include/daw/deprecated/daw_bounded_graph.h: bounded_graph_node_t operators, const_graph_node_t operators"]}
{"id": "C251", "title": "Command line arguments", "statement": "Arguments( argc, argv ) takes the program name from argv[0] and gives one argument per following string: --NAME=VALUE has that name and value, --NAME has the name and an empty value, any other text is a value without a name; the name ends at the first equals sign and a value in a pair of quotation marks is given without them.", "quantifier": "all command lines, argument texts, null pointers and counts", "why_tests_cant": "tests parse a few command lines", "anchors": ["include/daw/daw_parse_args.h: Argument, Arguments"]}
{"id": "C252", "title": "Looking up command line arguments", "statement": "operator[]( name ) gives the value of the first argument with that name and nothing if there is none; find_argument_position, first_named_argument and has_named_argument agree with it.", "quantifier": "all argument lists and names", "why_tests_cant": "tests look up a few names", "anchors": ["include/daw/daw_parse_args.h: Arguments::operator[], find_argument_position, first_named_argument, has_named_argument"]}
{"id": "C253", "title": "Tables of functions", "statement": "function_table call( idx, args... ) and operator( ) run the function at that index with those arguments, set replaces exactly that function, and an index out of range or a function that cannot take the arguments ends the program instead of running something else; with allow_empty a function without parameters is called without the arguments.", "quantifier": "all tables, indexes, argument lists and replaced functions", "why_tests_cant": "tests call a few indexes", "anchors": ["include/daw/daw_function_table.h: function_table_t, apply_at_impl, set_at_impl"]}
{"id": "C254", "title": "Comparing arrays", "statement": "array_cmp of two arrays, nested to any depth, gives the result of the first comparison that is not equal, in memory order, and equal if there is none; with the default comparison it is true exactly if all elements are equal.", "quantifier": "all element types, result types, shapes and contents", "why_tests_cant": "tests compare a few arrays", "anchors": ["include/daw/algorithms/daw_array_compare.h: array_cmp"]}
{"id": "C255", "title": "A bitset from positions", "statement": "create_bitset_from_set_positions sets exactly the bits at the given positions; with a negative position or one that is too large it never returns.", "quantifier": "all bitset sizes, position types and position lists", "why_tests_cant": "tests use a few positions", "anchors": ["include/daw/daw_bitset_helper.h: create_bitset_from_set_positions"]}
{"id": "C256", "title": "The caching iterator", "statement": "The iterators of CacheLast see, for every sequence of reads and moves, the values of the underlying iterator, and dereference it at most once per position they stay at; what is assigned through them is stored in the range.", "quantifier": "all ranges, positions and sequences of iterator operations", "why_tests_cant": "tests run a few sequences", "anchors": ["include/daw/pipelines/cache_last_view.h: cache_last_iterator"]}
{"id": "C257", "title": "Size literals", "statement": "A literal n_KB, n_MB, ... is n times the power of 1000, n_KiB, n_MiB, ... is n times the power of 1024.", "quantifier": "all values and units", "why_tests_cant": "tests check a few literals", "anchors": ["include/daw/daw_size_literals.h: operator\"\"_KB, operator\"\"_KiB"]}
{"id": "C258", "title": "Calling a function n times", "statement": "do_n calls the function exactly count times; do_n_arg calls it with 0, ..., count - 1 in this order, with a step with 0, by_n, 2 by_n, ... below count.", "quantifier": "all functions with state, counts, steps and evaluation orders", "why_tests_cant": "the order of evaluation depends on the compiler; tests use few counts", "anchors": ["include/daw/daw_do_n.h: do_n, do_n_arg"]}
{"id": "C259", "title": "Visiting a variant", "statement": "visit and visit_nt call the visitor with the alternative the variant holds and return its result, for any number of alternatives; visit of a valueless variant throws bad_variant_access.", "quantifier": "all variant sizes, held alternatives, values and visitors", "why_tests_cant": "the dispatch has a separate switch for every number of alternatives, and valueless variants are hard to make in a test", "anchors": ["include/daw/daw_visit.h: visit, visit_nt, get_nt, is_empty"]}
{"id": "C260", "title": "Casting a variant", "statement": "variant_cast<T> gives the held value converted to T if its type is convertible, and throws bad_variant_access otherwise; can_extract<T> is true exactly if the held alternative is a T.", "quantifier": "all variants that hold a value, conversions and target types", "why_tests_cant": "tests cast a few variants", "anchors": ["include/daw/daw_variant_cast.h: variant_cast, can_extract"]}
{"id": "C261", "title": "Elements of a tuple", "statement": "get( tuple, index ) refers to the element at that position and ends the program out of range; for_each and apply call a function once per element in order; apply_at calls it with exactly the element at the index, and not at all if it does not take it or there is none.", "quantifier": "all tuples, indexes and functions with state", "why_tests_cant": "tests use a few positions", "anchors": ["include/daw/daw_tuple_helper.h: get, for_each, apply, apply_at"]}
{"id": "C262", "title": "Arithmetic on tuples", "statement": "The operators + - * / between two tuples, a tuple and a value, or a value and a tuple give a tuple whose elements are the results for the elements: the exact result if the element type has it, otherwise equal to it modulo 2^w.", "quantifier": "all tuples of integers, operators and operands", "why_tests_cant": "the number of operands and element types is unbounded; overflow depends on promotions", "anchors": ["include/daw/daw_tuple_helper.h: operators::operator+, operator-, operator*, operator/"]}
{"id": "C263", "title": "min and max of tuples", "statement": "min and max of two tuples give the smaller and the larger of the two elements at every position.", "quantifier": "all tuples of integers", "why_tests_cant": "tests compare a few tuples", "anchors": ["include/daw/daw_tuple_helper.h: min, max"]}
{"id": "C264", "title": "Printing a tuple", "statement": "operator<< writes an opening brace, the elements with commas between them and a space before each, a space and a closing brace, and changes nothing written before.", "quantifier": "all tuples and element texts", "why_tests_cant": "tests print a few tuples", "anchors": ["include/daw/daw_tuple_helper.h: operator<<, print_t"]}
{"id": "C265", "title": "Formatting a range", "statement": "std::format of fmt_range gives the left text, every element as the format specification says with the separator between them, and the right text, wherever the field stands in the format string.", "quantifier": "all element formatters, specifications with matching braces, ranges, separators and surrounding texts", "why_tests_cant": "tests format a few ranges with { }", "anchors": ["include/daw/daw_format_range.h: fmt_range, std::formatter<fmt_range>"]}
{"id": "C266", "title": "Formatting nested ranges", "statement": "Ranges of ranges, strings and tuples, nested to any depth, are written in brackets with commas, each scalar as the format specification says; strings are written as they are.", "quantifier": "all nesting depths, shapes, values and specifications with matching braces", "why_tests_cant": "tests format one nesting", "anchors": ["include/daw/daw_format_range.h: std::formatter<fmt_range>::format", "include/daw/daw_format_tuple.h: std::formatter<fmt_tuple>::format"]}
{"id": "C267", "title": "Formatting a tuple", "statement": "std::format of fmt_tuple gives the left text, every element in the format of its own type with the separator between them, and the right text.", "quantifier": "all element formatters, specifications with matching braces, tuples, separators and surrounding texts", "why_tests_cant": "tests format a few tuples", "anchors": ["include/daw/daw_format_tuple.h: fmt_tuple, std::formatter<fmt_tuple>"]}
{"id": "C268", "title": "Rotating a range", "statement": "algorithm::rotate exchanges the part of a range before a position with the part from the position on, keeps the order within both, and touches nothing else.", "quantifier": "all arrays, ranges within them and positions", "why_tests_cant": "tests rotate one array at one position", "anchors": ["include/daw/daw_algorithm_cx.h: rotate"]}
{"id": "C269", "title": "Selecting the nth element", "statement": "algorithm::nth_element rearranges a range so that the element at the position is the one a sorted range has there, none before it is greater, and none after it is less.", "quantifier": "all arrays, comparators and positions", "why_tests_cant": "tests select one position of one array", "anchors": ["include/daw/daw_algorithm_cx.h: nth_element"]}
{"id": "C270", "title": "Partitioning a range", "statement": "algorithm::partition moves the elements that satisfy a predicate, in their order, before those that do not, returns the position between them, and touches nothing outside the range.", "quantifier": "all arrays, ranges and predicates", "why_tests_cant": "tests partition one array", "anchors": ["include/daw/daw_algorithm_cx.h: partition", "include/daw/daw_algorithm.h: find_if_not"]}
{"id": "C271", "title": "Contracts", "statement": "A value is got from a contract, through any conversions and added conditions, only if it meets all the preconditions on the way; otherwise the violation handler is called. If that handler returns, every later use is undefined.", "quantifier": "all preconditions, values and sequences of accesses, conversions and added conditions", "why_tests_cant": "tests check one precondition and the default handler", "anchors": ["include/daw/daw_contract.h: contract"]}
{"id": "C272", "title": "Reading files", "statement": "read_file gives exactly the bytes of a file, or no result if it cannot be read or is shorter than its size said; it leaves no file open.", "quantifier": "all file contents, sizes and answers of the system", "why_tests_cant": "tests read one small file", "anchors": ["include/daw/daw_read_file.h: read_file"]}
{"id": "C273", "title": "Functions with bound arguments", "statement": "A function made by bind_args_at<N> behaves, call after call, like the original with the bound arguments inserted before its argument N.", "quantifier": "all callables with state, positions, bound arguments and sequences of calls", "why_tests_cant": "tests make one call", "anchors": ["include/daw/daw_bind_args_at.h: bind_args_at, split_args"]}
{"id": "C274", "title": "Named parameters", "statement": "get_opt gives the value of the option of the wanted type wherever it stands among the options, and the default if there is none; giving an option twice does not compile.", "quantifier": "all option lists and orders", "why_tests_cant": "tests pass a few options", "anchors": ["include/daw/daw_named_params.h: get_opt, Options"]}
{"id": "C275", "title": "Piecewise factories", "statement": "A piecewise factory constructs from the values, or results of the functions, that were set last for each argument; it can be used again; setting an argument that does not exist throws.", "quantifier": "all numbers of arguments, sequences of settings, and functions with effects", "why_tests_cant": "tests set two or three arguments once", "anchors": ["include/daw/daw_piecewise_factory.h: piecewise_factory_t, piecewise_factory_late_t"]}
{"id": "C276", "title": "Concatenating tuples", "statement": "tuple2_cat of two or more tuples gives the elements of all of them in order.", "quantifier": "all numbers and sizes of tuples up to 2^32", "why_tests_cant": "tests concatenate a few tuples", "anchors": ["include/daw/daw_tuple2.h: tuple2_cat"]}
{"id": "C277", "title": "Memory mapped files release what they own", "statement": "After any sequence of constructions, opens, moves, assignments and destructions, successful or not, every open descriptor and every mapping belongs to exactly one file object, nothing is closed or unmapped twice, and nothing is left when all the objects are gone.", "quantifier": "all programs with any number of file objects and any answers of the operating system", "why_tests_cant": "tests map one file once; failures of the system calls cannot be provoked", "anchors": ["include/daw/daw_memory_mapped_file.h: memory_mapped_file_t", "include/daw/daw_unique_resource.h: unique_resource"]}
{"id": "C278", "title": "Contents of memory mapped files", "statement": "An open that succeeds, also of an object that is open already, gives access to exactly the bytes of the file; one that fails gives an object that is not open and empty. The contents stay reachable until that object is changed, and moves hand them over.", "quantifier": "all programs, file contents and answers of the operating system", "why_tests_cant": "tests map one file once", "anchors": ["include/daw/daw_memory_mapped_file.h: open, operator[], size, begin, end"]}
{"id": "C279", "title": "Memory mapped files on Windows", "statement": "The Windows version keeps no handle open and says that a file is open exactly when it is.", "quantifier": "all answers of the operating system", "why_tests_cant": "not built by the usual tests", "anchors": ["include/daw/daw_memory_mapped_file.h: memory_mapped_file_t (Windows)"]}
{"id": "C280", "title": "Compensated summation", "statement": "The compensated sum of floating point numbers adds to the plain sum exactly what the plain additions lost: its error is one rounding of the exact sum plus a term of second order in the precision.", "quantifier": "all formats and all lists of finite numbers whose plain sum is finite", "why_tests_cant": "rounding errors depend on every input; tests add a few numbers", "anchors": ["include/daw/pipelines/numeric.h: SumKahanBabushkaNeumaier"]}
{"id": "C281", "title": "Rounding floating point numbers to integers", "statement": "round, floor and ceil give the nearest, the greatest not greater and the least not less integer; the versions that round to multiples leave multiples alone.", "quantifier": "all doubles and floats for which the result fits, and all result types", "why_tests_cant": "tests try a few values", "anchors": ["include/daw/daw_math.h: round, floor, ceil, round_by, floor_by, ceil_by"]}
{"id": "C282", "title": "Nearly equal floating point numbers", "statement": "nearly_equal is symmetric and reflexive, treats not a number as equal to itself only, and with the default tolerance it holds for numbers that differ by less than a unit in the last place and fails for numbers that differ by several.", "quantifier": "all formats and values", "why_tests_cant": "a relation on pairs of numbers; tests try a few pairs", "anchors": ["include/daw/daw_math.h: nearly_equal"]}
{"id": "C283", "title": "Sine and cosine end", "statement": "The recursion of sin and cos ends for every finite double.", "quantifier": "all finite doubles", "why_tests_cant": "a non-terminating argument cannot be tested for", "anchors": ["include/daw/daw_math.h: sin, cos"]}
{"id": "C284", "title": "Scaling by powers of two", "statement": "ldexp gives a double nearest to the product with the power of two, exactly if the exponent is not negative.", "quantifier": "all finite doubles and exponents from -1022 to 1023", "why_tests_cant": "2^64 doubles times 2000 exponents", "anchors": ["include/daw/daw_cxmath.h: ldexp"]}
{"id": "C285", "title": "Tables of powers", "statement": "The tables of powers of two and of ten have the power for each exponent from -307 to 307: exact for two and for ten up to 22, otherwise with a relative error of at most 40 * 2^-53.", "quantifier": "all exponents", "why_tests_cant": "the tables are compared with nothing", "anchors": ["include/daw/daw_cxmath.h: dpow2, dpow10"]}
{"id": "C286", "title": "The bits of floating point numbers", "statement": "The bits of a float that are computed without a cast are those of the number; its fields, the copied sign, the neighbouring doubles and the sign bit are right.", "quantifier": "all floats, doubles and bit patterns", "why_tests_cant": "2^32 and 2^64 patterns", "anchors": ["include/daw/daw_cxmath.h: bits, float_parts_t, copy_sign, adj_ulp, signbit"]}
{"id": "C287", "title": "Square roots", "statement": "The square root of every positive normal float or double is finite and positive, and its square differs from the argument by at most 16 * 2^-prec of it.", "quantifier": "all positive normal floats and doubles", "why_tests_cant": "2^31 and 2^63 arguments; tests compare a few", "anchors": ["include/daw/daw_cxmath.h: sqrt"]}
{"id": "C288", "title": "Benchmarks run and report what they say", "statement": "bench_n_test calls the function once per timed run, whether or not calls throw, and once more for its result, which is what that last call gives; the total, the least and the greatest time are those of the timed runs less the overhead of an empty measurement. bench_test gives the value or exception of its only call.", "quantifier": "all functions, also throwing ones, numbers of runs and behaviours of a steady clock", "why_tests_cant": "tests cannot control the clock", "anchors": ["include/daw/daw_benchmark.h: bench_n_test, bench_n_test_mbs, bench_test, benchmark"]}
{"id": "C289", "title": "The average time of a benchmark", "statement": "The average printed by bench_n_test is the mean time of the runs less the overhead of a measurement.", "quantifier": "all steady clocks without gaps between the runs, all numbers of runs", "why_tests_cant": "tests cannot control the clock", "anchors": ["include/daw/daw_benchmark.h: bench_n_test"]}
{"id": "C290", "title": "Benchmarks that return all times", "statement": "bench_n_test_mbs2 and the json forms call the function exactly Runs times and return one time per run in order; the first result that the validator rejects, or the first exception, ends the benchmark with that failure and without further calls. Times are not negative.", "quantifier": "all functions, validators, numbers of runs and steady clocks", "why_tests_cant": "tests cannot control the clock", "anchors": ["include/daw/daw_benchmark.h: bench_n_test_mbs2, bench_n_test_json, bench_n_test_json_val"]}
{"id": "C291", "title": "Checks of tests", "statement": "expecting returns exactly if the two values, of any integer types, are equal, expecting_exception exactly if the expression throws an exception of the given type that satisfies the predicate; otherwise they throw expected_failure or let the other exception pass. The comparison objects of cxmath compare by value.", "quantifier": "all integer types and values, all outcomes of the expression", "why_tests_cant": "tests use these very checks", "anchors": ["include/daw/daw_benchmark.h: expecting, expecting_message, expecting_exception", "include/daw/daw_cxmath.h: cmp_equal, cmp_not_equal, cmp_less, cmp_greater, cmp_less_equal, cmp_greater_equal"]}
{"id": "C292", "title": "Texts of times and throughputs", "statement": "format_seconds and to_bytes_per_second show the amount in the largest unit in which it is at least 1, rounded to the given number of decimals, with fewer than four digits before the point.", "quantifier": "all rational times, sizes and precisions", "why_tests_cant": "tests try few values", "anchors": ["include/daw/daw_benchmark.h: utility::format_seconds, utility::to_bytes_per_second"]}
{"id": "C293", "title": "Container algorithms", "statement": "copy, copy_n and copy_if of containers write exactly the selected elements, in order, and nothing else, and need room only for those. for_each_with_pos and for_each_subset call the function once for every position of the interval, in order, and touch nothing else; an interval that ends outside the container is undefined behaviour.", "quantifier": "all containers, destinations, counts, predicates, functions with state and intervals", "why_tests_cant": "tests try few sizes", "anchors": ["include/daw/daw_container_algorithm.h: copy, copy_n, copy_if, for_each_with_pos, for_each_subset"]}
{"id": "C294", "title": "Sorted insert iterators", "statement": "Whatever sequence of values is written through a sorted insert iterator into a sorted container, the container stays sorted and holds exactly what it held and what was written; equivalent values keep the order in which they were written.", "quantifier": "all strict weak orders, containers and sequences of writes", "why_tests_cant": "orders with equivalent elements are rarely tested", "anchors": ["include/daw/iterator/daw_sorted_insert_iterator.h: sorted_insert_iterator", "include/daw/iterator/daw_function_iterator.h: function_iterator"]}
{"id": "C295", "title": "Sample", "statement": "Sample keeps the i-th element exactly if the i-th number drawn is at most the number to keep; a view gives the same elements on every traversal; keeping 0 gives nothing and keeping all is refused. Samples of different ranges are drawn independently.", "quantifier": "all random engines, as state machines, all ranges and parameters", "why_tests_cant": "tests cannot fix random numbers of all engines", "anchors": ["include/daw/pipelines/sample.h: Sample", "include/daw/pipelines/filter.h: filter_view"]}
{"id": "C296", "title": "ForEach, Elements, Swizzle and Maybe", "statement": "ForEach and ForEachIndexed call the function once for each element in order and leave its changes in the range. Element, Elements and Swizzle give for every tuple, in order, the elements with the given indices in the given order. Maybe ranges have the element or none.", "quantifier": "all ranges, functions with state, tuples and index lists", "why_tests_cant": "tests try few index lists", "anchors": ["include/daw/pipelines/foreach.h: ForEach, ForEachIndexed", "include/daw/pipelines/elements.h: Element, Elements", "include/daw/pipelines/swizzle.h: Swizzle", "include/daw/pipelines/maybe.h: Maybe"]}
{"id": "C297", "title": "Constant expression swaps", "statement": "cswap and iter_swap exchange two values, also of an object with itself, and change nothing else; swap_ranges and cswap of arrays exchange the elements of the arrays.", "quantifier": "all memories and positions", "why_tests_cant": "the array forms are not instantiated by tests", "anchors": ["include/daw/daw_swap.h: cswap, iter_swap, swap_ranges"]}
{"id": "C298", "title": "function_ref", "statement": "A function_ref calls the object or function it was last bound to, in the state the object has then, whatever happened in between; copies refer to what their source referred to when they were made, and are not affected by what happens to the source. After the object is destroyed calls are undefined.", "quantifier": "all histories of creating, changing, destroying, binding, rebinding and copying", "why_tests_cant": "histories and lifetimes", "anchors": ["include/daw/daw_function_ref.h: function_ref"]}
{"id": "C299", "title": "function_view", "statement": "A function_view calls the object or function it was made from; for objects without state also after these are destroyed. Copies refer to what their source referred to when they were made.", "quantifier": "all histories of creating, changing, destroying, binding, rebinding and copying", "why_tests_cant": "histories and lifetimes", "anchors": ["include/daw/daw_function_view.h: function_view"]}
{"id": "C300", "title": "not_null", "statement": "Over all histories of construction, assignment, copying, moving and pointer arithmetic no not_null is ever null and reading it is defined; null pointers are refused by ending the program.", "quantifier": "all histories over any number of objects", "why_tests_cant": "histories", "anchors": ["include/daw/daw_not_null.h: not_null"]}
{"id": "C301", "title": "distance, advance, next and prev move iterators exactly", "statement": "daw::advance, daw::next and daw::prev move an iterator of any category by exactly the number of elements asked for, forwards and backwards, and daw::distance counts the elements between two iterators, so that advancing by the distance arrives at the other iterator.", "quantifier": "every iterator category, sequence length, position and count", "why_tests_cant": "tests use random access iterators and small positive counts", "anchors": ["include/daw/cpp_17_iterator.h: distance, advance, next, prev", "include/daw/iterator/daw_zipiter.h: zip_iterator::advance"]}
{"id": "C302", "title": "Ranges of two iterators select exactly the elements asked for", "statement": "slice, shrink, safe_advance, move_next, front, back, operator[], contains and as_vector of a Range act on exactly the elements of the range: shrink(n) leaves n elements, slice the positions asked for, safe_advance never leaves the range.", "quantifier": "every array, sub-range, position and count", "why_tests_cant": "the boundary cases (full size, empty range, range at the end of its array) are not tested", "anchors": ["include/daw/deprecated/daw_range_type.h: Range, safe_advance, contains, next"]}
{"id": "C303", "title": "Ranges of references are made in finite time and refer to the right elements", "statement": "Collecting references to the elements of a range ends, with one reference for each element in order; references compare by value; where of the range algorithms refers to exactly the elements that satisfy the predicate.", "quantifier": "every range and predicate", "why_tests_cant": "an endless loop cannot be told from a slow one by a test, and the function is only instantiated by other templates", "anchors": ["include/daw/daw_reference.h: to_reference_vector, Reference", "include/daw/deprecated/daw_range_type.h: where, sort, erase", "include/daw/deprecated/daw_range_algorithm.h: where"]}
{"id": "C304", "title": "Ranges that own their elements filter exactly", "statement": "erase, where, erase_where_equal_to, where_equal_to and unique of a CollectionRange keep exactly the right elements in order, also when the value given is an element of the range.", "quantifier": "every vector, predicate and value", "why_tests_cant": "aliased arguments and long runs are not tested", "anchors": ["include/daw/deprecated/daw_range_collection.h: CollectionRange::erase, where, erase_where_equal_to, where_equal_to, unique"]}
{"id": "C305", "title": "Type-erased iterators behave as independent values and free their memory", "statement": "Any sequence of constructions, copies, moves, assignments, increments and destructions of InputIterators leaves each of them standing where an independent copy of the underlying iterator would stand, has no undefined behaviour, and frees every heap object it allocated.", "quantifier": "every sequence of operations on any number of iterators of any types", "why_tests_cant": "the faults (leak, deletion with the wrong type) do not change results in small tests and need histories that mix types", "anchors": ["include/daw/iterator/InputIterator.h: InputIterator"]}
{"id": "C306", "title": "observer_ptr and the monadic pointer functions treat null as no value", "statement": "and_then and transform call their function only with a pointer that is not null, or_else only without one; a null observer_ptr is never dereferenced silently when assertions are enabled; operator<=> is a total order.", "quantifier": "every pointer and function", "why_tests_cant": "a few pointers are tried in tests, null with transform is not", "anchors": ["include/daw/daw_observer_ptr.h: observer_ptr", "include/daw/daw_monadic_pointer_ops.h: and_then, or_else, transform"]}
{"id": "C307", "title": "References handed out by pointer wrappers refer to live objects", "statement": "rw_ref, prop_const_ptr and poly_var give references to the objects they stand for, and assigning a rw_ref an object rebinds it.", "quantifier": "every wrapper and object", "why_tests_cant": "a dangling reference may still hold the old value in a test", "anchors": ["include/daw/daw_rw_ref.h: rw_ref", "include/daw/daw_prop_const_ptr.h: prop_const_ptr", "include/daw/daw_poly_var.h: poly_var"]}
{"id": "C308", "title": "any_if: which arguments are tested and what they decide", "statement": "any_if tests its arguments in order. If all hold, the result is true. The first argument that does not hold decides: the result is false, or its exception is passed on, and no later argument is called. By its name the result should be true when any argument holds.", "quantifier": "every list of arguments, values or callables, also throwing ones", "why_tests_cant": "the tests have two arguments; which of any number of arguments are called is not observed", "anchors": ["include/daw/daw_any_if.h: any_if"]}
{"id": "C309", "title": "from_string: integers and text", "statement": "from_string<I> returns the number whose text the string is, exactly when I can hold it, and nothing for any other string; from_string<String> returns a copy.", "quantifier": "every string and every integer type", "why_tests_cant": "strings and types are unbounded in number; the tests use a few", "anchors": ["include/daw/daw_from_string.h: from_string_t"]}
{"id": "C310", "title": "Nibble queues", "statement": "A nibble queue holds up to capacity( ) nibbles; push_back appends one or several, pop_front removes some, size, empty, full and can_pop count them, and operations that do not fit throw. As a queue, it should return nibbles in the order they were pushed.", "quantifier": "every history of pushes, pops and clears, queue types up to 64 bits, values of 8 and 16 bits", "why_tests_cant": "the tests construct queues from single values and pop once", "anchors": ["include/daw/daw_bit_queues.h: basic_nibble_queue"]}
{"id": "C311", "title": "skip_until on bit streams", "statement": "skip_until( bs, v ) skips whole values from where the stream stands until one equals v and leaves the stream directly after it; if there is none, it throws.", "quantifier": "every source of 8 and 16 bit values, every position inside a value, every value", "why_tests_cant": "there are no tests of skip_until", "anchors": ["include/daw/daw_bit_stream.h: skip_until"]}
{"id": "C312", "title": "visit_as: visiting a value as another type", "statement": "visit_as<VisitedT>( value, visitor ) shows the visitor the bytes of the value as a VisitedT; what the visitor leaves there are the bytes of the value afterwards, and the result of the visitor is returned. If the visitor throws, the value is unchanged.", "quantifier": "every value of unsigned integers of any size, visited as arrays of unsigned integers, every visitor", "why_tests_cant": "the tests visit one value", "anchors": ["include/daw/daw_visit_as.h: visit_as"]}
{"id": "C313", "title": "Digits, logarithms and powers of ten for integer output", "statement": "num_digits returns the number of decimal digits, whole_log10 the whole part of the decimal logarithm, and pow10 the power of ten, for every argument for which the result can be represented.", "quantifier": "every value of every integer type", "why_tests_cant": "the tests do not cover these functions", "anchors": ["include/daw/impl/daw_int_to_iterator.h: num_digits, whole_log10, pow10"]}
{"id": "C314", "title": "CFile: one owner, closed once", "statement": "A client that hands over only open files that no CFile holds never has a file closed twice. Each file is held by at most one object and stays open while held; it is closed exactly when its object is closed, reset or destroyed; moving hands it on, release returns it, and none is lost.", "quantifier": "every history of opening, constructing, moving, assigning, releasing, resetting, closing and destroying any number of objects", "why_tests_cant": "there are no tests of CFile; double closing depends on the history", "anchors": ["include/daw/deprecated/daw_cfile.h: CFile"]}
{"id": "C315", "title": "RandomIterator, wrap_iter and pointer_iterator behave like pointers", "statement": "Every operation of the iterators moves the iterator and returns what the same operation on a pointer does, as long as the target is in the array or at its end; it + n and it - n do not move the iterator.", "quantifier": "every array length, position, offset and operation", "why_tests_cant": "positions and offsets are unbounded in number, and the kind of result (reference, copy or dangling reference) is not observed by tests", "anchors": ["include/daw/iterator/daw_random_iterator.h: RandomIterator", "include/daw/wrap_iter.h: wrap_iter", "include/daw/iterator/daw_pointer_iterator.h: pointer_iterator"]}
{"id": "C316", "title": "Checks that throw", "statement": "daw_throw_on_false and its relatives throw the chosen exception exactly when the condition is not met, end the program instead when exceptions are disabled, and return values unchanged otherwise; dbg_ forms do so only in debug configurations; assert_all_true and assert_all_false stop at the first bad element; no_exception lets no exception out.", "quantifier": "every configuration, condition, value and list of elements", "why_tests_cant": "a build has one configuration, and tests cannot observe the end of the program", "anchors": ["include/daw/daw_exception.h: daw_throw_on_false, daw_throw_on_true, dbg_throw_on_false, dbg_throw_on_true, daw_throw_on_null_or_return, dbg_throw_on_null_or_return, daw_throw_on_false_or_return, precondition_check, dbg_precondition_check, assert_all_true, assert_all_false, no_exception"]}
{"id": "C317", "title": "zip_container loops over rows", "statement": "A loop over a zip_container visits the rows of the containers it was made from, in order.", "quantifier": "every number of containers, lengths and elements, containers given as variables or temporaries", "why_tests_cant": "the tests use containers that live long enough and have the same length; undefined behaviour is not observed", "anchors": ["include/daw/daw_zipcontainer.h: zip_container, make_zipcontainer"]}
{"id": "C318", "title": "Safe strings", "statement": "After any history, get and the conversion return the cleaned form of the string assigned last, by the function the object has, and unsafe_get that string itself.", "quantifier": "every cleaning function, every history of assignments and copies", "why_tests_cant": "histories and functions are unbounded in number", "anchors": ["include/daw/deprecated/daw_safe_string.h: basic_safe_string"]}
{"id": "C319", "title": "Converting orderings, and logic without short circuit", "statement": "order_to_enum keeps less, equal, greater and unordered apart, and equal_or_equivalent holds for equal only, before and after the conversion. nsc_and is true when all arguments are, nsc_or when one is.", "quantifier": "every ordering and every representation of unordered, every number of arguments", "why_tests_cant": "the representation of unordered depends on the library", "anchors": ["include/daw/daw_ordering_to_integer.h: order_to_enum, equal_or_equivalent", "include/daw/daw_logic.h: nsc_and, nsc_or"]}
{"id": "C320", "title": "Splitting format strings at braces", "statement": "The splitter used for format strings returns true up to the closing brace of a group and false there; size( ) is the number of characters in the group; a backslash takes away the meaning of the brace after it; nested groups and closing braces without a group are refused.", "quantifier": "every text", "why_tests_cant": "there are no tests of format.h; texts are unbounded", "anchors": ["include/daw/format.h: brace_splitter_t"]}
{"id": "C321", "title": "Tracked allocation", "statement": "Memory of a tracked_allocator is used only while allocated and within its block: every other use through its pointers stops the program.", "quantifier": "every history of allocating, moving, constructing, destroying, reading and deallocating, any number of blocks and pointers", "why_tests_cant": "there are no tests of tracked_allocator; misuse depends on the history", "anchors": ["include/daw/daw_tracked_allocator.h: tracked_allocator", "include/daw/daw_safe_pointer.h: safe_pointer"]}
{"id": "C322", "title": "Uninitialized storage", "statement": "uninitialized_storage holds an object from construct to destruct; reads and writes in between refer to it; a copy of the storage holds a copy of the object.", "quantifier": "every history over any number of storages, trivially copyable types and others", "why_tests_cant": "lifetimes are not observed by tests", "anchors": ["include/daw/daw_uninitialized_storage.h: uninitialized_storage"]}
{"id": "C323", "title": "Limits of 128 bit integers", "statement": "numeric_limits of int128_t and uint128_t describe the numbers that 128 bits can hold; digits10 decimal digits always fit, and one more does not.", "quantifier": "every 128 bit number", "why_tests_cant": "the values cannot be enumerated", "anchors": ["include/daw/impl/daw_gcc_clang_int128.h: numeric_limits"]}
{"id": "C324", "title": "Taking the buffer out of a vector and putting one in", "statement": "extract_from_container moves the buffer of a vector, with its size and capacity, into a container_data and leaves the vector empty; insert_into_container frees what the vector had and gives it the buffer; container_data destroys the elements and frees the buffer once; nothing leaks.", "quantifier": "every history over any number of vectors and container_data, element types with and without destructor, shrink_to_fit that frees or not", "why_tests_cant": "the tests use one vector of int that is full, so that no destructor runs; lifetimes are not observed", "anchors": ["include/daw/impl/daw_container_help_impl.h: container_deleter, container_data", "include/daw/impl/daw_container_help_vector.h: extract_from_container_t, insert_into_container_t"]}
{"id": "C325", "title": "Inserting through an iterator", "statement": "Writing through an inserter_iterator inserts every value written, in order, and nothing else; copying a range into a set yields the union.", "quantifier": "every sequence of operations, every container and range", "why_tests_cant": "sequences are unbounded", "anchors": ["include/daw/iterator/daw_inserter.h: inserter_iterator, inserter"]}
{"id": "C326", "title": "compressed_pair is a pair", "statement": "first and second of a compressed_pair are independent of each other, whatever is stored as a base class, and swap exchanges both members of two pairs.", "quantifier": "every history over any number of pairs", "why_tests_cant": "histories are unbounded; self swap is not tested", "anchors": ["include/daw/compressed_pair.h: compressed_pair"]}
{"id": "C327", "title": "A tuple is the list of its elements", "statement": "get returns the element with that number, assigning through it changes this element (or the object it refers to, for tie and reference_wrapper) and no other; == and != compare the sizes and then the elements, up to the first difference; apply passes all elements in order.", "quantifier": "every tuple of values and references, every history of assignments, every equality of the elements", "why_tests_cant": "the tests fix a few tuples of up to three elements; sizes and histories are unbounded", "anchors": ["include/daw/daw_tuple.h: tuple, get, tie, forward_as_tuple, make_tuple, apply, operator==, operator!="]}
{"id": "C328", "title": "Enumerating a tuple", "statement": "Element i of an enumerated tuple is the pair of i and the i-th element; the indices of different elements differ.", "quantifier": "every tuple and every integer type of the indices", "why_tests_cant": "the tests use size_t and a few elements", "anchors": ["include/daw/algorithms/daw_enumerate_tuple.h: enumerate_tuple, get"]}
{"id": "C329", "title": "A bounded array", "statement": "daw::array keeps its size; fill sets every element, also when the value is an element of the array; front, back and [] access the elements; == and != compare all of them.", "quantifier": "every history, every size and every equality", "why_tests_cant": "histories are unbounded; filling with an own element is not tested", "anchors": ["include/daw/daw_bounded_array.h: array", "include/daw/daw_simple_array.h: simple_array", "include/daw/daw_algorithm.h: fill_n, equal"]}
{"id": "C330", "title": "Bit casting over ranges", "statement": "bit_cast_for_each passes every element reinterpreted as T; bit_cast_transform writes the reinterpreted results; bit_cast_copy copies the bits; nothing else is changed, also when source and destination overlap.", "quantifier": "every range, every position of the destination, all integer types of one width, every function", "why_tests_cant": "the tests use one array of a few elements", "anchors": ["include/daw/daw_bit_cast_util.h: bit_cast_for_each, bit_cast_transform, bit_cast_copy"]}
{"id": "C331", "title": "Printing", "statement": "print writes the text of the format with the arguments in place of the fields; println writes the same and a newline, also when the result has braces; dump writes each argument followed by a space, then a newline.", "quantifier": "every format of texts and empty fields, every list of arguments", "why_tests_cant": "formats and numbers of arguments are unbounded", "anchors": ["include/daw/daw_print.h: print, vprint, println, dump"]}
{"id": "C332", "title": "Packs of forwarded arguments", "statement": "A fwd_pack refers to the arguments it was made of: get and apply use the objects as they are at that time, in order, and copy nothing.", "quantifier": "every list of arguments, every history of the objects", "why_tests_cant": "lifetimes are not observed by tests", "anchors": ["include/daw/daw_fwd_pack_apply.h: fwd_pack, get, apply"]}
{"id": "C333", "title": "bind_front", "statement": "Each call of a bind_front calls the function with the stored parameters followed by the arguments; what the function does to parameters stored by value has no effect on later calls, references give it the objects themselves.", "quantifier": "every function, stored parameters, sequence of calls", "why_tests_cant": "sequences of calls and functions that change their parameters are not tested", "anchors": ["include/daw/daw_bind_front.h: bind_front"]}
{"id": "C334", "title": "Non-owning C strings", "statement": "A CString made from a pointer shows the characters before the first NUL and owns nothing: moving, swapping, nullifying and destroying such strings in any order only copies pointers, and never changes or frees the characters.", "quantifier": "every memory of NUL terminated arrays, every history of any number of CStrings", "why_tests_cant": "histories of moves, swaps and destructions are unbounded; a wrong delete is not seen by a test that ends", "anchors": ["include/daw/deprecated/daw_cstring.h: CString, size, to_string, empty, is_null, operator[], swap, nullify"]}
{"id": "C335", "title": "C strings that own their data", "statement": "After take_ownership_of_data the characters are freed exactly once: by the destructor of the string that owns them.", "quantifier": "every memory and every history", "why_tests_cant": "double deletes and leaks depend on the history", "anchors": ["include/daw/deprecated/daw_cstring.h: take_ownership_of_data, ~CString, swap, move constructor and assignment"]}
{"id": "C336", "title": "Comparison of C strings", "statement": "==, !=, <, >, <= and >= compare the texts before the NUL character by character as unsigned bytes; this is a strict total order of texts.", "quantifier": "every two strings and every operator", "why_tests_cant": "the pairs of strings are unbounded", "anchors": ["include/daw/deprecated/daw_cstring.h: compare", "include/daw/daw_operators.h: create_friend_comparison_operators"]}
{"id": "C337", "title": "generate_n of the pipelines", "statement": "generate_n( n, f ) has n elements, the results of n calls of f in order, for every pass; an element does not change when it is read again.", "quantifier": "every function object with state, every n, every history of iterators", "why_tests_cant": "functions with state and multiple passes are not tested", "anchors": ["include/daw/pipelines/generate.h: generate_n", "include/daw/pipelines/map.h: map_iterator", "include/daw/pipelines/iota.h: iota_view"]}
{"id": "C338", "title": "Ordered topological walk", "statement": "topological_sorted_walk with a Compare visits each node that no cycle leads to once, after all its predecessors, and the node visited next is always a greatest of those whose predecessors have all been visited.", "quantifier": "every graph built by any history of calls, every strict weak order, every iteration order and every sorting function", "why_tests_cant": "graphs and orders are unbounded; which nodes compete at a step depends on the whole history of the walk", "anchors": ["include/daw/daw_graph_algorithm.h: topological_sorted_walk (Compare)"]}
{"id": "C339", "title": "Ordered depth first walk", "statement": "dfs_walk with a ChildOrder ends and visits the reachable nodes in the sequence of the recursive depth first walk that takes the children not visited yet in ascending order.", "quantifier": "every graph, every strict weak order of values, every sorting function", "why_tests_cant": "graphs are unbounded", "anchors": ["include/daw/daw_graph_algorithm.h: dfs_walk (ChildOrder)"]}
{"id": "C340", "title": "Ordered breadth first walk", "statement": "bfs_walk with a ChildOrder ends; after the start node come, for each visit in turn, the children of the visited node not visited by then, in ascending order; equal values are allowed.", "quantifier": "every graph, every strict weak order of values, every sorting function", "why_tests_cant": "graphs are unbounded", "anchors": ["include/daw/daw_graph_algorithm.h: bfs_walk (ChildOrder)"]}
{"id": "C341", "title": "Moving nodes between containers", "statement": "extract_to moves exactly the nodes with the given key from one associative container to the other, and extract_all moves all of them: afterwards every node is in one of the two containers.", "quantifier": "every source and destination, with unique or repeated keys, and every key", "why_tests_cant": "containers are unbounded, and whether a node is lost depends on the keys of both", "anchors": ["include/daw/daw_algorithm.h: extract_to, extract_all"]}
{"id": "C342", "title": "Extracting the matching nodes", "statement": "extract_matching moves the nodes that satisfy the predicate to the destination and leaves the others.", "quantifier": "every source, destination and predicate", "why_tests_cant": "containers and predicates are unbounded", "anchors": ["include/daw/daw_algorithm.h: extract_matching"]}
{"id": "C343", "title": "Consuming elements of a range", "statement": "consume_if removes the elements that satisfy the predicate, keeps the others in order, and calls func with each removed element.", "quantifier": "every range inside a sequence and every predicate", "why_tests_cant": "ranges and predicates are unbounded", "anchors": ["include/daw/daw_algorithm.h: consume_if"]}
{"id": "C344", "title": "Predicate objects", "statement": "in_range refuses an empty interval, and the objects made by in_range, equal_to, less_than and the others test their argument against the values they were made from.", "quantifier": "every order, values, and later assignments to variables", "why_tests_cant": "all types, values and later histories of the variables are quantified over", "anchors": ["include/daw/daw_algorithm.h: in_range, equal_to, not_equal_to, less_than, less_than_or_equal_to, greater_than, greater_than_or_equal_to"]}
{"id": "C345", "title": "Loops over topologically sorted ranges", "statement": "A loop over make_topological_sorted_range visits each node that no cycle leads to once and after all its predecessors; size and empty agree with the loop, and the iterators move, read and compare as random access iterators do.", "quantifier": "every graph built by any history of calls, every iteration order, every sequence of iterator operators", "why_tests_cant": "graphs and sequences of operators are unbounded", "anchors": ["include/daw/daw_graph_algorithm.h: make_topological_sorted_range, topological_sorted_iterator"]}
{"id": "C346", "title": "Loops in reverse topological order", "statement": "make_reverse_topological_sorted_range, and rbegin and rend of make_topological_sorted_range, visit the nodes in the reverse of the topological order; rbegin and rend of the reverse range visit them in the topological order.", "quantifier": "every graph built by any history of calls and every iteration order", "why_tests_cant": "graphs are unbounded", "anchors": ["include/daw/daw_graph_algorithm.h: make_reverse_topological_sorted_range, make_topological_sorted_range"]}
{"id": "C347", "title": "push_back, reserve and shrink_to_fit of vector are strongly exception safe", "statement": "When an allocation, a copy or the length check throws in push_back or reserve, the vector holds the same elements in the same buffer and all other memory is as before the call; shrink_to_fit never throws and then also leaves everything as before.", "quantifier": "every vector, every element, capacity and maximum size, and every schedule of throwing allocations and copies, for elements that move without throwing or are copied", "why_tests_cant": "every point at which an exception can occur has to be covered for vectors of every length", "anchors": ["include/daw/vector.h: push_back, reserve, shrink_to_fit", "include/daw/split_buffer.h: split_buffer"]}
{"id": "C348", "title": "append of vector is strongly exception safe", "statement": "When an allocation or a copy throws in append( n, x ), the vector and all memory are as before the call.", "quantifier": "every vector, count and schedule of throwing allocations and copies", "why_tests_cant": "every copy may be the one that throws", "anchors": ["include/daw/vector.h: append"]}
{"id": "C349", "title": "Constructors of vector that throw leave nothing behind", "statement": "When an allocation or a copy throws in a constructor of vector that copies elements, every object made is destroyed and all memory is released.", "quantifier": "every list of elements and every schedule of throwing allocations and copies", "why_tests_cant": "every copy may be the one that throws", "anchors": ["include/daw/vector.h: vector( n, x ), vector( first, last ), vector( vector const & )"]}
{"id": "C350", "title": "Histories of vector with exceptions", "statement": "Whichever allocations and copies throw in any sequence of push_back, append, reserve, shrink_to_fit, resize, assign and clear, each call has its effect or leaves a valid vector with the documented elements, and the destructor then destroys every object once and releases all memory.", "quantifier": "every sequence of calls and every schedule of throwing allocations and copies", "why_tests_cant": "histories and schedules of exceptions are unbounded", "anchors": ["include/daw/vector.h: vector"]}
{"id": "C351", "title": "insert of vector when something throws", "statement": "insert( position, x ) into a full vector, and at the end of any vector, leaves the vector and all memory as before when it throws. In front of an element of a vector with room it leaves either the old elements, or one element more: one of the moved elements twice if elements are copied, and a moved-from element at the position if they are moved. The vector can then be destroyed, and nothing is lost.", "quantifier": "every vector, position and value, and every schedule of throwing allocations and copies", "why_tests_cant": "every point at which an exception can occur has to be covered for vectors of every length", "anchors": ["include/daw/vector.h: insert, swap_out_circular_buffer, move_range"]}
{"id": "C352", "title": "erase and pop_back_value of vector when something throws", "statement": "erase of a range never throws when moves do not throw; when a copy throws, the vector keeps its length and each element is either at its old or at its new place. pop_back_value either returns and removes the last element, or leaves the vector as it was.", "quantifier": "every vector and range, and every schedule of throwing copies", "why_tests_cant": "every copy may be the one that throws", "anchors": ["include/daw/vector.h: erase, pop_back_value"]}
{"id": "C353", "title": "Histories of vector with insert and erase and exceptions", "statement": "In every state that a program can reach by valid calls of the members, catching their exceptions, every valid call is defined, and the destructor destroys every object once and releases all memory.", "quantifier": "every program and every schedule of throwing allocations and copies; a program that moves elements does not go on after insert has thrown", "why_tests_cant": "programs and schedules of exceptions are unbounded", "anchors": ["include/daw/vector.h: vector"]}
{"id": "C354", "title": "push_back and insert of an rvalue when something throws", "statement": "push_back( T && ) and insert( position, T && ) of a vector whose elements have moves that do not throw either move the value into the vector, or throw because a full vector could not get a new buffer; then the vector, all memory and the argument are as before. With room they never throw. If std::move copies, the argument keeps its value, push_back changes nothing when it throws, and insert changes something only in front of an element of a vector with room, where one element may be left twice.", "quantifier": "every vector, position and value, and every schedule of throwing allocations and copies", "why_tests_cant": "every point at which an exception can occur has to be covered for vectors of every length", "anchors": ["include/daw/vector.h: push_back, insert, push_back_slow_path, construct_one_at_end", "include/daw/split_buffer.h: push_back"]}
{"id": "C355", "title": "insert of several elements when something throws", "statement": "insert( position, n, x ) and insert( position, first, last ) put the elements in front of the position or throw. If the free capacity of the vector had no room for them, an exception leaves the vector and all memory as before. If it had, the elements in front of the position are as before, the vector has at least as many elements as before, and it can be destroyed without a leak.", "quantifier": "every vector, position and list of values shorter than 2^63, and every schedule of throwing allocations and copies", "why_tests_cant": "every point at which an exception can occur has to be covered for vectors and ranges of every length", "anchors": ["include/daw/vector.h: insert, move_range, swap_out_circular_buffer", "include/daw/split_buffer.h: construct_at_end"]}
