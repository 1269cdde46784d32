{"id": "C01", "title": "Calendar round trip of UTC dates", "statement": "For every in-range calendar instant, building a time value from year/month/day/hour/minute/second/millisecond (as Date.UTC does) and reading the UTC year, month, day-of-month, weekday back yields the same calendar date; and conversely every time value is rebuilt exactly from its day number and time within the day.", "quantifier": "every proleptic Gregorian date whose time value lies in +-8.64e15 ms, every month overflow/underflow argument, every time value", "why_tests_cant": "The domain has 2*10^8 days; leap-year and negative-year corner cases are only sampled by tests.", "anchors": ["src/lib/rjs_date_object_inc.c: day, time_within_day, days_in_year, day_from_year, time_from_year, year_from_time, month_from_time, date_from_time, week_day, make_day, make_date"]}
{"id": "C02", "title": "Time-of-day getters decompose the time value", "statement": "For every valid time value t, getUTCHours, getUTCMinutes, getUTCSeconds and getUTCMilliseconds return values in 0..23, 0..59, 0..59, 0..999 that recombine to exactly t modulo one day.", "quantifier": "every integral time value, before and after the epoch", "why_tests_cant": "Truncation versus flooring only differs on part of the negative range; a finite sample of dates after 1970 can never show it.", "anchors": ["src/lib/rjs_date_object_inc.c: hour_from_time, min_from_time, sec_from_time, ms_from_time, make_time"]}
{"id": "C03", "title": "Sorting is a stable sorted permutation, whatever the comparator does", "statement": "Array.prototype.sort and TypedArray.prototype.sort terminate for every comparator; the result is always a permutation of the input even when the comparator is inconsistent or throws half-way; and when the comparator is a consistent weak order the result is sorted and equal elements keep their original relative order.", "quantifier": "every input list of every length, every comparator (including one that is inconsistent or fails at any call)", "why_tests_cant": "Comparators are arbitrary user functions and failure can occur at any of the O(n log n) calls.", "anchors": ["src/lib/rjs_sort.c: merge, sort, rjs_sort", "src/lib/rjs_array_object_inc.c: Array_prototype_sort"]}
{"id": "C04", "title": "Different strings name different properties", "statement": "Two property accesses with string keys refer to the same property exactly when the two key strings are equal; in particular the array-index fast path is taken only for the canonical decimal form of an index 0..2^32-2, and the index it yields prints back as the same string.", "quantifier": "every pair of UTF-16 strings", "why_tests_cant": "The key space is infinite; aliasing only shows for spellings a test author did not think of (leading zeros, blanks).", "anchors": ["src/lib/rjs_string.c: rjs_string_to_index_internal, rjs_string_to_index", "src/lib/rjs_object.c: prop_resolve"]}
{"id": "C05", "title": "Indexed properties behave as one finite map through every representation change", "statement": "For every sequence of additions and deletions of integer-indexed properties, looking up an index returns exactly the last value stored and not deleted, no other index is disturbed, and the engine never dereferences a null or out-of-range slot, regardless of how often storage switches between the dense vector and the balanced tree.", "quantifier": "every history of index insertions, updates and deletions over all 32-bit indices", "why_tests_cant": "Representation switches depend on the whole history of densities; the state space is unbounded.", "anchors": ["src/lib/rjs_object.c: prop_array_fixup, prop_rbt_set_vec, prop_rbt_to_vec, prop_vec_to_rbt, update_array_item_max, prop_lookup, prop_add, prop_delete"]}
{"id": "C06", "title": "Array length always exceeds every own index", "statement": "After any sequence of element definitions, deletions and length assignments on an array, every own integer index is strictly less than length, and length is an integer in 0..2^32-1.", "quantifier": "every operation history on an array, with any property attributes", "why_tests_cant": "Needs an invariant over unbounded histories.", "anchors": ["src/lib/rjs_array.c: array_set_length, array_set_item, array_op_define_own_property"]}
{"id": "C07", "title": "Shrinking length removes exactly the tail, stopping at the first non-configurable element", "statement": "Assigning a smaller length deletes exactly the elements with index >= the new length when all are configurable, leaves every lower element untouched, and otherwise stops right above the highest non-configurable element, sets length to that index plus one and reports failure; a non-writable length never changes and admits no element at or beyond it.", "quantifier": "every array content, attribute assignment and new length", "why_tests_cant": "Depends on arbitrary attribute patterns over unboundedly many elements.", "anchors": ["src/lib/rjs_array.c: array_set_length", "src/lib/rjs_object.c: rjs_ordinary_object_op_delete, rjs_ordinary_object_delete_from_index"]}
{"id": "C08", "title": "Non-configurable properties never change in a forbidden way", "statement": "Through any sequence of defineProperty, assignment and delete operations on an ordinary object, a property that is non-configurable stays present, non-configurable and of the same kind with the same enumerability, a non-writable non-configurable data property keeps its value (SameValue), and a non-configurable accessor keeps its getter and setter.", "quantifier": "every descriptor, every history of operations on the object", "why_tests_cant": "The descriptor lattice (present/absent fields x attributes x values) times unbounded histories.", "anchors": ["src/lib/rjs_object.c: validate_and_apply_property, rjs_ordinary_object_op_define_own_property, rjs_ordinary_object_op_set, rjs_ordinary_object_op_delete"]}
{"id": "C09", "title": "Prototype chains of ordinary objects never become cyclic", "statement": "After any sequence of object creations and setPrototypeOf calls on ordinary objects, following prototypes from any object terminates; a call that would create a cycle fails and changes nothing.", "quantifier": "every history of setPrototypeOf calls over any set of objects", "why_tests_cant": "Cycles can have any length and arise from any interleaving of updates.", "anchors": ["src/lib/rjs_object.c: rjs_ordinary_object_op_set_prototype_of"]}
{"id": "C10", "title": "Non-extensible objects gain no property and keep their prototype", "statement": "Once preventExtensions succeeds on an ordinary object, no later operation adds an own property, the set of own keys only shrinks, the prototype stays the same and the object never becomes extensible again.", "quantifier": "every later history of operations", "why_tests_cant": "A stability property over unbounded futures.", "anchors": ["src/lib/rjs_object.c: rjs_ordinary_object_op_prevent_extensions, rjs_ordinary_object_op_set_prototype_of, validate_and_apply_property"]}
{"id": "C11", "title": "The internal hash table is a faithful finite map", "statement": "For any sequence of insertions and removals, a lookup finds exactly the entry last inserted under an equal key and not removed, the entry count is the number of stored keys, and growth of the bucket array never loses or duplicates an entry, for any hash function consistent with key equality (including one that collides everywhere).", "quantifier": "every operation history, every hash function, every key type", "why_tests_cant": "Collision patterns and resize points are combinatorially unbounded.", "anchors": ["src/lib/rjs_hash.c: rjs_hash_lookup, rjs_hash_insert, rjs_hash_remove", "include/ratjs/rjs_hash.h"]}
{"id": "C12", "title": "The balanced tree keeps order, balance and contents", "statement": "For any sequence of insertions and removals the tree contains exactly the inserted, not removed keys in ascending order, no red node has a red child, all paths have the same number of black nodes, hence its height is at most logarithmic, and in-order stepping visits every key once in order.", "quantifier": "every insertion/removal history over any key set", "why_tests_cant": "Rebalancing has many shape cases reachable only through particular long histories.", "anchors": ["src/lib/rjs_rbt.c: rjs_rbt_insert, rbt_fixup, rjs_rbt_remove, rjs_rbt_first, rjs_rbt_last, rjs_rbt_next, rjs_rbt_prev"]}
{"id": "C13", "title": "Map/Set iteration under concurrent modification", "statement": "While any number of iterators or forEach loops are active on a Map or Set, whatever sequence of add, delete and clear happens between steps, each iterator behaves like a cursor over the append-only insertion log with deleted entries skipped: it visits every entry that is present when the cursor reaches it, in insertion order, never visits an entry twice without re-insertion, never visits a deleted entry and never touches freed memory.", "quantifier": "every interleaving of mutations with the steps of any number of iterators", "why_tests_cant": "Schedules of mutations against several live cursors are unbounded.", "anchors": ["src/lib/rjs_hash_object_inc.c: hash_add, hash_delete, hash_clear, hash_iter_new, hash_iter_next"]}
{"id": "C14", "title": "The collector never frees a reachable object", "statement": "For every object graph, every root set and every mark-stack capacity, a garbage collection frees no object reachable from the roots, and terminates.", "quantifier": "every finite object graph, root set and mark-stack size", "why_tests_cant": "Mark-stack overflow paths need graphs with particular fan-out; the graph space is unbounded.", "anchors": ["src/lib/rjs_gc.c: gc_scan, gc_scan_things, gc_sweep, gc_run", "include/ratjs/rjs_gc.h: rjs_gc_mark"]}
{"id": "C15", "title": "The collector frees every unreachable object", "statement": "For every object graph a garbage collection frees every object that is not reachable from the roots, including cycles, and leaves no stale mark so that the next collection is equally precise.", "quantifier": "every finite object graph and every number of successive collections", "why_tests_cant": "Quantifies over all graphs and sequences of collections.", "anchors": ["src/lib/rjs_gc.c: gc_sweep, gc_run"]}
{"id": "C16", "title": "A WeakMap keeps the value of a live key alive", "statement": "As long as a key object of a WeakMap is reachable and the map is reachable, the value stored under it survives garbage collection and is returned by get.", "quantifier": "every heap graph containing weak maps, every collection point", "why_tests_cant": "Depends on when the collector runs; a test whose value is also referenced elsewhere never fails.", "anchors": ["src/lib/rjs_hash_object_inc.c: weak_hash_op_gc_scan", "src/lib/rjs_weak_map_object_inc.c: WeakMap_prototype_set, WeakMap_prototype_get", "src/lib/rjs_weak_ref_opt.c", "src/lib/rjs_gc.c"]}
{"id": "C17", "title": "Jobs run exactly once in FIFO order", "statement": "Jobs are executed in the order they were enqueued, each exactly once, including jobs enqueued by running jobs, and the queue is empty when draining returns.", "quantifier": "every program of jobs that enqueue further jobs, any drain boundary", "why_tests_cant": "Unbounded schedules of self-enqueuing jobs.", "anchors": ["src/lib/rjs_job.c: rjs_job_enqueue, rjs_solve_jobs"]}
{"id": "C18", "title": "A promise settles at most once and never changes afterwards", "statement": "Whatever sequence of calls to its resolve and reject functions (including thenables that call both, several times, and resolution with another promise or itself) occurs, a promise moves at most once from pending to fulfilled or rejected, its result then never changes, and no internal assertion about pending state is violated.", "quantifier": "every history of resolver calls, thenable behaviours and job interleavings", "why_tests_cant": "Adversarial thenables can call resolvers in any order from inside jobs.", "anchors": ["src/lib/rjs_promise.c: promise_resolve_nf, promise_reject_nf, fulfill_promise, reject_promise, promise_then_job, promise_status_new, create_resolving_function"]}
{"id": "C19", "title": "Every promise reaction is called exactly once, asynchronously, in registration order", "statement": "Each reaction registered by then on a promise that settles is enqueued as exactly one job, never run synchronously within then or resolve, and reactions of one promise run in registration order.", "quantifier": "every interleaving of then, settle and job execution", "why_tests_cant": "Unbounded interleavings.", "anchors": ["src/lib/rjs_promise.c: rjs_perform_proimise_then, trigger_promise_reactions, promise_reaction_job", "src/lib/rjs_job.c"]}
{"id": "C20", "title": "BigInt addition and subtraction are exact", "statement": "For all BigInts a and b, a+b, a-b, -a, ++a, --a and ~a equal the mathematical integers.", "quantifier": "every pair of integers of any size", "why_tests_cant": "Carry/borrow propagation faults need particular limb patterns among infinitely many.", "anchors": ["src/lib/rjs_big_int_internal_opt.c: bi_add, bi_sub, bi_sub_greater, bi_self_sub_greater, rjs_big_int_add, rjs_big_int_subtract, rjs_big_int_unary_minus, rjs_big_int_inc, rjs_big_int_dec, rjs_big_int_bitwise_not"]}
{"id": "C21", "title": "BigInt multiplication and exponentiation are exact", "statement": "For all BigInts a and b, a*b equals the mathematical product, and a**b for b>=0 equals the mathematical power (or a RangeError when the exponent is too large to be representable).", "quantifier": "every pair of integers of any size", "why_tests_cant": "Special-cased digits (0, 1) and signs interact with limb positions.", "anchors": ["src/lib/rjs_big_int_internal_opt.c: bi_mul_int, bi_mul, bi_exp, rjs_big_int_multiply, rjs_big_int_exponentiate"]}
{"id": "C22", "title": "BigInt division and remainder satisfy the truncated-division law", "statement": "For all a and b<>0, (a/b)*b + a%b = a, |a%b| < |b| and a%b has the sign of a or is zero; b=0 raises RangeError.", "quantifier": "every pair of integers of any size", "why_tests_cant": "Long division corner cases have vanishing probability on random inputs.", "anchors": ["src/lib/rjs_big_int_internal_opt.c: bi_div, rjs_big_int_divide, rjs_big_int_remainder"]}
{"id": "C23", "title": "BigInt bitwise operators agree with infinite two's complement", "statement": "For all BigInts a, b and every bit position k, bit k of a&b, a|b, a^b is the boolean combination of bit k of a and b in infinite two's complement.", "quantifier": "every pair of integers, every bit position", "why_tests_cant": "Infinite domain, sign-extension across limb boundaries.", "anchors": ["src/lib/rjs_big_int_internal_opt.c: rjs_big_int_bitwise_and, rjs_big_int_bitwise_or, rjs_big_int_bitwise_xor, bi_bit_op"]}
{"id": "C24", "title": "BigInt shifts multiply or floor-divide by powers of two", "statement": "a<<n equals a*2^n and a>>n equals floor(a/2^n) for all a and n.", "quantifier": "every integer and shift amount", "why_tests_cant": "Negative operands aligned to limb boundaries are a measure-zero subset.", "anchors": ["src/lib/rjs_big_int_internal_opt.c: bi_shift, rjs_big_int_left_shift, rjs_big_int_signed_right_shift"]}
{"id": "C25", "title": "BigInt.asIntN / asUintN reduce modulo 2^n", "statement": "BigInt.asUintN(n,a) is the unique value in [0,2^n) congruent to a modulo 2^n, and asIntN(n,a) the unique such value in [-2^(n-1),2^(n-1)).", "quantifier": "every integer a and bit count n", "why_tests_cant": "Infinite domain.", "anchors": ["src/lib/rjs_big_int_internal_opt.c: bi_bits, rjs_big_int_as_int_n, rjs_big_int_as_uint_n"]}
{"id": "C26", "title": "BigInt comparison is the order of the integers", "statement": "The relational and equality operators on BigInts coincide with the order of the mathematical integers, including comparisons against integral Numbers.", "quantifier": "every pair of integers", "why_tests_cant": "Infinite domain; mixed sign/length.", "anchors": ["src/lib/rjs_big_int_internal_opt.c: bi_compare, rjs_big_int_compare, rjs_big_int_compare_number"]}
{"id": "C27", "title": "BigInt text conversion round-trips in every radix", "statement": "For every BigInt a and radix r in 2..36, parsing a.toString(r) in radix r gives a back, and the text is canonical (no leading zeros, no -0).", "quantifier": "every integer, every radix", "why_tests_cant": "Infinite domain.", "anchors": ["src/lib/rjs_big_int_internal_opt.c: rjs_big_int_to_string, rjs_big_int_from_chars, bi_div_int, bi_mul_int"]}
{"id": "C28", "title": "BigInt values stay normalised", "statement": "Every BigInt operation yields a value without superfluous leading zero digits and with a single representation of zero, so that structural equality is numeric equality.", "quantifier": "every operation on every normalised operand", "why_tests_cant": "Infinite domain.", "anchors": ["src/lib/rjs_big_int_internal_opt.c: bi_end and all operations"]}
{"id": "C29", "title": "Text encoding conversion round-trips and stays inside its buffer", "statement": "Converting any sequence of Unicode scalar values from UTF-16 to UTF-8 and back yields the same sequence, and conversion never writes more bytes than the output buffer has.", "quantifier": "every text, every output buffer size", "why_tests_cant": "Buffer-boundary cases depend on where multi-byte characters fall.", "anchors": ["src/lib/rjs_conv_internal_opt.c: utf8_from_uc, utf8_to_uc, ucs_2le_from_uc, ucs_2le_to_uc, rjs_conv_run", "src/lib/rjs_conv.c: rjs_conv_to_buffer"]}
{"id": "C30", "title": "decodeURIComponent inverts encodeURIComponent", "statement": "For every string of well-formed UTF-16, encodeURIComponent and encodeURI produce only allowed ASCII characters and the matching decode function returns the original string; a lone surrogate raises URIError.", "quantifier": "every UTF-16 string", "why_tests_cant": "Infinite domain; all 1.1 million code points in every combination.", "anchors": ["src/lib/rjs_uri_functions_inc.c: uri_encode, uri_decode"]}
{"id": "C31", "title": "URI decoding never reads outside its argument and rejects malformed UTF-8", "statement": "decodeURI/decodeURIComponent read only characters of the argument and raise URIError for every malformed escape: truncated, overlong, surrogate or out-of-range sequences.", "quantifier": "every input string", "why_tests_cant": "Out-of-bounds reads produce no visible difference in most runs.", "anchors": ["src/lib/rjs_uri_functions_inc.c: uri_decode"]}
{"id": "C32", "title": "Element bytes round-trip for every element type and byte order", "statement": "Writing a value into a typed array or DataView with some element type and byte order and reading it back with the same type and order yields the converted value; writing and reading with opposite orders yields the byte-swapped value; and no other byte of the buffer changes.", "quantifier": "every value, element type, byte order and offset", "why_tests_cant": "Value domain is 2^64; frame condition ranges over all offsets.", "anchors": ["src/lib/rjs_array_buffer_opt.c: rjs_set_value_in_raw, rjs_get_value_from_raw, rjs_get_value_from_buffer, rjs_set_value_in_buffer"]}
{"id": "C33", "title": "DataView and typed-array accesses stay in bounds", "statement": "No get/set through a DataView or an integer-indexed element access reads or writes a byte outside the viewed range, for any offset argument (negative, fractional, huge, NaN) and any buffer length.", "quantifier": "every offset, view, buffer length and detach point", "why_tests_cant": "Overflow in offset arithmetic only occurs at extreme offsets.", "anchors": ["src/lib/rjs_data_view_object_inc.c: get_view_value, set_view_value, DataView_constructor", "src/lib/rjs_int_indexed_object_opt.c: rjs_is_valid_int_index", "src/lib/rjs_typed_array_object_inc.c: initialize_typed_array_from_array_buffer", "src/lib/rjs_operation.c: rjs_to_index"]}
{"id": "C34", "title": "Boxed values keep their type: no bit pattern forges a reference", "statement": "Every value kind stored in the 64-bit boxed representation is read back with the same kind and payload, the kinds are mutually exclusive, and no byte content of an array buffer read as a number is ever taken for a string, symbol, object or other non-number.", "quantifier": "every 64-bit pattern, every 48-bit pointer, every byte content", "why_tests_cant": "2^64 patterns; a forged reference is a security hole visible only for crafted NaN payloads.", "anchors": ["include/ratjs/rjs_value.h: rjs_value_set_*, rjs_value_is_*, rjs_value_get_*", "src/lib/rjs_array_buffer_opt.c: rjs_get_value_from_raw"]}
{"id": "C35", "title": "Integer conversions are modular", "statement": "ToInt32, ToUint32, ToInt16, ToUint16, ToInt8, ToUint8 return the value congruent to the truncated number modulo 2^k in the proper range for every finite number; ToUint8Clamp saturates and rounds half to even.", "quantifier": "every finite double", "why_tests_cant": "2^64 doubles; magnitudes beyond 2^63 are rarely tested.", "anchors": ["include/ratjs/rjs_operation.h: rjs_to_int32, rjs_to_uint32, rjs_to_int16, rjs_to_uint16, rjs_to_int8, rjs_to_uint8, rjs_to_uint8_clamp"]}
{"id": "C36", "title": "Shift operators on numbers use only the low five bits of the count", "statement": "For all integral x and n, x<<n, x>>n and x>>>n equal the spec's 32-bit shifts by n mod 32.", "quantifier": "every pair of operands", "why_tests_cant": "Infinite domain; behaviour of oversized shift counts is undefined in C and varies by compiler.", "anchors": ["src/lib/rjs_number.c: rjs_number_left_shift, rjs_number_signed_right_shift, rjs_number_unsigned_right_shift"]}
{"id": "C37", "title": "Atomics.notify wakes exactly the waiters it reports, oldest first", "statement": "For every interleaving of agents, Atomics.notify(i,c) removes at most c waiters of that address, in arrival order, and returns the number of agents whose Atomics.wait then returns \"ok\"; every wait that returns \"ok\" is matched by exactly one notification and every other wait returns \"timed-out\" or \"not-equal\".", "quantifier": "every schedule of any number of agents, including timeouts and spurious condition-variable wake-ups", "why_tests_cant": "Schedules and spurious wake-ups cannot be enumerated by tests.", "anchors": ["src/lib/rjs_atomics_object_inc.c: Atomics_wait, Atomics_notify", "src/lib/rjs_data_block_opt.c: rjs_get_waiter_list, rjs_add_waiter, rjs_notify_waiter"]}
{"id": "C38", "title": "Atomics operations on one location are linearizable", "statement": "Any concurrent history of Atomics.load, store, add, sub, and, or, xor, exchange and compareExchange on one shared element is equivalent to some sequential order; no operation observes a torn value.", "quantifier": "every schedule of every program", "why_tests_cant": "Torn accesses need a precise interleaving between byte accesses.", "anchors": ["src/lib/rjs_atomics_object_inc.c: Atomics_load, Atomics_store, Atomics_add, Atomics_compareExchange, Atomics_exchange", "src/lib/rjs_array_buffer_opt.c: rjs_get_value_from_buffer, rjs_set_value_in_buffer"]}
{"id": "C39", "title": "String search returns the first (last) occurrence", "statement": "indexOf(p, from) returns the least position >= from at which p occurs, lastIndexOf the greatest position <= from, and -1 exactly when there is none.", "quantifier": "every text, pattern and start position", "why_tests_cant": "Infinite domain.", "anchors": ["src/lib/rjs_string.c: rjs_string_index_of, rjs_string_last_index_of"]}
{"id": "C40", "title": "String comparison is the UTF-16 lexicographic total order", "statement": "The < relation on strings is a strict total order, equal to lexicographic order of code units, and compares equal exactly for equal strings.", "quantifier": "every pair/triple of strings", "why_tests_cant": "Infinite domain; transitivity is a statement about triples.", "anchors": ["src/lib/rjs_string.c: rjs_string_compare, rjs_string_equal"]}
{"id": "C41", "title": "trim and pad do exactly what they say", "statement": "trim/trimStart/trimEnd remove exactly the maximal run of white space at the chosen end(s) and nothing else; padStart/padEnd return a string of exactly the requested length (when longer than the text) consisting of the text and repeated filler.", "quantifier": "every string, filler and length", "why_tests_cant": "Infinite domain.", "anchors": ["src/lib/rjs_string.c: rjs_string_trim, rjs_string_pad"]}
{"id": "C42", "title": "Quoted JSON strings parse back to the original", "statement": "For every string, including lone surrogates and control characters, the text produced by JSON.stringify is accepted by the JSON string lexer and yields exactly the original string, and contains no raw control character.", "quantifier": "every UTF-16 string", "why_tests_cant": "Infinite domain.", "anchors": ["src/lib/rjs_json_opt.c: quote_json_string", "src/lib/rjs_lex.c: JSON string token"]}
{"id": "C43", "title": "JSON.parse accepts only JSON", "statement": "JSON.parse raises SyntaxError for every token sequence that is not a JSON text.", "quantifier": "every input text", "why_tests_cant": "The language of non-JSON texts is infinite.", "anchors": ["src/lib/rjs_json_opt.c: parse_value, parse_array, parse_object, parse_json_number, parse_json"]}
{"id": "C44", "title": "Replacement templates expand as specified and in bounds", "statement": "The replacement-template expansion used by String.prototype.replace and RegExp replace substitutes $$, $&, $`, $', $n, $nn and $<name> as specified, leaves all other text unchanged and never reads outside the subject string, for any match position and captures supplied by user code.", "quantifier": "every template, subject, match position and capture list", "why_tests_cant": "User-supplied exec results can report any position.", "anchors": ["src/lib/rjs_string.c: rjs_get_substitution"]}
{"id": "C45", "title": "Overlapping typed-array copies behave as if through a temporary", "statement": "TypedArray copyWithin, and set from another view on the same buffer, produce the result of copying the source range to a temporary first, for every overlap, and touch only the target range.", "quantifier": "every buffer content, offsets, lengths and overlaps", "why_tests_cant": "All overlap configurations of unbounded ranges.", "anchors": ["src/lib/rjs_typed_array_object_inc.c: TypedArray_prototype_copyWithin, set_typed_array_from_typed_array", "src/lib/rjs_array_buffer_opt.c: rjs_clone_array_buffer"]}
{"id": "C46", "title": "Every FinalizationRegistry registration is honoured", "statement": "Each successful register call leads to exactly one cleanup callback with its held value once its target is collected, unless it was unregistered through its token.", "quantifier": "every history of register, unregister and collections", "why_tests_cant": "Depends on collection timing and token reuse over unbounded histories.", "anchors": ["src/lib/rjs_finalization_registry_opt.c: rjs_finalization_register, rjs_finalization_unregister"]}
{"id": "C47", "title": "ISO date text round-trips", "statement": "For every valid time value, Date.parse(toISOString()) returns the same time value.", "quantifier": "every valid time value", "why_tests_cant": "1.7*10^16 values; expanded-year and pre-epoch forms are rarely tested.", "anchors": ["src/lib/rjs_date_object_inc.c: Date_prototype_toISOString, date_parse, parse_year, parse_hour"]}
{"id": "C48", "title": "Own keys come in the specified order", "statement": "Own property keys are enumerated as integer indices ascending, then strings in creation order, then symbols in creation order, each exactly once, after every operation history.", "quantifier": "every history of property additions and deletions", "why_tests_cant": "Order is a function of an unbounded history.", "anchors": ["src/lib/rjs_object.c: rjs_property_key_list_add_own_keys, rjs_ordinary_object_op_own_property_keys, prop_add, prop_delete"]}
{"id": "C49", "title": "BigInt and 64-bit integer conversions agree modulo 2^64", "statement": "Conversion of a BigInt to int64/uint64 (BigInt64Array, BigUint64Array, DataView, Atomics) yields the value congruent modulo 2^64 in range, and converting an int64/uint64 back yields the same integer; no conversion is undefined.", "quantifier": "every BigInt, every int64 and uint64", "why_tests_cant": "2^64 machine values and unbounded BigInts; the failing value is a single congruence class.", "anchors": ["src/lib/rjs_big_int_internal_opt.c: rjs_big_int_from_int64, rjs_big_int_from_uint64, rjs_big_int_to_int64, rjs_big_int_to_uint64"]}
{"id": "C50", "title": "Number(bigint) is the nearest Number", "statement": "Number(b) for a BigInt b is the Number value nearest to b.", "quantifier": "every BigInt", "why_tests_cant": "BigInts are unbounded; only those outside 64 bits go wrong.", "anchors": ["src/lib/rjs_number_object_inc.c: Number_constructor", "src/lib/rjs_big_int_internal_opt.c: rjs_big_int_to_int64"]}
{"id": "C51", "title": "String.prototype.repeat returns exactly n copies or throws", "statement": "repeat(n) returns exactly n copies of the string or throws; it never writes outside the buffer it allocated.", "quantifier": "every string, every count and every amount of memory the allocator grants", "why_tests_cant": "The failing counts are near 2^62: no test that expects a result can use them.", "anchors": ["src/lib/rjs_string_object_inc.c: String_prototype_repeat", "src/lib/rjs_string.c: rjs_string_from_uchars"]}
{"id": "C52", "title": "split cuts at the leftmost non-overlapping separators", "statement": "split(sep, limit) returns the first limit pieces between the leftmost non-overlapping occurrences of sep; with no limit, joining the pieces with sep gives the text back and no piece contains sep.", "quantifier": "every text, separator and limit", "why_tests_cant": "Infinite domain with overlaps at every boundary.", "anchors": ["src/lib/rjs_string_object_inc.c: String_prototype_split"]}
{"id": "C53", "title": "Strings are read as code points correctly", "statement": "Iterating a string yields one piece per code point (surrogate pairs together, lone surrogates alone) and the pieces concatenate to the string; codePointAt and fromCodePoint are inverse to each other.", "quantifier": "every UTF-16 string, every code point", "why_tests_cant": "Infinite domain; all placements of lone surrogates.", "anchors": ["src/lib/rjs_string_object_inc.c: %StringIteratorPrototype%.next, String_prototype_codePointAt, String_fromCodePoint", "src/lib/rjs_string.c: rjs_string_get_uc"]}
{"id": "C54", "title": "slice, substring, at and charAt pick the specified range", "statement": "slice, substring, at, charAt and charCodeAt return exactly the specified part of the string for all integer and infinite arguments and never read outside it.", "quantifier": "every string and all positions", "why_tests_cant": "Infinite domain including infinities and negative positions.", "anchors": ["src/lib/rjs_string_object_inc.c: String_prototype_slice, String_prototype_substring, String_prototype_at, String_prototype_charAt, String_prototype_charCodeAt"]}
{"id": "C55", "title": "replace and replaceAll with a string pattern replace exactly the right occurrences", "statement": "replace changes exactly the first occurrence, replaceAll exactly the leftmost non-overlapping occurrences (every position for an empty pattern), each by the template expansion or the function result for that position; all other text is kept.", "quantifier": "every text, pattern, template and replacer function", "why_tests_cant": "Infinite domain with overlapping patterns.", "anchors": ["src/lib/rjs_string_object_inc.c: String_prototype_replace, String_prototype_replaceAll"]}
{"id": "C56", "title": "Bitwise operators act on 32-bit two's complement", "statement": "~x, x&y, x|y and x^y equal the 32-bit two's complement operation on the operands truncated and reduced modulo 2^32, as signed results.", "quantifier": "every pair of numbers", "why_tests_cant": "2^128 operand pairs.", "anchors": ["src/lib/rjs_number.c: rjs_number_bitwise_not, rjs_number_bitwise_and, rjs_number_bitwise_or, rjs_number_bitwise_xor"]}
{"id": "C57", "title": "ToIndex accepts exactly the integers 0 to 2^53-1", "statement": "ToIndex returns the integer part of its argument exactly if that lies between 0 and 2^53-1 and otherwise raises RangeError; ToIntegerOrInfinity truncates every number.", "quantifier": "every double", "why_tests_cant": "2^64 inputs with rounding near 2^53.", "anchors": ["src/lib/rjs_operation.c: rjs_to_index", "include/ratjs/rjs_operation.h: rjs_to_integer_or_infinity"]}
{"id": "C58", "title": "freeze and seal lock exactly what they should", "statement": "Object.freeze and Object.seal on any ordinary object or array succeed, make it non-extensible, make every own property non-configurable (and every data property non-writable when freezing), keep the keys, their order and the values, and isFrozen / isSealed answer true exactly for objects in that state.", "quantifier": "every object reachable by any history", "why_tests_cant": "Arbitrary sets of properties with arbitrary attributes in every storage form.", "anchors": ["src/lib/rjs_operation.c: rjs_set_integrity_level, rjs_test_integrity_level"]}
{"id": "C59", "title": "defineProperty follows ValidateAndApplyPropertyDescriptor", "statement": "On every ordinary object and for every descriptor, defineProperty answers as ECMA-262 10.1.6.3 says, leaves exactly the property it prescribes, and touches no other property.", "quantifier": "every descriptor, every existing property, every object reachable by any history", "why_tests_cant": "The product of descriptor fields, attributes and values is unbounded.", "anchors": ["src/lib/rjs_object.c: validate_and_apply_property, rjs_ordinary_object_op_define_own_property"]}
{"id": "C60", "title": "Weak references never dangle", "statement": "In every history of allocations, reference changes, WeakMap/WeakSet/WeakRef operations and collections, the keys of weak collections and the targets of WeakRefs are objects that still exist; a collection removes an entry or clears a target exactly when the object it names (or its owner) is unreachable.", "quantifier": "every history of operations and collections", "why_tests_cant": "Depends on when the collector runs and on address reuse over unbounded histories.", "anchors": ["src/lib/rjs_weak_ref_opt.c: rjs_weak_ref_add, rjs_solve_weak_refs", "src/lib/rjs_weak_map_object_inc.c", "src/lib/rjs_weak_set_object_inc.c", "src/lib/rjs_weak_ref_object_inc.c", "src/lib/rjs_gc.c: gc_run"]}
{"id": "C61", "title": "JSON.stringify writes JSON and JSON.parse reads it back", "statement": "For every tree of null, booleans, numbers, strings, arrays and objects (undefined values allowed) and every gap of JSON white space, JSON.stringify yields a JSON text whose value is the tree (non-finite numbers and undefined array items as null, undefined members left out), and JSON.parse of that text gives that value.", "quantifier": "every tree of any depth and size, every gap", "why_tests_cant": "Unbounded trees and arbitrary strings as keys and values.", "anchors": ["src/lib/rjs_json_opt.c: serialize_json_property, serialize_json_array, serialize_json_object, quote_json_string, rjs_json_stringify, rjs_json_parse"]}
{"id": "C62", "title": "Pushing characters back restores the input", "statement": "For every text and every sequence of reads and push-backs of characters read, each read gives the next character of the text (surrogate pairs joined, CR LF folded to LF when asked), no access leaves the text, no assertion fails, a push-back goes back exactly over the units of the character, and reading it again gives the same line and column.", "quantifier": "every text of UTF-16 units, every sequence of reads and push-backs", "why_tests_cant": "Unpaired surrogates and CR next to LF in arbitrary arrangements and arbitrary push-back depth.", "anchors": ["src/lib/rjs_input.c: rjs_input_get_uc, rjs_input_unget_uc"]}
{"id": "C63", "title": "Promise.all and Promise.any settle once, after the last element, with all values in order", "statement": "However the element functions are called (from inside the loop, several times, in any order), the capability of Promise.all is resolved exactly once, when the iteration has ended and every element has reported, with the array of the first reported values in element order; Promise.any rejects likewise with the errors.", "quantifier": "every number of elements and every order and number of calls of the element functions", "why_tests_cant": "Interleavings of thenable calls with the loop are unbounded.", "anchors": ["src/lib/rjs_promise_object_inc.c: perform_promise_all, promise_all_resolve, perform_promise_any, promise_any_reject, promise_all_new, promise_single_new"]}
{"id": "C64", "title": "Promise.allSettled settles once, after the last element, with one record per element", "statement": "The capability of Promise.allSettled is resolved exactly once, when the iteration has ended and every element has reported, with the record of the first report of each element.", "quantifier": "every number of elements and every order and number of calls of the element functions, including elements that call both", "why_tests_cant": "Only thenables that call both functions, returned by a custom resolve, reach the faulty state.", "anchors": ["src/lib/rjs_promise_object_inc.c: perform_promise_all_settled, promise_all_settled_resolve, promise_all_settled_reject"]}
{"id": "C65", "title": "TypedArray slice copies without undefined behaviour", "statement": "TypedArray.prototype.slice writes the source range to the start of the new array, changes no other byte, never calls memcpy on overlapping memory and never locks a mutex the thread already holds, for every array its species constructor gives.", "quantifier": "every buffer content, offsets, lengths, species constructor", "why_tests_cant": "Needs a species constructor that returns a view of the same memory.", "anchors": ["src/lib/rjs_typed_array_object_inc.c: TypedArray_prototype_slice, typed_array_species_create", "src/lib/rjs_array_buffer_opt.c: rjs_array_buffer_lock"]}
{"id": "C66", "title": "Atomics.wait waits for the given number of milliseconds", "statement": "For every timeout argument and every clock reading, the deadline passed to pthread_cond_timedwait is a valid time, later than the clock by the whole number of milliseconds of the timeout (0 for negative ones); NaN and Infinity mean no deadline; no conversion is undefined.", "quantifier": "every double as timeout, every clock reading", "why_tests_cant": "The carry of the nanoseconds depends on the time of the call; huge timeouts cannot be waited for.", "anchors": ["src/lib/rjs_atomics_object_inc.c: Atomics_wait", "src/lib/rjs_data_block_opt.c: rjs_add_waiter"]}
{"id": "C67", "title": "Proxies keep the invariants of the essential internal methods", "statement": "Whatever the handlers of a proxy answer and whatever the script does meanwhile, the answers of the internal methods of the proxy never contradict each other: a non-extensible object stays so, keeps its prototype and gains no property; a non-configurable property is never absent, hidden, deleted, unlisted, configurable again or changed beyond what its attributes allow; [[Get]] and [[Set]] agree with a read-only value and with missing accessors; no key is listed twice.", "quantifier": "every target, every tower of proxies, every handler behaviour, every sequence of internal method calls and script actions", "why_tests_cant": "Handlers are arbitrary adversarial programs that run between the checks.", "anchors": ["src/lib/rjs_proxy_object_opt.c: proxy_object_op_get_prototype_of .. proxy_object_op_own_property_keys", "src/lib/rjs_object.c: rjs_is_compatible_property_descriptor", "src/lib/rjs_operation.c: rjs_complete_property_descriptor"]}
{"id": "C68", "title": "Trap answers are taken exactly when ECMA-262 10.5 takes them", "statement": "For a proxy of an ordinary object or array, an answer of a trap is returned when the conditions of ECMA-262 10.5 hold for the state of the target after the trap ran, and is a TypeError when they do not; a missing trap gives the answer of the target and a revoked proxy always throws.", "quantifier": "every target state, key, descriptor, value and answer", "why_tests_cant": "The conditions combine extensibility, all attributes of target and answer, and key lists of any length.", "anchors": ["src/lib/rjs_proxy_object_opt.c: proxy_object_op_get_prototype_of .. proxy_object_op_own_property_keys, pkl_from_object"]}
{"id": "C69", "title": "The regular expression machine computes the backtracking match", "statement": "match_regexp halts on every pattern and string and answers like the recursive backtracking semantics of the pattern (alternatives in order, greedy and lazy counts, groups, look-around in both directions, back references): it finds a match iff the semantics does, with the same end and the same captures; it never indexes outside of its job stack, vector stack or position vector; a pattern without back references is found at a position iff some text from there is in its language.", "quantifier": "every pattern tree, every string, every start position, every content of the reused vector stack", "why_tests_cant": "Backtracking over nested quantifiers, look-behind and captures has unboundedly many paths.", "anchors": ["src/lib/rjs_regexp.c: match_regexp, match_pattern, match_alter, match_term_list, match_term, match_atom, match_group, match_la_lb, match_back_ref, job_*"]}
{"id": "C70", "title": "Matching agrees with ECMAScript", "statement": "With the character tests of the standard, match_regexp finds the match that CompilePattern (ECMA-262 22.2.2) finds, with the same end and captures.", "quantifier": "every pattern tree, string and start position", "why_tests_cant": "Iterations matching the empty string and surrogate pairs only matter in rare combinations.", "anchors": ["src/lib/rjs_regexp.c: match_term, job_term, match_back_ref, clear of groups", "src/lib/rjs_regexp.c: match_regexp"]}
{"id": "C71", "title": "exec returns the leftmost match from lastIndex", "statement": "RegExp exec returns the match at the least position at or after lastIndex (exactly there if sticky), null if there is none; the array holds the matched text and the text of every group, indices and groups agree with it; lastIndex becomes the end of the match or 0 exactly with the flag g or y.", "quantifier": "every pattern, string, lastIndex, flags g y d u", "why_tests_cant": "All combinations of flags, positions inside of surrogate pairs and groups that take no part.", "anchors": ["src/lib/rjs_regexp.c: rjs_regexp_builtin_exec, get_last_index, regexp_adv_str_index"]}
{"id": "C72", "title": "Character tests of patterns are the character sets of ECMAScript", "statement": "A character, the dot, an escape or a class of a pattern accepts a character iff CharacterSetMatcher of ECMA-262 does, with and without the flags i, u and s.", "quantifier": "every character, class, flag and case mapping", "why_tests_cant": "0x110000 characters times all ranges; only some special characters differ.", "anchors": ["src/lib/rjs_regexp.c: match_char, match_class_atom, match_class, canonicalize, is_word", "src/lib/include/rjs_uchar.h: rjs_uchar_is_white_space"]}
{"id": "C73", "title": "The pattern parser accepts the grammar of patterns and builds its tree", "statement": "Every text derived from the grammar of ECMA-262 22.2.1 (with u or without, its early errors observed) is accepted by parse_regexp, and the result is the tree of the derivation: the characters and classes, the bounds and the kind of each quantifier, the numbers of groups and the indices of names.", "quantifier": "every source text and both grammars (with and without u)", "why_tests_cant": "Nested groups, classes, escapes and quantifiers combine without bound; rejected or misread texts are rare shapes.", "anchors": ["src/lib/rjs_regexp.c: parse_regexp, parse_pattern, parse_alter, parse_term, parse_class, parse_class_atom, parse_escape, parse_prop, parse_group_name, parse_uc_escape_seq, parse_regexp_number"]}
{"id": "C74", "title": "A compiled pattern is safe for the matcher", "statement": "For every source text at all, the parser ends, and a tree it returns has its groups numbered by their opening parentheses below group_num, each term with the range of groups inside of it, minima not above maxima, back references below group_num, name indices below name_num and an entry in group_names for each group; so matching it never leaves an array.", "quantifier": "every source text, valid or not", "why_tests_cant": "Safety of the matcher rests on numbers computed during a recursive parse of arbitrary text.", "anchors": ["src/lib/rjs_regexp.c: parse_regexp, parse_term, parse_group_name, terms_both_participate, gen_regexp, rjs_regexp_initialize"]}
{"id": "C75", "title": "Flags and source of a regular expression", "statement": "The flags are accepted iff they are letters of dgimsuy without repetition; the property source is a text without line terminators that is the same pattern when read again.", "quantifier": "every flags string and source text", "why_tests_cant": "The interplay of escapes already present with those added needs particular texts.", "anchors": ["src/lib/rjs_regexp.c: rjs_regexp_initialize, gen_source"]}
{"id": "C77", "title": "Linking initialises every needed module once and undoes itself on failure", "statement": "rjs_module_link of any graph of loaded modules, cyclic or not, fails no assertion; on success every module reachable by requests is linked and module_init_env ran exactly once for each that was not, after those it requests outside of its cycle; on an error the error is that of an unlinked reachable module, the module is unlinked again, and a module that stays linked has all it needs linked.", "quantifier": "every finite module graph, every state between operations, every outcome of module_init_env", "why_tests_cant": "Strongly connected components of arbitrary graphs; the index bookkeeping only matters for particular shapes.", "anchors": ["src/lib/rjs_module_opt.c: inner_module_link, rjs_module_link"]}
{"id": "C78", "title": "Evaluation runs every needed module exactly once in dependency order", "statement": "Without top level await, rjs_module_evaluate fails no assertion, runs the body of every linked reachable module exactly once after those it requests outside of its cycle and resolves the promise, or rejects it with the error of the module that failed, now or earlier; any sequence of imports runs every body at most once and in order.", "quantifier": "every finite module graph, every state between operations, every outcome of the bodies, every sequence of imports", "why_tests_cant": "Cycles, shared dependencies and failures in the middle of a cycle combine without bound.", "anchors": ["src/lib/rjs_module_opt.c: inner_module_evaluation, rjs_module_evaluate, execute_module"]}
{"id": "C79", "title": "Modules with top level await", "statement": "With top level await, whatever modules are imported and in whatever order the awaiting bodies end: no body starts twice, settled results stay, no body starts before the modules it requests ended, no assertion fails, every import is settled when nothing runs any more.", "quantifier": "every module graph, every interleaving of imports and completions", "why_tests_cant": "The order of asynchronous completions multiplies the shapes of the graph.", "anchors": ["src/lib/rjs_module_opt.c: gather_available_ancestors, execute_valid_modules, async_module_execution_fulfilled, async_module_execution_rejected, execute_async_module"]}
{"id": "C80", "title": "Exported names resolve to the binding they stand for", "statement": "rjs_module_resolve_export ends on every module graph, cyclic or not; it answers FALSE exactly for names that stand for nothing, gives the binding of a name that stands for exactly one, and answers AMBIGUOUS for a name that stands for several; module_init_env reports an error exactly when a name is unknown or ambiguous.", "quantifier": "every finite set of modules with any local, indirect and star exports, every name", "why_tests_cant": "Star exports form arbitrary cyclic graphs; the same binding may be found on several paths.", "anchors": ["src/lib/rjs_module_opt.c: resolve_export, rjs_module_resolve_export, module_init_env"]}
{"id": "C81", "title": "A namespace object has exactly the unambiguous exported names, sorted", "statement": "The keys of a module namespace object are the exported names that resolve to one binding, strictly ascending; reading one reads that binding, another name is undefined; ambiguous names are left out.", "quantifier": "every finite set of modules, every module and name", "why_tests_cant": "Names are gathered over cyclic star exports and then resolved one by one.", "anchors": ["src/lib/rjs_module_ns_object_opt.c: get_export_names, rjs_module_ns_object_new, module_ns_object_op_get"]}
{"id": "C82", "title": "Equality operators answer the standard relation", "statement": "For all values x and y and whatever conversion methods of scripts do, x == y converts at most one object (hint default), passes on what it throws, and otherwise holds exactly if both are null or undefined, or are the same string, symbol or object, or have the same numeric quantity after conversion (a string against a big integer by its integer value); x === y runs no script and holds exactly for equal values of one type (NaN differs from itself, +0 equals -0); != and !== are the negations.", "quantifier": "all pairs of values, all behaviours of script conversion methods", "why_tests_cant": "The 8 by 8 table of types meets unbounded strings, doubles, big integers and arbitrary user code; tests visit single cells.", "anchors": ["src/lib/rjs_operation.c:1336-1496", "src/lib/rjs_bc_call.c:692-710", "src/lib/rjs_object.c:1414-1500"]}
{"id": "C83", "title": "Relational operators order values as the standard says", "statement": "For all values x and y, each of <, <=, >, >= converts x before y to primitives with hint number, throws what the conversions throw and a TypeError for symbols, and otherwise holds exactly if the strings by code units, or the numeric quantities, stand in that order (never for NaN).", "quantifier": "all pairs of values, all behaviours of script conversion methods", "why_tests_cant": "Order of arbitrary big integers against doubles and strings, with user code in between, has no finite test set.", "anchors": ["src/lib/rjs_bc_call.c:594-690", "src/lib/include/rjs_number.h:262-279", "src/lib/rjs_object.c:1463-1500"]}
{"id": "C84", "title": "Binary arithmetic converts left before right and never mixes types", "statement": "For all values x + y concatenates if either primitive is a string and otherwise adds; the other eleven operators convert the left operand completely before the right one; a big integer with a number is a TypeError after both conversions; a failing conversion stops the operation at once.", "quantifier": "all pairs of values and operators, all behaviours of script conversion methods", "why_tests_cant": "The order of arbitrary user code and the mixtures of types cannot be enumerated.", "anchors": ["src/lib/rjs_bc_call.c:447-548", "include/ratjs/rjs_operation.h:675-698"]}
{"id": "C85", "title": "instanceof and typeof", "statement": "For all values v and t, v instanceof t calls the @@hasInstance method of t if there is one and otherwise walks the prototype chain of v (through bound functions to their target), with the answers and exceptions of the standard; Function.prototype[@@hasInstance] answers false for a receiver that cannot be called; operands are not changed; typeof names the type of the value.", "quantifier": "all values, all prototype chains, all behaviours of scripts and proxies", "why_tests_cant": "Prototype chains are unbounded and each step can run user code.", "anchors": ["src/lib/rjs_operation.c:1177-1325", "src/lib/rjs_function_object_inc.c:268-279", "src/lib/rjs_bc_call.c:728-731"]}
{"id": "C86", "title": "The binding cache is invisible", "statement": "For every program, every sequence of environment creations, declarations, resolutions, reads, writes and deletions gives through the binding cache (cached environment index and binding index per name and scope) what plain environment records give: the same environment, the same value, the same error, and no access outside a binding vector.", "quantifier": "all scope tables, all sequences of operations over any number of environments", "why_tests_cant": "The cache is shared by all activations of a scope; what an entry means depends on the whole history of environments, and a stale entry shows only for particular interleavings.", "anchors": ["src/lib/rjs_environment.c:35-132", "src/lib/rjs_decl_env.c:92-498", "src/lib/rjs_operation.c:2056-2206", "src/lib/rjs_global_env.c:66-143", "src/lib/rjs_eval_opt.c:150-220"]}
{"id": "C87", "title": "Tail calls reuse an environment unseen", "statement": "For every program, a tail call of the running function, which empties the environment of the call and uses it again, gives the results of a call with a new environment.", "quantifier": "all scope tables, all runs before and after the tail call", "why_tests_cant": "Whether the old environment can still be reached depends on all closures and environments made before; the number of runs is unbounded.", "anchors": ["src/lib/rjs_native_stack.c:1151-1189", "src/lib/rjs_function_env.c:236-255", "src/lib/rjs_decl_env.c:420-431", "src/lib/rjs_bc_gen.c:2616-2680"]}
{"id": "C88", "title": "for-in visits each name once", "statement": "A for-in loop produces exactly the enumerable string keys of the object and its prototype chain in order, each name once, leaving out names an earlier object of the chain has, and asks the objects the same questions in the same order as the standard algorithm, whatever they answer.", "quantifier": "all objects and prototype chains, all answers of proxies and all changes between the steps", "why_tests_cant": "The visited names are kept in a hash table whose keys change their representation during comparisons; errors need particular names, chain positions and table sizes.", "anchors": ["src/lib/rjs_for_in_iterator.c: rjs_for_in_iterator_new, for_in_iterator_proto_next", "src/lib/rjs_hash.c: rjs_hash_lookup, rjs_hash_insert", "src/lib/rjs_string.c: rjs_string_equal, rjs_index_string_normalize"]}
{"id": "C89", "title": "The arguments object shares its values with the parameters", "statement": "In a sloppy function with simple parameters, argument i is linked to the i-th parameter unless a later parameter has the same name. Every sequence of property operations on the arguments object and of reads and writes of parameters gives the answers of the standard arguments exotic object: a linked property always shows the value of its parameter, and the link ends when the property is deleted, becomes an accessor or becomes read only, keeping its last value.", "quantifier": "all parameter lists, argument lists, descriptors and sequences of operations", "why_tests_cant": "The stored value of a linked property is out of date by design, so an error shows only when a link ends after a particular mix of writes from both sides.", "anchors": ["src/lib/rjs_arguments_object.c: arguments_has_property, arguments_object_op_get_own_property, arguments_object_op_define_own_property, arguments_object_op_get, arguments_object_op_set, arguments_object_op_delete, rjs_mapped_arguments_object_new", "src/lib/rjs_code_gen_inc.c: param_index"]}
{"id": "C90", "title": "Array methods that read behave as the standard algorithm", "statement": "For every receiver and argument list and whatever the object operations answer, every reading or copying method of Array.prototype (at, concat, every, filter, find, findIndex, findLast, findLastIndex, flat, flatMap, forEach, includes, indexOf, join, lastIndexOf, map, reduce, reduceRight, slice, some, toLocaleString, toReversed, toSpliced, toString, with) performs the object operations of the standard algorithm in its order, and ends with its result or exception.", "quantifier": "all behaviours of receivers, proxies, callbacks and conversions, all arguments and lengths", "why_tests_cant": "Every step can run user code that changes the array, so the order of the steps is visible; lengths go up to 2^53-1.", "anchors": ["src/lib/rjs_array_object_inc.c:283-2165", "src/lib/rjs_array_object_inc.c:2408-3030"]}
{"id": "C91", "title": "Array methods that change the array behave as the standard algorithm", "statement": "For every receiver and argument list and whatever the object operations answer, copyWithin, fill, pop, push, reverse, shift, splice and unshift perform the object operations of the standard algorithm in its order, and end with its result or exception; splice and unshift leave on plain arrays the contents, length and removed elements of the standard.", "quantifier": "all behaviours of receivers, proxies and conversions, all arguments and lengths", "why_tests_cant": "Overlapping moves over sparse arrays of any length, with user code at every step.", "anchors": ["src/lib/rjs_array_object_inc.c: Array_prototype_copyWithin, Array_prototype_fill, Array_prototype_pop, Array_prototype_push, Array_prototype_reverse, Array_prototype_shift, Array_prototype_splice, Array_prototype_unshift"]}
{"id": "C92", "title": "Statements run as the standard says", "statement": "For every function body built from blocks, if, loops (do-while, while, for, for-in, for-of), switch, try, with, labels, break, continue, return and throw, and whatever its expressions, bindings and iterators do, running the generated byte code with the interpreter ends with the same return value or exception, and the same effects in the same order, as the completion records of the standard; scopes, iterators and try states are entered and left exactly in pairs.", "quantifier": "all statements nested to any depth, all behaviours of expressions and iterators, all runs", "why_tests_cant": "Jumps out of nested finally blocks, loops and scopes combine without bound; an error needs a particular nesting of jump, unwinding and iterator behaviour.", "anchors": ["src/lib/rjs_bc_gen.c:2343-3710", "src/lib/rjs_bc_call.c:86-147", "src/lib/rjs_bc_call.c:1091-1371", "src/lib/rjs_native_stack.c:93-330", "src/lib/rjs_iterator.c:262-310"]}
{"id": "C93", "title": "The value of a script", "statement": "For every script given to eval, the completion value delivered by the generated byte code is the value the standard gives (the last statement value, replaced as UpdateEmpty says), or the same exception.", "quantifier": "all statements nested to any depth, all behaviours of expressions and iterators", "why_tests_cant": "Which earlier value survives depends on every enclosing statement and jump.", "anchors": ["src/lib/rjs_bc_gen.c:2343-3710", "src/lib/rjs_bc_gen.c:4152-4163", "src/lib/rjs_bc_gen.c:4556-4564"]}
{"id": "C94", "title": "Jumps have targets", "statement": "Code is generated for a program exactly if every break and continue in it has a target: break an enclosing loop or switch, or a statement with that label; continue an enclosing loop (with that label).", "quantifier": "all statements nested to any depth, all labels", "why_tests_cant": "Labels, loops, switches and try statements nest arbitrarily.", "anchors": ["src/lib/rjs_parser.c:1404-1450", "src/lib/rjs_parser.c:6987-7135"]}
{"id": "C95", "title": "Generators run as the standard state machine", "statement": "For every generator body, every inner iterator and every sequence of next, return and throw calls, a generator gives the results, calls the methods of inner iterators of yield* and ends as the state machine of ECMA-262 27.5 with 15.5.5; a call while the body runs is a TypeError, a finished generator stays finished and runs nothing, and no assertion fails.", "quantifier": "all bodies (arbitrary coroutines), all behaviours of inner iterators, all sequences of calls", "why_tests_cant": "The body and the inner iterators are arbitrary programs; every suspension multiplies the possible sequences of requests.", "anchors": ["src/lib/rjs_generator_opt.c:917-1066", "src/lib/rjs_generator_opt.c:1168-1410", "src/lib/rjs_script.c:905-950", "src/lib/rjs_bc_call.c:350-392"]}
{"id": "C96", "title": "Async generators answer every request once and in order", "statement": "For every body, every sequence of requests (also made by the body itself) and every order in which awaited promises are settled, an async generator is the state machine of ECMA-262 27.6 with 15.5.5: same answers, same calls, same states; requests are answered exactly once in the order they were made, no assertion fails, and an unanswered request always has a running body or exactly one registered reaction that goes on with it.", "quantifier": "all bodies, inner iterators, requests and orders of promise reactions", "why_tests_cant": "Requests queue up while the body waits; the interleavings of requests and settlements are unbounded.", "anchors": ["src/lib/rjs_generator_opt.c:165-913", "src/lib/rjs_generator_opt.c:1168-1410", "src/lib/rjs_operation.c:1536-1620", "src/lib/rjs_bc_call.c:1250-1303", "src/lib/rjs_bc_gen.c:313-395", "src/lib/rjs_bc_gen.c:2613-2685"]}
{"id": "C97", "title": "The text of a number reads back and is shortest", "statement": "For every double, Number::toString gives the layout of ECMA-262 6.1.6.1.20 of a digit string that reads back as the number (nearest, ties to even) and no shorter digit string does; NaN, the infinities and both zeros have their fixed texts; the 64 characters on the stack suffice.", "quantifier": "all 2^64 doubles", "why_tests_cant": "There are 2^64 doubles; the violations found concern one number in two hundred of a few binades.", "anchors": ["src/lib/rjs_number.c:255-339", "src/lib/rjs_dtoa.c:5037-6276"]}
{"id": "C98", "title": "toFixed, toExponential and toPrecision round as the standard says", "statement": "For every double and every argument the digits are the closest ones, the larger of two equally close; the layout, the range errors and the cases without digits are those of ECMA-262 21.1.3.2, 21.1.3.3 and 21.1.3.5; the 256 characters on the stack suffice.", "quantifier": "all doubles, all arguments", "why_tests_cant": "Rounding needs the exact value of the double; ties are rare and depend on the argument.", "anchors": ["src/lib/rjs_number_object_inc.c:258-576", "src/lib/rjs_dtoa.c:5037-6276"]}
{"id": "C99", "title": "toString with a radix writes the number in that radix", "statement": "For every double and every radix from 2 to 36, toString(radix) writes the number with digits of that radix; integers are written exactly, without leading zeros.", "quantifier": "all doubles, all radices", "why_tests_cant": "Needs all numbers up to 2^1024 and the exact conversion limits of int64_t.", "anchors": ["src/lib/rjs_number_object_inc.c:579-661"]}
{"id": "C100", "title": "Every expression is accepted and grouped as the grammar says", "statement": "For every token list that the expression grammar of ECMA-262 13 derives (with or without `in`, strict or not; operators, assignments to simple targets, conditionals, arrow functions with one name, member, call, new, super, optional chains, templates as tokens, parentheses, argument lists), followed by any token that cannot continue an expression, the parser reads exactly that list and builds the tree of the derivation, up to the simplification of constant operands; the parser always answers and no list has two trees.", "quantifier": "all token lists derived from the grammar, all continuations", "why_tests_cant": "Precedence, associativity and the special cases (??, **, new, optional chains, in) combine without bound.", "anchors": ["src/lib/rjs_parser.c:1988-2066", "src/lib/rjs_parser.c:3193-3307", "src/lib/rjs_parser.c:3612-4615", "src/lib/rjs_parser.c:4697-5690"]}
{"id": "C101", "title": "Only expressions are accepted", "statement": "Whenever the parser reads an expression from a token list, the part it has consumed is derived by the expression grammar of ECMA-262 13 with exactly the tree it built: early errors of assignment targets and strict delete are reported, ?? does not mix with && and ||, a unary operator is not the base of **.", "quantifier": "all token lists", "why_tests_cant": "Wrong programs that are accepted are found only by trying the right wrong program; the token lists are unbounded.", "anchors": ["src/lib/rjs_parser.c:1988-2066", "src/lib/rjs_parser.c:3193-3307", "src/lib/rjs_parser.c:3612-4615", "src/lib/rjs_parser.c:4697-5690"]}
{"id": "C102", "title": "Simplified constants do not change values", "statement": "The parser replaces &&, ||, ?? and ?: with a constant left operand by one of the operands; for every expression the simplified tree has the same value, exception and effects on the bindings in every store.", "quantifier": "all expressions, all stores, all operators", "why_tests_cant": "The constants may be nested anywhere; the difference shows only in places where a reference counts.", "anchors": ["src/lib/rjs_parser.c:3943-4082", "src/lib/rjs_parser.c:4339-4385"]}
{"id": "C103", "title": "StringToNumber reads exactly the strings that are numbers", "statement": "For every string, converting it to a Number gives the value of the StringNumericLiteral it is (white space at both ends, decimal literals with sign, Infinity, binary, octal and hexadecimal integers), rounded to the nearest double with ties to even, and NaN if it is none.", "quantifier": "all strings", "why_tests_cant": "The strings are unbounded, and a wrong one is accepted only for rare mixtures of signs, white space, comments and escapes; rounding needs exact values.", "anchors": ["src/lib/rjs_string.c:588-715", "src/lib/rjs_lex.c:118-163", "src/lib/rjs_lex.c:241-300", "src/lib/rjs_lex.c:459-739", "src/lib/rjs_lex.c:823-883", "src/lib/rjs_lex.c:1312-1480", "src/lib/rjs_strtoi.c:35-109", "src/lib/rjs_dtoa.c:3519-3720"]}
{"id": "C104", "title": "StringToBigInt reads exactly the strings that are integers", "statement": "For every string, converting it to a BigInt gives the exact value of the StringIntegerLiteral it is, in normal form, and undefined (a SyntaxError) if it is none.", "quantifier": "all strings", "why_tests_cant": "The strings and the integers are unbounded.", "anchors": ["src/lib/rjs_string.c:588-715", "src/lib/rjs_lex.c:459-739", "src/lib/rjs_big_int_opt.c: rjs_big_int_from_digits"]}
{"id": "C106", "title": "parseInt reads the longest run of digits", "statement": "For every string and radix, parseInt skips white space, reads a sign, removes 0x for the radices 0 and 16, and gives the value of the longest run of digits of the radix, rounded to a double with the sign; NaN if there is no digit or the radix is out of range.", "quantifier": "all strings, all radices", "why_tests_cant": "The strings are unbounded; the violations show only for texts with a point, an exponent, or many digits.", "anchors": ["src/lib/rjs_global_object.c:178-240", "src/lib/rjs_strtoi.c:35-109"]}
{"id": "C107", "title": "parseFloat reads the longest decimal literal", "statement": "For every string, parseFloat skips white space and gives the rounded value of the longest prefix that is a decimal literal or Infinity with an optional sign, and NaN if no prefix is one.", "quantifier": "all strings", "why_tests_cant": "The longest prefix must be compared with all other prefixes; the results depend on errno left by earlier calls.", "anchors": ["src/lib/rjs_global_object.c:134-175", "src/lib/rjs_dtoa.c:3519-3720"]}
{"id": "C108", "title": "A number comes back from its text", "statement": "For every double x, Number(String(x)) is x, except that -0 comes back as 0.", "quantifier": "all doubles", "why_tests_cant": "There are 2^64 doubles; the violations are numbers from 2^54 whose shortest digits lie exactly in the middle of two doubles.", "anchors": ["src/lib/rjs_number.c", "src/lib/rjs_string.c:588-715", "src/lib/rjs_dtoa.c", "src/lib/rjs_lex.c:459-739"]}
{"id": "C105", "title": "Numeric literals of programs are read as the standard says", "statement": "At the beginning of a source text that begins with a digit, or a point and a digit, the lexer reads the longest NumericLiteral (with separators, BigInt suffix, radix prefixes and, in sloppy code, legacy literals), fails if a digit or the start of an identifier follows, and the token has the value of the literal.", "quantifier": "all source texts, strict and sloppy", "why_tests_cant": "The texts are unbounded and the longest-match condition compares with all other literals; the failures need legacy literals with points or separators.", "anchors": ["src/lib/rjs_lex.c:459-739", "src/lib/rjs_strtoi.c:35-109", "src/lib/rjs_dtoa.c:3519-3720"]}
{"id": "C109", "title": "String literals have the value the standard gives them", "statement": "After an opening quote the lexer reads exactly the string literals of ECMA-262 12.9.4 (with the legacy escapes of sloppy code), gives their SV as UTF-16, and its flags tell whether there is an escape, a legacy escape, and an unpaired surrogate.", "quantifier": "all source texts, both quotes", "why_tests_cant": "Escapes may be combined without limit, and octal escapes depend on up to three following characters.", "anchors": ["src/lib/rjs_lex.c:165-446"]}
{"id": "C110", "title": "Template parts have the cooked and raw text of the standard", "statement": "After a backquote or a resuming brace the lexer reads the part of the template up to ${ or the closing backquote; the cooked text is the TV of ECMA-262 12.9.6 (undefined if there is an invalid escape), the raw text is the source as UTF-16.", "quantifier": "all source texts", "why_tests_cant": "Invalid escapes end in the middle of the text and what follows is read again; all mixtures must agree.", "anchors": ["src/lib/rjs_lex.c:165-446", "src/lib/rjs_lex.c: lex_template"]}
{"id": "C111", "title": "Regular expression literals have the right extent", "statement": "After a slash the lexer takes exactly the body and the flags of the RegularExpressionLiteral of ECMA-262 12.9.5.", "quantifier": "all source texts", "why_tests_cant": "A slash may be hidden in a class or behind a backslash anywhere.", "anchors": ["src/lib/rjs_lex.c: lex_regexp"]}
{"id": "C112", "title": "The longest punctuator is taken", "statement": "At any point of the source where no other token begins the lexer takes the longest punctuator of ECMA-262 12.8 (?. not before a digit), and reports an error only if none is there; it never leaves its generated table or its buffer.", "quantifier": "all source texts", "why_tests_cant": "The table is a generated trie with links; all continuations of all prefixes must be tried.", "anchors": ["gen/lextab/lextab.c:62-145", "gen/misc/punctuator.h", "src/lib/rjs_lex.c:930-993"]}
{"id": "C113", "title": "The name table knows exactly the reserved words", "statement": "For any list of different words the generator builds a table in which the search finds exactly these words; for the list of the engine the names marked reserved, and reserved in strict code, are those of ECMA-262 12.7.2.", "quantifier": "all word lists, all names", "why_tests_cant": "There are infinitely many names that share prefixes with reserved words.", "anchors": ["gen/lextab/lextab.c:62-145", "gen/misc/identifier.h", "src/lib/rjs_lex.c:880-917"]}
{"id": "C114", "title": "A brace resumes the right template", "statement": "For every sequence of braces and template parts, a closing brace resumes a template exactly if the innermost open thing is a substitution.", "quantifier": "all sequences, any nesting", "why_tests_cant": "Nesting is unbounded; mistakes show only with braces inside substitutions inside templates.", "anchors": ["src/lib/rjs_lex.c: lex_template, brace_level"]}
{"id": "C115", "title": "Math.max and Math.min give the greatest and the least argument", "statement": "For every list of numbers Math.max gives NaN if one is NaN, otherwise an argument that none exceeds, where -0 is less than +0, and -Infinity for no arguments; Math.min likewise.", "quantifier": "all lists of doubles", "why_tests_cant": "The order of the arguments matters for zeros and NaN; lists are unbounded.", "anchors": ["src/lib/rjs_math_object_inc.c: Math_max, Math_min"]}
{"id": "C116", "title": "Math.round, Math.sign and the tests of Number are exact", "statement": "For every double Math.round gives floor(x + 1/2) with the sign of x, Math.sign the sign with zeros and NaN kept, and Number.isInteger, isSafeInteger, isFinite and isNaN answer as defined.", "quantifier": "all 2^64 doubles", "why_tests_cant": "Rounding errors appear next to 0.5 and from 2^52 on only.", "anchors": ["src/lib/rjs_math_object_inc.c: Math_round, Math_sign", "include/ratjs/rjs_operation.h:87-97", "src/lib/rjs_number_object_inc.c:128-209"]}
{"id": "C117", "title": "Powers have the special cases of the standard", "statement": "For every base and exponent Number::exponentiate (6.1.6.1.3) gives the required result for NaN, zeros, infinities and odd or even exponents, with defined behaviour, and otherwise what the C library gives.", "quantifier": "all pairs of doubles", "why_tests_cant": "The special cases depend on the parity of exponents up to 2^1024.", "anchors": ["src/lib/rjs_number.c:172-228"]}
{"id": "C118", "title": "Math.clz32 and Math.imul work on 32-bit integers", "statement": "For every argument Math.clz32 gives the number of leading zero bits of ToUint32 and Math.imul the product modulo 2^32 as a signed integer, with defined behaviour.", "quantifier": "all doubles", "why_tests_cant": "There are 2^128 pairs of doubles.", "anchors": ["src/lib/rjs_math_object_inc.c: Math_clz32, Math_imul"]}
{"id": "C119", "title": "Math.random is below 1", "statement": "For every value of rand() Math.random gives a number at least 0 and less than 1.", "quantifier": "all values of rand()", "why_tests_cant": "The failing value has probability 2^-31.", "anchors": ["src/lib/rjs_math_object_inc.c: Math_random"]}
{"id": "C120", "title": "Sets, maps and Object.fromEntries read an iterator as the standard says", "statement": "For every behaviour of the iterator, of the adder and of the entries, the Set and Map constructors and AddEntriesFromIterable perform exactly the operations of 24.1.1.1, 24.1.1.2 and 24.2.1.1, in particular they call return exactly when adding an entry fails.", "quantifier": "all worlds of user code, all inputs", "why_tests_cant": "User code can throw at any of unboundedly many steps.", "anchors": ["src/lib/rjs_hash_object_inc.c:163-308", "src/lib/rjs_operation.c:2219-2270", "src/lib/rjs_iterator.c:104-306"]}
{"id": "C121", "title": "Array.from of an iterable", "statement": "For every iterator, mapping function and constructor Array.from performs the operations of 23.1.2.1 and closes the iterator exactly when mapping or storing a value fails.", "quantifier": "all worlds of user code, all inputs", "why_tests_cant": "As C120.", "anchors": ["src/lib/rjs_array_object_inc.c:93-225"]}
{"id": "C122", "title": "Array.from of array-like objects, Array.of and lists of values", "statement": "For every array-like object and every list of arguments Array.from and Array.of perform exactly the operations of 23.1.2.1 and 23.1.2.3, and the errors of an AggregateError are all values of the iterable in order.", "quantifier": "all worlds of user code, all inputs", "why_tests_cant": "As C120.", "anchors": ["src/lib/rjs_array_object_inc.c:178-280", "src/lib/rjs_operation.c:812-847"]}
{"id": "C123", "title": "Array patterns keep track of the end of their iterator", "statement": "For every iterator an element and the rest element of an array pattern take the values in order and mark the record as done exactly when the iterator ends or fails, so that it is closed exactly when it is neither.", "quantifier": "all worlds of user code", "why_tests_cant": "Failures can occur at any step.", "anchors": ["src/lib/rjs_native_stack.c:93-127", "src/lib/rjs_native_stack.c:293-330", "src/lib/rjs_native_stack.c:437-480"]}
{"id": "C124", "title": "Array iterators", "statement": "For every array-like object, every kind and whatever happens to the object between the calls, the results of next are those of 23.1.5.1.", "quantifier": "all worlds, all numbers of calls", "why_tests_cant": "The array can change between any two calls.", "anchors": ["src/lib/rjs_array_object_inc.c:3315-3400"]}
{"id": "C125", "title": "White space and comments between tokens are skipped, nothing else", "statement": "Every text is a sequence of white space, line terminators and comments (12.2 to 12.5) followed by a token, by the end or by a comment without an end; the lexer starts the token exactly there, ends, or reports an error. A first line that starts with #! is skipped.", "quantifier": "all texts", "why_tests_cant": "A comment can have any length and any number of stars; all code points can be white space.", "anchors": ["src/lib/rjs_lex.c:122-168, 1286-1346", "src/lib/rjs_uchar_icu_opt.c:34-38"]}
{"id": "C126", "title": "A line terminator before a token is seen wherever it stands", "statement": "For every gap between two tokens the line of the second differs from the line where the first ended exactly if the gap contains a line terminator, also inside comments, so that semicolons are inserted exactly where 12.10 allows it.", "quantifier": "all gaps of any length", "why_tests_cant": "The line is kept with a pending flag that look-ahead must not lose or count twice.", "anchors": ["src/lib/rjs_input.c:216-297", "src/lib/rjs_lex.c:122-168, 1286-1346"]}
{"id": "C127", "title": "Object.defineProperties reads all descriptors before it defines a property", "statement": "For every behaviour of the objects Object.defineProperties performs exactly the operations of 20.1.2.3.1: errors are thrown on, properties that are absent are skipped, and nothing is defined unless all descriptors are valid.", "quantifier": "all worlds of objects, all key lists", "why_tests_cant": "Depends on proxies and getters that act between the steps.", "anchors": ["src/lib/rjs_object_object_inc.c:91-183"]}
{"id": "C128", "title": "Object.keys, values, entries, names, symbols and assign", "statement": "For every behaviour of the objects these functions perform exactly the operations of 7.3.23, 20.1.2.11.1 and 20.1.2.1, in order, and give the results in order.", "quantifier": "all worlds of objects, all key lists and sources", "why_tests_cant": "Depends on proxies and getters that act between the steps.", "anchors": ["src/lib/rjs_object_object_inc.c:53-89, 225-303, 458-524", "src/lib/rjs_object.c:1534-1580"]}
{"id": "C129", "title": "Property descriptors and objects are converted as the standard says", "statement": "For every object, whatever was in the descriptor structure before, ToPropertyDescriptor reads the fields in the order of 6.2.6.5 and accepts exactly the valid descriptors; FromPropertyDescriptor creates the fields of 6.2.6.4 in order; Object.defineProperty and getOwnPropertyDescriptor(s) use them accordingly.", "quantifier": "all worlds of objects, all descriptors, all old contents", "why_tests_cant": "The structure is used again for each property; the fields can be getters.", "anchors": ["src/lib/rjs_operation.c:253-427", "src/lib/rjs_object_object_inc.c:185-220, 372-456"]}
{"id": "C130", "title": "Object.prototype.toString", "statement": "For every value the result is [object T] with the builtin tag of 20.1.3.6 or the string toStringTag of the object.", "quantifier": "all worlds of objects, all tags", "why_tests_cant": "Tags are arbitrary strings.", "anchors": ["src/lib/rjs_object_object_inc.c:978-1047"]}
{"id": "C131", "title": "Elements of typed arrays are read, defined, found and deleted as 10.4.5 says", "statement": "For every canonical numeric key and every state of the buffer [[GetOwnProperty]], [[Get]], [[HasProperty]], [[DefineOwnProperty]] and [[Delete]] have exactly the outcomes of 10.4.5, also when the conversion of a value detaches the buffer; all other keys are ordinary.", "quantifier": "all keys, descriptors, buffers and conversions", "why_tests_cant": "The conversion runs code of the program; keys include -0, fractions and numbers beyond every length.", "anchors": ["src/lib/rjs_int_indexed_object_opt.c:55-306"]}
{"id": "C132", "title": "Writing elements of typed arrays through any receiver, and their keys", "statement": "For every receiver [[Set]] of a canonical numeric key writes the element only if the receiver is the array itself (10.4.5.5), and [[OwnPropertyKeys]] lists the indices only if the buffer is not detached (10.4.5.7).", "quantifier": "all receivers, keys and buffers", "why_tests_cant": "Receivers other than the array appear only with Reflect.set or inheritance.", "anchors": ["src/lib/rjs_int_indexed_object_opt.c:271-335"]}
{"id": "C133", "title": "A script declares all its global names or none", "statement": "Before it runs, a script either throws a SyntaxError exactly if one of its names clashes with an earlier declaration or a non-configurable property, or a TypeError exactly if a function or variable cannot become a property of the global object, and in both cases nothing has changed; or its functions, variables and lexical names are all declared with the values and attributes of 16.1.7 and all other names are unchanged.", "quantifier": "all scripts with distinct lexical names whose functions are among the variable names, and all states of an ordinary global object", "why_tests_cant": "Needs combinations of earlier scripts, frozen or redefined global properties and several clashing declarations.", "anchors": ["src/lib/rjs_script.c:338-479", "src/lib/rjs_global_env.c:266-610"]}
{"id": "C134", "title": "delete of a global name", "statement": "delete of a name in the global environment removes the property and its entry among the declared names if it answers true, changes nothing if it answers false, and answers true exactly if no record holds a binding that stays (9.1.1.4.7).", "quantifier": "all names and all states of an ordinary global object", "why_tests_cant": "A name that is only inherited by the global object is rarely deleted.", "anchors": ["src/lib/rjs_global_env.c:146-187"]}
{"id": "C135", "title": "Variables of eval and the scopes they are hoisted through", "statement": "Code of eval that is not strict gets a SyntaxError exactly if it declares a variable whose name is a lexical binding of the global scope (if variables go there) or of a declarative scope between the call and the scope of variables; object scopes of with statements do not count (19.2.1.3 step 3).", "quantifier": "all lists of scopes, variable names and global environments", "why_tests_cant": "Needs eval inside nested blocks and with statements whose objects have a property of that name.", "anchors": ["src/lib/rjs_eval_opt.c:64-97"]}
{"id": "C136", "title": "Private names are new for each evaluation of a class", "statement": "Evaluating a class gives each of its private identifiers a name that is new and differs for different identifiers; other identifiers resolve as outside. An object without elements of these new names answers false to #x in o, and reading or writing #x throws a TypeError and changes nothing.", "quantifier": "all private environments, lists of identifiers and objects", "why_tests_cant": "Needs nested or repeated evaluation of classes with the same identifiers.", "anchors": ["src/lib/rjs_private_name_opt.c:105-228", "src/lib/rjs_private_name_opt.c:493-517"]}
{"id": "C137", "title": "Private elements are read, written and added as the standard says", "statement": "PrivateGet, PrivateSet, PrivateFieldAdd and PrivateMethodOrAccessorAdd (7.3.26 to 7.3.31): fields, methods and accessors in all cases; a getter and a setter of one name become one accessor in either order; an object that has the private methods of a class cannot get them again.", "quantifier": "all objects, environments and class bodies", "why_tests_cant": "Combinations of getters, setters, methods and objects that are initialised twice (a constructor that returns an existing object).", "anchors": ["src/lib/rjs_private_name_opt.c:231-484", "src/lib/rjs_function.c:106-158"]}
{"id": "C138", "title": "Functions bound any number of times", "statement": "Calling a function that was bound any number of times calls the original function with the receiver of the first bind and the arguments of all binds in order, then those of the call. Constructing it constructs the original with the same arguments and new.target replaced by the original exactly if it was one of the bound functions. It is a constructor exactly if the original is. length is max(0, length - number of bound arguments), with infinities as 20.2.3.2 says.", "quantifier": "all functions, lists of binds, receivers, arguments and new targets", "why_tests_cant": "Chains of binds with empty argument lists take different branches of the code at each level.", "anchors": ["src/lib/rjs_bound_func_object_opt.c:54-192", "src/lib/rjs_function_object_inc.c:94-183"]}
{"id": "C139", "title": "The registry of symbols is a lasting bijection", "statement": "Symbol.for(k) gives a symbol with description k. Whatever the program does after that, with any number of collections and any reuse of freed memory by the allocator, the symbol stays in memory, Symbol.keyFor gives k, Symbol.for(k) gives the same symbol, and it cannot be held weakly. Different keys have different symbols. A symbol of Symbol() is never in the registry while it lives. The assertion in Symbol.for never fails.", "quantifier": "all programs (lists of Symbol, Symbol.for and collections), all choices of addresses by the allocator, all keys", "why_tests_cant": "Needs a collection and the reuse of an address at chosen moments.", "anchors": ["src/lib/rjs_symbol.c:28-123", "src/lib/rjs_symbol_object_inc.c:143-213", "src/lib/rjs_operation.c:2426-2444", "src/lib/rjs_gc.c:85"]}
{"id": "C140", "title": "Error constructors and Error.prototype.toString", "statement": "The constructors run the code of the program (prototype, ToString of the message, has and get of cause, iterating the errors) in the order of 20.5.1.1 and 20.5.7.1.1, up to the first step that throws, and throw exactly then. The new object is an error object with exactly the properties message, cause and errors that the arguments ask for. Error.prototype.toString reads name and message in order and joins the parts that are not empty with a colon and a space.", "quantifier": "all arguments and all behaviours of the code that is run", "why_tests_cant": "Every combination of missing, throwing and present parts.", "anchors": ["src/lib/rjs_error.c:365-474", "src/lib/rjs_error.c:514-568"]}
