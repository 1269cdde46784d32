# Formal model of ratjs — design

Source under study: `/repo` (ratjs, a JavaScript engine in C).  The code is
read as text only; nothing in it is compiled or run.  Every Gallina
definition cites the file and lines it transcribes.  Line numbers refer to
the checkout in `/repo`.

## 1. Layout

```
rocq/theories/<Area>Model.v      executable transcription of the C functions
rocq/theories/<Area>Spec.v       (where useful) independent specification
rocq/theories/<Area>Proofs.v     lemmas
rocq/theories/<Area>Properties.v property theorems only: statement,
                                 `exact lemma.`, `Print Assumptions`,
                                 plus non-vacuity Examples
```

Conventions

* Unbounded `Z`/`nat`; wherever the C code relies on (or is broken by)
  fixed-width arithmetic, the wrap (`mod 2^32`, …) or an explicit undefined
  behaviour outcome is written into the model.
* Out-of-bounds access, null dereference, failed `assert`, use after free
  are distinct results (`Crash`, `UB`, `None` with a comment), never totalised
  away.
* Loops become structural recursion or recursion on fuel; running out of fuel
  is a distinct result excluded by a theorem.
* Allocation always succeeds (ratjs aborts on allocation failure).
* Callbacks (comparator, thenable, hash function) are section variables or
  arguments quantified by the theorems — no axioms.
* If the code violates a property the theorem is named `…_refuted` (a concrete
  witness computed in the model), and, beside it, the strongest true version is
  proved under an explicit guard.  Such properties are listed as `partial` in
  MANIFEST.json since the property as stated is false of the code.

## 2. Trusted base

* The Coq 8.16.1 kernel (with `vm_compute`).
* Fidelity of the hand transcription C -> Gallina (cited line by line).
* `Print Assumptions` of every property theorem: see section 5 (goal:
  `Closed under the global context` everywhere; stdlib axioms are named if any).
* Not modelled anywhere: compiler/CPU, malloc, the OS, libicu, the pthreads
  implementation (only its documented contract is modelled), the arithmetic
  of rjs_strtod (taken to round correctly).  Of the lexer, the parser, the byte-code compiler, the interpreter
  loop and dtoa only the pieces listed in section 3 are modelled.

## 3. What is modelled

Each model file opens with a comment that names the C functions it transcribes and
what it leaves out; the table collects those comments.

**ArgsModel.v.** Model of the mapped arguments object. Source: /repo/src/lib/rjs_arguments_object.c lines 54-290 (operations) and 355-444 (rjs_mapped_arguments_object_new), and the computation of [param_index] in /repo/src/lib/rjs_code_gen_inc.c lines 160-190. The inherited operations are those of rjs_object.c lines 907-933 (define), 984-1039 (get), 1041-1122 (set) and 1134-1162 (delete); the change of one property is ObjModel (validate_and_apply_property). Simplifications. The properties are a function from keys; how they are stored is C05-C08. Keys are resolved (C04). The bindings of the parameters are initialised and always present (they are, unless a tail call empties the environment, C87). A getter, a setter, the prototype or another receiver that is asked is a result; what it does are further operations.

**AtomModel.v.** Model of the Atomics operations on one element of a shared buffer, src/lib/rjs_atomics_object_inc.c (add 108-238, and 240-418, compareExchange 421-594, exchange 597-752, load 777-804, or 807-958, store 961-1003, sub 1006-1158, xor 1327-1470) with rjs_get_value_from_buffer / rjs_set_value_in_buffer, src/lib/rjs_array_buffer_opt.c:669-722, and rjs_data_block_lock / unlock, src/lib/rjs_data_block_opt.c:69-84. Any number of agents run concurrently; a schedule says which agent does its next memory access, lock operation, call or return. The read-modify-write operations are one C11 atomic operation. load and store take the mutex of the data block and then access the element byte by byte with plain accesses ([rjs_get_value_from_raw], [rjs_set_value_in_raw]); bytes are accessed in ascending order (the C text leaves the order of the reads open). Memory is sequentially consistent: C11 gives racing plain accesses no meaning at all, which is the separate notion [race]. Arguments are integers, already converted with ToIntegerOrInfinity or ToBigInt (conversion: NumModel.v, BigModel.v; infinities are not modelled here).

**BigModel.v.** Model of the internal big integer implementation. Source: /repo/src/lib/rjs_big_int_internal_opt.c. [RJS_BI] is a limb buffer [n] of uint32_t and a signed [size]. The model keeps the sign and the list of the first |size| limbs, least significant first. Limbs past |size| that are still read by the code (after [bi_end] lowered the size, in [bi_bit_op], [bi_shift] and [bi_div]) are the zeros that [bi_end] stripped; the model reads them as 0 through [nth] and pads with 0 in [set_item]. Memory failure is not modelled, int sizes do not overflow. [x & 0xffffffff] and [x >> 32] are written [x mod B] and [x / B].

**BoundModel.v.** Model of bound functions. Source: /repo/src/lib/rjs_bound_func_object_opt.c lines 54-117 (bound_func_object_call, bound_func_object_construct) and 157-192 (rjs_bound_func_object_new), rjs_function_object_inc.c lines 94-183 (Function.prototype.bind without the name, Function.prototype.call). Simplifications. A function that is not bound is its number; calling it is the outcome, with receiver, arguments and new.target. Functions are the same value if their numbers are equal. bfo->args is NULL if and only if there are no bound arguments, so it is the empty list. The number read from length is an integer (as rjs_to_integer_or_infinity gives it) or an infinity. Copies on the value stack are lists.

**BufModel.v.** Model of element access in raw buffers, src/lib/rjs_array_buffer_opt.c:284-722. A byte buffer is a [list Z] of values 0..255; access outside it is the outcome [SUB]. Numbers are double patterns (NumModel.v), BigInts the model of BigModel.v. [b[3] << 24] with b[3] >= 128 overflows int in C11; gcc's result (the bits) is modelled. Shared-memory interleavings are not part of this model.

**DateModel.v.** Model of the calendar arithmetic of Date objects. Source: /repo/src/lib/rjs_date_object_inc.c lines 34-40 (constants), 52-57 (tables), 90-294 (decomposition), 395-510 (construction), 1133-1205 (Date.UTC). Time values are integers in [Z]. C's [/] and [%] are [Z.quot] and [Z.rem]. Simplifications: [day] (line 91) divides as double and floors; for |t| <= 2^53 the rounded quotient has the same floor (the quotient is below 2^27, its half ulp 2^-27 is below 1/86400000, the least distance of a non-integral quotient to an integer), so it is the floor division here; likewise the divisions of [day_from_year] (line 125). Number arguments are integral (ToIntegerOrInfinity was applied) and finite.

**DateTextModel.v.** Model of Date.prototype.toISOString and of the ISO branch of Date.parse. Source: /repo/src/lib/rjs_date_object_inc.c lines 2160-2195 (toISOString), 514-527 (eatup_space), 544-572 (parse_date_number), 574-607 (parse_year), 660-699 (parse_hour), 720-745 and 886-974 (date_parse). Characters are code points in [Z]; [RJS_INPUT_END] is -1. The input is the list of remaining characters ([rjs_input_get_uc] / [rjs_input_unget_uc], rjs_input.c:217-296, restricted to text without surrogates). The branch of [date_parse] for texts starting with a letter (lines 746-885) is not modelled and gives [PAlpha]. [is_ws] is rjs_uchar_is_white_space and [is_alpha] rjs_uchar_is_alpha.

**DescModel.v.** Model of property descriptors as values and of the functions of Object that go through all properties. Source: /repo/src/lib/rjs_operation.c lines 253-427 (rjs_to_property_descriptor, rjs_from_property_descriptor), rjs_object_object_inc.c lines 53-143, 167-220 (assign, defineProperties, defineProperty), 225-303 (keys, values, entries), 372-524 (getOwnPropertyDescriptor(s), getOwnPropertyNames, ...Symbols), 978-1047 (Object.prototype.toString), rjs_object.c lines 1534-1580 (rjs_object_assign), include/ratjs/rjs_operation.h lines 1746-1757. What the objects do are the operations of a world [dworld], as in MethModel: any operation may change the state and may throw. Simplifications. A new array or a new descriptor object cannot be reached by the program before the function returns; it is the list of its elements or properties, and creating an element of it succeeds. Of a descriptor that is only tested for RJS_PROP_FL_ENUMERABLE just this flag is kept. What rjs_object_get_own_property leaves in it when there is no property or an error is an arbitrary function [d_left] of the state and the old flag (ordinary objects keep the old one, rjs_object.c:676-678). The conversion of a tag to bytes and back is left out except for its end at a zero.

**DtoaModel.v.** * Number texts: shortest decimals, toFixed, toExponential, toPrecision, radix What is modelled: the digit generation of dtoa_r (src/lib/rjs_dtoa.c, 4985-6225) in the three modes the engine uses, rjs_number_to_string (src/lib/rjs_number.c, 232-339) and the four text methods of Number.prototype (src/lib/rjs_number_object_inc.c, 258-661). Simplifications. - A finite non zero double is given as sign, significand m and exponent e, value m * 2^e. - The decimal exponent k of the first digit is computed exactly. The code looks it up in a table and corrects it (5135-5176). - Numbers are multiprecision integers. The exact 64-bit path divides its denominator by ten where the model multiplies the remainder by ten; the quotients are the same. - Of the fast paths only the exact 64-bit one is modelled, for -3 <= k. The 96-bit approximation ("toobig", 5511-5753) and the exact path for -25 <= k <= -4 are taken to give the digits of the multiprecision path. - Texts are lists of character codes; [None] is a read beyond the digits that dtoa returned or digits without end.

**EnvModel.v.** Model of the environments of identifier resolution and of the binding cache: /repo/src/lib/rjs_environment.c, /repo/src/lib/rjs_decl_env.c, the decl/object/global operations of /repo/src/lib/rjs_object_env.c and /repo/src/lib/rjs_global_env.c, rjs_function_env_clear in /repo/src/lib/rjs_function_env.c, and rjs_resolve_binding with its companions in /repo/src/lib/rjs_operation.c:2056-2206. ENABLE_BINDING_CACHE is 1 (the default, /repo/Makefile:210). Simplifications. Interned names and values are numbers; a value is only copied. An object behind an object or global environment is its list of visible data properties, so that no script code runs inside a lookup. Import bindings of module environments are left out. The collector does not run. [e_scope] is env->script_decl.

**ErrModel.v.** The constructors of errors and Error.prototype.toString (src/lib/rjs_error.c lines 365-600). Every operation that can run code of the program (reading new.target.prototype, ToString, [[HasProperty]], [[Get]], iterating) is an event; the outside world says for each whether it throws. The properties are defined on a new ordinary object, which cannot fail. Not modelled: the properties of the prototypes, the stack.

**ExprModel.v.** Model of the expression parser of src/lib/rjs_parser.c: parse_expr_prio (4897-5681) with its helpers. The parser is an operator precedence parser: it is called with the smallest priority [prio] it may take and keeps in [last_prio] the priority of the expression read so far. Tokens: names, literals, the punctuators and keywords of expressions. One token [Tprim] stands for a primary expression read by another function (function, class: parse_hoistable_decl, parse_class_decl), one token [Ttmpl] for a whole template. The token [Tother] stands for any token that neither starts nor continues an expression, the end of the list for the token END. The tokens `++', `--' and `=>' carry the flag "preceded by a line terminator" (tok->location.first_line != parser->last_line). Not modelled: array and object literals (so destructuring targets), arrow parameters in parentheses and block bodies, `async' arrows, `yield', `import', source locations, error recovery (parse_error marks the parse as failed and goes on; here the first error is the result), the check_expr of object literals, the contains lists, and the names given to functions.

**FlowModel.v.** * Statements: code generation and the interpreter's control flow Model of how statements become byte code and how the interpreter runs that code: [src/lib/rjs_bc_gen.c] (block 2343-2392, if 2395-2450, do while 2452-2515, while 2517-2575, throw 2590-2610, return 2613-2685, break and continue 2687-2727, for 3087-3207, for in/of 3209-3391, switch 3393-3514, try 3516-3661, with 3663-3710, statement list 4152-4163, end of eval code 4556-4564), [src/lib/rjs_bc_call.c] (the [bc_*] macros 86-147, 1091-1215 and the main loop with the unwinder 1219-1371), [src/lib/rjs_native_stack.c] (state push and pop 93-330, try state 1629-1645), [src/lib/rjs_iterator.c] (close 262-310), [src/lib/rjs_error.c] (throw 258-290, catch 350-366) and the resolution of jump targets in [src/lib/rjs_parser.c] (break stack 1404-1450, 2758, 6291, 6328, 6373, 6598, 6748, 6832, 6905; label look-up 6987-7017; break 7020-7080; continue 7095-7135). Expressions, declarations, binding patterns, environments' contents and iterators are the [world]: arbitrary functions which may change the world and may throw. Left out: generators and async functions, tail calls, function prologues, the encoding of commands as bytes, and the mapping of virtual registers to slots (all registers stay distinct here).

**ForInModel.v.** Model of the iterator behind the for-in statement. Source: /repo/src/lib/rjs_for_in_iterator.c lines 27-58 (hash operations of the visited keys), 110-145 (rjs_for_in_iterator_new) and 147-225 (next); /repo/src/lib/rjs_hash.c lines 28-162 (the table); rjs_string.c lines 858-883 (hash code), 886-949 (equality), 1378-1391 (normalisation of an index string); /repo/include/ratjs/rjs_value.h lines 455-468 (rjs_value_get_string). A string value is either an index string (a tagged number) or a pointer to a string. rjs_value_get_string replaces an index string by the pointer in place, so that looking up a key can change the keys of the table and the key that is looked up; both effects are modelled. The objects that are enumerated are not modelled: every call of [[OwnPropertyKeys]], [[GetOwnProperty]] and [[GetPrototypeOf]] is a question, answered by the next element of an arbitrary list of answers. The list therefore covers proxies, changes made by the loop body and ordinary objects alike. Only the part of the key list from [fii->id] on is kept. Allocation does not fail. That no bucket is accessed out of range is C11; here such an access reads an empty chain.

**GapModel.v.** Model of what the lexer does between tokens: white space, comments, the line count and the first line of a program that starts with #!. Source: /repo/src/lib/rjs_lex.c lines 122-168 and 1286-1346 (rjs_lex_get_token up to the first character of the token), rjs_input.c lines 216-289 (the line count and the flag RJS_INPUT_FL_NEW_LINE), rjs_uchar_icu_opt.c lines 34-38 and include/rjs_uchar.h lines 157-161. Simplifications. The text is a list of code points in which the input has already joined surrogates and turned CR LF and CR to LF (C61, C62); columns and positions are left out; the line is unbounded (in the code an int). The property White_Space of the ICU library is given by its list of characters (Unicode 15). Reading has fuel; running out of it is an outcome of its own.

**GcModel.v.** Model of src/lib/rjs_gc.c:41-202 (mark, scan, sweep), include/ratjs/rjs_gc.h:55-71, src/lib/rjs_weak_ref_opt.c:36-96, the weak maps and sets of src/lib/rjs_weak_map_object_inc.c / rjs_weak_set_object_inc.c, WeakRef objects (rjs_weak_ref_object_inc.c) and src/lib/rjs_finalization_registry_opt.c. Things are named by numbers, a freed thing is a number that is no longer in the list of things; using one is a use after free. Not modelled: the memory threshold that decides when a collection starts (a collection may happen at any point here), the native stacks of generators, and what is behind [roots] (gc_scan_root).

**GenModel.v.** * Generators and async generators Model of [src/lib/rjs_generator_opt.c] (async generator requests 165-330, queue 333-440, resumption 443-523, async [yield*] 525-728, request methods 748-913, start and resume 917-1066, yield 1168-1240, [yield*] 1249-1410), the end of a body in [src/lib/rjs_script.c]:902-972, await in [src/lib/rjs_operation.c]:1536-1620, the resume code of [rjs_bc_call] ([src/lib/rjs_bc_call.c]:30-62, 350-392, 1250-1303) and the code made for yield, [yield*], await and return ([src/lib/rjs_bc_gen.c]:313-395, 2613-2685). The body of the generator is an arbitrary coroutine; the promises it awaits are settled from outside, in any order of events. Left out: contexts, realms and the collector; the stale error register (see the statements model); scripts called while a request's promise is resolved (a getter [then] on [Object.prototype]).

**GlobModel.v.** Model of the declarations of a script and of delete in the global environment, and of the clashes of variables of eval. Source: /repo/src/lib/rjs_global_env.c lines 66-187 and 266-610 (the records of the global environment, rjs_env_has_var_declaration, rjs_env_has_restricted_global_property, rjs_env_can_declare_global_var and _function, rjs_env_create_global_var_binding and _function_binding), rjs_object_env.c lines 92-158 and 191-204, rjs_script.c lines 338-479 (rjs_global_declaration_instantiation), rjs_eval_opt.c lines 64-97 (clashes of the variables of eval). Simplifications. The global object is an ordinary object: its own properties are a function from names, [inherited] tells which names its prototypes have. Of ValidateAndApplyPropertyDescriptor (rjs_object.c, areas Store and Obj) just the two shapes of descriptors used here are written out. A step that would run code of the program (a setter, or a set that goes to the prototype) is the outcome [Script] of its own. The hash table of the declared names is a predicate. A lexical binding is its two flags. Creating a function object succeeds; the function of a declaration is its value. Names and values are numbers.

**HashModel.v.** Model of the chained hash table. Source: /repo/src/lib/rjs_hash.c lines 28-182 and /repo/include/ratjs/rjs_hash.h lines 50-65. A table is an array of chains. While [list_num == 1] the C code keeps the single chain inline ([hash->e.list]); this is the list with one chain here. A position pointer [RJS_HashEntry **pe] is a pair (bucket, offset in the chain); dereferencing an invalid one is the outcome [None]. Size arithmetic is unbounded ([size_t] cannot overflow with the entries that fit in memory).

**InputModel.v.** Model of the character input of the parsers: src/lib/rjs_input.c. [UB] is a failed assertion or a read outside the string. The columns and lines are C ints; their overflow after 2^31 characters is not modelled.

**IntObjModel.v.** Model of the internal methods of typed arrays (integer-indexed exotic objects). Source: /repo/src/lib/rjs_int_indexed_object_opt.c lines 55-350. The reading and writing of the bytes of an element is in ViewModel and BufElemSpec (C32, C33); here it is an operation of a world. The ordinary internal methods, the conversion of a value (which can run code of the program that detaches the buffer), and the bytes are operations of a world [tworld], as in MethModel. A key that is a canonical numeric string is given by its number. Simplifications. array_length is fixed when the object is made. A number is an integer, -0, or something else (a fraction, NaN, an infinity); the comparison with array_length is exact, as it is below 2^53.

**IterModel.v.** Model of the iterator protocol and of the functions that consume iterators. Source: /repo/src/lib/rjs_iterator.c lines 104-161 and 174-306 (synchronous iterators), the constructors of sets and maps in rjs_hash_object_inc.c lines 163-308, rjs_add_entries_from_iterable in rjs_operation.c lines 2219-2270, rjs_create_array_from_iterable there 812-847, Array.from and Array.of in rjs_array_object_inc.c lines 93-275, the iterator states of array patterns in rjs_native_stack.c lines 293-330 and 437-480, and the array iterator in rjs_array_object_inc.c lines 665-684 and 3315-3400. As in MethModel everything user code can do is an operation of a world with an arbitrary state. Simplifications. The error register of the runtime is the thrown value; an operation that throws leaves the flag of the register set (the cases where it does not are those of C92 to C94). Asynchronous iterators are not modelled. ToObject of a value that has passed GetMethod cannot fail and is a pure function. Loops over iterators have fuel; running out of it is the outcome [Deep].

**JobModel.v.** Model of the job queue. Source: /repo/src/lib/rjs_job.c lines 28-94, list macros of /repo/include/ratjs/rjs_list.h lines 82-119 and 173-178, and the script function [solveJobs] of /repo/src/lib/rjs_extension_opt.c lines 391-397. The doubly linked list is the list of its nodes in order. A node that was unlinked is freed at once by the code, so touching a node (reading its [next], unlinking it) that is not in the list is the outcome [JCrash].

**JsonModel.v.** Model of JSON.parse and JSON.stringify: the character input (src/lib/rjs_input.c), the JSON side of the lexer (src/lib/rjs_lex.c), the parser and the serializer (src/lib/rjs_json_opt.c). The unread part of the input is the list of its remaining UTF-16 units; pushing a character back is going back to the earlier list (that the C position counter does this is proved in InputProofs.v). -1 is RJS_INPUT_END. The lexer keeps a sticky error flag (RJS_LEX_ST_ERROR); here it is the boolean [err] of each result. A number keeps the text handed to rjs_strtod / rjs_strtoi and its base. The class of identifier characters comes from ICU and is a parameter [ids]/[idc] (rjs_uchar_is_id_start / _continue). Not modelled: locations and messages, the GC, the C stack depth, setters on Array.prototype (parse_array stores with [[Set]]), rt->parser (null here).

**KeyModel.v.** Model of the conversion of property names to property keys: src/lib/rjs_string.c:443-537 (intern table, index parsing), 886-950 (comparison), 1379-1394 (printing an index), src/lib/include/rjs_string.h:67-80, src/lib/rjs_object.c:193-221. A string object lives at an address (a [nat]) and carries its characters and the flags RJS_STRING_FL_PROP_KEY and RJS_STRING_FL_NOT_INDEX. The hash table str_prop_key_hash is the list of the interned addresses, searched with hash_op_string_equal; that the hash table finds exactly an equal key if there is one is property C11. Addresses are never reused. Not modelled: symbols and private names (compared by address).

**LexNumModel.v.** * Numbers in texts: literals, StringToNumber, StringToBigInt, parseInt, parseFloat What is modelled: lex_number (src/lib/rjs_lex.c, 459-739), the parts of rjs_lex_get_token that tell numbers, signs and the word Infinity from other tokens (1279-1427), lex_identifier (809-928), parse_string (src/lib/rjs_string.c, 588-715), rjs_strtoi (src/lib/rjs_strtoi.c), the reading of rjs_strtod (src/lib/rjs_dtoa.c, 3471-3720) and the functions parseInt and parseFloat (src/lib/rjs_global_object.c, 133-240). Simplifications. - The input is the list of characters; reading takes the head and pushing back puts it back (property C62 is about the real input). The end of the input, -1 in the code, is the empty list. - The arithmetic of rjs_strtod is taken to round correctly ([to_double]); only its reading of the text is modelled. Its sums of exponent digits are C ints (3660); they are unbounded here, except in [exponent_sum]. - A token that is neither number, sign, word nor end makes parse_string answer NaN whatever follows, so these tokens are one value [TOther]. The same holds for every lexical error ([None]). - Which characters begin and continue identifiers is taken from a library (ICU); they are parameters.

**LexTabModel.v.** * The tables of punctuators and reserved words What is modelled: the generator of the tables (entry_add, build_token and build_table, gen/lextab/lextab.c, 62-145, with the lists of gen/misc/punctuator.h and gen/misc/identifier.h), the search for reserved words in lex_identifier (src/lib/rjs_lex.c, 880-917) and lex_punctuator (930-993). Simplifications. - The index -1 is [None]; an index outside the table is [None] at the outermost level. - A token of the punctuator table is a constant whose name is made from the characters of the punctuator (print_punct_name, 163-182); here the punctuator itself stands for it. An entry of the identifier table has the class (reserved, strict reserved, known) and the word. - The input is the list of code points still to be read.

**LexTextModel.v.** * String, template and regular expression literals What is modelled: lex_octal_escape, lex_hex_char, lex_hex_escape, lex_unicode_escape and lex_string (src/lib/rjs_lex.c, 165-446), lex_regexp (995-1087) up to the creation of the regular expression, lex_template in programs (1090-1262), rjs_uchar_buffer_append_uc (src/lib/rjs_uchar_buffer.c, 59-80) and the counting of braces in rjs_lex_get_token (1374-1390). Simplifications. - The input is the list of code points still to be read; reading takes the head and pushing back puts it back (property C62 is about the real input). The end of the input, -1 in the code, is the empty list. - A lexical error makes the whole program an early error, so the model stops there ([Bad]); the code goes on reading to report more errors. Undefined behaviour ([Undef]) is the left shift of a negative number in lex_unicode_escape. - Texts and raw texts are lists of 16-bit units. - Which characters continue identifiers is taken from a library (ICU); it is a parameter.

**MapIterModel.v.** Model of Map / Set objects: hash table, insertion-ordered entry list and live iterators. Source: /repo/src/lib/rjs_hash_object_inc.c lines 311-406 (hash_add, hash_get, hash_delete, hash_clear), 445-560 (iterators), and the forEach loop of /repo/src/lib/rjs_map_object_inc.c lines 168-192 (the Set version, rjs_set_object_inc.c, is the same loop). An entry is identified by its allocation number; the doubly linked entry list is the list of its nodes. A node not in the list has been freed, so touching it is the outcome [None]. A [RJS_List*] cursor is [Some id], or [None] for the list head [&ho->list]. The hash table is the model of HashModel.v, mapping a key to the allocation number of its entry. A Set is a Map whose values are ignored.

**MathModel.v.** * The functions of Math and Number that the engine computes itself What is modelled: Math.clz32, imul, max, min, pow, random, round and sign (src/lib/rjs_math_object_inc.c), rjs_number_exponentiate (src/lib/rjs_number.c, 172-228), rjs_is_integral_number (include/ratjs/rjs_operation.h, 87-97) and Number.isFinite, isInteger, isNaN and isSafeInteger (src/lib/rjs_number_object_inc.c, 128-209). Simplifications. - A double is its pattern of 64 bits, as in NumModel.v. The arguments are numbers already (ToNumber is in OpModel.v). - floor, fabs, trunc, ==, < and <= of C are exact. The value [dval] of the pattern of an infinity is larger than that of every finite double, so that comparisons use it for infinities too. - pow of the C library is a parameter, used for finite operands only. - rand() is a parameter: a number from 0 to RAND_MAX (2^31 - 1 with glibc). - The functions that only call the C library (sin, log, ...) and Math.hypot are not modelled.

**MethModel.v.** Model of the methods of Array.prototype. Source: /repo/src/lib/rjs_array_object_inc.c lines 303-1720 and 1722-3010 (without sort, toSorted and the creation of iterators), the index helpers in /repo/include/ratjs/rjs_operation.h lines 1146-1168, 1306-1330, 1521-1545, 1605-1630 and rjs_length_of_array_like in rjs_operation.c lines 479-496. Everything an object, a function or a conversion can do is an operation of a [world]: its state is arbitrary, each operation may change it, and may throw. So a world can answer as any mix of ordinary objects, proxies, getters and callbacks, and can record what it was asked. Pure tests are functions. Simplifications. Numbers that are returned or passed are integers. A key is an integer or one of the names the methods use; the integer stands for the canonical string in both representations of the code (index string below 2^32-1, else the string of the number, C36 and C04). Counters of type int64_t stay below 2^54 and are unbounded here. The recursion of flat is bounded by fuel; running out of it is an outcome of its own.

**ModModel.v.** Model of linking and evaluating modules: src/lib/rjs_module_opt.c (inner_module_link, rjs_module_link, gather_available_ancestors, execute_valid_modules, async_module_execution_fulfilled/rejected, execute_async_module, inner_module_evaluation, rjs_module_evaluate). A module is a number. The parts of a module that do not change after it was loaded are the [graph]: its requested modules in order (module_requests[i].module, all resolved), whether its body is an async function (top level await), the outcome of module_init_env and the outcome of the body of a module without top level await. The error values are numbers; 0 is the value undefined. The completion of a body with top level await is an event of its own ([done]): the reactions of the promise of mod->capability run as a job (C19), never inside the functions below. The DFS stack is one list, since none of the functions is re-entered while a DFS is running. A failed assert is [Abort]. [log] is a ghost list of what was done, the latest first. Not modelled: the int overflow of the indices and of async_eval_cnt, allocation failure, the garbage collector.

**NumModel.v.** Model of numbers and of the integer conversions. Source: include/ratjs/rjs_operation.h:704-1070, src/lib/rjs_number.c:27-160, src/lib/rjs_operation.c:164-197, include/ratjs/rjs_value.h. A number (RJS_Number, IEEE 754 double) is its 64-bit pattern, a [Z] in 0 .. 2^64-1. Its finite values are handled exactly: [dval] is the value in units of 2^-1074, the distance of the least positive double from 0. Conversions of doubles to integer types outside the range of the type are undefined behaviour, the outcome [None]. Conversion of arbitrary JavaScript values to numbers (user code) is done before; the models take the number. Integer results are [Z].

**ObjModel.v.** Model of ordinary objects and arrays: src/lib/rjs_object.c:193-1262, src/lib/rjs_array.c:28-253 and the integrity levels of src/lib/rjs_operation.c:936-1058. Simplifications: property names are already resolved (prop_resolve, lines 193-217, is modelled in the Key files); interned strings and symbols are numbers; the property hash and the property list of one object are the list of its named properties in list order (the hash table is modelled in the Hash files); a descriptor flag is [option bool] (HAS_X bit, X bit), so an X bit without its HAS_X bit cannot be written; the conversion of a new array length to a number, which may run user code, happens before the operation and its result is carried by the operation; a setter or a proxy in the way is reported as a result and what it does is further operations.

**OpModel.v.** Operators on values: equality, relational comparison, [+] and the other binary arithmetic operators, [typeof], [instanceof], and the conversions to primitive and numeric values behind them. Source: src/lib/rjs_bc_call.c:447-735, src/lib/rjs_operation.c:1177-1496, src/lib/rjs_object.c:1405-1523, include/ratjs/rjs_operation.h:257-293, 470-492, 620-690, 1249-1269, src/lib/include/rjs_number.h:253-279, src/lib/rjs_function_object_inc.c:268-279. Script code is not modelled: reading a property, calling a function and reading a prototype are parameters acting on an arbitrary state [W], so each theorem holds whatever scripts do. Also parameters: the text conversions of numbers and big integers and the arithmetic on doubles. Big integers are integers here (C20-C26 relate the limbs to the integer); numbers are 64-bit patterns. Left out: running out of memory.

**PrivModel.v.** Model of private names and private elements of classes. Source: /repo/src/lib/rjs_private_name_opt.c lines 105-228 (private_name_add, rjs_private_env_push, rjs_private_name_lookup), 231-266 and 278-517 (the private elements of an object), rjs_function.c lines 106-158 (rjs_initialize_instance_elements, the part for private methods). Simplifications. A private name is a number, the address of its structure; a new structure has a number never used before (no private name is freed as long as an object or environment holds it, rjs_object.c:515-524). The private elements of an object are a function from private names; its other properties have string and symbol keys and are left out. A getter or setter that has to be called is an outcome that tells function, receiver and arguments. A private identifier that no environment declares is an early error of the parser; here the failed assert is the outcome [Abort]. The conversion of the base to an object is that of area Val.

**PromiseAllModel.v.** Model of the counting of Promise.all, Promise.allSettled and Promise.any: src/lib/rjs_promise_object_inc.c:75-708. One call of one of the three functions. The iterated object, the resolve function of the constructor and the "then" methods are the script: between the atomic pieces of the loop the script may call any element function it was given, any number of times. [left] is a size_t. The values array is the list of its elements; rjs_set_index on it is taken as the plain store it is when Array.prototype has no setters for indices. Not modelled: closing the iterator, the promise capability (C18).

**PromiseModel.v.** Model of promises: src/lib/rjs_promise.c. The script is an adversary: between the atomic steps of the engine code it may create promises, call any resolving function with any value, register reactions, start the next job, answer a [[Get]] of "then" and return from or throw out of a function the engine called. Every real execution is one such sequence of actions; C theorems about all sequences hold for it. An action that names something that does not exist is [Stuck]; a failed assert of the C code is [AssertFail]. The job list of rjs_job.c is the list [queue]; that jobs leave it in order is property C17 (a job that itself calls solveJobs is outside this model). Not modelled: realms of the jobs, the error_flag of the runtime, allocation failure, garbage collection of the records (C14).

**ProxyModel.v.** Model of the internal methods of proxy objects, src/lib/rjs_proxy_object_opt.c:52-957, with the helpers rjs_complete_property_descriptor (src/lib/rjs_operation.c:435-470) and rjs_is_compatible_property_descriptor (src/lib/rjs_object.c:892-896). A target is an object of the heap of ObjModel.v or another proxy. The handlers are the script: looking a trap up and calling it is one event of a given list, which says what the script did (operations on the objects of the heap, proxies revoked) and what it answered. So are reading the object returned by a trap, getters, setters and whatever is found in the prototype chain of the target. RJS_ERR is [Thrown]; where the code tests a RJS_Result only for truth, RJS_ERR counts as true and the exception is lost ([lost]). [Stop]: the events ended or do not fit, or the base object model is undefined. Not modelled: [[Call]] and [[Construct]], the value stack, the hash table of the keys (a list here, C11), an allocation of up to 2^53-1 keys.

**RbtModel.v.** Model of src/lib/rjs_rbt.c:28-490, of rjs_rbt_link (src/lib/include/rjs_rbt.h:74-80) and of the searches of src/lib/rjs_object.c:148-191 (prop_vec_to_rbt), 238-250 (prop_lookup), 370-395 (prop_add), 424-442 (prop_delete) and 1273-1300. Nodes live at addresses, 0 is NULL; the word parent_color is split into the parent and the colour bit (nodes are aligned, so the two do not overlap). Reading or writing a field of an address without a node, and using the word of a black node as a pointer, is undefined ([None]). Loops have fuel, running out of it is also [None]: the theorems show that it does not happen.

**RegExecModel.v.** Model of rjs_regexp_builtin_exec, src/lib/rjs_regexp.c:2805-2994, on top of the matcher of RegModel.v. The property lastIndex is read by get_last_index (1851-1870) as a length and written with rjs_set_number; the model takes the value read and returns the value written. The result array is the list of its elements; an element for which no property is created is [Hole]. Not modelled: allocation failure, errors of the property operations (the ones on the new array and objects are not checked by the code).

**RegModel.v.** Model of the regular expression matcher, src/lib/rjs_regexp.c:1826-2800. The compiled pattern is the tree built by the parser (rjs_regexp.c:47-160). match_pattern, match_alter, match_term_list, match_term, match_atom and the jobs call each other only in tail position, so a call is a control state of a machine and one step of the machine is one call. (match_atom maps the result of match_la_lb, which is RJS_REGEXP_NEXT or RJS_REGEXP_REJECT, to itself.) The job stack is a list, its bottom first; a job holds the fields its operation reads; [nextp] and [vsp] are indices, None for -1. The vector stack is a block of memory with the number of its items in use; the block of an earlier match is used again, so its first content is arbitrary. A pointer to a terminal is its position in the list of the alternative. [Bad]: an index outside of an array. ICU's u_foldCase, u_strToUpper and property lookup are functions of the environment. Not modelled: allocation failure, the overflow of the int64_t counter (more than 2^63 iterations), lists longer than size_t.

**RegParseModel.v.** Model of the pattern parser, src/lib/rjs_regexp.c:432-1500, 1536-1725. The parser reads the characters of the source, code points, from rjs_input.c; C62 shows that reading and pushing back there is reading from a list, so the input is the list of the characters left, and a character that is pushed back is simply not removed. -1 is the end. The results: a value with the new state, a syntax error, [PUB] for undefined behaviour (overflow of int or int64_t, isalpha of a character above 255), [PFuel] for the recursion bound of the model. A terminal is identified for terms_both_participate by its path: for each terminal around it the number of the alternative and of the terminal. The Unicode property tables and the identifier tests are parameters; [junk] is the uninitialised member value of a property inside of a class (parse_class copies only the first member, rjs_regexp.c:985, 1015). Not modelled: allocation, the message texts, the conversion of the names to strings (a name is the list of its characters).

**ResModel.v.** Model of resolving exports and of namespace objects: resolve_export and rjs_module_resolve_export, src/lib/rjs_module_opt.c:1854-1985, the name checks of module_init_env, 307-410, get_export_names and rjs_module_ns_object_new, src/lib/rjs_module_ns_object_opt.c:385-556. Modules are numbers. Names are numbers in the order of rjs_string_compare. All requested modules are resolved. The export hash table of a module is the list of its local and indirect entries, looked up by name (C11); names are distinct by the early errors of the parser. A binding is what RJS_ResolveBinding holds: the module and the local name, or undefined for a namespace. Not modelled: allocation failure, the garbage collector.

**SortModel.v.** Model of the merge sort used by Array.prototype.sort and TypedArray.prototype.sort. Source: /repo/src/lib/rjs_sort.c lines 28-123 and /repo/src/lib/rjs_array_object_inc.c lines 2261-2400. The C code works on a byte array [base] of [num] items; here the array is a [list A] and pointers are item indices. Reads use [nth_error], so an out-of-range access is the distinct outcome [SOob]. The scratch buffer [tmp] is represented by the list of items written so far.

**StoreModel.v.** Model of the indexed property storage of objects: prop_rbt_set_vec, prop_rbt_to_vec, prop_vec_to_rbt, prop_lookup, update_array_item_max, prop_array_fixup, prop_add and prop_delete, src/lib/rjs_object.c:107-449 and rjs_ordinary_object_delete_from_index, 1264-1317. Simplifications: the red/black tree is the list of its nodes in order, searched and changed as a search tree would be (the balancing is modelled in the Rbt files); a slot with RJS_PROP_ATTR_DELETED is [None]; allocation succeeds. [SUB] marks a null or out-of-range access.

**StrModel.v.** Model of the string primitives of src/lib/rjs_string.c and of the String methods built on them (src/lib/rjs_string_object_inc.c). A string is a [list Z] of UTF-16 code units (RJS_UChar, 0..65535). A pointer into a character buffer is an index ([nat]); reading outside the buffer is the distinct outcome [SUB], so is a failed assert. Not modelled: the GC, conversion of the arguments to strings/numbers (the models take the converted values), allocation failure (except in [repeat]).

**SubstModel.v.** Model of replacement templates and of replace/replaceAll with a string pattern: rjs_get_substitution (src/lib/rjs_string.c:1404-1567) and String.prototype.replace/replaceAll (src/lib/rjs_string_object_inc.c:896-1125). The pointer [c] into the template is the suffix of the template it points to. The reading of the captures array (1428-1464) is done by user-visible gets before the loop: [cn] is its length, [caps] the converted values from index 1 on, [groups] the group object as a function from names (a get can throw). A failed assert in rjs_string_substr is [SUB]. Not modelled: allocation failure.

**SymRegModel.v.** The registry of symbols: Symbol, Symbol.for, Symbol.keyFor, the check of keys that can be held weakly, and the garbage collector as far as it concerns symbols (src/lib/rjs_symbol.c, src/lib/rjs_symbol_object_inc.c, src/lib/rjs_operation.c). A key is the number of an interned string (rjs_string_to_property_key makes equal strings one object). A symbol is the address of its memory. The hash tables are association lists (the hash tables themselves are the subject of C11). The allocator may return any address that is not in use; here a step names the address. Not modelled: failing allocation, ToString of the key.

**UriModel.v.** Model of encodeURI / decodeURI, src/lib/rjs_uri_functions_inc.c:50-303, and of the character helpers of src/lib/include/rjs_uchar.h:57-149. Strings are lists of 16-bit units (StrModel.v); a pointer into the string is the suffix it points to, reading past its end is [SUB].

**UtfModel.v.** Model of the built-in text encoding conversion: src/lib/rjs_conv_internal_opt.c:28-391 and src/lib/rjs_conv.c:38-82. Bytes are integers 0..255 in lists; a pointer is the list it points to; [len]/[il] is the length of that list. The default build uses ICU instead of rjs_conv_internal_opt.c (ENC_CONV=icu); the conversion loop of rjs_conv.c is shared. Sizes are unbounded naturals: no text reaches 2^63 bytes. Allocation succeeds.

**ValModel.v.** Model of the 64-bit boxed value representation, include/ratjs/rjs_value.h:45-830. A value word (RJS_Value, uint64_t) and a pointer (8 bytes, size_t) are integers in 0 .. 2^64-1. Reading and writing the native stack through rjs_value_get_pointer is the identity here.

**ViewModel.v.** Model of ArrayBuffer, DataView and TypedArray objects and of their raw memory accesses: src/lib/rjs_data_block_opt.c, rjs_array_buffer_opt.c, rjs_data_view_object_inc.c, rjs_int_indexed_object_opt.c and the methods of rjs_typed_array_object_inc.c that touch buffer memory. - Every conversion of an argument may run user code. User code is a program of further operations (detach included), given with the operation. - Which bytes a stored value becomes, and which value read bytes are, is a parameter ([enc], [dec]); BufModel.v has the conversions. - malloc may fail at any allocation (a flag of the operation). - size_t arithmetic wraps; ssize_t overflow, access outside a live block and use of a detached buffer are the outcome [Ub]. - Not modelled: the interleavings of threads on shared blocks, sort (its element accesses are in SortModel.v), pointer arithmetic on the NULL data pointer of an empty block.

**WaitModel.v.** Model of Atomics.wait and Atomics.notify, src/lib/rjs_atomics_object_inc.c:1161-1322, with the waiter lists of src/lib/rjs_data_block_opt.c:211-304, for one shared data block. Agents run concurrently under a schedule. The mutex of the data block is [lock]; a waiter is blocked in pthread_cond_wait / pthread_cond_timedwait on its own condition variable. pthread_cond_wait releases the mutex and blocks in one step; the thread leaves it when it is signalled, when its time is over (timedwait) or spuriously (POSIX allows it), and then needs the mutex again. The memory cells hold the values compared by wait; agents change them with [OPoke] (any of the Atomics operations or plain stores; C38 is about those). Waiters and waiter lists are allocated with malloc: a waiter is named by a fresh number; touching a freed waiter is the outcome [crashed]. Timeouts: only whether there is one (the value INFINITY or not). Argument conversion and validation are not part of this model.

### Properties, files and status

`proved`: the property as stated in properties.jsonl is proved of the model.
`partial`: it is false of the code, or proved with the restriction given in the note.

| id | title | status | theorems in |
|----|-------|--------|-------------|
| C01 | Calendar round trip of UTC dates | proved | DateProperties.v |
| C02 | Time-of-day getters decompose the time value | partial | DateProperties.v |
| C03 | Sorting is a stable sorted permutation, whatever the comparator does | proved | SortProperties.v |
| C04 | Different strings name different properties | partial | KeyProperties.v |
| C05 | Indexed properties behave as one finite map through every representation change | partial | StoreProperties.v |
| C06 | Array length always exceeds every own index | proved | ObjProperties.v |
| C07 | Shrinking length removes exactly the tail, stopping at the first non-configurable element | proved | ObjProperties.v |
| C08 | Non-configurable properties never change in a forbidden way | proved | ObjProperties.v |
| C09 | Prototype chains of ordinary objects never become cyclic | proved | ObjProperties.v |
| C10 | Non-extensible objects gain no property and keep their prototype | proved | ObjProperties.v |
| C100 | Every expression is accepted and grouped as the grammar says | partial | ExprProperties.v |
| C101 | Only expressions are accepted | partial | ExprProperties.v |
| C102 | Simplified constants do not change values | partial | ExprProperties.v |
| C103 | StringToNumber reads exactly the strings that are numbers | partial | LexNumProperties.v |
| C104 | StringToBigInt reads exactly the strings that are integers | partial | LexNumProperties.v |
| C105 | Numeric literals of programs are read as the standard says | partial | LexNumSourceProperties.v |
| C106 | parseInt reads the longest run of digits | partial | LexNumProperties.v |
| C107 | parseFloat reads the longest decimal literal | partial | LexNumProperties.v |
| C108 | A number comes back from its text | partial | LexNumProperties.v |
| C109 | String literals have the value the standard gives them | partial | LexTextProperties.v |
| C11 | The internal hash table is a faithful finite map | proved | HashProperties.v |
| C110 | Template parts have the cooked and raw text of the standard | partial | LexTextProperties.v |
| C111 | Regular expression literals have the right extent | partial | LexTextProperties.v |
| C112 | The longest punctuator is taken | proved | LexTabProperties.v |
| C113 | The name table knows exactly the reserved words | proved | LexTabProperties.v |
| C114 | A brace resumes the right template | proved | LexTextProperties.v |
| C115 | Math.max and Math.min give the greatest and the least argument | proved | MathProperties.v |
| C116 | Math.round, Math.sign and the tests of Number are exact | proved | MathProperties.v |
| C117 | Powers have the special cases of the standard | partial | MathProperties.v |
| C118 | Math.clz32 and Math.imul work on 32-bit integers | partial | MathProperties.v |
| C119 | Math.random is below 1 | partial | MathProperties.v |
| C12 | The balanced tree keeps order, balance and contents | proved | RbtProperties.v |
| C120 | Sets, maps and Object.fromEntries read an iterator as the standard says | partial | IterProperties.v |
| C121 | Array.from of an iterable | partial | IterProperties.v |
| C122 | Array.from of array-like objects, Array.of and lists of values | proved | IterProperties.v |
| C123 | Array patterns keep track of the end of their iterator | partial | IterProperties.v |
| C124 | Array iterators | partial | IterProperties.v |
| C125 | White space and comments between tokens are skipped, nothing else | partial | GapProperties.v |
| C126 | A line terminator before a token is seen wherever it stands | proved | GapProperties.v |
| C127 | Object.defineProperties reads all descriptors before it defines a property | partial | DescProperties.v |
| C128 | Object.keys, values, entries, names, symbols and assign | proved | DescProperties.v |
| C129 | Property descriptors and objects are converted as the standard says | proved | DescProperties.v |
| C13 | Map/Set iteration under concurrent modification | partial | MapIterProperties.v |
| C130 | Object.prototype.toString | partial | DescProperties.v |
| C131 | Elements of typed arrays are read, defined, found and deleted as 10.4.5 says | proved | IntObjProperties.v |
| C132 | Writing elements of typed arrays through any receiver, and their keys | partial | IntObjProperties.v |
| C133 | A script declares all its global names or none | proved | GlobProperties.v |
| C134 | delete of a global name | partial | GlobProperties.v |
| C135 | Variables of eval and the scopes they are hoisted through | partial | GlobProperties.v |
| C136 | Private names are new for each evaluation of a class | proved | PrivProperties.v |
| C137 | Private elements are read, written and added as the standard says | proved | PrivProperties.v |
| C138 | Functions bound any number of times | proved | BoundProperties.v |
| C139 | The registry of symbols is a lasting bijection | proved | SymRegProperties.v |
| C14 | The collector never frees a reachable object | proved | GcProperties.v |
| C140 | Error constructors and Error.prototype.toString | partial | ErrProperties.v |
| C15 | The collector frees every unreachable object | proved | GcProperties.v |
| C16 | A WeakMap keeps the value of a live key alive | partial | GcProperties.v |
| C17 | Jobs run exactly once in FIFO order | partial | JobProperties.v |
| C18 | A promise settles at most once and never changes afterwards | proved | PromiseProperties.v |
| C19 | Every promise reaction is called exactly once, asynchronously, in registration order | proved | PromiseProperties.v |
| C20 | BigInt addition and subtraction are exact | partial | BigProperties.v |
| C21 | BigInt multiplication and exponentiation are exact | partial | BigProperties.v |
| C22 | BigInt division and remainder satisfy the truncated-division law | partial | BigProperties.v |
| C23 | BigInt bitwise operators agree with infinite two's complement | proved | BigProperties.v |
| C24 | BigInt shifts multiply or floor-divide by powers of two | partial | BigProperties.v |
| C25 | BigInt.asIntN / asUintN reduce modulo 2^n | partial | BigProperties.v |
| C26 | BigInt comparison is the order of the integers | proved | BigProperties.v |
| C27 | BigInt text conversion round-trips in every radix | proved | BigProperties.v |
| C28 | BigInt values stay normalised | proved | BigProperties.v |
| C29 | Text encoding conversion round-trips and stays inside its buffer | partial | UtfProperties.v |
| C30 | decodeURIComponent inverts encodeURIComponent | proved | UriProperties.v |
| C31 | URI decoding never reads outside its argument and rejects malformed UTF-8 | partial | UriProperties.v |
| C32 | Element bytes round-trip for every element type and byte order | partial | BufProperties.v |
| C33 | DataView and typed-array accesses stay in bounds | proved | ViewProperties.v |
| C34 | Boxed values keep their type: no bit pattern forges a reference | proved | ValProperties.v |
| C35 | Integer conversions are modular | partial | NumProperties.v |
| C36 | Shift operators on numbers use only the low five bits of the count | partial | NumProperties.v |
| C37 | Atomics.notify wakes exactly the waiters it reports, oldest first | partial | WaitProperties.v |
| C38 | Atomics operations on one location are linearizable | partial | AtomProperties.v |
| C39 | String search returns the first (last) occurrence | partial | StrProperties.v |
| C40 | String comparison is the UTF-16 lexicographic total order | proved | StrProperties.v |
| C41 | trim and pad do exactly what they say | partial | StrProperties.v |
| C42 | Quoted JSON strings parse back to the original | proved | JsonProperties.v |
| C43 | JSON.parse accepts only JSON | partial | JsonProperties.v |
| C44 | Replacement templates expand as specified and in bounds | partial | SubstProperties.v |
| C45 | Overlapping typed-array copies behave as if through a temporary | proved | ViewProperties.v |
| C46 | Every FinalizationRegistry registration is honoured | partial | GcProperties.v |
| C47 | ISO date text round-trips | partial | DateProperties.v |
| C48 | Own keys come in the specified order | proved | ObjProperties.v |
| C49 | BigInt and 64-bit integer conversions agree modulo 2^64 | partial | BigProperties.v |
| C50 | Number(bigint) is the nearest Number | partial | BigProperties.v |
| C51 | String.prototype.repeat returns exactly n copies or throws | partial | StrProperties.v |
| C52 | split cuts at the leftmost non-overlapping separators | proved | StrProperties.v |
| C53 | Strings are read as code points correctly | proved | StrProperties.v |
| C54 | slice, substring, at and charAt pick the specified range | proved | StrProperties.v |
| C55 | replace and replaceAll with a string pattern replace exactly the right occurrences | proved | SubstProperties.v |
| C56 | Bitwise operators act on 32-bit two's complement | partial | NumProperties.v |
| C57 | ToIndex accepts exactly the integers 0 to 2^53-1 | proved | NumProperties.v |
| C58 | freeze and seal lock exactly what they should | proved | ObjProperties.v |
| C59 | defineProperty follows ValidateAndApplyPropertyDescriptor | proved | ObjProperties.v |
| C60 | Weak references never dangle | proved | GcProperties.v |
| C61 | JSON.stringify writes JSON and JSON.parse reads it back | partial | JsonProperties.v |
| C62 | Pushing characters back restores the input | proved | JsonProperties.v |
| C63 | Promise.all and Promise.any settle once, after the last element, with all values in order | proved | PromiseAllProperties.v |
| C64 | Promise.allSettled settles once, after the last element, with one record per element | partial | PromiseAllProperties.v |
| C65 | TypedArray slice copies without undefined behaviour | partial | ViewProperties.v |
| C66 | Atomics.wait waits for the given number of milliseconds | partial | WaitProperties.v |
| C67 | Proxies keep the invariants of the essential internal methods | partial | ProxyProperties.v |
| C68 | Trap answers are taken exactly when ECMA-262 10.5 takes them | proved | ProxyProperties.v |
| C69 | The regular expression machine computes the backtracking match | proved | RegProperties.v |
| C70 | Matching agrees with ECMAScript | partial | RegProperties.v |
| C71 | exec returns the leftmost match from lastIndex | partial | RegProperties.v |
| C72 | Character tests of patterns are the character sets of ECMAScript | partial | RegProperties.v |
| C73 | The pattern parser accepts the grammar of patterns and builds its tree | partial | RegParseProperties.v |
| C74 | A compiled pattern is safe for the matcher | proved | RegParseProperties.v |
| C75 | Flags and source of a regular expression | partial | RegParseProperties.v |
| C77 | Linking initialises every needed module once and undoes itself on failure | proved | ModProperties.v |
| C78 | Evaluation runs every needed module exactly once in dependency order | proved | ModProperties.v |
| C79 | Modules with top level await | partial | ModProperties.v |
| C80 | Exported names resolve to the binding they stand for | partial | ResProperties.v |
| C81 | A namespace object has exactly the unambiguous exported names, sorted | partial | ResProperties.v |
| C82 | Equality operators answer the standard relation | proved | OpProperties.v |
| C83 | Relational operators order values as the standard says | partial | OpProperties.v |
| C84 | Binary arithmetic converts left before right and never mixes types | proved | OpProperties.v |
| C85 | instanceof and typeof | partial | OpProperties.v |
| C86 | The binding cache is invisible | partial | EnvProperties.v |
| C87 | Tail calls reuse an environment unseen | partial | EnvProperties.v |
| C88 | for-in visits each name once | partial | ForInProperties.v |
| C89 | The arguments object shares its values with the parameters | proved | ArgsProperties.v |
| C90 | Array methods that read behave as the standard algorithm | partial | MethProperties.v |
| C91 | Array methods that change the array behave as the standard algorithm | partial | MethProperties.v |
| C92 | Statements run as the standard says | partial | FlowProperties.v |
| C93 | The value of a script | partial | FlowProperties.v |
| C94 | Jumps have targets | partial | FlowProperties.v |
| C95 | Generators run as the standard state machine | proved | GenProperties.v |
| C96 | Async generators answer every request once and in order | partial | GenProperties.v |
| C97 | The text of a number reads back and is shortest | partial | DtoaProperties.v |
| C98 | toFixed, toExponential and toPrecision round as the standard says | partial | DtoaProperties.v |
| C99 | toString with a radix writes the number in that radix | partial | DtoaProperties.v |

### Notes per property

* **C01** Proved for every integer time value and every date with |year| <= 2e8 (the whole valid range is |year| <= 275760). Beyond the statement's range Date.UTC(1e9,0) overflows int64_t (refuted theorem). Doubles are modelled as exact integers; the only inexact operation in range, the division in day(), is shown to have the exact floor.
* **C02** The property is false for the code: the getters truncate toward zero, so negative time values that are not whole hours do not recombine. The exact set on which it holds is proved.
* **C03** Index-level model of merge/sort with stateful, possibly throwing comparator. Array elements are read/written as plain data (no accessors); a comparator that mutates the typed array being sorted is not modelled.
* **C04** Names such as '01' or ' 1' alias the index 1 (refuted); the exact equality condition is proved for every run, and the property in full for names that are not untidy spellings of an index.
* **C05** Refuted as stated: storing index 0, 1 or 2 while the tree form is empty writes through a null pointer. Proved: that is the only crash, and in every other history lookups and listings are those of the finite map.
* **C06** For every history of object operations that completes.
* **C07** Truncation through defineProperty of length with a value and optionally writable:false; plain assignment goes through the same function.
* **C09** Proxies and module namespaces end the walk, as in the code.
* **C100** Proved for token lists without the neighbours 'new new' and 'new super', and in strict mode without delete or with neither '?.' nor a constant operand; outside of that the code violates the claim (refuted theorems). Object and array literals, functions, classes, templates with substitutions, arrow functions with a parameter list, yield and import are tokens or left out.
* **C101** Proved for token lists without 'new new', without a comma before ')', without a constant before &&, ||, ?: (or null/undefined before ??) and without 'new' together with '?.'; the code accepts more than the grammar otherwise (refuted theorems). Same fragment of the grammar as C100.
* **C102** Proved for constants, names, parentheses, comma lists, unary and binary operators, conditionals and assignments to names, with 'undefined' bound to undefined; where a reference counts (call receiver, assignment target, typeof, delete) the code violates the claim (refuted theorems).
* **C103** Exact (iff) for strings without '/', backslash and U+0085, without white space after a leading sign, of at most 19000 characters, radix integers up to 2^53; complete without the first three guards. Each guard but the length is needed (refuted theorems). The arithmetic of rjs_strtod is taken to round correctly. Identifier characters outside of ASCII are a parameter.
* **C104** Exact for strings without '/', backslash and U+0085 and without white space after a leading sign; complete for all strings. The code accepts more (refuted).
* **C105** Sound and complete, strict and sloppy, except for legacy octal literals followed by a point or exponent and separators after legacy decimal integers (refuted); values up to 19000 characters and, with a radix, up to 2^53 (refuted beyond). The arithmetic of rjs_strtod is taken to round correctly; identifier characters outside of ASCII are a parameter.
* **C106** True for radix 10 and 0 if neither a point nor an exponent follows the digits, for the other radices up to 2^53; the code violates the rest (refuted theorems).
* **C107** For strings without U+0085 of at most 19000 characters in which I begins Infinity the value is the standard's, except that an overflow gives NaN and a stale errno turns Infinity into NaN (float_result). The arithmetic of rjs_strtod is taken to round correctly.
* **C108** Proved for all doubles with exponent e <= 1 or e >= 23 (m * 2^e), the zeros, the infinities and NaN; false for some others (refuted).
* **C109** Exact for all inputs with \u{} counted as a string of the code; standard for all inputs without \u{}; the full property is refuted by \u{}.
* **C11** Any hash function consistent with the key equivalence, any history. The equivalence/consistency of the concrete key functions (rjs_hash_op_value_key casts a double to size_t, undefined for negative/NaN) is a hypothesis.
* **C110** Exact for inputs without \u{} and without a digit after a \u{ value that is too large; both exceptions are refuted.
* **C111** Exact for inputs without \]; refuted for \] inside a class.
* **C117** All operands except -Infinity and -0 with finite exponents beyond int64_t, where the behaviour is undefined; pow of the C library is a parameter with the stated contract.
* **C118** For arguments whose integer part fits int64_t (as C35).
* **C119** Below 1 unless rand() returns RAND_MAX.
* **C12** Pointer-level model of rjs_rbt.c (nodes at addresses, colour bits, rotations) and of the searches of rjs_object.c that use it; every history of insertions and removals from the empty tree, with the number of loop rounds bounded logarithmically; also discharges the list representation of the tree used by the store model.
* **C120** Equal to the standard for iterators that do not fail by themselves; C120_actual is exact for all: a failed iterator is closed too. The flag of the error register is covered by C92 to C94.
* **C121** As C120; also the length of the result must be settable. Fewer than 2^53 - 1 values.
* **C123** Elements in full; the rest element unless the getter value throws.
* **C124** Up to the first end or error in every world; afterwards only while the array does not grow.
* **C125** U+0085 is skipped as white space (refuted); all other cases are proved.
* **C126** For tokens that do not start with U+0085, with which no token of the language starts (C125).
* **C127** Refuted: errors are lost, absent properties can be taken for enumerable, and properties are defined before all descriptors are read. Proved if reading has no effects and no errors.
* **C128** For all worlds of objects.
* **C129** For all worlds of objects and all old contents of the structure.
* **C13** Proved for every interleaving, with the hash table model of C11 inside, provided no Array.prototype setter for index 0/1 runs during a key/value step. With such a setter the code reads a freed entry or skips an entry (refuted theorems). The -0 key normalisation is not covered.
* **C130** Refuted for tags with U+0000; proved for all others.
* **C131** Code and relations of the standard agree in both directions.
* **C132** Refuted for other receivers and detached buffers; proved otherwise.
* **C133** For an ordinary global object. That the functions are among the variable names is how the parser fills the tables (read, not modelled).
* **C134** The answer for a name that no record holds is false instead of true (refuted); proved for names that a record holds. Lexical bindings are those of scripts, never deletable.
* **C135** Every error of the standard is found; a with scope that holds the name is an error too, which the standard does not have (refuted). Exact if no with scope holds one of the names.
* **C136** Private names are numbers that are never used again.
* **C137** A call of a getter or setter is an outcome; its result is not modelled.
* **C138** The name of the bound function and errors of reading length are not modelled.
* **C139** Failing allocation and ToString of the key are not modelled.
* **C14** Any finite graph, any roots, any mark stack capacity including none; termination included (the model's fuel is shown sufficient).
* **C140** Refuted in one point: an AggregateError is no error object (C140_aggregate_kind_refuted). Everything else holds.
* **C15** Exactly the reachable things stay, marks are clear afterwards; also for collections anywhere in a history.
* **C16** The code violates this: values of weak maps are not scanned, so a value only the map refers to is freed and get returns freed memory. The second theorem says exactly when the value stays.
* **C17** Proved for all job bodies that do not themselves drain the queue. With a re-entrant drain (the script-callable solveJobs()) the property is false of the code: the running job runs twice and its node is freed twice (refuted theorem).
* **C18** For all action sequences of an open machine in which the script is an adversary.
* **C19** Jobs are taken from the queue in order; a job that itself calls solveJobs (C17) is outside the model.
* **C20** Violated by the code: the borrow flag of the magnitude subtraction is never cleared. Exact characterisation (iff) of when + and - are right; neg, inc, dec, not always right.
* **C21** Violated: wrong sign for a < -1 with |b| = 1 mod 2^32, and for a < -1 to the power 1; 1n**(2n**32n) throws. Exact everywhere else.
* **C22** Violated for multi-limb divisors (inherits the subtraction defect, can also take an enormous number of iterations). Proved for |a| < 2^64, for |b| < 2^32 with any a, and whenever the subtractions met are exact.
* **C24** Violated for some negative values (two's complement window loses its top limb) and 0n << 2n**32n. Exact iff given.
* **C25** Violated for negative values narrower than the requested width. Exact iff given.
* **C27** Reading back is proved for the radices the scanner supports (2..16).
* **C29** Built-in converter (ENC_CONV=internal). Round trip and exactness proved for all five encodings. The buffer bound holds for UTF-16/32 output and fails for UTF-8 output (utf8_from_uc ignores the room left); the exact condition is C29_overflow_actual.
* **C31** The claim is false for the code: a trailing %X reads past the end, and overlong, surrogate and out-of-range UTF-8 is accepted. Both deviations are characterised exactly.
* **C32** Exact for all types, orders and offsets where the C conversions are defined; undefined for numbers of magnitude >= 2^63 in integer elements and for -2^63 in BigInt64 elements.
* **C33** Programs of buffer, DataView and TypedArray operations with user code in every conversion, detach included; element encodings are parameters. Threads on shared blocks are not interleaved.
* **C34** Pointers are canonical 48-bit addresses; arithmetic results are assumed to be the default NaN patterns of C and x86.
* **C35** Exact: modular for every number whose integer part fits int64_t (and NaN, infinities); for all others the C cast is undefined, so the claim as stated is refuted. ToUint8Clamp holds for every double.
* **C36** << and >> hold when the operands fit int64_t; >>> is undefined behaviour for negative, large or non-finite operands and for counts outside 0..31 (exact characterisation proved).
* **C37** False as stated: rjs_add_waiter does not check why pthread_cond_wait returned, so a spurious wake-up returns ok without notification, and notify counts a waiter whose time is already over. Proved for every schedule: notify takes the oldest waiters in order and returns their number, the exact results of the waits, no lost wake-up and no use of freed waiters; and the claim itself without these two kinds of wake-ups.
* **C38** False as stated: load and store copy bytes under the mutex while the other operations are lock-free C11 atomics, so a load can return and a store can leave a torn value, and the two kinds race. Proved for every schedule of programs that do not mix the two kinds (with race freedom), and for all operations on one-byte elements under sequential consistency. Memory is sequentially consistent in the model.
* **C39** Proved for both search primitives and every method; lastIndexOf with a pattern longer than the text converts a negative double to size_t (undefined), shown by the _refuted theorem and characterised exactly.
* **C40** UTF-16 lexicographic strict total order; equality of contents is equality.
* **C41** pad proved in full. trim also removes U+0085, which is not ECMAScript white space (refuted); exact description and guarded theorem proved.
* **C42** Strings of UTF-16 units; the lexer's loops and the whole parser are modelled, the identifier classes of ICU are a parameter constrained on ASCII.
* **C43** The strictness claim is false of the code: C43_strict_refuted lists 19 non-JSON texts that are accepted and C43_undefined_refuted two that reach undefined behaviour. Proved instead: every JSON text is accepted with its value, the parser ends on every text, and the accepted texts are exactly those whose tokens follow the relaxed grammar rvalue.
* **C44** Full correctness when the match lies inside the subject; a custom exec result reaching past the end trips the range assertion for $' (refuted).
* **C45** User code runs in the argument conversions. The allocation of the temporary is assumed to succeed in C45_set_from_view (failure is an exception before any write).
* **C46** The code violates this when a token in use is registered again: the older registration is overwritten. Proved for all histories that do not reuse a token in use.
* **C47** The property is false for the code (same truncation as C02). The exact set of time values that round-trip is proved.
* **C49** Violated (undefined signed overflow) exactly on negative values congruent to 2^63 modulo 2^64, and when reading INT64_MIN back.
* **C50** Violated outside the int64 range; exact iff given.
* **C51** size_t overflow of n*length lets repeat write past its buffer (refuted); exact condition proved, and full correctness below 2^63 units.
* **C52** Separator without a Symbol.split method.
* **C55** Search values without Symbol.replace.
* **C56** Holds when the operands' integer parts fit int64_t; otherwise the cast in ToInt32 is undefined.
* **C57** All doubles.
* **C59** For operations that do not hit the crash of C05.
* **C60** Over all histories from the empty heap.
* **C61** Proved for trees without BigInt, replacer, toJSON or cycles; a number keeps the text of rjs_to_string, assumed to be a signed JSON number. Refuted part: a space argument of -Infinity or below -2^63 reaches an undefined conversion.
* **C62** The int line and column counters are unbounded in the model. Line and column are claimed for reads and for a push-back followed by a read, not after several push-backs.
* **C63** Array.prototype without index setters; fewer than 2^64-1 elements.
* **C64** False when an element calls both its functions (they do not share the already-called flag); proved when no element does.
* **C65** Refuted: a species constructor that returns a view of the same memory gives memcpy with overlapping operands, and on a SharedArrayBuffer a second lock of a non-recursive mutex. Guarded theorems give the exact result and when the fault occurs. The element-wise loop for different types is covered only by C33.
* **C66** Proved for timeouts below 2^64 milliseconds; from there on the conversion of the double to uint64_t is undefined behavior.
* **C67** Holds for a proxy of an ordinary object or array with any handler (C67_invariants) and for towers of proxies while no exception is lost (C67_nested_partial); refuted for a proxy of a proxy whose isExtensible trap throws: [[HasProperty]], [[Delete]] and [[GetPrototypeOf]] take RJS_ERR as true and go on.
* **C68** [[Call]] and [[Construct]] are not modelled; looking up and calling the trap, reading its result object and ToBoolean are the script.
* **C69** For patterns with back references the text has one code unit per character, or the flag u is absent; with u and pairs back references are in C70. The matcher is the one of the standard except for iterations that match the empty string (see C70).
* **C70** Equal answers when what is repeated with a choice cannot be empty, without i and without U+0085 in the text; whether there is a match agrees for all patterns without back references. Refuted for empty iterations and for back references with u.
* **C71** Leftmost match, lastIndex, captures, indices and names for every lastIndex on a character boundary. Refuted: groups without part are holes, lastIndex inside of a pair.
* **C72** Exact without i except for U+0085; with i for fair items. Refuted for ranges, \s, \w, Canonicalize and \p with i.
* **C73** Proved for every derivation without the constructs the code gets wrong, which are refuted one by one: [\w-], [\-] with u, properties in classes, a lead surrogate escape before \u{, numbers beyond the integer types, supplementary characters without u. C73_compile (both passes of rjs_regexp_initialize) lacks \k<name> without u; C73_grammar covers it for the second pass.
* **C74** Every text; C74_run with the condition of C69 (no surrogate pairs with u, or no back references).
* **C75** Flags exactly; the source is the text itself without /, LF and CR; refuted: a / that is escaped already, U+2028.
* **C77** Any closed finite graph, fuel at least its size; C77_witness, C77_witness_error.
* **C78** For graphs without top level await (that is C79).
* **C79** At most once and permanence hold for every run; order, absence of failed assertions and settlement are refuted by concrete graphs.
* **C80** Everything but: an ambiguous name always answers AMBIGUOUS (refuted for ambiguity below a star export).
* **C81** Keys are exactly the names that resolve; ambiguous ones can be among them because of C80.
* **C82** Script code, text to number conversion are parameters of the theorems; big integers are integers (C26 covers the limbs).
* **C83** False as stated: objects are converted with hint default, so dates compare as strings (C83_dates_refuted). C83_relational_actual gives the exact behaviour; C83_relational proves the claim for operands without @@toPrimitive.
* **C84** The arithmetic on doubles and the text conversions are parameters; running out of memory is left out.
* **C85** The operators are proved; false for Function.prototype[@@hasInstance] on a receiver that is not callable, and the left operand's variable is overwritten.
* **C86** Proved for all runs in which environments get exactly the bindings their scopes declare, at most 65536 per scope and chains below 65535, and no property of a global object is deleted.  Refuted when a direct eval adds variables or functions, when such a binding is deleted and when a global property is deleted.  Import bindings are not modelled.
* **C87** Proved when nothing still in use holds the old environment; refuted when a closure holds it and for functions with parameter expressions.
* **C88** Holds for every list of answers in which symbols come last, no index string is listed after another string and no name has both forms; refuted otherwise (names visited twice, hidden names shown, strings after a symbol left out).
* **C89** The answers to every sequence of operations are those of the specification, which determines them. Parameter bindings are taken to be present (a tail call that empties the environment is C87); getters, setters, the prototype and other receivers are answers, what they do are further operations.
* **C90** Every world whose lengths are at most 2^53-1. Violated for start indices outside int64_t (undefined behaviour), for IsArray errors that a get handler hides, and with ignores failed definitions; proved without these. flat: depths up to 2^53.
* **C91** copyWithin, fill, pop, push, reverse and shift in every world. splice and unshift do extra operations (refuted); on plain arrays without elements outside the length they leave the right contents.
* **C92** Equivalence in both directions for all function bodies that are fine: no return is left pending when a finally block jumps or throws into a catch, and iterators' return methods leave the error register alone (or there is nothing to close). Outside these conditions the interpreter differs; the five refutations show each kind. Generators, tail calls and register allocation are not modelled.
* **C93** Equivalence for scripts without catch clauses under the conditions of C92; with a catch clause the value of the try block leaks (refutation).
* **C94** Every accepted program has targets for its jumps. Every valid program is accepted unless a break in an else branch, catch or finally names a label of that if or try statement; those are rejected (refutation).
* **C96** Order, exactly-once answers and progress hold for all runs. The code is the standard machine with three deviations (C96_conforms_actual): a drained next(v) is answered with v, return f() is not awaited, an invalid return value during yield* is thrown in the body; without them it conforms (C96_conforms_guarded).
* **C97** Proved for all doubles except those with exponent 2..22 (2^54 to 2^75), where the claim is false (C97_refuted, C97_shortest_refuted); for those C97_text_actual gives what holds. The multi-precision arithmetic of rjs_dtoa.c is modelled by exact integers; its quick paths for small digit counts by the exact results.
* **C98** Exact behaviour proved (ties to even); agrees with the standard unless the number is a tie above an even digit string, where the claim is false (C98_fixed_refuted, C98_digits_refuted); the sign of -0 in toFixed is wrong (C98_zero_refuted).
* **C99** Proved for integers below 2^63; fractions and larger numbers violate the claim (C99_fraction_refuted, C99_undefined_refuted).

## 4. Findings

Defects of the code met while modelling.  Those with a property id have a `_refuted`
theorem that computes a concrete case in the model; the others were seen while reading
the code for the model and are outside the stated properties.

Numbers and BigInt
* C20: the magnitude subtraction never clears its borrow; `5n*2n**64n+5n*2n**32n - 1n` is wrong.
* C21: `-2n * (2n**32n+1n)` has the wrong sign, `(-5n)**1n` is `5n`, `1n**(2n**32n)` throws.
* C22: multi-limb division inherits the borrow defect, e.g. `(2n**200n+2n**100n-5n)/(2n**64n+3n)`; other operands need an enormous number of iterations.
* C24: `-0xffffffff00000001n >> 32n` is `-1n`, `-0xffffffffn << 1n` is `-4294967294n`, `0n << 2n**32n` throws.
* C25: `BigInt.asUintN(64,-1n)` and `BigInt.asIntN(64,-1n)` are `0xffffffffn`.
* C49: INT64_MIN from and to BigInt overflows a signed integer.  C50: `Number(2n**64n)` is 0.
* C35, C36, C56: ToInt32 and relatives cast through int64_t, undefined for magnitudes from 2^63; `>>>` casts straight to uint32_t and does not mask its count.
* C32: storing a number of magnitude 2^63 or more in an integer element, and reading -2^63 from a BigInt64 element, is undefined.

Dates
* C02, C47: time-of-day getters truncate toward zero for negative time values.

Strings, URI, text
* C04: "01" and " 1 " alias the index 1.  C41: trim removes U+0085.
* C39: `"a".lastIndexOf("ab")` converts a negative double to size_t.
* C51: size_t overflow in repeat leads to a heap overflow.
* C44: `$'` with a match that ends after the subject trips an assertion.
* C31: `decodeURI("%4")` reads past the string; overlong, surrogate and out-of-range UTF-8 is accepted.
* C29: utf8_from_uc ignores the remaining room (ENC_CONV=internal).

Objects and collections
* C05: storing a small index while the tree form is empty writes through NULL (`o={};o[100]=1;delete o[100];o[0]=1`).
* C13: Array.prototype setters run in the middle of an iterator step; the key -0 is not normalised and hash_op_value_key converts a double to size_t.
* C16: values of weak maps are not scanned (use after free).  C46: registering a token in use loses the older registration.
* gc_scan_count is never incremented (reading only).

JSON and input
* C43: 19 kinds of non-JSON text are accepted; `JSON.parse("-1n")` trips an assertion, `"\u{1100000}"` shifts a negative value.
* C61: a space argument of -Infinity is converted to ssize_t.
* Getters are called twice by serialize_json_object; json_parse_error passes a va_list to a variadic function; recursion depth is unbounded (reading only).
* C62 witness: pushing several characters back over a line break leaves a wrong line and a negative column.

Jobs and promises
* C17: solveJobs() called from a job runs the current job twice and frees its node twice.
* C64: the two element functions of Promise.allSettled do not share the already-called flag.
* The executor made by rjs_new_promise_capability keeps pointers into the value stack of its caller, and its record has no scan function (reading only).

Buffers and Atomics
* C65: TypedArray slice with a species constructor returning a view of the same memory uses memcpy on overlapping ranges, and locks a non-recursive mutex twice on shared memory.
* C38: load and store copy bytes under a mutex that the read-modify-write operations do not take.
* C37: a spurious wake-up returns "ok".  C66: timeouts from 2^64 ms are undefined.
* Atomics.add and its relatives take the element address before converting the value and do not check again for detachment; Atomics.wait on BigInt64Array compares an unwrapped BigInt (reading only).

Proxies
* C67: [[HasProperty]], [[Delete]] and [[GetPrototypeOf]] of a proxy test the result of the target's isExtensible only for truth; if the target is a proxy whose isExtensible trap throws, RJS_ERR counts as true, the exception stays pending and an invariant is broken.
* pkl_from_object reserves room for `length` keys (up to 2^53-1) before reading any of them (reading only).

Regular expressions
* C70: an iteration that matches the empty string ends the loop and is kept instead of failing: /(a*)*/.exec("b") gives ["", ""] (standard: ["", undefined]), /(?:|a)*/ matches "" of "a" (standard: "a").  Whether there is a match is not affected unless back references look at the captures.
* C70: back references compare code units even with u: /(\ud83d)\1/u matches half of a pair; with iu the case of supplementary characters is not folded.
* C71: a group that took no part gives a hole in the result array (no property is created), not an element undefined.
* C71: with u and lastIndex between the halves of a pair the code matches the trail unit alone.
* C72: with i a range is compared by the canonical forms of its ends: /[A-z]/i misses "_", /[Z-a]/i matches nothing.
* C72: \s accepts U+0085; /\w/iu misses U+017F and U+212A; /s/i accepts U+017F (Canonicalize lacks the rule against mapping into ASCII); /\p{Lu}/iu tests only the folded character.
* C73: /[\w-]/ and /[\-]/u are rejected; /\ud83d\u{61}/u is rejected; /(?<a>x)\k<\u{61}>/ is rejected because the first pass (without named groups) reads the \u.
* C73: in a class only the first member of a property escape is copied, the value of [\p{..}] is uninitialised; without u the pair of a supplementary character is read as one character that no code unit equals (/😀/ never matches).
* C73: bounds above 2^63-1 and back references above 2^31-1 overflow; isalpha is called with characters above 255 in \p{..}.
* C75: the source of /\// is `\\/` (a / is escaped again), a backslash before a line terminator changes its meaning, U+2028 and U+2029 are not escaped.

Modules
* C79: gather_available_ancestors already counts down the parents of a module without top level await; execute_valid_modules calls itself again for that module after executing it, so its parents are counted down twice.  A module can start while another module it requests still awaits; its promise is resolved too early, and if the awaiting module rejects later an assertion fails.
* C79: if the parent has top level await, or its count is 0 already, the second count trips assert(pmod->pending_async > 0).
* C79: a module without top level await executed by execute_valid_modules keeps async_eval; a later import of it, or of a module requesting it, waits for ever.
* assert(!undefined(eval_error)) in execute_valid_modules fails when a module throws undefined (reading only).
* module_load_req_result sets RJS_MODULE_STATUS_UNLINKED even after a request failed to load (reading only).
* load_json_module links a module that is only allocated, which trips the assertion of inner_module_link (reading only).
* C80, C81: resolve_export takes an AMBIGUOUS answer for a star export as a binding; a name that is ambiguous in a module resolves in a module that has `export *` from it, and is a key of its namespace object.

Operators
* C83: do_bc_compare converts both operands with the hint "default" in place of "number"; so two Date objects are compared by their strings: a Thursday is not < the following Friday.
* C85: Function.prototype[@@hasInstance] does not test whether this is callable: on a receiver that is not an object the assertion of rjs_object_get fails, on an object that is not a function a TypeError is thrown; the standard answers false.
* C85: rjs_ordinary_has_instance overwrites the value of its caller with objects of the prototype chain (compiled code passes a fresh register, so scripts do not see it).

Environments
* C86: every new environment starts with its cache on, although an enclosing environment was changed by eval: `var x = 1; function f(s) { eval(s); function g() { return x } return g() } f(""); f("var x = 2")` gives 1 (standard: 2).
* C86: with the cache of the innermost environment off, the enclosing environments still use a binding index cached for another environment: the wrong variable is read, or memory behind the binding vector.
* C86: functions declared by eval do not switch the cache off; rjs_delete_binding returns before it would, so a deleted binding is read after it was freed; a global property that was deleted reads as undefined instead of a ReferenceError.
* C87: `return f(...)` inside f empties the environment of the running call even when a closure holds it: `function f(n, g) { if (n == 0) return g(); return f(n - 1, () => n) } f(1)` gives 0 (standard: 1).
* C87: in a function with parameter expressions the variable environment is a plain declarative environment; rjs_function_env_clear writes to it as to a function environment.

for-in
* C88: comparing an index string with another string replaces it by a plain string in place, which has another hash code, both for the entry of the table and for the key that is looked up.  With four names or more, names are visited twice: `for (k in Object.setPrototypeOf({a:1,b:1,c:1,d:1}, {10:1}))` gives a, b, c, d, 10, 10.
* C88: for the same reason a property that is not enumerable does not hide an enumerable index property of a prototype.
* C88: the loop over the keys stops at the first symbol; a proxy that lists a symbol before a string loses the string.
* for-in calls rjs_get_iterator on its iterator, so scripts that replace %IteratorPrototype%[@@iterator] are called (reading only).

Array methods
* C90: indexOf, includes and lastIndexOf convert the start index to int64_t before comparing it: `[1].indexOf(1, 2**63)`, `[1].lastIndexOf(1, -(2**64))` and `[1].with(Infinity, 0)` are undefined behaviour (standard: -1, -1, RangeError).
* C90: rjs_array_species_create takes an error of IsArray for true; a proxy with its own `get` around a revoked proxy makes slice succeed after an exception was set.
* C90: with ignores the result of rjs_create_data_property_or_throw.
* C91: splice moves elements up to the old length instead of the old length less the removed ones, so it reads and deletes elements behind the length: `Array.prototype.splice.call({0:0,1:1,2:2,length:2}, 0, 2, 5)` deletes element 2.
* C91: splice and unshift, when inserting, do one round too many: they test index start-1 (or "-1") and set or delete the index start+n-1; `a.unshift(x)` and `a.splice(0,0,x)` throw a TypeError if a[0] cannot be deleted although it is writable.

Statements
* C92: break and continue out of a finally block do not cancel a pending return: `function f() { while (true) { try { return 4 } finally { break } } }` returns 4 (standard: undefined).
* C92: a return that was replaced by an exception which is then caught still sets the return value: `function f() { try { try { return 5 } finally { throw 3 } } catch {} }` returns 5 (standard: undefined).  The same happens when closing an iterator throws: `try { for (x of y) return 5 } catch {}`.
* C92: if a finally block entered by a throw leaves a for-of loop whose iterator throws when it is closed, the old error is reported and the new one is lost.
* C92: an iterator's return method that catches an exception of its own clears the error register: `try { for (x of y) throw 3 } catch (e) { return e }` returns undefined (standard: 3).
* C93: `eval("try { 5; throw 3 } catch {}")` is 5 (standard: undefined).
* C94: `L: if (c) ; else break L`, `L: try {} catch { break L }` and `L: try {} finally { break L }` are rejected.
* parse_try_stmt calls decl_pop after `catch {` without a parameter although nothing was pushed; rjs_enum_state_push ignores a failing rjs_for_in_iterator_new (reading only).
* The allocation of registers by the last offset where a register is used ignores loops through finally blocks: `eval("do { try {} finally { try { 5; break } finally { 6 } } } while (0)")` gives 6 (reading only).

Generators
* C96: a request `next(v)` still queued when the body ends is answered with {value: v, done: true} (standard: undefined).
* C96: `async function* g() { return f() }` does not await the result of f, because tail calls are not awaited: the request gets {value: the promise, done: true}.
* C96: during yield*, `return(v)` whose value cannot be made a promise (a promise with a throwing `constructor` getter) throws in the body; the standard calls the inner iterator's throw.
* A request is taken from the queue only after its promise was resolved; a getter `then` on Object.prototype that calls a method of the generator meets it again or fails an assertion (reading only).
* The error register stays set after a failing async body; bc_generator_start ignores the result of rjs_generator_start (reading only).
* `return v` inside a for-await loop returns undefined: await_pop_async_iter_state gives RJS_RETURN and rjs_bc_call copies its own rv over the return value.  An exception inside a for-await loop is replaced if the iterator's return method rejects or gives no object (reading only).

Number texts
* C97: on the path for numbers that dtoa takes as exactly representable (2^54 to 2^75) the comparison with half a unit in the last place accepts equality, also for odd significands: `String(18014398509482012)` is "18014398509482010", which reads back as 18014398509482008.  For even ones it goes on although it could stop: `String(36028797018963984)` has 17 digits, "36028797018963980" would do.
* C98: ties are rounded to even (ROUND_BIASED_without_Round_Up is not set): `(2.5).toFixed(0)` is "2", `(25).toPrecision(1)` and `(25).toExponential(0)` are "2e+1" (standard: 3).
* C98: `(-0).toFixed(2)` is "-0.00" (standard: "0.00").
* C99: numbers that are not integers ignore the radix: `(0.5).toString(2)` is "0.5".
* C99: NaN, the infinities and numbers from 2^63 are converted to int64_t, which is undefined; -2^63 is negated in int64_t.

Expressions
* C100: `new new X()()` is read as `(new (new X()))()`: the outer `new` of `new new` takes no arguments.
* C100: `new super.x()` is rejected (`super` has a lower priority than the operand of `new`).
* C100: `delete a?.b` is rejected in strict mode.
* C101: `(a,)` and `(a, b,)` are accepted as expressions.
* C101: `new a?.b()` is accepted.
* C102: simplification returns the operand itself: `(true && o.m)()` calls with `this` = o, `(true ? x : y) = 5` and `(true && x) = 5` are accepted, `typeof (true && undeclared)` does not throw, strict `delete (true && x)` is rejected.
* C102: `undefined ?? x` is x also where `undefined` is a local binding with another value.
* parse_ques_expr compares its result with RJS_FALSE where RJS_ERR is meant; parse_async_arrow_params always returns RJS_OK; the operand of `yield` cannot begin with a private name (`yield #x in o`) (reading only).

Numbers in texts
* C103: `Number("+ 5")` is 5 and `Number("- Infinity")` is -Infinity: white space (and comments) between sign and number are skipped.
* C103: comments are skipped: `Number("1//")` is 1, `Number("/**/")` is 0; also for BigInt (C104).
* C103: escapes are read: `Number("\\u0049nfinity")` is Infinity.
* C103, C104, C106, C107: U+0085 is taken for white space.
* C103, C106: integers with a radix other than 10 are rounded after every digit: `Number("0x200000000000011")` is 2^57 instead of 2^57 + 32.
* C103, C107: rjs_strtod cuts exponents at 19999, which is wrong for texts with more digits than that; the sum of the exponent digits is a C int and overflows for exponents from 2^31 (undefined).
* C106: parseInt with radix 10 or 0 uses rjs_strtod: `parseInt("3.7")` is 3.7, `parseInt("1e3")` is 1000, `parseInt(".5")` is 0.5.
* C106: `parseInt("0x")` is 0 and `parseInt("-", 16)` is -0 instead of NaN; a value that overflows is NaN instead of Infinity.
* C107: `parseFloat("1e309")` is NaN instead of Infinity; `parseFloat("Infinity")` is NaN when errno is still ERANGE from an earlier call; `parseFloat("Inf")` and `parseFloat("INF")` are Infinity.
* C108: 18014398509482012 comes back from its text as another number (the text is the one of C97).
* C105: `010.5` is read as the number 10.5 (it is 8 followed by .5, a syntax error) and `010e5` as 1000000; `010.a`, a property of 8, is rejected.
* C105: `09.5_1` is rejected, although the fraction may have separators.

Literals in programs
* C109, C110: `"\u{}"` is accepted and is U+0000; in a template the cooked text is U+0000 instead of undefined.
* C110: `\u{1100000}` in a template: after the value is too large the code sets it to -1 and shifts the -1 left for the next digit (undefined).
* C111: a backslash inside a class does not escape: `/[\]/]/` is read as `/[\]/` followed by `]/`.

Math
* C117: `(-0) ** (2 ** 63)` and `(-Infinity) ** (2 ** 63)` cast the exponent to int64_t (undefined).
* C118: Math.clz32 and Math.imul of numbers from 2^63 on are undefined (the conversion of C35).
* C119: Math.random() is 1 when rand() returns RAND_MAX.
* By reading: Math.hypot leaks its vector when the conversion of an argument throws.

Iterators
* C120: `new Set(it)`, `new Map(it)` and Object.fromEntries call `it.return` when `it.next`, `done` or `value` throws; the standard does not close an iterator that failed.
* C121: so does Array.from; it also calls return after the iterator has ended when the length of the result cannot be set.
* C123: `[...a] = it` calls return when the getter `value` of a result throws.
* C124: an array iterator that has returned `done: true` goes on when the array grows; one whose getter threw is not finished.

White space
* C125: U+0085 (NEL) is skipped as white space because the ICU property White_Space contains it; it is not WhiteSpace of the language (12.2) and must be a SyntaxError.

Functions of Object
* C127: `if ((r = RJS_OK) && ...` (rjs_object_object_inc.c:119) assigns instead of comparing: Object.defineProperties and Object.create lose an error of [[GetOwnProperty]] and take an absent property for enumerable if the one before was.
* C127: Object.defineProperties defines each property at once, so that a wrong descriptor leaves those before it defined; the standard reads all descriptors first.
* C130: Object.prototype.toString cuts a toStringTag at its first U+0000.

Typed arrays
* C132: [[Set]] ignores the receiver: `Reflect.set(array, 0, 5, obj)` and `Object.create(array)[0] = 5` write the element of the array.
* C132: the keys of a typed array with a detached buffer still contain all indices.

Global environment
* C134: delete of a name that the global object only inherits (`delete toString`) answers false; the standard answers true.
* C135: `with ({x: 1}) eval("var x")` is a SyntaxError, because object scopes are tested too; an exception of such a test (RJS_ERR) also counts as a clash.

Errors and functions
* C140: AggregateError makes an ordinary object (rjs_error.c:531), not one with `error_ops` as the other constructors do (rjs_error.c:383), so Object.prototype.toString gives `[object Object]` for it where the standard gives `[object Error]` (20.1.3.6, 20.5.7.1.1).
* By reading: Function.prototype.toString of a function without source reads the property `length` (rjs_function_object_inc.c:243), which can run a getter or throw, and appends one parameter name per unit of it; a `length` of 2^31-1 asks for a text of many gigabytes. The standard reads no property (20.2.3.5).

## 5. Assumptions per theorem

`Print Assumptions` is run in the Properties file after every theorem named in
MANIFEST.json.  The result is `Closed under the global context` for each of the 618
theorems below: no axiom is used, neither of the standard library nor of this
development.

* ArgsProperties.v: C89_arguments_are_standard, C89_arguments_determined
* AtomProperties.v: C38_linearizable_guarded, C38_no_race_guarded, C38_progress, C38_torn_load_refuted, C38_torn_store_refuted, C38_race_refuted
* BigProperties.v: C20_add_exact_iff, C20_sub_exact_iff, C20_add_sub_small, C20_negate_inc_dec_not, C20_sub_exact_refuted, C20_add_exact_refuted, C21_mul_exact_iff, C21_exp_exact_iff, C21_mul_exact_refuted, C21_exp_exact_refuted, C21_exp_of_one_throws_refuted, C22_div_zero_throws, C22_div_exact_partial, C22_div_small_exact, C22_div_exact_refuted, C22_div_prompt_refuted, C23_bitwise_twos_complement, C23_bitwise_bits, C24_shift_exact_iff, C24_shift_nonnegative, C24_shift_far, C24_shift_right_refuted, C24_shift_left_refuted, C24_shift_zero_refuted, C25_as_uint_iff, C25_as_int_iff, C25_signed_representative, C25_as_uint_refuted, C25_as_int_refuted, C26_compare_order, C26_same_value_equal, C26_compare_number, C26_compare_special, C26_number_to_bigint_exact, C27_to_string_canonical, C27_text_round_trip, C27_parse_value, C28_every_integer_has_normal_form, C28_operations_normal, C28_division_normal, C28_shift_power_normal, C28_conversions_normal, C28_normal_unique, C49_int64_round_trip, C49_uint64_round_trip, C49_to_int64_iff, C49_wrap64_representative, C49_int64_min_refuted, C49_from_int, C50_number_of_bigint_iff, C50_number_of_bigint_refuted
* BoundProperties.v: C138_call, C138_construct, C138_no_constructor, C138_bind, C138_length
* BufProperties.v: C32_store_load_guarded, C32_store_frame, C32_load_meaning, C32_load_store, C32_byte_order, C32_load_defined, C32_min_element_refuted
* DateProperties.v: C01_calendar_epoch, C01_calendar_step, C01_calendar_fields_valid, C01_utc_round_trip, C01_utc_two_digit_year, C01_make_day_carry, C01_time_value_rebuilt, C01_time_value_fields_rebuild, C01_day_division_exact, C01_utc_huge_year_overflow_refuted, C02_time_fields_in_range, C02_time_fields_recombine_iff, C02_time_fields_negative_refuted, C47_iso_round_trip_iff, C47_iso_round_trip_negative_refuted
* DescProperties.v: C127_plain_partial, C127_actual, C127_order_refuted, C127_error_refuted, C127_absent_refuted, C128_own_properties, C128_own_keys, C128_assign, C129_to_descriptor, C129_from_descriptor, C129_define_property, C129_get_descriptor, C129_get_descriptors, C130_to_string_partial, C130_to_string_refuted
* DtoaProperties.v: C97_text_partial, C97_text_actual, C97_refuted, C97_shortest_refuted, C97_special, C97_buffer, C98_fixed_actual, C98_fixed_partial, C98_fixed_refuted, C98_zero, C98_zero_refuted, C98_other, C98_exponential_actual, C98_exponential_partial, C98_exponential_all, C98_precision_actual, C98_precision_partial, C98_digits_refuted, C98_buffer, C99_integer_partial, C99_actual, C99_other, C99_fraction_refuted, C99_undefined_refuted
* EnvProperties.v: C86_cache_transparent, C86_no_wild_access, C86_stale_index_refuted, C86_wrong_variable_refuted, C86_out_of_bounds_refuted, C86_eval_function_refuted, C86_deleted_binding_refuted, C86_deleted_property_refuted, C87_reuse_unseen, C87_captured_refuted, C87_plain_env_refuted
* ErrProperties.v: C140_steps, C140_aggregate_steps, C140_error, C140_aggregate_partial, C140_aggregate_kind_refuted, C140_text
* ExprProperties.v: C100_expression_accepted, C100_parser_answers, C100_tree_unique, C100_new_super_refuted, C100_new_new_refuted, C100_delete_chain_refuted, C101_only_expressions, C101_parser_exact, C101_trailing_comma_refuted, C101_new_chain_refuted, C102_values_kept, C102_receiver_refuted, C102_target_refuted, C102_typeof_refuted
* FlowProperties.v: C92_function_body, C92_stack_discipline, C92_finally_jump_refuted, C92_stale_return_refuted, C92_stale_close_refuted, C92_old_error_refuted, C92_lost_error_refuted, C93_completion_value, C93_stack_discipline, C93_catch_value_refuted, C94_accepted_valid, C94_valid_accepted, C94_label_refuted
* ForInProperties.v: C88_for_in_is_standard, C88_for_in_once, C88_for_in_static, C88_for_in_once_refuted, C88_for_in_shadow_refuted, C88_symbol_first_refuted
* GapProperties.v: C125_every_text, C125_token_partial, C125_end, C125_open_comment, C125_hashbang_partial, C125_no_hashbang, C125_white_space_refuted, C126_newline_before, C126_newline_before_end, C126_line
* GcProperties.v: C14_reachable_things_survive, C15_only_reachable_things_stay, C15_collections_in_a_history, C16_weak_map_value_kept_refuted, C16_weak_map_value_actual, C46_each_registration_honoured_refuted, C46_each_registration_honoured_fresh_tokens, C46_every_fresh_history_is_described, C60_weak_references_never_dangle, C60_entries_disappear_exactly_with_their_things
* GenProperties.v: C95_conforms, C95_no_assertion, C95_finished, C96_conforms_actual, C96_conforms_guarded, C96_answers_in_order, C96_no_assertion, C96_nothing_forgotten, C96_drained_refuted, C96_tail_refuted, C96_star_refuted
* GlobProperties.v: C133_syntax_error, C133_type_error, C133_declared, C133_outcomes, C134_state, C134_answer_partial, C134_answer_refuted, C135_found, C135_exact_partial, C135_exact_refuted
* HashProperties.v: C11_hash_table_is_finite_map
* IntObjProperties.v: C131_get_own, C131_get, C131_define_own, C131_has_delete, C131_other_keys, C132_set_partial, C132_keys_partial, C132_set_refuted, C132_keys_refuted
* IterProperties.v: C120_set_partial, C120_map_partial, C120_entries_partial, C120_actual, C120_refuted, C121_from_partial, C121_actual, C121_refuted, C122_from_like, C122_of, C122_list, C123_element, C123_rest_partial, C123_rest_refuted, C124_until_over_partial, C124_stays_over_partial, C124_resumes_refuted
* JobProperties.v: C17_jobs_fifo_exactly_once, C17_jobs_drain_terminates, C17_reentrant_drain_refuted
* JsonProperties.v: C42_quote_conforms, C42_quote_literal, C42_quote_read_back, C42_lexer_read_back, C43_accepts_json, C43_terminates, C43_value_unique, C43_actual, C43_strict_refuted, C43_undefined_refuted, C43_string_token_closed, C61_stringify_json, C61_round_trip, C61_undefined, C61_number_gap, C61_gap_refuted, C61_string_gap, C62_characters_exist, C62_get_unget, C62_reread, C62_location, C62_list_view
* KeyProperties.v: C04_same_key_iff_actual, C04_same_key_guarded, C04_every_name_resolves, C04_index_key, C04_index_key_prints_back_guarded, C04_same_key_refuted
* LexNumProperties.v: C103_convert_partial, C103_complete, C103_sign_refuted, C103_comment_refuted, C103_escape_refuted, C103_space_refuted, C103_radix_refuted, C104_convert_partial, C104_complete, C104_refuted, C106_parse_int_partial, C106_radix, C106_never_infinite, C106_fraction_refuted, C106_exponent_refuted, C106_empty_refuted, C106_overflow_refuted, C106_rounding_refuted, C107_parse_float_partial, C107_parse_float_total, C107_overflow_refuted, C107_errno_refuted, C107_infinity_refuted, C108_round_trip_partial, C108_refuted
* LexNumSourceProperties.v: C105_sound_partial, C105_complete_partial, C105_octal_refuted, C105_octal_property_refuted, C105_separated_refuted, C105_radix_refuted
* LexTabProperties.v: C112_longest, C112_total, C113_table, C113_reserved
* LexTextProperties.v: C109_string_actual, C109_string_partial, C109_empty_braces_refuted, C110_template_partial, C110_raw, C110_undefined, C110_empty_braces_refuted, C110_undefined_refuted, C110_property_refuted, C111_regexp_partial, C111_complete, C111_class_refuted, C114_braces
* MapIterProperties.v: C13_map_iteration_is_log_cursor, C13_cursor_yields_next_present_entry, C13_setter_use_after_free_refuted, C13_setter_skips_entry_refuted
* MathProperties.v: C115_reads_unique, C115_max, C115_min, C116_round, C116_sign, C116_classes, C117_power_partial, C117_power_refuted, C118_clz32_partial, C118_imul_partial, C118_large_refuted, C119_random_partial, C119_random_refuted
* MethProperties.v: C90_reading_methods, C90_search_methods, C90_with, C90_search_refuted, C90_negative_refuted, C90_species_refuted, C91_changing_methods, C91_splice_contents, C91_unshift_contents, C91_splice_refuted, C91_insert_refuted
* ModProperties.v: C77_link_correct, C78_evaluate_correct, C78_programs, C79_started_at_most_once, C79_results_stay, C79_starts_after_requested_refuted, C79_no_assertion_fails_refuted, C79_every_import_settles_refuted
* NumProperties.v: C35_to_int_modular_guarded, C35_truncated_unique, C35_to_int_large_refuted, C35_to_uint8_clamp, C36_left_shift_guarded, C36_signed_right_shift_guarded, C36_unsigned_right_shift_actual, C36_unsigned_right_shift_refuted, C56_bitwise_guarded, C56_bitwise_large_refuted, C57_to_index, C57_to_index_undefined, C57_to_integer_or_infinity
* ObjProperties.v: C06_length_bounds_every_index, C07_truncation_exact, C07_fixed_length_is_final, C08_non_configurable_stable, C09_acyclic, C09_cycle_refused, C09_other_accepted, C10_prevent_extensions, C10_non_extensible_is_final, C48_own_keys_in_order, C48_orders_total, C58_freeze_seal, C58_is_frozen_sealed, C59_define_property_conforms
* OpProperties.v: C82_loose_equality, C82_strict_equality, C82_inequality, C83_relational_actual, C83_relational, C83_dates_refuted, C84_addition, C84_arithmetic, C85_instanceof, C85_typeof, C85_not_callable_refuted, C85_operand_refuted
* PrivProperties.v: C136_names, C136_brand, C137_get, C137_set, C137_initialize, C137_twice, C137_field, C137_in, C137_occupied
* PromiseAllProperties.v: C63_all_calls_resolve_once, C63_any_calls_reject_once, C64_settled_partial, C64_settled_refuted, C64_settled_never_refuted
* PromiseProperties.v: C18_no_assertion_fails, C18_settled_at_most_once, C18_settled_stays, C18_later_calls_ignored, C18_first_call_decides, C18_then_answer_decides, C19_jobs_are_due_jobs, C19_promise_jobs_in_order, C19_exactly_once, C19_asynchronous, C19_capability_at_most_once, C19_capability_when_done, C19_handler_result, C19_no_handler, C19_handler_called
* ProxyProperties.v: C67_invariants, C67_nested_partial, C67_has_refuted, C67_delete_refuted, C67_proto_refuted, C68_get_prototype_of, C68_set_prototype_of, C68_is_extensible, C68_prevent_extensions, C68_get_own_undefined, C68_get_own_object, C68_define, C68_has, C68_get, C68_set, C68_delete, C68_own_keys, C68_refusals, C68_no_trap, C68_revoked
* RbtProperties.v: C12_history, C12_order, C12_put, C12_drop, C12_lookup, C12_visit, C12_neighbours, C12_ends, C12_insert_frame, C12_remove_frame, C12_height, C12_store_find, C12_store_insert, C12_store_remove, C12_store_last
* RegParseProperties.v: C73_grammar, C73_compile, C73_one_tree, C73_last_dash_refuted, C73_escaped_dash_refuted, C73_class_property_refuted, C73_lead_escape_refuted, C73_escaped_name_refuted, C73_overflow_refuted, C73_pair_refuted, C74_ends, C74_tree, C74_run, C75_flags, C75_source, C75_source_refuted
* RegProperties.v: C69_machine_answer, C69_deterministic, C69_never_bad, C69_memory, C69_language, C70_conforms, C70_found, C70_empty_iteration_refuted, C70_unicode_back_reference_refuted, C71_exec, C71_past_end, C71_exec_conforms, C71_holes, C71_undefined_capture_refuted, C71_half_pair_refuted, C72_members, C72_canonicalize, C72_ignore_case_class, C72_ignore_case_char, C72_ignore_case_dot, C72_range_refuted, C72_space_refuted, C72_word_refuted, C72_canonicalize_refuted, C72_property_refuted
* ResProperties.v: C80_resolve_export, C80_names_checked_at_linking, C80_ambiguous_refuted, C81_namespace_names, C81_namespace_get, C81_no_ambiguous_names_refuted
* SortProperties.v: C03_sort_any_comparator_permutation, C03_sort_sorted_stable, C03_array_sort_correct, C03_array_sort_throw_unchanged, C03_array_sort_total, C03_typed_array_default_order, C03_typed_array_default_exact
* StoreProperties.v: C05_never_crashes_refuted, C05_crash_exactly, C05_finite_map
* StrProperties.v: C39_index_of, C39_last_index_of, C39_js_indexOf, C39_js_includes, C39_js_startsWith, C39_js_endsWith, C39_js_lastIndexOf_guarded, C39_js_lastIndexOf_undefined, C39_js_lastIndexOf_refuted, C40_compare_less, C40_compare_greater, C40_compare_equal, C40_content_equal, C40_strict_total_order, C41_trim_actual, C41_trim_guarded, C41_trim_refuted, C41_trimmed_unique, C41_pad, C51_repeat_guarded, C51_repeat_bad_count, C51_repeat_unsafe_iff, C51_repeat_refuted, C52_split, C52_split_join, C52_split_units, C52_split_limit_zero_or_undefined, C53_iteration, C53_codePointAt, C53_codePointAt_outside, C53_fromCodePoint, C53_round_trip, C54_slice, C54_slice_limits, C54_substring, C54_at, C54_charAt, C54_charCodeAt
* SubstProperties.v: C44_substitution_guarded, C44_expansion_unique, C44_substitution_refuted, C55_replace, C55_template_in_bounds, C55_replaceAll_template, C55_replaceAll_function, C55_matches_unique
* SymRegProperties.v: C139_safe, C139_stable, C139_injective, C139_unregistered, C139_collect
* UriProperties.v: C30_encode_decode, C30_lone_surrogate, C30_first_lone_surrogate, C31_refuted, C31_out_of_bounds_refuted, C31_overlong_refuted, C31_surrogate_refuted, C31_range_refuted, C31_decodes_well_formed_guarded, C31_accepted_actual, C31_out_of_bounds_actual, C31_rejected_actual
* UtfProperties.v: C29_convert_exact, C29_round_trip, C29_bounded, C29_to_buffer, C29_buffer_overflow_refuted, C29_overflow_actual, C29_to_buffer_utf8_guarded, C29_unpaired_surrogates
* ValProperties.v: C34_box_round_trip, C34_box_injective, C34_scan_exact, C34_forged_patterns, C34_buffer_never_forges, C34_stack_pointers
* ViewProperties.v: C33_views_in_bounds, C33_views_fit, C33_data_view_get, C33_data_view_set, C33_element_get, C33_element_set, C33_detached, C45_copy_within, C45_set_from_view, C65_slice_same_type, C65_slice_guarded, C65_slice_overlap_refuted
* WaitProperties.v: C37_notify_exact, C37_results_actual, C37_matched_guarded, C37_no_lost_wakeup, C37_compare, C37_no_use_after_free, C37_spurious_refuted, C37_late_refuted, C66_deadline_guarded, C66_infinite, C66_huge_refuted
