{"claims": [
 {"property": "C01", "status": "proved", "theorems": ["C01_add_sub_mul_unm_wrap", "C01_idiv_mod_floor", "C01_division_by_zero_is_an_error", "C01_bitwise", "C01_dispatch"], "note": "all 64-bit operands; division by zero is an error"},
 {"property": "C02", "status": "partial", "theorems": ["C02_shl", "C02_shr_partial", "C02_shr_refuted"], "note": ">> by math.mininteger negates the minimum integer, which is undefined in C (C02_shr_refuted); every other count is proved"},
 {"property": "C03", "status": "proved", "theorems": ["C03_lt", "C03_le", "C03_eq", "C03_order", "C03_nan"], "note": "all integers and all 64-bit floats, NaN and infinities included"},
 {"property": "C04", "status": "proved", "theorems": ["C04_convert", "C04_floor", "C04_ceil", "C04_special", "C04_exist"], "note": "all floats and all three rounding modes, math.floor and math.ceil"},
 {"property": "C05", "status": "partial", "theorems": ["C05_generic_partial", "C05_special_partial", "C05_trip_unique", "C05_trip_count", "C05_variant_partial", "C05_end_refuted", "C05_nan_limit_refuted", "C05_const_step_refuted", "C05_hash_limit_refuted"], "note": "exact for every loop whose first value beyond the limit fits 64 bits; loops up to math.maxinteger do not end (C05_end_refuted), a NaN limit with a negative step runs (C05_nan_limit_refuted), literal steps are truncated to int (C05_const_step_refuted), limits starting with # must be integral (C05_hash_limit_refuted); loops over floats are not modelled"},
 {"property": "C06", "status": "proved", "theorems": ["C06_map", "C06_set", "C06_after_total", "C06_hash"], "note": "for every hash function and every history of at most 2^30 assignments; allocation never fails in the model"},
 {"property": "C07", "status": "proved", "theorems": ["C07_same", "C07_distinct", "C07_bad"], "note": "all floats, by their exact values"},
 {"property": "C08", "status": "proved", "theorems": ["C08_next", "C08_ends", "C08_float_key_refuted"], "note": "traversals from nil with interleaved assignments to existing fields and collections; next with a float key that equals an array index is an error (C08_float_key_refuted), but next never delivers such a key"},
 {"property": "C09", "status": "proved", "theorems": ["C09_border", "C09_sequence"], "note": "every reachable table, including the linear search fallback"},
 {"property": "C10", "status": "proved", "theorems": ["C10_optimal"], "note": "the size is optimal for the keys in use and the key being inserted; C06_set shows that the entries are preserved"},
 {"property": "C11", "status": "partial", "theorems": ["C11_refines_partial", "C11_promised", "C11_index_refuted", "C11_fixed_refuted", "C11_size_refuted"], "note": "all histories of creation, slicing, reads, writes, # and next refine lists of elements for indices below 2^32; an index of 2^32+i is taken as i (C11_index_refuted), a fixed-size array of fewer than 12 elements can be grown by assignment (C11_fixed_refuted), sizes are truncated to int (C11_size_refuted)"},
 {"property": "C12", "status": "partial", "theorems": ["C12_alias_partial", "C12_parent_fixed_refuted", "C12_range_refuted"], "note": "aliasing holds in every later state and slices never dangle; the parent can still grow (C12_parent_fixed_refuted) and out-of-int arguments are truncated (C12_range_refuted)"},
 {"property": "C13", "status": "partial", "theorems": ["C13_table", "C13_array_partial", "C13_array_refuted"], "note": "Proved for Lua tables with any number of list items, record fields in between and a last expression with any number of values. For typed arrays proved up to 50 list expressions and refuted beyond: the second batch reads wrong registers."},
 {"property": "C14", "status": "proved", "theorems": ["C14_encode", "C14_char", "C14_char_rejects", "C14_roundtrip", "C14_prefix_free"], "note": "all code points below 2^31, all argument lists; round trip through codepoint in strict and lax mode"},
 {"property": "C15", "status": "partial", "theorems": ["C15_decode_sound", "C15_decode_complete", "C15_decode_total_partial", "C15_decode_total_refuted", "C15_len_partial", "C15_len_encode", "C15_len_range_partial", "C15_codepoint_partial"], "note": "sound, complete and memory safe on every string without byte 255 followed by seven continuation bytes; that input makes the decoder shift a 32-bit value by 35 (C15_decode_total_refuted)"},
 {"property": "C16", "status": "proved", "theorems": ["C16_offset_encode", "C16_offset_forward", "C16_offset_backward", "C16_offset_containing", "C16_offset_errors", "C16_codes"], "note": "offset for every n and i, codes on every valid string"},
 {"property": "C17", "status": "proved", "theorems": ["C17_roundtrip", "C17_redump", "C17_writer"], "note": "prototypes whose fields fit their C types, main functions with at most 255 upvalues, and nested functions that have a source when the enclosing one has; upvalues of type any carry no type name. Strings by contents, both byte orders, any split of the data into pieces"},
 {"property": "C18", "status": "proved", "theorems": ["C18_truncated", "C18_header", "C18_malformed_refuted"], "note": "every non-empty proper prefix however split into pieces; the empty prefix is an empty text chunk. Chunks not produced by dump are outside the property: C18_malformed_refuted shows that the loader does not check the number of upvalue names"},
 {"property": "C19", "status": "proved", "theorems": ["C19_stream", "C19_split", "C19_after_end"], "note": "any way of cutting the input into pieces, any consumer; clients never read past the end, where the code would leave its buffer (C19_after_end)"},
 {"property": "C20", "status": "proved", "theorems": ["C20_pack", "C20_pack_total", "C20_unpack_sound", "C20_unpack", "C20_unpack_total", "C20_roundtrip", "C20_packsize", "C20_packsize_total", "C20_packsize_length"], "note": "all formats, not only integers; strings of at most 2^63-1 bytes; the sizes are those of LP64; float to single conversion is a parameter"},
 {"property": "C21", "status": "proved", "theorems": ["C21_sub", "C21_byte", "C21_reverse", "C21_char"], "note": "every string and every pair of 64-bit positions; string.byte refuses only ranges too long for the stack"},
 {"property": "C22", "status": "proved", "theorems": ["C22_rep", "C22_nonpositive", "C22_too_long"], "note": "every string, separator and count; the limit tested is n*(#s+#sep) <= 2^31-1, so a few results which would just fit are refused"},
 {"property": "C23", "status": "proved", "theorems": ["C23_find", "C23_special", "C23_nospecials"], "note": "every string, pattern and start position, embedded zeros included; also that the special-character test looks past zeros"},
 {"property": "C24", "status": "proved", "theorems": ["C24_match", "C24_relation", "C24_inside", "C24_find", "C24_find_plain"], "note": "character classes as in the C locale; subjects of at most 2^63-1 bytes; in a range that ends in an escape the meaning is what the code does, the manual gives none. 'pattern too complex' only when at least 200 items nest"},
 {"property": "C25", "status": "proved", "theorems": ["C25_permutes", "C25_sorts"], "note": "every comparison function that does not assign to the table, including inconsistent and failing ones; no access outside 1..n for any of them"},
 {"property": "C26", "status": "proved", "theorems": ["C26_insert", "C26_remove", "C26_move", "C26_concat"], "note": "plain tables without metamethods; lists of fewer than 2^63-1 elements"},
 {"property": "C27", "status": "proved", "theorems": ["C27_init", "C27_step", "C27_unique", "C27_equality", "C27_new", "C27_new_c", "C27_memerr"], "note": "All histories from luaS_init of creation (with the address cache), marking, sweeping in both modes, the end of the atomic phase and resizing. Which objects are marked is left open; allocation succeeds at a free address; sweepgen's own assertion (a white object it meets is dead) is a hypothesis, and the fixed message is not swept."},
 {"property": "C28", "status": "partial", "theorems": ["C28_order_partial", "C28_total_partial", "C28_c_locale", "C28_collation_refuted"], "note": "proved for every collation whose equivalence is equality, and byte-wise order in the C locale; with a collation that equates different strings the order is not antisymmetric and the loop reads out of bounds (C28_collation_refuted)"},
 {"property": "C29", "status": "proved", "theorems": ["C29_integer_numerals", "C29_decimal_range", "C29_roundtrip", "C29_base", "C29_base_bad"], "note": "integer numerals only, decimal, hexadecimal and in bases 2..36; the conversion of floats is left to the C library"},
 {"property": "C30", "status": "partial", "theorems": ["C30_abc_roundtrip", "C30_abx_roundtrip", "C30_ax_roundtrip", "C30_set_opcode", "C30_set_A", "C30_set_B", "C30_set_C", "C30_set_Bx", "C30_set_sBx_partial", "C30_set_sBx_refuted", "C30_rk"], "note": "all fields and formats round trip; the signed operand limit MAXARG_sBx itself is not representable (C30_set_sBx_refuted)"},
 {"property": "C31", "status": "partial", "theorems": ["C31_list_wf", "C31_concat_partial", "C31_patch_partial", "C31_too_far", "C31_forward_partial", "C31_jump_partial", "C31_patch_refuted"], "note": "joining, patching, forward jumps and jump-to-jump are proved for every list whose distances fit -2^15..2^15-1 and longer ones are refused; the distance +2^15 is accepted and miscompiled (C31_patch_refuted)"},
 {"property": "C32", "status": "partial", "theorems": ["C32_fold", "C32_fold_unary", "C32_total_partial", "C32_shr_refuted"], "note": "Proved for every operator and all numerals: whenever the folder replaces an operation by a constant, the constant is what the operator means, the generic opcode gives it without error or metamethod, and it is neither NaN nor a zero (C32_fold, C32_fold_unary); the folder always comes to a decision (C32_total_partial) except for a right shift by the smallest integer, which is undefined in the compiler as at run time (C32_shr_refuted). fmod and pow are parameters, so the compiler is assumed to run with the same C library and rounding mode as the program."},
 {"property": "C33", "status": "partial", "theorems": ["C33_assignment_partial", "C33_jump_refuted", "C33_in_place_refuted", "C33_assertion_refuted", "C33_early_refuted"], "note": "Proved for assignments of tame expressions to local variables of every declared type: the value is converted or an error raised, and all typed locals hold values of their types afterwards (C33_assignment_partial). Wrong in the code, each refuted: values that come by jumps into a typed variable (C33_jump_refuted), the value of an untyped variable, which itself is converted (C33_in_place_refuted), type assertions on variables (C33_assertion_refuted), the check of strings and closures after the store (C33_early_refuted). Declarations of several variables are left out."},
 {"property": "C34", "status": "partial", "theorems": ["C34_arith_partial", "C34_type_partial", "C34_overflow_refuted", "C34_type_refuted", "C34_unary", "C34_unary_type_partial", "C34_compare", "C34_get", "C34_set_partial", "C34_set_refuted"], "note": "Proved for all sets of types the compiler may assume, all operands with these types and all metamethods: arithmetic, bitwise operators, comparisons, indexing and indexed assignment with the chosen opcode and operand order give what the operator means and what the generic opcode gives, and results have the assumed type. Exceptions, each refuted: signed overflow in ADDII, SUBII, MULII (C34_overflow_refuted), a float stored into an integer array by IARRAY_SET (C34_set_refuted), the type of bitwise operators if numbers have metamethods (C34_type_refuted)."},
 {"property": "C35", "status": "partial", "theorems": ["C35_condition_partial", "C35_omitted_refuted", "C35_function_refuted"], "note": "Proved for every tame expression used as a condition: the code goes on if the value is neither nil nor false and jumps otherwise, also where the compiler omits a test because of static types (C35_condition_partial). Wrong in the code: a computed value whose type makes it always true overwrites the first variable (C35_omitted_refuted); a local function set to nil counts as true (C35_function_refuted)."},
 {"property": "C36", "status": "proved", "theorems": ["C36_refines", "C36_shared", "C36_slot", "C36_closed", "C36_refcounts", "C36_defer"], "note": "All histories of assignment, capture (with the closure cache), defer, closing, collection of closures and upvaluejoin, over any number of threads. What the compiler guarantees is part of 'legal': a register is taken for a new variable only when no closure has the last one, and a prototype always lists the same upvalues. Types of Ravi's typed upvalues are left out."},
 {"property": "C37", "status": "partial", "theorems": ["C37_refines", "C37_balanced", "C37_reset_partial", "C37_reset_all", "C37_recover_partial", "C37_recover_refuted", "C37_coroutine_refuted"], "note": "Proved for every program over the statements that matter (defer, blocks, calls, pcall, tail calls, errors, captured variables), every starting state and every pattern of stack reallocation: a protected call ends with exactly the events and the outcome that the meaning of defer prescribes (C37_refines), and in that meaning each registered function runs exactly once, newest first, none left (C37_balanced). lua_resetthread does so too (C37_reset_partial, C37_reset_all). Refuted for coroutines: recover writes through a stale stack pointer when the stack moved while deferred functions ran (C37_recover_refuted, exact condition in C37_recover_partial), and a coroutine that dies under coroutine.resume never runs its pending functions (C37_coroutine_refuted). Left out: yields, hooks, stack overflow and C stack overflow inside a deferred function."},
 {"property": "C38", "status": "partial", "theorems": ["C38_reachable_kept_partial", "C38_next_partial", "C38_lists_partial", "C38_upvalue_partial", "C38_twups_partial", "C38_allweak_metatable_refuted", "C38_undump_refuted"], "note": "Proved for every interleaving, of any length, of steps of the incremental collector (also full collections and emergency mode) with allocations, stores into stacks, tables, userdata, closures, prototypes and upvalues, rehashes, changes of metatables and of __mode and __gc, luaF_findupval, luaF_close, upvaluejoin, resurrection of interned strings, the closure and string caches, registry and basic metatables, switches of coroutine: nothing reachable, not even through a weak reference, has been freed; every object is in exactly one list once; open upvalues point into live threads. Refuted for two stores without an effective barrier, which the theorems exclude: setmetatable on a table that waits in allweak, and the stores of lundump.c into a prototype. Generational mode is not modelled."},
 {"property": "C39", "status": "partial", "theorems": ["C39_cycle_frees_partial", "C39_cycle_ends_partial", "C39_full_cycle_partial", "C39_touched_refuted"], "note": "Proved for every reachable state at a pause and every interleaving of the following cycle with the program: an object that is neither reachable, nor referred to by an object waiting for its finaliser, nor the value of a touched open upvalue is gone once the sweep of allgc is over and never comes back (C39_cycle_frees_partial); a cycle of the collector alone ends (C39_cycle_ends_partial) and has freed all of them (C39_full_cycle_partial). The full claim fails: the value of a touched open upvalue of a dead thread survives one more cycle (C39_touched_refuted). A full collection in the middle of a cycle throws its marks away and starts anew, so it is excluded while marking."},
 {"property": "C40", "status": "proved", "theorems": ["C40_no_dangling", "C40_weak_frees", "C40_weak_cleared", "C40_entries_kept", "C40_mode_change_refuted"], "note": "For every reachable state: no table the program can reach has an entry or slot for a freed object, at any moment of any interleaving. For a collection that runs from one pause to the next without the program in between: an object held by weak references only (also through ephemeron entries whose own key is so held, i.e. the value-refers-to-key case) is freed and has no entry left, and a held table keeps every entry whose key and value are strings, primitive or strongly held. Between 'strongly held' and 'possibly held' lie the objects with finalisers, the stack above the top, the string cache and touched upvalues, about which nothing is claimed. When the program runs in the middle of the cycle and makes a weak table strong, the second half fails (C40_mode_change_refuted; the reference manual announces it)."},
 {"property": "C41", "status": "proved", "theorems": ["C41_rotate_up", "C41_rotate_down", "C41_insert", "C41_remove", "C41_replace", "C41_settop_grow", "C41_settop_shrink", "C41_copy", "C41_pushvalue", "C41_absindex", "C41_xmove"], "note": "all stack contents, indices and counts"},
 {"property": "C42", "status": "proved", "theorems": ["C42_fresh", "C42_lookup", "C42_unref_others", "C42_reuse"], "note": "all histories of ref and unref; fewer than 2^31 references alive"},
 {"property": "C43", "status": "proved", "theorems": ["C43_range", "C43_empty", "C43_first_accepted", "C43_uniform", "C43_width"], "note": "all bounds; projection is uniform and stays in range for every generator output; termination depends on the outputs, so the theorems speak about the first accepted one"},
 {"property": "C44", "status": "partial", "theorems": ["C44_band", "C44_btest", "C44_bor", "C44_bxor", "C44_bnot", "C44_lshift_partial", "C44_rshift_partial", "C44_arshift_partial", "C44_lrotate", "C44_rrotate_partial", "C44_extract", "C44_replace", "C44_field_partial", "C44_tobit", "C44_bit_bnot", "C44_bit_band", "C44_bit_bor", "C44_bit_bxor", "C44_bit_lshift", "C44_bit_rshift", "C44_bit_arshift", "C44_bit_rol_partial", "C44_bit_ror_partial", "C44_rotate_refuted", "C44_bswap", "C44_tohex_partial", "C44_minint_refuted", "C44_tohex_default"], "note": "all operations on all arguments, except counts of math.mininteger, fields whose f+w overflows (C44_minint_refuted) and bit.rol/ror by multiples of 32 (C44_rotate_refuted), which are undefined"},
 {"property": "C45", "status": "partial", "theorems": ["C45_string_partial", "C45_whole_partial", "C45_integer", "C45_lines_refuted"], "note": "Proved for every byte string, every text that follows it and every cutting of the text into blocks: the quoted form is read as one string token with exactly these bytes (C45_string_partial, C45_whole_partial), in every locale where carriage return is a control character, if the string has fewer than 2^31 - 2 newlines; with more the lexer refuses the chunk (C45_lines_refuted). Integers are read back too (C45_integer). Floats (%a) and the fixed texts for infinities and NaN are left out."},
 {"property": "C46", "status": "partial", "theorems": ["C46_refines_partial", "C46_unique", "C46_cache", "C46_array_refuted", "C46_array_partial"], "note": "Proved for every heap programs can build and every access, assignment, raw store and change of metatable: the outcome is what the manual says, as if there were no cache of absent metamethods (C46_refines_partial, with C46_unique for determinacy). Refuted when a chain leads to an integer[] or number[] array, which luaV_fastget takes for a table (C46_array_refuted; C46_array_partial says exactly when). What a called metamethod does is a further sequence of operations; yields across metamethods are left out."},
 {"property": "C47", "status": "partial", "theorems": ["C47_history_partial", "C47_overwrite", "C47_safe", "C47_clear_refuted", "C47_copy_refuted", "C47_change_refuted"], "note": "every history of all operations on any number of sets, provided clear, copy and the word-wise operations replace a set by a superset; without the proviso stale upper words reappear (C47_clear_refuted, C47_copy_refuted) and changes go unreported (C47_change_refuted). The immediate contents after an operation and memory safety hold without the proviso."},
 {"property": "C48", "status": "partial", "theorems": ["C48_history_partial"], "note": "every history with at most 2^30 insertions, every key equality and compatible hash function; the table for more entries, where the 32-bit probe sum can wrap, is left open"},
 {"property": "C49", "status": "partial", "theorems": ["C49_size_hint_partial", "C49_size_hint_refuted", "C49_ceillog2"], "note": "all sizes up to 15*2^27; above that the decoder shifts into the sign bit (C49_size_hint_refuted); the logarithm is exact for every unsigned int"},
 {"property": "C50", "status": "proved", "theorems": ["C50_accepted", "C50_unique", "C50_unique_tree", "C50_too_deep", "C50_rejected", "C50_syntax_error"], "note": "The whole expression grammar: operators, casts, suffixes, calls, constructors, parentheses; a function body counts as one token. The tree is built exactly when the stratified grammar of the manual derives it, the tree is unique, and what is refused is no expression or nested too deeply for the C levels left. Errors of the code generator (registers, constants) are left out."},
 {"property": "C51", "status": "proved", "theorems": ["C51_loadnil"], "note": "both the merged and the appended case, for every code prefix and register range"},
 {"property": "C52", "status": "partial", "theorems": ["C52_codes_any_partial", "C52_codes_reject_refuted"], "note": "what codes visits and rejects on arbitrary strings is characterised exactly; that it rejects every invalid string is false: stray continuation bytes are skipped (C52_codes_reject_refuted)"},
 {"property": "C53", "status": "partial", "theorems": ["C53_traversal", "C53_next_refuted"], "note": "traversal of every reachable array is exact; next with key -1 yields the reserved element 0 and with math.maxinteger overflows (C53_next_refuted)"},
 {"property": "C54", "status": "proved", "theorems": ["C54_bijective", "C54_closed", "C54_never_zero"], "note": "all states and seeds"},
 {"property": "C55", "status": "proved", "theorems": ["C55_pack", "C55_unpack", "C55_roundtrip"], "note": "plain tables without metamethods"},
 {"property": "C56", "status": "proved", "theorems": ["C56_gmatch", "C56_gsub", "C56_unique"], "note": "subjects of at most 2^63-2 bytes; the calls and index accesses of replacements are parameters that return or raise an error; numbers as strings are a parameter"},
 {"property": "C57", "status": "partial", "theorems": ["C57_stream_partial", "C57_no_cast_partial", "C57_blocks", "C57_deterministic", "C57_cast_refuted"], "note": "Proved for every text and every cutting into blocks: the tokens, values and lines are exactly those of the grammar, any other text is an error and never undefined behaviour (C57_stream_partial); blocks do not matter, the grammar is unambiguous. The exception: a cast word is matched by prefix, so @int or a lone @ is read as @integer (C57_cast_refuted); without @ in the text there is none (C57_no_cast_partial). Reading floats is a parameter."},
 {"property": "C58", "status": "partial", "theorems": ["C58_value_partial", "C58_leaked_refuted", "C58_assertion_refuted"], "note": "Proved for every tame expression (literals, variables, globals, indexing, all unary and binary operators, and/or/not, comparisons, concatenations, type assertions, calls with one result), every state of the compiler and of the machine and all metamethods: the code computes the value, raises the same errors, and changes no register below the target (C58_value_partial). Not tame, and wrong in the code: and/or whose left operand is a computed value of known truth (C58_leaked_refuted), a type assertion on an and/or (C58_assertion_refuted) or on a variable (C33_assertion_refuted). Integer overflow in specialised instructions is excepted (C34_overflow_refuted). Table constructors, closures and calls with several results are left out."},
 {"property": "C59", "status": "partial", "theorems": ["C59_statements_partial", "C59_diverges_partial", "C59_fuel"], "note": "Proved for every block of tame statements: the code comes to its end with the values of the variables and the effects the structural meaning gives, or raises the same error, or, when a loop is not at its end after K rounds, makes at least K steps (C59_statements_partial); programs without end do not end (C59_diverges_partial); the meaning does not depend on the fuel (C59_fuel). Statements that are not tame are those with the faults of C33, C35 and C58, and assignments of and, or and comparisons to typed variables. Left out: goto, for, return, assignments to globals, fields, upvalues and several variables, closures. Overflow of typed integer arithmetic is undefined in C and excluded."},
 {"property": "C60", "status": "proved", "theorems": ["C60_names", "C60_total", "C60_closures", "C60_stable", "C60_blocks"], "note": "For every sequence of the parser's scope events (declare, bring into scope, enter and leave a block, open and finish a function, defer, use a name). That a variable lies in the register of its rank is C58 and C59. Emission of code other than the closing jumps, gotos and debug information are left out."},
 {"property": "C61", "status": "partial", "theorems": ["C61_call", "C61_varargs", "C61_return", "C61_tailcall", "C61_cfunction_partial", "C61_fastcall_partial", "C61_fastcall_refuted"], "note": "For Lua functions, values with __call, varargs, returns and tail calls without restriction; for C functions the results are adjusted likewise. The functions of ravi_pushcfastcall break the claim: C61_fastcall_refuted (local x, y = f(7) leaves the argument in y). Stack growth and its limit, hooks, functions compiled by the JIT, upvalue closing, errors and yields are left out."},
 {"property": "C62", "status": "proved", "theorems": ["C62_gotos", "C62_each"], "note": "For all trees of statements. Left out: the limit of SHRT_MAX labels and gotos, line numbers in messages, the deferred statements (insidetbc)."},
 {"property": "C63", "status": "partial", "theorems": ["C63_run_partial", "C63_for_partial", "C63_ifor_partial", "C63_movei_refuted", "C63_for_limit_refuted", "C63_for_overflow_refuted", "C63_inline_refuted", "C63_omit_refuted", "C63_index_refuted", "C63_iset_refuted"], "note": "Proved in lock step for moves, loads, arithmetic and bit operators (generic and specialised), comparisons, tests, jumps, indexing of tables and arrays, typed moves and conversions and return, from any state, with any library (C63_run_partial); numeric loops with any body that leaves the three hidden registers alone (C63_for_partial, C63_ifor_partial). The unrestricted statement is false: C63_movei, C63_for_limit, C63_for_overflow, C63_inline, C63_omit, C63_index and C63_iset _refuted. Left out: calls, upvalues, closures, varargs, OP_SELF, table constructors, concat, length, generic for, defer, user types, and the C compiler."},
 {"property": "C64", "status": "partial", "theorems": ["C64_assign_partial", "C64_variables", "C64_metamethod_refuted", "C64_call_refuted"], "note": "Proved for all targets and values of untyped variables, from any state, provided the calls and metamethods that run leave alone the variables that occur as table or key of a target (C64_assign_partial); without proviso for assignments to variables (C64_variables). Without the proviso it is false: C64_metamethod_refuted, C64_call_refuted."},
 {"property": "C65", "status": "partial", "theorems": ["C65_coroutines_partial", "C65_resume_only", "C65_safe", "C65_message_refuted"], "note": "Proved for all programs and nestings, against a description without stacks (C65_coroutines_partial), with the one wrong message of C65_message_refuted built in; with the right messages for programs that do not call wrapped coroutines (C65_resume_only). pcall inside coroutines, C functions with continuations, stack limits and pending deferred functions are not modelled."},
 {"property": "C66", "status": "proved", "theorems": ["C66_realloc", "C66_grow", "C66_checkstack", "C66_shrink", "C66_reads"], "note": "For every stack that is as it should be between instructions, every request and every answer of the allocator (C66_realloc, C66_grow, C66_checkstack, C66_shrink, C66_reads)."},
 {"property": "C67", "status": "partial", "theorems": ["C67_simplify_partial", "C67_errors", "C67_shift_refuted", "C67_overflow_refuted", "C67_division_refuted"], "note": "Proved for all expressions in which no negative constant is shifted and whose simplification ends normally (C67_simplify_partial); the only errors reported are divisions by zero (C67_errors). Missing, because false: shifts of negative constants are arithmetic (C67_shift_refuted), overflowing constants are undefined behaviour in the compiler (C67_overflow_refuted), and a division by a constant zero that is never evaluated stops the compilation (C67_division_refuted)."},
 {"property": "C68", "status": "proved", "theorems": ["C68_buffer", "C68_succeeds"], "note": "For every sequence of additions and every behaviour of the allocator (C68_buffer, C68_succeeds)."},
 {"property": "C69", "status": "proved", "theorems": ["C69_name", "C69_fits", "C69_line"], "note": "For every source and buffer size (C69_name), with what follows for C strings (C69_fits) and lines (C69_line)."}
]}
