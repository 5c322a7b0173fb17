{"id": "C01", "title": "Integer arithmetic wraps and divides by floor", "statement": "For every pair of 64-bit integers, `a+b`, `a-b`, `a*b`, `-a` return the mathematical result reduced to a signed 64-bit value; for b ~= 0, `a//b` is the floor of the exact quotient and `a%b` is the matching remainder, with 0 <= a%b < b for b > 0 and b < a%b <= 0 for b < 0, including math.mininteger // -1; division by zero raises an error.", "quantifier": "all pairs of 64-bit integers", "why_tests_cant": "2^128 operand pairs; the interesting ones (minint, -1, sign mixes) are combinations no finite sample covers", "anchors": ["src/lvm.c:luaV_idiv", "src/lvm.c:luaV_mod", "src/lobject.c:intarith", "src/lvm.h:intop"]}
{"id": "C02", "title": "Shifts are total logical shifts", "statement": "For every integer x and every integer shift count n, `x << n` equals x*2^n modulo 2^64 when 0 <= n, `x >> n` is the logical (unsigned) right shift, negative counts shift the other way, and counts of magnitude 64 or more give 0; no count is undefined behaviour.", "quantifier": "all 64-bit x and all 64-bit shift counts", "why_tests_cant": "all 2^64 counts, including math.mininteger, must be covered", "anchors": ["src/lvm.c:luaV_shiftl", "src/lobject.c:intarith"]}
{"id": "C03", "title": "Number comparison is exact", "statement": "For every mix of integers and floats, `a < b`, `a <= b` and `a == b` give the answer of the exact mathematical values, without rounding an integer to a float; a comparison with NaN is false. Hence `<` is a strict weak order on non-NaN numbers, consistent with `<=` and `==`.", "quantifier": "all pairs of integers/floats (all bit patterns)", "why_tests_cant": "2^64 x 2^64 pairs; rounding errors show only next to 2^53..2^63 boundaries", "anchors": ["src/lvm.c:LTnum", "src/lvm.c:LEnum", "src/lvm.c:luaV_equalobj", "src/lvm.c:l_intfitsf"]}
{"id": "C04", "title": "Float to integer conversion is exact or refused", "statement": "Converting a float to an integer (math.tointeger, integer for-loops, table keys, bitwise operands) yields n only if the float has exactly the value n and n fits in 64 bits; with floor/ceil rounding it yields the true floor/ceiling or fails; it never returns a wrapped or rounded value.", "quantifier": "all floats, all rounding modes of the API", "why_tests_cant": "all 2^64 bit patterns; the boundaries at 2^63 are the failure points", "anchors": ["src/lvm.c:luaV_tointeger", "src/lvm.c:luaV_flttointns", "src/lmathlib.c:math_floor", "src/lmathlib.c:math_ceil"]}
{"id": "C05", "title": "Numeric for loop visits exactly the arithmetic progression", "statement": "`for i = a, b, s do ... end` over integers runs the body once for every a, a+s, a+2s, ... not beyond b, in order, and terminates, for every a, b and non-zero s; the specialised loop forms (constant step 1, constant positive step) behave the same as the general one.", "quantifier": "all 64-bit integer initial values, limits and steps", "why_tests_cant": "loops near the ends of the integer range and steps of any size cannot be enumerated", "anchors": ["src/lvm.c:OP_FORPREP", "src/lvm.c:OP_FORLOOP", "src/lvm.c:OP_RAVI_FORLOOP_I1", "src/lvm.c:OP_RAVI_FORLOOP_IP", "src/lvm.c:forlimit", "src/lparser.c:fornum"]}
{"id": "C06", "title": "A table is a finite map", "statement": "After any sequence of `t[k] = v` and reads, `t[k]` returns the last value assigned to a key raw-equal to k (nil if none); assigning one key never changes another, whatever the hash function, array/hash split, collisions, resizes and insertion order.", "quantifier": "all operation sequences, all keys and values, all hash functions", "why_tests_cant": "collision chains, free-slot exhaustion and rehash interact over unbounded histories", "anchors": ["src/ltable.c:luaH_get", "src/ltable.c:luaH_set", "src/ltable.c:luaH_newkey", "src/ltable.c:luaH_resize", "src/ltable.c:rehash", "src/ltable.c:getfreepos"]}
{"id": "C07", "title": "Integral float keys and integer keys are the same key", "statement": "t[1.0] and t[1] denote the same entry for every integer-valued float that fits an integer; floats with no integer value are distinct keys; assigning to key nil or NaN raises an error and leaves the table unchanged; reading those keys yields nil.", "quantifier": "all keys of numeric type, nil and NaN", "why_tests_cant": "all floats must be classified", "anchors": ["src/ltable.c:luaH_newkey", "src/ltable.c:luaH_get"]}
{"id": "C08", "title": "next visits every entry exactly once", "statement": "Iterating with next/pairs from nil visits every key with non-nil value exactly once and then stops, for every table, even if during the traversal existing fields are assigned or cleared (set to nil).", "quantifier": "all tables, all interleavings of traversal steps with updates of existing fields", "why_tests_cant": "depends on the physical layout reached by arbitrary histories and on interleaved updates", "anchors": ["src/ltable.c:luaH_next", "src/ltable.c:findindex"]}
{"id": "C09", "title": "The length operator returns a border", "statement": "For every table without __len, #t is an n >= 0 such that (n = 0 or t[n] ~= nil) and t[n+1] = nil; for a sequence it is the number of elements.", "quantifier": "all table contents and layouts", "why_tests_cant": "binary search over every layout of array and hash part", "anchors": ["src/ltable.c:luaH_getn", "src/ltable.c:unbound_search"]}
{"id": "C10", "title": "Array part sizing keeps more than half of the slots in use", "statement": "When a table is rehashed the chosen array size n is the largest power of two such that more than n/2 of the indices 1..n are in use, and all the entries of the old table are preserved.", "quantifier": "all multisets of integer keys", "why_tests_cant": "the count vector ranges over all key populations", "anchors": ["src/ltable.c:computesizes", "src/ltable.c:numusearray", "src/ltable.c:numusehash", "src/ltable.c:countint"]}
{"id": "C11", "title": "Ravi typed arrays never access memory outside their elements", "statement": "For an integer[] or number[] of length n, reading or writing index i with 1 <= i <= n accesses exactly element i, writing n+1 on a growable array appends, and every other index raises an error without changing the array; this holds for every 64-bit index.", "quantifier": "all histories of array operations, all 64-bit indices", "why_tests_cant": "indices from the whole 64-bit range and arbitrary growth histories", "anchors": ["src/ltable.c:raviH_set_int", "src/ltable.c:raviH_set_float", "src/ltable.h:raviH_get_int_inline", "src/ltable.c:ravi_resize_array"]}
{"id": "C12", "title": "Slices alias exactly a window of their parent", "statement": "table.slice(a, s, n) gives an array of length n where element i is the element s+i-1 of the parent: writes through either are seen by the other at exactly that index and nowhere else; the slice and its parent cannot be resized, so no slice ever dangles; slices outside the parent are refused.", "quantifier": "all arrays, slices of slices, all starts and lengths, all write histories", "why_tests_cant": "aliasing over unbounded sequences of writes and nested slices", "anchors": ["src/ltable.c:raviH_new_slice", "src/lapi.c:ravi_create_slice", "src/ltable.c:ravi_resize_array"]}
{"id": "C13", "title": "Array constructors store every element in order", "statement": "A table or typed-array constructor with list items e1..en produces an object with element i equal to e_i, for every n (also more than 50 items, which are stored in batches).", "quantifier": "all constructor lengths and element values", "why_tests_cant": "batching makes behaviour depend on n; every n must be covered", "anchors": ["src/lvm.c:OP_SETLIST", "src/lvm.c:raviV_op_setlist", "src/lcode.c:luaK_setlist", "src/lparser.c:closelistfield"]}
{"id": "C14", "title": "UTF-8 encoding round-trips", "statement": "utf8.char(c) followed by utf8.codepoint returns c for every valid code point (and every c < 2^31 in lax mode); the encoding is the shortest form.", "quantifier": "all code points 0..2^31-1", "why_tests_cant": "2^31 inputs times all positions in all strings", "anchors": ["src/lobject.c:luaO_utf8esc", "src/lutf8lib.c:utf8_decode", "src/lutf8lib.c:utfchar"]}
{"id": "C15", "title": "UTF-8 decoding accepts exactly well-formed sequences", "statement": "utf8.len / utf8.codepoint accept a byte string exactly when it is a concatenation of shortest-form encodings (excluding surrogates and values above 10FFFF in strict mode), count one character per encoding, and otherwise report the position of the first bad byte; the decoder never reads past the string end.", "quantifier": "all byte strings", "why_tests_cant": "unbounded set of malformed inputs", "anchors": ["src/lutf8lib.c:utf8_decode", "src/lutf8lib.c:utflen", "src/lutf8lib.c:codepoint"]}
{"id": "C16", "title": "utf8.offset and utf8.codes agree with the character structure", "statement": "utf8.offset(s, n) returns the byte position of the n-th character (counting from i), and iterating utf8.codes visits the start position and code point of each character in order.", "quantifier": "all valid UTF-8 strings, all n and i", "why_tests_cant": "all strings and all relative offsets", "anchors": ["src/lutf8lib.c:byteoffset", "src/lutf8lib.c:iter_aux"]}
{"id": "C17", "title": "Binary chunks round-trip", "statement": "load(string.dump(f)) yields a function prototype equal to f (code, constants, upvalue descriptors, nested functions, debug information and Ravi type information); with strip, only debug data is lost.", "quantifier": "all function prototypes", "why_tests_cant": "recursive data structure of any size with every constant kind", "anchors": ["src/ldump.c:luaU_dump", "src/lundump.c:luaU_undump"]}
{"id": "C18", "title": "Truncated binary chunks are rejected", "statement": "Loading any non-empty proper prefix of a dumped chunk fails with an error; it never yields a function and never reads past the input.", "quantifier": "all prototypes and all cut points", "why_tests_cant": "every cut point of every chunk", "anchors": ["src/lundump.c:LoadBlock", "src/lundump.c:checkHeader"]}
{"id": "C19", "title": "Chunked readers are equivalent to one buffer", "statement": "The result of load with a reader function depends only on the concatenation of the returned pieces, not on how they are split.", "quantifier": "all inputs and all splits into non-empty pieces", "why_tests_cant": "exponentially many splits of each input", "anchors": ["src/lzio.c:luaZ_read", "src/lzio.c:luaZ_fill", "src/lzio.h:zgetc"]}
{"id": "C20", "title": "string.pack / string.unpack round-trip", "statement": "For every integer format size, endianness, alignment and value in range, unpack(fmt, pack(fmt, v)) returns v and the position after the data; values out of range are rejected; unpack never reads outside the string and rejects sizes whose value does not fit.", "quantifier": "all sizes 1..16, both byte orders, all alignments, all 64-bit values, all byte strings", "why_tests_cant": "sizes x values x offsets cannot be enumerated", "anchors": ["src/lstrlib.c:packint", "src/lstrlib.c:unpackint", "src/lstrlib.c:str_pack", "src/lstrlib.c:str_unpack", "src/lstrlib.c:getdetails"]}
{"id": "C21", "title": "Substring functions respect string bounds", "statement": "string.sub, string.byte for any start/end (negative, zero, beyond the ends, extreme 64-bit values) return exactly the bytes at the positions i..j clipped to the string as documented, and never read outside the string.", "quantifier": "all strings, all 64-bit index pairs", "why_tests_cant": "all index pairs including overflow candidates", "anchors": ["src/lstrlib.c:posrelat", "src/lstrlib.c:str_sub", "src/lstrlib.c:str_byte"]}
{"id": "C22", "title": "string.rep builds n copies or fails", "statement": "string.rep(s, n, sep) is s repeated n times separated by sep, has the exact length n*#s+(n-1)*#sep, and raises an error instead of overflowing when this does not fit.", "quantifier": "all strings, separators and counts", "why_tests_cant": "the overflow test must hold for all 64-bit n and sizes", "anchors": ["src/lstrlib.c:str_rep"]}
{"id": "C23", "title": "Plain find returns the first occurrence", "statement": "string.find(s, p, init, true) returns the least position >= init where p occurs (or nil iff there is none), for every content including embedded zeros.", "quantifier": "all byte strings and start positions", "why_tests_cant": "all pairs of strings", "anchors": ["src/lstrlib.c:lmemfind", "src/lstrlib.c:str_find_aux"]}
{"id": "C24", "title": "Pattern matching implements the documented semantics", "statement": "The matcher's result for every pattern and subject is a match according to the declarative meaning of pattern items (sets, classes, * + - ?, anchors, captures, %b, %f), greedy/lazy choice included; it terminates and never reads outside the subject or the pattern.", "quantifier": "all patterns and subjects", "why_tests_cant": "backtracking over all pattern/subject pairs", "anchors": ["src/lstrlib.c:match", "src/lstrlib.c:max_expand", "src/lstrlib.c:min_expand", "src/lstrlib.c:singlematch", "src/lstrlib.c:classend"]}
{"id": "C25", "title": "table.sort permutes, sorts and stays in bounds", "statement": "For every comparison function table.sort only exchanges elements at positions 1..n (so the result is a permutation, or an error is raised), and if the comparison is a strict weak order the result is sorted; it never accesses positions outside 1..n for a consistent comparison.", "quantifier": "all arrays, all comparison functions, all pivot choices", "why_tests_cant": "sorting behaviour for all lengths and comparator answers, including inconsistent ones", "anchors": ["src/ltablib.c:auxsort", "src/ltablib.c:partition", "src/ltablib.c:choosePivot"]}
{"id": "C26", "title": "table.insert, remove, move and concat have list semantics", "statement": "table.insert/remove shift exactly the elements after the position; table.move copies as if through a temporary even when ranges overlap; table.concat joins the elements in order; positions outside the allowed range raise an error.", "quantifier": "all lists, positions and overlapping ranges", "why_tests_cant": "all positions/overlaps", "anchors": ["src/ltablib.c:tinsert", "src/ltablib.c:tremove", "src/ltablib.c:tmove", "src/ltablib.c:tconcat"]}
{"id": "C27", "title": "Equal short strings are one object", "statement": "At any time two live short strings with equal contents are the same object, and an interned string stays findable across string-table resizes and collections; hence equality by reference equals equality by contents.", "quantifier": "all histories of string creation, resize and sweep", "why_tests_cant": "global table state over unbounded histories", "anchors": ["src/lstring.c:internshrstr", "src/lstring.c:luaS_resize", "src/lstring.c:luaS_remove"]}
{"id": "C28", "title": "String order is a total order compatible with equality", "statement": "String comparison with embedded zeros is a lexicographic order over zero-separated chunks of the collation, total, antisymmetric and transitive; in the C locale it equals byte-wise lexicographic order.", "quantifier": "all pairs and triples of byte strings", "why_tests_cant": "strings of any length with embedded zeros", "anchors": ["src/lvm.c:l_strcmp"]}
{"id": "C29", "title": "Integer literals and tostring round-trip", "statement": "tonumber(tostring(n)) = n as an integer for every integer n; a decimal literal is read as an integer exactly when it fits in 64 bits; hexadecimal literals wrap modulo 2^64; trailing garbage is rejected.", "quantifier": "all 64-bit integers, all byte strings", "why_tests_cant": "2^64 values and all strings", "anchors": ["src/lobject.c:l_str2int", "src/lobject.c:luaO_str2num", "src/lobject.c:luaO_tostring"]}
{"id": "C30", "title": "Bytecode operands survive encoding", "statement": "Each operand written in an instruction within its documented range is read back unchanged and does not disturb the other operands.", "quantifier": "all opcodes and operand values in range", "why_tests_cant": "all 2^32 instruction words and field updates", "anchors": ["src/lopcodes.h:CREATE_ABC", "src/lopcodes.h:SETARG_A", "src/lopcodes.h:GETARG_sBx"]}
{"id": "C31", "title": "Forward jumps land where they are patched", "statement": "For every program, each jump in a jump list is patched to reach exactly its label, or compilation fails with 'control structure too long'; lists keep all pending jumps and no other instruction changes.", "quantifier": "all code sequences and jump lists", "why_tests_cant": "lists threaded through arbitrary code; boundary distances of 2^15", "anchors": ["src/lcode.c:fixjump", "src/lcode.c:getjump", "src/lcode.c:luaK_concat", "src/lcode.c:patchlistaux"]}
{"id": "C32", "title": "Constant folding does not change results", "statement": "Replacing an arithmetic/bitwise expression on numeric literals by its compile-time value gives the same value as executing it, and never hides an error (division by zero) or loses a sign of zero or NaN.", "quantifier": "all operators and literal operands", "why_tests_cant": "all operand pairs", "anchors": ["src/lcode.c:constfolding", "src/lcode.c:validop", "src/lobject.c:luaO_arith"]}
{"id": "C33", "title": "Typed locals always hold a value of their type", "statement": "A local variable declared `integer`, `number`, `integer[]`, `number[]`, `table`, ... holds a value of that type whenever it is read, for all programs; an assignment of any other value raises an error (or is converted where documented).", "quantifier": "all programs of the typed fragment, all inputs", "why_tests_cant": "all programs and all run-time values", "anchors": ["src/lparser.c:localvar_adjust_assign", "src/lcode.c:check_valid_store", "src/lparser.c:ravi_typecheck", "src/lvm.c:OP_RAVI_TOINT"]}
{"id": "C34", "title": "Type-specialised operations equal the generic ones", "statement": "An operation compiled to a type-specialised instruction gives the same result as the generic instruction on the same operands whenever the static types hold.", "quantifier": "all operators, operand types and values", "why_tests_cant": "all operands", "anchors": ["src/lcode.c:codebinexpval", "src/lvm.c:OP_RAVI_ADDII", "src/lvm.c:OP_RAVI_IARRAY_SET"]}
{"id": "C35", "title": "Conditions are evaluated according to truthiness", "statement": "`if`, `while`, `and`, `or`, `not` treat exactly nil and false as false for every expression and every variable history, also where the compiler omits a test because of static types.", "quantifier": "all programs and values", "why_tests_cant": "all expression shapes and histories", "anchors": ["src/lcode.c:luaK_goiftrue", "src/lcode.c:luaK_goiffalse", "src/lcode.c:luaK_posfix", "src/lparser.c:localfunc"]}
{"id": "C36", "title": "Closures share variables", "statement": "All closures capturing the same local variable instance read and write one shared variable, both while the variable's scope is active and after it ended; distinct instances (loop iterations, calls) are never confused.", "quantifier": "all histories of capture, assignment and scope exit", "why_tests_cant": "unbounded interleavings of captures and closes", "anchors": ["src/lfunc.c:luaF_findupval", "src/lfunc.c:luaF_close", "src/lvm.c:pushclosure"]}
{"id": "C37", "title": "Deferred functions run exactly once in reverse order", "statement": "Each function registered by `defer` runs exactly once when its block is left (normally, by return/break/goto or by error), in reverse order of registration, and an error in one does not prevent the others from running.", "quantifier": "all block structures, exits and error patterns", "why_tests_cant": "all interleavings of exits and errors", "anchors": ["src/lfunc.c:luaF_close", "src/lfunc.c:luaF_newtbcupval", "src/lparser.c:retstat"]}
{"id": "C38", "title": "The garbage collector never frees a reachable object", "statement": "At every point of an incremental collection, no object reachable from the roots is freed, for every interleaving of collector steps with mutator allocations and stores (including weak tables, resurrected strings, slices, threads and upvalues).", "quantifier": "all heaps and all interleavings of mutator and collector steps", "why_tests_cant": "unbounded interleavings", "anchors": ["src/lgc.c:singlestep", "src/lgc.c:luaC_barrier_", "src/lgc.c:luaC_barrierback_", "src/lgc.c:propagatemark", "src/lgc.c:atomic", "src/lgc.c:sweeplist"]}
{"id": "C39", "title": "Garbage is eventually reclaimed", "statement": "An object unreachable when a collection cycle starts and never made reachable again is freed by the end of the next complete cycle.", "quantifier": "all heaps", "why_tests_cant": "all heaps and cycles (incl. cyclic garbage)", "anchors": ["src/lgc.c:luaC_fullgc", "src/lgc.c:sweepstep"]}
{"id": "C40", "title": "Weak tables lose exactly the entries with dead references", "statement": "After a collection a weak table contains no entry whose weakly-held key or value was collected, and keeps every entry whose key and value are still (strongly) reachable; in ephemeron tables a value reachable only through its own key does not keep the key alive.", "quantifier": "all heaps with weak and ephemeron tables", "why_tests_cant": "fixpoint over all reachability graphs", "anchors": ["src/lgc.c:traverseephemeron", "src/lgc.c:convergeephemerons", "src/lgc.c:clearbykeys", "src/lgc.c:clearbyvalues"]}
{"id": "C41", "title": "Stack rotation", "statement": "lua_rotate(L, idx, n) rotates the elements between idx and the top by n positions and leaves everything else unchanged, for every n with |n| not larger than the segment; hence lua_insert, lua_remove and lua_replace have their documented effect.", "quantifier": "all stacks, indices and n", "why_tests_cant": "all stack sizes and rotation counts", "anchors": ["src/lapi.c:lua_rotate", "src/lapi.c:reverse"]}
{"id": "C42", "title": "Registry references are unique", "statement": "luaL_ref returns an integer key different from every other reference currently held in the table, the table maps it to the stored value until luaL_unref, and freed references are reused without disturbing live ones.", "quantifier": "all histories of luaL_ref/luaL_unref", "why_tests_cant": "unbounded histories of the free list", "anchors": ["src/lauxlib.c:luaL_ref", "src/lauxlib.c:luaL_unref"]}
{"id": "C43", "title": "Random integers stay in the requested interval without bias", "statement": "math.random(m, n) returns an integer in [m, n] for every m <= n (also full-range intervals), and each value of the interval corresponds to the same number of raw 64-bit random words.", "quantifier": "all intervals and all raw random words", "why_tests_cant": "all 2^128 intervals", "anchors": ["src/lmathlib.c:project", "src/lmathlib.c:math_random"]}
{"id": "C44", "title": "bit32 / bit operations match their mathematical meaning", "statement": "Every bit32 and bit function returns the documented function of the arguments reduced modulo 2^32 for all shift/rotate counts and field positions; fields outside 0..31 are refused.", "quantifier": "all integer arguments", "why_tests_cant": "all operand/count combinations", "anchors": ["src/lbitlib.c:b_shift", "src/lbitlib.c:b_arshift", "src/lbitlib.c:b_rot", "src/lbitlib.c:b_extract", "src/lbitlib.c:b_replace", "src/bit.c:bit_rol"]}
{"id": "C45", "title": "Quoted strings read back", "statement": "The output of string.format('%q', s) is a Lua literal that the lexer reads back as exactly s, for every byte string s.", "quantifier": "all byte strings", "why_tests_cant": "all strings, including digits after control characters", "anchors": ["src/lstrlib.c:addquoted", "src/llex.c:read_string", "src/llex.c:readdecesc"]}
{"id": "C46", "title": "Metamethod chains are followed to the right value or refused", "statement": "Indexing and assignment through __index/__newindex chains of tables and functions reach the first table having the key (or the first function), or raise an error after the documented bound; cycles terminate with an error.", "quantifier": "all metatable graphs", "why_tests_cant": "all graphs, including cycles", "anchors": ["src/lvm.c:luaV_finishget", "src/lvm.c:luaV_finishset"]}
{"id": "C47", "title": "The compiler's bit sets behave as sets of naturals", "statement": "After any sequence of set/clear/range/copy/union/intersection operations membership queries return what the corresponding sets of naturals contain, and the 'changed' results are exact.", "quantifier": "all operation sequences and bit numbers", "why_tests_cant": "unbounded histories with growth and shrinking", "anchors": ["ravicomp/src/bitset.c:raviX_bitset_set_bit_p", "ravicomp/src/bitset.c:raviX_bitset_copy", "ravicomp/src/bitset.c:raviX_bitset_op2", "ravicomp/src/bitset.h:raviX_bitset_clear"]}
{"id": "C48", "title": "The compiler's hash sets behave as sets", "statement": "After any sequence of insertions and removals a lookup finds a key exactly when it was inserted and not removed since; probing always terminates and insertion succeeds while growth is possible.", "quantifier": "all operation sequences, all hash functions", "why_tests_cant": "double hashing over all collision patterns", "anchors": ["ravicomp/src/set.c:raviX_set_add_pre_hashed", "ravicomp/src/set.c:raviX_set_search_pre_hashed", "ravicomp/src/hash_table.c:raviX_hash_table_insert_pre_hashed"]}
{"id": "C49", "title": "Constructor size hints are safe", "statement": "The 'floating point byte' encoding of a constructor's size decodes to a size at least as large as, and less than 12.5% larger than, the requested one, and size logarithms are exact ceilings.", "quantifier": "all unsigned sizes", "why_tests_cant": "2^32 sizes", "anchors": ["src/lobject.c:luaO_int2fb", "src/lobject.c:luaO_fb2int", "src/lobject.c:luaO_ceillog2"]}
{"id": "C50", "title": "Operator precedence and associativity", "statement": "Every expression token sequence is parsed to the unique tree prescribed by the precedence and associativity table of the manual.", "quantifier": "all expressions", "why_tests_cant": "all operator sequences", "anchors": ["src/lparser.c:subexpr", "src/lparser.c:priority"]}
{"id": "C51", "title": "Clearing several registers is merged safely", "statement": "Declaring consecutive nil locals clears exactly the registers asked for, whether or not the instruction is merged with the preceding one, and never when control can arrive between the two declarations.", "quantifier": "all code prefixes and register ranges", "why_tests_cant": "all adjacent/overlapping range combinations and pending jumps", "anchors": ["src/lcode.c:luaK_nil"]}
{"id": "C52", "title": "utf8.codes rejects invalid strings", "statement": "Iterating utf8.codes over a string that is not valid UTF-8 raises an error; otherwise every position visited is the start of an encoded character and no character is skipped.", "quantifier": "all byte strings", "why_tests_cant": "unbounded set of malformed inputs", "anchors": ["src/lutf8lib.c:iter_aux", "src/lutf8lib.c:iter_codes"]}
{"id": "C53", "title": "Traversal of a typed array visits its elements in order", "statement": "Iterating with next/pairs over an integer[] or number[] of length n yields (1,a[1]), ..., (n,a[n]) in this order and stops; next with a key outside 1..n ends the iteration or raises an error, and never yields anything else.", "quantifier": "all arrays, slices and keys", "why_tests_cant": "all arrays and 64-bit control values", "anchors": ["src/ltable.c:raviH_next"]}
{"id": "C54", "title": "The random number generator never degenerates", "statement": "Advancing the generator is a bijection on its 256-bit states, the all-zero state is only reached from itself, and no seed produces it.", "quantifier": "all states and seeds", "why_tests_cant": "2^256 states", "anchors": ["src/lmathlib.c:nextrand", "src/lmathlib.c:setseed"]}
{"id": "C55", "title": "table.pack and table.unpack are inverse", "statement": "table.pack(...) stores its arguments, nils included, at 1..n with n their number; table.unpack(t, i, j) returns exactly t[i], ..., t[j] for all 64-bit i and j or raises an error when there are too many; unpacking a packed list gives it back.", "quantifier": "all argument lists, all 64-bit bounds", "why_tests_cant": "extreme bounds overflow the index arithmetic unless it is done right", "anchors": ["src/ltablib.c:pack", "src/ltablib.c:unpack"]}
{"id": "C56", "title": "gmatch and gsub process exactly the successive matches", "statement": "string.gmatch yields, and string.gsub replaces, exactly the matches found from left to right, each starting where the one before ended or later and none being an empty match right after another match; gsub keeps all other bytes, performs at most the given number of replacements and returns their number; a kept value leaves the match as it is; both end.", "quantifier": "all subjects, patterns, replacements and limits", "why_tests_cant": "all positions of empty matches and all combinations of limits and replacement results", "anchors": ["src/lstrlib.c:gmatch_aux", "src/lstrlib.c:str_gsub", "src/lstrlib.c:add_s", "src/lstrlib.c:add_value"]}
{"id": "C57", "title": "The lexer yields exactly the tokens of the lexical grammar", "statement": "For every sequence of bytes, handed over in whatever blocks, the tokens with their values and line numbers are exactly those of the lexical grammar (longest match, escapes, long brackets, numerals, comments, casts); a text without such a tokenisation is an error; the lexer never reads past the end of its input.", "quantifier": "all byte sequences and all ways to cut them into blocks", "why_tests_cant": "unboundedly many texts; block boundaries can fall inside any token", "anchors": ["src/llex.c:llex", "src/llex.c:read_string", "src/llex.c:read_long_string", "src/llex.c:casttoken"]}
{"id": "C58", "title": "Code of an expression leaves its value in the next register and disturbs no variable", "statement": "For every expression, the code generated for it computes the value the language gives it, raises an error exactly when the expression does, puts the value into the next free register and leaves every variable and pending temporary value alone, whatever constant folding, specialised instructions, jump merging and register reuse were applied.", "quantifier": "all expressions, all states of the compiler where one may begin, all states of the machine", "why_tests_cant": "unboundedly many nestings of operators; wrong code shows up only for particular nestings and values", "anchors": ["src/lcode.c:luaK_exp2nextreg", "src/lcode.c:luaK_posfix", "src/lcode.c:exp2reg", "src/lparser.c:subexpr"]}
{"id": "C59", "title": "Code of statements follows their control flow", "statement": "For every sequence of statements (assignments, calls, declarations, do, if, while, repeat, break), the generated code, whose jumps are patched while it is written, runs them as their structure says: each branch and round is run exactly when its condition says, break leaves the innermost loop, variables of a block live in registers nothing else uses, errors come where the statements raise them, and the code ends if and only if the statements do.", "quantifier": "all programs of these statements, all states of the machine", "why_tests_cant": "all nestings of loops, branches and breaks, and runs of any length; a misplaced jump shows up in one combination only", "anchors": ["src/lparser.c:statement", "src/lparser.c:whilestat", "src/lparser.c:repeatstat", "src/lparser.c:test_then_block", "src/lparser.c:localstat", "src/lcode.c:luaK_patchlist"]}
{"id": "C60", "title": "Names denote the innermost visible declaration", "statement": "Every use of a name is compiled to an access to the variable of the innermost declaration visible at that point, with the type declared there, or, if there is none, to a field of _ENV; for variables of enclosing functions the closure made at run time has exactly that variable in the upvalue used; a block whose variables are used by inner functions closes them when it ends.", "quantifier": "all sequences of declarations, blocks, functions and uses", "why_tests_cant": "all nestings of functions and blocks with shadowed names; an upvalue found by its name could belong to another variable", "anchors": ["src/lparser.c:singlevaraux", "src/lparser.c:searchvar", "src/lparser.c:searchupvalue", "src/lparser.c:newupvalue", "src/lparser.c:markupval", "src/lparser.c:leaveblock"]}
{"id": "C61", "title": "Calls pass arguments and results exactly", "statement": "A call runs the function with the arguments as its parameters, nil for the missing ones, the surplus ones being the values of ... or dropped; a value with a __call metamethod is passed as first argument to it; the values returned, cut or filled up with nil to the number asked for, arrive in the registers from the one of the function on, and the caller's other registers are as before; a tail call returns to the caller's caller what that one asked for.", "quantifier": "all functions, arguments, numbers of results asked for and stacks", "why_tests_cant": "all combinations of parameters, arguments, varargs, open and fixed calls; each special case of the copying loops has its own boundary", "anchors": ["src/ldo.c:luaD_precall", "src/ldo.c:adjust_varargs", "src/ldo.c:tryfuncTM", "src/ldo.c:moveresults", "src/ldo.c:luaD_poscall", "src/lvm.c:luaV_execute", "src/lvm.c:raviV_op_vararg"]}
{"id": "C62", "title": "Gotos lead to the visible label and close what they leave", "statement": "Every goto of an accepted program jumps to the label of its name in the innermost enclosing block of the same function that has one, before or after the goto, and every break behind the innermost loop; programs with a goto into the scope of a local, without a visible label or with a label twice in a block are rejected and all others accepted; the jump closes the captured variables whose scope it leaves and none that stays in scope.", "quantifier": "all programs", "why_tests_cant": "all nestings of blocks, loops and functions with any number of gotos pending; lists are changed while they are searched", "anchors": ["src/lparser.c:closegoto", "src/lparser.c:findlabel", "src/lparser.c:findgotos", "src/lparser.c:movegotosout", "src/lparser.c:leaveblock", "src/lparser.c:labelstat", "src/lparser.c:breaklabel"]}
{"id": "C63", "title": "Compiled code does what the interpreter does", "statement": "The C text that the JIT generates for a function does, instruction by instruction, what the interpreter does with the function's bytecode: same results, same errors, same registers and same effects, whatever the constants, the types of the values, the metamethods and the compile options; every goto of the text has its label; and numeric loops, whose counters the compiled code keeps in C variables, give their bodies the same values.", "quantifier": "all functions over the modelled instructions, all constants, states, libraries and numbers of steps", "why_tests_cant": "two implementations of each instruction, specialised by operand kind (register, integer or float constant), option and type; tests compile a few functions and compare a few results", "anchors": ["src/ravi_jitshared.c:raviJ_codegen", "src/ravi_jitshared.c:scan_jump_targets", "src/ravi_jitshared.c:emit_comparison", "src/ravi_jitshared.c:emit_op_forprep", "src/ravi_jitshared.c:emit_op_forloop", "src/lvm.c:luaV_execute", "src/ravi_jit.c:ravi_compile_n"]}
{"id": "C64", "title": "Assignments evaluate everything first", "statement": "In an assignment with any number of targets and values the tables and keys of the targets and all the values are evaluated before anything is assigned, missing values are nil, surplus ones are dropped, a call or ... at the end supplies all its values, and each target gets its value, whatever variables the targets share (a[i], i = ..., t, t.x = ..., swaps).", "quantifier": "all lists of targets and values, all register numbers, constants, functions and tables", "why_tests_cant": "the compiler keeps variables of earlier targets in place and saves a copy only when a later target is that variable; which of the exponentially many combinations of targets, keys and value kinds goes wrong cannot be found by trying some", "anchors": ["src/lparser.c:1859-1885 check_conflict", "src/lparser.c:1892-1927 assignment", "src/lparser.c:750-770 adjust_assign", "src/lcode.c:1027-1067 luaK_storevar"]}
{"id": "C65", "title": "Coroutines pass values exactly", "statement": "Whatever coroutines resume, wrap, yield to and query each other, the arguments of a resume arrive at the function or as the results of the yield that waits for them, the values of a yield or return arrive as results of the resume, errors end the coroutine and reach the resumer, the locals of a waiting coroutine are untouched, and status, running, isyieldable and the error messages tell the truth.", "quantifier": "all programs, all numbers of coroutines, values and results, all nestings, all limits on C calls", "why_tests_cant": "the state is spread over the stacks of all threads and every resume moves values between two of them; which sequence of operations leaves a stack out of step cannot be tried out", "anchors": ["src/lcorolib.c:28-53 auxresume", "src/lcorolib.c:73-92 luaB_auxwrap", "src/lcorolib.c:117-141 luaB_costatus", "src/ldo.c:729-793 resume, lua_resume", "src/ldo.c:800-825 lua_yieldk", "src/lapi.c:123-137 lua_xmove", "src/lstate.c:325-345 lua_resetthread"]}
{"id": "C66", "title": "Moving the stack changes nothing", "statement": "Whenever the stack of a thread grows or shrinks, at whatever address the new block is, every slot in use keeps its value, new slots are nil, and the top, all open upvalues and the func, base and top of all active calls point to the slots they pointed to; growing makes the room that was asked for within the limit or reports an overflow with room left for the handler; lua_checkstack never throws.", "quantifier": "all stacks, all addresses, all numbers of calls and upvalues, all requested sizes, all answers of the allocator", "why_tests_cant": "a pointer that is not corrected points into freed memory that still has the old value most of the time; tests pass unless the allocator moves the block and reuses the old one in between", "anchors": ["src/ldo.c:173-186 correctstack", "src/ldo.c:192-203 luaD_reallocstack", "src/ldo.c:206-222 luaD_growstack", "src/ldo.c:225-253 stackinuse, luaD_shrinkstack", "src/lapi.c:101-122 lua_checkstack"]}
{"id": "C67", "title": "Simplification by the compiler keeps the meaning", "statement": "For every expression, what the compiler ravicomp makes of it by folding constants and flattening concatenations evaluates to the same value with the same effects in the same order and the same errors as the expression itself under the arithmetic of the interpreter.", "quantifier": "all expressions, all program states, all metamethods and called functions, all float operations", "why_tests_cant": "folding depends on the pairs of constants and on where in the tree they stand; the cases that go wrong are at the ends of the integer range and in code that is not run", "anchors": ["ravicomp/src/ast_simplify.c:172-233 luaV_idiv, luaV_mod, luaV_shiftl", "ravicomp/src/ast_simplify.c:235-374 intarith, numarith, luaO_rawarith", "ravicomp/src/ast_simplify.c:376-508 flatten_concat_expression, process_expression"]}
{"id": "C68", "title": "String buffers hold exactly what was added", "statement": "Whatever sequence of luaL_addlstring, luaL_addchar, luaL_addvalue and luaL_prepbuffsize/luaL_addsize fills a buffer, no byte outside the block in use is read or written, the result is what was added in order, the stack below is unchanged and all memory of the buffer is freed; errors are raised only when the size does not fit or the allocator fails.", "quantifier": "all sequences of additions of all sizes, all stacks, all addresses, all contents of fresh memory, all answers of the allocator", "why_tests_cant": "size computations that wrap around need strings of more than 2^63 bytes; use of a block that was moved needs an allocator that moves it and reuses the old one at the right time", "anchors": ["src/lauxlib.c:461-492 resizebox, newbox", "src/lauxlib.c:505-525 luaL_prepbuffsize", "src/lauxlib.c:528-566 luaL_addlstring, luaL_pushresult, luaL_addvalue", "include/lauxlib.h:179-183 luaL_addchar, luaL_addsize"]}
{"id": "C69", "title": "Chunk names fit and say where the code is from", "statement": "For every source string and every buffer of at least 16 bytes luaO_chunkid reads only the source and writes only the buffer, and the result is the given name, the end of the file name, or the first line of the string in [string \"...\"], cut to fit and ended by a zero byte.", "quantifier": "all sources of all lengths and contents, all buffer sizes from 16 on", "why_tests_cant": "the boundary cases depend on the relation of the length, the buffer and the place of the first newline; an overrun by one byte goes unnoticed in most builds", "anchors": ["src/lobject.c:571-614 luaO_chunkid"]}
