# Formal model of Ravi (Lua 5.3 dialect with optional static typing)

Source: `/repo` (dibyendumajumdar/ravi, pinned commit), read as text only.
Prover: Coq/Rocq 8.16.1.  Development in `/verif/rocq/theories`, logical path `Verif`.

## Layout

For each subject `X` there are up to four files:

* `X_model.v`  - Gallina functions transcribing the C functions, each with a comment citing file and lines; no proofs.
* `X_spec.v`   - a small independent specification (lists, finite maps, mathematical integers, ...), not using the model's helpers.
* `X_proofs.v` - lemmas.
* `X_thm.v`    - the property theorems only, each closed by `exact ...`, followed by `Print Assumptions`, and by a `*_witness` example showing a non-trivial instance which meets the hypotheses.

Conventions:

* C integers are `Z` with explicit reductions (`wrap64`, `u64`, `u32`); undefined behaviour is a distinct outcome (`None`/`UB`), never silently given a value.
* loops without an obvious structural measure use fuel; running out of fuel is a distinct outcome and each theorem shows that the fuel supplied suffices (or is stated for every fuel and excludes that outcome).
* calls to external code (locale functions, allocator, user callbacks such as a comparison function or a reader) are parameters (section variables which are universally quantified in the theorems), never axioms.
* a property which is false of the code as written is kept in full, is *refuted* by a theorem `..._refuted` with a concrete witness, and the strongest true version that was found is proved under the suffix `_partial`.

## Plan per property

| id | modelled | proof method |
|----|----------|--------------|
| C01 | luaV_idiv, luaV_mod, intop add/sub/mul/unm | case analysis, Z division lemmas, `lia`/`nia` |
| C02 | luaV_shiftl, OP_SHR/OP_SHL | bit-level lemmas on Z; UB of `-y` for y = minint is a distinct outcome |
| C03 | LTintfloat..LEfloatint, LTnum/LEnum, equality; floats as `SpecFloat.spec_float` binary64 | value of a float is m*2^e; comparison against Z x 2^e order |
| C04 | luaV_flttointns/luaV_tointeger, floor | same float model, floor by Z shift |
| C05 | forlimit, FORPREP/FORLOOP and Ravi variants, fornum's choice of the variant | loop = iteration of a step function; induction on the trip count |
| C06,C07,C10 | ltable.c: nodes with relative `next`, lastfree, mainposition with an arbitrary hash, newkey, rehash, resize | representation invariant (chains), preserved by every operation; refinement to a map |
| C08 | luaH_next/findindex over the same representation | position order is a bijection of entries; updates keep layout |
| C09 | luaH_getn, unbound_search | invariant of the binary search |
| C11,C12 | RaviArray heap with data blocks, slices as (block, offset) | invariant over all histories |
| C13 | luaK_setlist/closelistfield batching + OP_SETLIST for tables and arrays | induction over batches; refuted for typed arrays with more than 50 items |
| C14-C16 | luaO_utf8esc, utf8_decode, utflen, codepoint, byteoffset, iter_aux | refinement to an inductive encoding relation |
| C17,C18 | ldump.c/lundump.c on an inductive prototype type | structural induction; prefix rejection via parser "consumption" lemma |
| C19 | lzio.c over a list of pieces | simulation with the concatenated buffer |
| C20 | packint/unpackint/copywithendian/alignment and option parser | induction on size |
| C21,C22 | posrelat, str_sub, str_byte, str_rep | list lemmas, `lia` |
| C23,C24 | lmemfind, match & co. with fuel | declarative match relation; soundness, completeness of the backtracking order |
| C25 | auxsort/partition/choosePivot over a mutable array and an arbitrary comparator | permutation invariant for every comparator, sortedness for strict weak orders |
| C26 | tinsert/tremove/tmove/tconcat over a map | induction on the loops |
| C27 | string table with hash chains | invariant |
| C28 | l_strcmp with `strcoll` a parameter | lexicographic order lemmas |
| C29 | l_str2int, luaO_tostring (integers), l_str2d left out | digit induction |
| C30,C31 | lopcodes.h macros, jump lists of lcode.c | bit lemmas, list invariant |
| C32 | constfolding/validop with the arithmetic of C01/C02 | case analysis |
| C33-C35 | a typed expression/assignment fragment of lparser.c/lcode.c and the opcodes it emits | type soundness by simulation, refutations for the unsound corner cases |
| C36,C37 | open upvalue list, close, deferred functions | invariant / refinement to a store of shared cells |
| C38-C40 | incremental collector: colours, gray lists, barriers, sweep, weak tables | tri-colour invariant over all interleavings |
| C41 | lua_rotate | list reversal lemmas |
| C42 | luaL_ref/unref on the abstract table | free-list invariant |
| C43 | project | bit masks; counting argument |
| C44 | lbitlib.c, bit.c | bit-level lemmas |
| C45 | addquoted and the lexer's string reader | simulation by induction on the string |
| C46 | luaV_finishget/finishset loops | induction on the bound |
| C47,C48 | bitset.c, set.c/hash_table.c | invariant + refinement to sets; primality of the table sizes by computation |
| C49 | luaO_int2fb/fb2int/ceillog2 | arithmetic |
| C50 | subexpr with the priority table | refinement to a grammar of trees |

Not expressible in the model: real memory (addresses, allocator failures other than as an explicit outcome), run time and space usage, the C compiler, the JIT back ends (`mir/`, code generation to C in `ravicomp/src/codegen.c`), operating-system services (`liolib.c`, `loslib.c`).

## Trusted base

* Coq 8.16.1's kernel and the virtual machine it uses for `vm_compute` (witnesses and a few finite checks).
* The hand transcription from C to the `*_model.v` files. Every definition cites the lines it stands for; the tables below say what is modelled and what is simplified or left out. Nothing was compiled or run, so no differential testing against the real program backs the transcription.
* The specifications in the `*_spec.v` files, which are meant to be read.
* Axioms: **none**. `Print Assumptions` stands beneath every theorem in the `*_thm.v` files and prints `Closed under the global context` for each of them in the output of `make`. No file declares an axiom, a parameter outside a section, or leaves a proof open.

## What is modelled

| file | C code | simplifications and omissions |
|---|---|---|
| `IntArith_model.v` | lvm.c luaV_div (integers), luaV_mod, luaV_shiftl, OP_SHL/OP_SHR; lobject.c intarith | lua_Integer is 64 bits; casts from unsigned to signed wrap (gcc) |
| `Size_model.v` | lobject.c luaO_int2fb, luaO_fb2int, luaO_ceillog2 |  |
| `Opcode_model.v` | lopcodes.h field macros; lcode.c luaK_nil, fixjump, luaK_getjump, luaK_concat, luaK_patchlist and the jump-list part of luaK_patchtestreg | code is a list of instructions; line information and limits on the code size are left out |
| `Utf8_model.v` | lobject.c luaO_utf8esc; lutf8lib.c utf8_decode, utflen, codepoint, utfchar, byteoffset, iter_aux | argument checking of the C API is reduced to the range checks written in the functions |
| `RArray_model.v` | ltable.c raviH_* on integer[]/number[], ravi_resize_array, raviH_new_slice, next; the creators in ltablib.c and lapi.c | generic in the element type; memory blocks are explicit, allocation always succeeds; metatables left out |
| `Api_model.v` | lapi.c index2addr for positive/negative indices, lua_settop, lua_rotate, lua_copy, lua_absindex, lua_checkstack | pseudo-indices and stack reallocation left out |
| `Ref_model.v` | lauxlib.c luaL_ref, luaL_unref | over an abstract table with integer keys |
| `Zio_model.v` | lzio.c luaZ_fill, luaZ_read, zgetc | the reader is a list of pieces |
| `Random_model.v` | lmathlib.c rotl, nextrand, project, math_random (integers), setseed | floats from I2d left out; clock and address seeds left out |
| `Bitlib_model.v` | lbitlib.c, bit.c | arguments already converted to lua_Integer |
| `Strlib_model.v` | lstrlib.c posrelatI, getendpos, str_len, str_sub, str_reverse, str_rep, str_byte, str_char, lmemfind, nospecials, find with plain search | memory errors left out |
| `Ctype_model.v` | lctype.c table, lctype.h macros |  |
| `Num_model.v` | lobject.c l_str2int, luaO_str2num (integers), lua_Integer formatting; lbaselib.c b_str2int | conversion of floats by strtod and printf left out |
| `Strcmp_model.v` | lvm.c l_strcmp, luaV_lessthan/luaV_lessequal on strings | strcoll is a parameter |
| `Float_model.v` | lvm.c luaV_flttointns, LTintfloat, LEintfloat, LTfloatint, LEfloatint, LTnum, LEnum, luaV_equalobj on numbers; lmathlib.c floor, ceil | floats are Coq's SpecFloat for binary64 in round-to-nearest; all NaNs identified |
| `For_model.v` | lparser.c fornum/forbody (choice of instructions); lvm.c forlimit, OP_FORPREP, OP_FORLOOP, OP_RAVI_FORPREP_I1/IP, OP_RAVI_FORLOOP_I1/IP | loops over floats left out; the body does not change the control variables |
| `Table_model.v` | ltable.c on plain tables: mainposition, l_hashfloat, findindex, luaH_next, computesizes, countint, numusearray, numusehash, setnodevector, luaH_resize, luaH_resizearray, rehash, luaH_new, getfreepos, luaH_newkey, luaH_getint, getgeneric, luaH_get, luaH_set, luaH_setint, unbound_search, luaH_getn; lgc.c removeentry | values and objects other than numbers are abstract; long strings of equal contents are one key; the hash function is arbitrary; allocation always succeeds; the short-string cache of ltable.h (raviH_getstr) is the same search; metamethod caches (flags) left out |
| `Sort_model.v` | ltablib.c set2, sort_comp, partition, choosePivot, auxsort, sort | the comparison does not assign to the table; metamethods left out |
| `Tablib_model.v` | ltablib.c tinsert, tremove, tmove, tconcat, pack, unpack | tables as maps from integer keys (refined by Table_model.v); metamethods and memory errors left out |
| `Setlist_model.v` | lparser.c constructor, closelistfield, lastlistfield, listfield, recfield (1099-1213); lcode.c luaK_setlist (1778-1791); lvm.c OP_SETLIST (1960-2029), raviV_op_setlist (2807-2860) | Expressions are their values plus the registers they may overwrite; record fields are assumed to use keys that are no list positions; the table is a map of integer keys; register exhaustion (more than 125 registers) is not modelled. |
| `Bitset_model.v` | ravicomp/src/bitset.c and bitset.h, all functions | overflow of size_t and allocation failure left out |
| `Hset_model.v` | ravicomp/src/hash_table.c and set.c: create, search, insert, remove, rehash, foreach | allocation succeeds; removal during an iteration, random entries and destruction left out |
| `Pack_model.v` | lstrlib.c getnum, getnumlimit, initheader, getoption, getdetails, packint, copywithendian, str_pack, str_packsize, unpackint, str_unpack (1326-1752) | LP64 sizes; argument conversions (luaL_checkinteger, luaL_checknumber, luaL_checklstring) and the conversion between double and float are parameters; memory errors and the buffer limit left out; the room on the stack is a parameter |
| `Dump_model.v` | ldump.c (all functions for binary chunks, 1-241), lundump.c (all), lzio.c luaZ_fill and luaZ_read, ldo.c f_parser (872-895), lstrlib.c str_dump | LP64 sizes; strings by contents, identity only for the source shared with the enclosing function; memory errors, C stack depth and the closure cache left out; text chunks are only recognised, not parsed |
| `Match_model.v` | lstrlib.c 345-1000: match and all functions it uses, get_onecapture, push_captures, str_find_aux, gmatch, gmatch_aux, add_s, add_value, str_gsub | C locale; the matcher recurses structurally on matchdepth; captures below level only; buffers as lists; replacement calls and number formatting are parameters; memory errors left out |
| `Intern_model.v` | lstring.c luaS_hash, luaS_resize, luaS_clearcache, luaS_init, createstrobj, luaS_remove, internshrstr, luaS_newlstr, luaS_new, luaS_eqlngstr; lgc.h mark bits; lgc.c freeobj for strings, the per-object step of sweeplist and sweepgen, checkSizes, the end of atomic; lvm.c luaV_equalobj for strings | strings live in a heap of addresses with the real hnext links; failing allocation, the emergency collection of growstrtab and which objects get marked are left out |
| `Upval_model.v` | lfunc.c luaF_findupval, luaF_close; lvm.c getcached, pushclosure, OP_CLOSURE, OP_GETUPVAL, OP_SETUPVAL, OP_RAVI_DEFER; lgc.c luaC_upvdeccount, freeLclosure; lapi.c lua_upvaluejoin | a stack slot is a thread and an index, so moving a stack changes nothing; luaF_close without calling deferred functions in C36 (the call is a parameter); barriers and the list of threads with open upvalues (twups) left out; a collected closure leaves the caches at once |
| `Defer_model.v` | luaF_findupval, calldeferredfunction, luaF_close (lfunc.c:64-178), luaD_seterrorobj, luaD_pcall, recover (ldo.c), OP_RAVI_DEFER, OP_JMP, OP_RETURN, OP_TAILCALL, OP_CALL as far as the stack, the open upvalues and L->top are concerned, pcall of lbaselib.c, lua_resetthread, luaE_freethread. Stack pointers carry the time they were taken; using one after the stack moved is UB, and the theorems quantify over when the stack moves. | A function body is a tree of actions on its registers, with Coq functions for what depends on values read, results or the outcome of pcall; bodies take no arguments and results are handed to the tree directly. The error message is pushed by raise. What the compiler guarantees (no tail call in the scope of a defer, blocks with defers or captured variables are closed) is the predicate legal. Yields, hooks, stack and C stack overflow, the message handler of xpcall and the call-info chain are left out. |
| `Meta_model.v` | luaV_finishget, luaV_finishset (lvm.c:206-291), luaV_fastget (lvm.h:83-110), the GETTABLE and SETTABLE macros (lvm.c:293-500), OP_SELF, fasttm, luaT_gettm, luaT_gettmbyobj (ltm.c:59-87, ltm.h:52-55), invalidateTMcache (ltable.h:27), lua_getfield, lua_setfield, lua_rawset, lua_rawseti, lua_rawsetp, lua_setmetatable, flags of luaH_new | Keys are numbers, with 0..5 for the names of the cached events; a table is a finite map given as a function (C06 proves luaH_get and luaH_set against it); the elements of typed arrays are not modelled here (C11); a metamethod call is reported as the result of the operation. |
| `Prec_model.v` | lparser.c: fieldsel, yindex, recfield, listfield, field, constructor, user_defined_type_name, explist, funcargs, primaryexp, suffixedexp, simpleexp, getunopr, getbinopr, the table of priorities, subexpr, expr, enterlevel; ravicomp/src/parser.c has the same structure and the same table | Tokens come from the lexer; FUNCTION with its body is one token; names and strings are byte strings; the code generated, the check that ... is inside a vararg function and the limits on constructor items are left out. |
| `Gc_model.v` | lgc.c: reallymarkobject, markmt, markbeingfnz, remarkupvals, restartcollection, traverseweakvalue, traverseephemeron, traversestrongtable, traversetable, traverseproto, traverseCclosure, traverseLclosure, traversethread, propagatemark, propagateall, convergeephemerons, clearkeys, clearvalues, clearprotolist as part of traverseproto, luaC_upvdeccount, freeobj, sweeplist, sweeptolive, separatetobefnz, udata2finalize, GCTM without the call, luaC_checkfinalizer, luaC_barrier_, luaC_barrierback_, luaC_upvalbarrier_, luaC_newobj, luaC_fix, atomic, sweepstep, singlestep, fullinc; the barriers at each store of lapi.c, lvm.c, ltable.c, lfunc.c, lstring.c (internshrstr, luaS_clearcache), lundump.c without barrier | The heap is a map from identities to objects with their colour, the lists are Coq lists, sweepgc a position in a list. One GStep is one singlestep; how many are run per allocation (debt, pauses, estimates) is left to the interleaving, which is arbitrary. Stack shrinking, the string table's size, memory accounting, and generational mode are left out; what a finalizer does is further events. Numbers are not objects; integer arrays, number arrays and slices are objects with the parent as only reference. The interpreter is any sequence of events on reachable objects ('legal'). |
| `Lex_model.v` | llex.c: inclinenumber, luaX_setinput (the first character), check_next1, check_next2, read_numeral, skip_sep, read_long_string, esccheck, gethexa, readhexaesc, readutf8esc, utf8esc, readdecesc, read_string, casttoken, llex, luaX_next; lzio.h zgetc, lzio.c luaZ_fill; lobject.c luaO_str2num; lstrlib.c addquoted and the integer case of addliteral | The growth of the token buffer, anchoring of strings and the texts of error messages are left out: all lexical errors are one error. strtod and iscntrl are parameters. A zero byte in a cast word cannot occur, so strncmp is comparison of bytes. |
| `Op_model.v` | lvm.c: OP_ADD .. OP_SHR, OP_UNM, OP_BNOT, OP_EQ, OP_LT, OP_LE, the OP_RAVI_*II, FF, FI, IF opcodes, GETTABLE_INLINE_, SETTABLE_INLINE_ and their _I_ and _SSKEY_ forms, OP_RAVI_TABLE_GETFIELD, OP_RAVI_IARRAY_GET .. OP_RAVI_FARRAY_SETF; lobject.c intarith, numarith, luaO_rawarith; lcode.c validop, constfolding, codebinexpval and codeunexpval (choice of the opcode and the type), get_type_specific_comp_op, the opcodes chosen in luaK_dischargevars and luaK_storevar; llimits.h luai_nummod, luai_numidiv | Metamethods, table access, fmod and pow are parameters. A type map is an integer of unbounded width instead of 32 bits. luaH_get, luaH_getint and luaH_getshortstr are taken as one function of the key (their agreement is the subject of C07-C10). |
| `Gen_model.v` | lcode.c: tonumeral, getjumpcontrol, patchtestreg, removevalues, patchlistaux, dischargejpc, luaK_code, luaK_jump, condjump, luaK_patchtohere, luaK_reserveregs, freereg, freeexp, freeexps, addk, luaK_dischargevars, discharge2reg, discharge2anyreg, need_value, exp2reg, luaK_exp2nextreg, luaK_exp2anyreg, luaK_exp2val, luaK_exp2RK, check_valid_store and luaK_storevar for local variables, negatecondition, jumponcond, luaK_goiftrue, luaK_goiffalse, codenot, luaK_indexed, codeunexpval, codebinexpval, codecomp, code_type_assertion, luaK_prefix, luaK_infix, luaK_posfix; lparser.c: subexpr, simpleexp, suffixedexp, primaryexp, funcargs, cond; lvm.c: the instructions these generate | Jump lists are Coq lists of positions (their encoding in the instructions is C31); limits on registers, constants and jump distances are left out, as is the merging of OP_LOADNIL; a call has one result; table constructors, closures, varargs, method calls and user-defined types are left out. Table access, metamethods, concatenation, length and calls are parameters that act on an abstract world; that a called function changes a captured local variable of its caller is left out (C36 has the upvalues). |
| `Stat_model.v` | lparser.c: statement, exprstat for calls and for assignments to one local variable, localstat, ravi_typecheck, ravi_code_typecoersion, adjustlocalvars, whilestat, repeatstat, ifstat, test_then_block, gotostat for break, breaklabel, leaveblock, removevars; lcode.c luaK_patchlist, luaK_patchtohere | A program is a syntax tree whose local variables are the numbers of their registers (name resolution is not modelled here). Pending breaks are returned as a list instead of kept in Dyndata. Blocks with upvalues (OP_JMP with A > 0) are left out, as are for, goto, return, multiple assignment, and functions. A call whose result is not used keeps one result in a free register. |
| `Names_model.v` | lparser.c: new_localvar, registerlocalvar, getlocvar, raviY_get_register_typeinfo, adjustlocalvars, removevars, searchupvalue, newupvalue, searchvar, markupval, singlevaraux, singlevar, enterblock, leaveblock (closing jump and variables), open_func, close_func, mainfunc, localfunc for defer | The parser is a machine driven by the events of the source text. An entry of Dyndata.actvar stands for the LocVar its idx refers to (registerlocalvar only appends). Startpc and endpc, user types and the growth of the arrays are left out. |
| `Call_model.v` | ldo.c: adjust_varargs, tryfuncTM, moveresults, luaD_poscall, luaD_precall; lvm.c: OP_CALL, OP_TAILCALL, OP_RETURN, raviV_op_vararg | The stack is a function from positions to values, the CallInfo list a list; a C function is a parameter that transforms the stack. luaD_checkstack (the stack can always grow), the hooks, the JIT branch and luaF_close are left out. |
| `Goto_model.v` | lparser.c: closegoto, findlabel, newlabelentry, findgotos, movegotosout, enterblock, breaklabel, leaveblock, gotostat, checkrepeated, labelstat, skipnoopstat; lcode.c: luaK_patchclose for gotos | The parser runs over a tree of statements of which only blocks, locals, labels, gotos and the number of instructions are kept. The operand A of the jump of a goto is kept with the goto. pc is counted through inner functions. A block is marked for closing when the captured local is declared, not when it is used; the mark is read only at the end of the block. Labels that follow a label directly are entered after its gotos are resolved. |
| `Jit_model.v` | ravi_jitshared.c: scan_jump_targets, emit_reg_or_k, emit_IARRAY_GET .. emit_FARRAY_SET, emit_op_arithslow, emit_op_unm, unmf, unmi, bnot, emit_int_bitop, emit_op_BNOT_I, emit_comparison, emit_jump_label, emit_op_loadk, return, move, loadnil, jmp, loadbool, test, testset, gettable, settable, emit_binary_op, emit_ff_op .. emit_ii_op, divii, loadfz .. tostring, not, iforprep, forprep, iforloop, forloop, raviJ_codegen for these; lvm.c luaV_execute for the same opcodes; ltable.c raviH_set_int, raviH_set_float | The generated text is a syntax tree and has a semantics of its own: pointers ra, rb, rc to registers or constants, the C variables, signed overflow and the minimum integer as literal undefined, float constants that are integers printed by %.17g read back as integer literals. Other float literals are assumed to be read back exactly. The library, metamethods and memory of arrays are parameters. base never moves (registers are addressed by number), savedpc and error codes (all type errors are one error) are left out. Strings are not converted to numbers for loops. |
| `Assign_model.v` | lparser.c check_conflict, assignment, adjust_assign, explist; lcode.c luaK_storevar, luaK_indexed, freereg, freeexp, luaK_setreturns, luaK_setoneret, luaK_dischargevars, discharge2reg, luaK_exp2nextreg, luaK_exp2anyreg, luaK_exp2RK as far as assignments use them; lvm.c OP_MOVE, OP_GETUPVAL, OP_SETUPVAL, OP_SETTABLE, OP_SETTABUP | Other expressions are single instructions whose effect on variables and world is a parameter and which overwrite all free registers. Variables have no declared type; register limits and the merging of OP_LOADNIL are left out. |
| `Coro_model.v` | lcorolib.c auxresume, luaB_coresume, luaB_auxwrap, luaB_cocreate, luaB_yield, luaB_costatus, luaB_yieldable, luaB_corunning; ldo.c resume_error, resume, lua_resume, unroll, lua_yieldk; lapi.c lua_xmove; lstate.c lua_resetthread | A thread's stack is the list of its frames. Lua code is a tree of calls of the library with its registers at each call; a coroutine has one Lua frame. Stack size limits, hooks, continuations, pcall and pending deferred functions are left out. |
| `Stack_model.v` | ldo.c correctstack, luaD_reallocstack, luaD_growstack, stackinuse, luaD_shrinkstack; ldo.h luaD_checkstack; lapi.c lua_checkstack | Addresses in units of TValue; the answer of the allocator is a parameter; freeing unused CallInfos is left out. |
| `Simp_model.v` | ravicomp/src/ast_simplify.c luaV_idiv, luaV_mod, luaV_shiftl, intarith, numarith, luaO_rawarith, walk_binary_expr, flatten_concat_expression, process_expression | Expressions are trees; names, functions and builtins are opaque; float operations are parameters; statements are not modelled. |
| `Buffer_model.v` | lauxlib.c resizebox, newbox, luaL_prepbuffsize, luaL_addlstring, luaL_addvalue, luaL_pushresult, luaL_buffinit; lauxlib.h luaL_addchar, luaL_addsize | Blocks have numbers and every move gets a new one; the answer of the allocator and fresh memory are parameters; luaL_addvalue on strings only; the metatable of boxes and stack space are left out. |
| `Chunkid_model.v` | lobject.c luaO_chunkid | The source is a list of bytes ended by a zero byte; reads and writes outside are undefined behaviour. |

All other code of `/repo` is not modelled.

## Properties that are false of the code as modelled

Each line is a theorem with a concrete witness; the property it limits is proved with the suffix `_partial`, or holds in full apart from the remark.

* `C02_shr_refuted`: shifting right by math.mininteger negates it, which overflows.
* `C05_const_step_refuted`: a literal step of 2^32+1 is taken as 1.
* `C05_end_refuted`: a loop up to math.maxinteger does not end (generic form) or overflows (specialised form); so does a specialised loop from math.mininteger.
* `C05_hash_limit_refuted`: for i = 1, #t/2 is an error when #t is odd.
* `C05_nan_limit_refuted`: a NaN limit with a negative step counts as math.mininteger.
* `C08_float_key_refuted`: next is an error for a float key in the array part although the entry exists; such keys are not delivered by next.
* `C11_fixed_refuted`: a fixed-size array of 3 elements accepts a fourth.
* `C11_index_refuted`: index 2^32+1 of a one-element array reads element 1 instead of raising an error.
* `C11_size_refuted`: table.intarray(2^32+1) succeeds and has one element.
* `C12_parent_fixed_refuted`: a sliced array can still grow (its capacity is at least 12).
* `C12_range_refuted`: table.slice(a, 2^32+1, 1) succeeds.
* `C13_array_refuted`: OP_SETLIST reads the values of the second batch of a typed array from registers beyond those of the batch: element 51 is whatever such a register holds (lvm.c:1990-2024: val = ra + i).
* `C15_decode_total_refuted`: The unrestricted claim is false: `res |= ((utfint)(c & 0x7F) << (count * 5))` (lutf8lib.c) shifts a 32-bit value by 35.
* `C18_malformed_refuted`: Chunks that are not made by dump are not checked: with one upvalue name more than upvalues the loader writes behind its block (lundump.c:225-230).
* `C28_collation_refuted`: with a collation for which different strings are equal (an order in all other respects), two strings can each be less than the other, and the loop reads outside the strings.
* `C30_set_sBx_refuted`: MAXARG_sBx = 32768, the limit fixjump accepts, does not fit the field: it reads back as -32768.
* `C31_patch_refuted`: The limit check admits the distance +2^15, which the operand cannot hold: the jump is compiled without error and goes 2^16 instructions away from its target.
* `C32_shr_refuted`: .
* `C33_assertion_refuted`: local f = @number i, with i: integer: i becomes a float.
* `C33_early_refuted`: s = (x), with s: string and x = 1: OP_MOVE stores the number, then OP_RAVI_TOSTRING raises the error (lcode.c:680-692); a closure that shares s sees the number.
* `C33_in_place_refuted`: i = x, with i: integer and x = 2.0: check_valid_store converts the variable x itself to an integer (lcode.c:880-890).
* `C33_jump_refuted`: i = a and b, with i: integer and a = nil: nil is stored by the jump (OP_TESTSET), without a check.
* `C34_overflow_refuted`: .
* `C34_set_refuted`: .
* `C34_type_refuted`: .
* `C35_function_refuted`: local function f() end; f = nil; if f then: f has the type RAVI_TM_FUNCTION, without nil; the assignment is not checked (lcode.c:851-985) and the test is omitted.
* `C35_omitted_refuted`: if i + 1 then, with i: integer: the test is omitted, the addition is not, and its target register is never set (it is 0): the first variable is overwritten.
* `C37_coroutine_refuted`: .
* `C37_recover_refuted`: .
* `C38_allweak_metatable_refuted`: .
* `C38_undump_refuted`: .
* `C39_touched_refuted`: a coroutine with a local variable captured by a closure is dropped together with the closure: remarkupvals (lgc.c:453-476) marks the value of an open upvalue whose touched flag is set although its thread is dead; luaF_findupval (lfunc.c:64-97) sets the flag. The value, which nothing can reach, survives a complete cycle.
* `C40_mode_change_refuted`: the cycle is interrupted between the marking of a weak table and the atomic phase, and the program takes the metatable away: the table stays in allweak (lgc.c:634-636) and the atomic phase clears an entry that is strong by now. The reference manual announces this.
* `C44_minint_refuted`: the counts and widths excluded above are undefined.
* `C44_rotate_refuted`: every rotation by a multiple of 32 shifts a 32-bit operand by 32, which is undefined.
* `C45_lines_refuted`: .
* `C46_array_refuted`: .
* `C47_change_refuted`: a word-wise operation whose sources are shorter than the destination removes elements but reports no change.
* `C47_clear_refuted`: clear leaves the words in place: old elements come back, and set_bit reports a cleared bit as already set; raviX_solve_dataflow uses clear and set_bit in this way to collect the blocks of the next round, so it can stop before the solution is reached.
* `C47_copy_refuted`: copying a shorter set keeps the old upper words, whose elements come back when the set grows.
* `C49_size_hint_refuted`: a size hint near 2^31 decodes to a number beyond int.
* `C52_codes_reject_refuted`: The iterator does not reject every string that utf8.len rejects: "a\x80b" is accepted, the stray continuation byte is skipped.
* `C53_next_refuted`: next(a, -1) exposes the reserved element 0, next(a, math.maxinteger) overflows.
* `C57_cast_refuted`: .
* `C58_assertion_refuted`: @integer(a and b): code_type_assertion (lcode.c:1523-1613) emits the conversion into the code of b only; nil comes through as an "integer".
* `C58_leaked_refuted`: local x = @integer(f()) and 7: luaK_goiftrue omits the test since an integer is true, but does not free the register of the call (lcode.c:1144-1172); x is the register the call used and holds what f returned, not 7.
* `C61_fastcall_refuted`: local x, y = f(7), with f made by ravi_pushcfastcall: luaD_precall (ldo.c:530-566) stores the one result and leaves the number of results asked for (nresults) out of account; y is the argument, 7, instead of nil.
* `C63_for_limit_refuted`: for i = 1, 3.5: the interpreter counts integers, compiled code floats.
* `C63_for_overflow_refuted`: a loop of integers that reaches the largest integer: the interpreter wraps around, the addition of compiled code overflows.
* `C63_index_refuted`: an index beyond 32 bits: the interpreter cuts it and reads an element, compiled code raises an error.
* `C63_inline_refuted`: ravi.compile without options: maxint + 1 wraps in the interpreter and overflows in compiled code.
* `C63_iset_refuted`: a float stored into an integer array: the interpreter cuts it, compiled code raises an error.
* `C63_movei_refuted`: the statement without exceptions is false: a float with an integer value is accepted by the interpreter for an integer variable, compiled code raises an error.
* `C63_omit_refuted`: ravi.compile without options: an index outside an array raises an error in the interpreter and reads foreign memory in compiled code.
* `C64_call_refuted`: t.x = f() where f sets t: the table is read after the call.
* `C64_metamethod_refuted`: t.x, u.x = 1, 2 where the __newindex handler of u sets t: the table t is read from its register after the first of the assignments was performed, so 1 goes to the new table (check_conflict, lparser.c:1859-1885, makes a copy only when t itself is one of the targets).
* `C65_message_refuted`: a coroutine that waits in a call of a function made by coroutine.wrap is not dead, but has an empty frame on top (auxresume has moved the arguments away), and resuming it reports 'cannot resume dead coroutine' instead of 'cannot resume non-suspended coroutine' (lcorolib.c:34).
* `C67_division_refuted`: a division by a constant zero stops the compiler even where the expression is never evaluated (false and 1//0).
* `C67_overflow_refuted`: constants are added, subtracted and multiplied as signed integers (ast_simplify.c:235-268): 9223372036854775807 + 1 is undefined behaviour in the compiler, the interpreter wraps around.
* `C67_shift_refuted`: a constant is shifted as a signed integer (ast_simplify.c:219-233): 0xffffffffffffffff >> 1 becomes -1, the interpreter computes 9223372036854775807.
