-Q theories Verif
theories/Base.v
theories/Base_facts.v
theories/IntArith_model.v
theories/IntArith_spec.v
theories/IntArith_proofs.v
theories/IntArith_thm.v
theories/Bits_facts.v
theories/Size_model.v
theories/Size_proofs.v
theories/Size_thm.v
theories/Opcode_model.v
theories/Opcode_proofs.v
theories/Opcode_thm.v
theories/Jump_spec.v
theories/Jump_proofs.v
theories/Jump_thm.v
theories/Str.v
theories/Str_facts.v
theories/Utf8_model.v
theories/Utf8_spec.v
theories/Utf8_proofs.v
theories/Utf8_proofs2.v
theories/Utf8_thm.v
theories/RArray_model.v
theories/RArray_spec.v
theories/RArray_proofs.v
theories/RArray_proofs2.v
theories/RArray_thm.v
theories/Api_model.v
theories/Api_proofs.v
theories/Api_thm.v
theories/Ref_model.v
theories/Ref_proofs.v
theories/Ref_thm.v
theories/Zio_model.v
theories/Zio_spec.v
theories/Zio_proofs.v
theories/Zio_thm.v
theories/Random_model.v
theories/Random_proofs.v
theories/Random_thm.v
theories/Bitlib_model.v
theories/Bitlib_spec.v
theories/Bitlib_proofs.v
theories/Bitlib_thm.v
theories/Strlib_model.v
theories/Strlib_spec.v
theories/Strlib_proofs.v
theories/Strlib_thm.v
theories/Ctype_model.v
theories/Ctype_proofs.v
theories/Num_model.v
theories/Num_spec.v
theories/Num_proofs.v
theories/Num_thm.v
theories/Strcmp_model.v
theories/Strcmp_spec.v
theories/Strcmp_proofs.v
theories/Strcmp_thm.v
theories/Float_model.v
theories/Float_spec.v
theories/Float_facts.v
theories/Float_proofs.v
theories/Float_thm.v
theories/For_model.v
theories/For_spec.v
theories/For_proofs.v
theories/For_thm.v
theories/Table_model.v
theories/Table_facts.v
theories/Table_hash.v
theories/Table_count.v
theories/Table_ops.v
theories/Table_new.v
theories/Table_resize.v
theories/Table_spec.v
theories/Table_hist.v
theories/Table_getn.v
theories/Table_next.v
theories/Table_proofs.v
theories/Table_thm.v
theories/Sort_model.v
theories/Sort_spec.v
theories/Sort_proofs.v
theories/Sort_thm.v
theories/Tablib_model.v
theories/Tablib_spec.v
theories/Tablib_proofs.v
theories/Tablib_thm.v
theories/Setlist_model.v
theories/Setlist_spec.v
theories/Setlist_proofs.v
theories/Setlist_thm.v
theories/Bitset_model.v
theories/Bitset_spec.v
theories/Bitset_proofs.v
theories/Bitset_thm.v
theories/Hset_model.v
theories/Hset_spec.v
theories/Hset_proofs.v
theories/Hset_thm.v
theories/Pack_model.v
theories/Pack_spec.v
theories/Pack_proofs.v
theories/Pack_thm.v
theories/Dump_model.v
theories/Dump_spec.v
theories/Dump_proofs.v
theories/Dump_thm.v
theories/Match_model.v
theories/Match_spec.v
theories/Match_proofs.v
theories/Match_lib_proofs.v
theories/Match_thm.v
theories/Intern_model.v
theories/Intern_spec.v
theories/Intern_proofs.v
theories/Intern_thm.v
theories/Upval_model.v
theories/Upval_spec.v
theories/Upval_proofs.v
theories/Upval_thm.v
theories/Defer_model.v
theories/Defer_spec.v
theories/Defer_proofs.v
theories/Defer_thm.v
theories/Meta_model.v
theories/Meta_spec.v
theories/Meta_proofs.v
theories/Meta_thm.v
theories/Prec_model.v
theories/Prec_spec.v
theories/Prec_proofs.v
theories/Prec_thm.v
theories/Gc_model.v
theories/Gc_spec.v
theories/Gc_facts.v
theories/Gc_tri.v
theories/Gc_trav.v
theories/Gc_prop.v
theories/Gc_atomic.v
theories/Gc_fin.v
theories/Gc_core.v
theories/Gc_mark.v
theories/Gc_sweep.v
theories/Gc_inv.v
theories/Gc_mut.v
theories/Gc_upv.v
theories/Gc_exec.v
theories/Gc_proofs.v
theories/Gc_thm.v
theories/Lex_model.v
theories/Lex_spec.v
theories/Lex_facts.v
theories/Lex_str.v
theories/Lex_long.v
theories/Lex_num.v
theories/Lex_tok.v
theories/Lex_proofs.v
theories/Lex_thm.v
theories/Op_model.v
theories/Op_spec.v
theories/Op_proofs.v
theories/Op_thm.v
theories/Gen_model.v
theories/Gen_spec.v
theories/Gen_facts.v
theories/Gen_run.v
theories/Gen_inv.v
theories/Gen_ops.v
theories/Gen_put.v
theories/Gen_cond.v
theories/Gen_not.v
theories/Gen_seq.v
theories/Gen_opr.v
theories/Gen_opr2.v
theories/Gen_gen.v
theories/Gen_store.v
theories/Gen_proofs.v
theories/Gen_refute.v
theories/Gen_thm.v
theories/Gc_dead.v
theories/Gc_deadm.v
theories/Gc_hn.v
theories/Gc_deads.v
theories/Gc_free_spec.v
theories/Gc_free_proofs.v
theories/Gc_free_wit.v
theories/Gc_free_thm.v
theories/Gc_weak_spec.v
theories/Gc_weak_proofs.v
theories/Gc_keep.v
theories/Gc_keep2.v
theories/Gc_weak_wit.v
theories/Gc_weak_thm.v
theories/Stat_model.v
theories/Stat_spec.v
theories/Stat_expr.v
theories/Stat_facts.v
theories/Stat_proofs.v
theories/Stat_thm.v
theories/Gen_store2.v
theories/Names_model.v
theories/Names_spec.v
theories/Names_facts.v
theories/Names_proofs.v
theories/Names_thm.v
theories/Call_model.v
theories/Call_spec.v
theories/Call_proofs.v
theories/Call_thm.v
theories/Goto_model.v
theories/Goto_spec.v
theories/Goto_facts.v
theories/Goto_proofs.v
theories/Goto_thm.v
theories/Jit_model.v
theories/Jit_spec.v
theories/Jit_facts.v
theories/Jit_proofs.v
theories/Jit_thm.v
theories/Assign_model.v
theories/Assign_spec.v
theories/Assign_proofs.v
theories/Assign_thm.v
theories/Coro_model.v
theories/Coro_spec.v
theories/Coro_proofs.v
theories/Coro_thm.v
theories/Stack_model.v
theories/Stack_spec.v
theories/Stack_proofs.v
theories/Stack_thm.v
theories/Simp_model.v
theories/Simp_spec.v
theories/Simp_proofs.v
theories/Simp_thm.v
theories/Buffer_model.v
theories/Buffer_spec.v
theories/Buffer_proofs.v
theories/Buffer_thm.v
theories/Chunkid_model.v
theories/Chunkid_spec.v
theories/Chunkid_proofs.v
theories/Chunkid_thm.v
