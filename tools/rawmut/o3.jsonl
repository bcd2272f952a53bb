{"key": "Log.v|entries of the level itself are dropped", "file": "Log.v", "definition": "add_log", "edit": "entries of the level itself are dropped", "claim": "C35", "failed": ["run_configured (PropLog.v)"], "blocked_prop_files": ["PropLog"], "secs": 3}
{"key": "Log.v|entries in reverse order", "file": "Log.v", "definition": "add_log", "edit": "entries in reverse order", "claim": "C35", "failed": ["C35_kept (PropLog.v)"], "blocked_prop_files": ["PropLog"], "secs": 3}
{"key": "Log.v|strict and not strict swapped", "file": "Log.v", "definition": "get_log", "edit": "strict and not strict swapped", "claim": "C35", "failed": ["C35_strict (PropLog.v)"], "blocked_prop_files": ["PropLog"], "secs": 3}
{"key": "Log.v|always printed", "file": "Log.v", "definition": "add_log", "edit": "always printed", "claim": "C35", "failed": ["C35_kept (PropLog.v)"], "blocked_prop_files": ["PropLog"], "secs": 3}
{"key": "Log.v|line and column swapped", "file": "Log.v", "definition": "add_log", "edit": "line and column swapped", "claim": "C35", "failed": ["C35_kept (PropLog.v)"], "blocked_prop_files": ["PropLog"], "secs": 3}
{"key": "Log.v|set_level clears the log", "file": "Log.v", "definition": "set_level", "edit": "set_level clears the log", "claim": "C35", "failed": ["C35_kept (PropLog.v)"], "blocked_prop_files": ["PropLog"], "secs": 3}
{"key": "Log.v|category and message swapped", "file": "Log.v", "definition": "entry_string", "edit": "category and message swapped", "claim": "C35", "failed": ["C35_nontrivial (PropLog.v)"], "blocked_prop_files": ["PropLog"], "secs": 3}
{"key": "Log.v|initial level Info", "file": "Log.v", "definition": "new_log", "edit": "initial level Info", "claim": "C35", "failed": ["run_configured (PropLog.v)"], "blocked_prop_files": ["PropLog"], "secs": 3}
{"key": "Instance.v|the same identity is made twice", "file": "Instance.v", "definition": "step", "edit": "the same identity is made twice", "claim": "C37", "failed": ["C37_one_thread_partial (PropInstance.v)"], "blocked_prop_files": ["PropInstance"], "secs": 3}
{"key": "Instance.v|creation does not wait for the mutex", "file": "Instance.v", "definition": "step", "edit": "creation does not wait for the mutex", "claim": "C37 mutual exclusion", "failed": ["C37_exclusive (PropInstance.v)"], "blocked_prop_files": ["PropInstance"], "secs": 3}
{"key": "Instance.v|destroy keeps the mutex", "file": "Instance.v", "definition": "step", "edit": "destroy keeps the mutex", "claim": "C37 no deadlock", "failed": ["C37_exclusive (PropInstance.v)"], "blocked_prop_files": ["PropInstance"], "secs": 4}
{"key": "Instance.v|create flag inverted", "file": "Instance.v", "definition": "step", "edit": "create flag inverted", "claim": "C37", "failed": [], "blocked_prop_files": [], "secs": 5}
{"key": "Shell.v|position relative to the start of the search", "file": "Shell.v", "definition": "find_from", "edit": "position relative to the start of the search", "claim": "C36", "failed": ["find_from_app (PropShell.v)"], "blocked_prop_files": ["PropShell"], "secs": 3}
{"key": "Shell.v|search goes on at the quote itself", "file": "Shell.v", "definition": "inner", "edit": "search goes on at the quote itself", "claim": "C36", "failed": ["loops (PropShell.v)"], "blocked_prop_files": ["PropShell"], "secs": 3}
{"key": "Shell.v|newlines are lost", "file": "Shell.v", "definition": "fgets", "edit": "newlines are lost", "claim": "C36 exec", "failed": ["fgets_spec (PropShell.v)"], "blocked_prop_files": ["PropShell"], "secs": 4}
{"key": "Shell.v|empty buffer", "file": "Shell.v", "definition": "read_all", "edit": "empty buffer", "claim": "C36 exec", "failed": ["C36_output (PropShell.v)"], "blocked_prop_files": ["PropShell"], "secs": 4}
{"key": "Shell.v|backslash newline kept by the shell (model of the shell)", "file": "Shell.v", "definition": "dquoted", "edit": "backslash newline kept by the shell (model of the shell)", "claim": "C36", "failed": [], "blocked_prop_files": [], "secs": 8}
{"key": "Shell.v|quotes are not escaped", "file": "Shell.v", "definition": "outer", "edit": "quotes are not escaped", "claim": "C36", "failed": ["loops (PropShell.v)"], "blocked_prop_files": ["PropShell"], "secs": 3}
{"key": "Codecvt.v|the whole buffer is appended at the end", "file": "Codecvt.v", "definition": "convert_loop", "edit": "the whole buffer is appended at the end", "claim": "C38", "failed": ["convert_spec (CodecvtFacts.v)"], "blocked_prop_files": ["PropCodecvt"], "secs": 7}
{"key": "Codecvt.v|only what was written is appended (the fix of the bug)", "file": "Codecvt.v", "definition": "convert_loop", "edit": "only what was written is appended (the fix of the bug)", "claim": "C38 refuted", "failed": ["convert_spec (CodecvtFacts.v)"], "blocked_prop_files": ["PropCodecvt"], "secs": 7}
{"key": "Codecvt.v|another buffer size", "file": "Codecvt.v", "definition": "buffer_size", "edit": "another buffer size", "claim": "C38 refuted", "failed": ["convert_spec (CodecvtFacts.v)"], "blocked_prop_files": ["PropCodecvt"], "secs": 8}
{"key": "Codecvt.v|errors ignored", "file": "Codecvt.v", "definition": "convert_loop", "edit": "errors ignored", "claim": "C38", "failed": ["convert_error (CodecvtFacts.v)"], "blocked_prop_files": ["PropCodecvt"], "secs": 8}
{"key": "Codecvt.v|one unit too many", "file": "Codecvt.v", "definition": "translate", "edit": "one unit too many", "claim": "C38", "failed": ["translate_spec (CodecvtFacts.v)"], "blocked_prop_files": ["PropCodecvt"], "secs": 5}
{"key": "DepTree.v|ancestors are not printed first", "file": "DepTree.v", "definition": "gen_module", "edit": "ancestors are not printed first", "claim": "C40", "failed": ["gen_module_ok (DepGen.v)"], "blocked_prop_files": ["PropDep", "PropDoc", "PropExpr", "PropGen", "PropUnion"], "secs": 137}
{"key": "DepTree.v|sentences repeated", "file": "DepTree.v", "definition": "sentence", "edit": "sentences repeated", "claim": "C40", "failed": ["sentence_ok (DepGen.v)"], "blocked_prop_files": ["PropBlank", "PropDep", "PropDoc", "PropExpr", "PropGen", "PropUnion"], "secs": 135}
{"key": "DepTree.v|module not opened", "file": "DepTree.v", "definition": "gen_idl", "edit": "module not opened", "claim": "C40", "failed": ["gen_ok (DepGen.v)"], "blocked_prop_files": ["PropBlank", "PropDep", "PropDoc", "PropExpr", "PropGen", "PropUnion"], "secs": 155}
{"key": "DepTree.v|inner modules not printed", "file": "DepTree.v", "definition": "gen_idl", "edit": "inner modules not printed", "claim": "C40 complete", "failed": ["gen_ok (DepGen.v)"], "blocked_prop_files": ["PropBlank", "PropDep", "PropDoc", "PropExpr", "PropGen", "PropUnion"], "secs": 169}
{"key": "DepTree.v|outer declarations used inside are not printed first", "file": "DepTree.v", "definition": "gen_idl", "edit": "outer declarations used inside are not printed first", "claim": "C40", "failed": ["gen_ok (DepGen.v)"], "blocked_prop_files": ["PropBlank", "PropDep", "PropDoc", "PropExpr", "PropGen", "PropUnion"], "secs": 183}
{"key": "DepTree.v|dependency between siblings reversed", "file": "DepTree.v", "definition": "outer_siblings", "edit": "dependency between siblings reversed", "claim": "C40", "failed": ["outer_siblings_ok (DepFacts.v)"], "blocked_prop_files": ["PropBlank", "PropDep", "PropDoc", "PropExpr", "PropGen", "PropUnion"], "secs": 183}
{"key": "DepTree.v|constants without value printed", "file": "DepTree.v", "definition": "printed", "edit": "constants without value printed", "claim": "C40 (equivalent when tables are paired)", "failed": [], "blocked_prop_files": [], "secs": 186}
{"key": "DepTree.v|unions are forgotten", "file": "DepTree.v", "definition": "nodes_in", "edit": "unions are forgotten", "claim": "C40", "failed": ["nodes_of_in (DepFacts.v)"], "blocked_prop_files": ["PropBlank", "PropDep", "PropDoc", "PropExpr", "PropGen", "PropUnion"], "secs": 150}
{"key": "DepTree.v|keys of maps not visited", "file": "DepTree.v", "definition": "visited", "edit": "keys of maps not visited", "claim": "C40", "failed": ["visited_parts (DepSolve.v)"], "blocked_prop_files": ["PropBlank", "PropDep", "PropDoc", "PropExpr", "PropGen", "PropUnion"], "secs": 148}
{"key": "DepTree.v|the parent is no dependency", "file": "DepTree.v", "definition": "masters", "edit": "the parent is no dependency", "claim": "C40", "failed": ["masters_written (DepOrder.v)"], "blocked_prop_files": ["PropDep"], "secs": 165}
{"key": "Visit.v|a union without member is visited silently", "file": "Visit.v", "definition": "each", "edit": "a union without member is visited silently", "claim": "C27", "failed": ["each_replayed (VisitFacts.v)"], "blocked_prop_files": ["PropVisit"], "secs": 4}
{"key": "Visit.v|keys are not visited", "file": "Visit.v", "definition": "each", "edit": "keys are not visited", "claim": "C27", "failed": ["each_replayed (VisitFacts.v)"], "blocked_prop_files": ["PropVisit"], "secs": 4}
{"key": "Visit.v|member index not advanced", "file": "Visit.v", "definition": "each", "edit": "member index not advanced", "claim": "C27", "failed": ["each_spec (VisitFacts.v)"], "blocked_prop_files": ["PropVisit"], "secs": 5}
{"key": "Visit.v|answer negated", "file": "Visit.v", "definition": "for_each", "edit": "answer negated", "claim": "C27", "failed": ["C27_any_visitor (PropVisit.v)"], "blocked_prop_files": ["PropVisit"], "secs": 7}
{"key": "Visit.v|depth not increased", "file": "Visit.v", "definition": "child_node", "edit": "depth not increased", "claim": "C27", "failed": ["child_visits (VisitFacts.v)"], "blocked_prop_files": ["PropVisit"], "secs": 5}
{"key": "Visit.v|iterator stays at the first element", "file": "Visit.v", "definition": "instance_at", "edit": "iterator stays at the first element", "claim": "C27", "failed": ["C27_range_for_partial (PropVisit.v)"], "blocked_prop_files": ["PropVisit"], "secs": 7}
{"key": "IntOps.v|operands swapped", "file": "IntOps.v", "definition": "cpp_arith", "edit": "operands swapped", "claim": "C24", "failed": ["cpp_arith_ub (IntFacts.v)"], "blocked_prop_files": ["PropBlank", "PropDoc", "PropExpr", "PropGen", "PropIdl", "PropInt", "PropParse", "PropUnion"], "secs": 6}
{"key": "IntOps.v|floored remainder", "file": "IntOps.v", "definition": "cpp_arith", "edit": "floored remainder", "claim": "C24", "failed": ["cpp_arith_ub (IntFacts.v)"], "blocked_prop_files": ["PropBlank", "PropDoc", "PropExpr", "PropGen", "PropIdl", "PropInt", "PropParse", "PropUnion"], "secs": 6}
{"key": "IntOps.v|shift by the width allowed", "file": "IntOps.v", "definition": "cpp_arith", "edit": "shift by the width allowed", "claim": "C24", "failed": ["cpp_arith_ub (IntFacts.v)"], "blocked_prop_files": ["PropBlank", "PropDoc", "PropExpr", "PropGen", "PropIdl", "PropInt", "PropParse", "PropUnion"], "secs": 6}
{"key": "IntOps.v|uint32 promoted to int", "file": "IntOps.v", "definition": "promoted", "edit": "uint32 promoted to int", "claim": "C24", "failed": ["promoted_eq (IntFacts.v)"], "blocked_prop_files": ["PropBlank", "PropDoc", "PropExpr", "PropGen", "PropIdl", "PropInt", "PropParse", "PropUnion"], "secs": 5}
{"key": "IntOps.v|<= is <", "file": "IntOps.v", "definition": "cpp_cmp", "edit": "<= is <", "claim": "C26?", "failed": ["C24_compare (PropInt.v)"], "blocked_prop_files": ["PropBlank", "PropDoc", "PropExpr", "PropIdl", "PropInt", "PropUnion"], "secs": 260}
{"key": "IntOps.v|prefix step undone", "file": "IntOps.v", "definition": "pre_step", "edit": "prefix step undone", "claim": "C26", "failed": ["C24_increment (PropInt.v)"], "blocked_prop_files": ["PropBlank", "PropDoc", "PropExpr", "PropIdl", "PropInt", "PropUnion"], "secs": 273}
{"key": "IntOps.v|bytes of an enumeration copied", "file": "IntOps.v", "definition": "cast_op", "edit": "bytes of an enumeration copied", "claim": "C26", "failed": [], "blocked_prop_files": [], "secs": 323}
{"key": "IntOps.v|! inverted", "file": "IntOps.v", "definition": "not_op", "edit": "! inverted", "claim": "C26", "failed": ["C24_not (PropInt.v)"], "blocked_prop_files": ["PropBlank", "PropDoc", "PropExpr", "PropIdl", "PropInt", "PropUnion"], "secs": 210}
{"key": "IntOps.v|operands swapped in compound assignment", "file": "IntOps.v", "definition": "compound_value", "edit": "operands swapped in compound assignment", "claim": "C26", "failed": ["C24_compound_value (PropInt.v)"], "blocked_prop_files": ["PropBlank", "PropDoc", "PropExpr", "PropIdl", "PropInt", "PropUnion"], "secs": 235}
{"key": "IdlLit.v|0X not hexadecimal", "file": "IdlLit.v", "definition": "base_of", "edit": "0X not hexadecimal", "claim": "C34", "failed": ["base_of_literal (IdlLitFacts.v)"], "blocked_prop_files": ["PropBlank", "PropDecl", "PropDoc", "PropExpr", "PropGen", "PropIdl", "PropParse", "PropUnion"], "secs": 6}
{"key": "IdlLit.v|label 0 is looked up as a name", "file": "IdlLit.v", "definition": "parse_enum_label", "edit": "label 0 is looked up as a name", "claim": "C34", "failed": ["C34_enum_labels (PropIdl.v)"], "blocked_prop_files": ["PropBlank", "PropDecl", "PropDoc", "PropExpr", "PropIdl", "PropUnion"], "secs": 232}
{"key": "IdlLit.v|UINT_16 read into a byte", "file": "IdlLit.v", "definition": "parse_label", "edit": "UINT_16 read into a byte", "claim": "C34", "failed": ["parse_label_of (PropIdl.v)"], "blocked_prop_files": ["PropBlank", "PropDoc", "PropExpr", "PropIdl", "PropUnion"], "secs": 223}
{"key": "IdlLit.v|saturates at int32", "file": "IdlLit.v", "definition": "strtoll", "edit": "saturates at int32", "claim": "C34", "failed": ["C34_negative_labels (PropIdl.v)"], "blocked_prop_files": ["PropBlank", "PropDoc", "PropExpr", "PropIdl", "PropUnion"], "secs": 261}
{"key": "IdlExpr.v|precedence of shifts and additions swapped", "file": "IdlExpr.v", "definition": "level", "edit": "precedence of shifts and additions swapped", "claim": "C33", "failed": ["C33_nontrivial (PropIdl.v)", "ok_op (ExprText.v)"], "blocked_prop_files": ["PropBlank", "PropDecl", "PropDoc", "PropExpr", "PropIdl", "PropUnion"], "secs": 264}
{"key": "IdlExpr.v|operands swapped", "file": "IdlExpr.v", "definition": "solve", "edit": "operands swapped", "claim": "C33", "failed": ["solve_sound (IdlFacts.v)"], "blocked_prop_files": ["PropBlank", "PropDecl", "PropDoc", "PropExpr", "PropIdl", "PropUnion"], "secs": 251}
