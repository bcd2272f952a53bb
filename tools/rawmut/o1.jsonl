{"key": "TypeBuild.v|new member placed at offset 0", "file": "TypeBuild.v", "definition": "add_member", "edit": "new member placed at offset 0", "claim": "C05 members do not overlap", "failed": ["add_member_ok (Layout.v)"], "blocked_prop_files": ["PropData", "PropMap", "PropSeq", "PropTypes"], "secs": 10}
{"key": "TypeBuild.v|duplicate member names accepted", "file": "TypeBuild.v", "definition": "add_member", "edit": "duplicate member names accepted", "claim": "C05/C01 member names unique", "failed": ["add_member_ok (Layout.v)"], "blocked_prop_files": ["PropData", "PropMap", "PropSeq", "PropTypes"], "secs": 11}
{"key": "TypeBuild.v|union size becomes that of the last member", "file": "TypeBuild.v", "definition": "add_case_member", "edit": "union size becomes that of the last member", "claim": "C05 members lie inside the instance", "failed": ["add_case_member_cases (Layout.v)"], "blocked_prop_files": ["PropData", "PropMap", "PropSeq", "PropTypes"], "secs": 11}
{"key": "TypeBuild.v|a label already used by another case is accepted", "file": "TypeBuild.v", "definition": "check_labels", "edit": "a label already used by another case is accepted", "claim": "C22 labels unambiguous", "failed": ["check_labels_ok (Layout.v)"], "blocked_prop_files": ["PropData", "PropMap", "PropSeq", "PropTypes"], "secs": 13}
{"key": "TypeBuild.v|previous value may be reused", "file": "TypeBuild.v", "definition": "add_enumerator", "edit": "previous value may be reused", "claim": "C23 enumerators one-to-one", "failed": ["enum_built_size (Layout.v)"], "blocked_prop_files": ["PropData", "PropMap", "PropSeq", "PropTypes"], "secs": 12}
{"key": "TypeBuild.v|duplicate enumerator names accepted", "file": "TypeBuild.v", "definition": "add_enumerator", "edit": "duplicate enumerator names accepted", "claim": "C23", "failed": ["enum_built_size (Layout.v)"], "blocked_prop_files": ["PropData", "PropMap", "PropSeq", "PropTypes"], "secs": 13}
{"key": "Compat.v|incompatible members do not make structs incompatible", "file": "Compat.v", "definition": "compat_members", "edit": "incompatible members do not make structs incompatible", "claim": "C03", "failed": ["compat_members_ext (CompatFacts.v)"], "blocked_prop_files": ["PropData", "PropMap", "PropSeq", "PropTypes"], "secs": 10}
{"key": "Compat.v|sequence bounds ignored", "file": "Compat.v", "definition": "compat_body TSeq", "edit": "sequence bounds ignored", "claim": "C02/C03 EQUALS means same structure", "failed": ["compat_refl_gen (CompatFacts.v)"], "blocked_prop_files": ["PropData", "PropMap", "PropSeq", "PropTypes"], "secs": 10}
{"key": "Compat.v|width of primitives not compared", "file": "Compat.v", "definition": "compat_body TPrim", "edit": "width of primitives not compared", "claim": "C03 EQUALS implies same memory_size", "failed": ["is_compatible_verdict (CompatFacts.v)"], "blocked_prop_files": ["PropData", "PropMap", "PropSeq", "PropTypes"], "secs": 9}
{"key": "Mem.v|last array element not constructed", "file": "Mem.v", "definition": "construct TArr", "edit": "last array element not constructed", "claim": "C06 every element alive", "failed": ["construct_spec (ConstructFacts.v)"], "blocked_prop_files": ["PropData", "PropMap", "PropSeq"], "secs": 10}
{"key": "Mem.v|member constructed at its offset ignoring the base", "file": "Mem.v", "definition": "construct TStruct", "edit": "member constructed at its offset ignoring the base", "claim": "C06", "failed": ["construct_struct (MemEqns.v)"], "blocked_prop_files": ["PropData", "PropMap", "PropSeq"], "secs": 7}
{"key": "Mem.v|copy of a bounded string without truncation", "file": "Mem.v", "definition": "copy TStr via copy_str", "edit": "copy of a bounded string without truncation", "claim": "C20 bounded strings", "failed": ["copy_spec (CopyFacts.v)"], "blocked_prop_files": ["PropData", "PropMap", "PropSeq"], "secs": 10}
{"key": "Mem.v|only the first member of a struct copied", "file": "Mem.v", "definition": "copy TStruct", "edit": "only the first member of a struct copied", "claim": "C07 copy equal", "failed": ["copy_struct (MemEqns.v)"], "blocked_prop_files": ["PropData", "PropMap", "PropSeq"], "secs": 9}
{"key": "Mem.v|last array element not copied", "file": "Mem.v", "definition": "copy TArr", "edit": "last array element not copied", "claim": "C07", "failed": ["copy_spec (CopyFacts.v)"], "blocked_prop_files": ["PropData", "PropMap", "PropSeq"], "secs": 14}
{"key": "Mem.v|members of a struct not destroyed", "file": "Mem.v", "definition": "dlist TStruct", "edit": "members of a struct not destroyed", "claim": "C08 nothing left alive", "failed": ["dlist_struct (MemEqns.v)"], "blocked_prop_files": ["PropData", "PropMap", "PropSeq"], "secs": 8}
{"key": "Mem.v|elements of a sequence not destroyed", "file": "Mem.v", "definition": "dlist TSeq", "edit": "elements of a sequence not destroyed", "claim": "C08", "failed": ["dlist_seq (MemEqns.v)"], "blocked_prop_files": ["PropData", "PropMap", "PropSeq"], "secs": 8}
{"key": "Mem.v|sequences of different size compared over the first", "file": "Mem.v", "definition": "compare TSeq", "edit": "sequences of different size compared over the first", "claim": "C10 equality", "failed": ["compare_seq (MemEqns.v)"], "blocked_prop_files": ["PropData", "PropMap", "PropSeq"], "secs": 8}
{"key": "Mem.v|second half of pairs not compared", "file": "Mem.v", "definition": "compare TPair", "edit": "second half of pairs not compared", "claim": "C10", "failed": ["compare_pair (MemEqns.v)"], "blocked_prop_files": ["PropData", "PropMap", "PropSeq"], "secs": 8}
{"key": "Mem.v|only the first member compared", "file": "Mem.v", "definition": "compare TStruct", "edit": "only the first member compared", "claim": "C10", "failed": ["compare_struct (MemEqns.v)"], "blocked_prop_files": ["PropData", "PropMap", "PropSeq"], "secs": 8}
{"key": "Mem.v|only first member moved", "file": "Mem.v", "definition": "move TStruct", "edit": "only first member moved", "claim": "C07/C12 reallocation keeps elements", "failed": ["move_struct (MemEqns.v)"], "blocked_prop_files": ["PropData", "PropMap", "PropSeq"], "secs": 7}
{"key": "Mem.v|copied sequence takes the size bound", "file": "Mem.v", "definition": "seq_min_size", "edit": "copied sequence takes the size bound", "claim": "C07", "failed": ["seq_min_size_self (CopyFacts.v)"], "blocked_prop_files": ["PropData", "PropMap", "PropSeq"], "secs": 12}
{"key": "Ops.v|no reallocation when full", "file": "Ops.v", "definition": "seq_push", "edit": "no reallocation when full", "claim": "C12/C13", "failed": ["push_spec (SeqFacts.v)"], "blocked_prop_files": ["PropData", "PropMap", "PropSeq"], "secs": 6}
{"key": "Ops.v|size not incremented", "file": "Ops.v", "definition": "seq_push", "edit": "size not incremented", "claim": "C12", "failed": ["push_spec (SeqFacts.v)"], "blocked_prop_files": ["PropData", "PropMap", "PropSeq"], "secs": 7}
{"key": "Ops.v|one element above the bound", "file": "Ops.v", "definition": "push", "edit": "one element above the bound", "claim": "C13 bound", "failed": ["push_realizes (Realize.v)"], "blocked_prop_files": ["PropData", "PropMap", "PropSeq"], "secs": 15}
{"key": "Ops.v|resize shrinks", "file": "Ops.v", "definition": "seq_resize", "edit": "resize shrinks", "claim": "C12", "failed": ["resize_spec (SeqFacts.v)"], "blocked_prop_files": ["PropData", "PropMap", "PropSeq"], "secs": 6}
{"key": "Ops.v|last element lost in reallocation", "file": "Ops.v", "definition": "seq_move_content", "edit": "last element lost in reallocation", "claim": "C12", "failed": ["move_content_spec (SeqFacts.v)"], "blocked_prop_files": ["PropData", "PropMap", "PropSeq"], "secs": 6}
{"key": "Ops.v|resize above the bound accepted", "file": "Ops.v", "definition": "resize", "edit": "resize above the bound accepted", "claim": "C13", "failed": ["resize_over (HistFacts.v)"], "blocked_prop_files": ["PropMap", "PropSeq"], "secs": 39}
{"key": "Ops.v|old member not destroyed when another is activated", "file": "Ops.v", "definition": "activate_member", "edit": "old member not destroyed when another is activated", "claim": "C08/C21", "failed": ["activate_spec (UnionFacts.v)"], "blocked_prop_files": ["PropData", "PropMap", "PropSeq"], "secs": 6}
{"key": "Ops.v|member not constructed when none was active", "file": "Ops.v", "definition": "activate_member", "edit": "member not constructed when none was active", "claim": "C21", "failed": ["activate_spec (UnionFacts.v)"], "blocked_prop_files": ["PropData", "PropMap", "PropSeq"], "secs": 6}
{"key": "Ops.v|discriminator not updated", "file": "Ops.v", "definition": "select_case_loop", "edit": "discriminator not updated", "claim": "C21", "failed": ["loop_first (UnionFacts.v)"], "blocked_prop_files": ["PropData", "PropMap", "PropSeq"], "secs": 6}
{"key": "Ops.v|value<T>() accepts any T of the same size", "file": "Ops.v", "definition": "type_check", "edit": "value<T>() accepts any T of the same size", "claim": "C41", "failed": ["set_realizes (Realize.v)"], "blocked_prop_files": ["PropData", "PropMap", "PropSeq"], "secs": 15}
{"key": "Ops.v|any value written to an enumeration", "file": "Ops.v", "definition": "set_value", "edit": "any value written to an enumeration", "claim": "C23/C41 enum values", "failed": [], "blocked_prop_files": [], "secs": 69}
{"key": "Ops.v|index n accepted", "file": "Ops.v", "definition": "on_path SIdx TArr", "edit": "index n accepted", "claim": "C28", "failed": ["path_spec_rel (PathFacts.v)"], "blocked_prop_files": ["PropData", "PropMap", "PropSeq"], "secs": 14}
{"key": "Ops.v|index up to the capacity accepted", "file": "Ops.v", "definition": "on_path SIdx TSeq", "edit": "index up to the capacity accepted", "claim": "C12/C28", "failed": ["path_spec_rel (PathFacts.v)"], "blocked_prop_files": ["PropData", "PropMap", "PropSeq"], "secs": 13}
{"key": "Ops.v|second aliases first", "file": "Ops.v", "definition": "on_path SIdx TPair", "edit": "second aliases first", "claim": "C09", "failed": ["path_spec_rel (PathFacts.v)"], "blocked_prop_files": ["PropData", "PropMap", "PropSeq"], "secs": 12}
{"key": "Ops.v|member offset ignored", "file": "Ops.v", "definition": "on_path SName TStruct", "edit": "member offset ignored", "claim": "C09", "failed": ["path_spec_rel (PathFacts.v)"], "blocked_prop_files": ["PropData", "PropMap", "PropSeq"], "secs": 12}
{"key": "Ops.v|reading an inactive union member activates it", "file": "Ops.v", "definition": "select_for_read", "edit": "reading an inactive union member activates it", "claim": "C21", "failed": ["path_spec_rel (PathFacts.v)"], "blocked_prop_files": ["PropData", "PropMap", "PropSeq"], "secs": 12}
{"key": "Ops.v|compares with itself", "file": "Ops.v", "definition": "data_eq", "edit": "compares with itself", "claim": "C10", "failed": ["eq_holds (DataFacts.v)"], "blocked_prop_files": ["PropData", "PropMap", "PropSeq"], "secs": 18}
{"key": "Ops.v|assignment only destroys", "file": "Ops.v", "definition": "assign_from", "edit": "assignment only destroys", "claim": "C11", "failed": ["assign_op (Prog.v)", "assign_realizes (Realize.v)"], "blocked_prop_files": ["PropData", "PropMap", "PropSeq"], "secs": 15}
{"key": "MapOps.v|search goes the wrong way", "file": "MapOps.v", "definition": "find_loop", "edit": "search goes the wrong way", "claim": "C15", "failed": ["find_loop_spec (MapFacts.v)"], "blocked_prop_files": ["PropData", "PropMap", "PropSeq"], "secs": 9}
{"key": "MapOps.v|insertion place before a smaller hash", "file": "MapOps.v", "definition": "find_loop", "edit": "insertion place before a smaller hash", "claim": "C15", "failed": ["find_loop_spec (MapFacts.v)"], "blocked_prop_files": ["PropData", "PropMap", "PropSeq"], "secs": 7}
{"key": "MapOps.v|shift starts at the first key", "file": "MapOps.v", "definition": "map_shift", "edit": "shift starts at the first key", "claim": "C15", "failed": ["shift_spec (MapFacts.v)"], "blocked_prop_files": ["PropData", "PropMap", "PropSeq"], "secs": 8}
{"key": "MapOps.v|no reallocation when full", "file": "MapOps.v", "definition": "map_insert", "edit": "no reallocation when full", "claim": "C15", "failed": ["insert_spec (MapFacts.v)"], "blocked_prop_files": ["PropData", "PropMap", "PropSeq"], "secs": 8}
{"key": "MapOps.v|value of a new entry not constructed", "file": "MapOps.v", "definition": "map_insert", "edit": "value of a new entry not constructed", "claim": "C15/C18", "failed": ["insert_spec (MapFacts.v)"], "blocked_prop_files": ["PropData", "PropMap", "PropSeq"], "secs": 9}
{"key": "MapOps.v|entries not shifted: the next one is overwritten", "file": "MapOps.v", "definition": "map_insert", "edit": "entries not shifted: the next one is overwritten", "claim": "C15", "failed": ["insert_spec (MapFacts.v)"], "blocked_prop_files": ["PropData", "PropMap", "PropSeq"], "secs": 9}
{"key": "MapOps.v|insert of an existing key duplicates it", "file": "MapOps.v", "definition": "map_insert", "edit": "insert of an existing key duplicates it", "claim": "C15/C18", "failed": ["insert_spec (MapFacts.v)"], "blocked_prop_files": ["PropData", "PropMap", "PropSeq"], "secs": 10}
{"key": "MapOps.v|bound of maps ignored", "file": "MapOps.v", "definition": "insert_instance", "edit": "bound of maps ignored", "claim": "C15", "failed": ["insert_does (Realize.v)"], "blocked_prop_files": ["PropData", "PropMap", "PropSeq"], "secs": 18}
{"key": "MapOps.v|[] on an existing key inserts again", "file": "MapOps.v", "definition": "map_access", "edit": "[] on an existing key inserts again", "claim": "C15", "failed": ["access_spec (PathFacts.v)"], "blocked_prop_files": ["PropData", "PropMap", "PropSeq"], "secs": 12}
{"key": "Hash.v|hash truncated to 32 bits", "file": "Hash.v", "definition": "mix", "edit": "hash truncated to 32 bits", "claim": "C16", "failed": ["mix_lt (HashInj.v)"], "blocked_prop_files": ["PropMap"], "secs": 55}
{"key": "Hash.v|only two tail bytes hashed", "file": "Hash.v", "definition": "hash_words", "edit": "only two tail bytes hashed", "claim": "C16", "failed": ["hash64_small (HashInj.v)"], "blocked_prop_files": ["PropMap"], "secs": 57}
{"key": "Hash.v|at most 4 bytes of a primitive hashed", "file": "Hash.v", "definition": "hash TPrim", "edit": "at most 4 bytes of a primitive hashed", "claim": "C16", "failed": ["hash_spec (HashFacts.v)"], "blocked_prop_files": ["PropData", "PropMap", "PropSeq"], "secs": 8}
{"key": "Prog.v|copy shares the block", "file": "Prog.v", "definition": "run_stmt Copy", "edit": "copy shares the block", "claim": "C07", "failed": ["stmt_sim (ProgFacts.v)"], "blocked_prop_files": ["PropData", "PropMap", "PropModule", "PropSeq"], "secs": 3}
{"key": "Prog.v|destructors not run", "file": "Prog.v", "definition": "run_stmt Destroy", "edit": "destructors not run", "claim": "C08", "failed": ["stmt_sim (ProgFacts.v)"], "blocked_prop_files": ["PropData", "PropMap", "PropModule", "PropSeq"], "secs": 4}
{"key": "Prog.v|moved-from variable keeps initialize_", "file": "Prog.v", "definition": "run_stmt Move", "edit": "moved-from variable keeps initialize_", "claim": "C08", "failed": ["stmt_sim (ProgFacts.v)"], "blocked_prop_files": ["PropData", "PropMap", "PropSeq"], "secs": 4}
