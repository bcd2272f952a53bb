{"key": "GenModule.v|types of outer modules written without scope (again)", "file": "GenModule.v", "definition": "relative_scope", "edit": "types of outer modules written without scope (again)", "claim": "C39_scope", "failed": ["C39_scope_partial (PropScope.v)", "C39_absolute_nontrivial (PropRound.v)"], "blocked_prop_files": ["PropRound", "PropScope"], "secs": 17}
{"key": "GenModule.v|types of modules elsewhere written with the whole scope but no leading :: (again)", "file": "GenModule.v", "definition": "relative_scope", "edit": "types of modules elsewhere written with the whole scope but no leading :: (again)", "claim": "C39_scope", "failed": ["C39_scope_partial (PropScope.v)"], "blocked_prop_files": ["PropScope"], "secs": 24}
{"key": "GenModule.v|inner scope written in the wrong order", "file": "GenModule.v", "definition": "relative_scope", "edit": "inner scope written in the wrong order", "claim": "C39_scope", "failed": ["down_to_below (PropScope.v)"], "blocked_prop_files": ["PropScope"], "secs": 28}
{"key": "GenModule.v|outer module written with its whole scope, relative", "file": "GenModule.v", "definition": "relative_scope", "edit": "outer module written with its whole scope, relative", "claim": "C39_scope", "failed": ["C39_scope_partial (PropScope.v)"], "blocked_prop_files": ["PropScope"], "secs": 25}
{"key": "IdlParse.v|forward declaration of a declared name accepted (again)", "file": "IdlParse.v", "definition": "forward_dcl", "edit": "forward declaration of a declared name accepted (again)", "claim": "C55", "failed": ["forward_sentence (FreeDecl.v)"], "blocked_prop_files": ["PropDecl", "PropForward", "PropRound"], "secs": 319}
{"key": "Print.v|indentation by two", "file": "Print.v", "definition": "printer", "edit": "indentation by two", "claim": "C51", "failed": ["outcome_call (PrintFacts.v)"], "blocked_prop_files": ["PropPrint"], "secs": 4}
{"key": "Print.v|index of the parent printed", "file": "Print.v", "definition": "prefix", "edit": "index of the parent printed", "claim": "C51", "failed": ["pair_ok (PrintFacts.v)"], "blocked_prop_files": ["PropPrint"], "secs": 4}
{"key": "Print.v|member names printed for collections only", "file": "Print.v", "definition": "prefix", "edit": "member names printed for collections only", "claim": "C51", "failed": ["pair_ok (PrintFacts.v)"], "blocked_prop_files": ["PropPrint"], "secs": 4}
{"key": "Print.v|no size of maps printed", "file": "Print.v", "definition": "body", "edit": "no size of maps printed", "claim": "C51", "failed": ["each_print (PrintFacts.v)"], "blocked_prop_files": ["PropPrint"], "secs": 5}
{"key": "Print.v|booleans always printed as 1", "file": "Print.v", "definition": "out_prim", "edit": "booleans always printed as 1", "claim": "C51", "failed": ["each_print (PrintFacts.v)"], "blocked_prop_files": ["PropPrint"], "secs": 5}
{"key": "Print.v|int8 printed as a number", "file": "Print.v", "definition": "out_prim", "edit": "int8 printed as a number", "claim": "C51", "failed": ["each_print (PrintFacts.v)"], "blocked_prop_files": ["PropPrint"], "secs": 5}
{"key": "Print.v|sign dropped", "file": "Print.v", "definition": "out_int", "edit": "sign dropped", "claim": "C51", "failed": ["out_int_decimal (PrintFacts.v)"], "blocked_prop_files": ["PropPrint"], "secs": 4}
{"key": "Print.v|wide characters not reduced", "file": "Print.v", "definition": "out_str", "edit": "wide characters not reduced", "claim": "C51", "failed": ["each_print (PrintFacts.v)"], "blocked_prop_files": ["PropPrint"], "secs": 5}
{"key": "ModList.v|only children of the first level visited", "file": "ModList.v", "definition": "for_each_submodule", "edit": "only children of the first level visited", "claim": "C53", "failed": ["walk_spec (ModListFacts.v)"], "blocked_prop_files": ["PropList"], "secs": 4}
{"key": "ModList.v|children visited before their module", "file": "ModList.v", "definition": "for_each_submodule", "edit": "children visited before their module", "claim": "C53", "failed": ["walk_spec (ModListFacts.v)"], "blocked_prop_files": ["PropList"], "secs": 4}
{"key": "ModList.v|module itself not visited", "file": "ModList.v", "definition": "for_each_module", "edit": "module itself not visited", "claim": "C53", "failed": ["C53_for_each (PropList.v)"], "blocked_prop_files": ["PropList"], "secs": 7}
{"key": "ModList.v|enumerations forgotten", "file": "ModList.v", "definition": "fill_all_types", "edit": "enumerations forgotten", "claim": "C52", "failed": ["fill_spec (ModListFacts.v)"], "blocked_prop_files": ["PropList"], "secs": 5}
{"key": "ModList.v|scope of the parent used", "file": "ModList.v", "definition": "fill_all_types", "edit": "scope of the parent used", "claim": "C52", "failed": ["fill_spec (ModListFacts.v)"], "blocked_prop_files": ["PropList"], "secs": 5}
{"key": "ModList.v|later types replace earlier ones", "file": "ModList.v", "definition": "put_all", "edit": "later types replace earlier ones", "claim": "C52", "failed": ["put_all_assoc (ModListFacts.v)"], "blocked_prop_files": ["PropList"], "secs": 4}
{"key": "Hash.v|struct skips its last member", "file": "Hash.v", "definition": "hash", "edit": "struct skips its last member", "claim": "C54", "failed": ["hash_spec (HashFacts.v)"], "blocked_prop_files": ["PropBlank", "PropConvert", "PropData", "PropDecl", "PropDoc", "PropExpr", "PropForward", "PropGen", "PropHash", "PropIdl", "PropInt", "PropList", "PropMap", "PropModule", "PropParse", "PropPrint", "PropRound", "PropScope", "PropSeq", "PropUnion", "PropVisit"], "secs": 38}
{"key": "Hash.v|array elements read at one stride less", "file": "Hash.v", "definition": "hash", "edit": "array elements read at one stride less", "claim": "C54", "failed": ["hash_spec (HashFacts.v)"], "blocked_prop_files": ["PropBlank", "PropConvert", "PropData", "PropDecl", "PropDoc", "PropExpr", "PropForward", "PropGen", "PropHash", "PropIdl", "PropInt", "PropList", "PropMap", "PropModule", "PropParse", "PropPrint", "PropRound", "PropScope", "PropSeq", "PropUnion", "PropVisit"], "secs": 36}
{"key": "Hash.v|map pair hashed without its value", "file": "Hash.v", "definition": "hash", "edit": "map pair hashed without its value", "claim": "C54", "failed": ["hash_spec (HashFacts.v)"], "blocked_prop_files": ["PropBlank", "PropConvert", "PropData", "PropDecl", "PropDoc", "PropExpr", "PropForward", "PropGen", "PropHash", "PropIdl", "PropInt", "PropList", "PropMap", "PropModule", "PropParse", "PropPrint", "PropRound", "PropScope", "PropSeq", "PropUnion", "PropVisit"], "secs": 34}
{"key": "Hash.v|tail of the bytes ignored", "file": "Hash.v", "definition": "hash_words", "edit": "tail of the bytes ignored", "claim": "C54", "failed": ["hash64_small (HashInj.v)"], "blocked_prop_files": ["PropHash", "PropMap"], "secs": 522}
