{"key": "Module.v|the old entry is removed also without replace", "file": "Module.v", "definition": "register", "edit": "the old entry is removed also without replace", "claim": "C60/C32", "failed": ["C32_register (PropModule.v)", "register_new (StructRead.v)"], "blocked_prop_files": ["PropBlank", "PropDecl", "PropDoc", "PropExpr", "PropForward", "PropGen", "PropIdl", "PropKeep", "PropList", "PropModule", "PropRedefine", "PropRound", "PropScope", "PropSplit", "PropTree", "PropUnion"], "secs": 326}
{"key": "Module.v|an existing submodule is replaced by an empty one", "file": "Module.v", "definition": "create_submodule", "edit": "an existing submodule is replaced by an empty one", "claim": "C60", "failed": ["keeps_create_submodule (KeepFacts.v)"], "blocked_prop_files": ["PropKeep", "PropSplit", "PropTree"], "secs": 534}
{"key": "IdlParse.v|the type is stored under every name of the table", "file": "IdlParse.v", "definition": "store", "edit": "the type is stored under every name of the table", "claim": "C60/C74", "failed": ["store_struct (StructRead.v)"], "blocked_prop_files": ["PropBlank", "PropDecl", "PropDoc", "PropExpr", "PropForward", "PropGen", "PropKeep", "PropRedefine", "PropRound", "PropScope", "PropSplit", "PropTree", "PropUnion"], "secs": 341}
{"key": "Module.v|a constant is replaced also without replace", "file": "Module.v", "definition": "create_constant", "edit": "a constant is replaced also without replace", "claim": "C60", "failed": ["C32_create_constant_partial (PropModule.v)", "constant_new (EnumText.v)"], "blocked_prop_files": ["PropBlank", "PropDecl", "PropDoc", "PropExpr", "PropForward", "PropGen", "PropIdl", "PropKeep", "PropList", "PropModule", "PropRedefine", "PropRound", "PropScope", "PropSplit", "PropTree", "PropUnion"], "secs": 403}
{"key": "Module.v|structs keep their plain name", "file": "Module.v", "definition": "rename", "edit": "structs keep their plain name", "claim": "C74", "failed": ["C32_nontrivial (PropModule.v)"], "blocked_prop_files": ["PropBlank", "PropCast", "PropDecl", "PropDep", "PropDoc", "PropExpr", "PropForward", "PropGen", "PropIdl", "PropKeep", "PropList", "PropModule", "PropParse", "PropPrint", "PropRedefine", "PropRound", "PropScope", "PropSplit", "PropTree", "PropUnion"], "secs": 4177}
{"key": "Module.v|the alias gets the plain name", "file": "Module.v", "definition": "create_alias", "edit": "the alias gets the plain name", "claim": "C74", "failed": ["C32_create_alias (PropModule.v)"], "blocked_prop_files": ["PropBlank", "PropDecl", "PropDoc", "PropExpr", "PropForward", "PropIdl", "PropKeep", "PropList", "PropModule", "PropRedefine", "PropRound", "PropScope", "PropSplit", "PropTree", "PropUnion"], "secs": 446}
{"key": "Module.v|the new module has no name", "file": "Module.v", "definition": "create_submodule", "edit": "the new module has no name", "claim": "C74", "failed": ["created (DocText.v)"], "blocked_prop_files": ["PropBlank", "PropDecl", "PropDoc", "PropForward", "PropKeep", "PropRedefine", "PropRound", "PropScope", "PropSplit", "PropTree"], "secs": 1326}
{"key": "Module.v|the new entry is null", "file": "Module.v", "definition": "create_submodule", "edit": "the new entry is null", "claim": "C74", "failed": ["created (DocText.v)"], "blocked_prop_files": ["PropBlank", "PropDecl", "PropDoc", "PropForward", "PropKeep", "PropRedefine", "PropRound", "PropScope", "PropSplit", "PropTree"], "secs": 415}
{"key": "IdlParse.v|a struct that has members is extended (also in KeepRun)", "file": "IdlParse.v", "definition": "struct_def", "edit": "a struct that has members is extended (also in KeepRun)", "claim": "C60/C59", "failed": ["struct_def_from (StructRead.v)", "agree_struct (KeepFacts.v)"], "blocked_prop_files": ["PropBlank", "PropDecl", "PropDoc", "PropExpr", "PropForward", "PropGen", "PropKeep", "PropRedefine", "PropRound", "PropScope", "PropSplit", "PropTree", "PropUnion"], "secs": 211}
{"key": "IdlParse.v|a union that has cases is extended (also in IdlParse)", "file": "IdlParse.v", "definition": "union_def", "edit": "a union that has cases is extended (also in IdlParse)", "claim": "C60/C59", "failed": ["agree_union (KeepFacts.v)"], "blocked_prop_files": ["PropBlank", "PropDecl", "PropDoc", "PropExpr", "PropForward", "PropGen", "PropKeep", "PropParse", "PropRedefine", "PropRound", "PropScope", "PropSplit", "PropTree", "PropUnion"], "secs": 1503}
{"key": "KeepRun.v|the scoped constants of enumerators are dropped", "file": "KeepRun.v", "definition": "enumerators_run", "edit": "the scoped constants of enumerators are dropped", "claim": "C60", "failed": ["agree_enumerators (KeepFacts.v)"], "blocked_prop_files": ["PropKeep", "PropSplit", "PropTree"], "secs": 1080}
{"key": "KeepRun.v|a text that is no IDL empties the context", "file": "KeepRun.v", "definition": "parse_run", "edit": "a text that is no IDL empties the context", "claim": "C62", "failed": ["agree_parse (KeepFacts.v)"], "blocked_prop_files": ["PropKeep", "PropSplit", "PropTree"], "secs": 146}
{"key": "KeepRun.v|the answer is false after a build", "file": "KeepRun.v", "definition": "parse_run", "edit": "the answer is false after a build", "claim": "C60/C61", "failed": ["agree_parse (KeepFacts.v)"], "blocked_prop_files": ["PropKeep", "PropSplit", "PropTree"], "secs": 158}
{"key": "KeepRun.v|the type is stored only if all members are accepted", "file": "KeepRun.v", "definition": "store_run", "edit": "the type is stored only if all members are accepted", "claim": "C62", "failed": ["agree_store (KeepFacts.v)"], "blocked_prop_files": ["PropKeep", "PropSplit", "PropTree"], "secs": 77}
{"key": "KeepRun.v|the struct with a parent is not registered again", "file": "KeepRun.v", "definition": "struct_run", "edit": "the struct with a parent is not registered again", "claim": "C60/C61", "failed": ["agree_struct (KeepFacts.v)"], "blocked_prop_files": ["PropKeep", "PropSplit", "PropTree"], "secs": 79}
{"key": "KeepRun.v|declarations after the first one of a module are built in the root", "file": "KeepRun.v", "definition": "build_run", "edit": "declarations after the first one of a module are built in the root", "claim": "C61", "failed": ["firm_build (KeepSteady.v)", "agree_build (KeepFacts.v)"], "blocked_prop_files": ["PropKeep", "PropSplit", "PropTree"], "secs": 66}
{"key": "Module.v|scope() names the innermost module only", "file": "Module.v", "definition": "scope", "edit": "scope() names the innermost module only", "claim": "C74", "failed": ["C32_nontrivial (PropModule.v)", "prefix_key (ModListFacts.v)", "scope_empty (DepSolve.v)"], "blocked_prop_files": ["PropBlank", "PropDecl", "PropDep", "PropDoc", "PropExpr", "PropForward", "PropGen", "PropIdl", "PropKeep", "PropList", "PropModule", "PropRedefine", "PropRound", "PropScope", "PropSplit", "PropTree", "PropUnion"], "secs": 376}
{"key": "Module.v|the submodule is created in the root", "file": "Module.v", "definition": "call_create_submodule", "edit": "the submodule is created in the root", "claim": "C61/C49", "failed": ["created (DocText.v)"], "blocked_prop_files": ["PropBlank", "PropDecl", "PropDoc", "PropForward", "PropKeep", "PropRedefine", "PropRound", "PropScope", "PropSplit", "PropTree"], "secs": 400}
{"key": "KeepRun.v|an exception restores nothing but reports success of the part before", "file": "KeepRun.v", "definition": "andthen", "edit": "an exception restores nothing but reports success of the part before", "claim": "C60", "failed": ["firm_then (KeepSteady.v)", "agree_store (KeepFacts.v)"], "blocked_prop_files": ["PropKeep", "PropSplit", "PropTree"], "secs": 5}
