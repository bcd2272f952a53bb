{"key": "GenModule.v|types of outer modules written without scope", "file": "GenModule.v", "definition": "relative_scope", "edit": "types of outer modules written without scope", "claim": "C39_module", "failed": [], "blocked_prop_files": [], "secs": 26}
{"key": "GenModule.v|types of modules elsewhere written with the whole scope but no leading ::", "file": "GenModule.v", "definition": "relative_scope", "edit": "types of modules elsewhere written with the whole scope but no leading ::", "claim": "C39_module", "failed": [], "blocked_prop_files": [], "secs": 26}
{"key": "GenModule.v|a semicolon instead of the line break behind an ancestor", "file": "GenModule.v", "definition": "t_ancestors", "edit": "a semicolon instead of the line break behind an ancestor", "claim": "C39_module", "failed": ["ancestors_text (RoundText.v)"], "blocked_prop_files": ["PropRound"], "secs": 11}
{"key": "GenModule.v|opening brace of a module forgotten", "file": "GenModule.v", "definition": "gen_text", "edit": "opening brace of a module forgotten", "claim": "C39_module", "failed": ["gen_text_spec (RoundText.v)"], "blocked_prop_files": ["PropRound"], "secs": 10}
{"key": "GenModule.v|semicolon behind a module forgotten", "file": "GenModule.v", "definition": "gen_text", "edit": "semicolon behind a module forgotten", "claim": "C39_module", "failed": ["gen_text_spec (RoundText.v)"], "blocked_prop_files": ["PropRound"], "secs": 10}
{"key": "GenModule.v|text of the inner modules lost", "file": "GenModule.v", "definition": "gen_text", "edit": "text of the inner modules lost", "claim": "C39_module", "failed": ["gen_text_spec (RoundText.v)"], "blocked_prop_files": ["PropRound"], "secs": 9}
{"key": "GenModule.v|declarations of the outer module printed inside the inner one", "file": "GenModule.v", "definition": "gen_text", "edit": "declarations of the outer module printed inside the inner one", "claim": "C39_module", "failed": ["gen_text_spec (RoundText.v)"], "blocked_prop_files": ["PropRound"], "secs": 10}
{"key": "GenModule.v|constants looked up in the root", "file": "GenModule.v", "definition": "node_text", "edit": "constants looked up in the root", "claim": "C39_module", "failed": ["step_const (RoundStep.v)"], "blocked_prop_files": ["PropRound"], "secs": 9}
{"key": "GenModule.v|scoped name printed behind struct", "file": "GenModule.v", "definition": "node_text", "edit": "scoped name printed behind struct", "claim": "C39_module", "failed": ["step_struct (RoundStep.v)"], "blocked_prop_files": ["PropRound"], "secs": 8}
{"key": "GenModule.v|current module forgotten in type names", "file": "GenModule.v", "definition": "node_at", "edit": "current module forgotten in type names", "claim": "harmless: the full names mean the same", "failed": ["ex_round (PropRound.v)"], "blocked_prop_files": ["PropRound"], "secs": 17}
{"key": "GenIdl.v|boolean labels swapped", "file": "GenIdl.v", "definition": "label_idl", "edit": "boolean labels swapped", "claim": "C39_union", "failed": ["label_read (UnionRead.v)"], "blocked_prop_files": ["PropBlank", "PropDecl", "PropDoc", "PropRound", "PropUnion"], "secs": 171}
{"key": "GenIdl.v|default label forgotten", "file": "GenIdl.v", "definition": "cases_idl", "edit": "default label forgotten", "claim": "C39_union", "failed": ["cases_idl_text (GenUnion.v)"], "blocked_prop_files": ["PropBlank", "PropDecl", "PropDoc", "PropRound", "PropUnion"], "secs": 165}
{"key": "GenIdl.v|only the first label printed", "file": "GenIdl.v", "definition": "labels_idl", "edit": "only the first label printed", "claim": "C39_union", "failed": ["labels_idl_text (GenUnion.v)"], "blocked_prop_files": ["PropBlank", "PropDecl", "PropDoc", "PropRound", "PropUnion"], "secs": 157}
{"key": "GenIdl.v|key and value printed in the other order", "file": "GenIdl.v", "definition": "type_idl", "edit": "key and value printed in the other order", "claim": "C39_struct", "failed": ["type_idl_false (GenText.v)"], "blocked_prop_files": ["PropBlank", "PropDecl", "PropDoc", "PropGen", "PropRound", "PropUnion"], "secs": 149}
{"key": "GenIdl.v|is_default without the check of the reserved label", "file": "GenIdl.v", "definition": "is_default", "edit": "is_default without the check of the reserved label", "claim": "C39_union", "failed": ["built_answers (UnionBuilt.v)"], "blocked_prop_files": ["PropBlank", "PropDecl", "PropDoc", "PropRound", "PropUnion"], "secs": 152}
{"key": "IdlParse.v|labels kept behind a case (m5)", "file": "IdlParse.v", "definition": "switch_case", "edit": "labels kept behind a case (m5)", "claim": "equivalent: one element per CASE node", "failed": [], "blocked_prop_files": [], "secs": 391}
{"key": "IdlParse.v|cases before the last one lost", "file": "IdlParse.v", "definition": "switch_body", "edit": "cases before the last one lost", "claim": "C39_union", "failed": ["steady_switch_body (IdlParseFacts.v)"], "blocked_prop_files": ["PropBlank", "PropDecl", "PropDoc", "PropExpr", "PropGen", "PropParse", "PropRound", "PropUnion"], "secs": 56}
{"key": "IdlParse.v|reopened module replaced", "file": "IdlParse.v", "definition": "build", "edit": "reopened module replaced", "claim": "C39_module/C49", "failed": ["steady_build (IdlParseFacts.v)"], "blocked_prop_files": ["PropBlank", "PropDecl", "PropDoc", "PropExpr", "PropGen", "PropParse", "PropRound", "PropUnion"], "secs": 57}
{"key": "IdlParse.v|member dimensions collected in reverse", "file": "IdlParse.v", "definition": "declarator_parts", "edit": "member dimensions collected in reverse", "claim": "C39_struct", "failed": ["declarator_parts_dims (StructText.v)"], "blocked_prop_files": ["PropBlank", "PropDecl", "PropDoc", "PropExpr", "PropGen", "PropRound", "PropUnion"], "secs": 262}
{"key": "IdlParse.v|dimensions of typedefs ignored", "file": "IdlParse.v", "definition": "alias_dcl", "edit": "dimensions of typedefs ignored", "claim": "C39_alias", "failed": ["C48_typedef_constant_refuted (PropParse.v)", "alias_reads (AliasText.v)"], "blocked_prop_files": ["PropBlank", "PropDecl", "PropDoc", "PropExpr", "PropGen", "PropParse", "PropRound", "PropUnion"], "secs": 240}
{"key": "IdlParse.v|storing a struct overwrites the others", "file": "IdlParse.v", "definition": "store", "edit": "storing a struct overwrites the others", "claim": "C39_module", "failed": ["store_struct (StructRead.v)"], "blocked_prop_files": ["PropBlank", "PropDecl", "PropDoc", "PropExpr", "PropGen", "PropRound", "PropUnion"], "secs": 244}
{"key": "IdlParse.v|derived struct gets the name of its parent", "file": "IdlParse.v", "definition": "struct_def", "edit": "derived struct gets the name of its parent", "claim": "C39_struct", "failed": ["struct_def_parts (StructRead.v)"], "blocked_prop_files": ["PropBlank", "PropDecl", "PropDoc", "PropExpr", "PropGen", "PropRound", "PropUnion"], "secs": 240}
{"key": "IdlParse.v|value of another enumerator", "file": "IdlParse.v", "definition": "enumerators", "edit": "value of another enumerator", "claim": "C39_enum", "failed": ["C45_boolean_prefix_refuted (PropParse.v)", "enumerators_read (EnumText.v)"], "blocked_prop_files": ["PropBlank", "PropDecl", "PropDoc", "PropExpr", "PropGen", "PropParse", "PropRound", "PropUnion"], "secs": 305}
{"key": "IdlParse.v|every union switches over int32", "file": "IdlParse.v", "definition": "union_parts", "edit": "every union switches over int32", "claim": "C39_union", "failed": ["parts_switch (UnionRead.v)"], "blocked_prop_files": ["PropBlank", "PropDecl", "PropDoc", "PropRound", "PropUnion"], "secs": 332}
{"key": "IdlParse.v|operands swapped in the parser", "file": "IdlParse.v", "definition": "solve_expr", "edit": "operands swapped in the parser", "claim": "C47", "failed": ["solve_bin (ConstText.v)"], "blocked_prop_files": ["PropBlank", "PropDecl", "PropDoc", "PropExpr", "PropRound", "PropUnion"], "secs": 292}
{"key": "IdlParse.v|empty dimension token throws", "file": "IdlParse.v", "definition": "get_dimension", "edit": "empty dimension token throws", "claim": "maybe equivalent: never empty", "failed": ["collection_dimension (TypeText.v)"], "blocked_prop_files": ["PropBlank", "PropDecl", "PropDoc", "PropExpr", "PropGen", "PropRound", "PropUnion"], "secs": 255}
{"key": "IdlParse.v|forward declaration of a declared name accepted", "file": "IdlParse.v", "definition": "forward_dcl", "edit": "forward declaration of a declared name accepted", "claim": "no claim yet: forward declarations", "failed": [], "blocked_prop_files": [], "secs": 454}
