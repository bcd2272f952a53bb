{"key": "TypeVisit.v|second type of a pair not visited", "file": "TypeVisit.v", "definition": "each_type", "edit": "second type of a pair not visited", "claim": "C57", "failed": ["each_treplay (PropTypeVisit.v)"], "blocked_prop_files": ["PropTypeVisit"], "secs": 4}
{"key": "TypeVisit.v|index of members starts at 1", "file": "TypeVisit.v", "definition": "each_type", "edit": "index of members starts at 1", "claim": "C57", "failed": ["each_treplay (PropTypeVisit.v)"], "blocked_prop_files": ["PropTypeVisit"], "secs": 4}
{"key": "TypeVisit.v|value type of a map visited under the map", "file": "TypeVisit.v", "definition": "each_type", "edit": "value type of a map visited under the map", "claim": "C57", "failed": ["each_treplay (PropTypeVisit.v)"], "blocked_prop_files": ["PropTypeVisit"], "secs": 4}
{"key": "TypeVisit.v|alias calls the visitor as well", "file": "TypeVisit.v", "definition": "each_type", "edit": "alias calls the visitor as well", "claim": "C57", "failed": ["each_treplay (PropTypeVisit.v)"], "blocked_prop_files": ["PropTypeVisit"], "secs": 4}
{"key": "TypeVisit.v|depth not increased", "file": "TypeVisit.v", "definition": "child_tnode", "edit": "depth not increased", "claim": "C57", "failed": ["shown_cons (PropTypeVisit.v)"], "blocked_prop_files": ["PropTypeVisit"], "secs": 5}
{"key": "TypeVisit.v|index of the second type of a pair 0", "file": "TypeVisit.v", "definition": "each_type", "edit": "index of the second type of a pair 0", "claim": "C57", "failed": ["each_treplay (PropTypeVisit.v)"], "blocked_prop_files": ["PropTypeVisit"], "secs": 4}
{"key": "TypeVisit.v|the bool thrown is negated", "file": "TypeVisit.v", "definition": "type_for_each", "edit": "the bool thrown is negated", "claim": "C57", "failed": ["C57_any_visitor (PropTypeVisit.v)"], "blocked_prop_files": ["PropTypeVisit"], "secs": 5}
{"key": "TypeVisit.v|children before the collection", "file": "TypeVisit.v", "definition": "each_type", "edit": "children before the collection", "claim": "C57", "failed": ["each_treplay (PropTypeVisit.v)"], "blocked_prop_files": ["PropTypeVisit"], "secs": 5}
{"key": "VectorOps.v|one element too many of an array", "file": "VectorOps.v", "definition": "as_vector", "edit": "one element too many of an array", "claim": "C58", "failed": ["C58_array (PropVector.v)"], "blocked_prop_files": ["PropVector"], "secs": 4}
{"key": "VectorOps.v|last element of a sequence missing", "file": "VectorOps.v", "definition": "as_vector", "edit": "last element of a sequence missing", "claim": "C58", "failed": ["C58_sequence_partial (PropVector.v)"], "blocked_prop_files": ["PropVector"], "secs": 5}
{"key": "VectorOps.v|stride one less", "file": "VectorOps.v", "definition": "read_objects", "edit": "stride one less", "claim": "C58", "failed": ["read_objects_ok (PropVector.v)"], "blocked_prop_files": ["PropVector"], "secs": 3}
{"key": "VectorOps.v|content type not checked", "file": "VectorOps.v", "definition": "content_is", "edit": "content type not checked", "claim": "C58", "failed": ["content_is_iff (PropVector.v)"], "blocked_prop_files": ["PropVector"], "secs": 4}
{"key": "VectorOps.v|offset of the member ignored", "file": "VectorOps.v", "definition": "items", "edit": "offset of the member ignored", "claim": "C58", "failed": ["C58_items (PropVector.v)"], "blocked_prop_files": ["PropVector"], "secs": 4}
{"key": "VectorOps.v|discriminator skipped", "file": "VectorOps.v", "definition": "items", "edit": "discriminator skipped", "claim": "C58", "failed": ["C58_items (PropVector.v)"], "blocked_prop_files": ["PropVector"], "secs": 4}
{"key": "IdlParse.v|redefinition replaces the struct", "file": "IdlParse.v", "definition": "struct_def", "edit": "redefinition replaces the struct", "claim": "C59", "failed": ["struct_def_from (StructRead.v)"], "blocked_prop_files": ["PropBlank", "PropDecl", "PropDoc", "PropExpr", "PropForward", "PropGen", "PropRedefine", "PropRound", "PropScope", "PropUnion"], "secs": 215}
{"key": "IdlParse.v|redefinition ignored without the option", "file": "IdlParse.v", "definition": "struct_def", "edit": "redefinition ignored without the option", "claim": "C59", "failed": ["struct_def_from (StructRead.v)"], "blocked_prop_files": ["PropBlank", "PropDecl", "PropDoc", "PropExpr", "PropForward", "PropGen", "PropRedefine", "PropRound", "PropScope", "PropUnion"], "secs": 225}
{"key": "IdlParse.v|redefinition of unions: members counted from one", "file": "IdlParse.v", "definition": "union_def", "edit": "redefinition of unions: members counted from one", "claim": "C59", "failed": ["union_again (RefuseUnion.v)"], "blocked_prop_files": ["PropRedefine"], "secs": 387}
{"key": "IdlParse.v|typedef of a used name accepted", "file": "IdlParse.v", "definition": "alias_dcl", "edit": "typedef of a used name accepted", "claim": "C59", "failed": ["steady_alias_dcl (IdlParseFacts.v)"], "blocked_prop_files": ["PropBlank", "PropDecl", "PropDoc", "PropExpr", "PropForward", "PropGen", "PropParse", "PropRedefine", "PropRound", "PropScope", "PropUnion"], "secs": 50}
{"key": "IdlParse.v|second constant replaces the first", "file": "IdlParse.v", "definition": "const_dcl", "edit": "second constant replaces the first", "claim": "C59", "failed": ["const_sentence (ConstText.v)"], "blocked_prop_files": ["PropBlank", "PropDecl", "PropDoc", "PropExpr", "PropForward", "PropRedefine", "PropRound", "PropScope", "PropUnion"], "secs": 249}
{"key": "IdlParse.v|enumerations printed as 32 bit", "file": "IdlParse.v", "definition": "cast_string", "edit": "enumerations printed as 32 bit", "claim": "C56", "failed": ["C56_enum (PropCast.v)"], "blocked_prop_files": ["PropCast"], "secs": 398}
{"key": "IdlParse.v|minus sign dropped", "file": "IdlParse.v", "definition": "z_to_string", "edit": "minus sign dropped", "claim": "C56", "failed": ["numeral_text (PropCast.v)", "printed_number (ConstText.v)"], "blocked_prop_files": ["PropBlank", "PropCast", "PropDecl", "PropDoc", "PropExpr", "PropForward", "PropRedefine", "PropRound", "PropScope", "PropUnion"], "secs": 235}
{"key": "IdlParse.v|text printed after its first character", "file": "IdlParse.v", "definition": "cast_string", "edit": "text printed after its first character", "claim": "C56", "failed": ["C56_string (PropCast.v)"], "blocked_prop_files": ["PropCast"], "secs": 379}
