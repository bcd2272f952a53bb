{"key": "IdlParse.v|escape underscore kept", "file": "IdlParse.v", "definition": "resolve_identifier", "edit": "escape underscore kept", "claim": "C45/C39 refuted", "failed": ["C39_underscore_refuted (PropGen.v)"], "blocked_prop_files": ["PropGen"], "secs": 239}
{"key": "IdlParse.v|used names accepted", "file": "IdlParse.v", "definition": "resolve_identifier", "edit": "used names accepted", "claim": "C39 member named like a symbol", "failed": ["plain_resolves (StructRead.v)"], "blocked_prop_files": ["PropExpr", "PropGen"], "secs": 206}
{"key": "IdlParse.v|dimensions in reverse order", "file": "IdlParse.v", "definition": "get_array_type", "edit": "dimensions in reverse order", "claim": "C39", "failed": ["array_type_back (StructText.v)"], "blocked_prop_files": ["PropExpr", "PropGen"], "secs": 211}
{"key": "IdlParse.v|key and value swapped", "file": "IdlParse.v", "definition": "type_spec", "edit": "key and value swapped", "claim": "C39", "failed": ["ok_type (TypeText.v)"], "blocked_prop_files": ["PropExpr", "PropGen"], "secs": 193}
{"key": "IdlParse.v|uint16 read as int16", "file": "IdlParse.v", "definition": "type_spec", "edit": "uint16 read as int16", "claim": "C39", "failed": ["ok_type (TypeText.v)"], "blocked_prop_files": ["PropExpr", "PropGen"], "secs": 284}
{"key": "IdlParse.v|repeated members accepted by the parser", "file": "IdlParse.v", "definition": "add_declared", "edit": "repeated members accepted by the parser", "claim": "C39/C49 (add_member still checks)", "failed": ["add_declared_one (StructText.v)"], "blocked_prop_files": ["PropExpr", "PropGen"], "secs": 263}
{"key": "IdlParse.v|stored in the current module under the written name", "file": "IdlParse.v", "definition": "struct_def", "edit": "stored in the current module under the written name", "claim": "C39 (equivalent for new names)", "failed": ["struct_def_reads (StructRead.v)"], "blocked_prop_files": ["PropExpr", "PropGen"], "secs": 291}
{"key": "IdlParse.v|inheritance ignored", "file": "IdlParse.v", "definition": "struct_def", "edit": "inheritance ignored", "claim": "C39", "failed": ["struct_def_reads (StructRead.v)"], "blocked_prop_files": ["PropExpr", "PropGen"], "secs": 231}
{"key": "IdlParse.v|the value is not assigned to the declared type", "file": "IdlParse.v", "definition": "const_dcl", "edit": "the value is not assigned to the declared type", "claim": "C33 text (equivalent: solve_expr has assigned)", "failed": ["const_sentence (ConstText.v)"], "blocked_prop_files": ["PropExpr"], "secs": 333}
{"key": "IdlParse.v|unary minus ignored", "file": "IdlParse.v", "definition": "solve_expr", "edit": "unary minus ignored", "claim": "C33 text", "failed": ["tree_sound (ConstText.v)"], "blocked_prop_files": ["PropExpr"], "secs": 324}
{"key": "IdlParse.v|shifts swapped", "file": "IdlParse.v", "definition": "arith_of", "edit": "shifts swapped", "claim": "C33 text", "failed": ["arith_of_leaf (ConstText.v)"], "blocked_prop_files": ["PropExpr"], "secs": 317}
{"key": "IdlParse.v|enumeration registered in the root", "file": "IdlParse.v", "definition": "enum_dcl", "edit": "enumeration registered in the root", "claim": "C39 in modules", "failed": ["enum_sentence (EnumText.v)"], "blocked_prop_files": ["PropExpr", "PropGen", "PropUnion"], "secs": 212}
{"key": "IdlParse.v|enumerators are no constants", "file": "IdlParse.v", "definition": "enumerators", "edit": "enumerators are no constants", "claim": "C39 enum", "failed": ["enumerators_read (EnumText.v)"], "blocked_prop_files": ["PropExpr", "PropGen", "PropUnion"], "secs": 203}
{"key": "IdlParse.v|dimensions of an alias reversed", "file": "IdlParse.v", "definition": "alias_dcl", "edit": "dimensions of an alias reversed", "claim": "C39", "failed": ["alias_reads (AliasText.v)"], "blocked_prop_files": ["PropGen", "PropUnion"], "secs": 213}
{"key": "IdlParse.v|declarations of a module made in the outer module", "file": "IdlParse.v", "definition": "build", "edit": "declarations of a module made in the outer module", "claim": "module sentence", "failed": ["steady_build (IdlParseFacts.v)"], "blocked_prop_files": ["PropExpr", "PropGen", "PropParse", "PropUnion"], "secs": 45}
{"key": "IdlParse.v|syntax errors succeed", "file": "IdlParse.v", "definition": "parse_idl", "edit": "syntax errors succeed", "claim": "C45/C47", "failed": ["C45_keyword_and_digit_refuted (PropParse.v)"], "blocked_prop_files": ["PropExpr", "PropGen", "PropParse", "PropUnion"], "secs": 216}
{"key": "IdlParse.v|booleans inverted", "file": "IdlParse.v", "definition": "literal_value", "edit": "booleans inverted", "claim": "C46", "failed": ["C46_boolean (PropParse.v)"], "blocked_prop_files": ["PropExpr", "PropGen", "PropParse", "PropUnion"], "secs": 213}
{"key": "IdlParse.v|labels kept for the next case", "file": "IdlParse.v", "definition": "switch_case", "edit": "labels kept for the next case", "claim": "C49", "failed": [], "blocked_prop_files": [], "secs": 287}
{"key": "IdlParse.v|ignore_case ignored", "file": "IdlParse.v", "definition": "is_token", "edit": "ignore_case ignored", "claim": "C45?", "failed": ["plain_not_token (StructRead.v)"], "blocked_prop_files": ["PropExpr", "PropGen", "PropUnion"], "secs": 225}
{"key": "Peg.v|choice in the other order", "file": "Peg.v", "definition": "peg", "edit": "choice in the other order", "claim": "C39", "failed": ["peg_eq (PegFacts.v)"], "blocked_prop_files": ["PropExpr", "PropGen", "PropParse", "PropUnion"], "secs": 3}
{"key": "Peg.v|original name lost", "file": "Peg.v", "definition": "optimize", "edit": "original name lost", "claim": "C39", "failed": ["ok_base_prim (TypeText.v)", "C69_any_refuted (PropParse.v)"], "blocked_prop_files": ["PropExpr", "PropGen", "PropParse", "PropUnion"], "secs": 366}
{"key": "Peg.v|ignored rules make nodes", "file": "Peg.v", "definition": "node_of", "edit": "ignored rules make nodes", "claim": "C39", "failed": ["ok_ref_node (PegRules.v)", "C69_empty_part_refuted (PropParse.v)"], "blocked_prop_files": ["PropDoc", "PropExpr", "PropGen", "PropParse", "PropUnion"], "secs": 114}
{"key": "GenIdl.v|signed and unsigned swapped", "file": "GenIdl.v", "definition": "prim_idl", "edit": "signed and unsigned swapped", "claim": "C39", "failed": ["ok_base_prim (TypeText.v)"], "blocked_prop_files": ["PropDoc", "PropExpr", "PropGen", "PropUnion"], "secs": 11}
{"key": "GenIdl.v|bound one too large", "file": "GenIdl.v", "definition": "bound_idl", "edit": "bound one too large", "claim": "C39", "failed": ["ok_collection (TypeText.v)"], "blocked_prop_files": ["PropDoc", "PropExpr", "PropGen", "PropUnion"], "secs": 17}
{"key": "GenIdl.v|inherited members repeated", "file": "GenIdl.v", "definition": "struct_idl", "edit": "inherited members repeated", "claim": "C39", "failed": ["struct_idl_text (GenText.v)"], "blocked_prop_files": ["PropDoc", "PropGen", "PropUnion"], "secs": 166}
{"key": "GenIdl.v|colon forgotten", "file": "GenIdl.v", "definition": "struct_idl", "edit": "colon forgotten", "claim": "C39", "failed": ["struct_idl_text (GenText.v)"], "blocked_prop_files": ["PropDoc", "PropGen", "PropUnion"], "secs": 157}
{"key": "GenIdl.v|enumerators in decreasing order", "file": "GenIdl.v", "definition": "sort_by_value", "edit": "enumerators in decreasing order", "claim": "C39", "failed": ["sort_in (EnumText.v)"], "blocked_prop_files": ["PropDoc", "PropExpr", "PropGen", "PropUnion"], "secs": 160}
{"key": "GenIdl.v|dimensions printed in reverse", "file": "GenIdl.v", "definition": "dims_idl", "edit": "dimensions printed in reverse", "claim": "C39", "failed": ["dims_solid (StructText.v)"], "blocked_prop_files": ["PropDoc", "PropExpr", "PropGen", "PropUnion"], "secs": 45}
{"key": "GenIdl.v|dimensions of aliases not printed", "file": "GenIdl.v", "definition": "alias_idl", "edit": "dimensions of aliases not printed", "claim": "C39", "failed": ["alias_idl_text (GenText.v)"], "blocked_prop_files": ["PropDoc", "PropGen", "PropUnion"], "secs": 149}
{"key": "GenIdl.v|semicolon forgotten", "file": "GenIdl.v", "definition": "const_idl", "edit": "semicolon forgotten", "claim": "C39", "failed": ["C39_const_partial (PropExpr.v)", "text_reads (DocText.v)"], "blocked_prop_files": ["PropDoc", "PropExpr"], "secs": 150}
{"key": "GenIdl.v|commas forgotten", "file": "GenIdl.v", "definition": "enumerators_idl", "edit": "commas forgotten", "claim": "C39", "failed": ["enumerators_text (EnumText.v)"], "blocked_prop_files": ["PropDoc", "PropExpr", "PropGen", "PropUnion"], "secs": 148}
