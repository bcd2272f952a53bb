{"key": "Grammar.v|a case label needs no colon", "file": "Grammar.v", "definition": "Grammar.v: CASE_LABEL", "edit": "a case label needs no colon", "claim": "C49_union_partial", "failed": ["ok_label_gap (UnionText.v)"], "blocked_prop_files": ["PropBit", "PropBlank", "PropCase", "PropCast", "PropComment", "PropConst", "PropDecl", "PropDoc", "PropExpr", "PropForward", "PropGen", "PropKeep", "PropNamed", "PropNote", "PropParse", "PropPrint", "PropRedefine", "PropRound", "PropScope", "PropSession", "PropSplit", "PropTree", "PropUnion"], "secs": 226}
{"key": "Grammar.v|a union has exactly one case", "file": "Grammar.v", "definition": "Grammar.v: SWITCH_BODY", "edit": "a union has exactly one case", "claim": "C49_union_partial", "failed": ["ok_union (UnionText.v)"], "blocked_prop_files": ["PropBit", "PropBlank", "PropCase", "PropCast", "PropComment", "PropConst", "PropDecl", "PropDoc", "PropExpr", "PropForward", "PropGen", "PropKeep", "PropNamed", "PropNote", "PropParse", "PropPrint", "PropRedefine", "PropRound", "PropScope", "PropSession", "PropSplit", "PropTree", "PropUnion"], "secs": 206}
