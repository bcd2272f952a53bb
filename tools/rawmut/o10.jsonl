{"key": "Grammar.v|a backslash does not continue a line comment", "file": "Grammar.v", "definition": "LINE_COMMENT", "edit": "a backslash does not continue a line comment", "claim": "C85", "failed": ["opt_gap (GapText.v)"], "blocked_prop_files": ["PropBit", "PropBlank", "PropCase", "PropCast", "PropComment", "PropConst", "PropDecl", "PropDoc", "PropExpr", "PropForward", "PropGen", "PropKeep", "PropNamed", "PropNote", "PropParse", "PropPrint", "PropRedefine", "PropRound", "PropScope", "PropSession", "PropSplit", "PropTree", "PropUnion"], "secs": 35}
{"key": "Grammar.v|nothing may follow a line comment (no WS? behind it)", "file": "Grammar.v", "definition": "LINE_COMMENT", "edit": "nothing may follow a line comment (no WS? behind it)", "claim": "C85", "failed": ["opt_gap (GapText.v)"], "blocked_prop_files": ["PropBit", "PropBlank", "PropCase", "PropCast", "PropComment", "PropConst", "PropDecl", "PropDoc", "PropExpr", "PropForward", "PropGen", "PropKeep", "PropNamed", "PropNote", "PropParse", "PropPrint", "PropRedefine", "PropRound", "PropScope", "PropSession", "PropSplit", "PropTree", "PropUnion"], "secs": 34}
{"key": "Grammar.v|a line comment does not begin behind a line feed", "file": "Grammar.v", "definition": "LINE_COMMENT", "edit": "a line comment does not begin behind a line feed", "claim": "C85", "failed": ["no_comment (PegRules.v)"], "blocked_prop_files": ["PropBit", "PropBlank", "PropCase", "PropCast", "PropComment", "PropConst", "PropDecl", "PropDoc", "PropExpr", "PropForward", "PropGen", "PropKeep", "PropNamed", "PropNote", "PropParse", "PropPrint", "PropRedefine", "PropRound", "PropScope", "PropSession", "PropSplit", "PropTree", "PropUnion"], "secs": 14}
{"key": "Grammar.v|tabs may stand in front of a line comment", "file": "Grammar.v", "definition": "LINE_COMMENT", "edit": "tabs may stand in front of a line comment", "claim": "C85_tab_refuted", "failed": ["no_comment (PegRules.v)"], "blocked_prop_files": ["PropBit", "PropBlank", "PropCase", "PropCast", "PropComment", "PropConst", "PropDecl", "PropDoc", "PropExpr", "PropForward", "PropGen", "PropKeep", "PropNamed", "PropNote", "PropParse", "PropPrint", "PropRedefine", "PropRound", "PropScope", "PropSession", "PropSplit", "PropTree", "PropUnion"], "secs": 14}
{"key": "Grammar.v|nothing may follow a block comment (no WS? behind it)", "file": "Grammar.v", "definition": "BLOCK_COMMENT", "edit": "nothing may follow a block comment (no WS? behind it)", "claim": "C85", "failed": ["opt_gap (GapText.v)"], "blocked_prop_files": ["PropBit", "PropBlank", "PropCase", "PropCast", "PropComment", "PropConst", "PropDecl", "PropDoc", "PropExpr", "PropForward", "PropGen", "PropKeep", "PropNamed", "PropNote", "PropParse", "PropPrint", "PropRedefine", "PropRound", "PropScope", "PropSession", "PropSplit", "PropTree", "PropUnion"], "secs": 41}
{"key": "Grammar.v|a block comment is greedy", "file": "Grammar.v", "definition": "BLOCK_COMMENT", "edit": "a block comment is greedy", "claim": "C85", "failed": ["opt_gap (GapText.v)"], "blocked_prop_files": ["PropBit", "PropBlank", "PropCase", "PropCast", "PropComment", "PropConst", "PropDecl", "PropDoc", "PropExpr", "PropForward", "PropGen", "PropKeep", "PropNamed", "PropNote", "PropParse", "PropPrint", "PropRedefine", "PropRound", "PropScope", "PropSession", "PropSplit", "PropTree", "PropUnion"], "secs": 39}
{"key": "Grammar.v|a block comment stays on its line", "file": "Grammar.v", "definition": "BLOCK_COMMENT", "edit": "a block comment stays on its line", "claim": "C85", "failed": ["opt_gap (GapText.v)"], "blocked_prop_files": ["PropBit", "PropBlank", "PropCase", "PropCast", "PropComment", "PropConst", "PropDecl", "PropDoc", "PropExpr", "PropForward", "PropGen", "PropKeep", "PropNamed", "PropNote", "PropParse", "PropPrint", "PropRedefine", "PropRound", "PropScope", "PropSession", "PropSplit", "PropTree", "PropUnion"], "secs": 36}
{"key": "Grammar.v|block comments are no blanks", "file": "Grammar.v", "definition": "WS", "edit": "block comments are no blanks", "claim": "C85", "failed": ["opt_ws (PegRules.v)"], "blocked_prop_files": ["PropBit", "PropBlank", "PropCase", "PropCast", "PropComment", "PropConst", "PropDecl", "PropDoc", "PropExpr", "PropForward", "PropGen", "PropKeep", "PropNamed", "PropNote", "PropParse", "PropPrint", "PropRedefine", "PropRound", "PropScope", "PropSession", "PropSplit", "PropTree", "PropUnion"], "secs": 14}
{"key": "Grammar.v|blanks are tried before comments", "file": "Grammar.v", "definition": "WS", "edit": "blanks are tried before comments", "claim": "C85", "failed": ["opt_ws (PegRules.v)"], "blocked_prop_files": ["PropBit", "PropBlank", "PropCase", "PropCast", "PropComment", "PropConst", "PropDecl", "PropDoc", "PropExpr", "PropForward", "PropGen", "PropKeep", "PropNamed", "PropNote", "PropParse", "PropPrint", "PropRedefine", "PropRound", "PropScope", "PropSession", "PropSplit", "PropTree", "PropUnion"], "secs": 14}
{"key": "Grammar.v|only one blank", "file": "Grammar.v", "definition": "WS", "edit": "only one blank", "claim": "C85, C49", "failed": ["opt_ws (PegRules.v)"], "blocked_prop_files": ["PropBit", "PropBlank", "PropCase", "PropCast", "PropComment", "PropConst", "PropDecl", "PropDoc", "PropExpr", "PropForward", "PropGen", "PropKeep", "PropNamed", "PropNote", "PropParse", "PropPrint", "PropRedefine", "PropRound", "PropScope", "PropSession", "PropSplit", "PropTree", "PropUnion"], "secs": 15}
{"key": "Grammar.v|CR LF does not end a line (only LF)", "file": "Grammar.v", "definition": "EOL", "edit": "CR LF does not end a line (only LF)", "claim": "C85", "failed": ["no_eol (GapText.v)"], "blocked_prop_files": ["PropBit", "PropBlank", "PropCase", "PropCast", "PropComment", "PropConst", "PropDecl", "PropDoc", "PropExpr", "PropForward", "PropGen", "PropKeep", "PropNamed", "PropNote", "PropParse", "PropPrint", "PropRedefine", "PropRound", "PropScope", "PropSession", "PropSplit", "PropTree", "PropUnion"], "secs": 33}
{"key": "Grammar.v|LF does not end a line", "file": "Grammar.v", "definition": "EOL", "edit": "LF does not end a line", "claim": "C85", "failed": ["no_eol (GapText.v)"], "blocked_prop_files": ["PropBit", "PropBlank", "PropCase", "PropCast", "PropComment", "PropConst", "PropDecl", "PropDoc", "PropExpr", "PropForward", "PropGen", "PropKeep", "PropNamed", "PropNote", "PropParse", "PropPrint", "PropRedefine", "PropRound", "PropScope", "PropSession", "PropSplit", "PropTree", "PropUnion"], "secs": 33}
