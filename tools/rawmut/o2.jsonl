{"key": "Ops.v|any value written to an enumeration (after adding C43)", "file": "Ops.v", "definition": "set_value", "edit": "any value written to an enumeration (after adding C43)", "claim": "C43 enum values", "failed": ["C43_set_enum (PropData.v)"], "blocked_prop_files": ["PropData", "PropMap", "PropModule", "PropSeq"], "secs": 32}
{"key": "Ops.v|alias not resolved in new_data", "file": "Ops.v", "definition": "new_data", "edit": "alias not resolved in new_data", "claim": "C06", "failed": ["stmt_sim (ProgFacts.v)"], "blocked_prop_files": ["PropData", "PropMap", "PropModule", "PropSeq"], "secs": 17}
{"key": "Module.v|submodules are not symbols", "file": "Module.v", "definition": "has_symbol_here", "edit": "submodules are not symbols", "claim": "C29", "failed": ["retabled_declares (ModuleFacts.v)"], "blocked_prop_files": ["PropModule"], "secs": 3}
{"key": "Module.v|has_symbol does not look outwards", "file": "Module.v", "definition": "has_symbol", "edit": "has_symbol does not look outwards", "claim": "C29", "failed": ["C29_has_symbol (PropModule.v)"], "blocked_prop_files": ["PropModule"], "secs": 4}
{"key": "Module.v|counts twice", "file": "Module.v", "definition": "symbol_count", "edit": "counts twice", "claim": "C29", "failed": ["C29_symbol_count (PropModule.v)"], "blocked_prop_files": ["PropModule"], "secs": 4}
{"key": "Module.v|the rest keeps one colon", "file": "Module.v", "definition": "split_scope", "edit": "the rest keeps one colon", "claim": "C29", "failed": ["split_app (ModuleFacts.v)"], "blocked_prop_files": ["PropModule"], "secs": 2}
{"key": "Module.v|first-time flag not cleared for absolute names", "file": "Module.v", "definition": "resolve_scope", "edit": "first-time flag not cleared for absolute names", "claim": "C29 (equivalent on IDL names?)", "failed": ["absolute_ends (ModuleFacts.v)"], "blocked_prop_files": ["PropModule"], "secs": 3}
{"key": "Module.v|absolute names skip a level (harmless: equivalent)", "file": "Module.v", "definition": "resolve_scope", "edit": "absolute names skip a level (harmless: equivalent)", "claim": "none: absolute lookup still reaches the root", "failed": ["absolute_ends (ModuleFacts.v)"], "blocked_prop_files": ["PropModule"], "secs": 2}
{"key": "Module.v|plain names not looked up outwards", "file": "Module.v", "definition": "resolve_scope", "edit": "plain names not looked up outwards", "claim": "C29", "failed": ["resolve_mono (ModuleFacts.v)"], "blocked_prop_files": ["PropModule"], "secs": 2}
{"key": "Module.v|the whole name returned instead of the last component", "file": "Module.v", "definition": "resolve_scope", "edit": "the whole name returned instead of the last component", "claim": "C29", "failed": ["plain_ends (ModuleFacts.v)"], "blocked_prop_files": ["PropModule"], "secs": 2}
{"key": "Module.v|partial match continues outwards", "file": "Module.v", "definition": "resolve_scope", "edit": "partial match continues outwards", "claim": "C29/C30", "failed": ["resolve_mono (ModuleFacts.v)"], "blocked_prop_files": ["PropModule"], "secs": 2}
{"key": "Module.v|qualified names not looked up outwards", "file": "Module.v", "definition": "resolve_scope", "edit": "qualified names not looked up outwards", "claim": "C29", "failed": ["resolve_mono (ModuleFacts.v)"], "blocked_prop_files": ["PropModule"], "secs": 2}
{"key": "Module.v|a refused registration answers true", "file": "Module.v", "definition": "register", "edit": "a refused registration answers true", "claim": "C32", "failed": ["C32_register (PropModule.v)"], "blocked_prop_files": ["PropModule"], "secs": 5}
{"key": "Module.v|replace ignored", "file": "Module.v", "definition": "register", "edit": "replace ignored", "claim": "C32", "failed": ["C32_register (PropModule.v)"], "blocked_prop_files": ["PropModule"], "secs": 6}
{"key": "Module.v|replace clears the table", "file": "Module.v", "definition": "register", "edit": "replace clears the table", "claim": "C32", "failed": ["C32_register (PropModule.v)"], "blocked_prop_files": ["PropModule"], "secs": 5}
{"key": "Module.v|stored type not renamed", "file": "Module.v", "definition": "register", "edit": "stored type not renamed", "claim": "C32", "failed": ["C32_register (PropModule.v)"], "blocked_prop_files": ["PropModule"], "secs": 4}
{"key": "Module.v|emplace overwrites", "file": "Module.v", "definition": "emplace", "edit": "emplace overwrites", "claim": "C32", "failed": ["emplace_assoc (ModuleFacts.v)"], "blocked_prop_files": ["PropModule"], "secs": 2}
{"key": "Module.v|create_alias does not check has_alias", "file": "Module.v", "definition": "create_alias", "edit": "create_alias does not check has_alias", "claim": "C32", "failed": ["C32_create_alias (PropModule.v)"], "blocked_prop_files": ["PropModule"], "secs": 5}
{"key": "Module.v|the constant is default constructed and never assigned", "file": "Module.v", "definition": "create_constant", "edit": "the constant is default constructed and never assigned", "claim": "C32", "failed": ["C32_create_constant_partial (PropModule.v)"], "blocked_prop_files": ["PropModule"], "secs": 5}
{"key": "Module.v|replace keeps the old constant", "file": "Module.v", "definition": "create_constant", "edit": "replace keeps the old constant", "claim": "C32", "failed": ["C32_create_constant_partial (PropModule.v)"], "blocked_prop_files": ["PropModule"], "secs": 5}
{"key": "Module.v|existing type entry not checked", "file": "Module.v", "definition": "create_constant", "edit": "existing type entry not checked", "claim": "C32 (equivalent if tables are paired?)", "failed": ["C32_create_constant_partial (PropModule.v)"], "blocked_prop_files": ["PropModule"], "secs": 5}
{"key": "Module.v|submodule() drops the declarations", "file": "Module.v", "definition": "submodule", "edit": "submodule() drops the declarations", "claim": "C31", "failed": ["call_submodule_spec (PropModule.v)"], "blocked_prop_files": ["PropModule"], "secs": 4}
{"key": "Module.v|siblings lost", "file": "Module.v", "definition": "at_module", "edit": "siblings lost", "claim": "C32", "failed": ["at_module_spec (ModuleFacts.v)"], "blocked_prop_files": ["PropModule"], "secs": 3}
{"key": "Module.v|aliases not consulted by type()", "file": "Module.v", "definition": "type_of", "edit": "aliases not consulted by type()", "claim": "C32/C44", "failed": ["C32_declare_refuted (PropModule.v)"], "blocked_prop_files": ["PropModule"], "secs": 6}
{"key": "Module.v|scope separator missing", "file": "Module.v", "definition": "scoped", "edit": "scope separator missing", "claim": "C32", "failed": ["C32_nontrivial (PropModule.v)"], "blocked_prop_files": ["PropModule"], "secs": 7}
