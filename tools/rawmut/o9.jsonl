{"key": "TypeHeap.v|a copied type shares every shared child, not only primitives", "file": "TypeHeap.v", "definition": "clone", "edit": "a copied type shares every shared child, not only primitives", "claim": "C75: a change to a copy is not seen through the original", "failed": ["clone_spec (TypeHeapFacts.v)"], "blocked_prop_files": ["PropTypeHeap"], "secs": 8}
{"key": "TypeHeap.v|Ptr(const DynamicType&) keeps a stack primitive instead of cloning it", "file": "TypeHeap.v", "definition": "ptr", "edit": "Ptr(const DynamicType&) keeps a stack primitive instead of cloning it", "claim": "C75/C76: no type of the program points to a destroyed object", "failed": ["each_ptr (TypeHeapFacts.v)"], "blocked_prop_files": ["PropTypeHeap"], "secs": 9}
{"key": "TypeHeap.v|clone() keeps next_value_ (EnumerationType overrides clone)", "file": "TypeHeap.v", "definition": "clone", "edit": "clone() keeps next_value_ (EnumerationType overrides clone)", "claim": "C77: the clone of an enumeration cannot be extended", "failed": ["clone_spec (TypeHeapFacts.v)"], "blocked_prop_files": ["PropTypeHeap"], "secs": 9}
{"key": "TypeHeap.v|dont_clone_type is true of enumerations as well", "file": "TypeHeap.v", "definition": "is_prim", "edit": "dont_clone_type is true of enumerations as well", "claim": "C75: independence of copies", "failed": ["changed_prim (TypeHeapRel.v)"], "blocked_prop_files": ["PropTypeHeap"], "secs": 9}
{"key": "TypeHeap.v|Change stores the member type itself, not a Ptr clone", "file": "TypeHeap.v", "definition": "step", "edit": "Change stores the member type itself, not a Ptr clone", "claim": "C75: the member types are independent of the type they were given from", "failed": ["step_rel (TypeHeapRel.v)"], "blocked_prop_files": ["PropTypeHeap"], "secs": 9}
{"key": "TypeHeap.v|a DynamicData keeps the address of a stack type", "file": "TypeHeap.v", "definition": "step", "edit": "a DynamicData keeps the address of a stack type", "claim": "C76: data keep their type when the variable ends", "failed": ["step_rel (TypeHeapRel.v)"], "blocked_prop_files": ["PropTypeHeap"], "secs": 10}
{"key": "TypeHeap.v|Copy of a type into a variable shares (no clone)", "file": "TypeHeap.v", "definition": "step", "edit": "Copy of a type into a variable shares (no clone)", "claim": "C75", "failed": ["step_rel (TypeHeapRel.v)"], "blocked_prop_files": ["PropTypeHeap"], "secs": 9}
{"key": "TypeHeap.v|MChild does not copy the members of the parent but takes the parent as a member", "file": "TypeHeap.v", "definition": "step", "edit": "MChild does not copy the members of the parent but takes the parent as a member", "claim": "C75: New makes the type the constructor says", "failed": ["step_rel (TypeHeapRel.v)"], "blocked_prop_files": ["PropTypeHeap"], "secs": 11}
{"key": "TypeHeap.v|Alter forgets the new next_value_", "file": "TypeHeap.v", "definition": "step", "edit": "Alter forgets the new next_value_", "claim": "C77", "failed": ["step_rel (TypeHeapRel.v)"], "blocked_prop_files": ["PropTypeHeap"], "secs": 10}
{"key": "TypeHeap.v|DynamicData of an alias keeps the alias", "file": "TypeHeap.v", "definition": "step", "edit": "DynamicData of an alias keeps the alias", "claim": "C76: the type of the data is the resolved type", "failed": ["step_rel (TypeHeapRel.v)"], "blocked_prop_files": ["PropTypeHeap"], "secs": 11}
{"key": "TypeHeap.v|Drop destroys objects owned by shared pointers too", "file": "TypeHeap.v", "definition": "step", "edit": "Drop destroys objects owned by shared pointers too", "claim": "C76", "failed": ["step_rel (TypeHeapRel.v)"], "blocked_prop_files": ["PropTypeHeap"], "secs": 11}
{"key": "Session.v|a copied context gets its own module", "file": "Session.v", "definition": "exec", "edit": "a copied context gets its own module", "claim": "C79: copies of a context share their module", "failed": ["rel_step (SessionFacts.v)"], "blocked_prop_files": ["PropSession"], "secs": 8}
{"key": "Session.v|clear_context clears also without the clear flag", "file": "Session.v", "definition": "exec", "edit": "clear_context clears also without the clear flag", "claim": "C78: clear_context without clear does nothing", "failed": ["rel_step (SessionFacts.v)"], "blocked_prop_files": ["PropSession"], "secs": 9}
{"key": "Session.v|success once true stays true", "file": "Session.v", "definition": "finish", "edit": "success once true stays true", "claim": "C78: success is the result of the last parse", "failed": ["finish_spec (SessionFacts.v)"], "blocked_prop_files": ["PropSession"], "secs": 8}
{"key": "Session.v|parse keeps the first context of the parser", "file": "Session.v", "definition": "enter", "edit": "parse keeps the first context of the parser", "claim": "C78: parse acts on the context it was given", "failed": ["parse_call_spec (SessionFacts.v)"], "blocked_prop_files": ["PropSession"], "secs": 8}
{"key": "Session.v|module() makes a new Module at every call", "file": "Session.v", "definition": "own_module", "edit": "module() makes a new Module at every call", "claim": "C78: a second parse sees the declarations of the first", "failed": ["own_module_spec (SessionFacts.v)"], "blocked_prop_files": ["PropSession"], "secs": 7}
{"key": "Session.v|all contexts share one module object", "file": "Session.v", "definition": "own_module", "edit": "all contexts share one module object", "claim": "C79: contexts made separately do not share", "failed": ["own_module_spec (SessionFacts.v)"], "blocked_prop_files": ["PropSession"], "secs": 9}
{"key": "Session.v|destroying a context clears context_ nowhere but also keeps the context (no-op)", "file": "Session.v", "definition": "exec", "edit": "destroying a context clears context_ nowhere but also keeps the context (no-op)", "claim": "C80: using a parser after its context ended is undefined", "failed": ["rel_step (SessionFacts.v)"], "blocked_prop_files": ["PropSession"], "secs": 9}
{"key": "Session.v|Parser::get_all_types gives scoped names", "file": "Session.v", "definition": "exec", "edit": "Parser::get_all_types gives scoped names", "claim": "C80", "failed": ["rel_step (SessionFacts.v)"], "blocked_prop_files": ["PropSession"], "secs": 9}
{"key": "Session.v|build_on_ast takes the context given, not context_", "file": "Session.v", "definition": "build_in", "edit": "build_on_ast takes the context given, not context_", "claim": "C81: threads on one parser write the wrong context", "failed": ["build_in_spec (SessionFacts.v)"], "blocked_prop_files": ["PropSession"], "secs": 6}
{"key": "Session.v|assignment of contexts copies everything but the module", "file": "Session.v", "definition": "exec", "edit": "assignment of contexts copies everything but the module", "claim": "C79", "failed": ["rel_step (SessionFacts.v)"], "blocked_prop_files": ["PropSession"], "secs": 8}
{"key": "Session.v|a rejected text sets success to true", "file": "Session.v", "definition": "parse_call", "edit": "a rejected text sets success to true", "claim": "C78", "failed": ["parse_call_spec (SessionFacts.v)"], "blocked_prop_files": ["PropSession"], "secs": 7}
