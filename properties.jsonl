{"id": "C01", "title": "Compatibility of a type with itself is EQUALS", "statement": "For every type that can be built with the API, t.is_compatible(t) returns TypeConsistency::EQUALS and returns at all (the mutually recursive, argument-flipping checks always terminate).", "quantifier": "all types, of any nesting depth; for termination all pairs of types", "why_tests_cant": "the set of types is infinite and the virtual calls flip receiver and argument, so termination and the verdict need induction on both types", "anchors": ["include/xtypes/DynamicType.hpp: is_compatible", "include/xtypes/StructType.hpp: is_compatible", "include/xtypes/UnionType.hpp: is_compatible", "include/xtypes/PrimitiveType.hpp: is_compatible"]}
{"id": "C02", "title": "Aliases are transparent for compatibility", "statement": "Wrapping either side of is_compatible in any number of AliasType layers does not change the verdict.", "quantifier": "all pairs of types and all alias chains", "why_tests_cant": "alias chains and nesting are unbounded; the asymmetric enum/primitive rule makes a single forgotten flip visible only for special pairs", "anchors": ["include/xtypes/AliasType.hpp: is_compatible, rget", "include/xtypes/PrimitiveType.hpp: is_compatible", "include/xtypes/EnumeratedType.hpp: is_compatible"]}
{"id": "C03", "title": "EQUALS means layout-identical", "statement": "If a.is_compatible(b) is EQUALS then instances of a and b consist of the same elementary pieces in the same order and occupy the same number of bytes, so the raw copy that assignment performs never reads or writes outside either instance.", "quantifier": "all pairs of types", "why_tests_cant": "pairs of arbitrarily nested types; tests compare a handful", "anchors": ["include/xtypes/DynamicType.hpp: is_compatible", "include/xtypes/DynamicData.hpp: DynamicData::operator="]}
{"id": "C04", "title": "Compatibility is symmetric in its positive verdict", "statement": "a.is_compatible(b) == NONE exactly when b.is_compatible(a) == NONE, and EQUALS in one direction is EQUALS in the other.", "quantifier": "all pairs of types", "why_tests_cant": "needs all pairs; the code has direction dependent rules for enums, pairs and one-member structs", "anchors": ["include/xtypes/EnumeratedType.hpp: is_compatible", "include/xtypes/PairType.hpp: is_compatible", "include/xtypes/StructType.hpp: is_compatible"]}
{"id": "C05", "title": "Structure layout", "statement": "After any sequence of add_member calls (with or without a parent), members occupy pairwise disjoint byte ranges inside memory_size(), in declaration order without gaps, inherited members first and at the offsets they have in the parent; a duplicated name is rejected and leaves the type unchanged.", "quantifier": "all sequences of add_member, all parents, all member types", "why_tests_cant": "overlap depends on the sizes of all earlier members; no finite set of structs covers it", "anchors": ["include/xtypes/StructType.hpp: StructType, add_member", "include/xtypes/AggregationType.hpp: insert_member, parent"]}
{"id": "C06", "title": "Default construction initialises everything", "statement": "Constructing a DynamicData of any type yields an instance in which every reachable element can be read (no object is used before it is constructed), numbers are zero, strings/sequences/maps are empty.", "quantifier": "all types", "why_tests_cant": "nesting is unbounded; an unconstructed sub-object is undefined behaviour that a test may not notice", "anchors": ["include/xtypes/DynamicData.hpp: DynamicData::DynamicData", "include/xtypes/StructType.hpp: construct_instance", "include/xtypes/ArrayType.hpp: construct_instance", "include/xtypes/SequenceInstance.hpp: init_memory"]}
{"id": "C07", "title": "Copies are equal to and independent of the source", "statement": "Copy-constructing a DynamicData of any type from a live instance never touches memory outside the new instance and yields an instance with the same value (operator== holds), and later writes to one do not affect the other.", "quantifier": "all types, all instance values, all later writes", "why_tests_cant": "values and nesting are unbounded", "anchors": ["include/xtypes/DynamicData.hpp: DynamicData(const DynamicData&)", "include/xtypes/StructType.hpp: copy_instance", "include/xtypes/ArrayType.hpp: copy_instance", "include/xtypes/SequenceInstance.hpp: copy_content"]}
{"id": "C08", "title": "Destruction is complete and defined", "statement": "Destroying an instance that was default-constructed or copied destroys each contained object exactly once and never destroys an object that is not alive.", "quantifier": "all types, all values", "why_tests_cant": "double destruction / missed destruction are undefined behaviour or leaks for particular nestings only", "anchors": ["include/xtypes/DynamicData.hpp: ~DynamicData", "include/xtypes/SequenceInstance.hpp: free_memory", "include/xtypes/StructType.hpp: destroy_instance", "include/xtypes/ArrayType.hpp: destroy_instance"]}
{"id": "C09", "title": "Writes through a reference are confined", "statement": "Writing a value through the reference of one struct member / array element / pair half changes exactly that element: it reads back as written and every other element reads back as before.", "quantifier": "all aggregate types, all members, all values written, all instance states", "why_tests_cant": "frame property over all states", "anchors": ["include/xtypes/DynamicData.hpp: WritableDynamicDataRef::value, operator[]", "include/xtypes/StructType.hpp: add_member", "include/xtypes/ArrayType.hpp: get_instance_at"]}
{"id": "C10", "title": "operator== is equality of values", "statement": "For two live instances of the same type, operator== returns true exactly when all their elements are equal; in particular it is reflexive, symmetric and transitive.", "quantifier": "all types, all pairs of values", "why_tests_cant": "quantifies over all pairs of values of all types", "anchors": ["include/xtypes/DynamicData.hpp: ReadableDynamicDataRef::operator==", "include/xtypes/StructType.hpp: compare_instance", "include/xtypes/SequenceInstance.hpp: operator==", "include/xtypes/MapInstance.hpp: operator=="]}
{"id": "C11", "title": "Assignment yields the source value, also for self-assignment", "statement": "After a = b with is_compatible EQUALS, a == b; a = a leaves a unchanged.", "quantifier": "all types, all values, both aliased and distinct operands", "why_tests_cant": "aliasing only matters for types that own memory; a passing test on ints says nothing about strings", "anchors": ["include/xtypes/DynamicData.hpp: DynamicData::operator=", "include/xtypes/DynamicData.hpp: WritableDynamicDataRef::value"]}
{"id": "C12", "title": "Sequences behave as lists", "statement": "Any history of push and resize on a sequence gives size, indexed reads and equality of the corresponding list: push appends, resize appends default elements and never shrinks, existing elements keep their value across reallocation.", "quantifier": "all histories of push/resize, all content types, all bounds", "why_tests_cant": "reallocation happens at data dependent points of arbitrarily long histories", "anchors": ["include/xtypes/SequenceInstance.hpp: push, resize, realloc, move_content, copy_content", "include/xtypes/SequenceType.hpp: push_instance, resize_instance"]}
{"id": "C13", "title": "Sequence bounds and capacity are respected", "statement": "In every history the size never exceeds a non-zero bound, never exceeds the allocated capacity, and a push on a full bounded sequence is refused and changes nothing.", "quantifier": "all histories, all bounds", "why_tests_cant": "invariant over all reachable states", "anchors": ["include/xtypes/SequenceInstance.hpp: push, realloc", "include/xtypes/SequenceType.hpp: push_instance", "include/xtypes/DynamicData.hpp: push, resize"]}
{"id": "C14", "title": "Sequence allocation arithmetic does not wrap", "statement": "The number of bytes allocated for a sequence is capacity times element size.", "quantifier": "all capacities and element sizes representable in the API (uint32 bounds)", "why_tests_cant": "wrap-around needs gigabytes of data to show in a test", "anchors": ["include/xtypes/SequenceInstance.hpp: init_memory, push"]}
{"id": "C15", "title": "Maps behave as finite maps", "statement": "For keys whose hashes do not collide, any history of insert / operator[] / lookups behaves as a finite map: a key is found iff it was inserted, size is the number of distinct keys, other entries keep their value across insertion and reallocation, and the bound is respected.", "quantifier": "all histories, all key and value types", "why_tests_cant": "position of a key depends on hashes of all other keys; binary search and shifting have many boundary cases", "anchors": ["include/xtypes/MapInstance.hpp: insert, find_place, create_place, move_content, get_key_index, realloc", "include/xtypes/MapType.hpp: insert_instance"]}
{"id": "C16", "title": "Primitive map keys never collide", "statement": "Two different keys of a primitive type of at most 8 bytes never denote the same map entry.", "quantifier": "all pairs of keys of all primitive types of size <= 8", "why_tests_cant": "2^128 pairs; needs the algebraic fact that the 64-bit mixing is a bijection", "anchors": ["include/xtypes/Instanceable.hpp: hash64, mix", "include/xtypes/PrimitiveType.hpp"]}
{"id": "C17", "title": "Distinct structured map keys denote distinct entries", "statement": "Two different struct / union / sequence keys denote different map entries.", "quantifier": "all pairs of keys", "why_tests_cant": "collisions are astronomically rare under random testing but exist", "anchors": ["include/xtypes/Instanceable.hpp: hash_combine", "include/xtypes/UnionType.hpp: hash", "include/xtypes/SequenceType.hpp: hash", "include/xtypes/MapInstance.hpp: find_place"]}
{"id": "C18", "title": "Map insert stores the given value", "statement": "After a successful insert(key, value), operator[](key) yields value; inserting an existing key reports failure without changing the entry.", "quantifier": "all map types, keys, values, map states", "why_tests_cant": "all states", "anchors": ["include/xtypes/DynamicData.hpp: WritableDynamicDataRef::insert", "include/xtypes/MapType.hpp: insert_instance", "include/xtypes/MapInstance.hpp: insert"]}
{"id": "C19", "title": "Map equality does not depend on insertion order", "statement": "Two maps of the same type holding the same key/value pairs compare equal however they were filled.", "quantifier": "all histories", "why_tests_cant": "all permutations of all histories", "anchors": ["include/xtypes/MapInstance.hpp: operator==, find_place, insert"]}
{"id": "C20", "title": "Bounded strings never exceed their bound", "statement": "Whatever is assigned or copied into an element of a bounded string type, the stored string has at most bound characters.", "quantifier": "all histories of writes, assignments and compatible copies; all nesting", "why_tests_cant": "invariant over all histories and all write paths", "anchors": ["include/xtypes/StringType.hpp: copy_instance, copy_instance_from_type", "include/xtypes/DynamicData.hpp: value"]}
{"id": "C21", "title": "Union discriminator and active member agree", "statement": "In every history of union operations (construction, selecting a case by name, setting the discriminator, copies), the member reported active by current_case/discriminator is the one that is constructed, and reading it is defined.", "quantifier": "all union types, all histories", "why_tests_cant": "history dependent", "anchors": ["include/xtypes/UnionType.hpp: construct_instance, select_disc, select_case, activate_member, copy_instance, get_current_selection", "include/xtypes/DynamicData.hpp: d, current_case, operator_at_impl"]}
{"id": "C22", "title": "Union labels are unambiguous", "statement": "In every union type built with add_case_member a label selects at most one member, which is a declared case; a call with a label already taken, a name already used or no label at all for a case that is no default is refused and leaves the type unchanged.", "quantifier": "all sequences of add_case_member", "why_tests_cant": "history of the type construction", "anchors": ["include/xtypes/UnionType.hpp: add_case_member, check_label_value, default_union_label"]}
{"id": "C23", "title": "Enumerators have distinct names and the values given", "statement": "In every EnumerationType built with add_enumerator the names are distinct, value(name) is the value given to the name when it was accepted, every other name is refused by value(name), and a rejected call leaves the type unchanged.", "quantifier": "all sequences of add_enumerator, both signed/unsigned and all widths", "why_tests_cant": "values wrap at the end of the underlying type's range", "anchors": ["include/xtypes/EnumerationType.hpp: add_enumerator", "include/xtypes/EnumeratedType.hpp: value, enumerator, is_allowed_value"]}
{"id": "C24", "title": "Arithmetic on integer data is C arithmetic of the element type", "statement": "For two integer data of one type + - * / % & | ^ << >> and the assignments op= yield the mathematical result reduced to the element type; they are undefined exactly where C++17 leaves the operation on the promoted operands undefined (division by zero, over-wide shifts, signed overflow of the promoted type), and exact whenever the result fits. The same holds for ++x and --x and, on signed types, for unary minus and ~. Comparisons and ! agree with the numbers; operands of different non-enumerated types and of types without arithmetic are rejected.", "quantifier": "all integer kinds, all operand values", "why_tests_cant": "2^128 operand pairs", "anchors": ["include/xtypes/DynamicDataImpl.hpp: operators"]}
{"id": "C25", "title": "Compatible copies convert member-wise", "statement": "Constructing a DynamicData of type a from data of a compatible type b gives an instance in which every element is constructed; members present in both are converted, missing members take defaults.", "quantifier": "all compatible pairs of types, all source values", "why_tests_cant": "pairs of nested types times values", "anchors": ["include/xtypes/DynamicData.hpp: DynamicData(const ReadableDynamicDataRef&, const DynamicType&)", "include/xtypes/StructType.hpp: copy_instance_from_type", "include/xtypes/ArrayType.hpp: copy_instance_from_type", "include/xtypes/PairType.hpp: copy_instance_from_type"]}
{"id": "C26", "title": "Integer conversion preserves values where possible", "statement": "Converting an integer element to a compatible integer type keeps the value when it is representable in the target and reduces it modulo 2^width otherwise; widening then narrowing back is the identity.", "quantifier": "all pairs of integer kinds, all values", "why_tests_cant": "all values", "anchors": ["include/xtypes/PrimitiveType.hpp: copy_instance_from_type"]}
{"id": "C27", "title": "Visiting an instance reaches each element exactly once", "statement": "for_each on data visits the root and every element in preorder, each exactly once, with depth equal to its nesting level and index equal to its position.", "quantifier": "all types (including aliases at any place), all values", "why_tests_cant": "tree shapes are unbounded", "anchors": ["include/xtypes/DynamicData.hpp: for_each", "include/xtypes/Instanceable.hpp: InstanceNode", "include/xtypes/StructType.hpp: for_each_instance", "include/xtypes/AliasType.hpp: for_each_instance"]}
{"id": "C28", "title": "Indexed access and size agree", "statement": "For arrays, sequences, structs and pairs every index below size() is accessible and every other index is rejected; maps and unions reject every index; a multidimensional array built from a dimension list is the nested array and has product-of-dimensions elements.", "quantifier": "all collection types, all sizes, all indices", "why_tests_cant": "all indices; wrap-around at 2^32 for sequence indices", "anchors": ["include/xtypes/DynamicData.hpp: operator[], size", "include/xtypes/ArrayType.hpp: ArrayType(const DynamicType&, const std::vector<uint32_t>&)", "include/xtypes/SequenceInstance.hpp: operator[]"]}
{"id": "C29", "title": "Symbol lookup in modules follows scoping", "statement": "Looking up an IDL name (identifiers separated by ::, optionally absolute) from a module ends; a plain name is found in the innermost enclosing module that declares it, a name starting with :: from the root only; whatever the text of the name, a lookup that succeeds returns a module that really declares the symbol, and there is one answer. has_symbol and symbol_count agree with it.", "quantifier": "all module trees without null submodules (C31), all starting modules, all names", "why_tests_cant": "trees and qualified names are unbounded", "anchors": ["include/xtypes/idl/Module.hpp: resolve_scope, has_symbol, type, structure, scope"]}
{"id": "C30", "title": "Qualified names do not escape the named module", "statement": "If A::X resolves, X is declared in a module named A.", "quantifier": "all module trees, all names", "why_tests_cant": "all trees", "anchors": ["include/xtypes/idl/Module.hpp: resolve_scope"]}
{"id": "C31", "title": "Queries on modules do not modify them", "statement": "Looking up a module or a symbol that does not exist reports absence and leaves the module's observable content (has_submodule, symbol_count, lookups) unchanged.", "quantifier": "all module trees, all query sequences", "why_tests_cant": "histories of queries", "anchors": ["include/xtypes/idl/Module.hpp: submodule, operator[], has_submodule"]}
{"id": "C32", "title": "Declaring symbols is conservative", "statement": "Registering a structure/union/enum/alias/constant either makes it retrievable under its name leaving all other names unchanged, or is refused and changes nothing.", "quantifier": "all module states, all names", "why_tests_cant": "all states", "anchors": ["include/xtypes/idl/Module.hpp: structure, union_switch, enum_32, create_alias, create_constant"]}
{"id": "C33", "title": "Constant expressions evaluate as in IDL", "statement": "The value the parser gives to an integer constant expression equals its IDL/C value: usual precedence, left associativity, unary operators.", "quantifier": "all expressions", "why_tests_cant": "expression trees are unbounded", "anchors": ["include/xtypes/idl/parser.hpp: solve_expr", "include/xtypes/idl/grammar.hpp: OR_EXPR .. UNARY_EXPR"]}
{"id": "C34", "title": "Integer literals denote their value", "statement": "A decimal, octal or hexadecimal literal in range of its type is read as its mathematical value, in constants, in array dimensions, bounds and union labels alike.", "quantifier": "all literals", "why_tests_cant": "all digit strings", "anchors": ["include/xtypes/idl/parser.hpp: get_literal_value, fixed_array_size, get_dimension", "include/xtypes/UnionType.hpp: parse_labels"]}
{"id": "C35", "title": "Logging filter", "statement": "After any history of log calls exactly the messages whose level passes the configured level are kept, in order; strict retrieval returns exactly the messages of the requested level.", "quantifier": "all histories of log events and levels", "why_tests_cant": "all histories", "anchors": ["include/xtypes/idl/parser.hpp: LogContext"]}
{"id": "C36", "title": "Preprocessing passes the IDL text through unchanged", "statement": "The text that the preprocessor receives for an IDL string is that string; escaping never reads outside the string.", "quantifier": "all IDL texts", "why_tests_cant": "all strings; shell meta-characters appear anywhere", "anchors": ["include/xtypes/idl/parser.hpp: replace_all_string, preprocess_string, get_cmd_output"]}
{"id": "C37", "title": "One shared parser instance", "statement": "Concurrent callers of the parser singleton all obtain the same parser.", "quantifier": "all interleavings of any number of threads", "why_tests_cant": "schedule dependent", "anchors": ["include/xtypes/idl/parser.hpp: Parser::instance"]}
{"id": "C38", "title": "String conversions terminate and are exact", "statement": "Converting a string to or from wide/UTF-16 form terminates for every input and yields exactly the converted characters.", "quantifier": "all strings of any length", "why_tests_cant": "the conversion loop works in 64-unit chunks; boundary behaviour depends on length and content", "anchors": ["include/xtypes/StringConversion.hpp: code_conversion_tool"]}
{"id": "C39", "title": "Generated IDL declares the same types", "statement": "Generating IDL for a type and parsing it back yields the same type: array dimensions keep their order, enumerator values and union labels are preserved, constants keep their value.", "quantifier": "all types / modules", "why_tests_cant": "all types", "anchors": ["include/xtypes/idl/generator.hpp: type_name, structure, generate_union, enumeration32, get_const_value, label_value", "include/xtypes/idl/parser.hpp: get_array_type"]}
{"id": "C40", "title": "Generated modules declare types before use", "statement": "The IDL generated for a module emits every type after the types it depends on.", "quantifier": "all modules with acyclic dependencies", "why_tests_cant": "all dependency graphs", "anchors": ["include/xtypes/idl/generator_deptree.hpp"]}
{"id": "C41", "title": "Typed access is checked", "statement": "value<T>() and value<T>(v) succeed only when T is the element's kind, so that no element is ever read or written as a different representation; reads return what was last written.", "quantifier": "all types, all T", "why_tests_cant": "all pairs (T, element type), all states", "anchors": ["include/xtypes/DynamicData.hpp: value", "include/xtypes/DynamicDataImpl.hpp"]}
{"id": "C42", "title": "Type flags combine soundly", "statement": "Combining consistency verdicts is associative, commutative and idempotent, EQUALS is neutral, NONE is absorbing, so the verdict of an aggregate is NONE iff some compared part is NONE and EQUALS iff all parts are EQUALS.", "quantifier": "all verdicts, all member lists", "why_tests_cant": "lists of members unbounded", "anchors": ["include/xtypes/TypeConsistency.hpp: operator|", "include/xtypes/StructType.hpp: is_compatible"]}
{"id": "C43", "title": "Enumeration elements only take declared values", "statement": "Writing a number to an enumeration element with value(v) is accepted exactly when the number is the value of one of the enumerators; every enumeration element always holds one of the enumerators.", "quantifier": "all enumerations of all widths, all numbers, all histories", "why_tests_cant": "all values and all states", "anchors": ["include/xtypes/DynamicData.hpp: value", "include/xtypes/EnumeratedType.hpp: is_allowed_value, construct_instance"]}
{"id": "C44", "title": "Recursive type lookup finds what exists", "statement": "type(name, true) on a module returns a type whenever the module or one of its submodules, at any depth, declares a type of that name.", "quantifier": "all module trees, all names", "why_tests_cant": "the answer depends on the order of all submodules in the tree", "anchors": ["include/xtypes/idl/Module.hpp: type"]}
{"id": "C45", "title": "Legal identifiers can name types", "statement": "Every identifier that the IDL grammar allows and that is no keyword can name a type, and a declaration that follows can use the type by that name; an identifier is refused as a keyword exactly if it is one.", "quantifier": "all identifiers, all contexts", "why_tests_cant": "unboundedly many identifiers; the failing ones are those that begin with a keyword", "anchors": ["include/xtypes/idl/grammar.hpp: END_KW, TYPE_SPEC, BOOLEAN_LITERAL", "include/xtypes/idl/parser.hpp: is_token, resolve_identifier"]}
{"id": "C46", "title": "Constants have their literal's value", "statement": "After parsing a constant declaration whose expression is one literal, the module's constant of that name has the literal's value, for boolean, character, string and wide literals.", "quantifier": "all literals of all kinds", "why_tests_cant": "all texts of literals", "anchors": ["include/xtypes/idl/parser.hpp: const_dcl, get_literal_value", "include/xtypes/idl/grammar.hpp: CHAR_LITERAL, STRING_LITERAL, WIDE_STRING_LITERAL"]}
{"id": "C47", "title": "The grammar decides every text", "statement": "Whether a text is IDL is decided by the grammar after finitely many steps for every text, and the outcome of parse() is determined by the text and the context.", "quantifier": "all texts, all contexts", "why_tests_cant": "non-termination and unbounded recursion cannot be observed by finitely many runs", "anchors": ["include/xtypes/idl/grammar.hpp: idl_grammar", "include/xtypes/idl/parser.hpp: parse, type_spec, is_token", "include/xtypes/idl/Module.hpp: resolve_scope"]}
{"id": "C48", "title": "Sizes mean their value", "statement": "The bound of a string, sequence or map and the dimension of an array in an IDL text is the value of the literal, in any base, or of the named constant.", "quantifier": "all sizes, all literals, all constants", "why_tests_cant": "all numbers in all notations", "anchors": ["include/xtypes/idl/parser.hpp: type_spec, get_dimension, identifier, alias_dcl"]}
{"id": "C49", "title": "Parsed declarations have exactly the declared members", "statement": "After parsing a struct, union, enumeration or typedef declaration the module declares a type of that name with exactly the members, labels and enumerators of the text, in order.", "quantifier": "all declarations", "why_tests_cant": "all texts", "anchors": ["include/xtypes/idl/parser.hpp: struct_def, union_def, switch_body, enum_dcl, alias_dcl"]}
{"id": "C50", "title": "The layout of an IDL text does not matter", "statement": "Two IDL texts that differ only in blanks and comments between tokens are parsed alike: parse accepts both or neither, and afterwards the module is the same.", "quantifier": "all pairs of texts that differ only in layout, all contexts, all modules", "why_tests_cant": "There are unboundedly many texts and layouts; a test compares a few spellings of a few declarations.", "anchors": ["include/xtypes/idl/grammar.hpp: idl_grammar (WS, COMMENT, KW_*, punctuation rules)", "include/xtypes/idl/parser.hpp: Parser::parse"]}
{"id": "C51", "title": "The printed text of a value shows the value", "statement": "to_string() of any data succeeds, shows every element once, in the order of the visit, indented by its nesting level, with the name or index under which its parent has it, its type and its value; two data of one type with different values have different texts.", "quantifier": "all types, all values", "why_tests_cant": "all nested values; distinctness is about all pairs of values", "anchors": ["include/xtypes/DynamicDataImpl.hpp: ReadableDynamicDataRef::to_string", "include/xtypes/DynamicData.hpp: for_each, ReadableNode"]}
{"id": "C52", "title": "get_all_types lists the types of a module", "statement": "get_all_types() of a module returns a map that contains every name of a structure, union, alias and enumeration declared in the module or in a module inside it, and nothing else; with scopes the map is exactly the types under their fully qualified names, provided no module uses one name for two kinds of types.", "quantifier": "all trees of modules, all modules in them, both values of the parameter", "why_tests_cant": "trees of modules are unbounded in depth and width; a test lists a few", "anchors": ["include/xtypes/idl/Module.hpp: get_all_types, fill_all_types"]}
{"id": "C53", "title": "for_each and for_each_submodule visit every module once", "statement": "for_each calls the visitor exactly once for the module and for every module inside it, a module before the modules it contains; for_each_submodule does it for the modules inside only, or for the direct submodules only when it is not recursive.", "quantifier": "all trees of modules, all visitors and visitor states", "why_tests_cant": "all trees and all visitors", "anchors": ["include/xtypes/idl/Module.hpp: for_each, for_each_submodule"]}
{"id": "C54", "title": "hash() agrees with operator==", "statement": "hash() of data depends on the value only: two equal data of one type have the same hash, whatever their history; a copy has the hash of the original; data of small integral types with the same hash are equal.", "quantifier": "all types, all pairs of data of the type", "why_tests_cant": "all pairs of values of all nested types", "anchors": ["include/xtypes/DynamicData.hpp: ReadableDynamicDataRef::hash, operator==", "include/xtypes/Instanceable.hpp: hash, hash64, hash_combine", "include/xtypes/*Type.hpp: hash"]}
{"id": "C55", "title": "Forward declarations in IDL", "statement": "A forward declaration `struct X;` in a text given to parse() makes X a known struct without members and changes nothing else; the definition of X does the same whether X was declared before or not, so a declaration followed by the definition leaves the module as the definition alone.", "quantifier": "every module the text is parsed into, every name, every list of members and parent of the struct, every white space between the two declarations", "why_tests_cant": "the members, bounds, parents and the contents of the module vary without bound; the definition goes through other branches of the builder (replace or keep the registered struct) depending on whether the name is known and on the parent", "anchors": ["include/xtypes/idl/parser.hpp: struct_fw_dcl, union_fw_dcl, struct_def, resolve_identifier", "include/xtypes/idl/grammar.hpp: STRUCT_FORWARD_DCL, UNION_FORWARD_DCL"]}
{"id": "C56", "title": "cast<std::string>() is the text of the value", "statement": "cast<std::string>() of data of an integer, character, boolean or enumerated type is the decimal numeral of its number (a minus sign for negative numbers, no leading zeros); of data of a narrow string type it is exactly its characters; two data of the same such type with the same text are equal; data of any type that is not primitive, enumerated or a string is rejected by the check.", "quantifier": "every data of every primitive (non floating point), enumerated and string type and every value", "why_tests_cant": "All values of all integer widths and all strings.", "anchors": ["include/xtypes/DynamicDataImpl.hpp: cast<std::string>, DYNAMIC_DATA_CAST", "include/xtypes/DynamicData.hpp: _cast"]}
{"id": "C57", "title": "for_each of a type visits every type it is made of exactly once", "statement": "DynamicType::for_each calls the visitor once for the type itself and once for every type it is made of at every depth (element types, the pair of a map, keys and values, members, discriminators), outer types before inner ones and in order, with the depth, index, member and parent of each; when the visitor throws a bool the visit stops and for_each returns it, otherwise it returns true.", "quantifier": "every type of every depth and every visitor", "why_tests_cant": "Types nest to any depth and the visitor is arbitrary.", "anchors": ["include/xtypes/DynamicType.hpp: for_each, TypeNode", "include/xtypes/StructType.hpp: for_each_type", "include/xtypes/UnionType.hpp: for_each_type", "include/xtypes/PairType.hpp: for_each_type", "include/xtypes/MapType.hpp: for_each_type", "include/xtypes/AliasType.hpp: for_each_type"]}
{"id": "C58", "title": "as_vector() and items() list the elements and members", "statement": "as_vector<T>() of an array, sequence or string whose elements are of type T gives a vector with exactly the elements in order, and is rejected for every other type; items() of a struct iterates over all members in declaration order, each with its name and a reference to its value.", "quantifier": "every array, sequence and string value of any size, every T, every struct value", "why_tests_cant": "All sizes, element types and values.", "anchors": ["include/xtypes/DynamicData.hpp: as_vector, items, MemberIterator, MemberPair", "include/xtypes/SequenceInstance.hpp: operator []"]}
{"id": "C59", "title": "A second declaration never changes the first", "statement": "An IDL text that declares in a module a struct that has members, a union that has cases or a typedef again, or declares a known name forward, is refused with an exception and leaves the module as it was after the declarations before it; with Context::ignore_redefinition a second struct, union or typedef (of a typedef's name) is skipped instead. A second constant or enumeration keeps the first one's meaning.", "quantifier": "all modules, all preceding declarations of C49, all names and all second declarations (struct, union, typedef, enum, constant, forward declaration)", "why_tests_cant": "tests redefine one struct; the kinds of declaration, their contents and the history of the module are unbounded", "anchors": ["include/xtypes/idl/parser.hpp: struct_def, union_def, alias_dcl, enum_dcl, const_dcl, struct_fw_dcl, resolve_identifier, Context::ignore_redefinition", "include/xtypes/idl/Module.hpp: structure, union_switch, create_alias, create_constant, enum_32"]}
{"id": "C60", "title": "Parsing more IDL never loses what a context declares", "statement": "After any number of calls of parse on a context, with any texts and settings, some accepted, some not IDL, some ended by an exception, every module, type and constant declared before is still there under its name; types that were defined and constants have the same definition, and their absolute names find them from every module.", "quantifier": "all contexts, all sequences of texts of any length, all settings, every point at which a parse can throw", "why_tests_cant": "all texts, all histories of parses and all points of failure", "anchors": ["include/xtypes/idl/parser.hpp: Parser::parse, build_on_ast, module_dcl, struct_def, union_def, enum_dcl, alias_dcl, const_dcl", "include/xtypes/idl/Module.hpp: structure, union_switch, enum_32, create_alias, create_constant, create_submodule, resolve_scope"]}
{"id": "C61", "title": "Parsing a document in parts", "statement": "A document cut between two declarations and parsed in two calls on the same context gives the same module, the same answer and the same exception as one call with the whole document; the whole is rejected as no IDL exactly if its second part is.", "quantifier": "all documents, all cuts between declarations, all contexts", "why_tests_cant": "all documents and all cuts", "anchors": ["include/xtypes/idl/parser.hpp: Parser::parse, build_on_ast", "include/xtypes/idl/idl.hpp: parse(const std::string&, Context&)"]}
{"id": "C62", "title": "A parse that fails leaves the context as it was", "statement": "If parse does not succeed, because the text is no IDL or because it throws, the context declares what it declared before the call.", "quantifier": "all texts, all contexts, every point at which parse can fail", "why_tests_cant": "all texts and all points of failure", "anchors": ["include/xtypes/idl/parser.hpp: Parser::parse, build_on_ast", "include/xtypes/idl/idl.hpp: parse(const std::string&, Context&)"]}
{"id": "C63", "title": "EQUALS means that the types are identical", "statement": "As documented, a.is_compatible(b) is EQUALS only if a and b are the same type.", "quantifier": "all pairs of types", "why_tests_cant": "pairs of arbitrarily nested types; tests compare a handful", "anchors": ["include/xtypes/DynamicType.hpp: is_compatible", "include/xtypes/DynamicData.hpp: DynamicData::operator="]}
{"id": "C64", "title": "Unions have one default and refused cases are not added", "statement": "A union type has at most one default case, and every add_case_member that is refused leaves the type unchanged.", "quantifier": "all sequences of add_case_member", "why_tests_cant": "history of the type construction", "anchors": ["include/xtypes/UnionType.hpp: add_case_member, check_label_value, default_union_label"]}
{"id": "C65", "title": "Enumerations are one-to-one", "statement": "In every EnumerationType built with add_enumerator the values are strictly increasing in declaration order and value(name) and enumerator(value) are mutually inverse.", "quantifier": "all sequences of add_enumerator, all widths", "why_tests_cant": "values wrap at the end of the underlying type's range", "anchors": ["include/xtypes/EnumerationType.hpp: add_enumerator", "include/xtypes/EnumeratedType.hpp: value, enumerator, is_allowed_value"]}
{"id": "C66", "title": "Integer operators without surprises", "statement": "Unary minus and ~ work on every integer type, x++ yields the value before the increment, operands of types smaller than int never cause undefined behaviour, and an operand of another type is always rejected.", "quantifier": "all integer kinds, all operand values", "why_tests_cant": "2^128 operand pairs", "anchors": ["include/xtypes/DynamicDataImpl.hpp: operators"]}
{"id": "C67", "title": "Arrays of different dimensions are told apart", "statement": "Two array types built from different dimension lists have different names, so that operator== and the assignment tell their data apart.", "quantifier": "all dimension lists", "why_tests_cant": "all indices; wrap-around at 2^32 for sequence indices", "anchors": ["include/xtypes/DynamicData.hpp: operator[], size", "include/xtypes/ArrayType.hpp: ArrayType(const DynamicType&, const std::vector<uint32_t>&)", "include/xtypes/SequenceInstance.hpp: operator[]"]}
{"id": "C68", "title": "Lookup ends for every text", "statement": "Module lookups return for every text given as a name.", "quantifier": "all module trees, all texts", "why_tests_cant": "trees and qualified names are unbounded", "anchors": ["include/xtypes/idl/Module.hpp: resolve_scope, has_symbol, type, structure, scope"]}
{"id": "C69", "title": "Parsing ends", "statement": "parse() returns or throws for every text and every context.", "quantifier": "all texts, all contexts", "why_tests_cant": "non-termination and unbounded recursion cannot be observed by finitely many runs", "anchors": ["include/xtypes/idl/grammar.hpp: idl_grammar", "include/xtypes/idl/parser.hpp: parse, type_spec, is_token", "include/xtypes/idl/Module.hpp: resolve_scope"]}
{"id": "C70", "title": "get_all_types without scopes lists every type", "statement": "get_all_types(false) contains every type of the module and of the modules inside it.", "quantifier": "all trees of modules", "why_tests_cant": "trees of modules are unbounded in depth and width; a test lists a few", "anchors": ["include/xtypes/idl/Module.hpp: get_all_types, fill_all_types"]}
{"id": "C71", "title": "Forward declared types can be used", "statement": "A type that mentions a forward declared X before the definition of X, or inside it, refers to the X of the definition; declarations may be repeated; a forward declared union is a union.", "quantifier": "all documents with forward declarations", "why_tests_cant": "the members, bounds, parents and the contents of the module vary without bound; the definition goes through other branches of the builder (replace or keep the registered struct) depending on whether the name is known and on the parent", "anchors": ["include/xtypes/idl/parser.hpp: struct_fw_dcl, union_fw_dcl, struct_def, resolve_identifier", "include/xtypes/idl/grammar.hpp: STRUCT_FORWARD_DCL, UNION_FORWARD_DCL"]}
{"id": "C72", "title": "cast<std::string>() of wide strings tells them apart", "statement": "cast<std::string>() of data of a wide string type shows its characters: different strings have different texts.", "quantifier": "all wide strings", "why_tests_cant": "All values of all integer widths and all strings.", "anchors": ["include/xtypes/DynamicDataImpl.hpp: cast<std::string>, DYNAMIC_DATA_CAST", "include/xtypes/DynamicData.hpp: _cast"]}
{"id": "C73", "title": "A name is declared once", "statement": "An IDL text that declares in a module a name that the module already declares is refused with an exception; with Context::ignore_redefinition the first declaration stays and nothing else changes.", "quantifier": "all modules, all names, all kinds of declarations", "why_tests_cant": "tests redefine one struct; the kinds of declaration, their contents and the history of the module are unbounded", "anchors": ["include/xtypes/idl/parser.hpp: struct_def, union_def, alias_dcl, enum_dcl, const_dcl, struct_fw_dcl, resolve_identifier, Context::ignore_redefinition", "include/xtypes/idl/Module.hpp: structure, union_switch, create_alias, create_constant, enum_32"]}
{"id": "C74", "title": "Trees of modules are well formed", "statement": "In every tree of modules made from an empty module by any sequence of declaring calls and of parses, returning or throwing, no submodule is null, none is there twice, each is found under its own name, every type is listed under its kind and its name() is the qualified name of its place; so lookups of IDL names from every module end and walks over the tree visit every module once.", "quantifier": "all sequences of declaring calls and parses of any texts", "why_tests_cant": "all texts, all histories of parses and all points of failure", "anchors": ["include/xtypes/idl/Module.hpp: create_submodule, structure, union_switch, enum_32, create_alias, add_alias, create_constant, scope, name", "include/xtypes/idl/parser.hpp: Parser::parse, build_on_ast"]}
{"id": "C75", "title": "Types are values", "statement": "A type in a variable changes only by calls made on that variable: types it was copied from or into, that contain it as a member or content, pointers and modules made of it, and data created with it are not changed with it, nor it with them, and ending the life of the one leaves the others readable. A DynamicData made of a type object declared in the program, of an alias, or of a member or content type keeps the type it was made with for ever, also after that object is changed or destroyed.", "quantifier": "all programs of declarations, copies, DynamicType::Ptr constructions, add_member, add_case_member, add_enumerator, name(), destructions and data constructions on any types", "why_tests_cant": "aliasing bugs show only for particular orders of sharing, changing and destroying; the orders are unbounded", "anchors": ["include/xtypes/DynamicType.hpp: DynamicType::Ptr, clone, dont_clone_type", "include/xtypes/DynamicData.hpp: ReadableDynamicDataRef(type, source)", "include/xtypes/AggregationType.hpp, StructType.hpp, UnionType.hpp, AliasType.hpp, CollectionType.hpp: copy constructors, clone, add_member, add_case_member"]}
{"id": "C76", "title": "A data keeps its type whoever holds the type", "statement": "A DynamicData made of a type held by a DynamicType::Ptr or by a module (Module::structure(name), a parsed context) keeps the type it was made with when that type is changed afterwards.", "quantifier": "all programs on types, all held types", "why_tests_cant": "all orders of making data and changing types", "anchors": ["include/xtypes/DynamicData.hpp: ReadableDynamicDataRef(type, source)", "include/xtypes/DynamicType.hpp: Ptr::operator->", "include/xtypes/idl/Module.hpp: structure", "include/xtypes/idl/parser.hpp: struct_fw_dcl, struct_def"]}
{"id": "C77", "title": "Enumerations can be extended wherever they are", "statement": "Adding enumerators to an enumeration gives the same outcomes and the same enumeration whether it is the declared object, a copy of it, or the one a DynamicType::Ptr or a module holds.", "quantifier": "all programs, all enumerations, all sequences of additions", "why_tests_cant": "all sequences of additions before and after copies", "anchors": ["include/xtypes/EnumeratedType.hpp: clone", "include/xtypes/EnumerationType.hpp: add_enumerator", "include/xtypes/idl/Module.hpp: enum_32"]}
{"id": "C78", "title": "Contexts are independent", "statement": "A context is changed only by calls that name it: parsing into, clearing, assigning to or destroying one context changes the answers of no other, and a copy of a context is another context that declares the same.", "quantifier": "all programs making, copying, assigning, clearing, destroying, parsing into and declaring into contexts with any parsers and any texts, also when parses throw", "why_tests_cant": "all histories of calls and all IDL texts", "anchors": ["include/xtypes/idl/parser.hpp: Context, clear_context, Parser::parse, Parser::get_all_types"]}
{"id": "C79", "title": "success tells how the last parse went", "statement": "Context::success is true exactly if the last call of parse into the context worked, and is not changed by anything else.", "quantifier": "all histories of calls, all texts", "why_tests_cant": "all histories and texts, including texts for which parse throws", "anchors": ["include/xtypes/idl/parser.hpp: Parser::parse, Context::success"]}
{"id": "C80", "title": "get_all_types of the parser lists the types of its last parse", "statement": "Parser::get_all_types gives the types of the context the parser parsed into last, at any later time.", "quantifier": "all histories of calls between the parse and the question", "why_tests_cant": "all histories, including those in which the context is destroyed", "anchors": ["include/xtypes/idl/parser.hpp: Parser::context_, Parser::get_all_types", "include/xtypes/idl/idl.hpp: parse"]}
{"id": "C81", "title": "Parsing in several threads", "statement": "Threads that parse different texts into different contexts get the results they would get alone, under every schedule.", "quantifier": "all numbers of threads, texts, contexts and schedules", "why_tests_cant": "all schedules", "anchors": ["include/xtypes/idl/parser.hpp: Parser::instance, Parser::parse, Parser::context_, build_on_ast", "include/xtypes/idl/idl.hpp: parse"]}
{"id": "C82", "title": "Annotations do not change what a document declares", "statement": "A document with annotations in front of its declarations and members declares exactly what the same document declares without the annotations.", "quantifier": "all documents, all annotations with any parameters, all places where annotations may stand", "why_tests_cant": "unboundedly many documents, annotations and parameter expressions", "anchors": ["include/xtypes/idl/grammar.hpp: ANNOTATION_APPL, ANNOTATION_APPL_PARAMS, CONSTR_TYPE_DLC, MODULE_DCL, MEMBER, ENUMERATOR", "include/xtypes/idl/parser.hpp: build_on_ast, member_def, enum_dcl, module_dcl"]}
{"id": "C83", "title": "Declarations without a type declare nothing", "statement": "native declarations, bitsets, bitmasks and annotation types, which the library has no types for, are accepted by the parser and leave the module and the rest of the document as they were.", "quantifier": "all names, flags, fields, destination types, parents, members, defaults and layouts; all documents with such declarations anywhere", "why_tests_cant": "unboundedly many declarations and documents", "anchors": ["include/xtypes/idl/grammar.hpp: NATIVE_DCL, BITSET_DCL, BITMASK_DCL, ANNOTATION_DCL", "include/xtypes/idl/parser.hpp: build_on_ast, annotation_dcl, bitset_dcl, bitmask_dcl"]}
{"id": "C84", "title": "Constants of declared types have that type and value", "statement": "A constant whose type is written as the name of a typedef or of an enumeration is accepted exactly when its expression is a value of that type; module.constant then holds data of the type behind the name with the value of the expression, or of the enumerator that is named.", "quantifier": "all chains of typedefs, enumerations, expressions, names, scopes and layouts", "why_tests_cant": "chains of typedefs, expressions and trees of modules are unbounded", "anchors": ["include/xtypes/idl/parser.hpp: const_dcl, solve_expr, type_spec", "include/xtypes/DynamicData.hpp: DynamicData(type), operator=", "include/xtypes/EnumerationType.hpp: is_compatible"]}
{"id": "C85", "title": "Comments change nothing", "statement": "Comments of both kinds (// to the end of the line, and /* to */) may stand wherever blanks may stand: a text with comments is accepted exactly when the same text with the comments replaced by blanks is, and declares the same types and constants, whatever stands in the comments.", "quantifier": "all documents, all comments and all places between the parts of the document", "why_tests_cant": "the contents and the places of comments, and the documents, are unbounded", "anchors": ["include/xtypes/idl/grammar.hpp: COMMENT, LINE_COMMENT, BLOCK_COMMENT, WS, EOL, NL_ESCAPE", "include/xtypes/idl/parser.hpp: parse, build_on_ast"]}
