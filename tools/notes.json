{
 "C02": {
  "note": "Holds except for a primitive against an aliased enumeration; the exception is witnessed (_refuted)."
 },
 "C03": {
  "note": "Same leaves and same memory_size for all pairs of types built through the API. That EQUALS does not mean identical types is C63."
 },
 "C04": {
  "note": "Symmetric for types without enumerations and one-member structs; witnesses of asymmetry otherwise."
 },
 "C22": {
  "note": "Proved for every union built through the API. Second defaults: C64."
 },
 "C23": {
  "note": "Proved for all sequences of calls and all widths. Injectivity: C65."
 },
 "C06": {
  "note": "Construction of every type built through the API succeeds, every element alive and zero/empty. Refuted for unions with 1/2-byte enumeration discriminators (out-of-bounds write)."
 },
 "C07": {
  "note": "Copies hold the same value and compare equal; memory never shared; every program with a meaning on values runs as prescribed. Refuted: unions without active member, sequences of small enumerations, DynamicData from reference."
 },
 "C08": {
  "note": "Destruction defined for every live instance, nothing left alive (fresh instances; union-free types with any history). Refuted: moved-from data leaks."
 },
 "C10": {
  "note": "Equality of values when there is no floating point; always defined. With floats refuted: NaN, -0 in arrays."
 },
 "C11": {
  "note": "Assignment between distinct operands of the same type; self-assignment for scalar-only types; refuted with objects (use after destroy)."
 },
 "C41": {
  "note": "Checked for all element kinds but enumerations; unchecked keys/push refuted."
 },
 "C12": {
  "note": "Every history of push/resize (refused calls included) equals the list history; observations proved. Hypotheses copy_ok/movable exclude element types for which reallocation is undefined behaviour (witness)."
 },
 "C14": {
  "note": "Exact below 2^32 bytes; wrap-around witnessed."
 },
 "C20": {
  "note": "For all programs with a meaning on values, compatible copies included; unchecked paths refuted by witnesses."
 },
 "C21": {
  "note": "Agreement and readability for all programs with a meaning on values; witnesses: d() on a union without active member, reads that change the discriminator, unlisted discriminator throws."
 },
 "C28": {
  "note": "Index/size agreement and the multidimensional constructor. Names of such arrays: C67."
 },
 "C15": {
  "note": "Every history of []=, [], insert, has_key, at, ==, size (refused calls included) answers as the finite map and respects the bound; every map any program reaches meets the hypotheses. Missing: non-hashable key types, 32-bit allocation limits."
 },
 "C16": {
  "note": "Injectivity of hash64 on 1..8 bytes proved; maps with primitive/enum keys are finite maps without collision hypothesis."
 },
 "C17": {
  "note": "False: sequence keys all hash to 0, union members ignored, explicit collision of two structs; each witnessed by a program run."
 },
 "C18": {
  "note": "False for the value (default is stored; witness). insert's exact behaviour proved for all states: full/false, existing/refused, new key/default value, others unchanged."
 },
 "C19": {
  "note": "data_eq of two maps is true iff they hold the same pairs, for all histories; types without floating point members."
 },
 "C29": {
  "note": "Names that are no IDL names: C68. That every tree made by declaring calls and parses has no null submodules: C74."
 },
 "C30": {
  "note": "The full property is refuted (A::X is found in the modules around A). Proved: the answer is in the named module or a module around it, and in the named module when it declares the symbol."
 },
 "C31": {
  "note": "The full property is refuted: submodule(n)/operator[](n) with an absent n inserts a null entry. Proved: declarations and the answers for all names without n in them are unchanged. After it for_each and get_all_types dereference a null pointer (C31_walk_refuted)."
 },
 "C32": {
  "note": "Proved for structure/union_switch/enum_32/create_alias exactly; create_constant for values that can be copied. Refuted corners: type(name) prefers an alias of the same name, add_alias with :: in the name, from_enum mark after replacing."
 },
 "C43": {
  "note": "Writing through value<T>/= is checked and every store of a scalar enum is declared or refused; refuted for construction (0) and for conversions from integers."
 },
 "C44": {
  "note": "Refuted: a later submodule's 'not found' overwrites an earlier answer. Proved: the module's own lookup has priority."
 },
 "C24": {
  "note": "Proved for all integer kinds and operand values (x86-64 widths). Floating point operators are parameters. What a user would expect in addition and does not hold is C66."
 },
 "C26": {
  "note": "Conversion (converting constructor, cast<T>) between integer and character kinds proved: reduced modulo 2^width, identity when representable, widening then narrowing is the identity. Floating point conversions are a parameter."
 },
 "C25": {
  "note": "Every compatible pair meeting ConvSpec's conditions converts: all elements alive, converted value prescribed by an independent relation; member-by-member, defaults for the missing member. Refuted (witnesses): two missing members, longer array, aliased union, small enumerations, pairs with different first halves, int/float arrays, unions with different members."
 },
 "C27": {
  "note": "for_each on live data whose unions all have an active member: the nodes seen are exactly the elements of the value, once each, in preorder, with type, value, depth, index, parent and member (C27_visit_partial, C27_once, C27_depth); any visitor sees that list until it throws a bool (C27_any_visitor); range-for (C27_range_for_partial: not strings). A union without active member aborts the visit (C27_visit_refuted); from_member() below a pair is not null as documented (C27_from_member_refuted). The visitor is assumed not to modify the visited instance."
 },
 "C33": {
  "note": "From the characters of the document: C33_text_partial reads 'const T x = expression;', T in every spelling (long, int32, unsigned short ...), with arbitrary white space between the tokens through the grammar (PEG), the syntax tree optimizer and solve_expr, and the constant declared has the mathematical value. C33_accepts/value/declaration are the same about token lists. Not covered because the code is wrong there (refuted with general witnesses): left-associative chains of - / % << >>, ~, unary minus on unsigned, least int32/int64, constants of another integer type, unknown names in int8."
 },
 "C34": {
  "note": "Full for integer constants (C34_constants) and integer union labels (C34_labels, C34_negative_labels), enumeration labels (C34_enum_labels/_names). Dimensions and bounds: decimal only (C34_bounds_partial); hexadecimal literals are read as 0 and octal as decimal (C34_bounds_refuted); labels that are expressions are misread (C34_labels_refuted); wstring<CONST> is unbounded (C34_wstring_constant_refuted)."
 },
 "C35": {
  "note": "Full for the single-threaded LogContext."
 },
 "C36": {
  "note": "Model of replace_all_string, of POSIX double-quote processing and of echo (interpreting backslashes or not). C36_received_partial: texts without dollar, backquote, NUL and critical backslashes arrive unchanged, provided the out-of-bounds character read after the last quote is no backslash. C36_out_of_bounds_refuted: every text with a quote makes that read. Other refutations: first quote after a backslash, doubled backslashes, escape sequences with an interpreting echo, command substitution. The output of the preprocessor is read back completely (C36_output) unless it has NULs. The preprocessor itself is not modelled."
 },
 "C37": {
  "note": "Sequentially consistent interleavings of any number of threads. Once settled, all calls return the same parser (C37_settled_partial); alone, one thread always gets its first parser; writes are mutually exclusive. Refuted: two overlapping first calls get different parsers, unprotected reads race, null is returned when destroy() interleaves."
 },
 "C38": {
  "note": "libstdc++ facets modelled at unit level. For well-formed input the conversion ends and is exact iff no output character straddles a multiple of 64 units (C38_to_utf16_partial, C38_to_utf8_partial: also the converse, too long otherwise). Truncated input never ends (C38_truncated_refuted); ill-formed input throws."
 },
 "C40": {
  "note": "DepTree models ModuleDependencyTree: dependency solving and emission as events. Proved for all well-formed trees: every declaration printed exactly once inside its module, well nested, deterministic; termination when sibling modules do not use each other in a circle, divergence (infinite recursion) whenever they do; types of other modules are declared before use; types of inner modules too unless the user is itself needed by an inner module; within one module under the shallow condition. Refuted in general: kind order (struct before union, alias before struct), chains of structs, aliases of collections, early emission for inner modules, modules that would have to be reopened."
 },
 "C45": {
  "note": "Proved for all identifiers: a struct named by a reserved word is refused, any other identifier is accepted; names no keyword is a prefix of (before a digit or the end) can also be used as types. Refuted: a name such as float2 can be declared but not used, an enumerator TRUEx cannot be a label. Missing: positions other than struct names, contexts with ignore_case."
 },
 "C46": {
  "note": "Proved for string constants (any text without a quote or backslash between the quotes, or several with blanks between them) and booleans, in any layout, in any module without constants of that name, with what stays unchanged (C46_string_partial, C46_boolean_constant). Integer literals: C33. Refuted: escape sequences stay as written, adjacent texts lose one of blanks, apostrophes around a text stay, octet constants are refused, char (value of the apostrophe), wchar (assertion), wide strings (quotes kept). Alias and enumeration types of constants: C84. Missing: floating point (the library parses it)."
 },
 "C47": {
  "note": "No left recursion and no repetition of an empty match; the answer does not depend on how long the computation runs. Non-termination of the builder: C69."
 },
 "C48": {
  "note": "Proved: in a struct the bound of a string, sequence or map and the dimension of an array is the value of the decimal number (below 2^31) or of the integer constant named. Refuted: hexadecimal and octal sizes, constants as bounds of a wstring and as dimensions in a typedef."
 },
 "C49": {
  "note": "Proved for whole documents (structs with all spellings of the basic types, several declarators, bounds by constants, parents; forward declarations; typedefs; enumerations; integer, text and boolean constants; modules; unions with at least two cases, with any spelling of the discriminator and of the labels; annotations; bitsets, bitmasks, native and annotation types, which declare nothing or an empty struct) in any layout, with comments of both kinds between the declarations and the members (GapSpec); for structs, typedefs, enumerations and unions also stated by what the declared type answers. Refuted: unions with one case, lists in a typedef, a default followed by a blank, expressions as labels. Missing: lists of enumerators with values, structs inside structs."
 },
 "C39": {
  "note": "Whole modules: C39_module_partial - generate(Module) followed by parse gives the same modules, types and constants, for every tree of modules whose declarations can be written (RoundSpec.round_ok) and that come out in an order where everything is declared before its use; parents hidden by a closer type are written from the root and found. Missing: declarations without a text that means the same (the refutations, among them: a root type hidden by one of the module that mentions it comes back as the other type, one hidden by a module in between comes back with the name ::X, an empty module makes the whole text unreadable). C39_scope_partial covers the scopes the generator writes before a name: the name found is the one meant when the last component of the written scope is not hidden; C39_scope_refuted gives the hidden case."
 },
 "C50": {
  "note": "Proved for every text over blanks (space, tab, CR, LF): if two texts have the same other characters and blanks at the same places - except that next to one of ; : , ( ) [ ] { } = < > | ^ & * / % ~ (not doubled) one may have blanks where the other has none - the grammar accepts both or neither, and parse does the same to the module provided no case label contains a blank. Not covered: texts with quotes, # or comments. Refuted: a comment after a tab is not accepted after a comma; 'default :' is another case than 'default:'."
 },
 "C51": {
  "note": "C51_text: to_string equals the recursively specified text for every held value (including failures). C51_prints_partial: success for narrow types with selected unions (wchar_t and unselected unions refuted). C51_told_partial: injectivity on legible values; refuted for enumerators, strings with line breaks, several labels of one case. Stream formatting of floats and UTF conversion are parameters."
 },
 "C52": {
  "note": "C52_sound, C52_complete: nothing foreign, no name missing, with and without scopes; C52_scoped: with scopes exact. Without scopes types can be lost: C70."
 },
 "C53": {
  "note": "For any visitor and state, modules visited exactly once, containers first; trees without null submodules (C74: all trees made by declaring calls and parses). After submodule() of an absent name the walk is undefined: C31_walk_refuted."
 },
 "C54": {
  "note": "C54_value_partial, C54_equal_partial, C54_copy_partial for hashable types (no union, no bounded sequence), C54_union_partial for unions, C54_distinct for integral types of at most 8 bytes. Refuted in general: 0.0 == -0.0 with different hashes (C54_zero_refuted); bounded sequences hash the SequenceInstance object, i.e. addresses (C54_sequence_refuted)."
 },
 "C55": {
  "note": "Proved for every module, name, list of members and parent. Uses of the declared name before its definition, repeated declarations and unions: C71."
 },
 "C56": {
  "note": "Proved for every non floating point primitive type, enumerations and narrow strings. Floating point text is not modelled. Wide strings: C72."
 },
 "C57": {
  "note": "Proved for every type and visitor. The node of an alias keeps the alias as its type; its parts are those of the aliased type."
 },
 "C58": {
  "note": "Proved for arrays, non-empty sequences, strings, structs. Not true of the code: as_vector() of an empty sequence fails the index check (C58_sequence_refuted); collections of aliases have no as_vector() (C58_alias_refuted); items() of a union gives references to inactive cases (C58_items_refuted)."
 },
 "C59": {
  "note": "Proved for documents made of any declarations of C49 followed by the second declaration. Second declarations that are not refused: C73."
 },
 "C60": {
  "note": "Proved for all texts and histories of parses (no restriction to a class of documents), for returning and throwing parses. KeepRun.v repeats the stateful functions of IdlParse.v with the state at an exception; C60_answer/C60_thrown prove the answers equal."
 },
 "C61": {
  "note": "Documents in the class of C49 (free unions, forward declarations and passed-over declarations included) as first parts. Comments may stand between the declarations of the first part. Missing: first parts outside the class of C49."
 },
 "C62": {
  "note": "Refuted: a parse that throws is not undone (C62_undone_refuted): the declarations before the error stay, the struct in error stays registered without its members, and the corrected document is refused. Proved: text that is no IDL has no effect; the declarations before the error are kept."
 },
 "C63": {
  "note": "Refuted: int32 and float, unions with different labels are EQUALS."
 },
 "C64": {
  "note": "Proved: refused calls leave the type unchanged, except the refusal of a second default (its member stays, witness); a second default is refused unless the first one carries the internal invalid label (witness)."
 },
 "C65": {
  "note": "Proved as long as the maximum of the value type is not used; after it next_value_ wraps (witness)."
 },
 "C66": {
  "note": "Refuted in each part, the first two for every operand: unsigned operands are refused, x++ yields the new value, 65535*65535 in uint16 overflows int, an enumeration of equal size is accepted as right operand."
 },
 "C67": {
  "note": "Refuted: the name mentions the first dimension only; operator== of data of [2][5] and [2][3] reads outside the smaller one."
 },
 "C68": {
  "note": "Refuted: A::::X recurses forever; type(::C) with C a constant dereferences null."
 },
 "C69": {
  "note": "Refuted: a member of type any (type_spec calls itself for ever), a name with an empty part (A::::X)."
 },
 "C70": {
  "note": "Refuted: two modules that declare one name lose a type (map key collision)."
 },
 "C71": {
  "note": "Refuted: types that mention the struct before its definition (or inside it) keep the empty struct; a declared union stays registered as an empty struct as well; a second declaration is refused."
 },
 "C72": {
  "note": "Refuted for every wide string: the text is empty."
 },
 "C73": {
  "note": "Refuted: an empty struct can be defined again and types in between keep the empty one, the kinds of declaration do not exclude each other, enumerations and constants are accepted again without an error (new enumerators become constants), a typedef is refused because of a name of an outer module, ignore_redefinition does not cover forward declarations and typedefs of struct names."
 },
 "C74": {
  "note": "C74_structure, C74_titles are invariants proved by induction over all calls and over all ASTs (KeepInv.v: what table updates and module creation keep, every parse keeps); C74_lookup, C74_walk apply C29 and C53 without hypotheses on the tree. Calls of submodule() on absent names are excluded: C31."
 },
 "C75": {
  "note": "Full refinement: every program on type objects (TypeHeap: objects with addresses, shared or not, destroyed or not) has the outcomes and shows the types of the same program on plain values (TypeHeapSpec); independence, copies, readability and the lasting type of data follow. Not modelled: parent_ of a StructType (only has_parent()/parent() read it), name() of primitives and of the types whose name is derived, assignment of Ptr variables (Ptr::operator= is a Drop and a Point)."
 },
 "C76": {
  "note": "Refuted by the code: DynamicData.hpp:643 shares a type that a shared_ptr owns, Module.hpp:205-217 and DynamicType.hpp:314-319 give it out for writing, and the parser itself does so when a struct follows its forward declaration (parser.hpp:1530). C76_follows is the exact rule, C76_shared_refuted a data whose destructor reads past its memory."
 },
 "C77": {
  "note": "Declared and copied enumerations: proved for all programs and all additions. Held ones: refuted for all of them: EnumeratedType::clone (EnumeratedType.hpp:133-138) makes an EnumeratedType, Module::enum_32 (Module.hpp:472-483) casts it to EnumerationType, whose next_value_ lies past the object."
 },
 "C78": {
  "note": "Proved for programs that copy contexts only while untouched (never parsed into since made or cleared); C78_others gives the frame property for all programs. Refuted for copies of contexts in use: the copy shares the Module object (shared_ptr module_), so what is parsed into one appears in the other."
 },
 "C79": {
  "note": "Proved for calls that return, and that nothing else changes success. Refuted for calls that throw: success is not written, so it stays true after an earlier parse that worked."
 },
 "C80": {
  "note": "Proved while the context lives. Refuted afterwards for every text: context_ is a raw pointer that is not cleared (undefined behaviour), as with the context that idl::parse(text) returns."
 },
 "C81": {
  "note": "Proved for all schedules in which no two threads are inside parse of the same parser (C81_turns_partial), so for all schedules if each thread has its own parser (C81_own_parsers). Refuted for the shared parser Parser::instance(): context_ is overwritten, and a text is declared in another thread's context. build_on_ast is one step in the model."
 },
 "C82": {
  "note": "Proved for annotations with any parameters (integer constant expressions, booleans, quoted texts, named or not) in front of structs, unions, enumerations, modules, struct members and the members of union cases, at most the last one without parameters: the document does to the module what it does without them. Not covered: bit sets. Refuted elsewhere: an annotated enumerator loses its name; a bare annotation followed by another one, annotated typedefs, constants and discriminators make parse refuse the whole document."
 },
 "C83": {
  "note": "Proved for bitmasks, bitsets with fields or a parent and annotation types, in every layout with any flags, positions, fields, destinations, members and defaults (BitSpec): parsing changes nothing, alone or anywhere in a document (also inside modules, through DeclSpec.says). Refuted for native declarations and empty bitsets: for every name they declare an empty struct of that name (C83_bare_refuted). Comments may stand around the declarations. Missing: comments inside them, declarations inside annotation bodies, ignore_case."
 },
 "C84": {
  "note": "Proved for all names, typedef chains, scopes, expressions, layouts and contexts: integer types (C84_typedef), texts and booleans (through const_type_says in C46), enumerations whose value is named (C84_enumerator_partial); all of it also inside documents (DeclSpec.says: say_const, say_text, say_boolean, say_chosen; C49, C61). Refuted: a number given for an enumeration is taken for 0 (C84_number_refuted), an enumerator of another enumeration is accepted and the constant has a value its type does not have (C84_foreign_refuted), constants of structs are accepted and their value ignored (C84_struct_refuted)."
 },
 "C85": {
  "note": "Proved for comments before, between and after the declarations of a document of the class of C49 (modules included), between the braces of a struct before, between and after its members and behind the commas between their names, everywhere behind the name of an enumeration (around its braces, names and commas), and between the braces of a union before, between and after its labels and members: any text in the comments, any number of them, with spaces, line feeds and other comments around them; the module is the one of the text without comments. Refuted: tabs or carriage returns before comments (two indented comments, or three comments with empty CRLF lines between them, make parse refuse the text); a line comment that ends with a backslash hides the next line. Missing: comments between the words of a declaration and inside bitsets and bitmasks, and a last line comment without line end."
 }
}