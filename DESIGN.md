# DESIGN — a Rocq (Coq 8.16.1) model of eProsima/xtypes

## 1. What is modelled and how

The library is header-only C++. The model is a shallow functional embedding: every modelled C++ function is a
Coq function that returns `res A = Ok a | Fail Assert | Fail Throw | Fail UB | Fail Loop`
(`Base.v`). `Fail UB` marks undefined behaviour (access outside an allocation, use of an object that is not alive, a
bad cast) and is *never* identified with a normal result, so "no UB" is a provable statement.
`xtypes_assert` is the `XTYPES_EXCEPTIONS`/debug reading: a failed assertion stops the operation with `Fail Assert`
and the state at that moment is what the caller keeps. (With `NDEBUG` alone the asserts vanish; that build is not
modelled.)

Files of `rocq/theories` (model files contain definitions only; `*Spec` files hold the specification vocabulary and
are all that a reader of the theorems needs; `*Facts`, `*Order`, `*Total`, … hold proofs; `Prop*` hold the theorems that
MANIFEST.json cites, each with a non-vacuity example):

| files | content |
|---|---|
| Base | outcomes, loops, 32/64-bit wrap, little-endian |
| Types, TypeBuild, TypeSpec | TypeKind, the type hierarchy, memory_size, names, constructors; add_member, add_enumerator, add_case_member; API-built types |
| Compat, CompatSpec, CompatFacts* | every override of is_compatible; PropTypes has C01–C05, C22, C23, C42 |
| Mem, MemSpec, MemFacts* | byte/object memory, construct / copy / copy_from / destroy / compare of every type |
| Ops, OpsSpec, MapOps, MapSpec, UnionFacts, PathFacts, Realize | DynamicData operations: value, `[]`, push, resize, map access, union selection |
| Prog*, Value*, Data* | programs over several DynamicData objects, the mathematical value stored in an instance, whole-life statements; PropData has C06–C11, C41, C43 |
| Hist*, MapHist*, MapOrder, Hash*, MapValue, MapFacts | histories of sequence and map operations, hash; PropSeq has C12–C14, C20, C21, C28; PropMap has C15–C19 |
| Module, ModuleSpec, ModuleFacts | Module scoping, lookup, registration; PropModule has C29–C32, C44 |
| Num*, Int*, Conv*, Visit* | integer operators, conversion between instances, for_each; PropInt C24, C26; PropConvert C25; PropVisit C27 |
| IdlLit, IdlExpr, IdlSpec, Idl*Facts | literals and constant expressions; PropIdl C33, C34 |
| Log, Shell, Instance, Codecvt | parser log, preprocessor command line, Parser::instance, string conversion; PropLog C35, PropShell C36, PropInstance C37, PropCodecvt C38 |
| Peg0, Grammar, Peg | parsing expressions; the grammar of idl/grammar.hpp, generated from the C++ text by tools/peg2coq.py; the matcher, syntax tree and optimizer of cpp-peglib |
| IdlParse | Parser::parse without preprocessing: resolve_identifier, type_spec, struct/union/enum/alias/const/module/forward declarations, literals, solve_expr |
| PegFacts, IdlParseFacts | every rule ends on every text (well-foundedness of the grammar); fuel monotonicity; PropParse has C45–C49 |
| GenIdl, GenSpec | the text of every declaration (generator.hpp); the specification of names and types that can be written |
| PegRules, NumText, TypeText, StructText, StructRead, AliasText, EnumText, ConstText, ModuleText, GrowFacts, DocFacts, GenStruct, GenText | which nodes the grammar makes of generated text, what the actions do with them, composition into documents; PropGen has C39 |
| ExprSpec, ExprText | constant expressions as characters with white space; PropExpr has C33_text and C39_const |
| UnionText, UnionSpec, LitText, UnionBuilt, UnionRead, GenUnion | unions in IDL text: switch, case labels, bodies; PropUnion has the union theorems of C39 and C49 |
| DocSpec, DocText | whole documents of several declarations (PropDoc: C39_document*) |
| BlankSpec, BlankFacts, BlankMatch, FreeSpec, TokenFacts, FreeText, FreeStruct, FreeDecl | texts with arbitrary white space and comments between the tokens (PropBlank: C50) |
| DeclSpec, DeclText | several declarators and dimensions in one member declaration (PropDecl: C49); forward declarations (PropForward: C55); RefuseText, RefuseUnion: declarations that are refused (PropRedefine: C59) |
| KeepRun, KeepSpec, KeepFacts, KeepSteady, KeepNull | parse with the module it leaves behind, also at an exception (parser.hpp:536-560, 785-965, 1380-1596); what it means that nothing is lost (PropKeep: C60) |
| SplitFacts, PropSplit | a document parsed as a whole and in two parts; failing parses (C61, C62) |
| KeepInv, TreeSpec, TreeFacts, PropTree | invariants of all trees made by declaring calls and parses (C74) |
| TypeHeap, TypeHeapSpec, TypeHeapFacts, TypeHeapRel, PropTypeHeap | type objects: DynamicType::Ptr, copies, sharing, in-place changes, the types of data (C75-C77) |
| Session, SessionSpec, SessionFacts, SessionThreads, PropSession | contexts, parsers and the Module objects they share; calls of parse by several threads (C78-C81) |
| NoteSpec, NoteText, NoteDecl, PropNote | annotations in front of declarations and members: how they are written, that the grammar reads them and that build_on_ast passes over them (C82); FreeSpec.members_say and DeclSpec.says allow them, so C49 and C55 cover annotated documents |
| CaseSpec, CaseText, CaseBuilt, CaseDecl, PropCase | unions as a user writes them: any spelling of the discriminator, labels in every base, negative, named, characters, enumerators, several per case, annotated members; when add_case_member accepts the cases and what the union answers afterwards (C49, C82; part of DeclSpec.says, hence of C49, C55, C59, C61) |
| BitSpec, BitText, BitDecl, PropBit | native declarations, bitsets, bitmasks and annotation types: how they are written, that the grammar reads them and what build_on_ast makes of them (C83; part of DeclSpec.says, hence of C49, C55, C59, C61) |
| TextSpec, TextConst, PropConst, PropNamed | constants of the types string and boolean, integer constants with every spelling of their type, constants whose type is the name of a typedef or an enumeration (const_dcl, get_literal_value, solve_expr; C46, C84, part of DeclSpec.says and of C33_text_partial) |
| GapSpec, GapText, EnumSpec, FreeEnum, PropComment | blanks and comments behind the semicolons of declarations and of struct members, at the beginning of a document and behind the brace of a module, everywhere behind the name of an enumeration, and between the braces of a union (the rules WS, COMMENT, LINE_COMMENT, BLOCK_COMMENT, EOL and NL_ESCAPE of grammar.hpp; used by DocFacts.sentence, DeclSpec.say (free_enum_text) and FreeSpec.members_say; C85) |
| GenModule, RoundSpec, RoundGen, RoundText, RoundCalls, RoundFacts, RoundStep, RoundTree, RoundCheck | generate(Module): the whole text of a tree of modules, read again (PropRound, PropScope: C39) |
| Print, PrintSpec, PrintFacts, PrintInj | to_string of data (PropPrint: C51) |
| ModList, ModListSpec, ModListFacts | get_all_types, for_each, for_each_submodule of modules (PropList: C52, C53) |
| DataHash, PropCast, TypeVisit, TypeVisitSpec, VectorOps | hash() of data (PropHash: C54), cast<std::string> (C56), DynamicType::for_each (PropTypeVisit: C57), as_vector and items (PropVector: C58) |
| DepTree, DepSpec, DepFacts, DepGen, DepSolve, DepOrder, DepTerm, DepCheck | dependency tree of the generator; PropDep C40 |

## 2. Properties: model and method

| id | model | method |
|---|---|---|
| C01 | compat_body = all is_compatible overrides | fuel is shown sufficient by a measure; reflexivity by induction on type size |
| C02 | same | alias equations; witness where it fails (enumeration behind an alias against uint32) |
| C03 | same + memory_size | induction on measure: EQUALS ⇒ same leaf shape ⇒ same size; witnesses that it is not type identity |
| C04 | same | symmetry on types without enumerations/one-member structs; witnesses otherwise |
| C05 | add_member | invariant over all API-built structs |
| C06–C09, C41 | cell memory with object lifetime | structural induction on types, frame lemmas |
| C10 | compare_instance | agreement with a mathematical value read from memory |
| C11 | operator= | from C07/C08; self-assignment witness |
| C12–C14 | SequenceInstance over cell memory | refinement to lists, invariant `live` |
| C15, C18, C19 | MapInstance over cell memory | refinement to finite maps under no-collision |
| C16, C17 | hash64, hash_combine | injectivity by inverting each step; collision witnesses |
| C20 | string write/copy | invariant + witness of the unchecked paths |
| C21 | union instance operations | invariant + witnesses |
| C22 | add_case_member | invariant over all union types; witness of the non-atomic rejection |
| C23 | add_enumerator | invariant, witness on wrap |
| C24, C26 | operators on integers | bit-level arithmetic in Z |
| C25 | copy_instance_from_type | witnesses + theorem on well-behaved pairs |
| C27, C28 | for_each, size/index | induction on types |
| C29–C32, C44 | Module | induction on the tree / path |
| C33, C34 | grammar levels, solve_expr, literals | PEG (right-recursive) parse of tokens and of characters vs. a left-associative specification grammar; evaluation vs. denotation in Z |
| C35–C38 | small functions, interleavings | induction on traces |
| C39 | generator text, PEG grammar interpreted over characters, parser actions | round trip on a safe class, witnesses elsewhere |
| C40 | DependencyTree | invariants of the solving loop and of the relocation; witnesses |
| C45–C49 | parser actions on the syntax tree | C47: termination measure of the grammar, witnesses of the actions that never return; the others: general theorems on the safe class, witnesses computed by the model for any floating point parameters |
| C50 | the matcher of the grammar on the characters of a document | blanks between tokens are shown not to change the syntax tree; witnesses where they do |
| C51 | to_string as a visitor over for_each | the text is a function of the value; injective on a class of values; witnesses |
| C52, C53 | get_all_types, for_each, for_each_submodule | induction on the tree of modules |
| C54 | hash over every instance | equal data hash equally, by induction on types; witness |
| C55 | fw_dcl | a forward declaration followed by the definition; witnesses |
| C56 | cast<std::string> | numerals of the specification; witness for wide strings |
| C59 | struct_def, union_def, alias_dcl, const_dcl, enum_dcl on documents | the second declaration as the last sentence of a document whose first part is any of C49; witnesses |
| C60 | all of build_on_ast on arbitrary ASTs, with the state at an exception | induction on the AST with a reflexive, transitive relation kept by every call; induction on the history |
| C61 | parse_run on a document whose first declarations are of the class of C49, followed by any text | the PEG reads the first declarations and then what it reads of the rest; the builder runs over the concatenated AST |
| C62 | parse_run | no effect without an AST; C61 and C60 for the declarations before the error; witness against roll-back |
| C63 | the model of C03 | the part of the expectation behind C03 that the code does not meet: witnesses by computation (general where the note says so), partial theorems where something weaker holds |
| C64 | the model of C22 | the part of the expectation behind C22 that the code does not meet: witnesses by computation (general where the note says so), partial theorems where something weaker holds |
| C65 | the model of C23 | the part of the expectation behind C23 that the code does not meet: witnesses by computation (general where the note says so), partial theorems where something weaker holds |
| C66 | the model of C24 | the part of the expectation behind C24 that the code does not meet: witnesses by computation (general where the note says so), partial theorems where something weaker holds |
| C67 | the model of C28 | the part of the expectation behind C28 that the code does not meet: witnesses by computation (general where the note says so), partial theorems where something weaker holds |
| C68 | the model of C29 | the part of the expectation behind C29 that the code does not meet: witnesses by computation (general where the note says so), partial theorems where something weaker holds |
| C69 | the model of C47 | the part of the expectation behind C47 that the code does not meet: witnesses by computation (general where the note says so), partial theorems where something weaker holds |
| C70 | the model of C52 | the part of the expectation behind C52 that the code does not meet: witnesses by computation (general where the note says so), partial theorems where something weaker holds |
| C71 | the model of C55 | the part of the expectation behind C55 that the code does not meet: witnesses by computation (general where the note says so), partial theorems where something weaker holds |
| C72 | the model of C56 | the part of the expectation behind C56 that the code does not meet: witnesses by computation (general where the note says so), partial theorems where something weaker holds |
| C73 | the model of C59 | the part of the expectation behind C59 that the code does not meet: witnesses by computation (general where the note says so), partial theorems where something weaker holds |
| C74 | all declaring calls and parse_run | invariant of the tree by induction on the path to the changed module; KeepInv: induction on ASTs for any such invariant; induction on the history |
| C75 | DynamicType::Ptr, clone, copy constructors, in-place changes, ReadableDynamicDataRef(type) on a heap of objects | refinement of a semantics without objects (TypeHeapSpec), by induction on programs; invariant: what a variable owns nothing else points to, but primitives |
| C76 | the same | the exact rule (the data follows the holder) is proved; the property is refuted with a data whose destructor is undefined |
| C77 | EnumeratedType::clone, add_enumerator | same heap; declared and copied enumerations proved, held ones refuted for all programs |
| C78 | Context (copying, clear_context, module), Parser::parse, get_all_types on a heap of contexts and Module objects | refinement of a semantics where contexts are values (SessionSpec), by induction on programs; copies of contexts in use refuted |
| C79 | Parser::parse, Context::success | same heap, any history after the parse; a parse that throws refuted |
| C80 | Parser::context_, get_all_types | same heap; after the context is destroyed refuted for all texts |
| C81 | Parser::parse as steps of threads (set context_, match, build, set success) | invariant over all schedules for threads that do not share the parser at the same time; the shared parser refuted by a schedule. Simplification: build_on_ast is one step |
| C82 | ANNOTATION_APPL and its parameters in the grammar, build_on_ast, module_dcl, member_def | PEG derivations for all annotation texts; a match of the declaration is inverted and rebuilt behind the annotations (slides: leading blanks change nothing); enumerators, two annotations of which the first is bare, typedefs and constants refuted |
| C83 | NATIVE_DCL, BITSET_DCL, BITMASK_DCL, ANNOTATION_DCL in the grammar, build_on_ast, the three empty functions | PEG derivations for all texts of the BitSpec syntax, the name check never fails; native and the empty bitset refuted for every name (the optimised tree is a bare IDENTIFIER, which build_on_ast declares as a struct) |
| C84 | const_dcl, solve_expr, type_spec on a SCOPED_NAME, DynamicData(type) and operator= between an enumeration and uint32 | solve_expr for a type and for the type behind it agree (induction on the tree), the PEG derivation of a scoped name as CONST_TYPE for all names, memory of an enumerator read as the enumeration; numbers, foreign enumerators and constants of structs refuted |
| C85 | WS with both kinds of comments at the gaps of a document (GapSpec.gap) | induction on the gap: the PEG derivation of WS? for every comment text; then the sentences are those of C49; tabs and carriage returns before comments, and a backslash at the end of a comment, refuted by computation |
| C57 | for_each_type of every type | traversal = the list of the parts in preorder, for every visitor |
| C58 | as_vector, items | the values read are those held; witnesses (empty sequence, alias, unions) |
| C42 | TypeConsistency operators | bitwise algebra |
| C43 | programs over several objects | induction on programs: an operation changes only its target |

This table is updated as the model grows; section 4 lists what is outside.

## 3. Trusted base

* Coq 8.16.1's kernel (and `vm_compute` for closed witnesses). Only the Coq standard library is imported.
* `Print Assumptions` is run at the end of each `Prop*` file for each cited theorem; the output is
  "Closed under the global context" for every one of them. (`coqchk` lists seven `Coq.ssr.ssrunder.*` constants as
  axioms of a loaded standard library module, pulled in by `Lia`; no theorem depends on them.)
* The faithfulness of the hand translation; each definition cites the lines it models and its simplifications.

Assumptions of the translation that a reader should know:

* **Build.** `xtypes_assert` stops the operation (debug or XTYPES_EXCEPTIONS build). x86-64 Linux widths:
  little-endian, 4-byte wchar_t, 16-byte long double, 8-byte size_t.
* **Memory.** Every container object owns its buffer (buffers are nested blocks of the model, not a flat heap):
  copying the bytes of a live container without its copy constructor is UB in the model. A moved-from element keeps its
  value. Buffers that are overwritten without being released (leaks) are not tracked. Operands of one operation live in
  different blocks, except where a theorem speaks of self-assignment. Allocation never fails.
* **Floats** are opaque byte strings; the operations on them are parameters of the theorems that mention them.
* **Visitors** do not modify the visited instance.
* **Constant expressions**: C33_accepts/value start from tokens, C33_text from the characters of the document. Comments
  and preprocessor output are part of the grammar model but the positive theorems use blanks, tabs and line ends only.
* **Simplifications of the parser model**: logging is left out, `context.preprocess` is false, include paths are not used.
* **Shell, echo, libstdc++ codecvt facets** (C36, C38) are modelled from POSIX and libstdc++; they are not in /repo.
* **cpp-peglib** (C33_text, C39, C45–C49) is an external library (the build downloads it): ordered choice, greedy
  repetition, token boundaries, `~` ignore, enable_ast and AstOptimizer are modelled from its documentation and source as
  we know it. The grammar itself is a mechanical translation of idl/grammar.hpp.
* **Threads** (C37): sequentially consistent interleavings of the individual statements.
* **Dependency tree** (C40): nodes are identified by module, kind and name; submodules are never null; the tree is
  built from the root with `module_idl = nullptr`.

## 4. Not modelled

The external preprocessor process and the file system, iostream formatting of floating point numbers, floating point
arithmetic, allocator failure, shared_ptr identity of types outside TypeHeap, annotations and bitsets/bitmasks (parsed and ignored by the
code), to_string/cast<string> of floating point data, the `NDEBUG` build.
