# Formal model of hdlConvertor: design

## 1. What is modelled

The code under study is a C++ library (with Cython glue) that

1. preprocesses Verilog/SystemVerilog (`verilog_pp`, `verilog_pp_str`),
2. parses (System)Verilog and VHDL with ANTLR generated parsers, and
3. converts the ANTLR parse tree to an AST that is handed to Python.

The model is written in Gallina, one definition per C++ function, and every definition
cites the file and lines it models.

* **Preprocessor**: modelled from the characters of the source to the characters of the
  output. The ANTLR lexer grammar is transcribed rule by rule into regular expressions
  (`Regex.v`, longest match, first rule wins) with its mode stack and embedded actions;
  the parser grammar is a recursive descent function; the visitor is a state transformer
  over the macro database, the include stack, the output buffer and an abstract file system.
* **Parse-tree to AST conversion**: the SV and VHDL grammars themselves are *not* modelled, apart
  from the rules of expressions (C79, C80) and the VHDL and Verilog lexers (C81, C82).
  The input of these parts of the model is the parse tree (one constructor per grammar
  alternative that the visitor distinguishes). The output is the AST of `hdlAst`.
  The source tree gets its own semantics (written from the IEEE standards), the AST gets its
  semantics, and theorems relate the two.
* **Literals**: token text to AST value.
* **Support code**: encodings, error logger, API entry points, macro database seen from
  Python, value conversion to Python.

### Outcomes

`outcome A := Ok a | Throw e | UB why | OutOfFuel`. A C++ exception, undefined behaviour and
exhaustion of the model's own fuel are different results. No function totalises an error into
a normal looking value. `assert` failures are `UB` with a reason (the release build compiles
them out; the debug build aborts). Theorems that speak of success say `= Ok ...`; termination
theorems exclude `OutOfFuel`.

### Integers

`size_t` arithmetic that can wrap (line accounting) is modelled in `Z` with an explicit
`mod 2^64`. `atoi`/`stoi` overflow is modelled where the property is about it. Elsewhere
unbounded integers.

### Strings

`std::string` is `list ascii` (bytes). ANTLR works on code points. All lexer classes are sets of
ASCII characters or complements of such sets, so a multi-byte character is matched by the same
rules byte by byte. Malformed UTF-8 (rejected by ANTLR's decoder) is outside the model.

## 2. Trusted base

* Coq 8.16.1 kernel (and `vm_compute`).
* `Print Assumptions` beneath each property theorem. The intended answer everywhere is
  "Closed under the global context"; any exception is listed in section 5.
* Reading of the C++ sources, Cython sources and ANTLR grammars into Gallina.
* For part 1 and the lexers of VHDL and Verilog: ANTLR's lexer strategy (longest match, first rule, non-greedy loops stop at the
  first possible exit) and LL parsing of an unambiguous grammar. The error recovery of ANTLR
  is not modelled: every lexer or parser error makes `check_errors` throw before the visitor
  runs, so the observable result is `ParseException`.
* For parts 2 and 3: the ANTLR parse tree. For expressions (C79, C80) instead: how ANTLR turns a
  left recursive rule into an operator precedence parser (order of the alternatives, `<assoc=right>`)
  and that it takes the first alternative when several fit the text.
* The file system is a function argument (a finite map from path to content).

## 3. File layout

`*Model.v` files hold definitions only. `*Spec.v` files hold the independent specification.
`*Proofs.v` files hold lemmas. `Prop_*.v` files hold only the property theorems (closed by
`exact`), `Print Assumptions`, and non-vacuity examples.

## 4. Properties: what is modelled and how it is proved

| id | model | proof |
|----|-------|-------|
| C01 | lexer + parser + visitor | tokens of a backtick-free text concatenate to it; visitor appends token texts; induction over the text |
| C02 | `parse_body`, `replace` | independent single-pass specification of substitution; equality by induction; deviations as refutations |
| C03 | `replace` | decision table as a separate inductive/boolean spec, equivalence |
| C04 | `parse_body`, `replace` | every fragment index is below the number of parameters; `at` never fails |
| C05 | visitor with fuel | explicit fuel bound from the two stack limits, for any file system and database |
| C06 | `processIfdef` | equality with a spec that selects the first true condition; refutation for ifndef/elsif |
| C07 | `visitDefine`, `visitUndef` | spec = last definition wins; refuted; first-definition law proved |
| C08 | `visitUndef` with iterator validity | UB outcome exhibited |
| C09 | `init`, `undef`, `undefineall` | invariant over directive histories |
| C10 | output buffer | invariant over all operation sequences |
| C11 | output buffer | invariant and refutation |
| C12 | `visitInclude`, `run_preproc_file` | list-order spec; state restoration by induction over the visitor |
| C13 | `visitMacro_call` | direct, plus end to end |
| C14 | EXPR_MODE lexer + `parse_macro_args` | independent bracket-depth splitter; induction over the text |
| C15 | `replace_substring`, `unescape_string_dblquotes` | independent scanner spec |
| C16 | `str_utils` | specs by predicates over strings |
| C17, C18 | encodings | sweep over 256 bytes lifted to strings; out-of-bounds as UB |
| C19, C20 | error logger | induction over reports / map |
| C21 | API | induction over files and calls |
| C22-C26 | literal parsers | token syntax as inductive grammar, value semantics in `Z`/`N` |
| C27, C28 | expression visitors | denotational semantics on both sides, induction over trees |
| C29 | tables | finite sweep lifted by `forallb_forall` |
| C30 | clone | heap model with node identities |
| C31-C36 | statement visitors | operational semantics of both sides, induction |
| C37, C38 | aggregates, waveforms, wait, assert | injectivity statement, refuted with witness; partial positive results |
| C39-C46 | declarations, ports, instances | list specs, induction |
| C47 | comment parser | spec by stripping markers; refuted; partial |
| C48 | Python macro database | refinement to an association list; refutations |
| C49 | toPy | injectivity; refutations |
| C50 | whole preprocessor | invariant over the visitor; reachable UB characterised |
| C51-C55 | whole preprocessor | exact laws and refutations on families of texts; C53-C55 also as consequences of C78: two edits of a source (PpSrcEditSpec.v) keep its meaning |
| C56-C58 | escaped identifiers, VHDL characters, Verilog strings | specs on characters, induction |
| C59, C61 | statement visitors | simulation between two denotational semantics over an arbitrary machine, induction over nested statements |
| C60, C62 | processes | the same, with an endless loop bounded by fuel |
| C63, C64, C66, C67 | VHDL interface lists, instances, types, subprograms | list specs, induction over nested declarations |
| C65, C71, C72 | generate constructs | elaboration of source and AST to lists of items with scopes, mutual induction |
| C68 | hierarchy-only mode | projection to design units and instances, equality of both modes |
| C69, C73 | toPy for statements, definitions, files | relation "tells" between Python objects and AST, functional in one direction |
| C70 | functions, tasks | list spec of argument inheritance |
| C74, C76 | whole files | meaning of a file on both sides; simulation by induction over nested units, on top of C59-C67, C70, C71, C75 |
| C77 | which ASTs Python can show, and what it shows (PySeenSpec.v); the tokens of a VHDL file (VhdlTextSpec.v) | every AST made of printable tokens is readable: induction over expressions, statements, declarations, concurrent statements and units; texts by closure of UTF-8 under cutting at ASCII bytes |
| C78 | grammar of sources (text, macros with and without parameters, conditionals) and their meaning (PpSrcSpec.v), on top of lexer, parser and visitor | induction over sources: the lexer gives the tokens, the parser the tree, the visitor the text; macro bodies by induction over the depth of expansion |
| C79 | grammar of expressions: precedence parser over tokens (SvSyntaxModel.v), writing of trees and table 11-2 (SvSyntaxSpec.v) | soundness by induction over the steps of the parser, completeness by induction over the length of the expression; enough fuel by a measure |
| C80 | VHDL grammar of expressions: parser over tokens (VhdlSyntaxModel.v), writing of trees and the categories of clause 9.1 (VhdlSyntaxSpec.v) | completeness by induction over the tree; the tree is unique because the parser is a function; the choice between the two readings of n(x) keeps the meaning (VhdlNormProofs.v) |
| C81 | VHDL lexer: every rule of vhdlLexer.g4 as regular expression, longest match (VhdlLexModel.v); lexical elements of clause 15 (VhdlLexSpec.v) and spelling of expressions (VhdlSpellSpec.v) | for each kind of element: the rules that can begin with its first character, and that none of them reads further, by neighbours that a regular expression allows (RegexPairProofs.v); composition with C80 |
| C82 | Verilog lexer: every rule of sv2017Lexer.g4 with the version predicates of its keywords and the mode of tables (SvLexModel.v); lexical elements of IEEE 1800 clause 5, reserved words of annex B by version (SvLexSpec.v), spelling of expressions (SvSpellSpec.v) | as C81: the rules that can begin with the first character of an element, and that none of them reads further; keyword tables compared by computation; composition with C79 |
| C83 | statement rules of sv2017Parser.g4 as a recursive descent parser over the tokens of the lexer (SvStmSyntaxModel.v); how a statement is written, IEEE 1800 A.6 (SvStmSyntaxSpec.v), spelling (SvStmSpellSpec.v) | mutual induction on how a statement is written (completeness), on the fuel (soundness, termination; every parser reads a prefix); left hand sides have the tokens of a primary; composition with C59, C60, C79, C82 |
| C84 | statement, process and concurrent assignment rules of vhdlParser.g4 as a recursive descent parser over the tokens of the lexer (VhdlStmSyntaxModel.v); how they are written, IEEE 1076 clauses 10 and 11 (VhdlStmSyntaxSpec.v), spelling (VhdlStmSpellSpec.v) | induction on the statement: its tokens followed by anything are read as the statement; the tree ANTLR prefers has the same meaning (VhdlStmNormProofs.v); composition with C61, C62, C80, C81; refutations by computation and unambiguity |
| C85 | rules of sv2017Parser.g4 for files, modules, ports, parameters, instances and generate constructs as a recursive descent parser over the tokens of the lexer (SvModSyntaxModel.v); how they are written, IEEE 1800 annex A.1, A.2, A.4 (SvModSyntaxSpec.v), spelling (SvModSpellSpec.v) | mutual induction on the written form: its tokens followed by anything that cannot continue them are read as the construct, with a bound for the fuel (SvModSyntaxComplete.v); conversely by induction on the fuel that what is read is written so (SvModSyntaxSound.v, for the trees of SvModReadSpec.v); composition with C82, C83 and C76; refutations by unambiguity and by the rule that precedes the module instantiation |
| C86 | the unknown functions of ApiModel.v (syntax errors, visitor) replaced by the lexer, parser and visitor models (ConvertModel.v); which texts are Verilog sources: macros and conditionals of PpSrcSpec.v whose expansion is the text of a file of SvModSyntaxSpec.v (ConvertSpec.v) | induction on the list of files: each one is preprocessed (C78), read (C82, C85) and converted, and leaves no macro for the next one; composition with C76 |
| C87 | the part of vhdlParser.g4 for declarations, concurrent statements and design units as a recursive descent parser that tries alternatives in the order of the grammar (VhdlUnitSyntaxModel.v); what IEEE 1076-2008 writes as relations between trees and tokens (VhdlUnitSyntaxSpec.v) | mutual induction on the written form, with what may follow each construct as an invariant; names are normalised as ANTLR reads them and the normal form has the same meaning (VhdlUnitNormProofs.v); composition with C81, C84 and C74; counterexamples as theorems over all names |
| C88 | the unknown functions of ApiModel.v for VHDL replaced by the lexer, parser and visitor models, objects appended one by one (ConvertVhdlModel.v); which texts are VHDL sources (ConvertVhdlSpec.v) | induction on the list of files; conversion from ISO 8859-1 keeps the lexical elements because only comments have characters outside of ASCII (VhdlLatin1Proofs.v); composition with C81, C87 and C74 |
| C89 | which files have a meaning in every part, also where nothing is elaborated (VhdlWholeSpec.v, a computable predicate over the meanings of C74) | induction on the statements with the simulation lemmas of C74 per part; the tree ANTLR chooses is such a tree too; composition with C68 and C88 |
| C90 | parse and parse_str with the conversion of the result to Python (ConvertPyModel.v) | the tokens of a source have graphic ASCII characters only, by induction on the written form of units the texts in the tree are texts of tokens (VhdlPrintProofs.v); ANTLR's choice of trees keeps the texts (VhdlWordsProofs.v); composition with C77, C88 and C89 |
| C91 | no further code; [whole_file] (SvWholeSpec.v) asks for a meaning of every part of a Verilog file | induction on generate items and modules: every visitor call ends with Ok (SvWholeProofs.v); then C85, C86 without the assumption on conv_source. Two counterexamples show that the conditions are needed |
| C92 | _hdlConvertor.pyx parse, parse_str and toPy.cpp for the objects of a Verilog file (ConvertPySvModel.v) | all that the visitors build from a source is readable (SvPyProofs.v, SvPyProofs2.v: induction on the written forms of expressions, statements, declarations, generate items, modules); texts are ASCII but for strings (SvPyTextProofs.v); then C91 and file_seen (C74). Extern modules with a port without direction refute it |
| C93 | no further code; [python_means] (SvReadSpec.v) reads the objects that Python shows as modules | reading is a left inverse of the embedding of statements, items and modules in the AST (SvReadProofs.v: induction; files in which every part has a meaning have no process without event control, so that blocks, loops, if and case in a module are generate constructs); then C92. The literal null as a value refutes it in general |
| C94 | no further code; [python_means] (VhdlReadSpec.v) reads the objects that Python shows as design units | reading is a left inverse of the embedding of the VHDL objects in the AST for every converted file (VhdlReadProofs.v: generate statements carry in_preproc, executed statements do not; no converted type is the symbol of a type definition); then C88 and C90. The label of a concurrent assertion refutes it in general |
| C95 | `visitType_declaration` and the dispatch of `visitData_declaration` (SvTypedefModel.v) | simulation over an arbitrary interpretation of expressions, with the types of C75 (SvTypeProofs.v); the four losses are refuted for all names and types |
| C96 | `CodePosition::update_from_elem`, `update_code_position`, the positions of literals, `toPy` of positions, and the counting of lines and columns by the lexer (PosModel.v) | the numbered characters of a text are ordered, so a region is a contiguous part (PosProofs.v); the lexers of C81 and C82 with positions give the same tokens (PosLexProofs.v); no token of VHDL contains a line end, by a computed property of the rules |
| C97 | the parsers and visitors behind `parse` and `parse_str`, for arbitrary texts (ConvertModel.v, ConvertVhdlModel.v, ApiModel.v) | every rule of the VHDL parser consumes what it reports (VhdlParseEnds.v, VhdlFileEnds.v), so its fuel suffices; for Verilog C85; inversion of the visitors and of the list of files gives an equivalence: result if and only if all was read and converted (ConvertAllSpec.v) |
| C98 | `hierarchyOnly` of both languages at the entry points (ApiModel.v, ConvertModel.v, ConvertVhdlModel.v) | VHDL: C97 turns a result into the trees of all files, C68 converts them in the mode, C97 turns them back into a result. Verilog: violated, the flag only suppresses a message; law and counterexample |
| C99 | The map of the macro database as Python leaves it and the preprocessor finds it (PyGivenModel.v over PyDbModel.v) | invariant of the heap and the map over the updates, so that the map agrees with the list of macros; the semantics of sources of C78 is proved for any macros at the start, and persistent macros survive each file (C08), so the result follows for all files by C97 |
| C100 | Sequences of calls on one convertor (CallsSpec.v over ApiModel.v) | invariant over the calls: names are unique and the macros of the user are those of the start, whatever the outcome of a call; a call sees the database only through these |
| C75 | types and declarations of Verilog | meaning of types and objects on both sides over an arbitrary algebra |

## 5. Results

`MANIFEST.json` has the status of each property. Conventions:

* `proved`: the property holds for all inputs of the model.
* `partial`: either the code violates the property (theorems with suffix `_refuted` show how,
  those with `_partial` show what holds) or the proof covers a fragment that the statement names.
* A refutation is a general law about the model (for example: two different sources always give
  the same AST), with an example that its hypotheses can be met.

`Print Assumptions` says "Closed under the global context" for every theorem in `MANIFEST.json`.
`vcheck` also lists items of `Coq.ssr.ssrunder`: they come with loaded standard libraries, and no
theorem uses them.

### What is modelled

| part of /repo | files of the model |
|---------------|--------------------|
| `src/verilogPreproc`, `grammars/verilogPreproc*.g4` | `RegexModel`, `PpLexerModel`, `PpParserModel`, `MacroDefModel`, `OutBufferModel`, `PpModel` |
| `src/hdlConvertor.cpp`, `src/conversion_exception.cpp`, `src/syntaxErrorLogger.cpp`, `src/universal_fs.cpp` (paths) | `ApiModel` |
| `hdlConvertor/*.pyx` (macro database, calls) | `PyDbModel`, `PyGivenModel`, `ApiModel` |
| `src/encodingConversions.cpp`, `src/verilogPreproc/str_utils.cpp`, `src/svConvertor/commentParser.cpp` | `EncodingModel`, `StrUtilsModel`, `CommentModel` |
| `src/hdlAst` (constructors, clone) | `AstModel`, `StmModel`, `CloneModel` |
| `include/hdlConvertor/hdlAst/codePosition.h`, `include/hdlConvertor/createObject.h` | `PosModel` |
| `src/svConvertor/{literal,operatorType,expr*,statement*,eventExpr,delay,type,declr,port,param*,gate,generate,moduleInst,module,source_text,attribute,comment}Parser` | `LitModel`, `OpModel`, `SvExprModel`, `SvStmModel`, `SvTypeModel`, `SvDeclModel`, `SvTfModel`, `SvGenModel`, `SvImportModel`, `SvTypedefModel`, `SvFileModel`, `CommentModel` |
| rules of expressions in `grammars/sv2017Parser.g4` | `SvSyntaxModel` |
| rules of expressions in `grammars/vhdlParser.g4` | `VhdlSyntaxModel` |
| `grammars/vhdlLexer.g4` (ASCII) | `VhdlLexModel` |
| `grammars/sv2017Lexer.g4` (ASCII) | `SvLexModel` |
| `grammars/sv2017Parser.g4` statement rules | `SvStmSyntaxModel` |
| `grammars/vhdlParser.g4` sequential statements, processes, concurrent assignments | `VhdlStmSyntaxModel` |
| `grammars/sv2017Parser.g4` files, modules, ports, parameters, instances, generate constructs | `SvModSyntaxModel` |
| `src/hdlConvertor.cpp` SVParserContainer with lexer, parser and visitor | `ConvertModel` |
| `grammars/vhdlParser.g4` declarations, concurrent statements, design units | `VhdlUnitSyntaxModel` |
| `src/hdlConvertor.cpp` VHDLParserContainer with lexer, parser and visitor | `ConvertVhdlModel` |
| `hdlConvertor/_hdlConvertor.pyx` parse and parse_str for Verilog with ToPy | `ConvertPySvModel` |
| `hdlConvertor/_hdlConvertor.pyx` parse and parse_str for VHDL with ToPy | `ConvertPyModel` |
| `src/vhdlConvertor` | `LitModel`, `VhdlExprModel`, `VhdlStmModel`, `VhdlDeclModel` |
| `hdlConvertor/toPy*.cpp` | `PyModel`, `PyObjModel`, `PyTreeModel` |

### What is not modelled

* The parser grammars `sv2017Parser.g4` and `vhdlParser.g4` apart from expressions (C79, C80), statements
  (C83, C84), Verilog files with modules (C85) and VHDL design files (C87); ANTLR itself and its error recovery.
* Which element of the source an AST object gets its position from (apart from literals and names of Verilog, C96).
* `src/toString.cpp` and `src/notImplementedLogger.cpp`: text for people.
* Members of enumerations and structures, classes, covergroups and assertions of SystemVerilog: the
  code itself logs most of them as not implemented.
* Memory: the AST is a value. Sharing matters only for `clone` (C30). `reinterpret_cast` between
  vectors of `unique_ptr` to different classes is formally undefined in C++; it is read as the
  cast it stands for.
* Allocation failure and integer sizes where section 1 does not say so.

### Testing against wrong programs

`seeded/LOG.jsonl` has one line per edited copy of the model: what was edited, the claim this
breaks, which theorems no longer hold, and which theorems were tightened because they still did.
