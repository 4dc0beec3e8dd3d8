{"id": "C01", "title": "Directive-free text survives preprocessing byte for byte", "statement": "verilog_pp_str(s) on a source that contains no backtick returns exactly s, or raises ParseException because s does not tokenise; it never adds, drops or reorders a character (comments, strings, escaped identifiers and newlines included), and it never rejects a source that is free of quotes, slashes and backslashes.", "quantifier": "every source text without a backtick, every Verilog/SystemVerilog language version, every macro database and include path", "why_tests_cant": "the lexer has an unbounded input language; golden files sample a handful of texts", "anchors": ["grammars/verilogPreprocLexer.g4: STR, LINE_COMMENT, COMMENT, CODE", "grammars/verilogPreprocParser.g4: file, text", "src/verilogPreproc/verilogPreproc.cpp: visitText", "src/verilogPreproc/out_buffer.cpp: set_input_line, operator<<"]}
{"id": "C02", "title": "Macro parameters are substituted exactly at whole-identifier occurrences outside strings", "statement": "Expanding a macro with parameters yields its body in which each occurrence of a parameter name that is a whole identifier and lies outside string literals is replaced by the corresponding actual argument, and every other character of the body is copied unchanged and in order.", "quantifier": "every macro body, every list of parameter names, every list of actual arguments", "why_tests_cant": "interaction of identifier boundaries, strings and overlapping names is unbounded; tests try a few bodies", "anchors": ["src/verilogPreproc/macro_def_verilog.cpp: parse_body, collect_string_intervals, check_is_in_string, replace"]}
{"id": "C03", "title": "Macro argument counts are checked and defaults filled exactly as documented", "statement": "A call to a macro is accepted iff parentheses are present exactly when the macro was defined with parameters and every parameter has an actual or a default (or the single empty-argument exception applies) and there are not too many actuals; on acceptance an omitted or empty actual of a parameter with a default is replaced by the default and all others are used as given; otherwise ParseException is raised.", "quantifier": "every parameter list with any pattern of defaults, every actual argument list", "why_tests_cant": "the count/default matrix is infinite", "anchors": ["src/verilogPreproc/macro_def_verilog.cpp: replace, get_possible_arg_cnt"]}
{"id": "C04", "title": "Macro expansion never indexes outside its argument vector", "statement": "For a macro created by `define and any call, expansion either raises ParseException or completes without an out-of-range element access, whatever the number of actuals.", "quantifier": "every macro definition text accepted by the constructor, every argument vector", "why_tests_cant": "memory safety over all definition/argument combinations", "anchors": ["src/verilogPreproc/macro_def_verilog.cpp: parse_body, replace (args.at)"]}
{"id": "C05", "title": "Recursive macros cannot hang or overflow the preprocessor", "statement": "Preprocessing any source terminates: expansion of self- or mutually recursive macros is cut by a ParseException once 128 expansions are nested, and includes are cut once the include nesting limit is exceeded, so that no input can recurse without bound.", "quantifier": "every source, every file system content, every set of macro definitions", "why_tests_cant": "termination is a statement about all inputs; a test can only show one that stops", "anchors": ["src/verilogPreproc/verilogPreproc.cpp: visitMacro_call, visitInclude", "src/verilogPreproc/verilogPreprocContainer.cpp: run_preproc, run_preproc_str, run_preproc_file", "include/hdlConvertor/verilogPreproc/verilogPreproc.h: include_depth_limit"]}
{"id": "C06", "title": "Conditional compilation keeps exactly the first branch whose condition holds", "statement": "For `ifdef A g1 `elsif B g2 ... `else ge `endif the output and the effects on macro definitions are those of the first group whose condition is true, or of the else group when none is, or nothing; for `ifndef only the first condition is negated, as in IEEE 1800.", "quantifier": "every conditional tree (any number of elsif branches, any nesting), every macro database", "why_tests_cant": "branch selection has to be right for all combinations of defined names", "anchors": ["src/verilogPreproc/verilogPreproc.cpp: processIfdef, visitIfdef_directive, visitIfndef_directive"]}
{"id": "C07", "title": "A later `define of the same name takes effect", "statement": "After `define M a ... `define M b, a use of M expands to b; after `undef M the name is undefined; a `define does not change the meaning of any other macro.", "quantifier": "every sequence of define/undef directives and uses", "why_tests_cant": "histories of directives are unbounded", "anchors": ["src/verilogPreproc/verilogPreproc.cpp: visitDefine, visitUndef", "include/hdlConvertor/verilogPreproc/verilogPreprocContainer.h: MacroDB"]}
{"id": "C08", "title": "`undef is memory safe", "statement": "Processing `undef of any name, defined or not, has no undefined behaviour.", "quantifier": "every macro database and every name", "why_tests_cant": "use-after-free on one branch usually goes unnoticed in a test run", "anchors": ["src/verilogPreproc/verilogPreproc.cpp: visitUndef"]}
{"id": "C09", "title": "User-supplied (persistent) macros survive, source-defined macros do not leak", "statement": "Macros put into preproc_macro_db by the user are never removed or altered by `undef, `undefineall or by starting another file, and macros defined by a source file are gone when the next file is started; undefined names are untouched.", "quantifier": "every macro database, every sequence of directives and every sequence of files", "why_tests_cant": "quantifies over histories", "anchors": ["src/verilogPreproc/verilogPreprocContainer.cpp: init, delete_non_persystent_macro_defs", "src/verilogPreproc/verilogPreproc.cpp: visitUndef, visitUndefineall", "hdlConvertor/verilogPreproc.pyx: MacroDB.__setitem__"]}
{"id": "C10", "title": "Output line accounting is exact", "statement": "At any time the output buffer's line counter equals the number of newline characters it has emitted, entries of its line map are sorted by output line and never point beyond the emitted output.", "quantifier": "every sequence of writes, line changes and buffer merges", "why_tests_cant": "histories of buffer operations", "anchors": ["src/verilogPreproc/out_buffer.cpp: set_input_line, operator<<"]}
{"id": "C11", "title": "The line map leads every output line back to its source line", "statement": "After any number of writes and re-synchronisations, the documented relation output line + line offset + input_line_begin = current input line holds right after each re-synchronisation.", "quantifier": "every history of buffer operations, every input_line_begin", "why_tests_cant": "histories with include/macro offsets are unbounded", "anchors": ["src/verilogPreproc/out_buffer.cpp: set_input_line", "include/hdlConvertor/verilogPreproc/out_buffer.h"]}
{"id": "C12", "title": "Include lookup uses the first directory that has the file and restores the search path", "statement": "`include \"f\" reads the file from the first directory, in list order, in which it exists, raises ParseException when none has it, and once an include has been processed the include search list and the include stack are what they were before.", "quantifier": "every include directory list, every file system, every nesting of includes", "why_tests_cant": "quantifies over file systems and nesting", "anchors": ["src/verilogPreproc/verilogPreproc.cpp: visitInclude", "src/verilogPreproc/verilogPreprocContainer.cpp: add_parent_dir_to_incldirs, run_preproc_file"]}
{"id": "C13", "title": "Use of an undefined macro is always an error", "statement": "A macro call whose name is not in the database at that point raises ParseException naming it; text is never silently dropped.", "quantifier": "every source and database", "why_tests_cant": "for all inputs", "anchors": ["src/verilogPreproc/verilogPreproc.cpp: visitMacro_call"]}
{"id": "C14", "title": "Commas inside brackets, strings or nested calls never split macro arguments", "statement": "The text between the parentheses of a macro call is split exactly at commas that are outside (), [], {} and string literals, the closing parenthesis is the first unnested one, and each argument is the trimmed text between the separators.", "quantifier": "every argument text, any nesting depth", "why_tests_cant": "nesting is unbounded", "anchors": ["grammars/verilogPreprocLexer.g4: EXPR_MODE", "src/verilogPreproc/verilogPreproc.cpp: parse_macro_args"]}
{"id": "C15", "title": "Token pasting and macro-string quoting are rewritten exactly", "statement": "In an expansion every `` is deleted and every `\\` becomes a backslash, each `\" that is not preceded by a backslash becomes a plain quote, newlines inside such a string are escaped exactly once, an unfinished macro string raises ParseException, and nothing else changes.", "quantifier": "every expansion text", "why_tests_cant": "for all texts, in particular with adjacent escapes", "anchors": ["src/verilogPreproc/str_utils.cpp: replace_substring, unescape_string_dblquotes", "src/verilogPreproc/verilogPreproc.cpp: visitMacro_call"]}
{"id": "C16", "title": "Whitespace trimming and text replacement helpers meet their contracts", "statement": "Trimming removes exactly the maximal leading and trailing runs of space, tab, CR and LF; textual replacement replaces all non-overlapping left-most occurrences, terminates for every non-empty pattern, and leaves text without the pattern unchanged.", "quantifier": "every string, every pattern and replacement", "why_tests_cant": "for all strings, including those where the replacement contains the pattern", "anchors": ["src/verilogPreproc/str_utils.cpp: rtrim, ltrim, trim, replaceStringInPlace, replace_substring"]}
{"id": "C17", "title": "ISO-8859-1 sources are transcoded losslessly", "statement": "Conversion of an ISO-8859-1 source to UTF-8 is valid UTF-8, decodes to exactly the same code points, is injective and leaves ASCII unchanged.", "quantifier": "every byte string", "why_tests_cant": "2^8n inputs", "anchors": ["src/encodingConversions.cpp: iso_8859_1_to_utf8"]}
{"id": "C18", "title": "Every accepted encoding name is decoded safely", "statement": "For every source and each encoding accepted by the API (utf-8, utf-16 and iso-8859-1) decoding has defined behaviour, and any other name raises an exception.", "quantifier": "every byte string and every encoding name", "why_tests_cant": "out-of-bounds reads are not observable in tests", "anchors": ["src/encodingConversions.cpp: _to_utf8"]}
{"id": "C19", "title": "Syntax errors are never lost and never invented", "statement": "parse raises ParseException iff at least one syntax error was reported for the input, and the message lists every reported error once, in the order found.", "quantifier": "every sequence of error reports", "why_tests_cant": "histories of parser callbacks", "anchors": ["src/syntaxErrorLogger.cpp: syntaxError, check_errors", "include/hdlConvertor/parserContainer.h: _parse"]}
{"id": "C20", "title": "Reported error positions are the positions in the original file", "statement": "With a line map installed, the file and line in a reported error are those of the last map entry at or before the error line, shifted by the distance to it.", "quantifier": "every line map and every error line", "why_tests_cant": "maps of any length", "anchors": ["src/syntaxErrorLogger.cpp: syntaxError", "include/hdlConvertor/syntaxErrorLogger.h: FileLineMapSwap"]}
{"id": "C21", "title": "Files are parsed in order and results accumulate", "statement": "parse(files) appends the objects of each file to the result in file order, a later call on the same convertor keeps the earlier objects in front, a missing file raises ParseException naming it, and an unsupported language raises without touching the result.", "quantifier": "every list of files, every sequence of calls", "why_tests_cant": "histories of API calls", "anchors": ["src/hdlConvertor.cpp: parse, parse_str, verilog_pp", "hdlConvertor/_hdlConvertor.pyx: parse"]}
{"id": "C22", "title": "Verilog integer literals keep digits, base and width", "statement": "A literal [size]'[s]base digits is converted to a value whose digit string is the literal's digits without underscores in lower case, whose base is the one named by the base letter and whose width is the decimal value of size, absent if there is none; distinct numeric values with equal base are never merged.", "quantifier": "every literal token of the Verilog lexer", "why_tests_cant": "the token language is infinite", "anchors": ["src/svConvertor/literalParser.cpp: visitIntegral_number, parseSize, visitANY_BASED_NUMBER, visitUNSIGNED_NUMBER"]}
{"id": "C23", "title": "Verilog signed literals stay signed", "statement": "4'sd1 and 4'd1 denote different (signed/unsigned) constants and are distinguishable in the AST.", "quantifier": "every based literal", "why_tests_cant": "for all literals", "anchors": ["src/svConvertor/literalParser.cpp: visitANY_BASED_NUMBER"]}
{"id": "C24", "title": "VHDL bit-string literals have the width and value the standard gives them", "statement": "A bit-string literal [n][s|u]base\"digits\" is converted with the radix of its base specifier, and its width is n if present, otherwise digits times bits per digit (1, 3, 4 for B, O, X).", "quantifier": "every bit-string literal token", "why_tests_cant": "token language is infinite", "anchors": ["src/vhdlConvertor/literalParser.cpp: visitBIT_STRING_LITERAL"]}
{"id": "C25", "title": "VHDL abstract literals keep their value", "statement": "Decimal and based literals, with underscores and exponents, are converted to a value equal to what the standard defines.", "quantifier": "every decimal or based literal token", "why_tests_cant": "token language is infinite", "anchors": ["src/vhdlConvertor/literalParser.cpp: visitDECIMAL_LITERAL, visitBASED_LITERAL"]}
{"id": "C26", "title": "VHDL string literals are unescaped exactly", "statement": "A VHDL string literal is converted to the string whose standard spelling (quotes doubled, enclosed in quotes) is that literal; the conversion is injective.", "quantifier": "every string", "why_tests_cant": "for all strings, in particular runs of quotes", "anchors": ["src/vhdlConvertor/literalParser.cpp: visitSTRING_LITERAL"]}
{"id": "C27", "title": "Converted Verilog expressions have the meaning of the source expression", "statement": "For every expression built from the supported operators, the AST handed to the user evaluates, under every assignment of the variables, to the value of the source expression: operand order, grouping, the conditional operator, concatenation order, part selects and nested calls are preserved.", "quantifier": "every expression tree, every environment", "why_tests_cant": "expression trees are unbounded", "anchors": ["src/svConvertor/exprParser.cpp: visitExpression, visitConcatenation", "src/svConvertor/exprPrimaryParser.cpp", "src/svConvertor/literalParser.cpp: visitUnary_operator"]}
{"id": "C28", "title": "Converted VHDL expressions have the meaning of the source expression", "statement": "For every supported VHDL expression the AST evaluates to the value of the source expression, whatever the operators and nesting.", "quantifier": "every expression tree, every environment", "why_tests_cant": "expression trees are unbounded", "anchors": ["src/vhdlConvertor/exprParser.cpp: visitExpression, visitSimple_expression", "src/vhdlConvertor/operatorTypeParser.cpp"]}
{"id": "C29", "title": "Operator kinds are identified faithfully", "statement": "Different operators of a language are mapped to different AST operators, every AST operator has a distinct name and name lookup never fails for a value the convertor produces.", "quantifier": "every operator of the grammar and of the AST enumeration", "why_tests_cant": "exhaustive and relational over tables kept in different files", "anchors": ["src/hdlAst/hdlOpType.cpp: HdlOpType_toString, HdlOpType_toUnary", "src/svConvertor/literalParser.cpp", "src/vhdlConvertor/operatorTypeParser.cpp"]}
{"id": "C30", "title": "Copies of AST expressions are equal and independent", "statement": "Cloning an expression yields an equal expression that shares no node with the original, at any depth.", "quantifier": "every expression", "why_tests_cant": "trees are unbounded", "anchors": ["src/hdlAst/hdlOp.cpp: clone", "src/hdlAst/hdlValue.cpp: clone"]}
{"id": "C31", "title": "if / else-if chains keep their meaning and their labels", "statement": "Flattening nested if-else statements into one statement with an elsif list executes the same branch for every valuation of the conditions and loses no label, comment or attribute.", "quantifier": "every if statement of any nesting depth, every valuation", "why_tests_cant": "nesting is unbounded", "anchors": ["src/svConvertor/statementParser.cpp: HdlStmIf_collapse_elifs, visitConditional_statement", "src/svConvertor/generateParser.cpp: visitIf_generate_construct"]}
{"id": "C32", "title": "case statements keep first-match semantics", "statement": "A case statement with items that list several labels executes, in the AST, the same body as in the source for every selector value, falls to the default when nothing matches, and two defaults are rejected.", "quantifier": "every list of case items, every selector value", "why_tests_cant": "item lists are unbounded", "anchors": ["src/svConvertor/statementParser.cpp: visitCase_statement, visitCase_item", "src/vhdlConvertor/statementParser.cpp: visitCase_statement"]}
{"id": "C33", "title": "Loops keep their iteration semantics", "statement": "forever, repeat, while, do-while and for loops convert to AST loops executing the same sequence of body evaluations.", "quantifier": "every loop body, condition and program state", "why_tests_cant": "executions are unbounded", "anchors": ["src/svConvertor/statementParser.cpp: visitLoop_statement"]}
{"id": "C34", "title": "Procedural delays precede the statement they guard", "statement": "#d stmt becomes a wait followed by the statement; in particular for a fork-join statement the wait happens before any branch starts.", "quantifier": "every statement", "why_tests_cant": "for all statement shapes", "anchors": ["src/svConvertor/statementParser.cpp: visitProcedural_timing_control_statement, visitInitial_construct"]}
{"id": "C35", "title": "VHDL conditional assignments select the first true condition", "statement": "a <= x1 when c1 else x2 when c2 ... else xn evaluates in the AST to the value of the first true condition, in order, and the final else otherwise.", "quantifier": "every number of alternatives, every valuation", "why_tests_cant": "unbounded lists", "anchors": ["src/vhdlConvertor/exprParser.cpp: visitConditional_waveforms"]}
{"id": "C36", "title": "VHDL selected assignments assign the target in every alternative", "statement": "with s select t <= v1 when c1 | c2, v2 when others; assigns t the value of the alternative selected by s, in every alternative and for any order of alternatives.", "quantifier": "every list of alternatives", "why_tests_cant": "unbounded lists", "anchors": ["src/vhdlConvertor/statementParser.cpp: visitSelected_waveforms, visitConcurrent_selected_signal_assignment, visitSelected_variable_assignment, visitSelected_signal_assignment"]}
{"id": "C37", "title": "VHDL association and aggregate choices are all kept", "statement": "An element association c1 | c2 => v in an aggregate keeps every choice; the AST distinguishes aggregates with different choice sets.", "quantifier": "every aggregate", "why_tests_cant": "unbounded lists", "anchors": ["src/vhdlConvertor/exprParser.cpp: visitElement_association, visitChoices"]}
{"id": "C38", "title": "VHDL waveform delays, assertions and wait clauses are kept apart", "statement": "Two statements that differ in an AFTER delay, in report versus severity, or in wait on / until / for are different in the AST.", "quantifier": "every such statement", "why_tests_cant": "relational (two-input) property", "anchors": ["src/vhdlConvertor/exprParser.cpp: visitWaveform_element", "src/vhdlConvertor/statementParser.cpp: visitAssertion, visitWait_statement"]}
{"id": "C39", "title": "Port lists: direction and type inheritance follow the standard", "statement": "In an ANSI port list a port that omits direction or type gets those of the previous port, with its own dimensions only; every declared port appears once and in order.", "quantifier": "every port list", "why_tests_cant": "unbounded lists, inheritance is a history", "anchors": ["src/svConvertor/portParser.cpp: visitList_of_port_declarations, visitAnsi_port_declaration", "src/svConvertor/typeParser.cpp: applyVariable_dimension"]}
{"id": "C40", "title": "Non-ANSI port declarations are merged into the port list", "statement": "The port list of a non-ANSI module keeps the order of the header, each port takes direction and type of its body declaration, a variable with the port's name is merged into it and removed from the body, everything else in the body is kept in order.", "quantifier": "every header, every body", "why_tests_cant": "unbounded lists", "anchors": ["src/svConvertor/moduleParser.cpp: visitModule_declaration, visitNonansi_port_declaration"]}
{"id": "C41", "title": "Parameter port lists are complete", "statement": "Every parameter declared in #( ... ) appears in the AST, in order.", "quantifier": "every parameter port list", "why_tests_cant": "unbounded lists", "anchors": ["src/svConvertor/paramDefParser.cpp: visitParameter_port_list"]}
{"id": "C42", "title": "Every instance of a multi-instance statement is complete", "statement": "m #(P) i1(...), i2(...), ...; yields one instance object per name, in order, each with the same module name and parameter map and its own port map.", "quantifier": "every instantiation statement", "why_tests_cant": "unbounded lists", "anchors": ["src/svConvertor/moduleInstanceParser.cpp: visitModule_or_interface_or_program_or_udp_instantiation"]}
{"id": "C43", "title": "Gate primitives drive every output", "statement": "buf/not with n outputs drives each output with the (inverted) input; n-input gates become instances with output first and the inputs in order.", "quantifier": "every gate statement", "why_tests_cant": "unbounded terminal lists", "anchors": ["src/svConvertor/gateParser.cpp"]}
{"id": "C44", "title": "Event expressions are flattened in order", "statement": "An event expression with any nesting of or / comma / parentheses becomes the list of its events from left to right with their edge.", "quantifier": "every event expression", "why_tests_cant": "trees are unbounded", "anchors": ["src/svConvertor/eventExprParser.cpp"]}
{"id": "C45", "title": "A declaration of several identifiers equals several declarations", "statement": "a, b, c : T := v yields one definition per identifier, in order, each with the same type, value and direction as if declared alone.", "quantifier": "every identifier list", "why_tests_cant": "unbounded lists, ownership moves", "anchors": ["src/vhdlConvertor/interfaceParser.cpp: extractVariables", "src/svConvertor/declrParser.cpp: visitList_of_variable_decl_assignments"]}
{"id": "C46", "title": "Imports and use clauses are kept one by one", "statement": "Each imported or used name yields one import object with exactly its path.", "quantifier": "every import or use list", "why_tests_cant": "unbounded lists", "anchors": ["src/svConvertor/declrParser.cpp: visitPackage_import_declaration", "src/vhdlConvertor/designFileParser.cpp: visitUse_clause, flatten_doted_expr"]}
{"id": "C47", "title": "Documentation comments keep their text", "statement": "The doc string of an object is the text of the comments preceding it, without comment markers and one optional space, in order.", "quantifier": "every comment text", "why_tests_cant": "for all texts", "anchors": ["include/hdlConvertor/svConvertor/commentParser.h", "include/hdlConvertor/vhdlConvertor/commentParser.h"]}
{"id": "C48", "title": "The Python macro database behaves like a dictionary", "statement": "preproc_macro_db behaves as a dict from names to macro definitions: get/set/delete/pop/clear/len/in/iteration agree with a dict under every sequence of operations, and a macro read back has the parameters and body it was created with.", "quantifier": "every sequence of operations, every macro", "why_tests_cant": "histories of operations", "anchors": ["hdlConvertor/verilogPreproc.pyx: MacroDB, MacroDefVerilog"]}
{"id": "C49", "title": "Values reach Python unchanged", "statement": "Conversion of AST values to Python objects keeps digits, base and width, and maps different symbol values to different Python values.", "quantifier": "every AST value", "why_tests_cant": "for all values", "anchors": ["hdlConvertor/toPy_expr.cpp: toPy(HdlValueInt), toPy(HdlValueSymbol)"]}
{"id": "C50", "title": "The preprocessor has defined behaviour on every input", "statement": "Preprocessing any source with any macro database and include directories either returns a text or raises an exception: no out-of-range access, no use of a freed object, no failed assertion.", "quantifier": "every source text, file system, include list and macro database", "why_tests_cant": "memory errors need adversarial inputs and need not be visible", "anchors": ["src/verilogPreproc/verilogPreproc.cpp", "src/verilogPreproc/macroDB.cpp", "src/verilogPreproc/out_buffer.cpp"]}
{"id": "C51", "title": "Included text stays separated from the text behind the include", "statement": "The text of an included file and the text of the lines after the `include directive are separated by a newline, so that no token of the one merges with a token of the other.", "quantifier": "every included file, with or without final newline", "why_tests_cant": "depends on the last byte of files", "anchors": ["src/verilogPreproc/verilogPreproc.cpp: visitInclude", "grammars/verilogPreprocLexer.g4: INCLUDE_MODE_NEW_LINE", "src/verilogPreproc/out_buffer.cpp"]}
{"id": "C52", "title": "__FILE__ and __LINE__ give the position of their use", "statement": "`__LINE__ expands to the line, `__FILE__ to the quoted name of the file in which it is used, also after includes and `line directives; they cannot be undefined.", "quantifier": "every position in every file", "why_tests_cant": "positions are unbounded", "anchors": ["src/verilogPreproc/default_macro_defs.cpp", "src/verilogPreproc/verilogPreproc.cpp: visitLine"]}
{"id": "C53", "title": "A comment behind a `define changes no other line", "statement": "Adding a line comment at the end of a `define line changes neither the macro's replacement nor any other line of the output.", "quantifier": "every definition", "why_tests_cant": "all positions of comments", "anchors": ["grammars/verilogPreprocLexer.g4: DEFINE_MODE", "src/verilogPreproc/verilogPreproc.cpp: visitMacro_text, cut_off_line_comment"]}
{"id": "C54", "title": "Line ends may be LF or CR LF", "statement": "A source with CR LF line ends preprocesses to the same tokens as the same source with LF line ends, including continued macro definitions.", "quantifier": "every source", "why_tests_cant": "all texts", "anchors": ["grammars/verilogPreprocLexer.g4"]}
{"id": "C55", "title": "Every legal string literal is accepted", "statement": "String literals that are legal in Verilog are accepted and copied in source text, macro bodies and arguments, whatever escapes they contain.", "quantifier": "every string literal and context", "why_tests_cant": "all texts", "anchors": ["grammars/verilogPreprocLexer.g4: F_STR", "src/verilogPreproc/macro_def_verilog.cpp"]}
{"id": "C56", "title": "Escaped identifiers are the same wherever they are written", "statement": "The name given to the user for an escaped identifier is the text between the backslash and the white space that ends it, so two uses of one identifier that are followed by different white space have the same name.", "quantifier": "every identifier and every following white space", "why_tests_cant": "all white space runs", "anchors": ["src/svConvertor/literalParser.cpp: visitESCAPED_IDENTIFIER", "grammars/sv2017Lexer.g4: ESCAPED_IDENTIFIER"]}
{"id": "C57", "title": "VHDL character literals keep their character", "statement": "A character literal is converted to the character between the apostrophes; different characters are converted to different values.", "quantifier": "every character of the VHDL character set", "why_tests_cant": "the character set includes non ASCII characters that take several bytes", "anchors": ["src/vhdlConvertor/literalParser.cpp: visitCHARACTER_LITERAL, visitEnumeration_literal"]}
{"id": "C58", "title": "Verilog string literals reach the user verbatim", "statement": "The value of a string literal is the text between its quotes, so different literals have different values.", "quantifier": "every string literal", "why_tests_cant": "all texts", "anchors": ["src/svConvertor/literalParser.cpp: visitSTRING"]}
{"id": "C59", "title": "Converted Verilog statements behave like the source", "statement": "For every procedural statement, every interpretation of its expressions and every start state, executing the AST statement has the effect of executing the source statement: same assignments, waits and tests in the same order and the same end.", "quantifier": "all statements of any nesting, all values, states and numbers of iterations", "why_tests_cant": "the nesting, the values and the lengths of the executions are unbounded", "anchors": ["src/svConvertor/statementParser.cpp: visitStatement, visitStatement_item", "src/svConvertor/delayParser.cpp"]}
{"id": "C60", "title": "always and initial become processes that repeat or run once", "statement": "An always construct becomes a process that repeats its statement, an initial construct becomes a process that executes its statement once and then never again.", "quantifier": "all statements after always, always_comb, always_ff, always_latch and initial", "why_tests_cant": "the statement is arbitrary and a process runs without bound", "anchors": ["src/svConvertor/statementParser.cpp: visitAlways_construct, visitInitial_construct"]}
{"id": "C61", "title": "Converted VHDL statements behave like the source", "statement": "For every sequential statement, every interpretation of its expressions and every start state, executing the AST statement has the effect of executing the source statement, including next and exit of labelled loops.", "quantifier": "all statements of any nesting, all values, states and numbers of iterations", "why_tests_cant": "the nesting, the values and the lengths of the executions are unbounded", "anchors": ["src/vhdlConvertor/statementParser.cpp: visitSequential_statement, visitSequence_of_statements"]}
{"id": "C62", "title": "VHDL processes keep their sensitivity list and their body", "statement": "A process becomes a process object with the same sensitivity list and a body that makes the declarations and executes the statements in order.", "quantifier": "all processes", "why_tests_cant": "bodies and lists are unbounded", "anchors": ["src/vhdlConvertor/processParser.cpp: visitProcess_statement"]}
{"id": "C63", "title": "VHDL entities and components keep their generics and ports", "statement": "The module declaration made of an entity or component has one generic and one port per identifier, in order, with the class, mode, type and default of the source, for every interpretation of the expressions.", "quantifier": "all interface lists and all types and defaults", "why_tests_cant": "the lists and the expressions in them are unbounded", "anchors": ["src/vhdlConvertor/entityParser.cpp: visitEntity_declaration, visitGeneric_clause, visitPort_clause", "src/vhdlConvertor/interfaceParser.cpp", "src/vhdlConvertor/directionParser.cpp: visitSignalMode"]}
{"id": "C64", "title": "VHDL component instances keep their label, unit and associations", "statement": "An instantiation statement becomes an instance object with its label, the name of the instantiated unit and all generic and port associations in order, including open.", "quantifier": "all instantiation statements and all actuals", "why_tests_cant": "association lists and actuals are unbounded", "anchors": ["src/vhdlConvertor/compInstanceParser.cpp: visitComponent_instantiation_statement, visitInstantiated_unit"]}
{"id": "C65", "title": "VHDL generate statements and blocks elaborate to the same objects", "statement": "Elaborating the AST gives the same declarations, processes, instances and assignments as elaborating the source, in the same scopes, with the same values of the generate parameters and in the same order.", "quantifier": "all nestings of for, if, case generate statements and blocks, all values of conditions, ranges and choices", "why_tests_cant": "nesting and iteration counts are unbounded", "anchors": ["src/vhdlConvertor/generateStatementParser.cpp", "src/vhdlConvertor/blockParser.cpp: visitBlock_statement", "src/vhdlConvertor/statementParser.cpp: visitConcurrent_statement"]}
{"id": "C66", "title": "VHDL type declarations keep their definition", "statement": "A type or subtype declaration becomes an object with the name and a value from which the definition can be read: enumeration literals, ranges, units, index and element types, record elements.", "quantifier": "all type definitions", "why_tests_cant": "definitions contain arbitrary expressions and unbounded lists", "anchors": ["src/vhdlConvertor/typeDeclarationParser.cpp: visitType_declaration, visitType_definition, visitSubtype_declaration"]}
{"id": "C67", "title": "VHDL subprograms keep their profile and body", "statement": "A function or procedure becomes an object with its name, parameters (class, mode, type, default), result type and purity; a body contains the declarations and then the statements, which behave like the source.", "quantifier": "all subprograms", "why_tests_cant": "parameter lists and bodies are unbounded", "anchors": ["src/vhdlConvertor/subProgramDeclarationParser.cpp", "src/vhdlConvertor/subProgramParser.cpp"]}
{"id": "C68", "title": "The hierarchy-only mode keeps design units and instances", "statement": "If a VHDL file converts, it converts in the hierarchy-only mode, and the result has the same design units, libraries and imports and the same instances in the same scopes; interfaces, packages and declarations of architectures are empty.", "quantifier": "all design files", "why_tests_cant": "files and nesting are unbounded", "anchors": ["src/vhdlConvertor/designFileParser.cpp", "src/vhdlConvertor/archParser.cpp: visitArchitecture_body", "src/vhdlConvertor/entityParser.cpp"]}
{"id": "C69", "title": "Statements and definitions reach Python unchanged", "statement": "Conversion of statements and definitions to Python objects keeps their kind, labels, documentation, attributes, flags, direction, type, value, conditions and parts, so different statements give objects that can be told apart; it never fails and never ends the process.", "quantifier": "all statements and definitions of the AST, all nestings", "why_tests_cant": "nesting is unbounded, and a lost attribute is visible only where it is read", "anchors": ["hdlConvertor/toPy_statements.cpp", "hdlConvertor/toPy.cpp: toPy(HdlIdDef), toPy(WithNameAndDoc)"]}
{"id": "C70", "title": "SystemVerilog functions and tasks keep their arguments and body", "statement": "A function or task becomes an object with its name, kind, lifetime and result type; every argument is there in order with name, direction, type and default value, whether declared in parentheses or in the body; the body makes the local declarations and then runs like the statements of the source.", "quantifier": "all functions and tasks, with any number of arguments, declarations and statements", "why_tests_cant": "argument lists and bodies are unbounded, and arguments take over the direction and type of the one before", "anchors": ["src/svConvertor/programParser.cpp: visitFunction_declaration, visitTask_declaration", "src/svConvertor/portParser.cpp: visitTf_port_item, visitTf_port_declaration"]}
{"id": "C71", "title": "SystemVerilog generate constructs elaborate to the same items", "statement": "Elaborating the AST of generate loops, conditions, cases, blocks and regions gives the same instances, declarations, processes, assignments and functions as elaborating the source, in the same scopes, with the same values of the genvars and in the same order; conversion never ends the process.", "quantifier": "all nestings of generate constructs, all values of conditions, labels, starts and steps", "why_tests_cant": "nesting and iteration counts are unbounded", "anchors": ["src/svConvertor/generateParser.cpp", "src/svConvertor/statementParser.cpp: HdlStmIf_collapse_elifs"]}
{"id": "C72", "title": "SystemVerilog generate constructs are marked as evaluated during elaboration", "statement": "In the AST, a loop, condition, case or block is marked (in_preproc) exactly if it is a generate construct; run-time statements are not marked.", "quantifier": "all nestings of generate constructs and run-time statements", "why_tests_cant": "nesting is unbounded", "anchors": ["src/svConvertor/generateParser.cpp: visitGenerate_region", "include/hdlConvertor/hdlAst/iHdlStatement.h"]}
{"id": "C73", "title": "Modules, packages, functions and whole files reach Python unchanged", "statement": "The object returned by parse has, for every design unit, declaration, function, package, import, instance and nested statement of the AST, one object of the matching class in the same place and order, with the same names, documentation, attributes, flags, parameters, ports, types and values; different ASTs give different objects, and one object that is not supported does not make the others unavailable.", "quantifier": "all ASTs, all nestings", "why_tests_cant": "nesting is unbounded, and a lost attribute is visible only where it is read", "anchors": ["hdlConvertor/toPy.cpp", "hdlConvertor/toPy_type.cpp", "hdlConvertor/_hdlConvertor.pyx: HdlConvertorPy.parse"]}
{"id": "C74", "title": "A whole VHDL file keeps its meaning", "statement": "Parsing a VHDL file gives an AST with the same libraries, use clauses, entities, packages and architectures in source order, each with the same declarations (kind, class, type, value, shared, profile, body) in the same order and nesting; elaborating the AST of an architecture gives the same declarations, instances, processes and concurrent statements in the same scopes, and every statement does the same as in the source.", "quantifier": "all VHDL files, all nestings of packages, subprograms, blocks and generate statements, all meanings of expressions and elementary actions", "why_tests_cant": "files, nesting and executions are unbounded", "anchors": ["src/vhdlConvertor/designFileParser.cpp", "src/vhdlConvertor/archParser.cpp", "src/vhdlConvertor/packageParser.cpp", "src/vhdlConvertor/blockDeclarationParser.cpp", "src/vhdlConvertor/processParser.cpp"]}
{"id": "C75", "title": "SystemVerilog types and declarations keep their meaning", "statement": "Every variable, net, genvar, port and parameter declared in SystemVerilog becomes one definition in order, with the same name, type (what it is made of, sign, packed and unpacked dimensions with their bounds), initial or default value, direction and flags; what a declaration leaves out has the meaning the language gives it.", "quantifier": "all types, all declarations with any number of names and dimensions, all meanings of expressions", "why_tests_cant": "types and lists are unbounded, and a lost width, sign or net kind shows only when the design is used", "anchors": ["src/svConvertor/typeParser.cpp", "src/svConvertor/declrParser.cpp", "src/svConvertor/portParser.cpp", "src/svConvertor/paramDefParser.cpp", "src/svConvertor/generateParser.cpp: visitGenvar_declaration"]}
{"id": "C76", "title": "A SystemVerilog file and its AST have the same modules", "statement": "Parsing a SystemVerilog file gives one module per module of the file, in order and nested as in the source, with the same name, parameters and ports (a port declared in several places is one port with the type of its last declaration); elaborating the AST gives the same nets, variables, instances, gates, continuous assignments, subroutines and processes in the same generate scopes, and processes and subroutines behave as in the source.", "quantifier": "all SystemVerilog files, all nestings of modules and generate constructs, all meanings of expressions and elementary actions, all executions", "why_tests_cant": "files, nesting and executions are unbounded, and a port or item that moved or vanished shows only in the design that uses it", "anchors": ["src/svConvertor/moduleParser.cpp", "src/svConvertor/source_textParser.cpp", "src/svConvertor/attributeParser.h", "src/svConvertor/portParser.cpp", "src/svConvertor/generateParser.cpp"]}
{"id": "C77", "title": "Every VHDL file that converts reaches Python", "statement": "If a VHDL file is converted to an AST, parse returns a Python object for it, and the whole AST can be read from this object, apart from a fixed list of differences (open and null, labels of calls, documentation of instances, null as initial value); no construct, character or nesting of a converted file makes the conversion to Python fail.", "quantifier": "all VHDL files, both modes, all texts of identifiers and literals, all nestings", "why_tests_cant": "texts and nesting are unbounded, and the failure needs a rare construct or byte that reaches the last stage", "anchors": ["hdlConvertor/toPy.cpp", "hdlConvertor/toPy_statements.cpp", "hdlConvertor/toPy_type.cpp", "src/vhdlConvertor/literalParser.cpp: visitCHARACTER_LITERAL", "src/vhdlConvertor/statementParser.cpp: visitSignal_assignment_statement", "hdlConvertor/_hdlConvertor.pyx: HdlConvertorPy.parse"]}
{"id": "C78", "title": "A Verilog source of text, macros and conditionals is preprocessed as the standard says", "statement": "Preprocessing a source gives the text in which every macro call is replaced by the text of its definition (with the macros in it replaced in turn), only the chosen branch of every conditional is kept, definitions in branches not chosen are ignored, and everything else (strings, comments, escaped identifiers, other text) is copied unchanged; all text stays on its line as long as a gap of at most three lines precedes it.", "quantifier": "all sources of any length, any nesting of conditionals, any definitions, any text, LF and CR LF line ends", "why_tests_cant": "sources and nestings are unbounded, and the lexer, the parser and the expansion interact", "anchors": ["grammars/verilogPreprocLexer.g4", "grammars/verilogPreprocParser.g4", "src/verilogPreproc/verilogPreproc.cpp", "src/verilogPreproc/macroDef.cpp", "src/verilogPreproc/out_buffer.cpp"]}
{"id": "C79", "title": "Operators of a Verilog expression take the operands of the standard", "statement": "An expression is grouped as the precedence and associativity table of IEEE 1800 (table 11-2) says: a stronger operator takes its operands first, operators of equal strength group from the left (conditional operator and implications from the right), parentheses keep an expression together; the AST has the meaning of the expression grouped in this way, and text that is no expression is refused.", "quantifier": "all expressions of any length and nesting, all pairs of operators, all meanings of names and operations", "why_tests_cant": "expressions and their nesting are unbounded, and a wrong grouping is visible only in the value of the converted expression", "anchors": ["grammars/sv2017Parser.g4: expression, primary, concatenation, array_range_expression, list_of_arguments, unary_operator", "src/svConvertor/exprParser.cpp: visitExpression"]}
{"id": "C80", "title": "Operators of a VHDL expression take the operands of the standard", "statement": "An expression is grouped as IEEE 1076 clause 9.1 says: power, abs, not and the unary logical operators first, then multiplication, then sign and addition, shifts, relations and the binary logical operators; equal operators group from the left, and parentheses, calls, slices and aggregates keep their contents together; the AST has the meaning of the expression grouped in this way, and text that the clause forbids is refused.", "quantifier": "all expressions of any length and nesting, all pairs of operators, all meanings of names and operations", "why_tests_cant": "expressions and their nesting are unbounded, and a wrong grouping is visible only in the value of the converted expression", "anchors": ["grammars/vhdlParser.g4: expression, simple_expression, primary, name, association_list, aggregate, choice", "src/vhdlConvertor/exprParser.cpp: visitExpression, visitSimple_expression"]}
{"id": "C81", "title": "The text of a VHDL file is cut into the lexical elements of the standard", "statement": "Text is read as the identifiers, reserved words (in any case), numbers, bit strings, character and string literals and delimiters that IEEE 1076 clause 15 defines, each the longest possible, with an apostrophe beginning a character literal unless it follows a name; white space and comments between them do not matter, nothing else of the text is lost, and an expression written in any spelling and layout becomes an AST with the meaning of this expression.", "quantifier": "all texts of any length, all spellings and layouts, all meanings of names and operations", "why_tests_cant": "texts are unbounded, and rules of the lexer compete for every position, so that one wrong choice depends on all of the following characters", "anchors": ["grammars/vhdlLexer.g4", "grammars/vhdlParser.g4: expression, attribute_designator", "src/vhdlConvertor/exprParser.cpp"]}
{"id": "C82", "title": "The text of a Verilog file is cut into the lexical elements of the standard", "statement": "Text of every version of Verilog and SystemVerilog is read as the identifiers, reserved words of this version, escaped identifiers, system names, numbers, time, string and unsized literals and operators that IEEE 1800 clause 5 and annex B define; white space and comments between them do not matter, nothing else of the text is lost, and an expression written in any spelling and layout becomes an AST with the meaning of this expression.", "quantifier": "all texts of any length, all versions of the language, all spellings and layouts, all meanings of names and operations", "why_tests_cant": "texts are unbounded, more than 300 rules of the lexer compete for every position, and which words are reserved depends on the version", "anchors": ["grammars/sv2017Lexer.g4", "grammars/sv2017Parser.g4: expression, identifier", "src/svConvertor/exprParser.cpp", "src/svConvertor/literalParser.cpp"]}
{"id": "C83", "title": "Procedural statements of Verilog are parsed as the standard writes them and behave like their text", "statement": "The tokens of a procedural statement (assignments with and without delays and events, increments, if, case, loops, blocks with names, forks, labels, timing controls) are read as exactly the statement that IEEE 1800 clause A.6 gives them: an else belongs to the nearest if, no other token sequence is accepted, reading always ends, and the text of a statement or process in any spelling and layout becomes an AST that behaves like it.", "quantifier": "all statements of any size and nesting, all token sequences, all texts, spellings and layouts, all values and machines", "why_tests_cant": "statements nest without bound, and whether a label, an else, a comma or a parenthesis belongs to the inner or the outer construct depends on everything around it", "anchors": ["grammars/sv2017Parser.g4: statement_or_null, statement_item, case_statement, conditional_statement, loop_statement, seq_block, par_block", "src/svConvertor/statementParser.cpp", "src/svConvertor/delayParser.cpp", "src/svConvertor/eventExprParser.cpp"]}
{"id": "C84", "title": "Statements and processes of VHDL are parsed as the standard writes them and behave like their text", "statement": "The tokens of a sequential statement (assignments of signals and variables, with conditions and waveforms, calls, if, case, loops, next, exit, return, wait, assert, report, labels), of a process and of a concurrent assignment (plain, conditional, selected) are read as exactly the construct that IEEE 1076 gives them; the text in any spelling and layout becomes an AST that behaves like it; what the standard forbids (another label behind end, case? closed by end case) is refused.", "quantifier": "all statements of any size and nesting, all processes and concurrent assignments, all texts, spellings and layouts, all values and machines", "why_tests_cant": "statements nest without bound, and whether a when, an else, a label or <= belongs to one construct or another depends on everything around it", "anchors": ["grammars/vhdlParser.g4: sequential_statement, conditional_waveforms, process_statement, concurrent_signal_assignment_statement", "src/vhdlConvertor/statementParser.cpp", "src/vhdlConvertor/processParser.cpp"]}
{"id": "C85", "title": "The modules of a Verilog file are parsed as the standard writes them, and their text becomes the AST of these modules", "statement": "The tokens of a file of modules (parameter lists, ports in both styles, nets, variables, parameters, continuous assignments, processes, instances with parameters and connections, generate regions, loops, conditions and cases, nested and extern modules) are read as exactly the modules that IEEE 1800 gives them, and no item is lost; the text in any spelling and layout becomes an AST whose modules have the interface, items and behaviour of the text; a name behind endmodule that is not the name of the module is refused.", "quantifier": "all files with any number of modules and any nesting of modules, generate constructs, statements and expressions, all texts, spellings and layouts", "why_tests_cant": "modules nest without bound, and whether a name begins an instance, a block or a declaration, or an else belongs to a generate construct or to a statement, depends on everything around it", "anchors": ["grammars/sv2017Parser.g4: source_text, module_declaration, parameter_port_list, list_of_port_declarations, module_or_interface_or_generate_item, udp_instantiation, generate_region", "src/svConvertor/source_textParser.cpp", "src/svConvertor/moduleParser.cpp", "src/svConvertor/generateParser.cpp"]}
{"id": "C86", "title": "Parsing Verilog files gives the user the modules of these files, with macros expanded and conditionals resolved", "statement": "parse of a list of Verilog files returns, behind the objects the convertor had before, exactly one object for every module in the files, in the order of the files and of the modules in them; these modules have the interface, items and behaviour of the modules in the sources as they stand after the macros are replaced and the conditionals are resolved; a source with macros gives the same objects as the text it stands for, and no macro of one file reaches the next one.", "quantifier": "all lists of files, all sources with macros, nested conditionals and modules of any number and size, all spellings and layouts, all versions of Verilog, all values and machines", "why_tests_cant": "the result depends on the preprocessor, the lexer, the parser and the visitors together, for every combination of macros and modules", "anchors": ["hdlConvertor/_hdlConvertor.pyx: HdlConvertor.parse, parse_str", "src/hdlConvertor.cpp: SVParserContainer, HdlConvertor::parse", "src/verilogPreproc/verilogPreprocContainer.cpp", "src/svConvertor/source_textParser.cpp: visitSource_text"]}
{"id": "C87", "title": "VHDL design files are read as the standard writes them, and their text becomes an AST with the same meaning", "statement": "Every text of a VHDL design file (context clauses, entities, packages, package bodies and architectures with declarations, component instances, blocks, generate statements, processes and concurrent assignments) is read as exactly the design units that IEEE 1076-2008 assigns to its tokens, in every spelling and layout; no text is read as two different files; the returned AST has the same libraries, units, interfaces, declarations, instances and behaviour as the file; a name behind an end that does not repeat the name of its construct is not accepted.", "quantifier": "all design files of any number of units, nested declarations and statements, all names, layouts and spellings, all values and machines", "why_tests_cant": "each nesting of declarations, generate statements, blocks and statements is a new input, and alternatives of the grammar that share a beginning can swallow each other only in certain contexts", "anchors": ["grammars/vhdlParser.g4: design_file, design_unit, entity_declaration, architecture_body, block_declarative_item, concurrent_statement, generate_statement", "src/hdlConvertor.cpp: VHDLParserContainer", "src/vhdlConvertor/designFileParser.cpp: visitDesign_file", "src/vhdlConvertor/statementParser.cpp", "src/vhdlConvertor/blockDeclarationParser.cpp"]}
{"id": "C88", "title": "Parsing VHDL files gives the user the design units of these files, whatever their layout, comments and encoding", "statement": "parse of a list of VHDL files returns, behind the objects the convertor had before, exactly the objects of the libraries, use clauses and design units in the files, in the order of the files and of the units in them; these have the interfaces, declarations, instances and behaviour of the units in the sources; spelling of reserved words, white space, comments with any characters and the choice of utf-8 or iso-8859-1 do not change the result.", "quantifier": "all lists of files, all design files of any number and size of units, all spellings, layouts and comments, both encodings, with and without hierarchyOnly, all values and machines", "why_tests_cant": "the result depends on the encoding conversion, the lexer, the parser and the visitors together, for every combination of units, layouts and comments", "anchors": ["hdlConvertor/_hdlConvertor.pyx: HdlConvertor.parse, parse_str", "src/hdlConvertor.cpp: VHDLParserContainer, HdlConvertor::parse", "include/hdlConvertor/parserContainer.h: iParserContainer", "src/encodingConversions.cpp: _to_utf8", "src/vhdlConvertor/designFileParser.cpp: visitDesign_file"]}
{"id": "C89", "title": "A VHDL file in which every part has a meaning is converted without an exception, into that meaning", "statement": "parse and parse_str of VHDL sources in which every declaration, interface, instance, statement and expression has a meaning return without an exception or undefined behaviour; the objects have the meaning of the sources, and with hierarchyOnly the result is the same objects without what the mode leaves out. It is enough that the parts have a meaning for one interpretation of names and operators.", "quantifier": "all files and strings, all design units with any nesting of generate statements, blocks and declarations, all layouts, both encodings, with and without hierarchyOnly, all values and machines", "why_tests_cant": "a test shows that one file converts; which files convert depends on every part of the file at every depth", "anchors": ["hdlConvertor/_hdlConvertor.pyx: HdlConvertor.parse, parse_str", "src/vhdlConvertor/designFileParser.cpp: visitDesign_file", "src/vhdlConvertor/statementParser.cpp: visitConcurrent_statement", "src/vhdlConvertor/generateStatementParser.cpp: visitGenerate_statement", "src/vhdlConvertor/literalParser.cpp: visitDECIMAL_LITERAL"]}
{"id": "C90", "title": "From VHDL files to Python objects: the returned HdlContext shows the design units of the files", "statement": "HdlConvertor.parse and parse_str of VHDL sources in which every part has a meaning return an HdlContext and no exception is raised, neither by the parser nor by the conversion to Python; its objs are those from earlier calls followed by the objects of the files in order, with the attributes of the converted AST, and this AST has the meaning of the design units in the sources. A missing file gives an exception, and the objects of the files before it stay in the convertor.", "quantifier": "all lists of files and all strings, all VHDL sources of the modelled part of the language, all layouts, both encodings, all earlier results, all values and machines", "why_tests_cant": "needs the composition of encoding, lexer, parser, visitors and the conversion to Python for every source", "anchors": ["hdlConvertor/_hdlConvertor.pyx: HdlConvertor.parse, parse_str", "src/toPy.cpp: ToPy::toPy", "src/hdlConvertor.cpp: HdlConvertor::parse", "src/vhdlConvertor/designFileParser.cpp: visitDesign_file"]}
{"id": "C91", "title": "Verilog files in which every part has a meaning are converted without an exception", "statement": "HdlConvertor.parse and parse_str of Verilog or SystemVerilog sources in which every part has a meaning (also what is in generate branches that are not taken) raise no exception and fail no assertion; the returned objects are those of earlier calls followed by modules with the interfaces, items and behaviour of the modules in the sources, macros and conditionals expanded.", "quantifier": "all lists of files and all strings, all sources of the modelled part of the language, all layouts, macros and conditionals, all earlier results, all values, machines and elaborations", "why_tests_cant": "needs that no visitor throws or asserts for any tree of the parser, for sources and constant values of any size", "anchors": ["src/svConvertor/generateParser.cpp: visitCase_generate_construct, visitIf_generate_construct", "src/svConvertor/moduleParser.cpp: visitModule_declaration", "src/svConvertor/source_textParser.cpp: visitSource_text", "src/hdlConvertor.cpp: HdlConvertor::parse"]}
{"id": "C92", "title": "From Verilog files to Python objects", "statement": "HdlConvertor.parse and parse_str of Verilog or SystemVerilog sources in which every part has a meaning give a Python object whose attributes are those of the AST: the objects of earlier calls followed by the modules of the sources with their interfaces, items and behaviour, macros and conditionals expanded; no conversion to Python fails.", "quantifier": "all lists of files and all strings, all sources of the modelled part of the language whose strings are UTF-8, all layouts, macros and conditionals, all earlier results, all values, machines and elaborations", "why_tests_cant": "needs that nothing the visitors build is outside of what the conversion to Python accepts (directions, encodings, null pointers), for all sources", "anchors": ["hdlConvertor/toPy.cpp: ToPy::toPy", "hdlConvertor/_hdlConvertor.pyx: parse", "src/svConvertor/moduleParser.cpp: visitModule_declaration", "src/svConvertor/source_textParser.cpp: visitSource_text"]}
{"id": "C93", "title": "What a Verilog design means can be read off the Python objects", "statement": "The Python objects that HdlConvertor.parse and parse_str return for Verilog or SystemVerilog sources, read as modules with parameters, ports, items, processes and generate constructs, mean what the sources mean; a Python object has one such meaning, so sources with different meanings give different Python objects.", "quantifier": "all lists of files and all strings, all sources of the modelled part of the language, all layouts, macros and conditionals, all values, machines and elaborations", "why_tests_cant": "needs that the whole way from the text to Python loses nothing that matters, for all designs; comparing outputs of samples shows changes, not losses", "anchors": ["hdlConvertor/toPy.cpp: ToPy::toPy", "hdlConvertor/toPy_statements.cpp: toPy", "hdlConvertor/_hdlConvertor.pyx: parse", "src/svConvertor/moduleParser.cpp: visitModule_declaration", "src/svConvertor/generateParser.cpp: visitGenerate_item"]}
{"id": "C94", "title": "What a VHDL design means can be read off the Python objects", "statement": "The Python objects that HdlConvertor.parse and parse_str return for VHDL sources, read as design units with declarations, processes, concurrent and generate statements, mean what the sources mean; a Python object has one such meaning, so sources with different meanings give different Python objects.", "quantifier": "all lists of files and all strings, all sources of the modelled part of the language, all layouts and both encodings, all values, machines and elaborations", "why_tests_cant": "needs that the whole way from the text to Python loses nothing that matters, for all designs; comparing outputs of samples shows changes, not losses", "anchors": ["hdlConvertor/toPy.cpp: ToPy::toPy", "hdlConvertor/toPy_statements.cpp: toPy", "hdlConvertor/_hdlConvertor.pyx: parse", "src/vhdlConvertor/designFileParser.cpp: visitDesign_file", "src/vhdlConvertor/generateStatementParser.cpp: visitGenerate_statement"]}
{"id": "C95", "title": "Type declarations of SystemVerilog keep the name and the type", "statement": "A typedef of SystemVerilog becomes one definition that gives the declared name to the declared type, with its sign and all its packed and unpacked dimensions in order; a forward declaration becomes a definition without a type; no type declaration is lost and none crashes the parser.", "quantifier": "all type declarations of the grammar: every data type, every list of dimensions, every forward declaration and every member of an interface, and every interpretation of the expressions in them", "why_tests_cant": "the types nest without bound and every form of the declaration takes another way through the code; samples cover a few types only", "anchors": ["src/svConvertor/declrParser.cpp: visitData_declaration, visitType_declaration, visitNet_type_declaration", "src/svConvertor/typeParser.cpp: visitData_type, applyVariable_dimension", "src/svConvertor/exprParser.cpp: visitIdentifier_with_bit_select"]}
{"id": "C96", "title": "The position of an object is the region of the text it was read from", "statement": "The position that Python shows for an object, lines and columns from 1 with both ends included, is the region of the source text from the first character of the first token to the last character of the last token of the element the object was made from; every literal and name has a position.", "quantifier": "all source texts, all elements of them (any run of tokens, any layout between and around the tokens), both languages", "why_tests_cant": "every text and layout gives other numbers; tests look at a few lines with simple tokens and no macros", "anchors": ["include/hdlConvertor/hdlAst/codePosition.h: update_from_elem", "include/hdlConvertor/createObject.h: update_code_position", "src/svConvertor/literalParser.cpp: visitANY_BASED_NUMBER, visitReal_number", "hdlConvertor/toPy.cpp: ToPy::toPy(const CodePosition), toPy(size_t)"]}
{"id": "C97", "title": "A result means that everything was read, and every text is read or refused", "statement": "parse and parse_str of any text come back, with a result or with an exception. They give a result exactly when every file exists, can be decoded and preprocessed, is one file of the language up to its last token, and each of its units was converted; the result then holds the objects of all units, in order, behind the objects that were there before. No error in a later part of a file or in a later file is swallowed.", "quantifier": "all texts (legal or not), all lists of files, all file systems, encodings, versions of the language and earlier contexts", "why_tests_cant": "tests feed a few legal files and a few errors; that no other text makes the parser loop or drop a part silently is a statement about all texts", "anchors": ["src/hdlConvertor.cpp: Convertor::parse, parse_str, VHDLParserContainer::parseFn, SVParserContainer::parseFn", "include/hdlConvertor/parserContainer.h: _parse", "src/svConvertor/source_textParser.cpp: visitSource_text", "src/vhdlConvertor/designFileParser.cpp: visitDesign_file", "src/syntaxErrorLogger.cpp: check_errors"]}
{"id": "C98", "title": "hierarchyOnly leaves out what the caller does not want, and nothing else", "statement": "parse with hierarchyOnly succeeds whenever it succeeds without it; it returns the same units with the same instances in the same scopes, and only these: as documented, only names of components and modules are read, in VHDL and in Verilog.", "quantifier": "all file systems, lists of files, earlier contexts, both languages", "why_tests_cant": "files and nesting are unbounded; a test with a small file does not show what is missing or superfluous in others", "anchors": ["hdlConvertor/_hdlConvertor.pyx: HdlConvertorPy.parse", "src/svConvertor/source_textParser.cpp: visitSource_text", "src/hdlConvertor.cpp: Convertor::parse", "src/vhdlConvertor/archParser.cpp", "src/vhdlConvertor/entityParser.cpp"]}
{"id": "C99", "title": "Macros given in Python are used in the sources", "statement": "After preproc_macro_db.update({name: text, ...}) every source is read as if these macros were defined before its first line: `name stands for the text, ifdef and ifndef find the name, other names stay unknown. This holds for parse of any number of files, for parse_str and for preprocessing alone, and the macros are still there in the next call.", "quantifier": "all macros given by the user, sources, lists of files, versions of the language, earlier contexts", "why_tests_cant": "the macros, the sources that use them and the number of files are unbounded", "anchors": ["hdlConvertor/_hdlConvertor.pyx: HdlConvertorPy.preproc_macro_db", "hdlConvertor/verilogPreproc.pyx: __setitem__", "include/hdlConvertor/hdlConvertor.h: HdlConvertor::defineDB", "src/hdlConvertor.cpp: HdlConvertor::parse", "src/verilogPreproc/verilogPreproc.cpp"]}
{"id": "C100", "title": "A convertor can be used again, also after an error", "statement": "What parse, parse_str, verilog_pp and verilog_pp_str give depends on their arguments, on the files and on the macros given by the user, not on the earlier calls of the same convertor, whether these succeeded or raised. Objects of earlier calls stay in front of the new ones, and one call of parse with all files gives the same as several calls with a part of them each.", "quantifier": "all sequences of calls with any arguments, languages, files and outcomes", "why_tests_cant": "the sequences of calls and the points where a call may raise are unbounded", "anchors": ["src/hdlConvertor.cpp: HdlConvertor::parse, HdlConvertor::parse_str, HdlConvertor::verilog_pp", "hdlConvertor/_hdlConvertor.pyx: HdlConvertorPy.parse, HdlConvertorPy.parse_str", "src/verilogPreproc/verilogPreproc.cpp: VerilogPreproc::init"]}
