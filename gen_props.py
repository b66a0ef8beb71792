import json
P=[]
def p(title,statement,quant,why,anchors):
    P.append(dict(id="C%02d"%(len(P)+1),title=title,statement=statement,quantifier=quant,why_tests_cant=why,anchors=anchors))
S="giron/src/scanner/scanner.rs"; R="giron/src/scanner/reader.rs"; PA="giron/src/parser/parser.rs"; E="giron/src/estree/estree.rs"
SY="giron/src/parser/syntax.rs"; PU="giron/src/token/punctuators.rs"; CP="giron/src/codepoint/codepoint.rs"; L="giron/src/lib.rs"; V="giron/src/token/value.rs"
p("Buffered look-ahead is transparent","Whatever mixture of look-ahead and next calls is made on the character reader, the characters handed out by next are exactly the source characters in order, each once, and look-ahead n returns the character that the (n+1)-th following next would return (None past the end).","every source string and every finite sequence of lookahead(n)/next operations","the buffer/iterator interplay has unboundedly many operation histories",[R+": Reader::lookahead, Reader::next"])
p("Tokenising terminates and makes progress","Asking for the next token on any remaining input terminates; a token other than Eof consumes at least one source character, Eof is reported only when nothing but the end of input remains, and after Eof every further request reports Eof again.","every source string, every lexical goal, every scanner state","infinitely many inputs; non-termination is not observable by a finite test",[S+": Scanner::next, scan_comments, scan_until_with, scan2_until_with"])
p("Token offsets are source offsets","For tokens produced without look-ahead backtracking, the start/end offsets of a token delimit exactly the source characters the token was made from, tokens do not overlap, appear in source order, and everything between two tokens is white space, line terminators and comments.","every source string and every sequence of next calls (any goals)","needs all inputs and all goal sequences",[S+": token, consume, start_new_token, scan_comments"])
p("Line numbers count line terminators","For tokens produced without look-ahead backtracking, the line number of a token is one plus the number of line terminators (LF, CR, LS, PS; CR LF counted once) in the source up to the end of the token; errors carry the line of the position reached.","every source string and sequence of next calls","all inputs incl. arbitrary mixes of CR/LF/LS/PS",[S+": consume, token, error"])
p("Trivia never changes tokens","Prefixing the remaining input with any white space, line terminators and (terminated) comments does not change the kind, value or lexical attributes of the next token, nor the input left after it (a '/' must not be glued to a comment).","every trivia prefix and every remaining input","unbounded trivia",[S+": scan_comments, scan_singleline_comment, scan_multiline_comment", CP+": is_whitespace, is_line_terminator"])
p("Punctuators are scanned by longest match","When the scanner returns a punctuator, its spelling is a prefix of the remaining input, is exactly what was consumed, and no longer punctuator of the language is a prefix of the input, where the three spellings '?.', '??' and '>>=' do not count: the scanner never returns them ('>>=' comes out as '>>' and '=', a defect).","every remaining input","all continuations of all punctuators",[S+": scan_punctuator, scan_div_punctuator, punc0, punc1, punc2", CP+": is_single_char_punctuator"])
p("Punctuator spelling round-trips","Converting a punctuator to its spelling and back is the identity, the two spelling functions agree, and conversion from text fails exactly on texts that are no punctuator's spelling.","every punctuator and every string","all strings",[PU+": Punctuator::to_str, to_string, From<&str>"])
p("Identifiers and reserved words","A run of identifier characters without escapes is returned verbatim and maximal as one token; it is a keyword token exactly when it is one of the 35 reserved words (incl. await, yield, enum), null / true / false become literals, everything else is an identifier.","every identifier-shaped text followed by any input","all words",[S+": scan_identifier, scan_identifier_start, is_keyword"])
p("String literals decode to the denoted text","For every text there is a quoted spelling (escaping quotes, backslash and line terminators) that scans back to exactly that text with either quote, and unescaped characters stand for themselves; the token consumes exactly the literal.","every string over Unicode scalar values, both quotes, every following input","all strings",[S+": scan_string_literal, scan_string_literal_cp, scan_unicode_esc_seq, scan_hex_esc_seq", CP+": unescape"])
p("Numeric literals denote their mathematical value","A decimal literal (digits without superfluous leading zeros, optional fraction, optional exponent) and a 0b/0o/0x literal below 2^63 scan to the number with exactly the mathematical value of the digits (before the final conversion to f64), except that a lone 0 directly followed by an exponent (0e5, a defect) is not scanned as one literal; conversely every numeric token has the value of the text it was made from.","every digit string","all digit strings",[S+": scan_numeric_literal, scan_fractional_part, scan_exponent, scan_radix_literal"])
p("Template pieces","The raw text of every template piece is exactly the source text between its delimiters, head/tail flags tell whether the piece opens/closes the literal, and a piece that opens a substitution makes the matching '}' (and no other) resume the template.","every template text and every nesting of braces","all nestings",[S+": scan_template, scan_template_substitution_tail, curly_stack"])
p("Regular-expression literals","A regular expression literal token carries as pattern exactly the source text between the slashes and as flags the identifier characters that follow.","every source text in regexp position","all texts",[S+": scan_regexp_literal, scan_regexp_body, scan_regexp_flags"])
p("Scanner panics are confined","The scanner returns a token or a positioned error for every input, except that it panics on an unterminated template, on the end-of-input token of an empty input in overflow-checked builds, and on an over-long \\u{...} escape in overflow-checked builds.","every source, goal and state","absence of panics over all inputs",[S+": next, scan_template, scan_unicode_esc_seq, token"])
p("Parsing terminates","parse_script and parse_module stop (with a tree, an error or a panic) on every source text: recursion depth and the iterations of every single loop never exceed the source length + 2, and allowing more changes nothing.","every source string","non-termination cannot be observed by tests; all inputs",[L+": parse_script, parse_module", PA+": all parse_* functions"])
p("Success means the whole input was consumed","When parsing succeeds, every source character has been read and the parser stands at the end-of-input token: no trailing text is silently ignored.","every source string accepted","all inputs",[PA+": parse_until_eof, parse_script, parse_module"])
p("The root is a Program of the requested kind","A successful parse_script returns a Program node with sourceType \"script\"; parse_module one with sourceType \"module\".","every source string accepted","all inputs",[PA+": parse_script, parse_module"])
p("return only inside functions","In every returned tree each return statement lies inside a function body.","every accepted source, every return statement in the tree","all inputs and nestings",[PA+": parse_return_stmt, parse_stmt_list_item, parse_statement, with_return"])
p("Unlabelled break/continue only inside loops or switch","In every returned tree an unlabelled continue lies inside a loop body and an unlabelled break inside a loop body or switch statement (of the same or, a defect, of an enclosing function).","every accepted source","all nestings",[PA+": parse_continue_stmt, parse_break_stmt, parse_for_*_stmt, parse_while_stmt, parse_do_while_stmt, parse_switch_stmt"])
p("Strict code restrictions","Trees returned by parse_module, and strict parts (class bodies, functions starting with \"use strict\") of trees returned by parse_script, contain no with statement and no labelled function declaration.","every accepted source","all nestings of strict regions",[PA+": parse_with_stmt, parse_labelled_stmt, parse_class_dclr, parse_function_body_block"])
p("Assignment and update targets are valid","In every returned tree the left side of each assignment is an identifier, member access, destructuring pattern or a parenthesised such target, compound assignment and ++/-- targets likewise; elements, property values and rest targets of destructuring assignments are again such targets, possibly with a default; in strict code none of them is the identifier eval or arguments. Shorthand properties of a destructuring assignment are exempt: giron does not check them (a defect).","every accepted source","all expressions",[PA+": parse_assignment_expr, parse_update_expr", E+": assign_target_type, to_assignment_pattern"])
p("Binary operators respect precedence and associativity","In every returned tree the operands of a binary operator bind at least as tightly as precedence and left-associativity demand (operands that are looser appear parenthesised), with two deviations that are defects of giron: % binds tighter than * and /, and an arrow function may be an operand without parentheses.","every accepted source, every binary expression in the tree","all operator sequences",[PA+": precedence_climbing, parse_binary_expr", SY+": precedence, is_bin_op"])
p("Rest elements are last","In every returned tree a rest element occurs only as the last element of a parameter list, array pattern or object pattern.","every accepted source","all patterns",[PA+": parse_until_punc_or_rest, seq_to_arrow_params", E+": array_to_pattern, object_to_pattern, array_to_assign_pattern, object_to_assign_pattern"])
p("try has a handler or a finalizer","Every try statement in a returned tree has a catch clause or a finally block.","every accepted source","all inputs",[PA+": parse_try_stmt, parse_catch_clause, parse_finally_clause"])
p("At most one default per switch","Every switch statement in a returned tree has at most one default clause.","every accepted source","all inputs",[PA+": parse_switch_stmt"])
p("Destructuring declarations have initialisers","Every declarator of a variable declaration in a returned tree whose target is a pattern has an initialiser.","every accepted source","all inputs",[PA+": parse_variable_dclr, parse_for_stmt"])
p("Grammar context never leaks","Parsing a function, class, loop, switch or any expression leaves the strictness, in-loop, in-switch, return/yield/await/in permissions for the following code exactly as they were before it.","every source, every parse function, every state","all nestings and interleavings of contexts",[PA+": with_params, with_in, save_params, restore_params, parse_function_body_block, parse_class_dclr, parse_class_expr"])
p("Automatic semicolon insertion","A statement that needs a terminator is accepted only if followed by ';', by '}', by the end of input, or by a token on a later line; ';' is consumed and nothing else is.","every parser state","all token pairs and positions",[PA+": consume_semicolon, advance"])
p("Internal panics are dead code","The only panics reachable through parse_script/parse_module are the ones listed in the specification (bad first token, unterminated template, import of a bare string, 'async' before certain punctuators, strict-mode identifier expected but number/null/end of input found, computed key without ':' in a binding pattern, a destructured class expression, span-marker underflow, and, only in builds with overflow checks, the end of an empty input, an over-long \\u{...} escape and an empty array pattern in arrow parameters); all other unwrap/unreachable/panic sites are dead.","every source string","absence over all inputs",[PA, S, E, V])
p("Only a fixed node vocabulary is emitted","Returned trees never contain AwaitExpression, LogicalExpression, ClassExpression, AsyncFunctionDeclaration, AsyncFunctionExpression nodes, Directive, Module, ArrowParameterPlaceHolder, SpreadElement/AssignmentRestElement nodes, ImportDefaultSpecifier, nor a static method.","every accepted source","all inputs",[E+": Node", PA])
p("JSON form","The serialised form of a returned tree: every object has \"type\" as its first field with a name from a fixed list, and no field twice; the root is {type: Program, body: [...], sourceType}; the form of every part of the tree occurs in the form of the tree; each kind of part has the type name, the fields and the order of fields given by a fixed table, and each field holds the child or value the table names; source positions do not show, except those of the properties of object literals. (The literals true and 'true' serialise identically, a defect.)","every tree, every accepted source","all trees",[E+": Serialize derives"])
p("Template literals are well formed","Every template literal (tagged or not) in a returned tree has exactly one more text piece than expressions, and exactly its last piece is marked as tail.","every accepted source","all inputs",[PA+": parse_template_literal, parse_call_expr_tail, parse_member_expr"])
p("Unary operators cannot be the base of **","In every returned tree the left operand of ** is not a unary (or await) expression unless parenthesised, and ** is right-associative.","every accepted source","all inputs",[PA+": parse_exponentiation_expr, parse_unary_expr"])
p("Cover grammar keeps the names","Turning an array/object literal or assignment into a binding pattern (arrow parameters) keeps exactly the identifiers in binding positions, in order, and rejects every literal, call or member access in a binding position.","every expression tree","all nestings",[E+": to_binding_pattern, array_to_pattern, object_to_pattern, to_strict_binding, to_array_pattern_element"])
p("Reported positions lie inside the source","Every span offset in a returned tree is between 0 and the source length (in characters), and every line of a span is between 1 and the number of source lines (the start may lie after the end, a defect that follows look-ahead); every error line is between 1 and the number of source lines.","every source string","all inputs",[PA+": start_span, end_span, peek_span, error, unexpected", S+": error"])
p("Getter, setter and property-kind consistency","In every returned tree kinds are among init/get/set (object) and constructor/method/get/set (class), every class method has a function value, a getter function has no parameters, getter and setter functions are neither generators nor async, a property is marked method exactly when its value is a method function, a key is marked computed exactly when it is an expression in brackets, and a property without value is a shorthand. (A property of kind get may have a non-function value: ({get a: 1}) is accepted, a defect.)","every accepted source","all inputs",[PA+": parse_object_lit_expr, parse_method_definition, parse_class_body"])
p("Imports and exports only at the top level of modules","Trees returned by parse_script contain no import or export declaration; in trees returned by parse_module they occur only as direct children of the Program.","every accepted source","all nestings",[PA+": parse_module_item, parse_stmt_list_item"])
p("Expressions survive printing and re-parsing","For every expression tree built from identifiers, numbers, strings, null, booleans, this, array literals, member accesses, calls, unary, binary, exponentiation, conditional and assignment operators and parentheses, printing it (parentheses added exactly where an operand binds less tightly than its place requires, tokens separated by spaces) and parsing the text yields that tree up to positions; a pair of parentheses appears as a one-element sequence.","every expression tree of the fragment, every identifier, number and string in it","all trees",[PA+": parse_expression and below"])
p("Token attributes match the kind","Identifier and keyword tokens carry text, punctuator tokens a punctuator, regular expression tokens a pattern and flags, template tokens cooked text and head/tail flags, so the parser's unwraps on them cannot fail.","every token ever returned","all inputs",[S+": token, token_simple", "giron/src/token/token.rs: Token"])
p("Every position of the tree holds the right kind of node","In every returned tree each node is of the kind its position in the parent calls for: operands are expressions, bodies of loops and if are statements other than lexical, function or class declarations, function bodies are blocks, statement lists consist of statements and declarations, labels and property names are identifiers, and so on for every position of every construct.","every accepted source, every position","all nestings",[PA+": all parse_* functions", E+": Node"])
p("Operators and kinds come from fixed lists","In every returned tree the operator of each assignment, binary, unary and update expression and the kind of each declaration is one of the language's; member accesses say correctly whether they are computed; unary operators are marked prefix; new.target is the only meta property; yield* has an operand; a function's generator/async/expression flags fit its kind.","every accepted source","all inputs",[PA, SY])
p("yield and await only where allowed","In every returned tree a yield expression lies in the parameters or body of a generator, and an await expression in the parameters or body of an async function or (a defect) in the body of an arrow function.","every accepted source","all nestings",[PA+": parse_yield_expr, parse_await_expr, with_params"])
p("Declared patterns contain only names","In every returned tree the pattern of a variable declarator, a catch parameter or a parameter of a function other than an arrow function contains no expression in a binding position: only names and nested patterns, and a shorthand property is a name.","every accepted source","all patterns",[PA+": parse_binding_pattern, parse_binding_element, parse_formal_params"])
p("The WebAssembly entry points tell success from failure","parseScript/parseModule of giron-wasm return an object exactly for accepted sources, and it is the JSON form of the tree; for a syntax error they return a string, which determines the error; there is no other result.","every source string","all inputs",["giron-wasm/src/lib.rs: parse_script, parse_module"])
p("The tree is a reading of the source","Whenever a source is accepted, the source is a sequence of tokens, separated only by white space, line breaks and comments and ending with the end of input, and this sequence is a spelling of the returned tree: every node stands for exactly the tokens its grammar rule prescribes (keywords, punctuators, operators, names and literal values taken from the tokens themselves, a statement terminator present or allowed to be missing), its children stand for the tokens in between in source order, and no token is left out, used twice or attributed to another node.","every accepted source and every node of its tree","all programs",[PA+": every parse_ function","giron/src/estree/estree.rs: to_binding_pattern, to_assignment_pattern"])
p("Correct programs of the core language are accepted with the right tree","Every source text that is a layout of a token sequence derivable in the core grammar (identifiers, literals, regular expressions, templates and tagged templates with nested substitutions, arrays, objects, functions, generators, async functions, classes, arrow functions, binding patterns, destructuring assignments, member/call/new/super expressions, all operators with their precedences, all statements including for/for-in/for-of, labels, switch, try, automatic semicolons, directives, and in modules imports and exports) is accepted by parse_script and parse_module, and the returned tree is, up to positions, the one the grammar assigns; hence the grammar assigns at most one tree to a text.","every source text, every token sequence, every layout with white space, comments and line breaks, every derivation","all programs; completeness is a statement about infinitely many accepted texts",[PA+": Parser (all productions)",S+": Scanner::next"])
p("Error texts identify the error","The text an error displays determines the kind of error and, for an unexpected token, the token's text; its debug text (which giron-wasm hands to JavaScript) determines line, column, kind and token text, whatever characters the token contains.","every pair of errors, every token text","all token texts, including quotes, backslashes and unprintable characters",["giron/src/errors/errors.rs: Display for Error, derive(Debug)"])
p("A module without imports and exports is a script","If parse_module accepts a source and no item at its top level is an import or an export, parse_script accepts it too, with the same statements except for the internal marks on eval and arguments, hence the same JSON; so strict mode only ever rejects more, it never changes the reading of a program.","every accepted module","all programs; relates two runs of the parser under different settings",[PA+": parse_module, parse_script, module, script, Params"])
p("White space and comments before a program only move it","Putting white space, line breaks and comments before a source changes neither whether it is accepted nor the tree, except that every position moves by the number of line breaks and characters put before it (the empty source, on which debug builds panic, excepted).","every source, every sequence of white space and comments, both entry points","all programs; relates two runs on different texts",[S+": Scanner::next, skip_comments",PA+": parse_script, parse_module"])
p("Formatting a program does not change its meaning","Every accepted source is a sequence of token texts with white space, comments and line breaks between them; every other text with the same token texts, in which the gaps may be filled differently (with the same number of line breaks in each gap, and without running two tokens together), is accepted too, and the tree is the same, every part on the same lines and with the same columns (which count from the beginning of a token, C52); only offsets may differ.","every accepted source, every other layout of its tokens, both entry points","all programs and all layouts; relates two runs on different texts",[S+": Scanner::next and all scan_ functions",PA+": parse_script, parse_module"])
p("Errors are about something in the source","Every error returned is reported at the line and column recorded for a token of the source, and that token, or its neighbour, is one that explains the kind of error: the text shown for an unexpected token is that token's, an illegal return is at a return, an invalid assignment target is at the assignment operator, a missing function name is at the parenthesis after function, and so on for each kind; otherwise the error is one of the scanner, about text that begins no token, or it is about a part of an expression that has to be a pattern because of an assignment, an arrow or a for-in loop. (Lines after a look-ahead at async, get or set are too small: a defect.)","every rejected source and every kind of error, both entry points","all rejected inputs",[PA+": error_current, unexpected_current, error at every site",S+": all error sites","giron/src/estree/estree.rs: to_binding_pattern, to_assignment_pattern"])
p("Spans begin and end at tokens","Every span in a returned tree begins at the recorded place of a token of the source and ends right behind the same or a later token. (Ends after a look-ahead may be wrong: a defect. The end is behind the token after the part, and a binary expression begins at its right operand: defects, shown.)","every accepted source, every part of its tree, both entry points","all programs and all nestings; the stack of markers must be balanced in every run",[PA+": start_span, end_span, peek_span"])
p("What columns mean","The column recorded for a token is that of its end counted from its own beginning: one more than the length of its text, or of the part of it after its last line break; its offset and line are right. An error of the scanner has the right line and the column of the place reached, counted from the beginning of the token. (So columns do not give the place in the line: a defect.)","every source, every sequence of goals, every token","all token texts, including those with line breaks",[S+": consume, start_new_token, token constructors"])
p("Names, literals and simple parts are located exactly","In a returned tree every name, literal, this, super, label, property key, imported or exported name, module name, template without substitutions, debugger/break/continue/empty statement, return without value, import and export list has a span that begins at the recorded place of its first token and ends right behind the token after its last one (a defect of one token); the tokens, and so these places, have the right offsets, lines and columns of the text up to the first look-ahead at async, get or set (after it they may be wrong: a defect). new.target's parts, member accesses with a dot and tagged templates are located as marked in the grammar. (Compound statements and expressions may begin too late: a defect, shown.)","every accepted source, every such part of its tree, both entry points","all programs and all nestings; the marker used for a part must be its own in every run",[PA+": start_span, end_span, peek_span and every parse_ function of these parts"])
p("White space and comments before a rejected source","White space, line breaks and comments put before a source that is rejected change neither the kind nor the column of the reported error and move its line by the number of line breaks put there; conversely no source is rejected because of them (an error for the longer text is the moved error for the shorter one), and a source on which the parser panics still makes it panic.","every source, every sequence of white space, line breaks and comments that can stand before it, both entry points","all rejected sources and all ways to fail; the places of all errors depend on the whole scanner and parser state",[PA+": every parse_ function, error, error_current, advance, lookahead",S+": next, scan_comments, error"])
p("An error depends only on the tokens read","Every rejected source begins with a sequence of tokens such that every source that begins with the same token texts (the gaps filled differently, with the same number of line breaks, tokens kept apart) is rejected with exactly the same error, line and column, whatever follows; unless the error was caused by the end of the text (then only white space and comments may follow) or by a text that is not a token (then that text must follow, after other white space or comments if wanted).","every rejected source, every other layout of the tokens read and every continuation, both entry points","all rejected sources, all continuations; relates the runs on two texts that may differ arbitrarily after the place of the error",[PA+": every parse_ function, error, error_current, advance, lookahead",S+": Scanner::next and all scan_ functions"])
p("Builds with and without overflow checks agree","On every source, a build without overflow checks, of any word size, returns exactly the result (the tree, the error or the panic) that a build with overflow checks returns, unless the latter panics because of an overflow; builds without checks never panic because of an overflow. (Overflows do occur: the empty source, a too long \\u{...} escape and an empty array pattern among arrow parameters: defects.)","every source, every pair of builds (overflow checks, word size), both entry points","all inputs; relates the runs of two builds, the tested (debug) one and the shipped (release) one",[S+": read_unicode_code_point, token_simple",E+": array_to_pattern",PA+": every parse_ function"])
p("The Unicode tables matter only for characters of the source","If two versions of the Unicode tables, both right about ASCII, agree on which of the non-ASCII characters of a source may begin and continue a name, the source gives the same result (tree, error or panic) with both; in particular the result on an ASCII source, whatever escapes it contains, does not depend on the tables.","every source, every pair of tables, both entry points","all inputs, all tables; relates the runs of two builds",["giron/src/codepoint/codepoint.rs: is_identifier_start, is_identifier_continue",S+": Scanner::next, scan_identifier, scan_regexp_flags",PA+": every parse_ function"])
p("A printed program is read back as the tree it denotes","Programs given as abstract syntax (all the statement forms: declarations, blocks, if, the loops, switch, try, labels, functions with parameters and directives, classes; and expressions incl. objects, arrays, calls, new, arrows (with an expression or a block as body), function and class expressions, update, unary, binary, conditional, assignment, sequence) and printed with the parentheses and braces that are needed (dangling else, an expression statement beginning like a block, function, class or directive, in inside a for head, operators by level) are accepted by parse_script and parse_module, and the tree returned is, spans aside, the one the abstract syntax denotes. Nothing but parentheses and braces is added, none where not needed, and programs that print alike denote the same tree.","every program of the abstract syntax, of any size and depth","all programs of any size",[PA+": every parse_ function of statements and expressions",S+": Scanner::next"])
p("A tree is not larger than its source","A returned tree has at most three parts (counting pieces of templates and imported and exported names as parts) per character of the source, and one more; no part lies deeper than three times the length of the source. So the memory a result takes, and the recursion needed to walk, convert or drop it, are linear in the source.","every accepted source, both entry points","all programs and all nestings; a bound for every input",[PA+": every parse_ function",E+": Node"])
p("Names are opaque","Replacing identifiers consistently does not change the syntax: if every identifier of an accepted source is replaced by what a function makes of it (a function that leaves alone the reserved words, the contextual words such as async, get, let, of, eval, and the other token texts, and makes identifiers of identifiers), the new source is accepted, and its tree is the old tree with the names replaced, on the same lines. A rejected source stays rejected, with the same error on the same line, except that the name it quotes is replaced. The parser never looks at the spelling of a name otherwise.","every accepted source, both entry points; every renaming function; every layout of the renamed source as in C49","all renamings of all programs",[PA+": every parse_ function",S+": scan_identifier"])
p("The JSON form tells the program","From the JSON value that the WebAssembly entry points return for a printed program (as in the property about printed programs: every statement form, expressions incl. functions, objects, classes) the text of the program can be read off by a simple function of the JSON value: every word of the source, in order, parentheses included, except that true and false come back as string literals and the kind of the variable of a for-in or for-of loop is lost (defects, and nothing else is lost). So programs that differ otherwise never have equal forms.","every program of the abstract syntax, of any size and nesting; scripts and modules","all programs, all nestings; injectivity is about pairs of programs",["giron/src/estree/estree.rs: Serialize derives","giron-wasm/src/lib.rs: parseScript, parseModule",PA+": every parse_ function"])
p("Printed modules are read back","A module of the abstract syntax, its statements and declarations mixed with every form of import (default, namespace, named with and without as, and their combinations) and of export (all from, declarations, default expression, default function with or without a name, default class, and at the end a list of names), is printed with the parentheses and braces it needs; the module parser reads the text back as exactly the tree of the module: no item is lost, misread or reordered, and names before and after as are not mixed up (except that in an export the first is stored as exported, the second as local: a defect). Only needed parentheses are added, and modules printed alike have the same tree.","every module of the abstract syntax, of any size and nesting","all modules, all nestings; unambiguity is about pairs of modules",[PA+": parse_module_item, parse_import_dclr, parse_export_dclr"])
p("The JSON form tells the module","From the JSON value that parseModule returns for a printed module with its imports and exports the text of the module can be read off by the same simple function of the JSON value as for programs: every item, every imported and exported name on its side of as, every source path, in order. Not told are, besides what programs do not tell, only whether a name is written x or x as x and whether a name is imported as the default export or by its own name in braces (a defect). So modules that differ otherwise never have equal forms.","every module of the abstract syntax, of any size and nesting","all modules, all nestings; injectivity is about pairs of modules",["giron/src/estree/estree.rs: Serialize derives","giron-wasm/src/lib.rs: parseModule",PA+": parse_module_item, parse_import_dclr, parse_export_dclr"])
p("Text written from the JSON form is read back","Parse a source text in any layout (comments, line breaks, automatic semicolons); write the JSON form out as text with the function of the previous properties; parse that text. If the tree is one of a program or module of the fragment, the text is accepted, its tree is the same up to positions, and its JSON form is written out as the very same text: formatting through the JSON form is stable.","every source text whose tree, up to positions, is that of a program or module of the abstract syntax (any size and nesting) in which, as told, no statement begins with a string literal","all source texts in all layouts, all programs",["giron/src/estree/estree.rs: Serialize derives","giron-wasm/src/lib.rs: parseScript, parseModule",PA+": parse_script, parse_module"])
open("properties.jsonl","w").write("".join(json.dumps(x)+"\n" for x in P))
print(len(P))
