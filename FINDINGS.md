# Reading notes: places where giron-rs departs from what a user relies on

(All paths relative to /repo/giron/src. "P:" = parser/parser.rs, "S:" = scanner/scanner.rs, "E:" = estree/estree.rs.
Each entry that matters for a listed property is turned into a `_refuted` theorem or a universal theorem.)

## Panics reachable from the public API
- P:84-86  `Parser::new(..).unwrap()` : a lexical error in the FIRST token panics (`parse_script("@")`).
- S:1007   `self.current - 1` underflows for the Eof token of an empty source (debug: panic; release: end = usize::MAX).
- S:657,692 unterminated template -> `unreachable!()`.
- S:212    `\u{...}` with too many hex digits overflows u32 (debug panic, release wraps so "\u{100000041}" = 'A').
- P:238    `import "m"` -> `unimplemented!()`.
- P:3730   `matches_punc("`")` calls Punctuator::from("`") -> panic whenever `async` is followed on the same line by a
           punctuator other than ; . [   => `async(x)` and `async () => 1` ALWAYS panic.
- syntax.rs:219 `is_strict_reserved_kw` -> `to_str` panics on Num/Null tokens: strict-mode `function 5`, `class 5`, `class<EOF>`,
           `async 1`, ... (P:3806, 3853).
- P:2965   `let {[a]} = b`  -> value_to_key(Expr, literal=false) panics.
- P:4083   marker stack underflow: parse_new_expr ends its span and then parse_call_expr_tail ends one more
           => `class A extends new B {}` panics; also `new a().b++` chains.
- E:1265   `elements.len() - 1` on `([]) => x` underflows (debug panic).
- P:4083   the same underflow for operator chains with several postfix/new operands: `a++ | b++ & c++ + d++ * e++;` panics.
## Wrong trees / wrong acceptance
- syntax.rs:165 `%` has precedence 11, `*` `/` 10: `a*b%c` = a*(b%c).
- syntax.rs:84 `==` is treated as an assignment operator (dead in practice: `==` is consumed as a binary operator first... 
  only reachable when the lhs is not a binary operand, e.g. after an arrow function / conditional).
- P:473-499 `export {a as b}` swaps local/exported.   P:434 `export {x} from` never matches (`from` is an Identifier token).
- P:445 export specifier list needs no semicolon/newline afterwards; a semicolon there becomes an EmptyStatement.
- P:217 `import x from "m"` yields ImportSpecifier{x,x}, indistinguishable from `import {x} from "m"`.
- P:415 `export let` rejected (let is an Identifier token).  P:1652 `static` never recognised (Identifier token).
- P:843,993 `for (var x of y)`, `for (x of y)` rejected (`of` compared as a Keyword).
- P:925-931 for-in/of heads drop the let/const/var kind.
- P:1498 async function declarations: test inverted, `async function f(){}` rejected.
- P:3175 `function*(){}` expressions rejected (matches_str on a punctuator).
- P:3521 string/number property names in parse_property_name are not consumed => class methods with such names rejected.
- E:1094 last_idx = len: every spread in an array assignment pattern is rejected (`[...a] = b`).
- P:1573 in_iteration/in_switch not reset inside function bodies: `while(1){(function(){break;})}` accepted.
- P:1180 `switch(x){}` rejected (at least one clause demanded).
- P:711 `const x;` accepted.
- P:3774 arrow bodies are parsed with has_await = true.
- P:150-155 directive test uses the cooked value and continues past non-directive string-led statements.
- P:1917,2072,2199 start_span without end_span: markers leak, spans of enclosing nodes start at wrong markers.
- P:4023 has_line_terminator compares END lines: `return` + multi-line template drops the argument.
- S:1050-1062 restore_state restores current/line/col but not the reader: every index / line number after a lookahead
  (`async`, `get`, `set`) is too small; curly_stack restored too => `{` lost from the brace stack.
  Whether `async`, k line breaks, `x`, 2 line breaks, `y` is accepted depends on k (yes for 1, no for 2).
- S:971 col is reset to 1 at each token start: `col` is not a column.
- P:1278 `return}` (no semicolon, no newline) rejected: the argument is parsed unless `;` or a newline follows.
- E:1345ff `({a = b}) => c` declares b; `({a = 1}) => c` and `([a] = b) => c` rejected; `({a: b.c} = d) => e` accepted.
- P:1594 `export default class {}`, `export default class extends g {}` rejected (a name is demanded).
- `x = {} / 2`, `a++ / 2`, `function () {} / 2`: the `/` is scanned as a regular expression (`}` and `++` advance with GRegExp).
- `'yield'` (a string) inside a generator is taken for the keyword.
- P:150 a statement starting with a string at the top level is parsed with `in` disallowed: `'a' in b;` rejected.
- `({a = 1} = x)` rejected; `({a = b} = x)` parsed as if `({a: b} = x)` (the default value becomes the target).
- `([a] = []) => a` rejected; `({a: b} = {}) => b` keeps the value as an expression instead of a binding.
- `for (x of y)`, `for (a.b of y)` rejected: for-of only with let/const.
- anonymous class expressions, async methods of classes and `*m() {}` followed by a comma in an object literal are rejected.
- `yield;` and `f(yield)` on one line rejected: the argument is parsed unless a line break follows.
- `` `${ {get} }` `` rejected: the lookahead after `get`/`set`/`async` restores a brace stack without the `{`/`}` it crossed.
- a regular expression directly after `${` is scanned as a division (template pieces advance with GDiv): `` `${/a/}` `` rejected.
- `` `yield` `` (a template whose raw text is that word) inside a generator is taken for the keyword.
- a regular-expression literal's value/raw are taken from the token after it.
## Scanner
- S:78 + codepoint is_identifier_start excludes `\`: identifiers starting with \u rejected.
- S:157 identifier continuation: consumes `\` then expects another `\`: `a\u0062` rejected, `a\\u0062` accepted.
- codepoint.rs is_single_char_punctuator contains `?` => `?.` and `??` never produced (S:780 dead).
- S:794-821 `+ - & | % ^` at end of input are errors.
- S:462 unknown escapes keep the backslash ("\q" = `\q`).
- S:450 line continuation before the closing quote swallows the quote.
- S:506 octal escapes take unboundedly many digits, then `as u32` truncation.
- S:286 `0e5`, legacy `08.5` not scanned as one number.  S:398 hex literals >= 2^63 rejected.
- S:579 regexp class does not know escapes: `/[\]/]/` ends early.  Line terminators inside a regexp accepted.
- S:714 template line continuation cooks to NUL.  CRLF in a template cooks to two \n; raw keeps CR.
- S:141 unterminated /* comment accepted.
