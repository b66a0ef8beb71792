# DESIGN — a Rocq/Coq model of giron-rs and the proofs about it

## 1. What is modelled

All of `/repo/giron/src` except logging, transcribed function by function. Each definition cites file and lines.

| file | models |
|---|---|
| `Base.v` | characters (`N`), strings, error types (errors.rs), panic sites, result type, state monad, external world `env` |
| `Reader.v` | scanner/reader.rs (buffered look-ahead) |
| `Codepoint.v` | codepoint/codepoint.rs |
| `Punct.v` | token/punctuators.rs |
| `Token.v` | token/token.rs, token/value.rs, parser/syntax.rs |
| `Scanner.v` | scanner/scanner.rs, complete |
| `Ast.v` | estree/estree.rs node types, `expr_span`, `assign_target_type`; span/span.rs |
| `Convert.v` | estree/estree.rs conversions (cover grammar) |
| `ParserBase.v`, `ParserExpr.v`, `ParserStmt.v`, `Parser.v` | parser/parser.rs, complete; lib.rs entry points |
| `Errors.v` | errors/errors.rs `Display` and derived `Debug` (escaping of strings by the standard library: `rustfmt`, quantified over) |
| `Json.v` | the serde derive attributes of estree.rs / value.rs / span.rs / punctuators.rs (shape of the JSON document); giron-wasm/src/lib.rs |

Not modelled: serde/serde_json/wasm-bindgen themselves (their result is the document the derive attributes specify), `log!`, memory/stack exhaustion (the Rust
parser recurses on the native stack: a very deep source overflows it; the model has no stack limit), the final decimal->f64
rounding (numbers are exact decimals `mant*10^expo`; f64 = a function of them), `f64::to_string` and the Unicode tables of the
`ucd` crate (parameters of `env`, no assumption made unless a theorem says so), 2^64 wrap-around of offsets (sources longer
than the address space), `fields that are written but never read` (`SyntaxGoal`, `has_tagged`).

Modelling decisions
* `Result<T>` + mutable state + panics = `res S A` (`ROk/RErr/RPanic/RFuel`), state monad `M S A`. Every `unwrap`, `panic!`,
  `unreachable!`, `unimplemented!` and checked subtraction is an explicit `RPanic site`. The state after `Err` is dropped
  (the public API returns only the error).
* `env` holds everything external: `ucd` tables, f64 printing, overflow checks on/off, usize::MAX. All theorems quantify over it.
* Loops and recursion use fuel; running out is the separate value `RFuel`/`OutOfFuel`. Theorem C14 proves it never
  happens from the entry points, so no other theorem is about truncated executions.
* The recursive-descent parser is closed through a record `handler` of ten "upward" methods; `run n` is the parser with recursion
  depth <= n. Every upward call happens after at least one token was consumed, so depth `length source + 2` suffices.
* The scanner runs over the list of remaining characters; `Reader.v` models the real buffer and C01 proves that the buffer behaves
  as that list.

## 2. Specification side

`Spec*.v` files contain only definitions: independent vocabulary in which properties are stated (lexical grammar of trivia,
escape/quote functions, line counting, decimal values, `child`/`occurs` relation of trees, operator tables of ECMAScript, ...).
`occurs t path x`: x is a descendant of tree t and `path` lists its ancestors with the role in which each was entered.
No parser definition is used in these files (types of Ast.v/Token.v only).

`Props*.v` contain only theorem statements closed by `exact`, `Print Assumptions`, and non-vacuity examples.

| file | vocabulary |
|---|---|
| `SpecLex.v`, `SpecScan.v`, `SpecReader.v` | lexical grammar, scanner histories, reader operations |
| `SpecParse.v` | outcomes, panics, contexts |
| `SpecTree.v`, `SpecSlots.v` | `occurs`, ancestors and roles; which node may stand in which slot |
| `SpecJson.v` | the ESTree-shaped JSON document of a tree |
| `SpecSpell.v` | token sequences that spell a tree (soundness direction: what an accepted source looks like), places of tokens, exact spans (C44, C53) |
| `SpecNames.v` | names bound by patterns / by expressions read as patterns |
| `SpecBare.v` | trees without positions |
| `SpecTouch.v`, `SpecStrict.v`, `SpecShift.v` | changing positions and marks of a tree; module-only items; moved trees and errors (C47, C48, C54) |
| `SpecRelay.v` | pieces of a text, cutting it into tokens, other layouts of the same tokens, trees without offsets, how a parse stops with an error (C49, C55) |
| `SpecBuild.v` | builds of the same source, the panics because of an overflow check (C56) |
| `SpecUcd.v` | ASCII, tables that are right about ASCII, tables that agree on a text (C57) |
| `SpecBlame.v` | what an error of each kind may refer to, scanned tokens, places, spans (C50, C51) |
| `SpecCol.v` | columns of a text (C52) |
| `SpecGrammar.v` | a grammar of core ECMAScript: tokens, layouts, derivations, trees (completeness direction) |
| `SpecPrint.v` | abstract expressions, functions and statements, where parentheses and braces are needed, a printer, the tree they denote (C37, C58) |
| `SpecSize.v` | the number of parts of a tree down to a depth (C59) |
| `SpecRename.v` | a tree with its names replaced, a source with its identifiers replaced (C60) |
| `SpecUnparse.v` | the words of a JSON value (a function on JSON values only), what is not told (C61) |
| `SpecPrintMod.v` | abstract syntax of modules, their printed form and their trees (C62) |
| `SpecUnparseMod.v` | what the JSON form of a module does not tell (C63) |

## 3. Proof technique

* Hoare-style weakest preconditions over `M` with one lemma per model function, used by a small tactic (`Hoare.v`).
* Scanner: each function is characterised by the list of characters it consumes.
* Parser pass T (`Term*.v`): measure = unread characters + pending look-ahead token + current token; every
  parse function decreases it or fails; gives termination (C14), progress, and the classification of panics (C28).
* Parser pass V (`Valid*.v`): every parse function returns a tree satisfying one context-indexed validity predicate and restores
  the grammar context (C26); properties C17–C25, C29, C31, C32, C35, C36 are corollaries of the predicate, restated with `occurs`.
* JSON (`JsonProofs.v`): the serialiser against the independent document, by structural induction over the tree.
* Spelling (`Spell*.v`, C44): second pass over every parse function; each returns a tree whose spelling is the list of tokens it consumed.
  The grammar is parametric in a predicate on spans; C44 takes the trivial one, C53 the exact one. For C53 the pass also tracks the stack of markers
  and where the scanner stands (`located` in `SpellBase.v`); the tokens are those the scanner produces, so C44's lines and C53's places are the real ones
  up to the first look-ahead.
* Names (`NamesProofs.v`, C33): structural induction over the cover-grammar conversions.
* Grammar (`Gram*.v`, C45): forward simulation. `does l F m f R l' m'`: from any parser state whose current and upcoming tokens
  are `l`, with flags `F` and marker depth `m`, `f` succeeds with a result in `R`, at `l'`, with marker depth `m'`. One lemma per
  production; the induction over derivations is `GramTop.phrase`; import and export declarations and whole modules are in `GramMod.v`.
  `GramTempl.v` (template and regular-expression scanning) and `GramBal.v` (braces of a phrase are balanced, so the scanner's brace
  stack is the one the template piece after a substitution needs) serve the templates. C37 and C58 (`PrintProofs.v`) show that printed expressions and programs are derivable.
* Blame (`Blame*.v`, C50, C51): a third pass over every parse function, with the tokens read so far as ghost state: every error is explained by
  them, every marker on the stack is the place of one of them, every span of the returned tree covers some of them. `ScanErr.v`, `ScanCol.v`
  (C52) do the same for every scanner function.
* Agreement pass (`BuildProofs.v`, C56): `ag m m'`: from every state `m` panics because of an overflow or `m'` gives the same result and state; closed under `bind` and all control structures, so that each function of the model is one short lemma.
* Relational pass (`Rel.v`, `Sim*.v`, C47 to C49, C54, C55): `sim E sl RM R m m'`: whenever `m` succeeds, there is a list of scanner calls such that `m'`
  succeeds from every related state whose scanner answers these calls alike, with a result related by `R`. Positions are related by
  `RM` (any relation that keeps the order of lines), strictness may drop from the first run to the second (`sl = true`) and then marks
  on eval/arguments may be relaxed; with `sl = false` errors correspond as well (`sim_err`). One lemma `s_<function>` per parser function. `SpecTouch.v` rewrites positions and marks of a tree.

## 4. Property by property

| id | plan |
|---|---|
| C01 | refinement of the buffered reader to a list, for every sequence of operations |
| C02 | measure on the scanner; `s_next` total, progress, Eof iff nothing but trivia left, Eof idempotent |
| C03 | invariant "source = read ++ rest, offset = length read" over any sequence of next calls; lexeme/trivia decomposition |
| C04 | invariant "line = 1 + terminators(read)" with CR LF handled by look-ahead |
| C05 | trivia grammar in the spec; simulation of `s_next` on `trivia ++ input` (positions aside) |
| C06 | case analysis of the punctuator scanner against the spelling table |
| C07 | finite case analysis lifted to all strings |
| C08 | run of identifier characters; keyword table equals the independent list of reserved words |
| C09 | `quote` function in the spec; simulation |
| C10 | digit-list semantics in the spec (`Q`-free: mantissa/exponent); simulation |
| C11 | raw = consumed text; brace-stack invariant |
| C12 | pattern/flags = consumed text |
| C13 | panic classification of `s_next` with exact conditions |
| C14 | pass T |
| C15 | pass T/V: loop exit of `parse_until_eof` + scanner Eof theorem (C02) |
| C16 | direct from pass V |
| C17–C20, C22–C25, C29, C31, C32, C35, C36 | pass V; the full form of C18 ("within the same function") and of C20 (parenthesised sequences) is false of the code: refuted by a computed witness, and the strongest true form proved |
| C21 | pass V with the code's own table; the ECMAScript table is refuted by `a*b%c`; equal-otherwise theorem |
| C26 | pass V, post-condition on parser state of every method |
| C27 | exact characterisation of `consume_semicolon` lifted to statements |
| C28 | pass T panic classification; reachability of each listed panic by computed witnesses |
| C30 | structural induction over trees and JSON values; a table of forms (SpecForm) checked row by row |
| C33 | structural induction on the conversions; `names` functions in the spec |
| C34 | false of the code after look-ahead (`restore_state`) in its exact form; bounds proved where true |
| C37 | `PrintProofs.v`: mutual induction over expressions, functions and statements: a printed phrase is derivable in the grammar `gr` at every quiet mode, with the tree it denotes; then C45 |
| C38 | pass over all token constructors |
| C39–C42 | corollaries of pass V (slots, operators, yield/await, names in declared patterns) |
| C43 | case analysis of the wasm entry points on top of C30, injectivity of the debug text |
| C46 | `ErrorsProofs.v`: the escape texts form a prefix-free code; digits are terminated by non-digits; kinds have pairwise different texts |
| C44 | spelling pass |
| C45 | forward simulation over the grammar |
| C47 | relational pass (below): the run of the module entry point simulates the run of the script entry point |
| C48 | relational pass with positions shifted; `ScanShift.v`: the scanner run on the same text at another place (both directions) |
| C49 | relational pass with lines and columns kept; `ScanLocal.v`, `RelayScan.v`: each scanner function reads the same token whatever follows, as long as a separator or the same character does |
| C50 | blame pass; `reported` in SpecBlame |
| C51 | blame pass; goodness of a tree is inherited by its parts (`BlameTree.v`) |
| C52 | `ScanCol.v`: every scanner function moves the column as `column` says |
| C53 | spelling pass with the marker stack as ghost state: a simple part leaves the stack as it found it and its span starts with the marker it pushed |
| C54 | error half of the relational pass and of `ScanShift.v`, both directions; the panic part by exclusion (C14) |
| C55 | error half of the relational pass along the scanner calls that were answered before the error (`ranx`); the last call may fail: `next_relay_err`, from `ScanShift.v` |
| C56 | `BuildProofs.v`: every function of the model run in two environments that differ in `checked` and `usize_max` (`ag`), function by function, then induction on the fuel of `run`; C28 for the release half |
| C57 | `UcdProofs.v`: one call of the scanner with two tables that agree on the unread text; the agreement pass of C56 again, with the unread text as invariant |
| C58 | as C37, for whole programs; the parenthesised program satisfies `fits` (levels, first tokens, dangling else), and on programs that fit the printer adds nothing. The unambiguity is a corollary: two programs printed alike are parsed once |
| C59 | `SizeProofs.v`: by C43 the tokens of the source spell the tree; by induction on the tree every part has at most three times the tokens it spells (a part needs a token of its own, or its only child is of another syntactic class), and each real token takes a character |
| C60 | `RenRel.v`-`RenTop.v`: as for C33 and C49, two runs of the parser in lock step, the second on tokens whose texts are mapped by the renaming: every test the parser makes on a text is against a listed word, which the renaming neither makes nor unmakes; `RenProofs.v`: the scanner on the renamed text makes the mapped tokens (C08 forward for names, C49 for the others, the longest match for a punctuator before another name); `RenErrors.v`: the same for rejected sources, and the scanner's own errors quote no token |
| C61 | `UnparseProofs.v`: the words of a JSON object are a function of what is seen of its fields, so they do not depend on positions (induction on parts); for the tree of a program they are the program's printed words (induction on programs); C58 says which tree is returned |
| C62 | `PrintModProofs.v`: the tokens of a printed module are a module of the grammar (`SpecGrammar.a_module`) with the denoted tree, by cases on items and the phrases of C58; `GramMod.module_parses` does the rest |
| C63 | `UnparseModProofs.v`: as C61, by cases on items; an exported expression does not begin with the word function or class (induction on expressions) |
| C64 | `FormatProofs.v`: what is told is a proper program (induction on the syntax), so C58/C62 apply to the text of C61/C63, and it denotes the same tree |

## 5. Trusted base

Coq 8.16.1 kernel (and `vm_compute` for the witnesses), the reading of the Rust source documented by the line citations, the
specification files (`Spec*.v`).

## 6. Assumptions

`Print Assumptions` is run on every theorem of the `Props*.v` files; each answer is "Closed under the global context": no axiom of the
standard library or of any other library is used. (The `Coq.ssr.ssrunder` names that vcheck lists are fields of a module type
of the standard library's ssreflect plugin that is loaded by the standard library; no theorem depends on them.) Hypotheses of theorems about
the external world are stated in the theorems: `ucd_sane E` (of ASCII only letters start identifiers according to the `ucd` crate, white space and
line terminators do not) and, for C37, that a space does not continue an identifier.
