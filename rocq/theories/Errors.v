(** * Errors: the texts of errors (the [Display] impl of errors/errors.rs and the
    derived [Debug], which giron-wasm hands to JavaScript). *)
From Verif Require Import Base.
From Coq Require Import Decimal Hexadecimal.

(** errors/errors.rs:128-167: the text shown to users; the position is not part of it. *)
Definition display (e : error) : str :=
  match err_type e with
  | UnexpectedToken s => s2l "Unexpected token " ++ s
  | UnexpectedReserved => s2l "Unexpected reserved word"
  | IllegalReturn => s2l "Illegal return statement"
  | MissingInitializer => s2l "Missing initializer in destructuring declaration"
  | InvalidLhsInFor => s2l "Invalid left-hand side in for-loop"
  | MultipleDefaultsInSwitch => s2l "More than one default clause in switch statement"
  | NoIterationStatement => s2l "Illegal continue statement: no surrounding iteration statement"
  | IllegalBreak => s2l "Illegal break statement"
  | StrictWith => s2l "Strict mode code may not include a with statement"
  | StrictFunction => s2l "In strict mode code, functions can only be declared at top level or inside a block."
  | NewlineAfterThrow => s2l "Illegal newline after throw"
  | GeneratorInSingleStatementContext => s2l "Generators can only be declared at the top level or inside a block."
  | MissingFunctionName => s2l "Function statements require a function name"
  | InvalidLhsInAssignment => s2l "Invalid left-hand side in assignment"
  | UnexpectedTokenUnaryExponentiation =>
      s2l "Unary operator used immediately before exponentiation expression. Parenthesis must be used to disambiguate operator precedence"
  | InvalidLhsInPostfixOp => s2l "Invalid left-hand side expression in postfix operation"
  | InvalidLhsInPrefixOp => s2l "Invalid left-hand side expression in prefix operation"
  | ParamAfterRest => s2l "Rest parameter must be last formal parameter"
  | InvalidDestructuringTarget => s2l "Invalid destructuring assignment target"
  | UnexpectedTemplateString => s2l "Unexpected template string"
  | YieldInParameter => s2l "Yield expression not allowed in formal parameter"
  | AwaitExpressionFormalParameter => s2l "Illegal await-expression in formal parameters of async function"
  | UnexpectedEOS => s2l "Unexpected end of input"
  | InvalidOrUnexpectedToken => s2l "Invalid or unexpected token"
  | InvalidUnicodeEscapeSequence => s2l "Invalid Unicode escape sequence"
  | InvalidRestBindingPattern => s2l "`...` must be followed by an identifier in declaration contexts"
  | UnexpectedStrictReserved => s2l "Unexpected strict mode reserved word"
  end.

(** Rust's formatting of [usize] and of the code in [\u{..}]: decimal and
    lower-case hexadecimal digits without leading zeros. *)
Fixpoint dec_text (u : Decimal.uint) : str :=
  match u with
  | Decimal.Nil => []
  | Decimal.D0 u => 48 :: dec_text u | Decimal.D1 u => 49 :: dec_text u | Decimal.D2 u => 50 :: dec_text u
  | Decimal.D3 u => 51 :: dec_text u | Decimal.D4 u => 52 :: dec_text u | Decimal.D5 u => 53 :: dec_text u
  | Decimal.D6 u => 54 :: dec_text u | Decimal.D7 u => 55 :: dec_text u | Decimal.D8 u => 56 :: dec_text u
  | Decimal.D9 u => 57 :: dec_text u
  end.
Definition show_usize (n : N) : str := dec_text (N.to_uint n).
Fixpoint hex_text (u : Hexadecimal.uint) : str :=
  match u with
  | Nil => []
  | D0 u => 48 :: hex_text u | D1 u => 49 :: hex_text u | D2 u => 50 :: hex_text u | D3 u => 51 :: hex_text u
  | D4 u => 52 :: hex_text u | D5 u => 53 :: hex_text u | D6 u => 54 :: hex_text u | D7 u => 55 :: hex_text u
  | D8 u => 56 :: hex_text u | D9 u => 57 :: hex_text u | Da u => 97 :: hex_text u | Db u => 98 :: hex_text u
  | Dc u => 99 :: hex_text u | Dd u => 100 :: hex_text u | De u => 101 :: hex_text u | Df u => 102 :: hex_text u
  end.

(** Facts of the Rust standard library in use, which differ between releases: which
    characters [Debug] prints as they are, whether NUL is written [\0] (and not
    [\u{0}]), and whether the apostrophe is escaped inside a string. *)
Record rustfmt := mkFmt { printable : N -> bool; short_nul : bool; quote_apostrophe : bool }.

(** [char::escape_debug], as used by [Debug for str] *)
Definition escape (F : rustfmt) (c : N) : str :=
  if (c =? 0) && short_nul F then s2l "\0"
  else if c =? 9 then s2l "\t"
  else if c =? 10 then s2l "\n"
  else if c =? 13 then s2l "\r"
  else if c =? 34 then [92; 34]
  else if c =? 92 then [92; 92]
  else if (c =? 39) && quote_apostrophe F then [92; 39]
  else if printable F c then [c]
  else s2l "\u{" ++ hex_text (N.to_hex_uint c) ++ s2l "}".
(** [Debug for String] *)
Definition debug_str (F : rustfmt) (s : str) : str := 34 :: concat (map (escape F) s) ++ [34].

(** errors/errors.rs:97: derived [Debug] of ErrorType *)
Definition debug_type (F : rustfmt) (t : errtype) : str :=
  match t with
  | UnexpectedToken s => s2l "UnexpectedToken(" ++ debug_str F s ++ s2l ")"
  | UnexpectedReserved => s2l "UnexpectedReserved"
  | IllegalReturn => s2l "IllegalReturn"
  | MissingInitializer => s2l "MissingInitializer"
  | InvalidLhsInFor => s2l "InvalidLhsInFor"
  | MultipleDefaultsInSwitch => s2l "MultipleDefaultsInSwitch"
  | NoIterationStatement => s2l "NoIterationStatement"
  | IllegalBreak => s2l "IllegalBreak"
  | StrictWith => s2l "StrictWith"
  | StrictFunction => s2l "StrictFunction"
  | NewlineAfterThrow => s2l "NewlineAfterThrow"
  | GeneratorInSingleStatementContext => s2l "GeneratorInSingleStatementContext"
  | MissingFunctionName => s2l "MissingFunctionName"
  | InvalidLhsInAssignment => s2l "InvalidLhsInAssignment"
  | UnexpectedTokenUnaryExponentiation => s2l "UnexpectedTokenUnaryExponentiation"
  | InvalidLhsInPostfixOp => s2l "InvalidLhsInPostfixOp"
  | InvalidLhsInPrefixOp => s2l "InvalidLhsInPrefixOp"
  | ParamAfterRest => s2l "ParamAfterRest"
  | InvalidDestructuringTarget => s2l "InvalidDestructuringTarget"
  | UnexpectedTemplateString => s2l "UnexpectedTemplateString"
  | YieldInParameter => s2l "YieldInParameter"
  | AwaitExpressionFormalParameter => s2l "AwaitExpressionFormalParameter"
  | UnexpectedEOS => s2l "UnexpectedEOS"
  | InvalidOrUnexpectedToken => s2l "InvalidOrUnexpectedToken"
  | InvalidUnicodeEscapeSequence => s2l "InvalidUnicodeEscapeSequence"
  | InvalidRestBindingPattern => s2l "InvalidRestBindingPattern"
  | UnexpectedStrictReserved => s2l "UnexpectedStrictReserved"
  end.
(** errors/errors.rs:90: derived [Debug] of Error *)
Definition debug (F : rustfmt) (e : error) : str :=
  s2l "Error { line: " ++ show_usize (err_line e) ++ s2l ", col: " ++ show_usize (err_col e)
  ++ s2l ", errortype: " ++ debug_type F (err_type e) ++ s2l " }".
