(** * Base: characters, strings, environment, results and the state monad.

    Rust [char] is modelled by its scalar value (type [N]); a Rust [String] or
    [Vec<char>] by the list of its characters.  Everything that the program
    takes from outside the repository (the [ucd] crate's Unicode tables, the
    decimal printing of [f64], and the build mode: overflow checks on/off and
    the width of [usize]) is an explicit record [env] over which every theorem
    quantifies; nothing is assumed about it except where a hypothesis says so. *)
From Coq Require Export String Ascii Bool NArith ZArith Lia List.
Export ListNotations.
Set Implicit Arguments.

Open Scope N_scope.
Open Scope list_scope.

Definition str := list N.

(** Conversion of Coq string literals to model strings (modelling device). *)
Definition s2l (s : string) : str := map N_of_ascii (list_ascii_of_string s).

(** [chr "x"] is the code of an ASCII character, as a literal numeral. *)
Notation "'chr' a" := (ltac:(let v := eval vm_compute in (N_of_ascii a%char) in exact v))
  (at level 9, a at level 0, only parsing).

Fixpoint str_eqb (a b : str) : bool :=
  match a, b with
  | [], [] => true
  | x :: a', y :: b' => (x =? y) && str_eqb a' b'
  | _, _ => false
  end.

(** Exact decimal numbers [mant * 10^expo], i.e. the value of a numeric literal
    BEFORE the final rounding to f64 (simplification: f64 rounding, done by
    Rust's [str::parse::<f64>] and [i64 as f64], is not modelled; it is a
    function of this exact value). *)
Record num := mkNum { mant : N; expo : Z }.

(** External world.
    - [ucd_start], [ucd_continue]: the [ucd] crate's [is_id_start]/[is_id_continue].
    - [f64_show]: Rust's [f64::to_string] composed with rounding.
    - [checked]: overflow checks on (debug build: overflow panics) or off
      (release build: wraps).
    - [usize_max]: the largest usize. *)
Record env := mkEnv {
  ucd_start : N -> bool;
  ucd_continue : N -> bool;
  f64_show : num -> str;
  checked : bool;
  usize_max : N
}.

(** errors/errors.rs:97-126 *)
Inductive errtype :=
| UnexpectedToken (s : str)
| UnexpectedReserved
| IllegalReturn
| MissingInitializer
| InvalidLhsInFor
| MultipleDefaultsInSwitch
| NoIterationStatement
| IllegalBreak
| StrictWith
| StrictFunction
| NewlineAfterThrow
| GeneratorInSingleStatementContext
| MissingFunctionName
| InvalidLhsInAssignment
| UnexpectedTokenUnaryExponentiation
| InvalidLhsInPostfixOp
| InvalidLhsInPrefixOp
| ParamAfterRest
| InvalidDestructuringTarget
| UnexpectedTemplateString
| YieldInParameter
| AwaitExpressionFormalParameter
| UnexpectedEOS
| InvalidOrUnexpectedToken
| InvalidUnicodeEscapeSequence
| InvalidRestBindingPattern
| UnexpectedStrictReserved.

(** errors/errors.rs:90-95 *)
Record error := mkError { err_line : N; err_col : N; err_type : errtype }.

(** Panic sites (every [unwrap], [panic!], [unreachable!], [unimplemented!] and
    overflow-checked operation of the modelled code). *)
Inductive panic :=
| P_FirstToken         (* parser.rs:84-86  unwrap of the first token *)
| P_EofUnderflow       (* scanner.rs:1007  current - 1 with current = 0, checked build *)
| P_UnterminatedTemplate (* scanner.rs:657,692 *)
| P_EscapeOverflow     (* scanner.rs:212   u32 overflow in \u{...}, checked build *)
| P_UnsavedState       (* scanner.rs:1063 *)
| P_BadPunctuator      (* punctuators.rs:277 from inside the scanner *)
| P_ScanUnwrap         (* scanner.rs:156,182,365,368,415,621 consume().unwrap() *)
| P_ImportString       (* parser.rs:238 unimplemented!() *)
| P_AsyncBacktick      (* parser.rs:3730 Punctuator::from("`") *)
| P_ToStr              (* syntax.rs:45 from is_strict_reserved_kw *)
| P_ToStrUnary         (* syntax.rs:45 from is_unary_op *)
| P_ToString           (* syntax.rs:37 *)
| P_ValueToKey         (* parser.rs: value_to_key panic *)
| P_Marker             (* parser.rs: end_span/peek_span on an empty marker stack *)
| P_PatternUnderflow   (* estree.rs:1265 elements.len() - 1, checked build *)
| P_RestoreParams      (* parser.rs restore_params on an empty stack *)
| P_ToNode             (* estree.rs conversions to_node *)
| P_ToId               (* estree.rs to_id *)
| P_ExprSpan           (* estree.rs expr_span *)
| P_TokenUnwrap        (* parser.rs unwraps of token attributes *)
| P_Unreachable        (* parser.rs unreachable!() *).

(** Result of running a piece of the program.  [RFuel] is not a program
    behaviour: it says the model's recursion bound was too small; theorems
    prove it never happens from the entry points. *)
Inductive res (S A : Type) : Type :=
| ROk (a : A) (s : S)
| RErr (e : error)
| RPanic (p : panic)
| RFuel.
Arguments ROk {S A}. Arguments RErr {S A}. Arguments RPanic {S A}. Arguments RFuel {S A}.

(** State monad; the state after an error is not observable (the public API
    returns only the error), so it is dropped. *)
Definition M (S A : Type) := S -> res S A.

Definition ret {S A} (a : A) : M S A := fun s => ROk a s.
Definition bind {S A B} (m : M S A) (k : A -> M S B) : M S B := fun s =>
  match m s with
  | ROk a s' => k a s'
  | RErr e => RErr e
  | RPanic p => RPanic p
  | RFuel => RFuel
  end.
Definition get {S} : M S S := fun s => ROk s s.
Definition put {S} (s : S) : M S unit := fun _ => ROk tt s.
Definition modify {S} (f : S -> S) : M S unit := fun s => ROk tt (f s).
Definition gets {S A} (f : S -> A) : M S A := fun s => ROk (f s) s.
Definition fail {S A} (e : error) : M S A := fun _ => RErr e.
Definition crash {S A} (p : panic) : M S A := fun _ => RPanic p.
Definition nofuel {S A} : M S A := fun _ => RFuel.
(** [ok_or p o]: Rust's [o.unwrap()] with panic site [p]. *)
Definition unwrap {S A} (p : panic) (o : option A) : M S A :=
  match o with Some a => ret a | None => crash p end.

Declare Scope monad_scope.
Delimit Scope monad_scope with monad.
Notation "x <- m ;; k" := (bind m (fun x => k))
  (at level 61, m at next level, right associativity) : monad_scope.
Notation "' p <- m ;; k" := (bind m (fun x => let p := x in k))
  (at level 61, p pattern, m at next level, right associativity) : monad_scope.
Notation "m ;;; k" := (bind m (fun _ => k))
  (at level 61, right associativity) : monad_scope.
Open Scope monad_scope.

Definition is_some {A} (o : option A) : bool :=
  match o with Some _ => true | None => false end.
