(** * Token: tokens, token values and token classification
    (token/token.rs, token/value.rs, parser/syntax.rs). *)
From Verif Require Import Base Punct.

(** token.rs:5-16 *)
Inductive tokentype :=
| TBoolean | TIdentifier | TKeyword | TNull | TNumeric | TString | TPunctuator | TRegExp | TTemplate | TEof.

Definition tt_eqb (a b : tokentype) : bool :=
  match a, b with
  | TBoolean, TBoolean | TIdentifier, TIdentifier | TKeyword, TKeyword | TNull, TNull
  | TNumeric, TNumeric | TString, TString | TPunctuator, TPunctuator | TRegExp, TRegExp
  | TTemplate, TTemplate | TEof, TEof => true
  | _, _ => false
  end.

(** value.rs:6-11 *)
Inductive value := VStr (s : str) | VNum (n : num) | VPunc (p : punct) | VNull.

(** token.rs:19-32 *)
Record token := mkToken {
  ttype : tokentype;
  tval : value;
  tpattern : option str;
  tflags : option (list N);
  toctal : option bool;
  tcooked : option str;
  thead : option bool;
  ttail : option bool;
  tline : N;
  tcol : N;
  tstart : N;
  tend : N
}.

(** value.rs:13-22 [From<&Value> for String] *)
Definition value_show (E : env) (v : value) : str :=
  match v with
  | VStr s => s
  | VNum x => f64_show E x
  | VPunc p => p_to_string p
  | VNull => s2l "null"
  end.

(** value.rs:25-30 [string]; value.rs:32-37 [punc] *)
Definition v_string (v : value) : option str := match v with VStr s => Some s | _ => None end.
Definition v_punc (v : value) : option punct := match v with VPunc p => Some p | _ => None end.

(** syntax.rs:33-39 [to_string]; [None] = panic *)
Definition t_to_string (t : token) : option str :=
  match tval t with VStr s => Some s | VPunc p => Some (p_to_string p) | _ => None end.

(** syntax.rs:41-47 [to_str]; [None] = panic *)
Definition t_to_str (t : token) : option str :=
  match tval t with VStr s => Some s | VPunc p => Some (p_to_str p) | _ => None end.

(** syntax.rs:49-54 *)
Definition matches_str (t : token) (v : string) : bool :=
  match tval t with VStr s => str_eqb s (s2l v) | _ => false end.

(** syntax.rs:56-61.  The Rust argument is a spelling converted with
    [Punctuator::from]; here the punctuator itself (all call sites but one pass
    a legal literal; the illegal one, "`" at parser.rs:3730, is modelled at its
    call site). *)
Definition matches_punc (t : token) (p : punct) : bool :=
  match tval t with VPunc q => punct_eqb q p | _ => false end.

(** syntax.rs:70-87 *)
Definition is_assign_op (t : token) : bool :=
  match tval t with VPunc p => p_is_assign_op p | _ => false end.

(** syntax.rs:89-116, on the punctuator *)
Definition p_is_bin_op (p : punct) : bool :=
  match p with
  | LAngle | RAngle | LEqual | GEqual | Equal | NEqual | StrictEqual | StrictNEqual | Plus | Minus
  | Star | Slash | Mod | LShift | RShift | ZRShift | BitAnd | BitOr | BitXor | LogicalAnd | LogicalOr => true
  | _ => false
  end.
(** syntax.rs:89-116 *)
Definition is_bin_op (t : token) : bool :=
  match ttype t with
  | TPunctuator => match tval t with VPunc p => p_is_bin_op p | _ => false end
  | TKeyword => matches_str t "in" || matches_str t "instanceof"
  | _ => false
  end.

(** syntax.rs:118-135; [None] = panic of [to_str] on a keyword without text *)
Definition is_unary_op (has_await : bool) (t : token) : option bool :=
  let unary_punc := match tval t with
    | VPunc Plus | VPunc Minus | VPunc Tilde | VPunc Bang => true | _ => false end in
  match ttype t with
  | TKeyword =>
    match t_to_str t with
    | Some s => Some (unary_punc || str_eqb s (s2l "delete") || str_eqb s (s2l "void")
                      || str_eqb s (s2l "typeof") || (str_eqb s (s2l "await") && has_await))
    | None => None
    end
  | _ => Some unary_punc
  end.

(** syntax.rs:136-141 *)
Definition is_update_op (t : token) : bool :=
  match tval t with VPunc Inc | VPunc Dec => true | _ => false end.

(** syntax.rs:143-165, on the punctuator *)
Definition p_precedence (p : punct) : N :=
  match p with
  | LogicalOr => 1
  | LogicalAnd => 2
  | BitOr => 3
  | BitXor => 4
  | BitAnd => 5
  | Equal | NEqual | StrictEqual | StrictNEqual => 6
  | LAngle | RAngle | LEqual | GEqual => 7
  | LShift | RShift | ZRShift => 8
  | Plus | Minus => 9
  | Star | Slash => 10
  | Mod => 11
  | _ => 0
  end.
(** syntax.rs:143-170 *)
Definition precedence (has_in : bool) (t : token) : N :=
  match ttype t with
  | TPunctuator => match tval t with VPunc p => p_precedence p | _ => 0 end
  | TKeyword => if matches_str t "instanceof" then 7
                else if matches_str t "in" && has_in then 7 else 0
  | _ => 0
  end.

(** syntax.rs:172-179 *)
Definition is_iteration_kw (t : token) : bool :=
  match ttype t with
  | TKeyword => matches_str t "do" || matches_str t "while" || matches_str t "for"
  | _ => false
  end.

(** syntax.rs:181-188 *)
Definition is_hoistable_dclr_kw (t : token) : bool :=
  match ttype t with
  | TIdentifier | TKeyword => matches_str t "async" || matches_str t "function"
  | _ => false
  end.

(** syntax.rs:190-197 *)
Definition is_lexical_dclr_kw (t : token) : bool :=
  match ttype t with
  | TIdentifier | TKeyword => matches_str t "let" || matches_str t "const"
  | _ => false
  end.

(** syntax.rs:199-206 *)
Definition is_lexical_dclr_or_var_kw (t : token) : bool :=
  match ttype t with
  | TIdentifier | TKeyword => matches_str t "let" || matches_str t "const" || matches_str t "var"
  | _ => false
  end.

(** syntax.rs:208-217 *)
Definition is_dclr_kw (t : token) : bool :=
  if is_hoistable_dclr_kw t || is_lexical_dclr_kw t then true
  else match ttype t with TKeyword => matches_str t "class" | _ => false end.

(** syntax.rs:219-224; [None] = panic of [to_str] *)
Definition is_strict_reserved_kw (t : token) : option bool :=
  match t_to_str t with
  | Some s => Some (existsb (fun w => str_eqb s (s2l w))
      ["implements"; "interface"; "package"; "private"; "protected"; "public"]%string)
  | None => None
  end.
