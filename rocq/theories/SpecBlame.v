(** * SpecBlame: what an error of the parser refers to (C50).  Only definitions. *)
From Verif Require Import Base Punct Token Scanner Ast SpecLex SpecSpell.

(** The text an error shows for a token: its name, punctuator or value; the end of
    input is shown as [null]. *)
Definition shown (E : env) (t : token) : str :=
  match tval t with VStr s => s | VNum x => f64_show E x | VPunc p => s2l (p_spell p) | VNull => s2l "null" end.
(** An assignment operator; the parser also takes [==] for one, when it follows the
    body of an arrow function (a defect: [x => {} == 1]). *)
Definition assigning (t : token) : Prop :=
  exists p, is_p p t /\ In p [Assign; PlusAssign; MinusAssign; StarAssign; SlashAssign; ModAssign; PowAssign; LShiftAssign; RShiftAssign;
    ZRShiftAssign; BitAndAssign; BitOrAssign; BitXorAssign; Equal].
Definition last_is (P : token -> Prop) (ts : list token) : Prop := exists us u, ts = us ++ [u] /\ P u.
Definition either {A} (P Q : A -> Prop) (a : A) : Prop := P a \/ Q a.

(** [explains E ts t us k]: an error of kind [k] may be reported at the token [t], which
    comes after the tokens [ts]; [us] are tokens after it. *)
Definition explains (E : env) (ts : list token) (t : token) (us : list token) (k : errtype) : Prop :=
  match k with
  | UnexpectedToken s => s = shown E t
  | IllegalReturn => is_k "return" t
  | MultipleDefaultsInSwitch => is_k "default" t
  | StrictWith => is_k "with" t
  | StrictFunction => is_k "function" t
  | GeneratorInSingleStatementContext => is_p Star t
  | MissingFunctionName => is_p LParen t /\ last_is (either (is_k "function") (is_p Star)) ts
  | InvalidLhsInFor => is_k "in" t
  | InvalidLhsInAssignment => assigning t
  | InvalidLhsInPrefixOp => last_is (either (is_p Inc) (is_p Dec)) ts
  | InvalidLhsInPostfixOp => last_is (either (is_p Inc) (is_p Dec)) us
  | UnexpectedTemplateString => ttype t = TTemplate /\ thead t <> Some true
  | YieldInParameter => is_k "yield" t
  | AwaitExpressionFormalParameter => is_k "await" t
  | UnexpectedStrictReserved => exists w, tval t = VStr (s2l w) /\ In w ["implements"; "interface"; "package"; "private"; "protected"; "public"]%string
  (* the token after the offending one *)
  | NoIterationStatement => last_is (is_k "continue") ts
  | IllegalBreak => last_is (is_k "break") ts
  | NewlineAfterThrow => last_is (fun u => is_k "throw" u /\ tline u < tline t) ts
  | UnexpectedReserved => last_is (fun u => ttype u = TKeyword) ts
  (* after a pattern or (for let and const in the head of a loop) at its beginning *)
  | MissingInitializer => last_is (either (is_p RBracket) (is_p RBrace)) ts \/
      either (is_p LBracket) (is_p LBrace) t /\ last_is (either (is_k "const") (is_w "let")) ts
  (* after the parameters of an arrow function *)
  | ParamAfterRest | InvalidDestructuringTarget => last_is (is_p RParen) ts
  | _ => False
  end.

(** What tells the parser to take an expression for a pattern: an assignment, the
    parameters of an arrow function or the head of a for-in loop. *)
Definition pattern_end (ts : list token) : Prop :=
  exists us b c, ts = us ++ [b; c] /\ (is_p Assign b \/ is_p RParen b \/ is_k "in" c).

(** [ts] are the first tokens of [src], with their right positions (but for the
    lines after a look-ahead). *)
Definition scanned (E : env) (src : str) (ts : list token) : Prop :=
  exists r, tiles E ts src r /\ (Exists peeked ts \/ laid E [] ts src r).

(** Where an error comes from. *)
Inductive reported (E : env) (src : str) (e : error) : Prop :=
| at_token ts t us : scanned E src (ts ++ t :: us) ->
    err_line e = tline t -> err_col e = tcol t -> explains E ts t us (err_type e) -> reported E src e
(** The text after the tokens [ts] does not begin with a token. *)
| in_scanner ts s g : tiles E ts src (rest s) -> s_next E g s = RErr e ->
    Exists peeked ts \/ (exists gs, s_nexts E gs (s_new src) = ROk ts s) /\ (err_type e = UnexpectedEOS -> err_line e = 1 + breaks src []) ->
    In (err_type e) [InvalidOrUnexpectedToken; InvalidUnicodeEscapeSequence; UnexpectedEOS] -> reported E src e
(** An expression is taken for a pattern and contains a part, beginning at the token
    [t], that cannot be one. *)
| in_pattern ts t us : scanned E src (ts ++ [t]) -> err_line e = tline t -> err_col e = tcol t ->
    scanned E src us -> pattern_end us ->
    In (err_type e) [InvalidOrUnexpectedToken; ParamAfterRest; InvalidLhsInAssignment] -> reported E src e.

Definition seen (E : env) (src : str) (m : marker) : Prop := exists ts t, scanned E src (ts ++ [t]) /\ m = place t.
(** The span begins at the token [t] and ends behind the same or a later token [u];
    [r] is the text after [u].  (After a look-ahead the end may be wrong: a defect.) *)
Definition covers (E : env) (src : str) (sp : span) : Prop :=
  seen E src (sp_start sp) /\
  exists ts t us u r, tiles E (ts ++ t :: us) src r /\ last_is (eq u) (t :: us) /\ sp_start sp = place t /\
    (Exists peeked (ts ++ t :: us) \/
     laid E [] (ts ++ t :: us) src r /\ sp_end sp = mkMarker (tline u) (tcol u) (N.of_nat (length src) - N.of_nat (length r))).
