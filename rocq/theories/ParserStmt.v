(** * ParserStmt: statements and declarations (parser/parser.rs:511-1557, 1874-1903). *)
From Verif Require Import Base Codepoint Punct Token Scanner Ast Convert ParserBase ParserExpr.

Section Step.
Context (E : env) (n : nat) (h : handler).

Notation adv := (advance E GRegExp).
Notation eat p := (consume_p E p GRegExp).
Notation kw k := (consume_kw E k GRegExp).
Notation semi := (consume_semicolon E GRegExp).
Notation unexp := (unexpected_current E).
Notation expr_in := (with_in true (parse_expression E n h)).
Notation assign_expr := (parse_assignment_expr E n h).

(** parser.rs:1467-1557 (1498: the test on [has_line_terminator] as it stands) *)
Definition parse_function_dclr (async allow_generator : bool) : PM node :=
  lt <- gets has_lt ;;
  if async && negb lt then unexp else
  (if async then ret tt else start_span) ;;;
  kw "function" ;;;
  t <- getcur ;;
  generator <- (if tok_punc t Star then
                  if negb allow_generator then error_current E GeneratorInSingleStatementContext
                  else adv ;;; ret true
                else ret false) ;;
  t' <- getcur ;;
  p <- gets prm ;;
  id <- (if tok_punc t' LParen then
           if negb (has_default p) then error_current E MissingFunctionName else ret None
         else i <- binding_id_node E ;; ret (Some i)) ;;
  '(ps, body) <- params_and_body E n h generator async ;;
  sp <- end_span ;;
  ret (FunctionDeclaration id ps body generator false async sp).

(** parser.rs:1447-1465 *)
Definition parse_hoistable_dclr : PM node :=
  t <- getcur ;;
  if tok_id t "async" then
    start_span ;;;
    adv ;;;
    parse_function_dclr true true
  else if tok_kw t "function" then parse_function_dclr false true
  else unexp.

(** parser.rs:703-720 *)
Definition parse_variable_dclr : PM var_declarator :=
  id <- parse_binding_id_or_pat E n h ;;
  t <- getcur ;;
  init <- (if tok_punc t Assign then
             adv ;;; e <- assign_expr ;; ret (Some e)
           else match id with
           | B_Id _ _ => ret None
           | _ => tok <- adv ;; error_tok tok MissingInitializer
           end) ;;
  ret (VarDeclarator id init).

(** "dclr {, dclr}" (parser.rs:689-693, 1892-1896) *)
Definition variable_dclr_list : PM (list var_declarator) :=
  d <- parse_variable_dclr ;;
  ds <- parse_while_punc n Comma (comma_then E parse_variable_dclr) ;;
  ret (d :: ds).

(** parser.rs:673-701 *)
Definition parse_variable_stmt (consume_var : bool) : PM node :=
  start_span ;;;
  (if consume_var then kw "var" ;;; ret tt else ret tt) ;;;
  declarations <- with_in true variable_dclr_list ;;
  semi ;;;
  sp <- end_span ;;
  ret (VariableDeclaration declarations "var" sp).

(** parser.rs:1874-1903 *)
Definition parse_lexical_dclr : PM node :=
  start_span ;;;
  t <- getcur ;;
  kind <- (if tok_is t TIdentifier then consume_id E "let" GRegExp ;;; ret "let"%string
           else if tok_is t TKeyword then kw "const" ;;; ret "const"%string
           else unexp) ;;
  declarations <- variable_dclr_list ;;
  semi ;;;
  sp <- end_span ;;
  ret (VariableDeclaration declarations kind sp).

(** parser.rs:511-525 *)
Definition parse_declaration : PM node :=
  t <- getcur ;;
  if tok_is t TKeyword && is_hoistable_dclr_kw t then with_default false parse_hoistable_dclr
  else if tok_kw t "class" then with_default false (parse_class_dclr E n h)
  else if tok_is t TKeyword && is_lexical_dclr_kw t then with_in true parse_lexical_dclr
  else unexp.

(** parser.rs:657-671 *)
Definition parse_block_stmt : PM node :=
  start_span ;;;
  eat LBrace ;;;
  body <- parse_statement_list n h ;;
  eat RBrace ;;;
  sp <- end_span ;;
  ret (BlockStatement body sp).

(** parser.rs:722-729 *)
Definition parse_empty_stmt : PM node :=
  start_span ;;; eat Semicolon ;;; sp <- end_span ;; ret (EmptyStatement sp).

(** parser.rs:731-736 *)
Definition parse_expression_stmt (expression : node) : PM node :=
  sp <- end_span ;;
  semi ;;;
  ret (ExpressionStatement expression sp).

(** parser.rs:738-768 *)
Definition parse_if_stmt : PM node :=
  start_span ;;;
  kw "if" ;;;
  eat LParen ;;;
  test <- expr_in ;;
  eat RParen ;;;
  consequent <- h_statement h ;;
  t <- getcur ;;
  alternate <- (if tok_kw t "else" then adv ;;; s <- h_statement h ;; ret (Some s) else ret None) ;;
  sp <- end_span ;;
  ret (IfStatement test consequent alternate sp).

(** [prev = ctx.in_iteration; ctx.in_iteration = true; parse_statement(); restore]
    (parser.rs:1046-1049, 1070-1073, 1094-1097, 1115-1118, 1136-1139) *)
Definition iteration_body : PM node :=
  c <- gets ctx ;;
  upd_ctx (ctx_in_iteration true) ;;;
  body <- h_statement h ;;
  upd_ctx (ctx_in_iteration (in_iteration c)) ;;;
  ret body.

(** parser.rs:1025-1057 *)
Definition parse_for_classic_stmt (init : option node) : PM node :=
  eat Semicolon ;;;
  t <- getcur ;;
  test <- (if tok_punc t Semicolon then ret None else e <- expr_in ;; ret (Some e)) ;;
  eat Semicolon ;;;
  t' <- getcur ;;
  update <- (if tok_punc t' RParen then ret None else e <- expr_in ;; ret (Some e)) ;;
  eat RParen ;;;
  body <- iteration_body ;;
  sp <- end_span ;;
  ret (ForStatement init test update body sp).

(** parser.rs:1059-1081 *)
Definition parse_for_in_stmt (lhs : node) : PM node :=
  kw "in" ;;;
  rhs <- expr_in ;;
  eat RParen ;;;
  body <- iteration_body ;;
  sp <- end_span ;;
  ret (ForInStatement lhs rhs body false sp).

(** parser.rs:1083-1104 *)
Definition parse_for_of_stmt (lhs : node) : PM node :=
  consume_id E "of" GRegExp ;;;
  rhs <- with_in true assign_expr ;;
  eat RParen ;;;
  body <- iteration_body ;;
  sp <- end_span ;;
  ret (ForOfStatement lhs rhs body sp).

(** parser.rs:827-841, 855-869, 909-923, 937-951 *)
Definition for_declarations (kind : string) (id : binding) (init : option node) : PM node :=
  more <- parse_while_punc n Comma (comma_then E (with_in true parse_variable_dclr)) ;;
  sp <- end_span ;;
  parse_for_classic_stmt (Some (VariableDeclaration (VarDeclarator id init :: more) kind sp)).

(** parser.rs:819-875 *)
Definition for_var : PM node :=
  start_span ;;;
  adv ;;;
  id <- parse_binding_id_or_pat E n h ;;
  t <- getcur ;;
  if tok_punc t Assign then
    adv ;;;
    e <- with_in false assign_expr ;;
    for_declarations "var" id (Some e)
  else if tok_kw t "of" then l <- lift_c (binding_to_node id) ;; parse_for_of_stmt l
  else if tok_kw t "in" then l <- lift_c (binding_to_node id) ;; parse_for_in_stmt l
  else match id with
  | B_Id _ _ => for_declarations "var" id None
  | _ => error_current E MissingInitializer
  end.

(** parser.rs:876-961 *)
Definition for_lexical : PM node :=
  start_span ;;;
  t0 <- getcur ;;
  kind <- (if tok_kw t0 "const" then ret "const"%string
           else if tok_id t0 "let" then ret "let"%string
           else unexp) ;;
  adv ;;;
  t1 <- getcur ;;
  id <- parse_binding_id_or_pat E n h ;;
  t <- getcur ;;
  if tok_punc t Assign then
    adv ;;;
    e <- with_in false assign_expr ;;
    for_declarations kind id (Some e)
  else if tok_kw t "in" then l <- lift_c (binding_to_node id) ;; parse_for_in_stmt l
  else if tok_id t "of" then l <- lift_c (binding_to_node id) ;; parse_for_of_stmt l
  else match id with
  | B_Id _ _ => for_declarations kind id None
  | _ => err_at (tline t1) (tcol t1) MissingInitializer
  end.

(** parser.rs:981-990, 995-1004 *)
Definition for_target (expr : node) : PM node :=
  e <- (match expr with
        | ObjectExpression _ _ _ | ArrayExpression _ _ _ => lift_c (to_assignment_pattern E expr)
        | _ => ret expr
        end) ;;
  if not_assignable e then tok <- adv ;; error_tok tok InvalidLhsInFor else ret e.

(** parser.rs:962-1021 *)
Definition for_expression : PM node :=
  start_span ;;;
  t <- getcur ;;
  if tok_punc t Semicolon then parse_for_classic_stmt None
  else
    expr <- with_in false assign_expr ;;
    t' <- getcur ;;
    if tok_kw t' "in" then
      end_span ;;; l <- for_target expr ;; parse_for_in_stmt l
    else if tok_kw t' "of" then
      end_span ;;; l <- for_target expr ;; parse_for_of_stmt l
    else
      more <- parse_while_punc n Comma (comma_then E (with_in true assign_expr)) ;;
      sp <- end_span ;;
      parse_for_classic_stmt (Some (SequenceExpression (expr :: more) AInvalid sp)).

(** parser.rs:780-1023 *)
Definition parse_for_stmt : PM node :=
  start_span ;;;
  kw "for" ;;;
  eat LParen ;;;
  t <- getcur ;;
  if tok_kw t "var" then for_var
  else if (tok_is t TKeyword || tok_is t TIdentifier) && is_lexical_dclr_kw t then for_lexical
  else for_expression.

(** parser.rs:1106-1124 *)
Definition parse_while_stmt : PM node :=
  start_span ;;;
  kw "while" ;;;
  eat LParen ;;;
  test <- expr_in ;;
  eat RParen ;;;
  body <- iteration_body ;;
  sp <- end_span ;;
  ret (WhileStatement test body sp).

(** parser.rs:1126-1150 *)
Definition parse_do_while_stmt : PM node :=
  start_span ;;;
  kw "do" ;;;
  body <- iteration_body ;;
  kw "while" ;;;
  eat LParen ;;;
  test <- expr_in ;;
  eat RParen ;;;
  semi ;;;
  sp <- end_span ;;
  ret (DoWhileStatement body test sp).

(** parser.rs:770-778 *)
Definition parse_iteration_stmt : PM node :=
  t <- getcur ;;
  if tok_kw t "for" then parse_for_stmt
  else if tok_kw t "while" then parse_while_stmt
  else if tok_kw t "do" then parse_do_while_stmt
  else crash P_Unreachable.

(** parser.rs:1213-1224 *)
Fixpoint switch_consequent (k : nat) : PM (list node) :=
  match k with
  | O => nofuel
  | S k' =>
    t <- getcur ;;
    if tok_punc t RBrace then ret []
    else if tok_kw t "case" then ret []
    else if tok_kw t "default" then ret []
    else x <- h_item h ;; xs <- switch_consequent k' ;; ret (x :: xs)
  end.

(** parser.rs:1181-1195; the boolean is the new [first_default] *)
Definition switch_test (first_default : bool) : PM (option node * bool) :=
  t <- getcur ;;
  if tok_kw t "case" then adv ;;; e <- expr_in ;; ret (Some e, first_default)
  else if tok_kw t "default" && first_default then adv ;;; ret (None, false)
  else if tok_kw t "default" then error_current E MultipleDefaultsInSwitch
  else unexp.

(** parser.rs:1180-1203 *)
Fixpoint switch_cases (k : nat) (first_default : bool) : PM (list switch_case) :=
  match k with
  | O => nofuel
  | S k' =>
    '(test, fd) <- switch_test first_default ;;
    eat Colon ;;;
    consequent <- switch_consequent n ;;
    t <- getcur ;;
    if tok_punc t RBrace then ret [SwitchCase test consequent]
    else rest <- switch_cases k' fd ;; ret (SwitchCase test consequent :: rest)
  end.

(** parser.rs:1152-1211 *)
Definition parse_switch_stmt : PM node :=
  start_span ;;;
  kw "switch" ;;;
  c <- gets ctx ;;
  upd_ctx (ctx_in_switch true) ;;;
  eat LParen ;;;
  discriminant <- expr_in ;;
  eat RParen ;;;
  eat LBrace ;;;
  cases <- switch_cases n true ;;
  eat RBrace ;;;
  upd_ctx (ctx_in_switch (in_switch c)) ;;;
  sp <- end_span ;;
  ret (SwitchStatement discriminant cases sp).

(** parser.rs:1233-1238 = 1259-1264 *)
Definition jump_label : PM (option node) :=
  t <- getcur ;;
  lt <- gets has_lt ;;
  if (tok_is t TIdentifier || tok_is t TKeyword) && negb lt
  then i <- parse_id_reference E ;; ret (Some i)
  else ret None.

(** parser.rs:1226-1250 *)
Definition parse_continue_stmt : PM node :=
  start_span ;;;
  kw "continue" ;;;
  label <- jump_label ;;
  c <- gets ctx ;;
  if negb (is_some label) && negb (in_iteration c) then error_current E NoIterationStatement
  else
    semi ;;;
    sp <- end_span ;;
    ret (ContinueStatement label sp).

(** parser.rs:1252-1276 *)
Definition parse_break_stmt : PM node :=
  start_span ;;;
  kw "break" ;;;
  label <- jump_label ;;
  c <- gets ctx ;;
  if negb (is_some label) && (negb (in_iteration c) && negb (in_switch c)) then error_current E IllegalBreak
  else
    semi ;;;
    sp <- end_span ;;
    ret (BreakStatement label sp).

(** parser.rs:1278-1297 *)
Definition parse_return_stmt : PM node :=
  start_span ;;;
  kw "return" ;;;
  t <- getcur ;;
  lt <- gets has_lt ;;
  argument <- (if tok_punc t Semicolon then ret None
               else if negb lt then e <- expr_in ;; ret (Some e)
               else ret None) ;;
  semi ;;;
  sp <- end_span ;;
  ret (ReturnStatement argument sp).

(** parser.rs:546-553, 623-630 *)
Definition return_or_error : PM node :=
  p <- gets prm ;;
  if has_return p then parse_return_stmt
  else tok <- adv ;; error_tok tok IllegalReturn.

(** parser.rs:1299-1317 *)
Definition parse_with_stmt : PM node :=
  c <- gets ctx ;;
  if strict c then error_current E StrictWith
  else
    start_span ;;;
    kw "with" ;;;
    eat LParen ;;;
    object <- expr_in ;;
    eat RParen ;;;
    body <- h_statement h ;;
    sp <- end_span ;;
    ret (WithStatement object body sp).

(** parser.rs:1336-1354 (the [label: None] case of 1326-1335 has no caller) *)
Definition parse_labelled_stmt (label : identifier) : PM node :=
  eat Colon ;;;
  t <- getcur ;;
  c <- gets ctx ;;
  body <- (if tok_kw t "function" then
             if strict c then error_current E StrictFunction
             else with_default false (parse_function_dclr false false)
           else h_statement h) ;;
  sp <- end_span ;;
  ret (LabeledStatement label body sp).

(** parser.rs:642-655 *)
Definition parse_expression_or_labelled_stmt : PM node :=
  start_span ;;;
  expr <- expr_in ;;
  t <- getcur ;;
  match expr with
  | Identifier name _ sp =>
    if tok_punc t Colon then parse_labelled_stmt (mkId name sp) else parse_expression_stmt expr
  | _ => parse_expression_stmt expr
  end.

(** parser.rs:1357-1373 *)
Definition parse_throw_stmt : PM node :=
  start_span ;;;
  kw "throw" ;;;
  lt <- gets has_lt ;;
  if negb lt then
    argument <- expr_in ;;
    semi ;;;
    sp <- end_span ;;
    ret (ThrowStatement argument sp)
  else error_current E NewlineAfterThrow.

(** parser.rs:1404-1423 *)
Definition parse_catch_clause : PM (option catch_clause) :=
  t <- getcur ;;
  if tok_kw t "catch" then
    adv ;;;
    t' <- getcur ;;
    param <- (if tok_punc t' LParen then
                adv ;;;
                b <- parse_binding_id_or_pat E n h ;;
                eat RParen ;;;
                ret (Some b)
              else ret None) ;;
    body <- parse_block_stmt ;;
    ret (Some (CatchClause param body))
  else if tok_kw t "finally" then ret None
  else unexp.

(** parser.rs:1425-1435 *)
Definition parse_finally_clause : PM (option node) :=
  t <- getcur ;;
  if tok_kw t "finally" then adv ;;; b <- parse_block_stmt ;; ret (Some b) else ret None.

(** parser.rs:1375-1402 *)
Definition parse_try_stmt : PM node :=
  start_span ;;;
  kw "try" ;;;
  block <- parse_block_stmt ;;
  handler <- parse_catch_clause ;;
  finalizer <- parse_finally_clause ;;
  sp <- end_span ;;
  ret (TryStatement block handler finalizer sp).

(** parser.rs:1437-1445 *)
Definition parse_debugger_stmt : PM node :=
  start_span ;;; kw "debugger" ;;; semi ;;; sp <- end_span ;; ret (DebuggerStatement sp).

(** parser.rs:561-579 *)
Definition async_stmt : PM node :=
  start_span ;;;
  t <- getcur ;;
  nt <- lookahead E ;;
  if tok_kw nt "function" && (tline t =? tline nt) then with_default false parse_hoistable_dclr
  else end_span ;;; parse_expression_or_labelled_stmt.

(** parser.rs:532-593 *)
Definition parse_stmt_list_item : PM node :=
  t <- getcur ;;
  if tok_punc t LBrace then parse_block_stmt
  else if tok_punc t Semicolon then parse_empty_stmt
  else if tok_kw t "var" then parse_variable_stmt true
  else if tok_kw t "if" then parse_if_stmt
  else if tok_is t TKeyword && is_iteration_kw t then parse_iteration_stmt
  else if tok_kw t "switch" then parse_switch_stmt
  else if tok_kw t "continue" then parse_continue_stmt
  else if tok_kw t "break" then parse_break_stmt
  else if tok_kw t "return" then return_or_error
  else if tok_kw t "with" then parse_with_stmt
  else if tok_kw t "throw" then parse_throw_stmt
  else if tok_kw t "try" then parse_try_stmt
  else if tok_kw t "debugger" then parse_debugger_stmt
  else if tok_id t "async" then async_stmt
  else if (tok_is t TIdentifier || tok_is t TKeyword) && is_hoistable_dclr_kw t
       then with_default false parse_hoistable_dclr
  else if tok_kw t "class" then with_default false (parse_class_dclr E n h)
  else if (tok_is t TIdentifier || tok_is t TKeyword) && is_lexical_dclr_kw t
       then with_in true parse_lexical_dclr
  else parse_expression_or_labelled_stmt.

(** parser.rs:595-640 *)
Definition parse_statement : PM node :=
  t <- getcur ;;
  if tok_punc t LBrace then parse_block_stmt
  else if tok_kw t "var" then parse_variable_stmt true
  else if tok_punc t Semicolon then parse_empty_stmt
  else if tok_kw t "if" then parse_if_stmt
  else if tok_is t TKeyword && is_iteration_kw t then parse_iteration_stmt
  else if tok_kw t "switch" then parse_switch_stmt
  else if tok_kw t "continue" then parse_continue_stmt
  else if tok_kw t "break" then parse_break_stmt
  else if tok_kw t "return" then return_or_error
  else if tok_kw t "with" then parse_with_stmt
  else if tok_kw t "throw" then parse_throw_stmt
  else if tok_kw t "try" then parse_try_stmt
  else if tok_kw t "debugger" then parse_debugger_stmt
  else parse_expression_or_labelled_stmt.

End Step.
