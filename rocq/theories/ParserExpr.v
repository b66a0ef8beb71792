(** * ParserExpr: expressions, patterns, functions and classes
    (parser/parser.rs:146-170, 1559-1872, 1910-3796).

    The parser is a set of mutually recursive methods.  The model ties the knot
    with a record [handler] of the methods that are called "upwards"; everything
    else is an ordinary definition.  [n] bounds the iterations of the loops.
    Parser.v closes the recursion. *)
From Verif Require Import Base Codepoint Punct Token Scanner Ast Convert ParserBase.

Record handler := mkHandler {
  h_bindpat : PM binding;               (* parse_binding_id_or_pat *)
  h_lhs : PM node;                      (* parse_left_hand_side_expr *)
  h_new : PM node;                      (* parse_new_expr *)
  h_unary : PM node;                    (* parse_unary_expr *)
  h_exp : PM node;                      (* parse_exponentiation_expr *)
  h_climb : node -> N -> PM node;       (* precedence_climbing *)
  h_assign : PM node;                   (* parse_assignment_expr *)
  h_expression : PM node;               (* parse_expression *)
  h_statement : PM node;                (* parse_statement *)
  h_item : PM node                      (* parse_stmt_list_item *)
}.

(** parser.rs:27-30 *)
Inductive value_or_expr := VEValue (v : value) | VEExpr (e : node).

Section Step.
Context (E : env) (n : nat) (h : handler).

Notation adv := (advance E GRegExp).
Notation advd := (advance E GDiv).
Notation eat p := (consume_p E p GRegExp).
Notation unexp := (unexpected_current E).

Definition err_at {A} (l c : N) (t : errtype) : PM A := fail (mkError l c t).

(** [if !current.matches_punc(close) { consume(",") }] *)
Definition comma_unless (close : punct) : PM unit :=
  t <- getcur ;;
  if matches_punc t close then ret tt else eat Comma ;;; ret tt.

(** [with_in(true, parse_assignment_expr)], [with_in(true, parse_expression)] *)
Definition assign_in : PM node := with_in true (h_assign h).
Definition expression_in : PM node := with_in true (h_expression h).

(** Params { has_yield: y, has_await: a, ..self.params } *)
Definition ya (y a : bool) (p : params) : params := set_yield y (set_await a p).

(** ** Binding patterns *)

(** parser.rs:2932-2967 *)
Definition value_to_key (v : value_or_expr) (lit : bool) (sp : span) : PM prop_key :=
  match v with
  | VEExpr e => if lit then ret (PK_Expr e) else crash P_ValueToKey
  | VEValue v =>
    let s := value_show E v in
    if lit then ret (PK_Lit (mkLit v s sp))
    else if is_keyword s then
      p <- gets prm ;;
      if (negb (has_yield p) && str_eqb s (s2l "yield")) || (negb (has_await p) && str_eqb s (s2l "await"))
      then ret (PK_Id (mkId s sp))
      else unexp
    else ret (PK_Id (mkId s sp))
  end.

(** parser.rs:2864-2897: the value of a [key: pattern] property *)
Definition obj_pat_value (l c : N) (pattern : binding) : PM prop_value :=
  t <- getcur ;;
  if tok_punc t Assign then
    adv ;;;
    r <- assign_in ;;
    ret (PV_Assign pattern r)
  else match pattern with
  | B_Id name sp => ret (PV_BindId name sp)
  | B_Array es _ => ret (PV_ArrayPat es)
  | B_Object ps _ => ret (PV_ObjectPat ps)
  | B_Expr _ => err_at l c InvalidDestructuringTarget
  end.

(** parser.rs:2818-2832 *)
Definition obj_pat_key : PM value_or_expr :=
  t <- getcur ;;
  if tok_is t TIdentifier || tok_is t TKeyword || tok_is t TString || tok_is t TNumeric then
    t' <- adv ;; ret (VEValue (tval t'))
  else if tok_punc t LBracket then
    eat LBracket ;;;
    e <- assign_in ;;
    eat RBracket ;;;
    ret (VEExpr e)
  else unexp.

(** parser.rs:2834-2918 *)
Definition obj_pat_rest (v : value_or_expr) (sp : span) : PM obj_pat :=
  t <- getcur ;;
  if tok_punc t Assign then
    adv ;;;
    name <- (match v with VEValue (VStr s) => ret s | _ => unexp end) ;;
    key <- value_to_key v false sp ;;
    r <- assign_in ;;
    ret (OP_Prop key false (Some (PV_Assign (B_Id name sp) r)) "init" false true)
  else if tok_punc t Colon then
    adv ;;;
    key <- value_to_key v true sp ;;
    t' <- getcur ;;
    pattern <- h_bindpat h ;;
    ov <- obj_pat_value (tline t') (tcol t') pattern ;;
    ret (OP_Prop key (match key with PK_Expr _ => true | _ => false end) (Some ov) "init" false false)
  else
    key <- value_to_key v false sp ;;
    ret (OP_Prop key false None "init" false true).

(** parser.rs:2806-2924, one property *)
Definition obj_pat_property : PM obj_pat :=
  t <- getcur ;;
  if tok_punc t Ellipsis then
    adv ;;;
    b <- h_bindpat h ;;
    ret (OP_Rest b)
  else
    start_span ;;;
    v <- obj_pat_key ;;
    sp <- end_span ;;
    property <- obj_pat_rest v sp ;;
    comma_unless RBrace ;;;
    ret property.

(** parser.rs:2782-2930 *)
Definition parse_obj_binding_pat : PM binding :=
  start_span ;;;
  eat LBrace ;;;
  properties <- parse_until_punc_or_rest n RBrace obj_pat_property ;;
  eat RBrace ;;;
  sp <- end_span ;;
  ret (B_Object properties sp).

(** parser.rs:3001-3047, one element *)
Definition arr_pat_element : PM (option arr_pat) :=
  t <- getcur ;;
  if tok_punc t Comma then adv ;;; ret None
  else if tok_punc t Ellipsis then
    adv ;;;
    b <- h_bindpat h ;;
    ret (Some (AP_Rest b))
  else
    pattern <- h_bindpat h ;;
    t' <- getcur ;;
    element <- (if tok_punc t' Assign then
                  adv ;;; r <- assign_in ;; ret (AP_Assign pattern r)
                else match pattern with
                | B_Id name _ => ret (AP_Id name)
                | B_Array es _ => ret (AP_Array es)
                | B_Object ps _ => ret (AP_Object ps)
                | B_Expr _ => err_at (tline t) (tcol t) InvalidDestructuringTarget
                end) ;;
    comma_unless RBracket ;;;
    ret (Some element).

(** parser.rs:2969-3053 *)
Definition parse_arr_binding_pat : PM binding :=
  start_span ;;;
  eat LBracket ;;;
  elements <- parse_until_punc_or_rest n RBracket arr_pat_element ;;
  eat RBracket ;;;
  sp <- end_span ;;
  ret (B_Array elements sp).

(** parser.rs:2772-2780 *)
Definition parse_binding_id_or_pat : PM binding :=
  t <- getcur ;;
  if tok_is t TIdentifier || tok_is t TKeyword then parse_binding_id E
  else if tok_punc t LBrace then parse_obj_binding_pat
  else if tok_punc t LBracket then parse_arr_binding_pat
  else unexp.

(** ** Functions *)

(** parser.rs:146-170 *)
Fixpoint directive_prologues (k : nat) : PM (list node) :=
  match k with
  | O => nofuel
  | S k' =>
    t <- getcur ;;
    if tok_is t TString then
      start_span ;;;
      expr <- h_expression h ;;
      (match expr with
       | NLiteral (VStr s) _ _ _ =>
         if str_eqb s (s2l "use strict") then upd_ctx (ctx_strict true) else ret tt
       | _ => ret tt
       end) ;;;
      consume_semicolon E GRegExp ;;;
      sp <- end_span ;;
      body <- directive_prologues k' ;;
      ret (ExpressionStatement expr sp :: body)
    else ret []
  end.

(** parser.rs:527-530 *)
Definition parse_statement_list : PM (list node) := parse_until_punc n RBrace (h_item h).

(** parser.rs:1567-1583 *)
Definition parse_function_body_block : PM node :=
  start_span ;;;
  eat LBrace ;;;
  c <- gets ctx ;;
  directives <- directive_prologues n ;;
  c' <- gets ctx ;;
  body <- parse_statement_list ;;
  upd_ctx (ctx_in_iteration (in_iteration c')) ;;;
  eat RBrace ;;;
  upd_ctx (ctx_strict (strict c)) ;;;
  sp <- end_span ;;
  ret (BlockStatement (directives ++ body) sp).

(** parser.rs:1559-1565 *)
Definition parse_function_body : PM node :=
  c <- gets ctx ;;
  upd_ctx (ctx_in_function true) ;;;
  body <- with_prm (set_return true) parse_function_body_block ;;
  upd_ctx (ctx_in_function (in_function c)) ;;;
  ret body.

(** parser.rs:3222-3264, one parameter *)
Definition formal_param : PM func_param :=
  t <- getcur ;;
  if tok_punc t Ellipsis then
    adv ;;;
    b <- parse_binding_id_or_pat ;;
    ret (FP_Rest b)
  else
    lhs <- parse_binding_id_or_pat ;;
    t' <- getcur ;;
    param <- (if tok_punc t' Assign then
                adv ;;; r <- assign_in ;; ret (FP_Assign lhs r)
              else match lhs with
              | B_Id name _ => ret (FP_Id name)
              | B_Array es _ => ret (FP_Array es)
              | B_Object ps _ => ret (FP_Object ps)
              | B_Expr _ => err_at (tline t) (tcol t) InvalidDestructuringTarget
              end) ;;
    comma_unless RParen ;;;
    ret param.

(** parser.rs:3194-3267 *)
Definition parse_formal_params : PM (list func_param) :=
  eat LParen ;;;
  parameters <- parse_until_punc_or_rest n RParen formal_param ;;
  eat RParen ;;;
  ret parameters.

(** The pair "params, then body, both under the same parameters"
    (parser.rs:1531-1547, 1691-1706, 1740-1755, 1777-1792, 1830-1845, 3588-3603, 3619-3634) *)
Definition params_and_body (y a : bool) : PM (list func_param * node) :=
  ps <- with_prm (ya y a) parse_formal_params ;;
  body <- with_prm (ya y a) parse_function_body ;;
  ret (ps, body).

(** parser.rs:3150-3192.  Line 3175 compares a punctuator with [matches_str],
    which is never true; transcribed as it stands. *)
Definition parse_function_expr (async : bool) : PM node :=
  (if async then ret tt else start_span) ;;;
  consume_kw E "function" GRegExp ;;;
  t <- getcur ;;
  let generator := tok_is t TPunctuator && matches_str t "*" in
  id <- (if tok_punc t LParen then ret None else i <- parse_id_reference E ;; ret (Some i)) ;;
  ps <- parse_formal_params ;;
  body <- parse_function_body ;;
  sp <- end_span ;;
  ret (FunctionExpression id ps body generator false async AInvalid sp).

(** parser.rs:3768-3796 *)
Definition parse_arrow_body : PM (node * bool) :=
  t <- getcur ;;
  if tok_punc t LBrace then
    body <- with_prm (ya false true) parse_function_body ;; ret (body, false)
  else
    body <- with_prm (ya false true) (h_assign h) ;; ret (body, true).

(** parser.rs:2047-2061 *)
Definition parse_single_param_arrow_function_expr (name : str) : PM node :=
  eat FatArrow ;;;
  '(body, expression) <- parse_arrow_body ;;
  sp <- end_span ;;
  ret (ArrowFunctionExpression None [FP_Id name] body false expression false AInvalid sp).

(** parser.rs:2598-2620 = 2743-2765: a binding pattern as a parameter *)
Definition param_of_pattern (is_last : bool) (p : node) : PM func_param :=
  match p with
  | NAssignmentPattern l r _ => ret (FP_Assign l r)
  | NBindingIdentifier name _ => ret (FP_Id name)
  | NObjectPattern ps _ _ => ret (FP_Object ps)
  | NArrayPattern es _ _ => ret (FP_Array es)
  | NRestElement b _ => if is_last then ret (FP_Rest b) else error_current E ParamAfterRest
  | _ => error_current E InvalidDestructuringTarget
  end.

(** parser.rs:2734-2770; [i = last_idx] is "no further element" *)
Fixpoint seq_to_arrow_params (seq : list node) : PM (list func_param) :=
  match seq with
  | [] => ret []
  | e :: seq' =>
    p <- lift_c (to_binding_pattern E e) ;;
    q <- param_of_pattern (match seq' with [] => true | _ => false end) p ;;
    qs <- seq_to_arrow_params seq' ;;
    ret (q :: qs)
  end.

(** parser.rs:2586-2625 *)
Definition arguments_to_params (args : list arg_elem) : PM (list func_param) :=
  seq_to_arrow_params (map arg_as_node args).

(** ** Classes *)

(** parser.rs:3539-3545 *)
Definition parse_computed_property_name : PM prop_key :=
  eat LBracket ;;;
  e <- assign_in ;;
  eat RBracket ;;;
  ret (PK_Expr e).

(** parser.rs:3508-3537 (3521-3531: the literal token is not consumed) *)
Definition parse_property_name : PM (prop_key * bool) :=
  t <- getcur ;;
  if tok_is t TIdentifier || tok_is t TKeyword then
    start_span ;;;
    name <- parse_id_name E GDiv ;;
    sp <- end_span ;;
    ret (PK_Id (mkId name sp), false)
  else if tok_is t TString || tok_is t TNumeric then
    start_span ;;;
    sp <- end_span ;;
    ret (PK_Lit (mkLit (tval t) (value_show E (tval t)) sp), false)
  else if tok_punc t LBracket then
    k <- parse_computed_property_name ;; ret (k, true)
  else unexp.

(** parser.rs:1813-1829 *)
Definition class_method_kind (key : prop_key) : string :=
  match key with
  | PK_Id i => if str_eqb (id_name i) (s2l "constructor") then "constructor" else "method"
  | PK_Lit l => if str_eqb (lit_raw l) (s2l "constructor") then "constructor" else "method"
  | PK_Expr _ => "method"
  end%string.

(** parser.rs:1660-1686 *)
Definition class_getter (static : bool) : PM (option method_def) :=
  adv ;;;
  '(key, computed) <- parse_property_name ;;
  eat LParen ;;;
  eat RParen ;;;
  body <- with_prm (ya false false) parse_function_body ;;
  ret (Some (MethodDef (key_as_node key) computed (Some (FnExpr None [] body false false false)) "get" static)).

(** parser.rs:1689-1721 *)
Definition class_setter (static : bool) : PM (option method_def) :=
  adv ;;;
  '(key, computed) <- parse_property_name ;;
  '(ps, body) <- params_and_body false false ;;
  ret (Some (MethodDef (key_as_node key) computed (Some (FnExpr None ps body false false false)) "set" static)).

(** parser.rs:1724-1770 *)
Definition class_async_method (static : bool) : PM (option method_def) :=
  adv ;;;
  t <- getcur ;;
  lt <- gets has_lt ;;
  generator <- (if tok_is t TPunctuator && (negb lt && matches_punc t Star)
                then adv ;;; ret true else ret false) ;;
  lt' <- gets has_lt ;;
  if negb generator && negb lt' then unexp else
  '(key, computed) <- parse_property_name ;;
  '(ps, body) <- params_and_body generator true ;;
  ret (Some (MethodDef (key_as_node key) computed (Some (FnExpr None ps body generator false true)) "method" static)).

(** parser.rs:1773-1807 *)
Definition class_generator_method (static : bool) : PM (option method_def) :=
  adv ;;;
  '(key, computed) <- parse_property_name ;;
  '(ps, body) <- params_and_body true false ;;
  ret (Some (MethodDef (key_as_node key) computed (Some (FnExpr None ps body true false false)) "method" static)).

(** parser.rs:1809-1861 *)
Definition class_plain_method (static : bool) : PM (option method_def) :=
  '(key, computed) <- parse_property_name ;;
  '(ps, body) <- params_and_body false false ;;
  ret (Some (MethodDef (key_as_node key) computed (Some (FnExpr None ps body false false false))
                       (class_method_kind key) static)).

(** parser.rs:1645-1864, one class element *)
Definition class_element : PM (option method_def) :=
  t <- getcur ;;
  if tok_punc t Semicolon then adv ;;; ret None
  else
    static <- (if tok_kw t "static" then adv ;;; ret true else ret false) ;;
    t <- getcur ;;
    if tok_id t "get" then class_getter static
    else if tok_id t "set" then class_setter static
    else if tok_id t "async" then class_async_method static
    else if tok_punc t Star then class_generator_method static
    else class_plain_method static.

(** parser.rs:1634-1872 *)
Fixpoint cat_some {A} (l : list (option A)) : list A :=
  match l with [] => [] | Some a :: l' => a :: cat_some l' | None :: l' => cat_some l' end.
Definition parse_class_body : PM (list method_def) :=
  items <- parse_until_punc n RBrace class_element ;;
  ret (cat_some items).

(** parser.rs:1605-1632 *)
Definition parse_class_tail (id : option node) : PM node :=
  t <- getcur ;;
  super <- (if tok_kw t "extends" then adv ;;; e <- h_lhs h ;; ret (Some e) else ret None) ;;
  eat LBrace ;;;
  body <- parse_class_body ;;
  eat RBrace ;;;
  sp <- end_span ;;
  ret (ClassDeclaration id super body sp).

(** [match parse_binding_id() { BindingIdentifier => Node::BindingIdentifier }]
    (parser.rs:1523-1528, 1594-1599, 3136-3141); the other arm is not reached *)
Definition binding_id_node : PM node :=
  b <- parse_binding_id E ;;
  match b with
  | B_Id name sp => ret (NBindingIdentifier name sp)
  | _ => crash P_Unreachable
  end.

(** parser.rs:1585-1603 *)
Definition parse_class_dclr : PM node :=
  c <- gets ctx ;;
  upd_ctx (ctx_strict true) ;;;
  start_span ;;;
  consume_kw E "class" GRegExp ;;;
  id <- binding_id_node ;;
  res <- parse_class_tail (Some id) ;;
  upd_ctx (ctx_strict (strict c)) ;;;
  ret res.

(** parser.rs:3114-3148 *)
Definition parse_class_expr : PM node :=
  c <- gets ctx ;;
  upd_ctx (ctx_strict true) ;;;
  start_span ;;;
  consume_kw E "class" GRegExp ;;;
  t <- getcur ;;
  p <- gets prm ;;
  id <- (if tok_is t TIdentifier || tok_is t TKeyword then i <- binding_id_node ;; ret (Some i)
         else if has_default p then ret None
         else unexp) ;;
  res <- parse_class_tail id ;;
  upd_ctx (ctx_strict (strict c)) ;;;
  ret res.

(** ** Primary expressions *)

(** parser.rs:3101-3108 = 3082-3089 *)
Definition template_piece : PM template_element :=
  t <- advd ;;
  cooked <- unwrap P_TokenUnwrap (tcooked t) ;;
  tail <- unwrap P_TokenUnwrap (ttail t) ;;
  ret (mkTE cooked (value_show E (tval t)) tail).

(** parser.rs:3077-3095 *)
Definition parse_template_head : PM template_element :=
  t <- getcur ;;
  if tok_is t TTemplate then
    match thead t with
    | Some true => template_piece
    | _ => error_current E UnexpectedTemplateString
    end
  else unexp.

(** parser.rs:3097-3112 *)
Definition parse_template_element : PM template_element :=
  t <- getcur ;;
  if tok_is t TTemplate then template_piece else unexp.

(** parser.rs:3063-3068 *)
Fixpoint template_rest (k : nat) (is_tail : bool) : PM (list template_element * list node) :=
  match k with
  | O => nofuel
  | S k' =>
    if is_tail then ret ([], [])
    else
      e <- expression_in ;;
      q <- parse_template_element ;;
      '(qs, es) <- template_rest k' (te_tail q) ;;
      ret (q :: qs, e :: es)
  end.

(** parser.rs:3055-3075, result before wrapping in a node *)
Definition template_literal : PM (list template_element * list node * span) :=
  start_span ;;;
  q <- parse_template_head ;;
  '(qs, es) <- template_rest n (te_tail q) ;;
  sp <- end_span ;;
  ret (q :: qs, es, sp).
Definition parse_template_literal : PM node :=
  '(qs, es, sp) <- template_literal ;;
  ret (TemplateLiteral qs es AInvalid sp).
(** parser.rs:2281-2298, 2340-2357 *)
Definition tagged_template (tag : node) : PM node :=
  '(qs, es, sp) <- template_literal ;;
  ret (TaggedTemplateExpression tag qs es sp).

(** parser.rs:3688-3712, one element *)
Definition array_lit_element : PM (option arr_elem) :=
  t <- getcur ;;
  if tok_punc t Comma then adv ;;; ret None
  else if tok_punc t Ellipsis then
    start_span ;;;
    adv ;;;
    e <- assign_in ;;
    comma_unless RBracket ;;;
    sp <- end_span ;;
    ret (Some (AE_Spread e sp))
  else
    e <- assign_in ;;
    comma_unless RBracket ;;;
    ret (Some (AE_Expr e)).

(** parser.rs:3670-3719 *)
Definition parse_array_lit_expr : PM node :=
  start_span ;;;
  eat LBracket ;;;
  elements <- parse_until_punc n RBracket array_lit_element ;;
  consume_p E RBracket GDiv ;;;
  sp <- end_span ;;
  ret (ArrayExpression elements AInvalid sp).

(** parser.rs:3547-3668 *)
Definition parse_method_definition (key : prop_key) (kind : string) (async generator computed : bool) : PM obj_prop :=
  if String.eqb kind "get" then
    eat LParen ;;;
    eat RParen ;;;
    body <- with_prm (ya false false) parse_function_body ;;
    sp <- end_span ;;
    ret (OE_Prop key computed (Some (PV_Fn (FnExpr None [] body generator false async))) kind true false sp)
  else if String.eqb kind "set" then
    '(ps, body) <- params_and_body false false ;;
    sp <- end_span ;;
    ret (OE_Prop key computed (Some (PV_Fn (FnExpr None ps body generator false async))) kind true false sp)
  else if String.eqb kind "init" then
    '(ps, body) <- params_and_body generator async ;;
    sp <- end_span ;;
    ret (OE_Prop key computed
           (Some (if async then PV_AsyncFn None ps body generator false async
                  else PV_Fn (FnExpr None ps body generator false async))) kind true false sp)
  else unexp.

(** [scanner.save_state(); scanner.next(RegExp)?; ...; scanner.restore_state(next_token)]
    (parser.rs:563-574, 3328-3335, 3356-3363, 3384-3391) *)
Definition lookahead : PM token :=
  lift_s save_state ;;;
  t <- lift_s (s_next E GRegExp) ;;
  lift_s (restore_state t) ;;;
  ret t.

(** Result of parser.rs:3326-3423: either the property is already complete
    (early [return]) or [(kind, async, generator)]. *)
Inductive modifiers := Done (p : obj_prop) | More (kind : string) (async generator : bool).

(** parser.rs:3327-3354 and 3355-3382 (the same code for "get" and "set") *)
Definition accessor_modifier (word : string) : PM modifiers :=
  nt <- lookahead ;;
  if tok_is nt TPunctuator then ret (More "init" false false)
  else
    start_span ;;;
    adv ;;;
    sp <- end_span ;;
    t <- getcur ;;
    if matches_punc t LParen then
      p <- parse_method_definition (PK_Id (mkId (s2l word) sp)) "init" false false false ;; ret (Done p)
    else ret (More word false false).

(** parser.rs:3383-3415 *)
Definition async_modifier : PM modifiers :=
  nt <- lookahead ;;
  if tok_is nt TPunctuator then ret (More "init" false false)
  else
    start_span ;;;
    adv ;;;
    sp <- end_span ;;
    t <- getcur ;;
    generator <- (if matches_punc t Star then adv ;;; ret true else ret false) ;;
    t' <- getcur ;;
    if matches_punc t' LParen then
      p <- parse_method_definition (PK_Id (mkId (s2l "async") sp)) "init" false generator false ;; ret (Done p)
    else ret (More "init" true generator).

(** parser.rs:3326-3423 *)
Definition property_modifiers : PM modifiers :=
  t <- getcur ;;
  if tok_id t "get" then accessor_modifier "get"
  else if tok_id t "set" then accessor_modifier "set"
  else if tok_id t "async" then async_modifier
  else if tok_punc t Star then
    adv ;;;
    '(key, computed) <- parse_property_name ;;
    p <- parse_method_definition key "init" false true computed ;;
    ret (Done p)
  else ret (More "init" false false).

(** parser.rs:3425-3449; the boolean is [computed].  3440: [raw] is the text of
    the token AFTER the literal. *)
Definition property_key : PM (prop_key * bool) :=
  t <- getcur ;;
  if tok_is t TIdentifier || tok_is t TKeyword then
    start_span ;;;
    name <- parse_id_name E GDiv ;;
    sp <- end_span ;;
    ret (PK_Id (mkId name sp), false)
  else if tok_is t TString || tok_is t TNumeric then
    start_span ;;;
    v <- adv ;;
    t' <- getcur ;;
    sp <- end_span ;;
    ret (PK_Lit (mkLit (tval v) (value_show E (tval t')) sp), false)
  else if tok_punc t LBracket then
    k <- parse_computed_property_name ;; ret (k, true)
  else unexp.

(** parser.rs:3306-3499, one property *)
Definition object_property : PM obj_prop :=
  start_span ;;;
  t <- getcur ;;
  if matches_punc t Ellipsis then
    adv ;;;
    e <- assign_in ;;
    sp <- end_span ;;
    comma_unless RBrace ;;;
    ret (OE_Spread e sp)
  else
    m <- property_modifiers ;;
    match m with
    | Done p => ret p
    | More kind async generator =>
      '(key, computed) <- property_key ;;
      t <- getcur ;;
      property <-
        (if tok_punc t Colon then
           adv ;;;
           e <- assign_in ;;
           sp <- end_span ;;
           ret (OE_Prop key computed (Some (PV_Expr e)) kind false false sp)
         else if tok_punc t Assign then
           adv ;;;
           e <- assign_in ;;
           sp <- end_span ;;
           ret (OE_Prop key computed (Some (PV_Expr e)) kind false true sp)
         else if tok_punc t LParen then
           parse_method_definition key kind async generator computed
         else
           sp <- end_span ;;
           ret (OE_Prop key computed None kind false true sp)) ;;
      comma_unless RBrace ;;;
      ret property
    end.

(** parser.rs:3269-3506 *)
Definition parse_object_lit_expr : PM node :=
  start_span ;;;
  eat LBrace ;;;
  properties <- parse_until_punc n RBrace object_property ;;
  eat RBrace ;;;
  sp <- end_span ;;
  ret (ObjectExpression properties AInvalid sp).

(** parser.rs:2639-2660, one argument *)
Definition argument : PM arg_elem :=
  t <- getcur ;;
  if tok_punc t Ellipsis then
    start_span ;;;
    adv ;;;
    e <- assign_in ;;
    sp <- end_span ;;
    comma_unless RParen ;;;
    ret (AR_Spread e sp)
  else
    e <- assign_in ;;
    comma_unless RParen ;;;
    ret (AR_Expr e).

(** parser.rs:2627-2663 *)
Definition parse_arguments : PM (list arg_elem) :=
  eat LParen ;;;
  args <- parse_until_punc n RParen argument ;;
  consume_p E RParen GDiv ;;;
  ret args.

(** parser.rs:2679-2699, one element; the boolean is "set definitely_arrow" *)
Definition seq_element : PM (node * bool) :=
  t <- getcur ;;
  if tok_punc t Ellipsis then
    start_span ;;;
    adv ;;;
    b <- parse_binding_id_or_pat ;;
    sp <- end_span ;;
    ret (NRestElement b sp, true)
  else
    e <- assign_in ;;
    t' <- getcur ;;
    if matches_punc t' RParen then ret (e, false)
    else
      eat Comma ;;;
      t'' <- getcur ;;
      ret (e, matches_punc t'' RParen).

(** parser.rs:2717-2732 *)
Definition seq_to_arrow (seq : list node) : PM node :=
  ps <- seq_to_arrow_params seq ;;
  eat FatArrow ;;;
  '(body, expression) <- parse_arrow_body ;;
  sp <- end_span ;;
  ret (ArrowFunctionExpression None ps body false expression false AInvalid sp).

(** parser.rs:2665-2715 *)
Definition parse_seq_or_arrow : PM node :=
  start_span ;;;
  eat LParen ;;;
  items <- parse_until_punc_or_rest n RParen seq_element ;;
  consume_p E RParen GDiv ;;;
  t <- getcur ;;
  let expressions := map fst items in
  if existsb snd items || matches_punc t FatArrow then seq_to_arrow expressions
  else
    sp <- end_span ;;
    ret (SequenceExpression expressions
           (match expressions with [e] => assign_target_type e | _ => AInvalid end) sp).

(** parser.rs:2558-2584 *)
Definition parse_async_call_or_arrow (callee : node) : PM node :=
  args <- parse_arguments ;;
  t <- getcur ;;
  if tok_punc t FatArrow then
    adv ;;;
    '(body, expression) <- parse_arrow_body ;;
    ps <- arguments_to_params args ;;
    sp <- end_span ;;
    ret (AsyncArrowFunctionExpression None ps body false expression true AInvalid sp)
  else
    sp <- end_span ;;
    ret (CallExpression callee args AInvalid sp).

(** parser.rs:3721-3766.  3730 evaluates [Punctuator::from("`")], a panic,
    whenever the current token is a punctuator other than ";", "." and "[". *)
Definition parse_async_primary_expr : PM node :=
  start_span ;;;
  id <- parse_id_reference E ;;
  lt <- gets has_lt ;;
  if negb lt then
    t <- getcur ;;
    if tok_punc t Semicolon then ret id
    else if tok_punc t Dot then ret id
    else if tok_punc t LBracket then ret id
    else if tok_is t TPunctuator && is_some (v_punc (tval t)) then crash P_AsyncBacktick
    else if tok_punc t LParen then parse_async_call_or_arrow id
    else if tok_kw t "function" then parse_function_expr true
    else
      r <- with_prm (set_await true) (parse_id_reference E) ;;
      param <- (match r with Identifier name _ _ => ret (FP_Id name) | _ => crash P_Unreachable end) ;;
      lt' <- gets has_lt ;;
      t' <- getcur ;;
      if negb lt' && matches_punc t' FatArrow then
        adv ;;;
        '(body, expression) <- parse_arrow_body ;;
        sp <- end_span ;;
        ret (AsyncArrowFunctionExpression None [param] body false expression true AInvalid sp)
      else unexp
  else
    end_span ;;; ret id.

(** parser.rs:2489-2556.  2542-2543: the value of a regexp literal is the text
    of the token AFTER it. *)
Definition parse_primary_expr : PM node :=
  t <- getcur ;;
  if tok_kw t "function" then parse_function_expr false
  else if tok_id t "async" then parse_async_primary_expr
  else if tok_kw t "class" then parse_class_expr
  else if tok_kw t "this" then
    start_span ;;; advd ;;; sp <- end_span ;; ret (ThisExpression AInvalid sp)
  else if tok_is t TIdentifier || tok_is t TKeyword then parse_id_reference E
  else if tok_is t TNumeric || tok_is t TString || tok_is t TBoolean || tok_is t TNull then
    start_span ;;;
    t' <- advd ;;
    sp <- end_span ;;
    ret (NLiteral (tval t') (value_show E (tval t')) AInvalid sp)
  else if tok_punc t LBracket then parse_array_lit_expr
  else if tok_punc t LBrace then parse_object_lit_expr
  else if tok_is t TRegExp then
    start_span ;;;
    t' <- advd ;;
    c <- getcur ;;
    p <- unwrap P_TokenUnwrap (tpattern t') ;;
    f <- unwrap P_TokenUnwrap (tflags t') ;;
    sp <- end_span ;;
    ret (RegexLiteral (value_show E (tval c)) (value_show E (tval c)) (mkRegex p f) AInvalid sp)
  else if tok_is t TTemplate then parse_template_literal
  else if tok_punc t LParen then parse_seq_or_arrow
  else unexp.

(** ** Member, call, new *)

(** parser.rs:2365-2378 *)
Definition parse_computed_member_expr (object : node) : PM node :=
  start_span ;;;
  eat LBracket ;;;
  property <- expression_in ;;
  sp <- end_span ;;
  consume_p E RBracket GDiv ;;;
  ret (ComputedMemberExpression true object property ASimple sp).

(** parser.rs:2380-2398 *)
Definition parse_static_member_expr (object : node) : PM node :=
  start_span ;;;
  eat Dot ;;;
  start_span ;;;
  name <- parse_id_name E GDiv ;;
  sp <- end_span ;;
  sp' <- end_span ;;
  ret (StaticMemberExpression false object (Identifier name AInvalid sp) ASimple sp').

(** parser.rs:2468-2487 *)
Definition parse_super : PM node :=
  start_span ;;;
  consume_kw E "super" GRegExp ;;;
  t <- getcur ;;
  if tok_punc t LBracket || tok_punc t Dot || tok_punc t LParen then
    sp <- end_span ;; ret (Super ASimple sp)
  else unexp.

Definition tok_template_head (t : token) : bool :=
  tok_is t TTemplate && match thead t with Some b => b | None => false end.

(** parser.rs:2331-2361 *)
Fixpoint member_tail (k : nat) (expr : node) : PM node :=
  match k with
  | O => nofuel
  | S k' =>
    t <- getcur ;;
    if tok_punc t LBracket then e <- parse_computed_member_expr expr ;; member_tail k' e
    else if tok_punc t Dot then e <- parse_static_member_expr expr ;; member_tail k' e
    else if tok_template_head t then e <- tagged_template expr ;; member_tail k' e
    else ret expr
  end.

(** parser.rs:2307-2363 *)
Definition parse_member_expr : PM node :=
  t <- getcur ;;
  expr <- (if tok_kw t "super" then
             object <- parse_super ;;
             t' <- getcur ;;
             if tok_punc t' LBracket then parse_computed_member_expr object
             else if tok_punc t' Dot then parse_static_member_expr object
             else unexp
           else parse_primary_expr) ;;
  member_tail n expr.

(** parser.rs:2263-2305 *)
Fixpoint call_tail (k : nat) (callee : node) : PM node :=
  match k with
  | O => nofuel
  | S k' =>
    t <- getcur ;;
    if tok_punc t LParen then
      args <- parse_arguments ;;
      sp <- peek_span ;;
      call_tail k' (CallExpression callee args AInvalid sp)
    else if tok_punc t LBracket then e <- parse_computed_member_expr callee ;; call_tail k' e
    else if tok_punc t Dot then e <- parse_static_member_expr callee ;; call_tail k' e
    else if tok_template_head t then e <- tagged_template callee ;; call_tail k' e
    else end_span ;;; ret callee
  end.

(** parser.rs:2400-2466 *)
Definition parse_new_expr : PM node :=
  start_span ;;;
  id <- consume_kw E "new" GRegExp ;;
  sp <- peek_span ;;
  t <- getcur ;;
  if tok_punc t Dot then
    adv ;;;
    t' <- getcur ;;
    if tok_id t' "target" then
      tt' <- advd ;;
      name <- unwrap P_TokenUnwrap (v_string (tval tt')) ;;
      meta <- unwrap P_TokenUnwrap (v_string (tval id)) ;;
      sp' <- end_span ;;
      ret (MetaProperty (Identifier meta AInvalid sp) (Identifier name AInvalid sp) AInvalid sp')
    else unexp
  else if tok_kw t "new" then
    callee <- h_new h ;;
    sp' <- end_span ;;
    ret (NewExpression callee [] AInvalid sp')
  else
    callee <- parse_member_expr ;;
    t' <- getcur ;;
    args <- (if tok_punc t' LParen then parse_arguments else ret []) ;;
    sp' <- end_span ;;
    call_tail n (NewExpression callee args AInvalid sp').

(** parser.rs:2231-2261 *)
Definition parse_call_expr : PM node :=
  start_span ;;;
  t <- getcur ;;
  callee <- (if tok_kw t "super" then
               object <- parse_super ;;
               t' <- getcur ;;
               if tok_punc t' LParen then
                 args <- parse_arguments ;;
                 sp <- peek_span ;;
                 ret (CallExpression object args AInvalid sp)
               else if tok_punc t' LBracket then parse_computed_member_expr object
               else if tok_punc t' Dot then parse_static_member_expr object
               else unexp
             else parse_member_expr) ;;
  call_tail n callee.

(** parser.rs:2223-2229 *)
Definition parse_left_hand_side_expr : PM node :=
  t <- getcur ;;
  if tok_kw t "new" then parse_new_expr else parse_call_expr.

(** ** Operators *)

Definition not_assignable (e : node) : bool := negb (att_eqb (assign_target_type e) ASimple).

(** parser.rs:2177-2221 ("invalid" or "strict" is "not simple") *)
Definition parse_update_expr : PM node :=
  t <- getcur ;;
  if is_update_op t then
    start_span ;;;
    operator <- advance_string E GRegExp ;;
    t' <- getcur ;;
    expr <- h_unary h ;;
    if not_assignable expr then err_at (tline t') (tcol t') InvalidLhsInPrefixOp
    else
      sp <- end_span ;;
      ret (UpdateExpression operator expr true AInvalid sp)
  else
    start_span ;;;
    expr <- parse_left_hand_side_expr ;;
    lt <- gets has_lt ;;
    t' <- getcur ;;
    if negb lt && is_update_op t' then
      if not_assignable expr then err_at (tline t) (tcol t) InvalidLhsInPostfixOp
      else
        operator <- advance_string E GRegExp ;;
        sp <- end_span ;;
        ret (UpdateExpression operator expr false AInvalid sp)
    else ret expr.

Definition cur_unary_op : PM bool :=
  t <- getcur ;; p <- gets prm ;; unwrap P_ToStrUnary (is_unary_op (has_await p) t).

(** parser.rs:2148-2175 *)
Definition parse_unary_expr : PM node :=
  t <- getcur ;;
  u <- (if tok_is t TPunctuator || tok_is t TKeyword then cur_unary_op else ret false) ;;
  if u then
    start_span ;;;
    operator <- advance_string E GRegExp ;;
    arg <- h_unary h ;;
    sp <- end_span ;;
    ret (UnaryExpression operator arg true AInvalid sp)
  else parse_update_expr.

(** parser.rs:2118-2146 *)
Definition parse_exponentiation_expr : PM node :=
  u <- cur_unary_op ;;
  if u then parse_unary_expr
  else
    start_span ;;;
    lhs <- parse_update_expr ;;
    t <- getcur ;;
    if tok_punc t Pow then
      op <- consume_p E Pow GRegExp ;;
      operator <- unwrap P_ToString (t_to_string op) ;;
      rhs <- h_exp h ;;
      sp <- end_span ;;
      ret (BinaryExpression operator lhs rhs AInvalid sp)
    else
      end_span ;;; ret lhs.

(** parser.rs:2100-2104 *)
Fixpoint climb_inner (k : nat) (op : token) (rhs : node) : PM node :=
  match k with
  | O => nofuel
  | S k' =>
    t <- getcur ;;
    p <- gets prm ;;
    if is_bin_op t && (precedence (has_in p) op <? precedence (has_in p) t) then
      rhs' <- h_climb h rhs (precedence (has_in p) t) ;;
      climb_inner k' op rhs'
    else ret rhs
  end.

(** parser.rs:2096-2116 *)
Fixpoint climb (k : nat) (lhs : node) (prec : N) : PM node :=
  match k with
  | O => nofuel
  | S k' =>
    t <- getcur ;;
    p <- gets prm ;;
    if is_bin_op t && (prec <=? precedence (has_in p) t) then
      op <- adv ;;
      rhs0 <- parse_exponentiation_expr ;;
      rhs <- climb_inner n op rhs0 ;;
      operator <- unwrap P_ToString (t_to_string op) ;;
      sp <- end_span ;;
      start_span ;;;
      climb k' (BinaryExpression operator lhs rhs AInvalid sp) prec
    else
      end_span ;;; ret lhs
  end.
Definition precedence_climbing (lhs : node) (prec : N) : PM node := climb n lhs prec.

(** parser.rs:2088-2094 *)
Definition parse_binary_expr : PM node :=
  start_span ;;;
  lhs <- parse_exponentiation_expr ;;
  precedence_climbing lhs 1.

(** parser.rs:2063-2086 *)
Definition parse_conditional_expr : PM node :=
  start_span ;;;
  expr <- parse_binary_expr ;;
  t <- getcur ;;
  if matches_punc t Question then
    eat Question ;;;
    consequent <- assign_in ;;
    eat Colon ;;;
    alternate <- h_assign h ;;
    sp <- end_span ;;
    ret (ConditionalExpression expr consequent alternate sp)
  else ret expr.

(** parser.rs:2000-2045 *)
Definition parse_yield_expr : PM node :=
  start_span ;;;
  consume_kw E "yield" GRegExp ;;;
  lt <- gets has_lt ;;
  if negb lt then
    t <- getcur ;;
    if tok_punc t Star then
      adv ;;;
      e <- with_prm (set_yield true) (h_assign h) ;;
      sp <- end_span ;;
      ret (YieldExpression (Some e) true AInvalid sp)
    else if tok_punc t FatArrow then
      parse_single_param_arrow_function_expr (s2l "yield")
    else
      e <- with_prm (set_yield true) (h_assign h) ;;
      sp <- end_span ;;
      ret (YieldExpression (Some e) false AInvalid sp)
  else
    sp <- end_span ;;
    ret (YieldExpression None false AInvalid sp).

(** parser.rs:1953-1960 *)
Definition maybe_arrow (lhs : node) : PM node :=
  t <- getcur ;;
  match lhs with
  | Identifier name _ _ =>
    if tok_punc t FatArrow then parse_single_param_arrow_function_expr name else ret lhs
  | _ => ret lhs
  end.

(** parser.rs:1962-1997 *)
Definition assignment_tail (lhs : node) : PM node :=
  t <- getcur ;;
  if tok_punc t Assign then
    tok <- adv ;;
    lhs' <- lift_c (to_assignment_pattern E lhs) ;;
    if not_assignable lhs' then error_tok tok InvalidLhsInAssignment
    else
      rhs <- h_assign h ;;
      sp <- end_span ;;
      ret (AssignmentExpression "=" lhs' rhs AInvalid sp)
  else if tok_is t TPunctuator && is_assign_op t then
    tok <- adv ;;
    op <- unwrap P_TokenUnwrap (v_punc (tval tok)) ;;
    if not_assignable lhs then error_tok tok InvalidLhsInAssignment
    else
      rhs <- h_assign h ;;
      sp <- end_span ;;
      ret (AssignmentExpression (p_spell op) lhs rhs AInvalid sp)
  else
    end_span ;;; ret lhs.

(** parser.rs:1938-1998 *)
Definition parse_assignment_expr : PM node :=
  p <- gets prm ;;
  t <- getcur ;;
  if has_yield p && matches_str t "yield" then parse_yield_expr
  else
    start_span ;;;
    lhs <- parse_conditional_expr ;;
    lhs' <- maybe_arrow lhs ;;
    assignment_tail lhs'.

(** One more operand of a comma list (parser.rs:690-693, 1893-1896, 1919-1922) *)
Definition comma_then {A} (m : PM A) : PM A := eat Comma ;;; m.

(** parser.rs:1910-1936 (1923: the list always has at least two elements) *)
Definition parse_expression : PM node :=
  start_span ;;;
  expr <- parse_assignment_expr ;;
  t <- getcur ;;
  if matches_punc t Comma then
    more <- parse_while_punc n Comma (comma_then (h_assign h)) ;;
    sp <- end_span ;;
    ret (SequenceExpression (expr :: more)
           (match more with [] => ASimple | _ => AInvalid end) sp)
  else ret expr.

End Step.
