(** * SpecGrammar: a grammar of a large fragment of ECMAScript, as a relation
    between token sequences (SpecLayout) and (position-free) syntax trees.  Only
    definitions; nothing here refers to the parser or to the scanner. *)
From Verif Require Import Base Punct Token Ast.
From Verif Require Import SpecLex SpecJson SpecLayout.

(** ** Words *)
(** Identifiers of the fragment: not reserved, not "async" and "let" (contextual
    words), not the words reserved in strict code. *)
Definition ident (x : str) : Prop :=
  ~ reserved x /\
  ~ In x (map s2l ["async"; "let"; "implements"; "interface"; "package"; "private"; "protected"; "public"; "static"]%string).
(** Property names: any identifier or reserved word. *)
Inductive name_tok : tok -> str -> Prop :=
| nm_id b x : name_tok (Id b x) x
| nm_kw b w : In w reserved_words -> name_tok (W b w) (s2l w).
(** ... in object literals, where "get", "set" and "async" are modifiers *)
Definition key_name (x : str) : Prop := ~ In x (map s2l ["get"; "set"; "async"]%string).

(** ... unless followed on the same line by a token other than a brace and a
    template *)
Definition brace_or_template (k : tk) : bool := match k with KP LBrace | KP RBrace | KTempl _ _ _ _ => true | _ => false end.
Definition key_before (x : str) (t : tok) : Prop := key_name x \/ (nl t = false /\ brace_or_template (knd t) = false).
(** Keys that are not computed. *)
Inductive simple_key : tok -> prop_key -> Prop :=
| sk_name t x : name_tok t x -> simple_key t (PK_Id (mkId x nowhere))
| sk_str b w : simple_key (T b (KStr w)) (PK_Lit (mkLit (VStr w) [] nowhere))
| sk_num b x : simple_key (T b (KNum x)) (PK_Lit (mkLit (VNum x) [] nowhere)).
(** An expression statement may begin with "async" only if that begins an arrow
    function. *)
Definition async_arrow (l : list tok) : Prop :=
  forall b l', l = Id b (s2l "async") :: l' -> exists x l2, l' = Id false x :: l2.
(** Class elements: "get", "set" and "async" are modifiers there, too. *)
Definition plain_key (l : list tok) : Prop := forall b x l', l = Id b x :: l' -> key_name x.
Definition is_ctor (k : prop_key) : bool := match k with PK_Id i => str_eqb (id_name i) (s2l "constructor") | _ => false end.
Definition rest_param (p : func_param) : bool := match p with FP_Rest _ => true | _ => false end.

(** A binding, perhaps with a default value, as a parameter, as an element of an
    array pattern and as the value of a property of an object pattern.  (No rule
    below makes a [B_Expr].) *)
Definition pat_param (p : binding) (i : option node) : func_param :=
  match i, p with
  | Some e, _ => FP_Assign p e
  | None, B_Id x _ => FP_Id x | None, B_Array es _ => FP_Array es | None, B_Object ps _ => FP_Object ps
  | None, B_Expr _ => FP_Id []
  end.
Definition pat_elem (p : binding) (i : option node) : arr_pat :=
  match i, p with
  | Some e, _ => AP_Assign p e
  | None, B_Id x _ => AP_Id x | None, B_Array es _ => AP_Array es | None, B_Object ps _ => AP_Object ps
  | None, B_Expr _ => AP_Id []
  end.
Definition pat_value (p : binding) (i : option node) : prop_value :=
  match i, p with
  | Some e, _ => PV_Assign p e
  | None, B_Id x _ => PV_BindId x nowhere | None, B_Array es _ => PV_ArrayPat es | None, B_Object ps _ => PV_ObjectPat ps
  | None, B_Expr e => PV_Expr e
  end.
(** A binding at the head of a for-in or for-of statement. *)
Definition bind_node (p : binding) : node :=
  match p with
  | B_Id x _ => NBindingIdentifier x nowhere
  | B_Array es _ => NArrayPattern es ASimple nowhere
  | B_Object ps _ => NObjectPattern ps ASimple nowhere
  | B_Expr e => e
  end.

(** ** Operators *)
Definition op_text (k : tk) : str :=
  match k with KP p => s2l (p_spell p) | KW w => s2l w | _ => [] end.
(** Binary operators and how tightly they bind (0: not a binary operator).  "%"
    has a level of its own; the grammar below uses it only where that makes no
    difference to the standard.  "in" is an operator unless excluded. *)
Definition level (inn : bool) (k : tk) : N :=
  match k with
  | KP LogicalOr => 1
  | KP LogicalAnd => 2
  | KP BitOr => 3
  | KP BitXor => 4
  | KP BitAnd => 5
  | KP Equal | KP NEqual | KP StrictEqual | KP StrictNEqual => 6
  | KP LAngle | KP RAngle | KP LEqual | KP GEqual => 7
  | KW w => if String.eqb w "instanceof" then 7 else if String.eqb w "in" && inn then 7 else 0
  | KP LShift | KP RShift | KP ZRShift => 8
  | KP Plus | KP Minus => 9
  | KP Star | KP Slash => 10
  | KP Mod => 11
  | _ => 0
  end.
Definition unary_op (k : tk) : Prop :=
  In k [KP Plus; KP Minus; KP Tilde; KP Bang; KW "delete"; KW "void"; KW "typeof"].
Definition update_op (p : punct) : Prop := p = Inc \/ p = Dec.
Definition assign_op (p : punct) : Prop :=
  In p [PlusAssign; MinusAssign; StarAssign; SlashAssign; ModAssign; PowAssign; LShiftAssign; ZRShiftAssign;
        BitAndAssign; BitOrAssign; BitXorAssign].
(** The level required of the right operand of an operator of level [q]: the next
    one, but "a * b % c" and "a / b % c" are left out. *)
Definition right_level (q : N) : N := if q =? 10 then 12 else q + 1.

(** Expressions that may be assigned to (parentheses make one-element sequences). *)
Fixpoint target (e : node) : bool :=
  match e with
  | SequenceExpression [e'] _ _ => target e'
  | Identifier x _ _ => negb (str_eqb x (s2l "eval") || str_eqb x (s2l "arguments"))
  | StaticMemberExpression _ _ _ _ _ | ComputedMemberExpression _ _ _ _ _ => true
  | _ => false
  end.

(** ** Literals as patterns *)
(** The left-hand side of "=" and of "in" in a for-in statement: a target, or an
    array or object literal that is read as a pattern.  Array patterns of
    assignments have no rest element in the fragment, object patterns no
    shorthand property with a default value. *)
Inductive assign_pat : node -> node -> Prop :=
| ap_target e : target e = true -> assign_pat e e
| ap_array es ps : assign_elems es ps ->
    assign_pat (ArrayExpression es ASimple nowhere) (ArrayAssignmentPattern ps ASimple nowhere)
| ap_object es ps : assign_props es ps ->
    assign_pat (ObjectExpression es ASimple nowhere) (NObjectPattern ps ASimple nowhere)
with assign_item : node -> node -> Prop :=
| ai_plain e p : assign_pat e p -> assign_item e p
| ai_default p e : assign_item (AssignmentExpression "=" p e ASimple nowhere) (NAssignmentPattern (B_Expr p) e nowhere)
with assign_elems : list (option arr_elem) -> list (option arr_apat) -> Prop :=
| ae_nil : assign_elems [] []
| ae_hole es ps : assign_elems es ps -> assign_elems (None :: es) (None :: ps)
| ae_item e p es ps : assign_item e p -> assign_elems es ps -> assign_elems (Some (AE_Expr e) :: es) (Some (AA_Expr p) :: ps)
with assign_props : list obj_prop -> list obj_pat -> Prop :=
| apr_nil : assign_props [] []
| apr_short k es ps : assign_props es ps ->
    assign_props (OE_Prop k false None "init" false true nowhere :: es) (OP_Prop k false None "init" false true :: ps)
| apr_item k c e p es ps : assign_item e p -> assign_props es ps ->
    assign_props (OE_Prop k c (Some (PV_Expr e)) "init" false false nowhere :: es) (OP_Prop k c (Some (PV_Expr p)) "init" false false :: ps)
| apr_rest e : target e = true ->
    assign_props [OE_Spread e nowhere] [OP_Rest (match e with Identifier x _ _ => B_Id x nowhere | _ => B_Expr e end)].

(** A parameter of an arrow function: an expression that is read as a binding,
    perhaps with a default value.  A binding with a default value is a name, or
    an object pattern of names; array patterns are not empty.  (The trees do not
    show it, but a comma after a rest element is not ruled out here.) *)
Definition short_pat (p : obj_pat) : bool := match p with OP_Prop _ _ None _ _ _ => true | _ => false end.
Inductive bind_pat : node -> binding -> Prop :=
| bp_id x : bind_pat (Identifier x ASimple nowhere) (B_Id x nowhere)
| bp_array es ps : es <> [] -> bind_elems es ps -> bind_pat (ArrayExpression es ASimple nowhere) (B_Array ps nowhere)
| bp_object es ps : bind_props es ps -> bind_pat (ObjectExpression es ASimple nowhere) (B_Object ps nowhere)
with bind_item : node -> binding -> option node -> Prop :=
| bi_plain e p : bind_pat e p -> bind_item e p None
| bi_default x e : bind_item (AssignmentExpression "=" (Identifier x ASimple nowhere) e ASimple nowhere) (B_Id x nowhere) (Some e)
| bi_default_object ps e : forallb short_pat ps = true ->
    bind_item (AssignmentExpression "=" (NObjectPattern ps ASimple nowhere) e ASimple nowhere) (B_Object ps nowhere) (Some e)
with bind_elems : list (option arr_elem) -> list (option arr_pat) -> Prop :=
| be_nil : bind_elems [] []
| be_hole es ps : bind_elems es ps -> bind_elems (None :: es) (None :: ps)
| be_item e p i es ps : bind_item e p i -> bind_elems es ps -> bind_elems (Some (AE_Expr e) :: es) (Some (pat_elem p i) :: ps)
| be_rest e p : bind_pat e p -> bind_elems [Some (AE_Spread e nowhere)] [Some (AP_Rest p)]
with bind_props : list obj_prop -> list obj_pat -> Prop :=
| bpr_nil : bind_props [] []
| bpr_short k es ps : bind_props es ps ->
    bind_props (OE_Prop k false None "init" false true nowhere :: es) (OP_Prop k false None "init" false true :: ps)
| bpr_item k c e p i es ps : bind_item e p i -> bind_props es ps ->
    bind_props (OE_Prop k c (Some (PV_Expr e)) "init" false false nowhere :: es) (OP_Prop k c (Some (pat_value p i)) "init" false false :: ps)
| bpr_rest e p : bind_pat e p -> bind_props [OE_Spread e nowhere] [OP_Rest p].

(** ** Conditions on the next token *)
(** The token could continue an expression or make a label of it. *)
Definition continues (k : tk) : bool :=
  match k with
  | KP p => match p with
            | RBrace | RParen | RBracket | LBrace | Semicolon | Ellipsis | Bang | Tilde | Inc | Dec => false
            | _ => true
            end
  | KW w => String.eqb w "in" || String.eqb w "instanceof"
  | KRegex _ _ | KTempl _ _ _ _ => true
  | _ => false
  end.
(** The token after a token sequence. *)
Definition next (l : list tok) (nt : tok) : tok := hd nt l.
(** The end of a statement: a semicolon, or nothing if the next token is "}" or
    the end of the source, or comes on a new line (and could not continue the
    statement, if that ends in an expression). *)
Inductive semi (expr : bool) : list tok -> tok -> Prop :=
| semi_yes b nt : semi expr [P b Semicolon] nt
| semi_brace b nt : nt = P b RBrace -> semi expr [] nt
| semi_eof b nt : nt = T b KEof -> semi expr [] nt
| semi_line nt : nl nt = true -> is_p nt Semicolon = false -> (expr = true -> continues (knd nt) = false) -> semi expr [] nt.

(** ** The grammar *)

(** Where a statement stands: inside a function, a loop, a switch. *)
Record place := mkPlace { in_fun : bool; in_loop : bool; in_sw : bool }.
Definition fun_place : place := mkPlace true false false.
Definition loop_place (c : place) : place := mkPlace (in_fun c) true (in_sw c).
Definition switch_place (c : place) : place := mkPlace (in_fun c) (in_loop c) true.

(** What is allowed where a phrase stands.  [Here]: [yield] is an operator
    (generators); [Outer]: inside a generator, but where it is not one
    (parameters, function expressions). *)
Inductive yields := NoYield | Outer | Here.
Record mode := mkMode {
  m_yield : yields;          (* [yield] *)
  m_await : bool;            (* [await] is an operator *)
  m_super : bool;            (* [super.x] is allowed *)
  m_supercall : bool;        (* [super(...)] is allowed *)
  m_target : bool;           (* [new.target] is allowed *)
  m_strict : bool            (* strict code *)
}.
Definition in_generator (M : mode) : bool := match m_yield M with NoYield => false | _ => true end.
Definition no_here (y : yields) : yields := match y with Here => Outer | y => y end.
(** Outside functions. *)
Definition top_mode (strict : bool) : mode := mkMode NoYield false false false false strict.
(** In a function expression. *)
Definition fun_mode (M : mode) : mode := mkMode (no_here (m_yield M)) false false false true (m_strict M).
(** In an async function expression. *)
Definition async_mode (M : mode) : mode := mkMode (no_here (m_yield M)) (m_await M) false false true (m_strict M).
(** In a function declaration. *)
Definition decl_mode (M : mode) (gen : bool) : mode := mkMode (if gen then Here else NoYield) false false false true (m_strict M).
(** In a method. *)
Definition method_mode (M : mode) (gen async ctor : bool) : mode := mkMode (if gen then Here else NoYield) async true ctor true (m_strict M).
(** In an arrow function. *)
Definition arrow_mode (M : mode) (async : bool) : mode := mkMode NoYield async (m_super M) (m_supercall M) (m_target M) (m_strict M).
(** In the parameters of a function. *)
Definition params_mode (M : mode) : mode := mkMode (no_here (m_yield M)) false (m_super M) (m_supercall M) (m_target M) (m_strict M).
(** In strict code, and after the directive [w]. *)
Definition strict_mode (M : mode) : mode := mkMode (m_yield M) (m_await M) (m_super M) (m_supercall M) (m_target M) true.
Definition directive_mode (M : mode) (w : str) : mode := if str_eqb w (s2l "use strict") then strict_mode M else M.
(** Inside generators, the string literal "yield" and a template whose text is
    that word do not begin an expression or a directive of the fragment (the
    parser takes them for the operator). *)
Definition not_yield (M : mode) (t : tok) : Prop :=
  in_generator M = true -> match knd t with KStr w | KTempl _ _ w _ => w <> s2l "yield" | _ => True end.

(** Nonterminals.  [inn]: "in" is allowed as an operator.  [lone]: the
    expression contains, outside parentheses, one operand that is a postfix or a
    [new] expression (the fragment has at most one such operand per chain of
    binary operators). *)
Inductive cat :=
| Primary | Member | Call (new : bool) | Left (new : bool)
| Update (lone : bool) | Unary (lone : bool) | Exp (lone : bool) | Bin (inn : bool) (q : N) (lone : bool)
| Cond (inn : bool) | Assignment (inn : bool) | Exprs (inn : bool) | Expr (inn : bool) | OptExpr
| ArrowBody (inn : bool) | Elems | Props | Prop_ | Args | ArgList | Formals | Params
| FunBody | Body (c : place) | Stmts (c : place) | Item (c : place) | Stmt (c : place) | Block (c : place)
| Decl (inn : bool) | Decls (inn : bool) | ForRest (c : place) | InRest (c : place) | OfRest (c : place)
| Case (c : place) | Cases (c : place) (default_allowed : bool)
| Template | TemplateRest | ArrowParams | Bind | BindInit | PatElems | PatProps | PatProp
| Key | Method (derived : bool) | ClassBody (derived : bool) | ClassTail.
(** What each nonterminal denotes. *)
Definition out (c : cat) : Type :=
  match c with
  | Exprs _ | Body _ | Stmts _ => list node
  | OptExpr => option node
  | ArrowBody _ => node * bool
  | Elems => list (option arr_elem)
  | Props => list obj_prop
  | Prop_ => obj_prop
  | Args | ArgList => list arg_elem
  | Formals | Params | ArrowParams => list func_param
  | Decl _ => var_declarator
  | Decls _ => list var_declarator
  | ForRest _ => option node * option node * node
  | InRest _ | OfRest _ => node * node
  | Case _ => switch_case
  | Cases _ _ => list switch_case
  | Template | TemplateRest => list template_element * list node
  | Bind => binding
  | BindInit => binding * option node
  | PatElems => list (option arr_pat)
  | PatProps => list obj_pat
  | PatProp => obj_pat
  | Key => prop_key * bool
  | Method _ => method_def
  | ClassBody _ => list method_def
  | ClassTail => option node * list method_def
  | _ => node
  end%type.

Section Grammar.
Context (E : env).

Notation at_ := nowhere (only parsing).
Definition lit_tree (v : value) : node :=
  NLiteral v (match v with VStr s => s | VNum x => f64_show E x | VPunc p => s2l (p_spell p) | VNull => s2l "null" end)
    ASimple nowhere.
Definition id_tree (x : str) : node := Identifier x ASimple nowhere.
Definition key_tree (x : str) : prop_key := PK_Id (mkId x nowhere).
(** The key of a class element is a node. *)
Definition key_node (k : prop_key) : node :=
  match k with PK_Id i => id_tree (id_name i) | PK_Lit i => lit_tree (lit_value i) | PK_Expr e => e end.

(** [gr M c l nt e]: in the mode [M], the tokens [l], followed by the token [nt], are a phrase of
    the nonterminal [c] and denote [e]. *)
Inductive gr (M : mode) : forall c : cat, list tok -> tok -> out c -> Prop :=

(* primary expressions *)
| g_this b nt : gr M Primary [W b "this"] nt (ThisExpression ASimple at_)
| g_id b x nt : ident x -> gr M Primary [Id b x] nt (id_tree x)
| g_num b x nt : gr M Primary [T b (KNum x)] nt (lit_tree (VNum x))
| g_str b w nt : gr M Primary [T b (KStr w)] nt (lit_tree (VStr w))
| g_null b nt : gr M Primary [T b KNull] nt (lit_tree VNull)
| g_bool b v nt : gr M Primary [T b (KBool v)] nt (lit_tree (VStr (s2l (if v then "true" else "false"))))
| g_paren b b' l nt es : is_p nt FatArrow = false -> gr M (Exprs true) l (P b' RParen) es ->
    gr M Primary (P b LParen :: l ++ [P b' RParen]) nt (SequenceExpression es ASimple at_)
| g_array b b' l nt es : gr M Elems l (P b' RBracket) es ->
    gr M Primary (P b LBracket :: l ++ [P b' RBracket]) nt (ArrayExpression es ASimple at_)
| g_object b b' l nt ps : no_slash nt -> gr M Props l (P b' RBrace) ps ->
    gr M Primary (P b LBrace :: l ++ [P b' RBrace]) nt (ObjectExpression ps ASimple at_)
| g_function b l l' nt ps body : no_slash nt ->
    gr (params_mode (fun_mode M)) Formals l (next l' nt) ps -> gr (fun_mode M) FunBody l' nt body ->
    gr M Primary (W b "function" :: l ++ l') nt (FunctionExpression None ps body false false false ASimple at_)
| g_function_named b b' x l l' nt ps body : no_slash nt -> ident x ->
    gr (params_mode (fun_mode M)) Formals l (next l' nt) ps -> gr (fun_mode M) FunBody l' nt body ->
    gr M Primary (W b "function" :: Id b' x :: l ++ l') nt
      (FunctionExpression (Some (id_tree x)) ps body false false false ASimple at_)
| g_async b l l' nt ps body : no_slash nt ->
    gr (params_mode (async_mode M)) Formals l (next l' nt) ps -> gr (async_mode M) FunBody l' nt body ->
    gr M Primary (Id b (s2l "async") :: W false "function" :: l ++ l') nt (FunctionExpression None ps body false false true ASimple at_)
| g_async_named b b' x l l' nt ps body : no_slash nt -> ident x ->
    gr (params_mode (async_mode M)) Formals l (next l' nt) ps -> gr (async_mode M) FunBody l' nt body ->
    gr M Primary (Id b (s2l "async") :: W false "function" :: Id b' x :: l ++ l') nt
      (FunctionExpression (Some (id_tree x)) ps body false false true ASimple at_)
| g_class b b' x l nt s ms : no_slash nt -> ident x -> gr (strict_mode M) ClassTail l nt (s, ms) ->
    gr M Primary (W b "class" :: Id b' x :: l) nt (ClassDeclaration (Some (NBindingIdentifier x at_)) s ms at_)
| g_regexp b p f nt : gr M Primary [T b (KRegex p f)] nt (RegexLiteral [] [] (mkRegex p f) ASimple at_)
| g_template l nt qs es : gr M Template l nt (qs, es) -> gr M Primary l nt (TemplateLiteral qs es ASimple at_)

(* templates: the pieces (with the text between them as written and as it is
   meant) and the expressions; expressions do not begin with a regular
   expression (see [regexp_ok]) *)
| g_template_one b w v nt : gr M Template [T b (KTempl true true w v)] nt ([mkTE v w true], [])
| g_template_head b w v l nt qs es : gr M TemplateRest l nt (qs, es) ->
    gr M Template (T b (KTempl true false w v) :: l) nt (mkTE v w false :: qs, es)
| g_template_last l b w v nt e : gr M (Expr true) l (T b (KTempl false true w v)) e ->
    gr M TemplateRest (l ++ [T b (KTempl false true w v)]) nt ([mkTE v w true], [e])
| g_template_more l b w v l' nt e qs es : gr M (Expr true) l (T b (KTempl false false w v)) e -> gr M TemplateRest l' nt (qs, es) ->
    gr M TemplateRest (l ++ T b (KTempl false false w v) :: l') nt (mkTE v w false :: qs, e :: es)

(* array elements, before "]" *)
| g_elems_nil nt : gr M Elems [] nt []
| g_elems_hole b l nt es : gr M Elems l nt es -> gr M Elems (P b Comma :: l) nt (None :: es)
| g_elems_last l nt e : gr M (Assignment true) l nt e -> gr M Elems l nt [Some (AE_Expr e)]
| g_elems_more b l l' nt e es : gr M (Assignment true) l (P b Comma) e -> gr M Elems l' nt es ->
    gr M Elems (l ++ P b Comma :: l') nt (Some (AE_Expr e) :: es)
| g_elems_spread_last b l nt e : gr M (Assignment true) l nt e ->
    gr M Elems (P b Ellipsis :: l) nt [Some (AE_Spread e at_)]
| g_elems_spread b b' l l' nt e es : gr M (Assignment true) l (P b' Comma) e -> gr M Elems l' nt es ->
    gr M Elems (P b Ellipsis :: l ++ P b' Comma :: l') nt (Some (AE_Spread e at_) :: es)

(* properties of object literals, before "}" *)
| g_props_nil nt : gr M Props [] nt []
| g_props_last l nt p : gr M Prop_ l nt p -> gr M Props l nt [p]
| g_props_more b l l' nt p ps : gr M Prop_ l (P b Comma) p -> gr M Props l' nt ps ->
    gr M Props (l ++ P b Comma :: l') nt (p :: ps)
(* a generator method can only be the last property *)
| g_props_generator b l l1 l2 nt k comp ps body : gr M Key l (next l1 nt) (k, comp) ->
    gr (params_mode (method_mode M true false false)) Formals l1 (next l2 nt) ps ->
    gr (method_mode M true false false) FunBody l2 nt body ->
    gr M Props (P b Star :: l ++ l1 ++ l2) nt
      [OE_Prop k comp (Some (PV_Fn (FnExpr None ps body true false false))) "init" true false at_]
| g_prop_init t x b l nt e : name_tok t x -> key_before x (P b Colon) -> gr M (Assignment true) l nt e ->
    gr M Prop_ (t :: P b Colon :: l) nt (OE_Prop (key_tree x) false (Some (PV_Expr e)) "init" false false at_)
| g_prop_str b w b' l nt e : gr M (Assignment true) l nt e ->
    gr M Prop_ (T b (KStr w) :: P b' Colon :: l) nt
      (OE_Prop (PK_Lit (mkLit (VStr w) [] at_)) false (Some (PV_Expr e)) "init" false false at_)
| g_prop_num b x b' l nt e : gr M (Assignment true) l nt e ->
    gr M Prop_ (T b (KNum x) :: P b' Colon :: l) nt
      (OE_Prop (PK_Lit (mkLit (VNum x) [] at_)) false (Some (PV_Expr e)) "init" false false at_)
| g_prop_computed b k b1 b2 l nt ke e : gr M (Assignment true) k (P b1 RBracket) ke -> gr M (Assignment true) l nt e ->
    gr M Prop_ (P b LBracket :: k ++ P b1 RBracket :: P b2 Colon :: l) nt
      (OE_Prop (PK_Expr ke) true (Some (PV_Expr e)) "init" false false at_)
| g_prop_short b x nt : ident x -> key_before x nt ->
    gr M Prop_ [Id b x] nt (OE_Prop (key_tree x) false None "init" false true at_)
| g_prop_method t x l l' nt ps body : name_tok t x -> key_before x (next l (next l' nt)) ->
    gr (params_mode (method_mode M false false false)) Formals l (next l' nt) ps -> gr (method_mode M false false false) FunBody l' nt body ->
    gr M Prop_ (t :: l ++ l') nt
      (OE_Prop (key_tree x) false (Some (PV_Fn (FnExpr None ps body false false false))) "init" true false at_)
| g_prop_get b t k b1 b2 l nt body : simple_key t k -> nl t = false -> gr (method_mode M false false false) FunBody l nt body ->
    gr M Prop_ (Id b (s2l "get") :: t :: P b1 LParen :: P b2 RParen :: l) nt
      (OE_Prop k false (Some (PV_Fn (FnExpr None [] body false false false))) "get" true false at_)
| g_prop_set b t k l l' nt p body : simple_key t k -> nl t = false -> rest_param p = false ->
    gr (params_mode (method_mode M false false false)) Formals l (next l' nt) [p] -> gr (method_mode M false false false) FunBody l' nt body ->
    gr M Prop_ (Id b (s2l "set") :: t :: l ++ l') nt
      (OE_Prop k false (Some (PV_Fn (FnExpr None [p] body false false false))) "set" true false at_)
| g_prop_async b t k l l' nt ps body : simple_key t k -> nl t = false ->
    gr (params_mode (method_mode M false true false)) Formals l (next l' nt) ps -> gr (method_mode M false true false) FunBody l' nt body ->
    gr M Prop_ (Id b (s2l "async") :: t :: l ++ l') nt
      (OE_Prop k false (Some (PV_AsyncFn None ps body false false true)) "init" true false at_)
| g_prop_spread b l nt e : gr M (Assignment true) l nt e -> gr M Prop_ (P b Ellipsis :: l) nt (OE_Spread e at_)

(* member, call and new expressions (names may be reserved words) *)
| g_member_primary l nt e : gr M Primary l nt e -> gr M Member l nt e
| g_member_dot l nt b t x e : gr M Member l (P b Dot) e -> name_tok t x -> is_regexp nt = false ->
    gr M Member (l ++ [P b Dot; t]) nt (StaticMemberExpression false e (id_tree x) ASimple at_)
| g_member_index l l' nt b b' e i : gr M Member l (P b LBracket) e -> gr M (Expr true) l' (P b' RBracket) i ->
    gr M Member (l ++ P b LBracket :: l' ++ [P b' RBracket]) nt (ComputedMemberExpression true e i ASimple at_)
| g_call_member l l' nt e args : gr M Member l (next l' nt) e -> gr M Args l' nt args ->
    gr M (Call false) (l ++ l') nt (CallExpression e args ASimple at_)
| g_member_template l l' nt e qs es : gr M Member l (next l' nt) e -> gr M Template l' nt (qs, es) ->
    gr M Member (l ++ l') nt (TaggedTemplateExpression e qs es at_)
| g_call_template n l l' nt e qs es : gr M (Call n) l (next l' nt) e -> gr M Template l' nt (qs, es) ->
    gr M (Call n) (l ++ l') nt (TaggedTemplateExpression e qs es at_)
| g_call_new b l l' nt e args : gr M Member l (next l' nt) e -> gr M Args l' nt args ->
    gr M (Call true) (W b "new" :: l ++ l') nt (NewExpression e args ASimple at_)
| g_call_again n l l' nt e args : gr M (Call n) l (next l' nt) e -> gr M Args l' nt args ->
    gr M (Call n) (l ++ l') nt (CallExpression e args ASimple at_)
| g_call_dot n l nt b t x e : gr M (Call n) l (P b Dot) e -> name_tok t x -> is_regexp nt = false ->
    gr M (Call n) (l ++ [P b Dot; t]) nt (StaticMemberExpression false e (id_tree x) ASimple at_)
| g_call_index n l l' nt b b' e i : gr M (Call n) l (P b LBracket) e -> gr M (Expr true) l' (P b' RBracket) i ->
    gr M (Call n) (l ++ P b LBracket :: l' ++ [P b' RBracket]) nt (ComputedMemberExpression true e i ASimple at_)
| g_left_member l nt e : gr M Member l nt e -> gr M (Left false) l nt e
| g_left_call n l nt e : gr M (Call n) l nt e -> gr M (Left n) l nt e
(* super calls and members, new.target *)
| g_call_super b l nt args : m_supercall M = true -> gr M Args l nt args ->
    gr M (Call false) (W b "super" :: l) nt (CallExpression (Super ASimple at_) args ASimple at_)
| g_call_super_dot b b' t x nt : m_super M = true -> name_tok t x -> is_regexp nt = false ->
    gr M (Call false) [W b "super"; P b' Dot; t] nt (StaticMemberExpression false (Super ASimple at_) (id_tree x) ASimple at_)
| g_call_super_index b b' l b'' nt i : m_super M = true -> gr M (Expr true) l (P b'' RBracket) i ->
    gr M (Call false) (W b "super" :: P b' LBracket :: l ++ [P b'' RBracket]) nt
      (ComputedMemberExpression true (Super ASimple at_) i ASimple at_)
| g_left_target b b' b'' nt : m_target M = true ->
    gr M (Left false) [W b "new"; P b' Dot; Id b'' (s2l "target")] nt
      (MetaProperty (id_tree (s2l "new")) (id_tree (s2l "target")) ASimple at_)
| g_left_new b l nt e : gr M Member l nt e -> gr M (Left true) (W b "new" :: l) nt (NewExpression e [] ASimple at_)
| g_args b b' l nt args : gr M ArgList l (P b' RParen) args -> gr M Args (P b LParen :: l ++ [P b' RParen]) nt args
| g_arglist_nil nt : gr M ArgList [] nt []
| g_arglist_last l nt e : gr M (Assignment true) l nt e -> gr M ArgList l nt [AR_Expr e]
| g_arglist_more b l l' nt e es : gr M (Assignment true) l (P b Comma) e -> gr M ArgList l' nt es ->
    gr M ArgList (l ++ P b Comma :: l') nt (AR_Expr e :: es)
| g_arglist_spread_last b l nt e : gr M (Assignment true) l nt e -> gr M ArgList (P b Ellipsis :: l) nt [AR_Spread e at_]
| g_arglist_spread b b' l l' nt e es : gr M (Assignment true) l (P b' Comma) e -> gr M ArgList l' nt es ->
    gr M ArgList (P b Ellipsis :: l ++ P b' Comma :: l') nt (AR_Spread e at_ :: es)

(* operators *)
| g_update_left n l nt e : gr M (Left n) l nt e -> gr M (Update n) l nt e
| g_update_postfix l p nt e : update_op p -> target e = true -> no_slash nt -> gr M (Left false) l (P false p) e ->
    gr M (Update true) (l ++ [P false p]) nt (UpdateExpression (s2l (p_spell p)) e false ASimple at_)
| g_update_prefix b p lone l nt e : update_op p -> target e = true -> gr M (Unary lone) l nt e ->
    gr M (Update lone) (P b p :: l) nt (UpdateExpression (s2l (p_spell p)) e true ASimple at_)
| g_unary_update lone l nt e : gr M (Update lone) l nt e -> gr M (Unary lone) l nt e
| g_unary_op b k lone l nt e : unary_op k -> gr M (Unary lone) l nt e ->
    gr M (Unary lone) (T b k :: l) nt (UnaryExpression (op_text k) e true ASimple at_)
| g_unary_await b lone l nt e : m_await M = true -> gr M (Unary lone) l nt e ->
    gr M (Unary lone) (W b "await" :: l) nt (UnaryExpression (s2l "await") e true ASimple at_)
| g_exp_unary lone l nt e : gr M (Unary lone) l nt e -> gr M (Exp lone) l nt e
| g_exp_pow o1 o2 l l' b nt e e' : o1 && o2 = false -> gr M (Update o1) l (P b Pow) e -> gr M (Exp o2) l' nt e' ->
    gr M (Exp (o1 || o2)) (l ++ P b Pow :: l') nt (BinaryExpression (s2l "**") e e' ASimple at_)
| g_bin_exp inn lone l nt e : gr M (Exp lone) l nt e -> gr M (Bin inn 12 lone) l nt e
| g_bin_up inn q lone l nt e : 1 <= q -> gr M (Bin inn (q + 1) lone) l nt e -> gr M (Bin inn q lone) l nt e
| g_bin_op inn q o1 o2 l b k l' nt e e' : o1 && o2 = false -> 1 <= q -> level inn k = q ->
    gr M (Bin inn q o1) l (T b k) e -> gr M (Bin inn (right_level q) o2) l' nt e' ->
    gr M (Bin inn q (o1 || o2)) (l ++ T b k :: l') nt (BinaryExpression (op_text k) e e' ASimple at_)
| g_cond_bin inn lone l nt e : gr M (Bin inn 1 lone) l nt e -> gr M (Cond inn) l nt e
| g_cond inn lone l b l1 b' l2 nt e e1 e2 : gr M (Bin inn 1 lone) l (P b Question) e ->
    gr M (Assignment true) l1 (P b' Colon) e1 -> gr M (Assignment inn) l2 nt e2 ->
    gr M (Cond inn) (l ++ P b Question :: l1 ++ P b' Colon :: l2) nt (ConditionalExpression e e1 e2 at_)
| g_assign_cond inn l nt e : not_yield M (next l nt) -> gr M (Cond inn) l nt e -> gr M (Assignment inn) l nt e
| g_assign inn n l b l' nt e p e' : not_yield M (next l nt) -> gr M (Left n) l (P b Assign) e -> assign_pat e p -> gr M (Assignment inn) l' nt e' ->
    gr M (Assignment inn) (l ++ P b Assign :: l') nt (AssignmentExpression "=" p e' ASimple at_)
| g_assign_op inn n l b p l' nt e e' : not_yield M (next l nt) -> target e = true -> assign_op p ->
    gr M (Left n) l (P b p) e -> gr M (Assignment inn) l' nt e' ->
    gr M (Assignment inn) (l ++ P b p :: l') nt (AssignmentExpression (p_spell p) e e' ASimple at_)
(* yield; its operand starts on the same line *)
| g_yield inn b nt : m_yield M = Here -> nl nt = true -> no_slash nt ->
    gr M (Assignment inn) [W b "yield"] nt (YieldExpression None false ASimple at_)
| g_yield_arg inn b l nt e : m_yield M = Here -> nl (next l nt) = false -> gr M (Assignment inn) l nt e ->
    gr M (Assignment inn) (W b "yield" :: l) nt (YieldExpression (Some e) false ASimple at_)
| g_yield_star inn b l nt e : m_yield M = Here -> gr M (Assignment inn) l nt e ->
    gr M (Assignment inn) (W b "yield" :: P false Star :: l) nt (YieldExpression (Some e) true ASimple at_)
| g_arrow_one inn b x b' l nt body ex : ident x -> gr (arrow_mode M false) (ArrowBody inn) l nt (body, ex) ->
    gr M (Assignment inn) (Id b x :: P b' FatArrow :: l) nt
      (ArrowFunctionExpression None [FP_Id x] body false ex false ASimple at_)
| g_arrow inn b l ps b' b'' l' nt body ex : gr M ArrowParams l (P b' RParen) ps -> gr (arrow_mode M false) (ArrowBody inn) l' nt (body, ex) ->
    gr M (Assignment inn) (P b LParen :: l ++ P b' RParen :: P b'' FatArrow :: l') nt
      (ArrowFunctionExpression None ps body false ex false ASimple at_)
| g_arrow_async inn b x l nt body ex : ident x -> gr (arrow_mode M true) (ArrowBody inn) l nt (body, ex) ->
    gr M (Assignment inn) (Id b (s2l "async") :: Id false x :: P false FatArrow :: l) nt
      (AsyncArrowFunctionExpression None [FP_Id x] body false ex true ASimple at_)
| g_arrow_body_expr inn l nt e : is_p (next l nt) LBrace = false -> gr M (Assignment inn) l nt e ->
    gr M (ArrowBody inn) l nt (e, true)
| g_arrow_body_block inn l nt body : no_slash nt -> gr M FunBody l nt body -> gr M (ArrowBody inn) l nt (body, false)
| g_exprs_one inn l nt e : gr M (Assignment inn) l nt e -> gr M (Exprs inn) l nt [e]
| g_exprs_more inn b l l' nt e es : gr M (Assignment inn) l (P b Comma) e -> gr M (Exprs inn) l' nt es ->
    gr M (Exprs inn) (l ++ P b Comma :: l') nt (e :: es)
| g_expr_one inn l nt e : gr M (Exprs inn) l nt [e] -> gr M (Expr inn) l nt e
| g_expr_seq inn l nt e e' es : gr M (Exprs inn) l nt (e :: e' :: es) ->
    gr M (Expr inn) l nt (SequenceExpression (e :: e' :: es) ASimple at_)
| g_opt_none nt : gr M OptExpr [] nt None
| g_opt_some l nt e : gr M (Expr true) l nt e -> gr M OptExpr l nt (Some e)

(* functions *)
| g_formals b b' l nt ps : gr M Params l (P b' RParen) ps -> gr M Formals (P b LParen :: l ++ [P b' RParen]) nt ps
| g_params_nil nt : gr M Params [] nt []
| g_params_last l nt p i : gr M BindInit l nt (p, i) -> gr M Params l nt [pat_param p i]
| g_params_more b l l' nt p i ps : gr M BindInit l (P b Comma) (p, i) -> gr M Params l' nt ps ->
    gr M Params (l ++ P b Comma :: l') nt (pat_param p i :: ps)
| g_params_rest b l nt p : gr M Bind l nt p -> gr M Params (P b Ellipsis :: l) nt [FP_Rest p]

(* parameters of arrow functions *)
| g_arrow_nil nt : gr M ArrowParams [] nt []
| g_arrow_last l nt e p i : gr M (Assignment true) l nt e -> bind_item e p i -> gr M ArrowParams l nt [pat_param p i]
| g_arrow_more b l l' nt e p i ps : gr M (Assignment true) l (P b Comma) e -> bind_item e p i -> gr M ArrowParams l' nt ps ->
    gr M ArrowParams (l ++ P b Comma :: l') nt (pat_param p i :: ps)
| g_arrow_rest b l nt p : gr M Bind l nt p -> gr M ArrowParams (P b Ellipsis :: l) nt [FP_Rest p]

(* binding patterns; the key of "key: pattern" is a literal, even if written as a
   name *)
| g_bind_id b x nt : ident x -> gr M Bind [Id b x] nt (B_Id x at_)
| g_bind_array b l b' nt es : no_slash nt -> gr M PatElems l (P b' RBracket) es ->
    gr M Bind (P b LBracket :: l ++ [P b' RBracket]) nt (B_Array es at_)
| g_bind_object b l b' nt ps : no_slash nt -> gr M PatProps l (P b' RBrace) ps ->
    gr M Bind (P b LBrace :: l ++ [P b' RBrace]) nt (B_Object ps at_)
| g_bind_plain l nt p : gr M Bind l nt p -> gr M BindInit l nt (p, None)
| g_bind_init l b l' nt p e : gr M Bind l (P b Assign) p -> gr M (Assignment true) l' nt e ->
    gr M BindInit (l ++ P b Assign :: l') nt (p, Some e)
| g_pat_elems_nil nt : gr M PatElems [] nt []
| g_pat_elems_hole b l nt es : gr M PatElems l nt es -> gr M PatElems (P b Comma :: l) nt (None :: es)
| g_pat_elems_last l nt p i : gr M BindInit l nt (p, i) -> gr M PatElems l nt [Some (pat_elem p i)]
| g_pat_elems_more b l l' nt p i es : gr M BindInit l (P b Comma) (p, i) -> gr M PatElems l' nt es ->
    gr M PatElems (l ++ P b Comma :: l') nt (Some (pat_elem p i) :: es)
| g_pat_elems_rest b l nt p : gr M Bind l nt p -> gr M PatElems (P b Ellipsis :: l) nt [Some (AP_Rest p)]
| g_pat_props_nil nt : gr M PatProps [] nt []
| g_pat_props_last l nt p : gr M PatProp l nt p -> gr M PatProps l nt [p]
| g_pat_props_more b l l' nt p ps : gr M PatProp l (P b Comma) p -> gr M PatProps l' nt ps ->
    gr M PatProps (l ++ P b Comma :: l') nt (p :: ps)
| g_pat_props_rest b l nt p : gr M Bind l nt p -> gr M PatProps (P b Ellipsis :: l) nt [OP_Rest p]
| g_pat_prop_short b x nt : ident x -> gr M PatProp [Id b x] nt (OP_Prop (key_tree x) false None "init" false true)
| g_pat_prop_short_init b x b' l nt e : ident x -> gr M (Assignment true) l nt e ->
    gr M PatProp (Id b x :: P b' Assign :: l) nt (OP_Prop (key_tree x) false (Some (PV_Assign (B_Id x at_) e)) "init" false true)
| g_pat_prop_name t x b l nt p i : name_tok t x -> gr M BindInit l nt (p, i) ->
    gr M PatProp (t :: P b Colon :: l) nt
      (OP_Prop (PK_Lit (mkLit (VStr x) [] at_)) false (Some (pat_value p i)) "init" false false)
| g_pat_prop_str b w b' l nt p i : gr M BindInit l nt (p, i) ->
    gr M PatProp (T b (KStr w) :: P b' Colon :: l) nt
      (OP_Prop (PK_Lit (mkLit (VStr w) [] at_)) false (Some (pat_value p i)) "init" false false)
| g_pat_prop_num b x b' l nt p i : gr M BindInit l nt (p, i) ->
    gr M PatProp (T b (KNum x) :: P b' Colon :: l) nt
      (OP_Prop (PK_Lit (mkLit (VNum x) [] at_)) false (Some (pat_value p i)) "init" false false)
| g_pat_prop_computed b k b1 b2 l nt ke p i : gr M (Assignment true) k (P b1 RBracket) ke -> gr M BindInit l nt (p, i) ->
    gr M PatProp (P b LBracket :: k ++ P b1 RBracket :: P b2 Colon :: l) nt
      (OP_Prop (PK_Expr ke) true (Some (pat_value p i)) "init" false false)
| g_funbody b b' l nt ss : gr M (Body fun_place) l (P b' RBrace) ss ->
    gr M FunBody (P b LBrace :: l ++ [P b' RBrace]) nt (BlockStatement ss at_)
| g_body_directive c b w sl l nt ss : not_yield M (T b (KStr w)) -> semi true sl (next l nt) -> gr (directive_mode M w) (Body c) l nt ss ->
    gr M (Body c) (T b (KStr w) :: sl ++ l) nt (ExpressionStatement (lit_tree (VStr w)) at_ :: ss)
| g_body c l nt ss : (forall b w, next l nt <> T b (KStr w)) -> gr M (Stmts c) l nt ss -> gr M (Body c) l nt ss

(* statements *)
| g_stmts_nil c nt : gr M (Stmts c) [] nt []
| g_stmts_cons c l l' nt s ss : gr M (Item c) l (next l' nt) s -> gr M (Stmts c) l' nt ss ->
    gr M (Stmts c) (l ++ l') nt (s :: ss)
| g_item_stmt c l nt s : gr M (Stmt c) l nt s -> gr M (Item c) l nt s
| g_item_let c b l sl nt ds : gr M (Decls true) l (next sl nt) ds -> semi true sl nt ->
    gr M (Item c) (Id b (s2l "let") :: l ++ sl) nt (VariableDeclaration ds "let" at_)
| g_item_const c b l sl nt ds : (forall d, In d ds -> exists x e, d = VarDeclarator x (Some e)) ->
    gr M (Decls true) l (next sl nt) ds -> semi true sl nt ->
    gr M (Item c) (W b "const" :: l ++ sl) nt (VariableDeclaration ds "const" at_)
| g_item_function c b b' x l l' nt ps body : ident x ->
    gr (params_mode (decl_mode M false)) Formals l (next l' nt) ps -> gr (decl_mode M false) FunBody l' nt body ->
    gr M (Item c) (W b "function" :: Id b' x :: l ++ l') nt
      (FunctionDeclaration (Some (NBindingIdentifier x at_)) ps body false false false at_)
| g_item_generator c b b1 b' x l l' nt ps body : ident x ->
    gr (params_mode (decl_mode M true)) Formals l (next l' nt) ps -> gr (decl_mode M true) FunBody l' nt body ->
    gr M (Item c) (W b "function" :: P b1 Star :: Id b' x :: l ++ l') nt
      (FunctionDeclaration (Some (NBindingIdentifier x at_)) ps body true false false at_)
| g_item_class c b b' x l nt s ms : ident x -> gr (strict_mode M) ClassTail l nt (s, ms) ->
    gr M (Item c) (W b "class" :: Id b' x :: l) nt (ClassDeclaration (Some (NBindingIdentifier x at_)) s ms at_)
| g_decl inn b x nt : ident x -> gr M (Decl inn) [Id b x] nt (VarDeclarator (B_Id x at_) None)
| g_decl_init inn l b l' nt p e : gr M Bind l (P b Assign) p -> gr M (Assignment inn) l' nt e ->
    gr M (Decl inn) (l ++ P b Assign :: l') nt (VarDeclarator p (Some e))
| g_decls_one inn l nt d : gr M (Decl inn) l nt d -> gr M (Decls inn) l nt [d]
| g_decls_more inn b l l' nt d ds : gr M (Decl inn) l (P b Comma) d -> gr M (Decls inn) l' nt ds ->
    gr M (Decls inn) (l ++ P b Comma :: l') nt (d :: ds)
| g_block c b b' l nt ss : gr M (Stmts c) l (P b' RBrace) ss ->
    gr M (Block c) (P b LBrace :: l ++ [P b' RBrace]) nt (BlockStatement ss at_)
| g_stmt_block c l nt s : gr M (Block c) l nt s -> gr M (Stmt c) l nt s
| g_stmt_empty c b nt : gr M (Stmt c) [P b Semicolon] nt (EmptyStatement at_)
| g_stmt_var c b l sl nt ds : gr M (Decls true) l (next sl nt) ds -> semi true sl nt ->
    gr M (Stmt c) (W b "var" :: l ++ sl) nt (VariableDeclaration ds "var" at_)
| g_stmt_expr c l sl nt e : is_p (next l nt) LBrace = false -> is_w (next l nt) "function" = false -> is_w (next l nt) "class" = false -> async_arrow l ->
    gr M (Expr true) l (next sl nt) e -> semi true sl nt ->
    gr M (Stmt c) (l ++ sl) nt (ExpressionStatement e at_)
| g_stmt_label c b x b' l nt s : ident x -> gr M (Stmt c) l nt s ->
    gr M (Stmt c) (Id b x :: P b' Colon :: l) nt (LabeledStatement (mkId x at_) s at_)
| g_stmt_label_function c b0 x0 b1 b b' x l l' nt ps body : m_strict M = false -> ident x0 -> ident x ->
    gr (params_mode (decl_mode M false)) Formals l (next l' nt) ps -> gr (decl_mode M false) FunBody l' nt body ->
    gr M (Stmt c) (Id b0 x0 :: P b1 Colon :: W b "function" :: Id b' x :: l ++ l') nt
      (LabeledStatement (mkId x0 at_)
         (FunctionDeclaration (Some (NBindingIdentifier x at_)) ps body false false false at_) at_)
| g_stmt_with c b b1 l b2 l' nt e s : m_strict M = false -> gr M (Expr true) l (P b2 RParen) e -> gr M (Stmt c) l' nt s ->
    gr M (Stmt c) (W b "with" :: P b1 LParen :: l ++ P b2 RParen :: l') nt (WithStatement e s at_)
| g_stmt_if c b b1 l b2 l' nt e s : gr M (Expr true) l (P b2 RParen) e -> gr M (Stmt c) l' nt s -> is_w nt "else" = false ->
    gr M (Stmt c) (W b "if" :: P b1 LParen :: l ++ P b2 RParen :: l') nt (IfStatement e s None at_)
| g_stmt_if_else c b b1 l b2 l1 b3 l2 nt e s s' : gr M (Expr true) l (P b2 RParen) e ->
    gr M (Stmt c) l1 (W b3 "else") s -> gr M (Stmt c) l2 nt s' ->
    gr M (Stmt c) (W b "if" :: P b1 LParen :: l ++ P b2 RParen :: l1 ++ W b3 "else" :: l2) nt (IfStatement e s (Some s') at_)
| g_stmt_while c b b1 l b2 l' nt e s : gr M (Expr true) l (P b2 RParen) e -> gr M (Stmt (loop_place c)) l' nt s ->
    gr M (Stmt c) (W b "while" :: P b1 LParen :: l ++ P b2 RParen :: l') nt (WhileStatement e s at_)
| g_stmt_do c b l b1 b2 l' b3 sl nt s e : gr M (Stmt (loop_place c)) l (W b1 "while") s ->
    gr M (Expr true) l' (P b3 RParen) e -> semi false sl nt ->
    gr M (Stmt c) (W b "do" :: l ++ W b1 "while" :: P b2 LParen :: l' ++ P b3 RParen :: sl) nt (DoWhileStatement s e at_)

(* for statements; an initial expression is always wrapped in a sequence *)
| g_for_none c b b1 l nt t u s : gr M (ForRest c) l nt (t, u, s) ->
    gr M (Stmt c) (W b "for" :: P b1 LParen :: l) nt (ForStatement None t u s at_)
| g_for_expr c b b1 l l' nt e t u s : gr M (Assignment false) l (next l' nt) e -> gr M (ForRest c) l' nt (t, u, s) ->
    gr M (Stmt c) (W b "for" :: P b1 LParen :: l ++ l') nt
      (ForStatement (Some (SequenceExpression [e] ASimple at_)) t u s at_)
| g_for_exprs c b b1 l b2 l1 l' nt e es t u s : gr M (Assignment false) l (P b2 Comma) e ->
    gr M (Exprs true) l1 (next l' nt) es -> gr M (ForRest c) l' nt (t, u, s) ->
    gr M (Stmt c) (W b "for" :: P b1 LParen :: l ++ P b2 Comma :: l1 ++ l') nt
      (ForStatement (Some (SequenceExpression (e :: es) ASimple at_)) t u s at_)
| g_for_decl c b b1 b0 k kind l l' nt d t u s :
    (k, kind) = (KW "var", "var"%string) \/ (k, kind) = (KI (s2l "let"), "let"%string) \/ (k, kind) = (KW "const", "const"%string) ->
    gr M (Decl false) l (next l' nt) d -> gr M (ForRest c) l' nt (t, u, s) ->
    gr M (Stmt c) (W b "for" :: P b1 LParen :: T b0 k :: l ++ l') nt
      (ForStatement (Some (VariableDeclaration [d] kind at_)) t u s at_)
| g_for_decls c b b1 b0 k kind l b2 l1 l' nt d ds t u s :
    (k, kind) = (KW "var", "var"%string) \/ (k, kind) = (KI (s2l "let"), "let"%string) \/ (k, kind) = (KW "const", "const"%string) ->
    gr M (Decl false) l (P b2 Comma) d -> gr M (Decls true) l1 (next l' nt) ds -> gr M (ForRest c) l' nt (t, u, s) ->
    gr M (Stmt c) (W b "for" :: P b1 LParen :: T b0 k :: l ++ P b2 Comma :: l1 ++ l') nt
      (ForStatement (Some (VariableDeclaration (d :: ds) kind at_)) t u s at_)
| g_for_rest c b l b1 l1 b2 l2 nt t u s : gr M OptExpr l (P b1 Semicolon) t -> gr M OptExpr l1 (P b2 RParen) u ->
    gr M (Stmt (loop_place c)) l2 nt s ->
    gr M (ForRest c) (P b Semicolon :: l ++ P b1 Semicolon :: l1 ++ P b2 RParen :: l2) nt (t, u, s)
| g_for_in_decl c b b1 b2 k l l' nt p e s : In k [KW "var"; KI (s2l "let"); KW "const"] ->
    gr M Bind l (next l' nt) p -> gr M (InRest c) l' nt (e, s) ->
    gr M (Stmt c) (W b "for" :: P b1 LParen :: T b2 k :: l ++ l') nt
      (ForInStatement (bind_node p) e s false at_)
| g_for_in c b b1 n l l' nt e' p e s : not_yield M (next l nt) -> gr M (Left n) l (next l' nt) e' -> assign_pat e' p -> gr M (InRest c) l' nt (e, s) ->
    gr M (Stmt c) (W b "for" :: P b1 LParen :: l ++ l') nt (ForInStatement p e s false at_)
| g_in_rest c b l b1 l' nt e s : gr M (Expr true) l (P b1 RParen) e -> gr M (Stmt (loop_place c)) l' nt s ->
    gr M (InRest c) (W b "in" :: l ++ P b1 RParen :: l') nt (e, s)
| g_for_of c b b1 b2 k l l' nt p e s : In k [KI (s2l "let"); KW "const"] ->
    gr M Bind l (next l' nt) p -> gr M (OfRest c) l' nt (e, s) ->
    gr M (Stmt c) (W b "for" :: P b1 LParen :: T b2 k :: l ++ l') nt
      (ForOfStatement (bind_node p) e s at_)
| g_of_rest c b l b1 l' nt e s : gr M (Assignment true) l (P b1 RParen) e -> gr M (Stmt (loop_place c)) l' nt s ->
    gr M (OfRest c) (Id b (s2l "of") :: l ++ P b1 RParen :: l') nt (e, s)

(* jumps *)
| g_stmt_continue c b sl nt : in_loop c = true -> semi false sl nt ->
    gr M (Stmt c) (W b "continue" :: sl) nt (ContinueStatement None at_)
| g_stmt_continue_label c b x sl nt : ident x -> semi false sl nt ->
    gr M (Stmt c) (W b "continue" :: Id false x :: sl) nt (ContinueStatement (Some (id_tree x)) at_)
| g_stmt_break c b sl nt : in_loop c || in_sw c = true -> semi false sl nt ->
    gr M (Stmt c) (W b "break" :: sl) nt (BreakStatement None at_)
| g_stmt_break_label c b x sl nt : ident x -> semi false sl nt ->
    gr M (Stmt c) (W b "break" :: Id false x :: sl) nt (BreakStatement (Some (id_tree x)) at_)
| g_stmt_return c b sl nt : in_fun c = true -> (exists b', sl = [P b' Semicolon]) \/ (sl = [] /\ nl nt = true /\ is_p nt Semicolon = false) ->
    gr M (Stmt c) (W b "return" :: sl) nt (ReturnStatement None at_)
| g_stmt_return_expr c b l sl nt e : in_fun c = true -> nl (next l nt) = false ->
    gr M (Expr true) l (next sl nt) e -> semi true sl nt ->
    gr M (Stmt c) (W b "return" :: l ++ sl) nt (ReturnStatement (Some e) at_)
| g_stmt_throw c b l sl nt e : nl (next l nt) = false -> gr M (Expr true) l (next sl nt) e -> semi true sl nt ->
    gr M (Stmt c) (W b "throw" :: l ++ sl) nt (ThrowStatement e at_)
| g_stmt_debugger c b sl nt : semi false sl nt -> gr M (Stmt c) (W b "debugger" :: sl) nt (DebuggerStatement at_)

(* try, switch *)
| g_stmt_try_catch c b l b1 b2 l0 b4 l' nt s p s' : gr M (Block c) l (W b1 "catch") s -> gr M Bind l0 (P b4 RParen) p ->
    gr M (Block c) l' nt s' -> is_w nt "finally" = false ->
    gr M (Stmt c) (W b "try" :: l ++ W b1 "catch" :: P b2 LParen :: l0 ++ P b4 RParen :: l') nt
      (TryStatement s (Some (CatchClause (Some p) s')) None at_)
| g_stmt_try_catch0 c b l b1 l' nt s s' : gr M (Block c) l (W b1 "catch") s ->
    gr M (Block c) l' nt s' -> is_w nt "finally" = false ->
    gr M (Stmt c) (W b "try" :: l ++ W b1 "catch" :: l') nt (TryStatement s (Some (CatchClause None s')) None at_)
| g_stmt_try_finally c b l b1 l' nt s s' : gr M (Block c) l (W b1 "finally") s -> gr M (Block c) l' nt s' ->
    gr M (Stmt c) (W b "try" :: l ++ W b1 "finally" :: l') nt (TryStatement s None (Some s') at_)
| g_stmt_try_both c b l b1 b2 l0 b4 l1 b5 l2 nt s p s1 s2 : gr M (Block c) l (W b1 "catch") s -> gr M Bind l0 (P b4 RParen) p ->
    gr M (Block c) l1 (W b5 "finally") s1 -> gr M (Block c) l2 nt s2 ->
    gr M (Stmt c) (W b "try" :: l ++ W b1 "catch" :: P b2 LParen :: l0 ++ P b4 RParen :: l1 ++ W b5 "finally" :: l2) nt
      (TryStatement s (Some (CatchClause (Some p) s1)) (Some s2) at_)
| g_stmt_try_both0 c b l b1 l1 b5 l2 nt s s1 s2 : gr M (Block c) l (W b1 "catch") s ->
    gr M (Block c) l1 (W b5 "finally") s1 -> gr M (Block c) l2 nt s2 ->
    gr M (Stmt c) (W b "try" :: l ++ W b1 "catch" :: l1 ++ W b5 "finally" :: l2) nt
      (TryStatement s (Some (CatchClause None s1)) (Some s2) at_)
| g_stmt_switch c b b1 l b2 b3 l' b4 nt e cs : gr M (Expr true) l (P b2 RParen) e ->
    gr M (Cases (switch_place c) true) l' (P b4 RBrace) cs ->
    gr M (Stmt c) (W b "switch" :: P b1 LParen :: l ++ P b2 RParen :: P b3 LBrace :: l' ++ [P b4 RBrace]) nt
      (SwitchStatement e cs at_)
| g_case c b l b1 l' nt e ss : gr M (Expr true) l (P b1 Colon) e -> gr M (Stmts c) l' nt ss ->
    gr M (Case c) (W b "case" :: l ++ P b1 Colon :: l') nt (SwitchCase (Some e) ss)
| g_case_default c b b1 l nt ss : gr M (Stmts c) l nt ss ->
    gr M (Case c) (W b "default" :: P b1 Colon :: l) nt (SwitchCase None ss)
| g_cases_one c d l nt ss t : gr M (Case c) l nt (SwitchCase t ss) -> (t = None -> d = true) ->
    gr M (Cases c d) l nt [SwitchCase t ss]
| g_cases_more c d l l' nt t ss cs : gr M (Case c) l (next l' nt) (SwitchCase t ss) -> (t = None -> d = true) ->
    gr M (Cases c (match t with None => false | Some _ => d end)) l' nt cs ->
    gr M (Cases c d) (l ++ l') nt (SwitchCase t ss :: cs)

(* classes (their code is strict: see g_class, g_item_class) *)
| g_key_name t x nt : name_tok t x -> gr M Key [t] nt (key_tree x, false)
| g_key_computed b l b' nt e : gr M (Assignment true) l (P b' RBracket) e ->
    gr M Key (P b LBracket :: l ++ [P b' RBracket]) nt (PK_Expr e, true)
| g_method d l l1 l2 nt k comp ps body : plain_key l -> gr M Key l (next l1 nt) (k, comp) ->
    gr (params_mode (method_mode M false false (d && is_ctor k))) Formals l1 (next l2 nt) ps ->
    gr (method_mode M false false (d && is_ctor k)) FunBody l2 nt body ->
    gr M (Method d) (l ++ l1 ++ l2) nt
      (MethodDef (key_node k) comp (Some (FnExpr None ps body false false false)) (if is_ctor k then "constructor" else "method") false)
| g_method_get d b l b1 b2 l2 nt k comp body : is_ctor k = false -> gr M Key l (P b1 LParen) (k, comp) ->
    gr (method_mode M false false false) FunBody l2 nt body ->
    gr M (Method d) (Id b (s2l "get") :: l ++ P b1 LParen :: P b2 RParen :: l2) nt
      (MethodDef (key_node k) comp (Some (FnExpr None [] body false false false)) "get" false)
| g_method_set d b l l1 l2 nt k comp p body : is_ctor k = false -> rest_param p = false -> gr M Key l (next l1 nt) (k, comp) ->
    gr (params_mode (method_mode M false false false)) Formals l1 (next l2 nt) [p] ->
    gr (method_mode M false false false) FunBody l2 nt body ->
    gr M (Method d) (Id b (s2l "set") :: l ++ l1 ++ l2) nt
      (MethodDef (key_node k) comp (Some (FnExpr None [p] body false false false)) "set" false)
| g_method_gen d b l l1 l2 nt k comp ps body : is_ctor k = false -> gr M Key l (next l1 nt) (k, comp) ->
    gr (params_mode (method_mode M true false false)) Formals l1 (next l2 nt) ps ->
    gr (method_mode M true false false) FunBody l2 nt body ->
    gr M (Method d) (P b Star :: l ++ l1 ++ l2) nt
      (MethodDef (key_node k) comp (Some (FnExpr None ps body true false false)) "method" false)
| g_method_asyncgen d b l l1 l2 nt k comp ps body : is_ctor k = false -> gr M Key l (next l1 nt) (k, comp) ->
    gr (params_mode (method_mode M true true false)) Formals l1 (next l2 nt) ps ->
    gr (method_mode M true true false) FunBody l2 nt body ->
    gr M (Method d) (Id b (s2l "async") :: P false Star :: l ++ l1 ++ l2) nt
      (MethodDef (key_node k) comp (Some (FnExpr None ps body true false true)) "method" false)
| g_class_nil d nt : gr M (ClassBody d) [] nt []
| g_class_semi d b l nt ms : gr M (ClassBody d) l nt ms -> gr M (ClassBody d) (P b Semicolon :: l) nt ms
| g_class_cons d l l' nt x ms : gr M (Method d) l (next l' nt) x -> gr M (ClassBody d) l' nt ms ->
    gr M (ClassBody d) (l ++ l') nt (x :: ms)
| g_class_tail b l b' nt ms : gr M (ClassBody false) l (P b' RBrace) ms ->
    gr M ClassTail (P b LBrace :: l ++ [P b' RBrace]) nt (None, ms)
| g_class_extends b0 l0 b l b' nt e ms : gr M (Left false) l0 (P b LBrace) e -> gr M (ClassBody true) l (P b' RBrace) ms ->
    gr M ClassTail (W b0 "extends" :: l0 ++ P b LBrace :: l ++ [P b' RBrace]) nt (Some e, ms).

(** Scripts: the tokens of a source, with the end-of-source token; they are not
    strict unless they say so. *)
Definition top_place : place := mkPlace false false false.
Inductive a_script : list tok -> list node -> Prop :=
| g_program b l ss : gr (top_mode false) (Body top_place) l (T b KEof) ss -> a_script (l ++ [T b KEof]) ss.

(** ** Modules *)
Definition name_id (x : str) : identifier := mkId x nowhere.
(** "x" and "x as y" in the braces of an import and of an export. *)
Inductive import_name : list tok -> import_spec -> Prop :=
| in_same b x : ident x -> import_name [Id b x] (ImportSpec (name_id x) (name_id x))
| in_as t x b b' y : name_tok t x -> ident y -> import_name [t; Id b (s2l "as"); Id b' y] (ImportSpec (name_id y) (name_id x)).
(* the parser puts the name before "as" in [exported], the one after it in [local] *)
Inductive export_name : list tok -> export_spec -> Prop :=
| en_same t x : name_tok t x -> export_name [t] (mkExport (name_id x) (name_id x))
| en_as t x b t' y : name_tok t x -> name_tok t' y -> export_name [t; Id b (s2l "as"); t'] (mkExport (name_id x) (name_id y)).
(** Comma-separated, with an optional comma at the end. *)
Inductive listed {A} (one : list tok -> A -> Prop) : list tok -> list A -> Prop :=
| ls_nil : listed one [] []
| ls_last l x : one l x -> listed one l [x]
| ls_more l x b l' xs : one l x -> listed one l' xs -> listed one (l ++ P b Comma :: l') (x :: xs).
(** What is imported: everything under a name, or names in braces; *)
Inductive import_group : list tok -> list import_spec -> Prop :=
| ig_all b b1 b2 x : ident x -> import_group [P b Star; Id b1 (s2l "as"); Id b2 x] [ImportNamespace (name_id x)]
| ig_names b l b' xs : listed import_name l xs -> import_group (P b LBrace :: l ++ [P b' RBrace]) xs.
(** ... or the default export under a name (the tree does not tell that it is the default), or both. *)
Inductive import_clause : list tok -> list import_spec -> Prop :=
| ic_group l xs : import_group l xs -> import_clause l xs
| ic_default b x : ident x -> import_clause [Id b x] [ImportSpec (name_id x) (name_id x)]
| ic_both b x b' l xs : ident x -> import_group l xs -> import_clause (Id b x :: P b' Comma :: l) (ImportSpec (name_id x) (name_id x) :: xs).
(** The name of a declaration, and the star of a generator. *)
Inductive opt_name : list tok -> option node -> Prop :=
| on_none : opt_name [] None
| on_some b x : ident x -> opt_name [Id b x] (Some (NBindingIdentifier x nowhere)).
Inductive opt_star : list tok -> bool -> Prop :=
| os_none : opt_star [] false
| os_star b : opt_star [P b Star] true.
Definition from_tree (w : str) : literal := mkLit (VStr w) w nowhere.

Inductive module_item (M : mode) : list tok -> tok -> node -> Prop :=
| mi_item l nt s : gr M (Item top_place) l nt s -> module_item M l nt s
| mi_import b l b1 b2 w sl nt xs : import_clause l xs -> semi false sl nt ->
    module_item M (W b "import" :: l ++ Id b1 (s2l "from") :: T b2 (KStr w) :: sl) nt (ImportDeclaration xs (from_tree w) at_)
| mi_export_all b b0 b1 b2 w sl nt : semi false sl nt ->
    module_item M (W b "export" :: P b0 Star :: Id b1 (s2l "from") :: T b2 (KStr w) :: sl) nt (ExportAllDeclaration (from_tree w) at_)
(* without a semicolon (the parser makes it an empty statement) *)
| mi_export_names b b1 l b2 nt xs : listed export_name l xs -> nl nt = true \/ knd nt = KEof -> is_p nt Semicolon = false ->
    module_item M (W b "export" :: P b1 LBrace :: l ++ [P b2 RBrace]) nt (ExportNamedDeclaration None xs None at_)
| mi_export_decl b b1 w l nt s : In w ["var"; "const"; "function"; "class"]%string -> gr M (Item top_place) (W b1 w :: l) nt s ->
    module_item M (W b "export" :: W b1 w :: l) nt (ExportNamedDeclaration (Some s) [] None at_)
| mi_default_expr b b1 l sl nt e : is_w (next l nt) "function" = false -> is_w (next l nt) "class" = false ->
    (forall b2 l0, l <> Id b2 (s2l "async") :: l0) -> gr M (Assignment true) l (next sl nt) e -> semi true sl nt ->
    module_item M (W b "export" :: W b1 "default" :: l ++ sl) nt (ExportDefaultDeclaration e at_)
| mi_default_function b b1 b2 g gen nm id l l' nt ps body : opt_star g gen -> opt_name nm id ->
    gr (params_mode (decl_mode M gen)) Formals l (next l' nt) ps -> gr (decl_mode M gen) FunBody l' nt body ->
    module_item M (W b "export" :: W b1 "default" :: W b2 "function" :: g ++ nm ++ l ++ l') nt
      (ExportDefaultDeclaration (FunctionDeclaration id ps body gen false false at_) at_)
(* the parser wants a name for the class *)
| mi_default_class b b1 b2 b3 x l nt s ms : ident x -> gr (strict_mode M) ClassTail l nt (s, ms) ->
    module_item M (W b "export" :: W b1 "default" :: W b2 "class" :: Id b3 x :: l) nt
      (ExportDefaultDeclaration (ClassDeclaration (Some (NBindingIdentifier x at_)) s ms at_) at_).
Inductive module_items (M : mode) (nt : tok) : list tok -> list node -> Prop :=
| ms_nil : module_items M nt [] []
| ms_cons l l' s ss : module_item M l (next l' nt) s -> module_items M nt l' ss -> module_items M nt (l ++ l') (s :: ss).
Inductive module_body (M : mode) (nt : tok) : list tok -> list node -> Prop :=
| mb_directive b w sl l ss : semi true sl (next l nt) -> module_body (directive_mode M w) nt l ss ->
    module_body M nt (T b (KStr w) :: sl ++ l) (ExpressionStatement (lit_tree (VStr w)) at_ :: ss)
| mb_items l ss : (forall b w, next l nt <> T b (KStr w)) -> module_items M nt l ss -> module_body M nt l ss.
Inductive a_module : list tok -> list node -> Prop :=
| g_module b l ss : module_body (top_mode true) (T b KEof) l ss -> a_module (l ++ [T b KEof]) ss.
Definition program (is_module : bool) : list tok -> list node -> Prop := if is_module then a_module else a_script.

End Grammar.
