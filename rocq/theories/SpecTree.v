(** * SpecTree: vocabulary for properties of syntax trees.  Only definitions;
    nothing of the parser is used, only the types of Ast.v. *)
From Verif Require Import Base Punct Token Ast.
From Verif Require Import SpecLex.

(** ** The parts of a tree *)

(** Every kind of thing a tree is made of. *)
Inductive part :=
| T_Node (x : node) | T_Elem (x : arr_elem) | T_Bind (x : binding) | T_APat (x : arr_pat) | T_AAPat (x : arr_apat)
| T_Key (x : prop_key) | T_Val (x : prop_value) | T_OPat (x : obj_pat) | T_Param (x : func_param) | T_Arg (x : arg_elem)
| T_Prop (x : obj_prop) | T_Meth (x : method_def) | T_Fn (x : fn_expr) | T_Case (x : switch_case)
| T_Decl (x : var_declarator) | T_Catch (x : catch_clause).

(** The position of a child in its parent: function body, function parameter,
    body of a loop, name introduced by a declaration, sub-pattern, anything else. *)
Inductive role := Body | Param | LoopBody | Name | Sub | Other.

Definition one (r : role) (x : part) : list (role * part) := [(r, x)].
Definition on {A} (r : role) (T : A -> part) (l : list A) : list (role * part) := map (fun x => (r, T x)) l.
Definition opt {A} (r : role) (T : A -> part) (o : option A) : list (role * part) :=
  match o with Some x => [(r, T x)] | None => [] end.
Fixpoint opts {A} (r : role) (T : A -> part) (l : list (option A)) : list (role * part) :=
  match l with [] => [] | Some x :: l' => (r, T x) :: opts r T l' | None :: l' => opts r T l' end.

Definition function_children (id : option node) (params : list func_param) (body : node) : list (role * part) :=
  opt Other T_Node id ++ on Param T_Param params ++ one Body (T_Node body).

(** The immediate children of a part, in source order. *)
Definition children (a : part) : list (role * part) :=
  match a with
  | T_Node n =>
    match n with
    | ArrayExpression es _ _ => opts Other T_Elem es
    | NArrayPattern es _ _ => opts Other T_APat es
    | ArrayAssignmentPattern es _ _ => opts Other T_AAPat es
    | ArrowFunctionExpression id ps b _ _ _ _ _ | AsyncArrowFunctionExpression id ps b _ _ _ _ _
    | AsyncFunctionExpression id ps b _ _ _ _ _ | FunctionExpression id ps b _ _ _ _ _
    | FunctionDeclaration id ps b _ _ _ _ | AsyncFunctionDeclaration id ps b _ _ _ _ => function_children id ps b
    | AssignmentExpression _ l r _ _ | BinaryExpression _ l r _ _ | LogicalExpression _ l r _ =>
      one Other (T_Node l) ++ one Other (T_Node r)
    | NAssignmentPattern l r _ => one Other (T_Bind l) ++ one Other (T_Node r)
    | AssignmentRestElement e _ | AwaitExpression e _ | NSpreadElement e _ => one Other (T_Node e)
    | NRestElement b _ => one Other (T_Bind b)
    | NBindingIdentifier _ _ | Identifier _ _ _ | NLiteral _ _ _ _ | RegexLiteral _ _ _ _ _ | ThisExpression _ _
    | Super _ _ | DebuggerStatement _ | EmptyStatement _ => []
    | CallExpression c args _ _ | NewExpression c args _ _ => one Other (T_Node c) ++ on Other T_Arg args
    | ClassExpression id s b _ _ | ClassDeclaration id s b _ =>
      opt Other T_Node id ++ opt Other T_Node s ++ on Other T_Meth b
    | ComputedMemberExpression _ o p _ _ | StaticMemberExpression _ o p _ _ | MetaProperty o p _ _ =>
      one Other (T_Node o) ++ one Other (T_Node p)
    | ConditionalExpression t c a _ => one Other (T_Node t) ++ one Other (T_Node c) ++ one Other (T_Node a)
    | ObjectExpression ps _ _ => on Other T_Prop ps
    | NObjectPattern ps _ _ => on Other T_OPat ps
    | SequenceExpression es _ _ => on Other T_Node es
    | TaggedTemplateExpression t _ es _ => one Other (T_Node t) ++ on Other T_Node es
    | TemplateLiteral _ es _ _ => on Other T_Node es
    | UnaryExpression _ e _ _ _ | UpdateExpression _ e _ _ _ => one Other (T_Node e)
    | YieldExpression e _ _ _ => opt Other T_Node e
    | ArrowParameterPlaceHolder ps _ _ => on Param T_Param ps
    | BreakStatement l _ | ContinueStatement l _ => opt Other T_Node l
    | DoWhileStatement b t _ => one LoopBody (T_Node b) ++ one Other (T_Node t)
    | ExpressionStatement e _ | Directive e _ _ | ThrowStatement e _ => one Other (T_Node e)
    | ForStatement i t u b _ =>
      opt Other T_Node i ++ opt Other T_Node t ++ opt Other T_Node u ++ one LoopBody (T_Node b)
    | ForInStatement l r b _ _ | ForOfStatement l r b _ =>
      one Other (T_Node l) ++ one Other (T_Node r) ++ one LoopBody (T_Node b)
    | IfStatement t c a _ => one Other (T_Node t) ++ one Other (T_Node c) ++ opt Other T_Node a
    | ReturnStatement e _ => opt Other T_Node e
    | SwitchStatement d cs _ => one Other (T_Node d) ++ on Other T_Case cs
    | TryStatement b h f _ => one Other (T_Node b) ++ opt Other T_Catch h ++ opt Other T_Node f
    | VariableDeclaration ds _ _ => on Other T_Decl ds
    | WhileStatement t b _ => one Other (T_Node t) ++ one LoopBody (T_Node b)
    | WithStatement o b _ => one Other (T_Node o) ++ one Other (T_Node b)
    | BlockStatement b _ | Module b _ _ | Program b _ _ => on Other T_Node b
    | ExportAllDeclaration _ _ | ImportDeclaration _ _ _ | NImportDefaultSpecifier _ _
    | NImportNamespaceSpecifier _ _ | NImportSpecifier _ _ _ => []
    | ExportDefaultDeclaration d _ => one Other (T_Node d)
    | ExportNamedDeclaration d _ _ _ => opt Other T_Node d
    | LabeledStatement _ b _ => one Other (T_Node b)
    end
  | T_Elem (AE_Expr e) | T_Elem (AE_Spread e _) => one Other (T_Node e)
  | T_Bind (B_Id _ _) => []
  | T_Bind (B_Array es _) => opts Sub T_APat es
  | T_Bind (B_Object ps _) => on Sub T_OPat ps
  | T_Bind (B_Expr e) => one Other (T_Node e)
  | T_APat (AP_Assign l r) => one Sub (T_Bind l) ++ one Other (T_Node r)
  | T_APat (AP_Id _) => []
  | T_APat (AP_Array es) => opts Sub T_APat es
  | T_APat (AP_Object ps) => on Sub T_OPat ps
  | T_APat (AP_Rest b) => one Sub (T_Bind b)
  | T_AAPat (AA_Expr e) => one Other (T_Node e)
  | T_AAPat (AA_Rest b) => one Other (T_Bind b)
  | T_Key (PK_Expr e) => one Other (T_Node e)
  | T_Key _ => []
  | T_Val (PV_Assign l r) => one Sub (T_Bind l) ++ one Other (T_Node r)
  | T_Val (PV_AsyncFn id ps b _ _ _) => function_children id ps b
  | T_Val (PV_BindId _ _) => []
  | T_Val (PV_ArrayPat es) => opts Sub T_APat es
  | T_Val (PV_ObjectPat ps) => on Sub T_OPat ps
  | T_Val (PV_Fn f) => one Other (T_Fn f)
  | T_Val (PV_Expr e) => one Other (T_Node e)
  | T_OPat (OP_Prop k _ v _ _ _) => one Other (T_Key k) ++ opt Sub T_Val v
  | T_OPat (OP_Rest b) => one Sub (T_Bind b)
  | T_Param (FP_Assign l r) => one Sub (T_Bind l) ++ one Other (T_Node r)
  | T_Param (FP_Id _) => []
  | T_Param (FP_Array es) => opts Sub T_APat es
  | T_Param (FP_Object ps) => on Sub T_OPat ps
  | T_Param (FP_Rest b) => one Sub (T_Bind b)
  | T_Arg (AR_Expr e) | T_Arg (AR_Spread e _) => one Other (T_Node e)
  | T_Prop (OE_Prop k _ v _ _ _ _) => one Other (T_Key k) ++ opt Other T_Val v
  | T_Prop (OE_Spread e _) => one Other (T_Node e)
  | T_Meth (MethodDef k _ v _ _) => one Other (T_Node k) ++ opt Other T_Fn v
  | T_Fn (FnExpr id ps b _ _ _) => function_children id ps b
  | T_Case (SwitchCase t c) => opt Other T_Node t ++ on Other T_Node c
  | T_Decl (VarDeclarator id i) => one Name (T_Bind id) ++ opt Other T_Node i
  | T_Catch (CatchClause p b) => opt Name T_Bind p ++ one Other (T_Node b)
  end.

(** [occurs t path x]: [x] is a part of [t]; [path] lists its proper ancestors
    from the inside out, each with the role of the child that leads to [x]. *)
Inductive occurs (t : part) : list (part * role) -> part -> Prop :=
| occ_root : occurs t [] t
| occ_child path x r y : occurs t path x -> In (r, y) (children x) -> occurs t ((x, r) :: path) y.

Definition part_of (t : node) (x : part) : Prop := exists path, occurs (T_Node t) path x.

(** The source spans written in a part itself (not in its children). *)
Definition opt_span (l : option literal) : list span := match l with Some x => [lit_span x] | None => [] end.
Definition import_spans (i : import_spec) : list span :=
  match i with
  | ImportDefault l | ImportNamespace l => [id_span l]
  | ImportSpec l i => [id_span l; id_span i]
  end.
Definition own_spans (a : part) : list span :=
  match a with
  | T_Node n =>
    match n with
    | ArrayExpression _ _ sp | NArrayPattern _ _ sp | ArrayAssignmentPattern _ _ sp
    | ArrowFunctionExpression _ _ _ _ _ _ _ sp | AssignmentExpression _ _ _ _ sp
    | NAssignmentPattern _ _ sp | AssignmentRestElement _ sp
    | AsyncArrowFunctionExpression _ _ _ _ _ _ _ sp | AsyncFunctionExpression _ _ _ _ _ _ _ sp
    | AwaitExpression _ sp | BinaryExpression _ _ _ _ sp | NBindingIdentifier _ sp
    | LogicalExpression _ _ _ sp | CallExpression _ _ _ sp | ClassExpression _ _ _ _ sp
    | ComputedMemberExpression _ _ _ _ sp | ConditionalExpression _ _ _ sp | Identifier _ _ sp
    | FunctionExpression _ _ _ _ _ _ _ sp | NLiteral _ _ _ sp | NewExpression _ _ _ sp
    | ObjectExpression _ _ sp | NObjectPattern _ _ sp | RegexLiteral _ _ _ _ sp
    | SequenceExpression _ _ sp | StaticMemberExpression _ _ _ _ sp
    | TaggedTemplateExpression _ _ _ sp | ThisExpression _ sp | UnaryExpression _ _ _ _ sp
    | UpdateExpression _ _ _ _ sp | YieldExpression _ _ _ sp | ArrowParameterPlaceHolder _ _ sp
    | NRestElement _ sp | NSpreadElement _ sp | Super _ sp | TemplateLiteral _ _ _ sp
    | MetaProperty _ _ _ sp | AsyncFunctionDeclaration _ _ _ _ _ _ sp | BreakStatement _ sp
    | ContinueStatement _ sp | DebuggerStatement sp | DoWhileStatement _ _ sp | EmptyStatement sp
    | ExpressionStatement _ sp | Directive _ _ sp | ForStatement _ _ _ _ sp | ForInStatement _ _ _ _ sp
    | ForOfStatement _ _ _ sp | FunctionDeclaration _ _ _ _ _ _ sp | IfStatement _ _ _ sp
    | ReturnStatement _ sp | SwitchStatement _ _ sp | ThrowStatement _ sp | TryStatement _ _ _ sp
    | VariableDeclaration _ _ sp | WhileStatement _ _ sp | WithStatement _ _ sp | BlockStatement _ sp
    | ClassDeclaration _ _ _ sp | ExportDefaultDeclaration _ sp | Module _ _ sp | Program _ _ sp => [sp]
    | ExportAllDeclaration l sp => [lit_span l; sp]
    | ExportNamedDeclaration _ ss l sp =>
      flat_map (fun s => [id_span (ex_exported s); id_span (ex_local s)]) ss ++ opt_span l ++ [sp]
    | ImportDeclaration ss l sp => flat_map import_spans ss ++ [lit_span l; sp]
    | NImportDefaultSpecifier i sp | NImportNamespaceSpecifier i sp | LabeledStatement i _ sp => [id_span i; sp]
    | NImportSpecifier i j sp => [id_span i; id_span j; sp]
    end
  | T_Elem (AE_Spread _ sp) | T_Arg (AR_Spread _ sp) | T_Prop (OE_Spread _ sp) | T_Prop (OE_Prop _ _ _ _ _ _ sp)
  | T_Bind (B_Id _ sp) | T_Bind (B_Array _ sp) | T_Bind (B_Object _ sp) | T_Val (PV_BindId _ sp) => [sp]
  | T_Key (PK_Id i) => [id_span i]
  | T_Key (PK_Lit l) => [lit_span l]
  | _ => []
  end.

(** ** Regions of the source *)

Definition is_class (a : part) : bool :=
  match a with T_Node (ClassDeclaration _ _ _ _) | T_Node (ClassExpression _ _ _ _ _) => true | _ => false end.
Definition is_switch (a : part) : bool := match a with T_Node (SwitchStatement _ _ _) => true | _ => false end.
Definition is_module_root (a : part) : bool :=
  match a with T_Node (Program _ ty _) => String.eqb ty "module" | _ => false end.
Definition is_arrow (a : part) : bool :=
  match a with
  | T_Node (ArrowFunctionExpression _ _ _ _ _ _ _ _) | T_Node (AsyncArrowFunctionExpression _ _ _ _ _ _ _ _) => true
  | _ => false
  end.
(** A function marked generator / async. *)
Definition is_generator (a : part) : bool :=
  match a with
  | T_Node (ArrowFunctionExpression _ _ _ g _ _ _ _) | T_Node (AsyncArrowFunctionExpression _ _ _ g _ _ _ _)
  | T_Node (AsyncFunctionExpression _ _ _ g _ _ _ _) | T_Node (FunctionExpression _ _ _ g _ _ _ _)
  | T_Node (FunctionDeclaration _ _ _ g _ _ _) | T_Node (AsyncFunctionDeclaration _ _ _ g _ _ _)
  | T_Val (PV_AsyncFn _ _ _ g _ _) | T_Fn (FnExpr _ _ _ g _ _) => g
  | _ => false
  end.
Definition is_async (a : part) : bool :=
  match a with
  | T_Node (ArrowFunctionExpression _ _ _ _ _ b _ _) | T_Node (AsyncArrowFunctionExpression _ _ _ _ _ b _ _)
  | T_Node (AsyncFunctionExpression _ _ _ _ _ b _ _) | T_Node (FunctionExpression _ _ _ _ _ b _ _)
  | T_Node (FunctionDeclaration _ _ _ _ _ b _) | T_Node (AsyncFunctionDeclaration _ _ _ _ _ b _)
  | T_Val (PV_AsyncFn _ _ _ _ _ b) | T_Fn (FnExpr _ _ _ _ _ b) => b
  | _ => false
  end.
(** The statements of a function body or program. *)
Definition statements_of (body : node) : list node := match body with BlockStatement l _ => l | _ => [] end.
Definition code_of (a : part) : list node :=
  match a with
  | T_Node (ArrowFunctionExpression _ _ b _ _ _ _ _) | T_Node (AsyncArrowFunctionExpression _ _ b _ _ _ _ _)
  | T_Node (AsyncFunctionExpression _ _ b _ _ _ _ _) | T_Node (FunctionExpression _ _ b _ _ _ _ _)
  | T_Node (FunctionDeclaration _ _ b _ _ _ _) | T_Node (AsyncFunctionDeclaration _ _ b _ _ _ _)
  | T_Val (PV_AsyncFn _ _ b _ _ _) | T_Fn (FnExpr _ _ b _ _ _) => statements_of b
  | T_Node (Program l _ _) => l
  | _ => []
  end.
(** The statement list starts with string-literal statements among which is
    "use strict".  (giron represents the literals [true] and [false] by the
    strings "true" and "false"; they end the prologue.) *)
Fixpoint use_strict (l : list node) : bool :=
  match l with
  | ExpressionStatement (NLiteral (VStr v) _ _ _) _ :: l' =>
    if str_eqb v (s2l "use strict") then true
    else if str_eqb v (s2l "true") || str_eqb v (s2l "false") then false
    else use_strict l'
  | _ => false
  end.

(** Where an occurrence lies, read off its path. *)
Definition inside (P : part -> role -> bool) (path : list (part * role)) : Prop :=
  exists x r, In (x, r) path /\ P x r = true.
Definition body_step (x : part) (r : role) : bool := match r with Body => true | _ => false end.
Definition loop_step (x : part) (r : role) : bool := match r with LoopBody => true | _ => false end.
Definition switch_step (x : part) (r : role) : bool := is_switch x.
Definition own_code (r : role) : bool := match r with Body | Param => true | _ => false end.
Definition generator_step (x : part) (r : role) : bool := own_code r && is_generator x.
Definition async_step (x : part) (r : role) : bool :=
  own_code r && is_async x || match r with Body => is_arrow x | _ => false end.
(** A class, a function body with a "use strict" prologue, such a program, or a module. *)
Definition strict_step (x : part) (r : role) : bool :=
  is_class x || is_module_root x ||
  match r with
  | Body => use_strict (code_of x)
  | Other => match x with T_Node (Program l _ _) => use_strict l | _ => false end
  | _ => false
  end.

(** The part of a path that lies inside the innermost function body. *)
Fixpoint own_function (path : list (part * role)) : list (part * role) :=
  match path with (x, r) :: p => if body_step x r then [] else (x, r) :: own_function p | [] => [] end.
(** A condition that depends on strictness, at the strictness of the place. *)
Definition at_strictness (path : list (part * role)) (P : bool -> Prop) : Prop := P false /\ (inside strict_step path -> P true).

(** ** Kinds of nodes *)

(** Nodes that are expressions.  giron uses [ClassDeclaration] for class expressions too. *)
Definition is_expr (n : node) : bool :=
  match n with
  | ArrayExpression _ _ _ | ArrowFunctionExpression _ _ _ _ _ _ _ _ | AssignmentExpression _ _ _ _ _
  | AsyncArrowFunctionExpression _ _ _ _ _ _ _ _ | BinaryExpression _ _ _ _ _ | CallExpression _ _ _ _
  | ClassDeclaration _ _ _ _ | ComputedMemberExpression _ _ _ _ _ | ConditionalExpression _ _ _ _ | Identifier _ _ _
  | FunctionExpression _ _ _ _ _ _ _ _ | NLiteral _ _ _ _ | NewExpression _ _ _ _ | ObjectExpression _ _ _
  | RegexLiteral _ _ _ _ _ | SequenceExpression _ _ _ | StaticMemberExpression _ _ _ _ _
  | TaggedTemplateExpression _ _ _ _ | ThisExpression _ _ | UnaryExpression _ _ _ _ _ | UpdateExpression _ _ _ _ _
  | YieldExpression _ _ _ _ | TemplateLiteral _ _ _ _ | MetaProperty _ _ _ _ => true
  | _ => false
  end.
(** Statements that may stand alone as the body of if, loops, with, labels. *)
Definition is_plain_statement (n : node) : bool :=
  match n with
  | BreakStatement _ _ | ContinueStatement _ _ | DebuggerStatement _ | DoWhileStatement _ _ _ | EmptyStatement _
  | ExpressionStatement _ _ | ForStatement _ _ _ _ _ | ForInStatement _ _ _ _ _ | ForOfStatement _ _ _ _
  | IfStatement _ _ _ _ | ReturnStatement _ _ | SwitchStatement _ _ _ | ThrowStatement _ _ | TryStatement _ _ _ _
  | WhileStatement _ _ _ | WithStatement _ _ _ | BlockStatement _ _ | LabeledStatement _ _ _ => true
  | VariableDeclaration _ k _ => String.eqb k "var"
  | _ => false
  end.
(** Declarations (functions and classes with a name). *)
Definition is_declaration (n : node) : bool :=
  match n with
  | VariableDeclaration _ _ _ | FunctionDeclaration (Some _) _ _ _ _ _ _ | ClassDeclaration (Some _) _ _ _ => true
  | _ => false
  end.
(** Statements and declarations: what a statement list consists of. *)
Definition is_item (n : node) : bool := is_plain_statement n || is_declaration n.
Definition is_module_item (n : node) : bool :=
  is_item n ||
  match n with
  | ExportAllDeclaration _ _ | ExportDefaultDeclaration _ _ | ExportNamedDeclaration _ _ _ _
  | ImportDeclaration _ _ _ => true
  | _ => false
  end.
Definition is_block (n : node) : bool := match n with BlockStatement _ _ => true | _ => false end.
Definition is_identifier (n : node) : bool := match n with Identifier _ _ _ => true | _ => false end.
Definition is_name (n : node) : bool := match n with Identifier _ _ _ | NBindingIdentifier _ _ => true | _ => false end.
Definition is_super (n : node) : bool := match n with Super _ _ => true | _ => false end.
Definition is_function_declaration (n : node) : bool :=
  match n with FunctionDeclaration _ _ _ _ _ _ _ => true | _ => false end.
(** A function declaration with a name that is not a generator. *)
Definition is_plain_function (n : node) : bool :=
  match n with FunctionDeclaration (Some _) _ _ g _ _ _ => negb g | _ => false end.
Definition is_literal (n : node) : bool := match n with NLiteral _ _ _ _ => true | _ => false end.
Definition is_declaration_list (n : node) : bool := match n with VariableDeclaration _ _ _ => true | _ => false end.
Definition is_pattern_node (n : node) : bool :=
  match n with NObjectPattern _ _ _ | ArrayAssignmentPattern _ _ _ => true | _ => false end.
Definition is_binding_node (n : node) : bool :=
  match n with NBindingIdentifier _ _ | NArrayPattern _ _ _ | NObjectPattern _ _ _ => true | _ => false end.
Definition all_opt {A} (P : A -> bool) (o : option A) : Prop := match o with Some x => P x = true | None => True end.

(** ** Assignment targets *)
(** A name (in strict code neither "eval" nor "arguments"), a property access,
    or one of these in parentheses. *)
Inductive simple_target (strict : bool) : node -> Prop :=
| st_name name a sp : (strict = true -> name <> s2l "eval" /\ name <> s2l "arguments") -> simple_target strict (Identifier name a sp)
| st_dot c o p a sp : simple_target strict (StaticMemberExpression c o p a sp)
| st_index c o p a sp : simple_target strict (ComputedMemberExpression c o p a sp)
| st_paren e a sp : simple_target strict e -> simple_target strict (SequenceExpression [e] a sp).
Definition assign_target (strict : bool) (n : node) : Prop := simple_target strict n \/ is_pattern_node n = true.
(** An element of a destructuring assignment: a target, possibly with a default. *)
Definition element_target (strict : bool) (n : node) : Prop :=
  assign_target strict n \/ exists l r sp, n = NAssignmentPattern (B_Expr l) r sp /\ assign_target strict l.

(** ** Operators *)
(** Binding strength of the binary operators.  As in ECMAScript, except that
    "%" binds tighter than the other two multiplicative operators (a defect). *)
Definition operator_levels : list (string * N) :=
  [("||", 1); ("&&", 2); ("|", 3); ("^", 4); ("&", 5); ("==", 6); ("!=", 6); ("===", 6); ("!==", 6);
   ("<", 7); (">", 7); ("<=", 7); (">=", 7); ("in", 7); ("instanceof", 7); ("<<", 8); (">>", 8); (">>>", 8);
   ("+", 9); ("-", 9); ("*", 10); ("/", 10); ("%", 11)]%string.
Fixpoint lookup {A} (o : str) (l : list (string * A)) : option A :=
  match l with [] => None | (k, v) :: l' => if str_eqb o (s2l k) then Some v else lookup o l' end.
Definition power : str := s2l "**".
(** The strength with which an expression holds together when written without
    parentheses around it: 1-11 binary operators, 12 "**", 13 prefix operators,
    14 "++" and "--", 0 what is looser than all operators.  A parenthesised
    expression is a [SequenceExpression]; it and all primary, member and call
    forms have 15.  (Arrow functions too: giron accepts them as operands without
    parentheses, a defect.) *)
Definition level (n : node) : N :=
  match n with
  | BinaryExpression o _ _ _ _ => match lookup o operator_levels with Some v => v | None => 12 end
  | UnaryExpression _ _ _ _ _ => 13
  | UpdateExpression _ _ _ _ _ => 14
  | ConditionalExpression _ _ _ _ | AssignmentExpression _ _ _ _ _ | YieldExpression _ _ _ _ => 0
  | _ => 15
  end.
(** What the operands of a binary operator must satisfy. *)
Definition operands_ok (o : str) (l r : node) : Prop :=
  match lookup o operator_levels with
  | Some v => v <= level l /\ v < level r
  | None => o = power /\ 14 <= level l /\ 12 <= level r
  end.
Definition assign_operators : list string :=
  ["="; "+="; "-="; "*="; "%="; "**="; "<<="; ">>="; ">>>="; "&="; "|="; "^="; "/="]%string.
Definition unary_operators : list string := ["+"; "-"; "~"; "!"; "delete"; "void"; "typeof"; "await"]%string.
Definition one_of (o : str) (l : list string) : Prop := exists x, In x l /\ o = s2l x.
Definition update_operators : list string := ["++"; "--"]%string.

(** ** Lists *)
(** No element satisfying [P] is followed by another element. *)
Definition only_last {A} (P : A -> bool) (l : list A) : Prop :=
  forall pre x post, l = pre ++ x :: post -> P x = true -> post = [].
Definition rest_apat (x : option arr_pat) : bool := match x with Some (AP_Rest _) => true | _ => false end.
Definition rest_aapat (x : option arr_apat) : bool := match x with Some (AA_Rest _) => true | _ => false end.
Definition rest_opat (x : obj_pat) : bool := match x with OP_Rest _ => true | _ => false end.
Definition rest_param (x : func_param) : bool := match x with FP_Rest _ => true | _ => false end.
(** The parameter / element lists a part contains. *)
Definition params_of (a : part) : list func_param :=
  match a with
  | T_Node (ArrowFunctionExpression _ ps _ _ _ _ _ _) | T_Node (AsyncArrowFunctionExpression _ ps _ _ _ _ _ _)
  | T_Node (AsyncFunctionExpression _ ps _ _ _ _ _ _) | T_Node (FunctionExpression _ ps _ _ _ _ _ _)
  | T_Node (FunctionDeclaration _ ps _ _ _ _ _) | T_Node (AsyncFunctionDeclaration _ ps _ _ _ _ _)
  | T_Node (ArrowParameterPlaceHolder ps _ _)
  | T_Val (PV_AsyncFn _ ps _ _ _ _) | T_Fn (FnExpr _ ps _ _ _ _) => ps
  | _ => []
  end.
Definition apats_of (a : part) : list (option arr_pat) :=
  match a with
  | T_Node (NArrayPattern es _ _) | T_Bind (B_Array es _) | T_APat (AP_Array es) | T_Val (PV_ArrayPat es)
  | T_Param (FP_Array es) => es
  | _ => []
  end.
Definition aapats_of (a : part) : list (option arr_apat) :=
  match a with T_Node (ArrayAssignmentPattern es _ _) => es | _ => [] end.
Definition opats_of (a : part) : list obj_pat :=
  match a with
  | T_Node (NObjectPattern ps _ _) | T_Bind (B_Object ps _) | T_APat (AP_Object ps) | T_Val (PV_ObjectPat ps)
  | T_Param (FP_Object ps) => ps
  | _ => []
  end.
Definition is_default (x : switch_case) : bool := match x with SwitchCase None _ => true | _ => false end.
Definition at_most_one {A} (P : A -> bool) (l : list A) : Prop := (length (filter P l) <= 1)%nat.
(** One more text piece than expressions; exactly the last piece is the tail. *)
Definition template_shape (qs : list template_element) (es : list node) : Prop :=
  length qs = S (length es) /\
  exists pre q, qs = pre ++ [q] /\ te_tail q = true /\ Forall (fun x => te_tail x = false) pre.

(** ** Positions *)
(** A position inside a source of [len] characters with [lines] lines. *)
Definition marker_within (len lines : N) (m : marker) : Prop := mk_idx m <= len /\ 1 <= mk_line m <= lines.
Definition span_within (len lines : N) (sp : span) : Prop :=
  marker_within len lines (sp_start sp) /\ marker_within len lines (sp_end sp).
(** The number of lines of a source: one plus its line terminators. *)
Definition line_count (src : str) : N := 1 + breaks src [].

(** ** Properties and methods *)
(** Parameters, generator and async flag of a function that is the value of a property. *)
Definition value_function (v : option prop_value) : option (list func_param * bool * bool) :=
  match v with
  | Some (PV_Fn (FnExpr _ ps _ g _ a)) | Some (PV_AsyncFn _ ps _ g _ a) => Some (ps, g, a)
  | _ => None
  end.
Definition is_computed_key (k : prop_key) : bool := match k with PK_Expr _ => true | _ => false end.
Definition object_kinds : list string := ["init"; "get"; "set"]%string.
Definition method_kinds : list string := ["constructor"; "method"; "get"; "set"]%string.
Definition declaration_kinds : list string := ["var"; "let"; "const"]%string.

(** ** Declared patterns *)
(** The occurrence is (part of) a pattern that declares variables: the target of
    a declarator, a catch parameter, or a parameter of a function that is not an arrow function. *)
Fixpoint declared (path : list (part * role)) : Prop :=
  match path with
  | (_, Sub) :: p => declared p
  | (_, Name) :: _ => True
  | (x, Param) :: _ => is_arrow x = false
  | _ => False
  end.

(** ** Nodes that never occur *)
Definition never_emitted (n : node) : bool :=
  match n with
  | AssignmentRestElement _ _ | AsyncFunctionExpression _ _ _ _ _ _ _ _ | AwaitExpression _ _
  | LogicalExpression _ _ _ _ | ClassExpression _ _ _ _ _ | ArrowParameterPlaceHolder _ _ _ | NSpreadElement _ _
  | NRestElement _ _ | AsyncFunctionDeclaration _ _ _ _ _ _ _ | Directive _ _ _ | NImportDefaultSpecifier _ _
  | NImportNamespaceSpecifier _ _ | NImportSpecifier _ _ _ | Module _ _ _ => true
  | _ => false
  end.
Definition is_import_export (n : node) : bool :=
  match n with
  | ExportAllDeclaration _ _ | ExportDefaultDeclaration _ _ | ExportNamedDeclaration _ _ _ _ | ImportDeclaration _ _ _ => true
  | _ => false
  end.
