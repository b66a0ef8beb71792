(** * Ast: the syntax tree (estree/estree.rs, span/span.rs).

    Types and constructors follow estree.rs; where several Rust types share a
    variant name the constructor carries a prefix.  Static strings
    ([&'static str]) are Coq [string]s; owned strings are [str]. *)
From Verif Require Import Base Punct Token.

(** span.rs:5-9 *)
Record marker := mkMarker { mk_line : N; mk_col : N; mk_idx : N }.
(** span.rs:13-16 *)
Record span := mkSpan { sp_start : marker; sp_end : marker }.

(** The values taken by [assign_target_type: &'static str]. *)
Inductive att := ASimple | AInvalid | AStrict.
Definition att_eqb (a b : att) : bool :=
  match a, b with ASimple, ASimple | AInvalid, AInvalid | AStrict, AStrict => true | _, _ => false end.

(** estree.rs:173-179 *)
Record identifier := mkId { id_name : str; id_span : span }.
(** estree.rs:181-188 *)
Record literal := mkLit { lit_value : value; lit_raw : str; lit_span : span }.
(** estree.rs:60-65 *)
Record regex := mkRegex { rx_pattern : str; rx_flags : list N }.
(** estree.rs:384-396 *)
Record template_element := mkTE { te_cooked : str; te_raw : str; te_tail : bool }.
(** estree.rs:14-27 *)
Inductive import_spec :=
| ImportDefault (local : identifier)
| ImportNamespace (local : identifier)
| ImportSpec (local imported : identifier).
(** estree.rs:36-41 *)
Record export_spec := mkExport { ex_exported : identifier; ex_local : identifier }.

(** estree.rs:418-914 and the auxiliary types.  [Module], [ImportDefaultSpecifier],
    [ImportNamespaceSpecifier], [ImportSpecifier] as [Node] variants are kept. *)
Inductive node :=
| ArrayExpression (elements : list (option arr_elem)) (a : att) (sp : span)
| NArrayPattern (elements : list (option arr_pat)) (a : att) (sp : span)
| ArrayAssignmentPattern (elements : list (option arr_apat)) (a : att) (sp : span)
| ArrowFunctionExpression (id : option node) (params : list func_param) (body : node)
    (generator expression async : bool) (a : att) (sp : span)
| AssignmentExpression (operator : string) (left right : node) (a : att) (sp : span)
| NAssignmentPattern (left : binding) (right : node) (sp : span)
| AssignmentRestElement (argument : node) (sp : span)
| AsyncArrowFunctionExpression (id : option node) (params : list func_param) (body : node)
    (generator expression async : bool) (a : att) (sp : span)
| AsyncFunctionExpression (id : option node) (params : list func_param) (body : node)
    (generator expression async : bool) (a : att) (sp : span)
| AwaitExpression (argument : node) (sp : span)
| BinaryExpression (operator : str) (left right : node) (a : att) (sp : span)
| NBindingIdentifier (name : str) (sp : span)
| LogicalExpression (operator : string) (left right : node) (sp : span)
| CallExpression (callee : node) (arguments : list arg_elem) (a : att) (sp : span)
| ClassExpression (id super_class : option node) (body : list method_def) (a : att) (sp : span)
| ComputedMemberExpression (computed : bool) (object property : node) (a : att) (sp : span)
| ConditionalExpression (test consequent alternate : node) (sp : span)
| Identifier (name : str) (a : att) (sp : span)
| FunctionExpression (id : option node) (params : list func_param) (body : node)
    (generator expression async : bool) (a : att) (sp : span)
| NLiteral (v : value) (raw : str) (a : att) (sp : span)
| NewExpression (callee : node) (arguments : list arg_elem) (a : att) (sp : span)
| ObjectExpression (properties : list obj_prop) (a : att) (sp : span)
| NObjectPattern (properties : list obj_pat) (a : att) (sp : span)
| RegexLiteral (v : str) (raw : str) (rx : regex) (a : att) (sp : span)
| SequenceExpression (expressions : list node) (a : att) (sp : span)
| StaticMemberExpression (computed : bool) (object property : node) (a : att) (sp : span)
| TaggedTemplateExpression (tag : node) (quasis : list template_element) (expressions : list node) (sp : span)
| ThisExpression (a : att) (sp : span)
| UnaryExpression (operator : str) (argument : node) (prefix : bool) (a : att) (sp : span)
| UpdateExpression (operator : str) (argument : node) (prefix : bool) (a : att) (sp : span)
| YieldExpression (argument : option node) (delegate : bool) (a : att) (sp : span)
| ArrowParameterPlaceHolder (params : list func_param) (async : bool) (sp : span)
| NRestElement (argument : binding) (sp : span)
| NSpreadElement (argument : node) (sp : span)
| Super (a : att) (sp : span)
| TemplateLiteral (quasis : list template_element) (expressions : list node) (a : att) (sp : span)
| MetaProperty (meta property : node) (a : att) (sp : span)
| AsyncFunctionDeclaration (id : option node) (params : list func_param) (body : node)
    (generator expression async : bool) (sp : span)
| BreakStatement (label : option node) (sp : span)
| ContinueStatement (label : option node) (sp : span)
| DebuggerStatement (sp : span)
| DoWhileStatement (body test : node) (sp : span)
| EmptyStatement (sp : span)
| ExpressionStatement (expression : node) (sp : span)
| Directive (expression : node) (directive : str) (sp : span)
| ForStatement (init test update : option node) (body : node) (sp : span)
| ForInStatement (left right body : node) (each : bool) (sp : span)
| ForOfStatement (left right body : node) (sp : span)
| FunctionDeclaration (id : option node) (params : list func_param) (body : node)
    (generator expression async : bool) (sp : span)
| IfStatement (test consequent : node) (alternate : option node) (sp : span)
| ReturnStatement (argument : option node) (sp : span)
| SwitchStatement (discriminant : node) (cases : list switch_case) (sp : span)
| ThrowStatement (argument : node) (sp : span)
| TryStatement (block : node) (handler : option catch_clause) (finalizer : option node) (sp : span)
| VariableDeclaration (declarations : list var_declarator) (kind : string) (sp : span)
| WhileStatement (test body : node) (sp : span)
| WithStatement (object body : node) (sp : span)
| BlockStatement (body : list node) (sp : span)
| ClassDeclaration (id super_class : option node) (body : list method_def) (sp : span)
| ExportAllDeclaration (source : literal) (sp : span)
| ExportDefaultDeclaration (declaration : node) (sp : span)
| ExportNamedDeclaration (declaration : option node) (specifiers : list export_spec)
    (source : option literal) (sp : span)
| ImportDeclaration (specifiers : list import_spec) (source : literal) (sp : span)
| NImportDefaultSpecifier (local : identifier) (sp : span)
| NImportNamespaceSpecifier (local : identifier) (sp : span)
| NImportSpecifier (local imported : identifier) (sp : span)
| LabeledStatement (label : identifier) (body : node) (sp : span)
| Module (body : list node) (source_type : str) (sp : span)
| Program (body : list node) (source_type : string) (sp : span)

(** estree.rs:67-81 [ArrayExpressionElement] (the [SpreadElement] struct inlined) *)
with arr_elem :=
| AE_Expr (e : node)
| AE_Spread (argument : node) (sp : span)

(** estree.rs:99-106 [Binding] (structs [BindingIdentifier], [ArrayPattern],
    [ObjectPattern] inlined) *)
with binding :=
| B_Id (name : str) (sp : span)
| B_Array (elements : list (option arr_pat)) (sp : span)
| B_Object (properties : list obj_pat) (sp : span)
| B_Expr (e : node)

(** estree.rs:139-158 [ArrayPatternElement] *)
with arr_pat :=
| AP_Assign (left : binding) (right : node)
| AP_Id (name : str)
| AP_Array (elements : list (option arr_pat))
| AP_Object (properties : list obj_pat)
| AP_Rest (argument : binding)

(** estree.rs:166-171 [ArrayAssignmentPatternElement] *)
with arr_apat :=
| AA_Expr (e : node)
| AA_Rest (argument : binding)

(** estree.rs:191-197 [PropertyKey] *)
with prop_key :=
| PK_Id (i : identifier)
| PK_Lit (l : literal)
| PK_Expr (e : node)

(** estree.rs:257-266 [PropertyValue]; [BindingPattern] (285-295) inlined *)
with prop_value :=
| PV_Assign (left : binding) (right : node)
| PV_AsyncFn (id : option node) (params : list func_param) (body : node) (generator expression async : bool)
| PV_BindId (name : str) (sp : span)
| PV_ArrayPat (elements : list (option arr_pat))
| PV_ObjectPat (properties : list obj_pat)
| PV_Fn (f : fn_expr)
| PV_Expr (e : node)

(** estree.rs:269-283 [ObjectPatternProperty] *)
with obj_pat :=
| OP_Prop (key : prop_key) (computed : bool) (v : option prop_value) (kind : string) (method shorthand : bool)
| OP_Rest (argument : binding)

(** estree.rs:298-317 [FunctionParameter] *)
with func_param :=
| FP_Assign (left : binding) (right : node)
| FP_Id (name : str)
| FP_Array (elements : list (option arr_pat))
| FP_Object (properties : list obj_pat)
| FP_Rest (argument : binding)

(** estree.rs:320-325 [ArgumentListElement] *)
with arg_elem :=
| AR_Expr (e : node)
| AR_Spread (argument : node) (sp : span)

(** estree.rs:342-358 [ObjectExpressionProperty] *)
with obj_prop :=
| OE_Prop (key : prop_key) (computed : bool) (v : option prop_value) (kind : string)
    (method shorthand : bool) (sp : span)
| OE_Spread (argument : node) (sp : span)

(** estree.rs:360-368 [MethodDefinition] *)
with method_def :=
| MethodDef (key : node) (computed : bool) (v : option fn_expr) (kind : string) (static : bool)

(** estree.rs:245-254 [FunctionExpression] (struct) *)
with fn_expr :=
| FnExpr (id : option node) (params : list func_param) (body : node) (generator expression async : bool)

(** estree.rs:398-403 *)
with switch_case :=
| SwitchCase (test : option node) (consequent : list node)

(** estree.rs:405-410 *)
with var_declarator :=
| VarDeclarator (id : binding) (init : option node)

(** estree.rs:7-12 *)
with catch_clause :=
| CatchClause (param : option binding) (body : node).

(** estree.rs:917-958 [expr_span]; [None] = panic *)
Definition expr_span (n : node) : option span :=
  match n with
  | ArrayExpression _ _ sp | NArrayPattern _ _ sp | ArrayAssignmentPattern _ _ sp
  | ArrowFunctionExpression _ _ _ _ _ _ _ sp | AssignmentExpression _ _ _ _ sp
  | NAssignmentPattern _ _ sp | AssignmentRestElement _ sp
  | AsyncArrowFunctionExpression _ _ _ _ _ _ _ sp | AsyncFunctionExpression _ _ _ _ _ _ _ sp
  | AwaitExpression _ sp | BinaryExpression _ _ _ _ sp | NBindingIdentifier _ sp
  | LogicalExpression _ _ _ sp | CallExpression _ _ _ sp | ClassExpression _ _ _ _ sp
  | ComputedMemberExpression _ _ _ _ sp | ConditionalExpression _ _ _ sp | Identifier _ _ sp
  | FunctionExpression _ _ _ _ _ _ _ sp | NLiteral _ _ _ sp | NewExpression _ _ _ sp
  | ObjectExpression _ _ sp | NObjectPattern _ _ sp | RegexLiteral _ _ _ _ sp
  | SequenceExpression _ _ sp | StaticMemberExpression _ _ _ _ sp
  | TaggedTemplateExpression _ _ _ sp | ThisExpression _ sp | UnaryExpression _ _ _ _ sp
  | UpdateExpression _ _ _ _ sp | YieldExpression _ _ _ sp | ArrowParameterPlaceHolder _ _ sp
  | NRestElement _ sp | NSpreadElement _ sp | Super _ sp | TemplateLiteral _ _ _ sp
  | MetaProperty _ _ _ sp => Some sp
  | _ => None
  end.

(** estree.rs:960-1043 [assign_target_type] *)
Definition assign_target_type (n : node) : att :=
  match n with
  | ArrayExpression _ a _ | NArrayPattern _ a _ | ArrowFunctionExpression _ _ _ _ _ _ a _
  | AssignmentExpression _ _ _ a _ | AsyncArrowFunctionExpression _ _ _ _ _ _ a _
  | AsyncFunctionExpression _ _ _ _ _ _ a _ | BinaryExpression _ _ _ a _
  | CallExpression _ _ a _ | ClassExpression _ _ _ a _ | ComputedMemberExpression _ _ _ a _
  | Identifier _ a _ | FunctionExpression _ _ _ _ _ _ a _ | NLiteral _ _ a _
  | NewExpression _ _ a _ | ObjectExpression _ a _ | NObjectPattern _ a _
  | RegexLiteral _ _ _ a _ | SequenceExpression _ a _ | StaticMemberExpression _ _ _ a _
  | ThisExpression a _ | UnaryExpression _ _ _ a _ | UpdateExpression _ _ _ a _
  | YieldExpression _ _ a _ | Super a _ | TemplateLiteral _ _ a _ | MetaProperty _ _ a _ => a
  | ArrayAssignmentPattern _ _ _ => ASimple
  | _ => AInvalid
  end.
