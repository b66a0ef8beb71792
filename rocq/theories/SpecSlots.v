(** * SpecSlots: which kind of node every position of a tree calls for.
    Only definitions; nothing of the parser is used. *)
From Verif Require Import Base Punct Token Ast.
From Verif Require Import SpecLex SpecTree.

Inductive slot :=
| S_Expr        (* an expression *)
| S_Callee      (* an expression or [super] *)
| S_Statement   (* a statement that is not a lexical, function or class declaration *)
| S_Item        (* a statement or declaration *)
| S_ModuleItem  (* also import and export *)
| S_Block | S_Name | S_Identifier
| S_Declaration | S_Default  (* after [export] / [export default] *)
| S_LabelBody   (* a statement or a function declaration *)
| S_ForInit     (* an expression or a variable declaration *)
| S_ForLeft     (* an assignment target or a declared name or pattern *)
| S_Target      (* an assignment target *)
| S_Element     (* an element of a destructuring assignment *)
| S_MethodKey | S_ComputedKey.

Definition fills (s : slot) (n : node) : Prop :=
  match s with
  | S_Expr | S_ComputedKey => is_expr n = true
  | S_Callee => is_expr n = true \/ is_super n = true
  | S_Statement => is_plain_statement n = true
  | S_Item => is_item n = true
  | S_ModuleItem => is_module_item n = true
  | S_Block => is_block n = true
  | S_Name => is_name n = true
  | S_Identifier => is_identifier n = true
  | S_Declaration => is_declaration n = true
  | S_Default => is_expr n = true \/ is_function_declaration n = true
  | S_LabelBody => is_plain_statement n = true \/ is_plain_function n = true
  | S_ForInit => is_expr n = true \/ is_declaration_list n = true
  | S_ForLeft => is_binding_node n = true \/ assign_target false n
  | S_Target => assign_target false n
  | S_Element => element_target false n
  | S_MethodKey => is_identifier n = true \/ is_literal n = true
  end.

Definition all (s : slot) (l : list node) : list (slot * node) := map (fun x => (s, x)) l.
Definition maybe (s : slot) (o : option node) : list (slot * node) := match o with Some x => [(s, x)] | None => [] end.
Definition function_slots (id : option node) (arrow_expr : bool) (body : node) : list (slot * node) :=
  maybe S_Name id ++ [(if arrow_expr then S_Expr else S_Block, body)].

(** The nodes directly below a part, each with what its position calls for. *)
Definition slots (a : part) : list (slot * node) :=
  match a with
  | T_Node n =>
    match n with
    | ArrowFunctionExpression id _ b _ e _ _ _ | AsyncArrowFunctionExpression id _ b _ e _ _ _ => function_slots id e b
    | AsyncFunctionExpression id _ b _ _ _ _ _ | FunctionExpression id _ b _ _ _ _ _
    | FunctionDeclaration id _ b _ _ _ _ | AsyncFunctionDeclaration id _ b _ _ _ _ => function_slots id false b
    | AssignmentExpression _ l r _ _ => [(S_Target, l); (S_Expr, r)]
    | BinaryExpression _ l r _ _ | LogicalExpression _ l r _ => [(S_Expr, l); (S_Expr, r)]
    | NAssignmentPattern _ r _ => [(S_Expr, r)]
    | AssignmentRestElement e _ | AwaitExpression e _ | NSpreadElement e _ => [(S_Expr, e)]
    | CallExpression c _ _ _ => [(S_Callee, c)]
    | NewExpression c _ _ _ => [(S_Expr, c)]
    | ClassExpression id s _ _ _ | ClassDeclaration id s _ _ => maybe S_Name id ++ maybe S_Expr s
    | ComputedMemberExpression _ o p _ _ => [(S_Callee, o); (S_Expr, p)]
    | StaticMemberExpression _ o p _ _ => [(S_Callee, o); (S_Identifier, p)]
    | MetaProperty o p _ _ => [(S_Identifier, o); (S_Identifier, p)]
    | ConditionalExpression t c a _ => [(S_Expr, t); (S_Expr, c); (S_Expr, a)]
    | SequenceExpression es _ _ => all S_Expr es
    | TaggedTemplateExpression t _ es _ => (S_Expr, t) :: all S_Expr es
    | TemplateLiteral _ es _ _ => all S_Expr es
    | UnaryExpression _ e _ _ _ => [(S_Expr, e)]
    | UpdateExpression _ e _ _ _ => [(S_Target, e)]
    | YieldExpression e _ _ _ => maybe S_Expr e
    | BreakStatement l _ | ContinueStatement l _ => maybe S_Identifier l
    | DoWhileStatement b t _ => [(S_Statement, b); (S_Expr, t)]
    | ExpressionStatement e _ | Directive e _ _ | ThrowStatement e _ => [(S_Expr, e)]
    | ForStatement i t u b _ => maybe S_ForInit i ++ maybe S_Expr t ++ maybe S_Expr u ++ [(S_Statement, b)]
    | ForInStatement l r b _ _ | ForOfStatement l r b _ => [(S_ForLeft, l); (S_Expr, r); (S_Statement, b)]
    | IfStatement t c a _ => [(S_Expr, t); (S_Statement, c)] ++ maybe S_Statement a
    | ReturnStatement e _ => maybe S_Expr e
    | SwitchStatement d _ _ => [(S_Expr, d)]
    | TryStatement b _ f _ => (S_Block, b) :: maybe S_Block f
    | WhileStatement t b _ => [(S_Expr, t); (S_Statement, b)]
    | WithStatement o b _ => [(S_Expr, o); (S_Statement, b)]
    | BlockStatement b _ => all S_Item b
    | Module b _ _ => all S_ModuleItem b
    | Program b ty _ => all (if String.eqb ty "module" then S_ModuleItem else S_Item) b
    | ExportDefaultDeclaration d _ => [(S_Default, d)]
    | ExportNamedDeclaration d _ _ _ => maybe S_Declaration d
    | LabeledStatement _ b _ => [(S_LabelBody, b)]
    | _ => []
    end
  | T_Elem (AE_Expr e) | T_Elem (AE_Spread e _) | T_Arg (AR_Expr e) | T_Arg (AR_Spread e _) | T_Prop (OE_Spread e _) => [(S_Expr, e)]
  | T_Bind (B_Expr e) => [(S_Target, e)]
  | T_APat (AP_Assign _ r) | T_Val (PV_Assign _ r) | T_Param (FP_Assign _ r) => [(S_Expr, r)]
  | T_AAPat (AA_Expr e) => [(S_Element, e)]
  | T_Key (PK_Expr e) => [(S_Expr, e)]
  | T_Val (PV_AsyncFn id _ b _ _ _) | T_Fn (FnExpr id _ b _ _ _) => function_slots id false b
  (* [PV_Expr] holds an expression in object literals and an element in patterns *)
  | T_Prop (OE_Prop _ _ (Some (PV_Expr e)) _ _ _ _) => [(S_Expr, e)]
  | T_OPat (OP_Prop _ _ (Some (PV_Expr e)) _ _ _) => [(S_Element, e)]
  | T_Meth (MethodDef k c _ _ _) => [(if c then S_ComputedKey else S_MethodKey, k)]
  | T_Case (SwitchCase t c) => maybe S_Expr t ++ all S_Item c
  | T_Decl (VarDeclarator _ i) => maybe S_Expr i
  | T_Catch (CatchClause _ b) => [(S_Block, b)]
  | _ => []
  end.

(** The nodes below a part, whatever their position; an expression that is the
    value of a property is counted with the property. *)
Definition direct_nodes (a : part) : list node :=
  flat_map (fun '(_, y) => match y with T_Node n => [n] | T_Val (PV_Expr e) => [e] | _ => [] end)
    (match a with T_Val (PV_Expr _) => [] | _ => children a end).
