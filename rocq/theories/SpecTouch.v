(** * SpecTouch: changing the positions and assignability marks of a tree and nothing
    else ([touch_node f g x] is [x] with [f] applied to every source range and [g] to
    every mark). *)
From Verif Require Import Base Punct Token Ast.

Section Touch.
Context (f : span -> span) (g : att -> att).
Definition touch_id (i : identifier) : identifier := mkId (id_name i) (f (id_span i)).
Definition touch_lit (l : literal) : literal := mkLit (lit_value l) (lit_raw l) (f (lit_span l)).
Definition touch_import (i : import_spec) : import_spec :=
  match i with
  | ImportDefault a => ImportDefault (touch_id a)
  | ImportNamespace a => ImportNamespace (touch_id a)
  | ImportSpec a b => ImportSpec (touch_id a) (touch_id b)
  end.
Definition touch_export (x : export_spec) : export_spec := mkExport (touch_id (ex_exported x)) (touch_id (ex_local x)).
Fixpoint touch_node (x : node) : node :=
  match x with
  | ArrayExpression x0 x1 x2 => ArrayExpression (map (option_map touch_elem) x0) (g x1) (f x2)
  | NArrayPattern x0 x1 x2 => NArrayPattern (map (option_map touch_apat) x0) (g x1) (f x2)
  | ArrayAssignmentPattern x0 x1 x2 => ArrayAssignmentPattern (map (option_map touch_aapat) x0) (g x1) (f x2)
  | ArrowFunctionExpression x0 x1 x2 x3 x4 x5 x6 x7 => ArrowFunctionExpression (option_map touch_node x0) (map touch_param x1) (touch_node x2) x3 x4 x5 (g x6) (f x7)
  | AssignmentExpression x0 x1 x2 x3 x4 => AssignmentExpression x0 (touch_node x1) (touch_node x2) (g x3) (f x4)
  | NAssignmentPattern x0 x1 x2 => NAssignmentPattern (touch_bind x0) (touch_node x1) (f x2)
  | AssignmentRestElement x0 x1 => AssignmentRestElement (touch_node x0) (f x1)
  | AsyncArrowFunctionExpression x0 x1 x2 x3 x4 x5 x6 x7 => AsyncArrowFunctionExpression (option_map touch_node x0) (map touch_param x1) (touch_node x2) x3 x4 x5 (g x6) (f x7)
  | AsyncFunctionExpression x0 x1 x2 x3 x4 x5 x6 x7 => AsyncFunctionExpression (option_map touch_node x0) (map touch_param x1) (touch_node x2) x3 x4 x5 (g x6) (f x7)
  | AwaitExpression x0 x1 => AwaitExpression (touch_node x0) (f x1)
  | BinaryExpression x0 x1 x2 x3 x4 => BinaryExpression x0 (touch_node x1) (touch_node x2) (g x3) (f x4)
  | NBindingIdentifier x0 x1 => NBindingIdentifier x0 (f x1)
  | LogicalExpression x0 x1 x2 x3 => LogicalExpression x0 (touch_node x1) (touch_node x2) (f x3)
  | CallExpression x0 x1 x2 x3 => CallExpression (touch_node x0) (map touch_arg x1) (g x2) (f x3)
  | ClassExpression x0 x1 x2 x3 x4 => ClassExpression (option_map touch_node x0) (option_map touch_node x1) (map touch_meth x2) (g x3) (f x4)
  | ComputedMemberExpression x0 x1 x2 x3 x4 => ComputedMemberExpression x0 (touch_node x1) (touch_node x2) (g x3) (f x4)
  | ConditionalExpression x0 x1 x2 x3 => ConditionalExpression (touch_node x0) (touch_node x1) (touch_node x2) (f x3)
  | Identifier x0 x1 x2 => Identifier x0 (g x1) (f x2)
  | FunctionExpression x0 x1 x2 x3 x4 x5 x6 x7 => FunctionExpression (option_map touch_node x0) (map touch_param x1) (touch_node x2) x3 x4 x5 (g x6) (f x7)
  | NLiteral x0 x1 x2 x3 => NLiteral x0 x1 (g x2) (f x3)
  | NewExpression x0 x1 x2 x3 => NewExpression (touch_node x0) (map touch_arg x1) (g x2) (f x3)
  | ObjectExpression x0 x1 x2 => ObjectExpression (map touch_prop x0) (g x1) (f x2)
  | NObjectPattern x0 x1 x2 => NObjectPattern (map touch_opat x0) (g x1) (f x2)
  | RegexLiteral x0 x1 x2 x3 x4 => RegexLiteral x0 x1 x2 (g x3) (f x4)
  | SequenceExpression x0 x1 x2 => SequenceExpression (map touch_node x0) (g x1) (f x2)
  | StaticMemberExpression x0 x1 x2 x3 x4 => StaticMemberExpression x0 (touch_node x1) (touch_node x2) (g x3) (f x4)
  | TaggedTemplateExpression x0 x1 x2 x3 => TaggedTemplateExpression (touch_node x0) x1 (map touch_node x2) (f x3)
  | ThisExpression x0 x1 => ThisExpression (g x0) (f x1)
  | UnaryExpression x0 x1 x2 x3 x4 => UnaryExpression x0 (touch_node x1) x2 (g x3) (f x4)
  | UpdateExpression x0 x1 x2 x3 x4 => UpdateExpression x0 (touch_node x1) x2 (g x3) (f x4)
  | YieldExpression x0 x1 x2 x3 => YieldExpression (option_map touch_node x0) x1 (g x2) (f x3)
  | ArrowParameterPlaceHolder x0 x1 x2 => ArrowParameterPlaceHolder (map touch_param x0) x1 (f x2)
  | NRestElement x0 x1 => NRestElement (touch_bind x0) (f x1)
  | NSpreadElement x0 x1 => NSpreadElement (touch_node x0) (f x1)
  | Super x0 x1 => Super (g x0) (f x1)
  | TemplateLiteral x0 x1 x2 x3 => TemplateLiteral x0 (map touch_node x1) (g x2) (f x3)
  | MetaProperty x0 x1 x2 x3 => MetaProperty (touch_node x0) (touch_node x1) (g x2) (f x3)
  | AsyncFunctionDeclaration x0 x1 x2 x3 x4 x5 x6 => AsyncFunctionDeclaration (option_map touch_node x0) (map touch_param x1) (touch_node x2) x3 x4 x5 (f x6)
  | BreakStatement x0 x1 => BreakStatement (option_map touch_node x0) (f x1)
  | ContinueStatement x0 x1 => ContinueStatement (option_map touch_node x0) (f x1)
  | DebuggerStatement x0 => DebuggerStatement (f x0)
  | DoWhileStatement x0 x1 x2 => DoWhileStatement (touch_node x0) (touch_node x1) (f x2)
  | EmptyStatement x0 => EmptyStatement (f x0)
  | ExpressionStatement x0 x1 => ExpressionStatement (touch_node x0) (f x1)
  | Directive x0 x1 x2 => Directive (touch_node x0) x1 (f x2)
  | ForStatement x0 x1 x2 x3 x4 => ForStatement (option_map touch_node x0) (option_map touch_node x1) (option_map touch_node x2) (touch_node x3) (f x4)
  | ForInStatement x0 x1 x2 x3 x4 => ForInStatement (touch_node x0) (touch_node x1) (touch_node x2) x3 (f x4)
  | ForOfStatement x0 x1 x2 x3 => ForOfStatement (touch_node x0) (touch_node x1) (touch_node x2) (f x3)
  | FunctionDeclaration x0 x1 x2 x3 x4 x5 x6 => FunctionDeclaration (option_map touch_node x0) (map touch_param x1) (touch_node x2) x3 x4 x5 (f x6)
  | IfStatement x0 x1 x2 x3 => IfStatement (touch_node x0) (touch_node x1) (option_map touch_node x2) (f x3)
  | ReturnStatement x0 x1 => ReturnStatement (option_map touch_node x0) (f x1)
  | SwitchStatement x0 x1 x2 => SwitchStatement (touch_node x0) (map touch_case x1) (f x2)
  | ThrowStatement x0 x1 => ThrowStatement (touch_node x0) (f x1)
  | TryStatement x0 x1 x2 x3 => TryStatement (touch_node x0) (option_map touch_catch x1) (option_map touch_node x2) (f x3)
  | VariableDeclaration x0 x1 x2 => VariableDeclaration (map touch_decl x0) x1 (f x2)
  | WhileStatement x0 x1 x2 => WhileStatement (touch_node x0) (touch_node x1) (f x2)
  | WithStatement x0 x1 x2 => WithStatement (touch_node x0) (touch_node x1) (f x2)
  | BlockStatement x0 x1 => BlockStatement (map touch_node x0) (f x1)
  | ClassDeclaration x0 x1 x2 x3 => ClassDeclaration (option_map touch_node x0) (option_map touch_node x1) (map touch_meth x2) (f x3)
  | ExportAllDeclaration x0 x1 => ExportAllDeclaration (touch_lit x0) (f x1)
  | ExportDefaultDeclaration x0 x1 => ExportDefaultDeclaration (touch_node x0) (f x1)
  | ExportNamedDeclaration x0 x1 x2 x3 => ExportNamedDeclaration (option_map touch_node x0) (map touch_export x1) (option_map touch_lit x2) (f x3)
  | ImportDeclaration x0 x1 x2 => ImportDeclaration (map touch_import x0) (touch_lit x1) (f x2)
  | NImportDefaultSpecifier x0 x1 => NImportDefaultSpecifier (touch_id x0) (f x1)
  | NImportNamespaceSpecifier x0 x1 => NImportNamespaceSpecifier (touch_id x0) (f x1)
  | NImportSpecifier x0 x1 x2 => NImportSpecifier (touch_id x0) (touch_id x1) (f x2)
  | LabeledStatement x0 x1 x2 => LabeledStatement (touch_id x0) (touch_node x1) (f x2)
  | Module x0 x1 x2 => Module (map touch_node x0) x1 (f x2)
  | Program x0 x1 x2 => Program (map touch_node x0) x1 (f x2)
  end
with touch_elem (x : arr_elem) : arr_elem :=
  match x with
  | AE_Expr x0 => AE_Expr (touch_node x0)
  | AE_Spread x0 x1 => AE_Spread (touch_node x0) (f x1)
  end
with touch_bind (x : binding) : binding :=
  match x with
  | B_Id x0 x1 => B_Id x0 (f x1)
  | B_Array x0 x1 => B_Array (map (option_map touch_apat) x0) (f x1)
  | B_Object x0 x1 => B_Object (map touch_opat x0) (f x1)
  | B_Expr x0 => B_Expr (touch_node x0)
  end
with touch_apat (x : arr_pat) : arr_pat :=
  match x with
  | AP_Assign x0 x1 => AP_Assign (touch_bind x0) (touch_node x1)
  | AP_Id x0 => AP_Id x0
  | AP_Array x0 => AP_Array (map (option_map touch_apat) x0)
  | AP_Object x0 => AP_Object (map touch_opat x0)
  | AP_Rest x0 => AP_Rest (touch_bind x0)
  end
with touch_aapat (x : arr_apat) : arr_apat :=
  match x with
  | AA_Expr x0 => AA_Expr (touch_node x0)
  | AA_Rest x0 => AA_Rest (touch_bind x0)
  end
with touch_key (x : prop_key) : prop_key :=
  match x with
  | PK_Id x0 => PK_Id (touch_id x0)
  | PK_Lit x0 => PK_Lit (touch_lit x0)
  | PK_Expr x0 => PK_Expr (touch_node x0)
  end
with touch_val (x : prop_value) : prop_value :=
  match x with
  | PV_Assign x0 x1 => PV_Assign (touch_bind x0) (touch_node x1)
  | PV_AsyncFn x0 x1 x2 x3 x4 x5 => PV_AsyncFn (option_map touch_node x0) (map touch_param x1) (touch_node x2) x3 x4 x5
  | PV_BindId x0 x1 => PV_BindId x0 (f x1)
  | PV_ArrayPat x0 => PV_ArrayPat (map (option_map touch_apat) x0)
  | PV_ObjectPat x0 => PV_ObjectPat (map touch_opat x0)
  | PV_Fn x0 => PV_Fn (touch_fn x0)
  | PV_Expr x0 => PV_Expr (touch_node x0)
  end
with touch_opat (x : obj_pat) : obj_pat :=
  match x with
  | OP_Prop x0 x1 x2 x3 x4 x5 => OP_Prop (touch_key x0) x1 (option_map touch_val x2) x3 x4 x5
  | OP_Rest x0 => OP_Rest (touch_bind x0)
  end
with touch_param (x : func_param) : func_param :=
  match x with
  | FP_Assign x0 x1 => FP_Assign (touch_bind x0) (touch_node x1)
  | FP_Id x0 => FP_Id x0
  | FP_Array x0 => FP_Array (map (option_map touch_apat) x0)
  | FP_Object x0 => FP_Object (map touch_opat x0)
  | FP_Rest x0 => FP_Rest (touch_bind x0)
  end
with touch_arg (x : arg_elem) : arg_elem :=
  match x with
  | AR_Expr x0 => AR_Expr (touch_node x0)
  | AR_Spread x0 x1 => AR_Spread (touch_node x0) (f x1)
  end
with touch_prop (x : obj_prop) : obj_prop :=
  match x with
  | OE_Prop x0 x1 x2 x3 x4 x5 x6 => OE_Prop (touch_key x0) x1 (option_map touch_val x2) x3 x4 x5 (f x6)
  | OE_Spread x0 x1 => OE_Spread (touch_node x0) (f x1)
  end
with touch_meth (x : method_def) : method_def :=
  match x with
  | MethodDef x0 x1 x2 x3 x4 => MethodDef (touch_node x0) x1 (option_map touch_fn x2) x3 x4
  end
with touch_fn (x : fn_expr) : fn_expr :=
  match x with
  | FnExpr x0 x1 x2 x3 x4 x5 => FnExpr (option_map touch_node x0) (map touch_param x1) (touch_node x2) x3 x4 x5
  end
with touch_case (x : switch_case) : switch_case :=
  match x with
  | SwitchCase x0 x1 => SwitchCase (option_map touch_node x0) (map touch_node x1)
  end
with touch_decl (x : var_declarator) : var_declarator :=
  match x with
  | VarDeclarator x0 x1 => VarDeclarator (touch_bind x0) (option_map touch_node x1)
  end
with touch_catch (x : catch_clause) : catch_clause :=
  match x with
  | CatchClause x0 x1 => CatchClause (option_map touch_bind x0) (touch_node x1)
  end.
End Touch.
