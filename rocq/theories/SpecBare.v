(** * SpecBare: trees without positions.  Only definitions. *)
From Verif Require Import Base Punct Token Ast.
From Verif Require Import SpecJson.

(** [bare_node x] is [x] with every source position and every assignability mark
    reset, and the [raw] text of literal property keys and the [value] and [raw]
    texts of regular expressions (which the parser takes from the next token)
    emptied; everything else is kept. *)
Fixpoint bare_node (x : node) : node :=
  match x with
  | ArrayExpression x0 _ _ => ArrayExpression (map (option_map bare_elem) x0) ASimple nowhere
  | NArrayPattern x0 _ _ => NArrayPattern (map (option_map bare_apat) x0) ASimple nowhere
  | ArrayAssignmentPattern x0 _ _ => ArrayAssignmentPattern (map (option_map bare_aapat) x0) ASimple nowhere
  | ArrowFunctionExpression x0 x1 x2 x3 x4 x5 _ _ => ArrowFunctionExpression (option_map bare_node x0) (map bare_param x1) (bare_node x2) x3 x4 x5 ASimple nowhere
  | AssignmentExpression x0 x1 x2 _ _ => AssignmentExpression x0 (bare_node x1) (bare_node x2) ASimple nowhere
  | NAssignmentPattern x0 x1 _ => NAssignmentPattern (bare_bind x0) (bare_node x1) nowhere
  | AssignmentRestElement x0 _ => AssignmentRestElement (bare_node x0) nowhere
  | AsyncArrowFunctionExpression x0 x1 x2 x3 x4 x5 _ _ => AsyncArrowFunctionExpression (option_map bare_node x0) (map bare_param x1) (bare_node x2) x3 x4 x5 ASimple nowhere
  | AsyncFunctionExpression x0 x1 x2 x3 x4 x5 _ _ => AsyncFunctionExpression (option_map bare_node x0) (map bare_param x1) (bare_node x2) x3 x4 x5 ASimple nowhere
  | AwaitExpression x0 _ => AwaitExpression (bare_node x0) nowhere
  | BinaryExpression x0 x1 x2 _ _ => BinaryExpression x0 (bare_node x1) (bare_node x2) ASimple nowhere
  | NBindingIdentifier x0 _ => NBindingIdentifier x0 nowhere
  | LogicalExpression x0 x1 x2 _ => LogicalExpression x0 (bare_node x1) (bare_node x2) nowhere
  | CallExpression x0 x1 _ _ => CallExpression (bare_node x0) (map bare_arg x1) ASimple nowhere
  | ClassExpression x0 x1 x2 _ _ => ClassExpression (option_map bare_node x0) (option_map bare_node x1) (map bare_meth x2) ASimple nowhere
  | ComputedMemberExpression x0 x1 x2 _ _ => ComputedMemberExpression x0 (bare_node x1) (bare_node x2) ASimple nowhere
  | ConditionalExpression x0 x1 x2 _ => ConditionalExpression (bare_node x0) (bare_node x1) (bare_node x2) nowhere
  | Identifier x0 _ _ => Identifier x0 ASimple nowhere
  | FunctionExpression x0 x1 x2 x3 x4 x5 _ _ => FunctionExpression (option_map bare_node x0) (map bare_param x1) (bare_node x2) x3 x4 x5 ASimple nowhere
  | NLiteral x0 x1 _ _ => NLiteral x0 x1 ASimple nowhere
  | NewExpression x0 x1 _ _ => NewExpression (bare_node x0) (map bare_arg x1) ASimple nowhere
  | ObjectExpression x0 _ _ => ObjectExpression (map bare_prop x0) ASimple nowhere
  | NObjectPattern x0 _ _ => NObjectPattern (map bare_opat x0) ASimple nowhere
  | RegexLiteral _ _ x2 _ _ => RegexLiteral [] [] x2 ASimple nowhere
  | SequenceExpression x0 _ _ => SequenceExpression (map bare_node x0) ASimple nowhere
  | StaticMemberExpression x0 x1 x2 _ _ => StaticMemberExpression x0 (bare_node x1) (bare_node x2) ASimple nowhere
  | TaggedTemplateExpression x0 x1 x2 _ => TaggedTemplateExpression (bare_node x0) x1 (map bare_node x2) nowhere
  | ThisExpression _ _ => ThisExpression ASimple nowhere
  | UnaryExpression x0 x1 x2 _ _ => UnaryExpression x0 (bare_node x1) x2 ASimple nowhere
  | UpdateExpression x0 x1 x2 _ _ => UpdateExpression x0 (bare_node x1) x2 ASimple nowhere
  | YieldExpression x0 x1 _ _ => YieldExpression (option_map bare_node x0) x1 ASimple nowhere
  | ArrowParameterPlaceHolder x0 x1 _ => ArrowParameterPlaceHolder (map bare_param x0) x1 nowhere
  | NRestElement x0 _ => NRestElement (bare_bind x0) nowhere
  | NSpreadElement x0 _ => NSpreadElement (bare_node x0) nowhere
  | Super _ _ => Super ASimple nowhere
  | TemplateLiteral x0 x1 _ _ => TemplateLiteral x0 (map bare_node x1) ASimple nowhere
  | MetaProperty x0 x1 _ _ => MetaProperty (bare_node x0) (bare_node x1) ASimple nowhere
  | AsyncFunctionDeclaration x0 x1 x2 x3 x4 x5 _ => AsyncFunctionDeclaration (option_map bare_node x0) (map bare_param x1) (bare_node x2) x3 x4 x5 nowhere
  | BreakStatement x0 _ => BreakStatement (option_map bare_node x0) nowhere
  | ContinueStatement x0 _ => ContinueStatement (option_map bare_node x0) nowhere
  | DebuggerStatement _ => DebuggerStatement nowhere
  | DoWhileStatement x0 x1 _ => DoWhileStatement (bare_node x0) (bare_node x1) nowhere
  | EmptyStatement _ => EmptyStatement nowhere
  | ExpressionStatement x0 _ => ExpressionStatement (bare_node x0) nowhere
  | Directive x0 x1 _ => Directive (bare_node x0) x1 nowhere
  | ForStatement x0 x1 x2 x3 _ => ForStatement (option_map bare_node x0) (option_map bare_node x1) (option_map bare_node x2) (bare_node x3) nowhere
  | ForInStatement x0 x1 x2 x3 _ => ForInStatement (bare_node x0) (bare_node x1) (bare_node x2) x3 nowhere
  | ForOfStatement x0 x1 x2 _ => ForOfStatement (bare_node x0) (bare_node x1) (bare_node x2) nowhere
  | FunctionDeclaration x0 x1 x2 x3 x4 x5 _ => FunctionDeclaration (option_map bare_node x0) (map bare_param x1) (bare_node x2) x3 x4 x5 nowhere
  | IfStatement x0 x1 x2 _ => IfStatement (bare_node x0) (bare_node x1) (option_map bare_node x2) nowhere
  | ReturnStatement x0 _ => ReturnStatement (option_map bare_node x0) nowhere
  | SwitchStatement x0 x1 _ => SwitchStatement (bare_node x0) (map bare_case x1) nowhere
  | ThrowStatement x0 _ => ThrowStatement (bare_node x0) nowhere
  | TryStatement x0 x1 x2 _ => TryStatement (bare_node x0) (option_map bare_catch x1) (option_map bare_node x2) nowhere
  | VariableDeclaration x0 x1 _ => VariableDeclaration (map bare_decl x0) x1 nowhere
  | WhileStatement x0 x1 _ => WhileStatement (bare_node x0) (bare_node x1) nowhere
  | WithStatement x0 x1 _ => WithStatement (bare_node x0) (bare_node x1) nowhere
  | BlockStatement x0 _ => BlockStatement (map bare_node x0) nowhere
  | ClassDeclaration x0 x1 x2 _ => ClassDeclaration (option_map bare_node x0) (option_map bare_node x1) (map bare_meth x2) nowhere
  | ExportAllDeclaration x0 _ => ExportAllDeclaration (strip_lit x0) nowhere
  | ExportDefaultDeclaration x0 _ => ExportDefaultDeclaration (bare_node x0) nowhere
  | ExportNamedDeclaration x0 x1 x2 _ => ExportNamedDeclaration (option_map bare_node x0) (map strip_export x1) (option_map strip_lit x2) nowhere
  | ImportDeclaration x0 x1 _ => ImportDeclaration (map strip_import x0) (strip_lit x1) nowhere
  | NImportDefaultSpecifier x0 _ => NImportDefaultSpecifier (strip_id x0) nowhere
  | NImportNamespaceSpecifier x0 _ => NImportNamespaceSpecifier (strip_id x0) nowhere
  | NImportSpecifier x0 x1 _ => NImportSpecifier (strip_id x0) (strip_id x1) nowhere
  | LabeledStatement x0 x1 _ => LabeledStatement (strip_id x0) (bare_node x1) nowhere
  | Module x0 x1 _ => Module (map bare_node x0) x1 nowhere
  | Program x0 x1 _ => Program (map bare_node x0) x1 nowhere
  end
with bare_elem (x : arr_elem) : arr_elem :=
  match x with
  | AE_Expr x0 => AE_Expr (bare_node x0)
  | AE_Spread x0 _ => AE_Spread (bare_node x0) nowhere
  end
with bare_bind (x : binding) : binding :=
  match x with
  | B_Id x0 _ => B_Id x0 nowhere
  | B_Array x0 _ => B_Array (map (option_map bare_apat) x0) nowhere
  | B_Object x0 _ => B_Object (map bare_opat x0) nowhere
  | B_Expr x0 => B_Expr (bare_node x0)
  end
with bare_apat (x : arr_pat) : arr_pat :=
  match x with
  | AP_Assign x0 x1 => AP_Assign (bare_bind x0) (bare_node x1)
  | AP_Id x0 => AP_Id x0
  | AP_Array x0 => AP_Array (map (option_map bare_apat) x0)
  | AP_Object x0 => AP_Object (map bare_opat x0)
  | AP_Rest x0 => AP_Rest (bare_bind x0)
  end
with bare_aapat (x : arr_apat) : arr_apat :=
  match x with
  | AA_Expr x0 => AA_Expr (bare_node x0)
  | AA_Rest x0 => AA_Rest (bare_bind x0)
  end
with bare_key (x : prop_key) : prop_key :=
  match x with
  | PK_Id x0 => PK_Id (strip_id x0)
  | PK_Lit x0 => PK_Lit (mkLit (lit_value x0) [] nowhere)
  | PK_Expr x0 => PK_Expr (bare_node x0)
  end
with bare_val (x : prop_value) : prop_value :=
  match x with
  | PV_Assign x0 x1 => PV_Assign (bare_bind x0) (bare_node x1)
  | PV_AsyncFn x0 x1 x2 x3 x4 x5 => PV_AsyncFn (option_map bare_node x0) (map bare_param x1) (bare_node x2) x3 x4 x5
  | PV_BindId x0 _ => PV_BindId x0 nowhere
  | PV_ArrayPat x0 => PV_ArrayPat (map (option_map bare_apat) x0)
  | PV_ObjectPat x0 => PV_ObjectPat (map bare_opat x0)
  | PV_Fn x0 => PV_Fn (bare_fn x0)
  | PV_Expr x0 => PV_Expr (bare_node x0)
  end
with bare_opat (x : obj_pat) : obj_pat :=
  match x with
  | OP_Prop x0 x1 x2 x3 x4 x5 => OP_Prop (bare_key x0) x1 (option_map bare_val x2) x3 x4 x5
  | OP_Rest x0 => OP_Rest (bare_bind x0)
  end
with bare_param (x : func_param) : func_param :=
  match x with
  | FP_Assign x0 x1 => FP_Assign (bare_bind x0) (bare_node x1)
  | FP_Id x0 => FP_Id x0
  | FP_Array x0 => FP_Array (map (option_map bare_apat) x0)
  | FP_Object x0 => FP_Object (map bare_opat x0)
  | FP_Rest x0 => FP_Rest (bare_bind x0)
  end
with bare_arg (x : arg_elem) : arg_elem :=
  match x with
  | AR_Expr x0 => AR_Expr (bare_node x0)
  | AR_Spread x0 _ => AR_Spread (bare_node x0) nowhere
  end
with bare_prop (x : obj_prop) : obj_prop :=
  match x with
  | OE_Prop x0 x1 x2 x3 x4 x5 _ => OE_Prop (bare_key x0) x1 (option_map bare_val x2) x3 x4 x5 nowhere
  | OE_Spread x0 _ => OE_Spread (bare_node x0) nowhere
  end
with bare_meth (x : method_def) : method_def :=
  match x with
  | MethodDef x0 x1 x2 x3 x4 => MethodDef (bare_node x0) x1 (option_map bare_fn x2) x3 x4
  end
with bare_fn (x : fn_expr) : fn_expr :=
  match x with
  | FnExpr x0 x1 x2 x3 x4 x5 => FnExpr (option_map bare_node x0) (map bare_param x1) (bare_node x2) x3 x4 x5
  end
with bare_case (x : switch_case) : switch_case :=
  match x with
  | SwitchCase x0 x1 => SwitchCase (option_map bare_node x0) (map bare_node x1)
  end
with bare_decl (x : var_declarator) : var_declarator :=
  match x with
  | VarDeclarator x0 x1 => VarDeclarator (bare_bind x0) (option_map bare_node x1)
  end
with bare_catch (x : catch_clause) : catch_clause :=
  match x with
  | CatchClause x0 x1 => CatchClause (option_map bare_bind x0) (bare_node x1)
  end.
