(** * SpecJson: vocabulary for the properties of the JSON form.  Only definitions. *)
From Verif Require Import Base Punct Token Ast ParserBase Parser Json.
From Verif Require Import SpecTree.

(** [within j k]: the value [k] is (a part of) the JSON value [j]. *)
Inductive within : json -> json -> Prop :=
| w_here j : within j j
| w_arr l x k : In x l -> within x k -> within (JArr l) k
| w_obj fs name x k : In (name, x) fs -> within x k -> within (JObj fs) k.

(** The JSON form of every kind of part. *)
Definition j_part (x : part) : json :=
  match x with
  | T_Node x => j_node x | T_Elem x => j_elem x | T_Bind x => j_bind x | T_APat x => j_apat x | T_AAPat x => j_aapat x
  | T_Key x => j_key x | T_Val x => j_val x | T_OPat x => j_opat x | T_Param x => j_param x | T_Arg x => j_arg x
  | T_Prop x => j_prop x | T_Meth x => j_meth x | T_Fn x => j_fn x | T_Case x => j_case x | T_Decl x => j_decl x
  | T_Catch x => j_catch x
  end.

(** The type names that occur in the JSON form of returned trees. *)
Definition emitted_types : list string :=
  ["ArrayExpression"; "ArrayPattern"; "ArrowFunctionExpression"; "AssignmentExpression"; "AssignmentPattern";
   "AsyncArrowFunctionExpression"; "AsyncFunctionExpression"; "BinaryExpression"; "Identifier";
   "CallExpression"; "ComputedMemberExpression"; "ConditionalExpression"; "FunctionExpression"; "Literal";
   "NewExpression"; "ObjectExpression"; "ObjectPattern"; "RegexLiteral"; "SequenceExpression";
   "StaticMemberExpression"; "TaggedTemplateExpression"; "ThisExpression"; "UnaryExpression";
   "UpdateExpression"; "YieldExpression"; "RestElement"; "SpreadElement"; "Super"; "TemplateLiteral";
   "MetaProperty"; "BreakStatement"; "ContinueStatement"; "DebuggerStatement"; "DoWhileStatement";
   "EmptyStatement"; "ExpressionStatement"; "ForStatement"; "ForInStatement"; "ForOfStatement";
   "FunctionDeclaration"; "IfStatement"; "ReturnStatement"; "SwitchStatement"; "ThrowStatement"; "TryStatement";
   "VariableDeclaration"; "WhileStatement"; "WithStatement"; "BlockStatement"; "ClassDeclaration";
   "ExportAllDeclaration"; "ExportDefaultDeclaration"; "ExportNamedDeclaration"; "ImportDeclaration";
   "ImportDefaultSpecifier"; "ImportNamespaceSpecifier"; "ImportSpecifier"; "LabeledStatement"; "Program";
   "BindingIdentifier"; "Property"; "MethodDefinition"; "SwitchCase"; "VariableDeclarator"; "CatchClause";
   "ClassBody"; "Regex"; "TemplateElement"; "TemplateElementValue"; "Span"; "Marker"; "ExportSpecifier"]%string.

(** [strip x] is [x] with all source positions and assignability marks reset,
    except the positions of the properties of object literals. *)
Definition nowhere : span := mkSpan (mkMarker 0 0 0) (mkMarker 0 0 0).
Definition strip_id (i : identifier) : identifier := mkId (id_name i) nowhere.
Definition strip_lit (l : literal) : literal := mkLit (lit_value l) (lit_raw l) nowhere.
Definition strip_import (i : import_spec) : import_spec :=
  match i with
  | ImportDefault l => ImportDefault (strip_id l)
  | ImportNamespace l => ImportNamespace (strip_id l)
  | ImportSpec l i => ImportSpec (strip_id l) (strip_id i)
  end.
Definition strip_export (x : export_spec) : export_spec := mkExport (strip_id (ex_exported x)) (strip_id (ex_local x)).
Fixpoint strip_node (x : node) : node :=
  match x with
  | ArrayExpression x0 _ _ => ArrayExpression (map (option_map strip_elem) x0) ASimple nowhere
  | NArrayPattern x0 _ _ => NArrayPattern (map (option_map strip_apat) x0) ASimple nowhere
  | ArrayAssignmentPattern x0 _ _ => ArrayAssignmentPattern (map (option_map strip_aapat) x0) ASimple nowhere
  | ArrowFunctionExpression x0 x1 x2 x3 x4 x5 _ _ => ArrowFunctionExpression (option_map strip_node x0) (map strip_param x1) (strip_node x2) x3 x4 x5 ASimple nowhere
  | AssignmentExpression x0 x1 x2 _ _ => AssignmentExpression x0 (strip_node x1) (strip_node x2) ASimple nowhere
  | NAssignmentPattern x0 x1 _ => NAssignmentPattern (strip_bind x0) (strip_node x1) nowhere
  | AssignmentRestElement x0 _ => AssignmentRestElement (strip_node x0) nowhere
  | AsyncArrowFunctionExpression x0 x1 x2 x3 x4 x5 _ _ => AsyncArrowFunctionExpression (option_map strip_node x0) (map strip_param x1) (strip_node x2) x3 x4 x5 ASimple nowhere
  | AsyncFunctionExpression x0 x1 x2 x3 x4 x5 _ _ => AsyncFunctionExpression (option_map strip_node x0) (map strip_param x1) (strip_node x2) x3 x4 x5 ASimple nowhere
  | AwaitExpression x0 _ => AwaitExpression (strip_node x0) nowhere
  | BinaryExpression x0 x1 x2 _ _ => BinaryExpression x0 (strip_node x1) (strip_node x2) ASimple nowhere
  | NBindingIdentifier x0 _ => NBindingIdentifier x0 nowhere
  | LogicalExpression x0 x1 x2 _ => LogicalExpression x0 (strip_node x1) (strip_node x2) nowhere
  | CallExpression x0 x1 _ _ => CallExpression (strip_node x0) (map strip_arg x1) ASimple nowhere
  | ClassExpression x0 x1 x2 _ _ => ClassExpression (option_map strip_node x0) (option_map strip_node x1) (map strip_meth x2) ASimple nowhere
  | ComputedMemberExpression x0 x1 x2 _ _ => ComputedMemberExpression x0 (strip_node x1) (strip_node x2) ASimple nowhere
  | ConditionalExpression x0 x1 x2 _ => ConditionalExpression (strip_node x0) (strip_node x1) (strip_node x2) nowhere
  | Identifier x0 _ _ => Identifier x0 ASimple nowhere
  | FunctionExpression x0 x1 x2 x3 x4 x5 _ _ => FunctionExpression (option_map strip_node x0) (map strip_param x1) (strip_node x2) x3 x4 x5 ASimple nowhere
  | NLiteral x0 x1 _ _ => NLiteral x0 x1 ASimple nowhere
  | NewExpression x0 x1 _ _ => NewExpression (strip_node x0) (map strip_arg x1) ASimple nowhere
  | ObjectExpression x0 _ _ => ObjectExpression (map strip_prop x0) ASimple nowhere
  | NObjectPattern x0 _ _ => NObjectPattern (map strip_opat x0) ASimple nowhere
  | RegexLiteral x0 x1 x2 _ _ => RegexLiteral x0 x1 x2 ASimple nowhere
  | SequenceExpression x0 _ _ => SequenceExpression (map strip_node x0) ASimple nowhere
  | StaticMemberExpression x0 x1 x2 _ _ => StaticMemberExpression x0 (strip_node x1) (strip_node x2) ASimple nowhere
  | TaggedTemplateExpression x0 x1 x2 _ => TaggedTemplateExpression (strip_node x0) x1 (map strip_node x2) nowhere
  | ThisExpression _ _ => ThisExpression ASimple nowhere
  | UnaryExpression x0 x1 x2 _ _ => UnaryExpression x0 (strip_node x1) x2 ASimple nowhere
  | UpdateExpression x0 x1 x2 _ _ => UpdateExpression x0 (strip_node x1) x2 ASimple nowhere
  | YieldExpression x0 x1 _ _ => YieldExpression (option_map strip_node x0) x1 ASimple nowhere
  | ArrowParameterPlaceHolder x0 x1 _ => ArrowParameterPlaceHolder (map strip_param x0) x1 nowhere
  | NRestElement x0 _ => NRestElement (strip_bind x0) nowhere
  | NSpreadElement x0 _ => NSpreadElement (strip_node x0) nowhere
  | Super _ _ => Super ASimple nowhere
  | TemplateLiteral x0 x1 _ _ => TemplateLiteral x0 (map strip_node x1) ASimple nowhere
  | MetaProperty x0 x1 _ _ => MetaProperty (strip_node x0) (strip_node x1) ASimple nowhere
  | AsyncFunctionDeclaration x0 x1 x2 x3 x4 x5 _ => AsyncFunctionDeclaration (option_map strip_node x0) (map strip_param x1) (strip_node x2) x3 x4 x5 nowhere
  | BreakStatement x0 _ => BreakStatement (option_map strip_node x0) nowhere
  | ContinueStatement x0 _ => ContinueStatement (option_map strip_node x0) nowhere
  | DebuggerStatement _ => DebuggerStatement nowhere
  | DoWhileStatement x0 x1 _ => DoWhileStatement (strip_node x0) (strip_node x1) nowhere
  | EmptyStatement _ => EmptyStatement nowhere
  | ExpressionStatement x0 _ => ExpressionStatement (strip_node x0) nowhere
  | Directive x0 x1 _ => Directive (strip_node x0) x1 nowhere
  | ForStatement x0 x1 x2 x3 _ => ForStatement (option_map strip_node x0) (option_map strip_node x1) (option_map strip_node x2) (strip_node x3) nowhere
  | ForInStatement x0 x1 x2 x3 _ => ForInStatement (strip_node x0) (strip_node x1) (strip_node x2) x3 nowhere
  | ForOfStatement x0 x1 x2 _ => ForOfStatement (strip_node x0) (strip_node x1) (strip_node x2) nowhere
  | FunctionDeclaration x0 x1 x2 x3 x4 x5 _ => FunctionDeclaration (option_map strip_node x0) (map strip_param x1) (strip_node x2) x3 x4 x5 nowhere
  | IfStatement x0 x1 x2 _ => IfStatement (strip_node x0) (strip_node x1) (option_map strip_node x2) nowhere
  | ReturnStatement x0 _ => ReturnStatement (option_map strip_node x0) nowhere
  | SwitchStatement x0 x1 _ => SwitchStatement (strip_node x0) (map strip_case x1) nowhere
  | ThrowStatement x0 _ => ThrowStatement (strip_node x0) nowhere
  | TryStatement x0 x1 x2 _ => TryStatement (strip_node x0) (option_map strip_catch x1) (option_map strip_node x2) nowhere
  | VariableDeclaration x0 x1 _ => VariableDeclaration (map strip_decl x0) x1 nowhere
  | WhileStatement x0 x1 _ => WhileStatement (strip_node x0) (strip_node x1) nowhere
  | WithStatement x0 x1 _ => WithStatement (strip_node x0) (strip_node x1) nowhere
  | BlockStatement x0 _ => BlockStatement (map strip_node x0) nowhere
  | ClassDeclaration x0 x1 x2 _ => ClassDeclaration (option_map strip_node x0) (option_map strip_node x1) (map strip_meth x2) nowhere
  | ExportAllDeclaration x0 _ => ExportAllDeclaration (strip_lit x0) nowhere
  | ExportDefaultDeclaration x0 _ => ExportDefaultDeclaration (strip_node x0) nowhere
  | ExportNamedDeclaration x0 x1 x2 _ => ExportNamedDeclaration (option_map strip_node x0) (map strip_export x1) (option_map strip_lit x2) nowhere
  | ImportDeclaration x0 x1 _ => ImportDeclaration (map strip_import x0) (strip_lit x1) nowhere
  | NImportDefaultSpecifier x0 _ => NImportDefaultSpecifier (strip_id x0) nowhere
  | NImportNamespaceSpecifier x0 _ => NImportNamespaceSpecifier (strip_id x0) nowhere
  | NImportSpecifier x0 x1 _ => NImportSpecifier (strip_id x0) (strip_id x1) nowhere
  | LabeledStatement x0 x1 _ => LabeledStatement (strip_id x0) (strip_node x1) nowhere
  | Module x0 x1 _ => Module (map strip_node x0) x1 nowhere
  | Program x0 x1 _ => Program (map strip_node x0) x1 nowhere
  end
with strip_elem (x : arr_elem) : arr_elem :=
  match x with
  | AE_Expr x0 => AE_Expr (strip_node x0)
  | AE_Spread x0 _ => AE_Spread (strip_node x0) nowhere
  end
with strip_bind (x : binding) : binding :=
  match x with
  | B_Id x0 _ => B_Id x0 nowhere
  | B_Array x0 _ => B_Array (map (option_map strip_apat) x0) nowhere
  | B_Object x0 _ => B_Object (map strip_opat x0) nowhere
  | B_Expr x0 => B_Expr (strip_node x0)
  end
with strip_apat (x : arr_pat) : arr_pat :=
  match x with
  | AP_Assign x0 x1 => AP_Assign (strip_bind x0) (strip_node x1)
  | AP_Id x0 => AP_Id x0
  | AP_Array x0 => AP_Array (map (option_map strip_apat) x0)
  | AP_Object x0 => AP_Object (map strip_opat x0)
  | AP_Rest x0 => AP_Rest (strip_bind x0)
  end
with strip_aapat (x : arr_apat) : arr_apat :=
  match x with
  | AA_Expr x0 => AA_Expr (strip_node x0)
  | AA_Rest x0 => AA_Rest (strip_bind x0)
  end
with strip_key (x : prop_key) : prop_key :=
  match x with
  | PK_Id x0 => PK_Id (strip_id x0)
  | PK_Lit x0 => PK_Lit (strip_lit x0)
  | PK_Expr x0 => PK_Expr (strip_node x0)
  end
with strip_val (x : prop_value) : prop_value :=
  match x with
  | PV_Assign x0 x1 => PV_Assign (strip_bind x0) (strip_node x1)
  | PV_AsyncFn x0 x1 x2 x3 x4 x5 => PV_AsyncFn (option_map strip_node x0) (map strip_param x1) (strip_node x2) x3 x4 x5
  | PV_BindId x0 _ => PV_BindId x0 nowhere
  | PV_ArrayPat x0 => PV_ArrayPat (map (option_map strip_apat) x0)
  | PV_ObjectPat x0 => PV_ObjectPat (map strip_opat x0)
  | PV_Fn x0 => PV_Fn (strip_fn x0)
  | PV_Expr x0 => PV_Expr (strip_node x0)
  end
with strip_opat (x : obj_pat) : obj_pat :=
  match x with
  | OP_Prop x0 x1 x2 x3 x4 x5 => OP_Prop (strip_key x0) x1 (option_map strip_val x2) x3 x4 x5
  | OP_Rest x0 => OP_Rest (strip_bind x0)
  end
with strip_param (x : func_param) : func_param :=
  match x with
  | FP_Assign x0 x1 => FP_Assign (strip_bind x0) (strip_node x1)
  | FP_Id x0 => FP_Id x0
  | FP_Array x0 => FP_Array (map (option_map strip_apat) x0)
  | FP_Object x0 => FP_Object (map strip_opat x0)
  | FP_Rest x0 => FP_Rest (strip_bind x0)
  end
with strip_arg (x : arg_elem) : arg_elem :=
  match x with
  | AR_Expr x0 => AR_Expr (strip_node x0)
  | AR_Spread x0 _ => AR_Spread (strip_node x0) nowhere
  end
with strip_prop (x : obj_prop) : obj_prop :=
  match x with
  | OE_Prop x0 x1 x2 x3 x4 x5 x6 => OE_Prop (strip_key x0) x1 (option_map strip_val x2) x3 x4 x5 x6
  | OE_Spread x0 x1 => OE_Spread (strip_node x0) x1
  end
with strip_meth (x : method_def) : method_def :=
  match x with
  | MethodDef x0 x1 x2 x3 x4 => MethodDef (strip_node x0) x1 (option_map strip_fn x2) x3 x4
  end
with strip_fn (x : fn_expr) : fn_expr :=
  match x with
  | FnExpr x0 x1 x2 x3 x4 x5 => FnExpr (option_map strip_node x0) (map strip_param x1) (strip_node x2) x3 x4 x5
  end
with strip_case (x : switch_case) : switch_case :=
  match x with
  | SwitchCase x0 x1 => SwitchCase (option_map strip_node x0) (map strip_node x1)
  end
with strip_decl (x : var_declarator) : var_declarator :=
  match x with
  | VarDeclarator x0 x1 => VarDeclarator (strip_bind x0) (option_map strip_node x1)
  end
with strip_catch (x : catch_clause) : catch_clause :=
  match x with
  | CatchClause x0 x1 => CatchClause (option_map strip_bind x0) (strip_node x1)
  end.
