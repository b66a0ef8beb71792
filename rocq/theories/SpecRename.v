(** * SpecRename: consistent renaming of identifiers (C60).  Only definitions. *)
From Verif Require Import Base Punct Token Ast.
From Verif Require Import SpecLex SpecJson SpecTouch SpecRelay.

(** The words that mean something to the parser. *)
Definition contextual_words : list string :=
  ["async"; "await"; "yield"; "get"; "set"; "let"; "of"; "static"; "as"; "from"; "target"; "new"; "eval"; "arguments"; "constructor";
   "use strict"; "implements"; "interface"; "package"; "private"; "protected"; "public"; "null"; "true"; "false"; "*"]%string.
Definition special (x : str) : Prop := In x (map s2l (reserved_words ++ contextual_words)).

Section Rename.
Context (rho : str -> str).
(** [rho] maps these words to themselves and nothing else to them, and leaves the texts
    of numbers and punctuators alone. *)
Definition keeps_special (E : env) : Prop :=
  (forall w, special w -> forall x, rho x = w <-> x = w) /\
  (forall n, rho (f64_show E n) = f64_show E n) /\ (forall p, rho (p_to_string p) = p_to_string p).

(** [ren_node rho x]: the tree [x] with [rho] applied to every name, literal value and
    text.  (Below [rho] changes nothing but the names of identifiers.) *)
Definition ren_value (v : value) : value := match v with VStr s => VStr (rho s) | _ => v end.
Definition ren_te (t : template_element) : template_element := mkTE (te_cooked t) (rho (te_raw t)) (te_tail t).
Definition ren_id (i : identifier) : identifier := mkId (rho (id_name i)) (id_span i).
Definition ren_lit (l : literal) : literal := mkLit (ren_value (lit_value l)) (rho (lit_raw l)) (lit_span l).
Definition ren_import (i : import_spec) : import_spec :=
  match i with
  | ImportDefault a => ImportDefault (ren_id a)
  | ImportNamespace a => ImportNamespace (ren_id a)
  | ImportSpec a b => ImportSpec (ren_id a) (ren_id b)
  end.
Definition ren_export (x : export_spec) : export_spec := mkExport (ren_id (ex_exported x)) (ren_id (ex_local x)).
Fixpoint ren_node (x : node) : node :=
  match x with
  | ArrayExpression x0 x1 x2 => ArrayExpression (map (option_map ren_elem) x0) x1 x2
  | NArrayPattern x0 x1 x2 => NArrayPattern (map (option_map ren_apat) x0) x1 x2
  | ArrayAssignmentPattern x0 x1 x2 => ArrayAssignmentPattern (map (option_map ren_aapat) x0) x1 x2
  | ArrowFunctionExpression x0 x1 x2 x3 x4 x5 x6 x7 => ArrowFunctionExpression (option_map ren_node x0) (map ren_param x1) (ren_node x2) x3 x4 x5 x6 x7
  | AssignmentExpression x0 x1 x2 x3 x4 => AssignmentExpression x0 (ren_node x1) (ren_node x2) x3 x4
  | NAssignmentPattern x0 x1 x2 => NAssignmentPattern (ren_bind x0) (ren_node x1) x2
  | AssignmentRestElement x0 x1 => AssignmentRestElement (ren_node x0) x1
  | AsyncArrowFunctionExpression x0 x1 x2 x3 x4 x5 x6 x7 => AsyncArrowFunctionExpression (option_map ren_node x0) (map ren_param x1) (ren_node x2) x3 x4 x5 x6 x7
  | AsyncFunctionExpression x0 x1 x2 x3 x4 x5 x6 x7 => AsyncFunctionExpression (option_map ren_node x0) (map ren_param x1) (ren_node x2) x3 x4 x5 x6 x7
  | AwaitExpression x0 x1 => AwaitExpression (ren_node x0) x1
  | BinaryExpression x0 x1 x2 x3 x4 => BinaryExpression (rho x0) (ren_node x1) (ren_node x2) x3 x4
  | NBindingIdentifier x0 x1 => NBindingIdentifier (rho x0) x1
  | LogicalExpression x0 x1 x2 x3 => LogicalExpression x0 (ren_node x1) (ren_node x2) x3
  | CallExpression x0 x1 x2 x3 => CallExpression (ren_node x0) (map ren_arg x1) x2 x3
  | ClassExpression x0 x1 x2 x3 x4 => ClassExpression (option_map ren_node x0) (option_map ren_node x1) (map ren_meth x2) x3 x4
  | ComputedMemberExpression x0 x1 x2 x3 x4 => ComputedMemberExpression x0 (ren_node x1) (ren_node x2) x3 x4
  | ConditionalExpression x0 x1 x2 x3 => ConditionalExpression (ren_node x0) (ren_node x1) (ren_node x2) x3
  | Identifier x0 x1 x2 => Identifier (rho x0) x1 x2
  | FunctionExpression x0 x1 x2 x3 x4 x5 x6 x7 => FunctionExpression (option_map ren_node x0) (map ren_param x1) (ren_node x2) x3 x4 x5 x6 x7
  | NLiteral x0 x1 x2 x3 => NLiteral (ren_value x0) (rho x1) x2 x3
  | NewExpression x0 x1 x2 x3 => NewExpression (ren_node x0) (map ren_arg x1) x2 x3
  | ObjectExpression x0 x1 x2 => ObjectExpression (map ren_prop x0) x1 x2
  | NObjectPattern x0 x1 x2 => NObjectPattern (map ren_opat x0) x1 x2
  | RegexLiteral x0 x1 x2 x3 x4 => RegexLiteral (rho x0) (rho x1) x2 x3 x4
  | SequenceExpression x0 x1 x2 => SequenceExpression (map ren_node x0) x1 x2
  | StaticMemberExpression x0 x1 x2 x3 x4 => StaticMemberExpression x0 (ren_node x1) (ren_node x2) x3 x4
  | TaggedTemplateExpression x0 x1 x2 x3 => TaggedTemplateExpression (ren_node x0) (map ren_te x1) (map ren_node x2) x3
  | ThisExpression x0 x1 => ThisExpression x0 x1
  | UnaryExpression x0 x1 x2 x3 x4 => UnaryExpression (rho x0) (ren_node x1) x2 x3 x4
  | UpdateExpression x0 x1 x2 x3 x4 => UpdateExpression (rho x0) (ren_node x1) x2 x3 x4
  | YieldExpression x0 x1 x2 x3 => YieldExpression (option_map ren_node x0) x1 x2 x3
  | ArrowParameterPlaceHolder x0 x1 x2 => ArrowParameterPlaceHolder (map ren_param x0) x1 x2
  | NRestElement x0 x1 => NRestElement (ren_bind x0) x1
  | NSpreadElement x0 x1 => NSpreadElement (ren_node x0) x1
  | Super x0 x1 => Super x0 x1
  | TemplateLiteral x0 x1 x2 x3 => TemplateLiteral (map ren_te x0) (map ren_node x1) x2 x3
  | MetaProperty x0 x1 x2 x3 => MetaProperty (ren_node x0) (ren_node x1) x2 x3
  | AsyncFunctionDeclaration x0 x1 x2 x3 x4 x5 x6 => AsyncFunctionDeclaration (option_map ren_node x0) (map ren_param x1) (ren_node x2) x3 x4 x5 x6
  | BreakStatement x0 x1 => BreakStatement (option_map ren_node x0) x1
  | ContinueStatement x0 x1 => ContinueStatement (option_map ren_node x0) x1
  | DebuggerStatement x0 => DebuggerStatement x0
  | DoWhileStatement x0 x1 x2 => DoWhileStatement (ren_node x0) (ren_node x1) x2
  | EmptyStatement x0 => EmptyStatement x0
  | ExpressionStatement x0 x1 => ExpressionStatement (ren_node x0) x1
  | Directive x0 x1 x2 => Directive (ren_node x0) x1 x2
  | ForStatement x0 x1 x2 x3 x4 => ForStatement (option_map ren_node x0) (option_map ren_node x1) (option_map ren_node x2) (ren_node x3) x4
  | ForInStatement x0 x1 x2 x3 x4 => ForInStatement (ren_node x0) (ren_node x1) (ren_node x2) x3 x4
  | ForOfStatement x0 x1 x2 x3 => ForOfStatement (ren_node x0) (ren_node x1) (ren_node x2) x3
  | FunctionDeclaration x0 x1 x2 x3 x4 x5 x6 => FunctionDeclaration (option_map ren_node x0) (map ren_param x1) (ren_node x2) x3 x4 x5 x6
  | IfStatement x0 x1 x2 x3 => IfStatement (ren_node x0) (ren_node x1) (option_map ren_node x2) x3
  | ReturnStatement x0 x1 => ReturnStatement (option_map ren_node x0) x1
  | SwitchStatement x0 x1 x2 => SwitchStatement (ren_node x0) (map ren_case x1) x2
  | ThrowStatement x0 x1 => ThrowStatement (ren_node x0) x1
  | TryStatement x0 x1 x2 x3 => TryStatement (ren_node x0) (option_map ren_catch x1) (option_map ren_node x2) x3
  | VariableDeclaration x0 x1 x2 => VariableDeclaration (map ren_decl x0) x1 x2
  | WhileStatement x0 x1 x2 => WhileStatement (ren_node x0) (ren_node x1) x2
  | WithStatement x0 x1 x2 => WithStatement (ren_node x0) (ren_node x1) x2
  | BlockStatement x0 x1 => BlockStatement (map ren_node x0) x1
  | ClassDeclaration x0 x1 x2 x3 => ClassDeclaration (option_map ren_node x0) (option_map ren_node x1) (map ren_meth x2) x3
  | ExportAllDeclaration x0 x1 => ExportAllDeclaration (ren_lit x0) x1
  | ExportDefaultDeclaration x0 x1 => ExportDefaultDeclaration (ren_node x0) x1
  | ExportNamedDeclaration x0 x1 x2 x3 => ExportNamedDeclaration (option_map ren_node x0) (map ren_export x1) (option_map ren_lit x2) x3
  | ImportDeclaration x0 x1 x2 => ImportDeclaration (map ren_import x0) (ren_lit x1) x2
  | NImportDefaultSpecifier x0 x1 => NImportDefaultSpecifier (ren_id x0) x1
  | NImportNamespaceSpecifier x0 x1 => NImportNamespaceSpecifier (ren_id x0) x1
  | NImportSpecifier x0 x1 x2 => NImportSpecifier (ren_id x0) (ren_id x1) x2
  | LabeledStatement x0 x1 x2 => LabeledStatement (ren_id x0) (ren_node x1) x2
  | Module x0 x1 x2 => Module (map ren_node x0) x1 x2
  | Program x0 x1 x2 => Program (map ren_node x0) x1 x2
  end
with ren_elem (x : arr_elem) : arr_elem :=
  match x with
  | AE_Expr x0 => AE_Expr (ren_node x0)
  | AE_Spread x0 x1 => AE_Spread (ren_node x0) x1
  end
with ren_bind (x : binding) : binding :=
  match x with
  | B_Id x0 x1 => B_Id (rho x0) x1
  | B_Array x0 x1 => B_Array (map (option_map ren_apat) x0) x1
  | B_Object x0 x1 => B_Object (map ren_opat x0) x1
  | B_Expr x0 => B_Expr (ren_node x0)
  end
with ren_apat (x : arr_pat) : arr_pat :=
  match x with
  | AP_Assign x0 x1 => AP_Assign (ren_bind x0) (ren_node x1)
  | AP_Id x0 => AP_Id (rho x0)
  | AP_Array x0 => AP_Array (map (option_map ren_apat) x0)
  | AP_Object x0 => AP_Object (map ren_opat x0)
  | AP_Rest x0 => AP_Rest (ren_bind x0)
  end
with ren_aapat (x : arr_apat) : arr_apat :=
  match x with
  | AA_Expr x0 => AA_Expr (ren_node x0)
  | AA_Rest x0 => AA_Rest (ren_bind x0)
  end
with ren_key (x : prop_key) : prop_key :=
  match x with
  | PK_Id x0 => PK_Id (ren_id x0)
  | PK_Lit x0 => PK_Lit (ren_lit x0)
  | PK_Expr x0 => PK_Expr (ren_node x0)
  end
with ren_val (x : prop_value) : prop_value :=
  match x with
  | PV_Assign x0 x1 => PV_Assign (ren_bind x0) (ren_node x1)
  | PV_AsyncFn x0 x1 x2 x3 x4 x5 => PV_AsyncFn (option_map ren_node x0) (map ren_param x1) (ren_node x2) x3 x4 x5
  | PV_BindId x0 x1 => PV_BindId (rho x0) x1
  | PV_ArrayPat x0 => PV_ArrayPat (map (option_map ren_apat) x0)
  | PV_ObjectPat x0 => PV_ObjectPat (map ren_opat x0)
  | PV_Fn x0 => PV_Fn (ren_fn x0)
  | PV_Expr x0 => PV_Expr (ren_node x0)
  end
with ren_opat (x : obj_pat) : obj_pat :=
  match x with
  | OP_Prop x0 x1 x2 x3 x4 x5 => OP_Prop (ren_key x0) x1 (option_map ren_val x2) x3 x4 x5
  | OP_Rest x0 => OP_Rest (ren_bind x0)
  end
with ren_param (x : func_param) : func_param :=
  match x with
  | FP_Assign x0 x1 => FP_Assign (ren_bind x0) (ren_node x1)
  | FP_Id x0 => FP_Id (rho x0)
  | FP_Array x0 => FP_Array (map (option_map ren_apat) x0)
  | FP_Object x0 => FP_Object (map ren_opat x0)
  | FP_Rest x0 => FP_Rest (ren_bind x0)
  end
with ren_arg (x : arg_elem) : arg_elem :=
  match x with
  | AR_Expr x0 => AR_Expr (ren_node x0)
  | AR_Spread x0 x1 => AR_Spread (ren_node x0) x1
  end
with ren_prop (x : obj_prop) : obj_prop :=
  match x with
  | OE_Prop x0 x1 x2 x3 x4 x5 x6 => OE_Prop (ren_key x0) x1 (option_map ren_val x2) x3 x4 x5 x6
  | OE_Spread x0 x1 => OE_Spread (ren_node x0) x1
  end
with ren_meth (x : method_def) : method_def :=
  match x with
  | MethodDef x0 x1 x2 x3 x4 => MethodDef (ren_node x0) x1 (option_map ren_fn x2) x3 x4
  end
with ren_fn (x : fn_expr) : fn_expr :=
  match x with
  | FnExpr x0 x1 x2 x3 x4 x5 => FnExpr (option_map ren_node x0) (map ren_param x1) (ren_node x2) x3 x4 x5
  end
with ren_case (x : switch_case) : switch_case :=
  match x with
  | SwitchCase x0 x1 => SwitchCase (option_map ren_node x0) (map ren_node x1)
  end
with ren_decl (x : var_declarator) : var_declarator :=
  match x with
  | VarDeclarator x0 x1 => VarDeclarator (ren_bind x0) (option_map ren_node x1)
  end
with ren_catch (x : catch_clause) : catch_clause :=
  match x with
  | CatchClause x0 x1 => CatchClause (option_map ren_bind x0) (ren_node x1)
  end.

(** An error that quotes a token *)
Definition ren_error (e : errtype) : errtype := match e with UnexpectedToken s => UnexpectedToken (rho s) | _ => e end.

(** The text begins as a name does. *)
Definition name_first (E : env) (r : str) : Prop := exists c x, r = c :: x /\ id_start E c.

(** The text [l] of the token [t] and the text [l'] that stands for it in the renamed
    program, followed by [r] and [r']: an identifier is replaced by the identifier
    that [rho] makes of it; the other tokens stay, [rho] leaves their texts
    alone, and they are kept apart from what follows (C49; names may follow a punctuator
    at once). *)
Definition retold (E : env) (t : token) (l l' r r' : str) : Prop :=
  (exists x, ttype t = TIdentifier /\ tval t = VStr x /\ l' = rho x /\
    plain_word E l' /\ ~ reserved l' /\ ~ In l' [s2l "null"; s2l "true"; s2l "false"] /\ word_ends E r') \/
  (ttype t <> TIdentifier /\ rho (value_show E (tval t)) = value_show E (tval t) /\ l' = l /\
    (after E l r r' \/ (ttype t = TPunctuator /\ name_first E r /\ name_first E r'))).

(** The pieces [ps] of a program, whose tokens are [ts], and the pieces of the renamed
    program.  The gaps may change as well, as in C49. *)
Inductive renamed (E : env) (Z : Prop) (last last' : str) : list token -> list piece -> list piece -> Prop :=
| renamed_nil : Z -> renamed E Z last last' [] [] []
| renamed_cons t ts g g' l l' ps ps' : trivia g' (l' ++ text ps' last') ->
    breaks g' (l' ++ text ps' last') = breaks g (l ++ text ps last) -> breaks l' (text ps' last') = breaks l (text ps last) ->
    retold E t l l' (text ps last) (text ps' last') -> renamed E Z last last' ts ps ps' ->
    renamed E Z last last' (t :: ts) ((g, l) :: ps) ((g', l') :: ps').
End Rename.

(** The tree with the lines of its parts, but not their columns and offsets. *)
Definition line_only (m : marker) : marker := mkMarker (mk_line m) 0 0.
Definition lines_only (x : node) : node :=
  touch_node (fun s => mkSpan (line_only (sp_start s)) (line_only (sp_end s))) (fun a => a) x.
