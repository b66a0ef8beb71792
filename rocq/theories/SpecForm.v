(** * SpecForm: the JSON form of every kind of part, as a table.  Only definitions.

    [shape x] says which type name the object for [x] has and what each of its
    fields holds, in the order in which they are written.  A field holds a value
    of the tree ([CText], [CBool], ...), the form of a child of [x] ([CPart]), or
    a list or an object of such things.  [alias x] lists the parts that have no
    object of their own and are written as their only child. *)
From Verif Require Import Base Punct Token Ast ParserBase Parser Json.
From Verif Require Import SpecTree SpecJson.

Inductive content :=
| CNull | CText (s : str) | CBool (b : bool) | CInt (n : N) | CValue (v : value) | CPart (x : part)
| CList (l : list content) | COne (ty : string) (fields : list (string * content)).

(** What a reader of the JSON text sees. *)
Fixpoint shown (c : content) : json :=
  match c with
  | CNull => JNull
  | CText s => JStr s
  | CBool b => JBool b
  | CInt n => JInt n
  | CValue (VStr s) => JStr s
  | CValue (VNum n) => JNum n
  | CValue (VPunc p) => j_punct p
  | CValue VNull => JNull
  | CPart x => j_part x
  | CList l => JArr (map shown l)
  | COne ty fs => JObj (("type"%string, JStr (s2l ty)) :: map (fun f => (fst f, shown (snd f))) fs)
  end.

Definition parts {A} (T : A -> part) (l : list A) : content := CList (map (fun x => CPart (T x)) l).
Definition opt_part {A} (T : A -> part) (o : option A) : content := match o with Some x => CPart (T x) | None => CNull end.
Definition holes {A} (T : A -> part) (l : list (option A)) : content := CList (map (opt_part T) l).
Definition name_form (i : identifier) : content := COne "Identifier" [("name"%string, CText (id_name i))].
Definition literal_form (l : literal) : content :=
  COne "Literal" [("value", CValue (lit_value l)); ("raw", CText (lit_raw l))]%string.
Definition opt_lit (o : option literal) : content := match o with Some l => literal_form l | None => CNull end.
Definition regex_form (r : regex) : content :=
  COne "Regex" [("pattern", CText (rx_pattern r)); ("flags", CList (map (fun c => CText [c]) (rx_flags r)))]%string.
Definition template_form (q : template_element) : content :=
  COne "TemplateElement" [("value", COne "TemplateElementValue" [("cooked", CText (te_cooked q)); ("raw", CText (te_raw q))]); ("tail", CBool (te_tail q))]%string.
Definition import_form (i : import_spec) : content :=
  match i with
  | ImportDefault l => COne "ImportDefaultSpecifier" [("local", name_form l)]
  | ImportNamespace l => COne "ImportNamespaceSpecifier" [("local", name_form l)]
  | ImportSpec l i => COne "ImportSpecifier" [("local", name_form l); ("imported", name_form i)]
  end%string.
Definition export_form (x : export_spec) : content :=
  COne "ExportSpecifier" [("exported", name_form (ex_exported x)); ("local", name_form (ex_local x))]%string.
Definition marker_form (m : marker) : content :=
  COne "Marker" [("line", CInt (mk_line m)); ("col", CInt (mk_col m)); ("idx", CInt (mk_idx m))]%string.
Definition span_form (s : span) : content :=
  COne "Span" [("start", marker_form (sp_start s)); ("end", marker_form (sp_end s))]%string.
Definition function_form (ty : string) (id : option node) (ps : list func_param) (b : node) (g e a : bool) : content :=
  COne ty [("id", opt_part T_Node id); ("params", parts T_Param ps); ("body", CPart (T_Node b)); ("generator", CBool g); ("expression", CBool e); ("async", CBool a)]%string.

Definition alias (x : part) : option part :=
  match x with
  | T_Elem (AE_Expr e) => Some (T_Node e)
  | T_Bind (B_Expr e) => Some (T_Node e)
  | T_AAPat (AA_Expr e) => Some (T_Node e)
  | T_Key (PK_Expr e) => Some (T_Node e)
  | T_Val (PV_Fn f) => Some (T_Fn f)
  | T_Val (PV_Expr e) => Some (T_Node e)
  | T_Arg (AR_Expr e) => Some (T_Node e)
  | _ => None
  end.

Definition shape (x : part) : option content :=
  match x with
  | T_Node (ArrayExpression es _ _) => Some (COne "ArrayExpression" [("elements", holes T_Elem es)])
  | T_Node (NArrayPattern es _ _) => Some (COne "ArrayPattern" [("elements", holes T_APat es)])
  | T_Node (ArrayAssignmentPattern es _ _) => Some (COne "ArrayPattern" [("elements", holes T_AAPat es)])
  | T_Node (ArrowFunctionExpression id ps b g e a _ _) => Some (function_form "ArrowFunctionExpression" id ps b g e a)
  | T_Node (AssignmentExpression o l r _ _) => Some (COne "AssignmentExpression" [("operator", CText (s2l o)); ("left", CPart (T_Node l)); ("right", CPart (T_Node r))])
  | T_Node (NAssignmentPattern l r _) => Some (COne "AssignmentPattern" [("left", CPart (T_Bind l)); ("right", CPart (T_Node r))])
  | T_Node (AssignmentRestElement e _) => Some (COne "AssignmentRestElement" [("argument", CPart (T_Node e))])
  | T_Node (AsyncArrowFunctionExpression id ps b g e a _ _) => Some (function_form "AsyncArrowFunctionExpression" id ps b g e a)
  | T_Node (AsyncFunctionExpression id ps b g e a _ _) => Some (function_form "AsyncFunctionExpression" id ps b g e a)
  | T_Node (AwaitExpression e _) => Some (COne "AwaitExpression" [("argument", CPart (T_Node e))])
  | T_Node (BinaryExpression o l r _ _) => Some (COne "BinaryExpression" [("operator", CText o); ("left", CPart (T_Node l)); ("right", CPart (T_Node r))])
  | T_Node (NBindingIdentifier name _) => Some (COne "Identifier" [("name", CText name)])
  | T_Node (LogicalExpression o l r _) => Some (COne "LogicalExpression" [("operator", CText (s2l o)); ("left", CPart (T_Node l)); ("right", CPart (T_Node r))])
  | T_Node (CallExpression c args _ _) => Some (COne "CallExpression" [("callee", CPart (T_Node c)); ("arguments", parts T_Arg args)])
  | T_Node (ClassExpression id s b _ _) => Some (COne "ClassExpression" [("id", opt_part T_Node id); ("super_class", opt_part T_Node s); ("body", COne "ClassBody" [("body", parts T_Meth b)])])
  | T_Node (ComputedMemberExpression c o p _ _) => Some (COne "ComputedMemberExpression" [("computed", CBool c); ("object", CPart (T_Node o)); ("property", CPart (T_Node p))])
  | T_Node (ConditionalExpression t c a _) => Some (COne "ConditionalExpression" [("test", CPart (T_Node t)); ("consequent", CPart (T_Node c)); ("alternate", CPart (T_Node a))])
  | T_Node (Identifier name _ _) => Some (COne "Identifier" [("name", CText name)])
  | T_Node (FunctionExpression id ps b g e a _ _) => Some (function_form "FunctionExpression" id ps b g e a)
  | T_Node (NLiteral v raw _ _) => Some (COne "Literal" [("value", CValue v); ("raw", CText raw)])
  | T_Node (NewExpression c args _ _) => Some (COne "NewExpression" [("callee", CPart (T_Node c)); ("arguments", parts T_Arg args)])
  | T_Node (ObjectExpression ps _ _) => Some (COne "ObjectExpression" [("properties", parts T_Prop ps)])
  | T_Node (NObjectPattern ps _ _) => Some (COne "ObjectPattern" [("properties", parts T_OPat ps)])
  | T_Node (RegexLiteral v raw rx _ _) => Some (COne "RegexLiteral" [("value", CText v); ("raw", CText raw); ("regex", regex_form rx)])
  | T_Node (SequenceExpression es _ _) => Some (COne "SequenceExpression" [("expressions", parts T_Node es)])
  | T_Node (StaticMemberExpression c o p _ _) => Some (COne "StaticMemberExpression" [("computed", CBool c); ("object", CPart (T_Node o)); ("property", CPart (T_Node p))])
  | T_Node (TaggedTemplateExpression t qs es _) => Some (COne "TaggedTemplateExpression" [("tag", CPart (T_Node t)); ("quasi", COne "TemplateLiteral" [("quasis", CList (map template_form qs)); ("expressions", parts T_Node es)])])
  | T_Node (ThisExpression _ _) => Some (COne "ThisExpression" [])
  | T_Node (UnaryExpression o e p _ _) => Some (COne "UnaryExpression" [("operator", CText o); ("argument", CPart (T_Node e)); ("prefix", CBool p)])
  | T_Node (UpdateExpression o e p _ _) => Some (COne "UpdateExpression" [("operator", CText o); ("argument", CPart (T_Node e)); ("prefix", CBool p)])
  | T_Node (YieldExpression e d _ _) => Some (COne "YieldExpression" [("argument", opt_part T_Node e); ("delegate", CBool d)])
  | T_Node (ArrowParameterPlaceHolder ps a _) => Some (COne "ArrowParameterPlaceHolder" [("params", parts T_Param ps); ("async", CBool a)])
  | T_Node (NRestElement b _) => Some (COne "RestElement" [("argument", CPart (T_Bind b))])
  | T_Node (NSpreadElement e _) => Some (COne "SpreadElement" [("argument", CPart (T_Node e))])
  | T_Node (Super _ _) => Some (COne "Super" [])
  | T_Node (TemplateLiteral qs es _ _) => Some (COne "TemplateLiteral" [("quasis", CList (map template_form qs)); ("expressions", parts T_Node es)])
  | T_Node (MetaProperty m p _ _) => Some (COne "MetaProperty" [("meta", CPart (T_Node m)); ("property", CPart (T_Node p))])
  | T_Node (AsyncFunctionDeclaration id ps b g e a _) => Some (function_form "AsyncFunctionDeclaration" id ps b g e a)
  | T_Node (BreakStatement l _) => Some (COne "BreakStatement" [("label", opt_part T_Node l)])
  | T_Node (ContinueStatement l _) => Some (COne "ContinueStatement" [("label", opt_part T_Node l)])
  | T_Node (DebuggerStatement _) => Some (COne "DebuggerStatement" [])
  | T_Node (DoWhileStatement b t _) => Some (COne "DoWhileStatement" [("body", CPart (T_Node b)); ("test", CPart (T_Node t))])
  | T_Node (EmptyStatement _) => Some (COne "EmptyStatement" [])
  | T_Node (ExpressionStatement e _) => Some (COne "ExpressionStatement" [("expression", CPart (T_Node e))])
  | T_Node (Directive e d _) => Some (COne "Directive" [("expression", CPart (T_Node e)); ("directive", CText d)])
  | T_Node (ForStatement i t u b _) => Some (COne "ForStatement" [("init", opt_part T_Node i); ("test", opt_part T_Node t); ("update", opt_part T_Node u); ("body", CPart (T_Node b))])
  | T_Node (ForInStatement l r b e _) => Some (COne "ForInStatement" [("left", CPart (T_Node l)); ("right", CPart (T_Node r)); ("body", CPart (T_Node b)); ("each", CBool e)])
  | T_Node (ForOfStatement l r b _) => Some (COne "ForOfStatement" [("left", CPart (T_Node l)); ("right", CPart (T_Node r)); ("body", CPart (T_Node b))])
  | T_Node (FunctionDeclaration id ps b g e a _) => Some (function_form "FunctionDeclaration" id ps b g e a)
  | T_Node (IfStatement t c a _) => Some (COne "IfStatement" [("test", CPart (T_Node t)); ("consequent", CPart (T_Node c)); ("alternate", opt_part T_Node a)])
  | T_Node (ReturnStatement e _) => Some (COne "ReturnStatement" [("argument", opt_part T_Node e)])
  | T_Node (SwitchStatement d cs _) => Some (COne "SwitchStatement" [("discriminant", CPart (T_Node d)); ("cases", parts T_Case cs)])
  | T_Node (ThrowStatement e _) => Some (COne "ThrowStatement" [("argument", CPart (T_Node e))])
  | T_Node (TryStatement b h f _) => Some (COne "TryStatement" [("block", CPart (T_Node b)); ("handler", opt_part T_Catch h); ("finalizer", opt_part T_Node f)])
  | T_Node (VariableDeclaration ds k _) => Some (COne "VariableDeclaration" [("declarations", parts T_Decl ds); ("kind", CText (s2l k))])
  | T_Node (WhileStatement t b _) => Some (COne "WhileStatement" [("test", CPart (T_Node t)); ("body", CPart (T_Node b))])
  | T_Node (WithStatement o b _) => Some (COne "WithStatement" [("object", CPart (T_Node o)); ("body", CPart (T_Node b))])
  | T_Node (BlockStatement l _) => Some (COne "BlockStatement" [("body", parts T_Node l)])
  | T_Node (ClassDeclaration id s b _) => Some (COne "ClassDeclaration" [("id", opt_part T_Node id); ("superClass", opt_part T_Node s); ("body", COne "ClassBody" [("body", parts T_Meth b)])])
  | T_Node (ExportAllDeclaration l _) => Some (COne "ExportAllDeclaration" [("source", literal_form l)])
  | T_Node (ExportDefaultDeclaration d _) => Some (COne "ExportDefaultDeclaration" [("declaration", CPart (T_Node d))])
  | T_Node (ExportNamedDeclaration d ss l _) => Some (COne "ExportNamedDeclaration" [("declaration", opt_part T_Node d); ("specifiers", CList (map export_form ss)); ("source", opt_lit l)])
  | T_Node (ImportDeclaration ss l _) => Some (COne "ImportDeclaration" [("specifiers", CList (map import_form ss)); ("source", literal_form l)])
  | T_Node (NImportDefaultSpecifier i _) => Some (COne "ImportDefaultSpecifier" [("local", name_form i)])
  | T_Node (NImportNamespaceSpecifier i _) => Some (COne "ImportNamespaceSpecifier" [("local", name_form i)])
  | T_Node (NImportSpecifier i j _) => Some (COne "ImportSpecifier" [("local", name_form i); ("imported", name_form j)])
  | T_Node (LabeledStatement l b _) => Some (COne "LabeledStatement" [("label", name_form l); ("body", CPart (T_Node b))])
  | T_Node (Module l ty _) => Some (COne "Module" [("body", parts T_Node l); ("sourceType", CText ty)])
  | T_Node (Program l ty _) => Some (COne "Program" [("body", parts T_Node l); ("sourceType", CText (s2l ty))])
  | T_Elem (AE_Spread e _) => Some (COne "SpreadElement" [("argument", CPart (T_Node e))])
  | T_Bind (B_Id name _) => Some (COne "Identifier" [("name", CText name)])
  | T_Bind (B_Array es _) => Some (COne "ArrayPattern" [("elements", holes T_APat es)])
  | T_Bind (B_Object ps _) => Some (COne "ObjectPattern" [("properties", parts T_OPat ps)])
  | T_APat (AP_Assign l r) => Some (COne "AssignmentPattern" [("left", CPart (T_Bind l)); ("right", CPart (T_Node r))])
  | T_APat (AP_Id name) => Some (COne "BindingIdentifier" [("name", CText name)])
  | T_APat (AP_Array es) => Some (COne "ArrayPattern" [("elements", holes T_APat es)])
  | T_APat (AP_Object ps) => Some (COne "ObjectPattern" [("properties", parts T_OPat ps)])
  | T_APat (AP_Rest b) => Some (COne "RestElement" [("argument", CPart (T_Bind b))])
  | T_AAPat (AA_Rest b) => Some (COne "RestElement" [("argument", CPart (T_Bind b))])
  | T_Key (PK_Id i) => Some (name_form i)
  | T_Key (PK_Lit l) => Some (literal_form l)
  | T_Val (PV_Assign l r) => Some (COne "AssignmentPattern" [("left", CPart (T_Bind l)); ("right", CPart (T_Node r))])
  | T_Val (PV_AsyncFn id ps b g e a) => Some (function_form "AsyncFunctionExpression" id ps b g e a)
  | T_Val (PV_BindId name _) => Some (COne "Identifier" [("name", CText name)])
  | T_Val (PV_ArrayPat es) => Some (COne "ArrayPattern" [("elements", holes T_APat es)])
  | T_Val (PV_ObjectPat ps) => Some (COne "ObjectPattern" [("properties", parts T_OPat ps)])
  | T_OPat (OP_Prop k c v ki m sh) => Some (COne "Property" [("key", CPart (T_Key k)); ("computed", CBool c); ("value", opt_part T_Val v); ("kind", CText (s2l ki)); ("method", CBool m); ("shorthand", CBool sh)])
  | T_OPat (OP_Rest b) => Some (COne "RestElement" [("argument", CPart (T_Bind b))])
  | T_Param (FP_Assign l r) => Some (COne "AssignmentPattern" [("left", CPart (T_Bind l)); ("right", CPart (T_Node r))])
  | T_Param (FP_Id name) => Some (COne "BindingIdentifier" [("name", CText name)])
  | T_Param (FP_Array es) => Some (COne "ArrayPattern" [("elements", holes T_APat es)])
  | T_Param (FP_Object ps) => Some (COne "ObjectPattern" [("properties", parts T_OPat ps)])
  | T_Param (FP_Rest b) => Some (COne "RestElement" [("argument", CPart (T_Bind b))])
  | T_Arg (AR_Spread e _) => Some (COne "SpreadElement" [("argument", CPart (T_Node e))])
  | T_Prop (OE_Prop k c v ki m sh sp) => Some (COne "Property" [("key", CPart (T_Key k)); ("computed", CBool c); ("value", opt_part T_Val v); ("kind", CText (s2l ki)); ("method", CBool m); ("shorthand", CBool sh); ("span", span_form sp)])
  | T_Prop (OE_Spread e sp) => Some (COne "SpreadElement" [("argument", CPart (T_Node e)); ("span", span_form sp)])
  | T_Meth (MethodDef k c v ki st) => Some (COne "MethodDefinition" [("key", CPart (T_Node k)); ("computed", CBool c); ("value", opt_part T_Fn v); ("kind", CText (s2l ki)); ("static", CBool st)])
  | T_Fn (FnExpr id ps b g e a) => Some (function_form "FunctionExpression" id ps b g e a)
  | T_Case (SwitchCase t c) => Some (COne "SwitchCase" [("test", opt_part T_Node t); ("consequent", parts T_Node c)])
  | T_Decl (VarDeclarator id i) => Some (COne "VariableDeclarator" [("id", CPart (T_Bind id)); ("init", opt_part T_Node i)])
  | T_Catch (CatchClause p b) => Some (COne "CatchClause" [("param", opt_part T_Bind p); ("body", CPart (T_Node b))])
  | _ => None
  end%string.
