(** * Json: the serialised form of a tree (the [Serialize] derives of
    estree/estree.rs, span/span.rs, token/value.rs, token/punctuators.rs, with
    serde's data model for [tag = "type"], [untagged], [rename] and [skip], as
    rendered by serde_json) and the entry points of giron-wasm. *)
From Verif Require Import Base Errors Punct Token Ast ParserBase Parser.

(** JSON values.  [JNum] is a numeric literal's value (an f64 in the code),
    [JInt] a usize; object fields are in the order in which serde writes them. *)
Inductive json :=
| JNull | JBool (b : bool) | JNum (n : num) | JInt (n : N) | JStr (s : str)
| JArr (l : list json) | JObj (fields : list (string * json)).

(** serde writes the tag first (internally tagged enums and [tag]ged structs). *)
Definition tagged (ty : string) (fields : list (string * json)) : json := JObj (("type"%string, JStr (s2l ty)) :: fields).
Definition jopt {A} (f : A -> json) (o : option A) : json := match o with Some x => f x | None => JNull end.
Definition jarr {A} (f : A -> json) (l : list A) : json := JArr (map f l).
Definition jarro {A} (f : A -> json) (l : list (option A)) : json := JArr (map (fun o => match o with Some x => f x | None => JNull end) l).
Definition jstat (s : string) : json := JStr (s2l s).

(** punctuators.rs:3-62 *)
Definition j_punct (p : punct) : json :=
  tagged match p with
  | LBrace => "LBrace"
  | LParen => "LParen"
  | RParen => "RParen"
  | LBracket => "LBracket"
  | RBracket => "RBracket"
  | Dot => "Dot"
  | Ellipsis => "Ellipsis"
  | Semicolon => "Semicolon"
  | Comma => "Comma"
  | LAngle => "LAngle"
  | RAngle => "RAngle"
  | LEqual => "LEqual"
  | GEqual => "GEqual"
  | Equal => "Equal"
  | NEqual => "NEqual"
  | StrictEqual => "StrictEqual"
  | StrictNEqual => "StrictNEqual"
  | Plus => "Plus"
  | Minus => "Minus"
  | Star => "Star"
  | Mod => "Mod"
  | Pow => "Pow"
  | Inc => "Inc"
  | Dec => "Dec"
  | LShift => "LShift"
  | RShift => "RShift"
  | ZRShift => "ZRShift"
  | BitAnd => "BitAnd"
  | BitOr => "BitOr"
  | BitXor => "BitXor"
  | Bang => "Bang"
  | Tilde => "Tilde"
  | LogicalAnd => "LogicalAnd"
  | LogicalOr => "LogicalOr"
  | Question => "Question"
  | Colon => "Colon"
  | Assign => "Assign"
  | PlusAssign => "PlusAssign"
  | MinusAssign => "MinusAssign"
  | StarAssign => "StarAssign"
  | ModAssign => "ModAssign"
  | PowAssign => "PowAssign"
  | LShiftAssign => "LShiftAssign"
  | RShiftAssign => "RShiftAssign"
  | ZRShiftAssign => "ZRShiftAssign"
  | BitAndAssign => "BitAndAssign"
  | BitOrAssign => "BitOrAssign"
  | BitXorAssign => "BitXorAssign"
  | FatArrow => "FatArrow"
  | Slash => "Slash"
  | SlashAssign => "SlashAssign"
  | RBrace => "RBrace"
  | Instanceof => "Instanceof"
  | QMarkDot => "QMarkDot"
  | DoubleQMark => "DoubleQMark"
  end [].
(** value.rs:4-11 *)
Definition j_value (v : value) : json :=
  match v with VStr s => JStr s | VNum n => JNum n | VPunc p => j_punct p | VNull => JNull end.
(** span.rs:3-16 *)
Definition j_marker (m : marker) : json := tagged "Marker" [("line", JInt (mk_line m)); ("col", JInt (mk_col m)); ("idx", JInt (mk_idx m))]%string.
Definition j_span (s : span) : json := tagged "Span" [("start", j_marker (sp_start s)); ("end", j_marker (sp_end s))]%string.
(** estree.rs:173-188 *)
Definition j_id (i : identifier) : json := tagged "Identifier" [("name", JStr (id_name i))]%string.
Definition j_lit (l : literal) : json := tagged "Literal" [("value", j_value (lit_value l)); ("raw", JStr (lit_raw l))]%string.
(** estree.rs:60-65 *)
Definition j_regex (r : regex) : json :=
  tagged "Regex" [("pattern", JStr (rx_pattern r)); ("flags", JArr (map (fun c => JStr [c]) (rx_flags r)))]%string.
(** estree.rs:384-396 *)
Definition j_te (q : template_element) : json :=
  tagged "TemplateElement" [("value", tagged "TemplateElementValue" [("cooked", JStr (te_cooked q)); ("raw", JStr (te_raw q))]); ("tail", JBool (te_tail q))]%string.
(** estree.rs:14-27 *)
Definition j_import (i : import_spec) : json :=
  match i with
  | ImportDefault l => tagged "ImportDefaultSpecifier" [("local", j_id l)]
  | ImportNamespace l => tagged "ImportNamespaceSpecifier" [("local", j_id l)]
  | ImportSpec l i => tagged "ImportSpecifier" [("local", j_id l); ("imported", j_id i)]
  end%string.
(** estree.rs:36-41 *)
Definition j_export (x : export_spec) : json := tagged "ExportSpecifier" [("exported", j_id (ex_exported x)); ("local", j_id (ex_local x))]%string.

(** estree.rs:418-914 (Node) and 7-411 (the other types, each at its place).
    [skip]ped fields (spans, assign_target_type) do not appear. *)
Fixpoint j_node (n : node) : json :=
  match n with
  | ArrayExpression es _ _ => tagged "ArrayExpression" [("elements", jarro j_elem es)]
  | NArrayPattern es _ _ => tagged "ArrayPattern" [("elements", jarro j_apat es)]
  | ArrayAssignmentPattern es _ _ => tagged "ArrayPattern" [("elements", jarro j_aapat es)]
  | ArrowFunctionExpression id ps b g e a _ _ => tagged "ArrowFunctionExpression" [("id", jopt j_node id); ("params", jarr j_param ps); ("body", j_node b); ("generator", JBool g); ("expression", JBool e); ("async", JBool a)]
  | AssignmentExpression o l r _ _ => tagged "AssignmentExpression" [("operator", jstat o); ("left", j_node l); ("right", j_node r)]
  | NAssignmentPattern l r _ => tagged "AssignmentPattern" [("left", j_bind l); ("right", j_node r)]
  | AssignmentRestElement e _ => tagged "AssignmentRestElement" [("argument", j_node e)]
  | AsyncArrowFunctionExpression id ps b g e a _ _ => tagged "AsyncArrowFunctionExpression" [("id", jopt j_node id); ("params", jarr j_param ps); ("body", j_node b); ("generator", JBool g); ("expression", JBool e); ("async", JBool a)]
  | AsyncFunctionExpression id ps b g e a _ _ => tagged "AsyncFunctionExpression" [("id", jopt j_node id); ("params", jarr j_param ps); ("body", j_node b); ("generator", JBool g); ("expression", JBool e); ("async", JBool a)]
  | AwaitExpression e _ => tagged "AwaitExpression" [("argument", j_node e)]
  | BinaryExpression o l r _ _ => tagged "BinaryExpression" [("operator", JStr o); ("left", j_node l); ("right", j_node r)]
  | NBindingIdentifier name _ => tagged "Identifier" [("name", JStr name)]
  | LogicalExpression o l r _ => tagged "LogicalExpression" [("operator", jstat o); ("left", j_node l); ("right", j_node r)]
  | CallExpression c args _ _ => tagged "CallExpression" [("callee", j_node c); ("arguments", jarr j_arg args)]
  | ClassExpression id s b _ _ => tagged "ClassExpression" [("id", jopt j_node id); ("super_class", jopt j_node s); ("body", tagged "ClassBody" [("body", jarr j_meth b)])]
  | ComputedMemberExpression c o p _ _ => tagged "ComputedMemberExpression" [("computed", JBool c); ("object", j_node o); ("property", j_node p)]
  | ConditionalExpression t c a _ => tagged "ConditionalExpression" [("test", j_node t); ("consequent", j_node c); ("alternate", j_node a)]
  | Identifier name _ _ => tagged "Identifier" [("name", JStr name)]
  | FunctionExpression id ps b g e a _ _ => tagged "FunctionExpression" [("id", jopt j_node id); ("params", jarr j_param ps); ("body", j_node b); ("generator", JBool g); ("expression", JBool e); ("async", JBool a)]
  | NLiteral v raw _ _ => tagged "Literal" [("value", j_value v); ("raw", JStr raw)]
  | NewExpression c args _ _ => tagged "NewExpression" [("callee", j_node c); ("arguments", jarr j_arg args)]
  | ObjectExpression ps _ _ => tagged "ObjectExpression" [("properties", jarr j_prop ps)]
  | NObjectPattern ps _ _ => tagged "ObjectPattern" [("properties", jarr j_opat ps)]
  | RegexLiteral v raw rx _ _ => tagged "RegexLiteral" [("value", JStr v); ("raw", JStr raw); ("regex", j_regex rx)]
  | SequenceExpression es _ _ => tagged "SequenceExpression" [("expressions", jarr j_node es)]
  | StaticMemberExpression c o p _ _ => tagged "StaticMemberExpression" [("computed", JBool c); ("object", j_node o); ("property", j_node p)]
  | TaggedTemplateExpression t qs es _ => tagged "TaggedTemplateExpression" [("tag", j_node t); ("quasi", tagged "TemplateLiteral" [("quasis", jarr j_te qs); ("expressions", jarr j_node es)])]
  | ThisExpression _ _ => tagged "ThisExpression" []
  | UnaryExpression o e p _ _ => tagged "UnaryExpression" [("operator", JStr o); ("argument", j_node e); ("prefix", JBool p)]
  | UpdateExpression o e p _ _ => tagged "UpdateExpression" [("operator", JStr o); ("argument", j_node e); ("prefix", JBool p)]
  | YieldExpression e d _ _ => tagged "YieldExpression" [("argument", jopt j_node e); ("delegate", JBool d)]
  | ArrowParameterPlaceHolder ps a _ => tagged "ArrowParameterPlaceHolder" [("params", jarr j_param ps); ("async", JBool a)]
  | NRestElement b _ => tagged "RestElement" [("argument", j_bind b)]
  | NSpreadElement e _ => tagged "SpreadElement" [("argument", j_node e)]
  | Super _ _ => tagged "Super" []
  | TemplateLiteral qs es _ _ => tagged "TemplateLiteral" [("quasis", jarr j_te qs); ("expressions", jarr j_node es)]
  | MetaProperty m p _ _ => tagged "MetaProperty" [("meta", j_node m); ("property", j_node p)]
  | AsyncFunctionDeclaration id ps b g e a _ => tagged "AsyncFunctionDeclaration" [("id", jopt j_node id); ("params", jarr j_param ps); ("body", j_node b); ("generator", JBool g); ("expression", JBool e); ("async", JBool a)]
  | BreakStatement l _ => tagged "BreakStatement" [("label", jopt j_node l)]
  | ContinueStatement l _ => tagged "ContinueStatement" [("label", jopt j_node l)]
  | DebuggerStatement _ => tagged "DebuggerStatement" []
  | DoWhileStatement b t _ => tagged "DoWhileStatement" [("body", j_node b); ("test", j_node t)]
  | EmptyStatement _ => tagged "EmptyStatement" []
  | ExpressionStatement e _ => tagged "ExpressionStatement" [("expression", j_node e)]
  | Directive e d _ => tagged "Directive" [("expression", j_node e); ("directive", JStr d)]
  | ForStatement i t u b _ => tagged "ForStatement" [("init", jopt j_node i); ("test", jopt j_node t); ("update", jopt j_node u); ("body", j_node b)]
  | ForInStatement l r b e _ => tagged "ForInStatement" [("left", j_node l); ("right", j_node r); ("body", j_node b); ("each", JBool e)]
  | ForOfStatement l r b _ => tagged "ForOfStatement" [("left", j_node l); ("right", j_node r); ("body", j_node b)]
  | FunctionDeclaration id ps b g e a _ => tagged "FunctionDeclaration" [("id", jopt j_node id); ("params", jarr j_param ps); ("body", j_node b); ("generator", JBool g); ("expression", JBool e); ("async", JBool a)]
  | IfStatement t c a _ => tagged "IfStatement" [("test", j_node t); ("consequent", j_node c); ("alternate", jopt j_node a)]
  | ReturnStatement e _ => tagged "ReturnStatement" [("argument", jopt j_node e)]
  | SwitchStatement d cs _ => tagged "SwitchStatement" [("discriminant", j_node d); ("cases", jarr j_case cs)]
  | ThrowStatement e _ => tagged "ThrowStatement" [("argument", j_node e)]
  | TryStatement b h f _ => tagged "TryStatement" [("block", j_node b); ("handler", jopt j_catch h); ("finalizer", jopt j_node f)]
  | VariableDeclaration ds k _ => tagged "VariableDeclaration" [("declarations", jarr j_decl ds); ("kind", jstat k)]
  | WhileStatement t b _ => tagged "WhileStatement" [("test", j_node t); ("body", j_node b)]
  | WithStatement o b _ => tagged "WithStatement" [("object", j_node o); ("body", j_node b)]
  | BlockStatement l _ => tagged "BlockStatement" [("body", jarr j_node l)]
  | ClassDeclaration id s b _ => tagged "ClassDeclaration" [("id", jopt j_node id); ("superClass", jopt j_node s); ("body", tagged "ClassBody" [("body", jarr j_meth b)])]
  | ExportAllDeclaration l _ => tagged "ExportAllDeclaration" [("source", j_lit l)]
  | ExportDefaultDeclaration d _ => tagged "ExportDefaultDeclaration" [("declaration", j_node d)]
  | ExportNamedDeclaration d ss l _ => tagged "ExportNamedDeclaration" [("declaration", jopt j_node d); ("specifiers", jarr j_export ss); ("source", jopt j_lit l)]
  | ImportDeclaration ss l _ => tagged "ImportDeclaration" [("specifiers", jarr j_import ss); ("source", j_lit l)]
  | NImportDefaultSpecifier i _ => tagged "ImportDefaultSpecifier" [("local", j_id i)]
  | NImportNamespaceSpecifier i _ => tagged "ImportNamespaceSpecifier" [("local", j_id i)]
  | NImportSpecifier i j _ => tagged "ImportSpecifier" [("local", j_id i); ("imported", j_id j)]
  | LabeledStatement l b _ => tagged "LabeledStatement" [("label", j_id l); ("body", j_node b)]
  | Module l ty _ => tagged "Module" [("body", jarr j_node l); ("sourceType", JStr ty)]
  | Program l ty _ => tagged "Program" [("body", jarr j_node l); ("sourceType", jstat ty)]
  end%string
(** estree.rs:67-81 *)
with j_elem (x : arr_elem) : json :=
  match x with
  | AE_Expr e => j_node e
  | AE_Spread e _ => tagged "SpreadElement" [("argument", j_node e)]
  end%string
(** estree.rs:83-106, 235-243 *)
with j_bind (x : binding) : json :=
  match x with
  | B_Id name _ => tagged "Identifier" [("name", JStr name)]
  | B_Array es _ => tagged "ArrayPattern" [("elements", jarro j_apat es)]
  | B_Object ps _ => tagged "ObjectPattern" [("properties", jarr j_opat ps)]
  | B_Expr e => j_node e
  end%string
(** estree.rs:139-158 *)
with j_apat (x : arr_pat) : json :=
  match x with
  | AP_Assign l r => tagged "AssignmentPattern" [("left", j_bind l); ("right", j_node r)]
  | AP_Id name => tagged "BindingIdentifier" [("name", JStr name)]
  | AP_Array es => tagged "ArrayPattern" [("elements", jarro j_apat es)]
  | AP_Object ps => tagged "ObjectPattern" [("properties", jarr j_opat ps)]
  | AP_Rest b => tagged "RestElement" [("argument", j_bind b)]
  end%string
(** estree.rs:160-171 *)
with j_aapat (x : arr_apat) : json :=
  match x with
  | AA_Expr e => j_node e
  | AA_Rest b => tagged "RestElement" [("argument", j_bind b)]
  end%string
(** estree.rs:190-197 *)
with j_key (x : prop_key) : json :=
  match x with
  | PK_Id i => j_id i
  | PK_Lit l => j_lit l
  | PK_Expr e => j_node e
  end%string
(** estree.rs:217-266, 285-295 *)
with j_val (x : prop_value) : json :=
  match x with
  | PV_Assign l r => tagged "AssignmentPattern" [("left", j_bind l); ("right", j_node r)]
  | PV_AsyncFn id ps b g e a => tagged "AsyncFunctionExpression" [("id", jopt j_node id); ("params", jarr j_param ps); ("body", j_node b); ("generator", JBool g); ("expression", JBool e); ("async", JBool a)]
  | PV_BindId name _ => tagged "Identifier" [("name", JStr name)]
  | PV_ArrayPat es => tagged "ArrayPattern" [("elements", jarro j_apat es)]
  | PV_ObjectPat ps => tagged "ObjectPattern" [("properties", jarr j_opat ps)]
  | PV_Fn f => j_fn f
  | PV_Expr e => j_node e
  end%string
(** estree.rs:268-283 *)
with j_opat (x : obj_pat) : json :=
  match x with
  | OP_Prop k c v ki m sh => tagged "Property" [("key", j_key k); ("computed", JBool c); ("value", jopt j_val v); ("kind", jstat ki); ("method", JBool m); ("shorthand", JBool sh)]
  | OP_Rest b => tagged "RestElement" [("argument", j_bind b)]
  end%string
(** estree.rs:297-317 *)
with j_param (x : func_param) : json :=
  match x with
  | FP_Assign l r => tagged "AssignmentPattern" [("left", j_bind l); ("right", j_node r)]
  | FP_Id name => tagged "BindingIdentifier" [("name", JStr name)]
  | FP_Array es => tagged "ArrayPattern" [("elements", jarro j_apat es)]
  | FP_Object ps => tagged "ObjectPattern" [("properties", jarr j_opat ps)]
  | FP_Rest b => tagged "RestElement" [("argument", j_bind b)]
  end%string
(** estree.rs:319-325 *)
with j_arg (x : arg_elem) : json :=
  match x with
  | AR_Expr e => j_node e
  | AR_Spread e _ => tagged "SpreadElement" [("argument", j_node e)]
  end%string
(** estree.rs:341-358; the span is not skipped here *)
with j_prop (x : obj_prop) : json :=
  match x with
  | OE_Prop k c v ki m sh sp => tagged "Property" [("key", j_key k); ("computed", JBool c); ("value", jopt j_val v); ("kind", jstat ki); ("method", JBool m); ("shorthand", JBool sh); ("span", j_span sp)]
  | OE_Spread e sp => tagged "SpreadElement" [("argument", j_node e); ("span", j_span sp)]
  end%string
(** estree.rs:360-368 *)
with j_meth (x : method_def) : json :=
  match x with
  | MethodDef k c v ki st => tagged "MethodDefinition" [("key", j_node k); ("computed", JBool c); ("value", jopt j_fn v); ("kind", jstat ki); ("static", JBool st)]
  end%string
(** estree.rs:245-254 *)
with j_fn (x : fn_expr) : json :=
  match x with
  | FnExpr id ps b g e a => tagged "FunctionExpression" [("id", jopt j_node id); ("params", jarr j_param ps); ("body", j_node b); ("generator", JBool g); ("expression", JBool e); ("async", JBool a)]
  end%string
(** estree.rs:398-403 *)
with j_case (x : switch_case) : json :=
  match x with
  | SwitchCase t c => tagged "SwitchCase" [("test", jopt j_node t); ("consequent", jarr j_node c)]
  end%string
(** estree.rs:405-410 *)
with j_decl (x : var_declarator) : json :=
  match x with
  | VarDeclarator id i => tagged "VariableDeclarator" [("id", j_bind id); ("init", jopt j_node i)]
  end%string
(** estree.rs:7-12 *)
with j_catch (x : catch_clause) : json :=
  match x with
  | CatchClause p b => tagged "CatchClause" [("param", jopt j_bind p); ("body", j_node b)]
  end%string.

(** giron-wasm/src/lib.rs:11-25: an accepted source becomes its JSON form (as a
    JavaScript value), an error the text of its Debug form; a panic or endless
    run gives no result. *)
Definition wasm (F : rustfmt) (r : outcome) : option json :=
  match r with Ok ast => Some (j_node ast) | Err e => Some (JStr (debug F e)) | _ => None end.
Definition wasm_parse_script (F : rustfmt) (E : env) (source : str) : option json := wasm F (parse_script E source).
Definition wasm_parse_module (F : rustfmt) (E : env) (source : str) : option json := wasm F (parse_module E source).
