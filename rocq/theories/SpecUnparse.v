(** * SpecUnparse: from the JSON form of a tree back to source text.  Only definitions;
    nothing here refers to trees or to the parser, only to JSON values. *)
From Verif Require Import Base Punct Token Ast.
From Verif Require Import SpecLex SpecPrint.
From Verif Require Json.
Import Json(json, JNull, JBool, JNum, JInt, JStr, JArr, JObj).

(** What is seen of a field: its value if it is a leaf, the words of the phrase it is,
    the words of the phrases in it if it is an array. *)
Record field := mkField { own : json; text : list str; items : list (list str) }.
Definition leaf (j : json) : json := match j with JArr _ | JObj _ => JArr [] | _ => j end.
Definition word (f : field) : str := match own f with JStr s => s | _ => [] end.
Definition given (f : field) : bool := match own f with JNull => false | _ => true end.
Definition listed (a : string) (l : list (list str)) (b : string) : list str := s2l a :: commas l ++ [s2l b].
Definition joined (a : string) (l : list (list str)) (b : string) : list str := s2l a :: concat l ++ [s2l b].

(** The head of a "for": a declaration brings its semicolon, an expression is in
    parentheses that are not in the source. *)
Definition for_first (l : list str) : list str :=
  match l with
  | [] => [s2l ";"]
  | w :: l' => if str_eqb w (s2l "(") then removelast l' ++ [s2l ";"] else l
  end.

(** What is imported: names, everything, or a name (of the default export) and everything. *)
Definition starred (l : list str) : bool := match l with w :: _ => str_eqb w (s2l "*") | [] => false end.
Definition imported (l : list (list str)) : list str :=
  match l with
  | [g] => if starred g then g else listed "{" l "}"
  | [d; g] => if starred g then firstn 1 d ++ s2l "," :: g else listed "{" l "}"
  | _ => listed "{" l "}"
  end.
(** What is exported by default: a declaration ends by itself. *)
Definition declared (l : list str) : bool :=
  match l with w :: _ => str_eqb w (s2l "function") || str_eqb w (s2l "class") | [] => false end.

Definition named (ty : str) (w : string) : bool := str_eqb ty (s2l w).
(** The words of an object of type [ty] with the fields [fs]. *)
Definition sentence (ty : str) (fs : list field) : list str :=
  match fs with
  | [] =>
    if named ty "ThisExpression" then [s2l "this"]
    else if named ty "EmptyStatement" then [s2l ";"]
    else if named ty "DebuggerStatement" then [s2l "debugger"; s2l ";"]
    else []
  | [a] =>
    if named ty "Identifier" || named ty "BindingIdentifier" then [word a]
    else if named ty "SequenceExpression" then listed "(" (items a) ")"
    else if named ty "ArrayExpression" then listed "[" (items a) "]"
    else if named ty "ObjectExpression" then listed "{" (items a) "}"
    else if named ty "BlockStatement" || named ty "ClassBody" then joined "{" (items a) "}"
    else if named ty "ExpressionStatement" then text a ++ [s2l ";"]
    else if named ty "BreakStatement" then s2l "break" :: text a ++ [s2l ";"]
    else if named ty "ContinueStatement" then s2l "continue" :: text a ++ [s2l ";"]
    else if named ty "ReturnStatement" then s2l "return" :: text a ++ [s2l ";"]
    else if named ty "ThrowStatement" then s2l "throw" :: text a ++ [s2l ";"]
    else if named ty "ImportNamespaceSpecifier" then s2l "*" :: s2l "as" :: text a
    else if named ty "ExportAllDeclaration" then s2l "export" :: s2l "*" :: s2l "from" :: text a ++ [s2l ";"]
    else if named ty "ExportDefaultDeclaration" then s2l "export" :: s2l "default" :: text a ++ (if declared (text a) then [] else [s2l ";"])
    else []
  | [a; b] =>
    if named ty "Literal" then
      match own a with JStr s => [quoted 0x22 s] | JNum x => [decimal (mant x)] | JNull => [s2l "null"] | _ => [] end
    else if named ty "CallExpression" then text a ++ listed "(" (items b) ")"
    else if named ty "NewExpression" then s2l "new" :: text a ++ listed "(" (items b) ")"
    else if named ty "WhileStatement" then s2l "while" :: s2l "(" :: text a ++ s2l ")" :: text b
    else if named ty "DoWhileStatement" then s2l "do" :: text a ++ s2l "while" :: s2l "(" :: text b ++ [s2l ")"; s2l ";"]
    else if named ty "SwitchStatement" then s2l "switch" :: s2l "(" :: text a ++ s2l ")" :: joined "{" (items b) "}"
    else if named ty "SwitchCase" then (if given a then s2l "case" :: text a else [s2l "default"]) ++ s2l ":" :: concat (items b)
    else if named ty "VariableDeclaration" then word b :: commas (items a) ++ [s2l ";"]
    else if named ty "VariableDeclarator" then text a ++ (if given b then s2l "=" :: text b else [])
    else if named ty "LabeledStatement" then text a ++ s2l ":" :: text b
    else if named ty "CatchClause" then (if given a then s2l "(" :: text a ++ [s2l ")"] else []) ++ text b
    else if named ty "Program" then concat (items a)
    else if named ty "ImportSpecifier" then text b ++ s2l "as" :: text a
    else if named ty "ExportSpecifier" then text a ++ s2l "as" :: text b
    else if named ty "ImportDeclaration" then s2l "import" :: imported (items a) ++ s2l "from" :: text b ++ [s2l ";"]
    else []
  | [a; b; c] =>
    if named ty "BinaryExpression" || named ty "AssignmentExpression" then text b ++ word a :: text c
    else if named ty "UnaryExpression" || named ty "UpdateExpression" then
      match own c with JBool true => word a :: text b | _ => text b ++ [word a] end
    else if named ty "StaticMemberExpression" then text b ++ s2l "." :: text c
    else if named ty "ComputedMemberExpression" then text b ++ s2l "[" :: text c ++ [s2l "]"]
    else if named ty "ConditionalExpression" then text a ++ s2l "?" :: text b ++ s2l ":" :: text c
    else if named ty "IfStatement" then s2l "if" :: s2l "(" :: text a ++ s2l ")" :: text b ++ (if given c then s2l "else" :: text c else [])
    else if named ty "ForOfStatement" then s2l "for" :: s2l "(" :: s2l "let" :: text a ++ s2l "of" :: text b ++ s2l ")" :: text c
    else if named ty "TryStatement" then s2l "try" :: text a ++ (if given b then s2l "catch" :: text b else []) ++ (if given c then s2l "finally" :: text c else [])
    else if named ty "ClassDeclaration" then s2l "class" :: text a ++ (if given b then s2l "extends" :: text b else []) ++ text c
    else if named ty "ExportNamedDeclaration" then s2l "export" :: (if given a then text a else listed "{" (items b) "}")
    else []
  | [a; b; c; d] =>
    if named ty "ForStatement" then s2l "for" :: s2l "(" :: for_first (text a) ++ text b ++ s2l ";" :: text c ++ s2l ")" :: text d
    else if named ty "ForInStatement" then s2l "for" :: s2l "(" :: s2l "var" :: text a ++ s2l "in" :: text b ++ s2l ")" :: text c
    else []
  | [a; b; c; d; e] => if named ty "MethodDefinition" then text a ++ tl (text c) else []
  | [a; b; c; d; e; f] =>
    if named ty "FunctionExpression" || named ty "FunctionDeclaration" then s2l "function" :: text a ++ listed "(" (items b) ")" ++ text c
    else if named ty "ArrowFunctionExpression" then listed "(" (items b) ")" ++ s2l "=>" :: text c
    else []
  | [a; b; c; d; e; f; g] => if named ty "Property" then text a ++ s2l ":" :: text c else []
  | _ => []
  end.

(** The words of a JSON value: those of its object, given those of its fields. *)
Fixpoint unparse (j : json) : list str :=
  match j with
  | JObj ((_, JStr ty) :: fs) =>
    sentence ty (map (fun f => mkField (leaf (snd f)) (unparse (snd f)) (match snd f with JArr l => map unparse l | _ => [] end)) fs)
  | _ => []
  end.

(** What the form does not tell is told in one way: [true] and [false] as string
    literals, "for (let x in e)" and "for (const x in e)" with "var", "for (const x of e)"
    with "let". *)
Fixpoint told_exp (e : exp) : exp :=
  match e with
  | XBool b => XStr (s2l (if b then "true" else "false"))
  | XPar e => XPar (told_exp e)
  | XArr es => XArr (map told_exp es)
  | XDot e x => XDot (told_exp e) x
  | XIndex e i => XIndex (told_exp e) (told_exp i)
  | XCall e args => XCall (told_exp e) (map told_exp args)
  | XPre p e => XPre p (told_exp e)
  | XUn k e => XUn k (told_exp e)
  | XPow e e' => XPow (told_exp e) (told_exp e')
  | XBin k e e' => XBin k (told_exp e) (told_exp e')
  | XCond e e1 e2 => XCond (told_exp e) (told_exp e1) (told_exp e2)
  | XAssign p e e' => XAssign p (told_exp e) (told_exp e')
  | XSeq e es => XSeq (told_exp e) (map told_exp es)
  | XObj ps => XObj (map (fun p => (fst p, told_exp (snd p))) ps)
  | XNew e args => XNew (told_exp e) (map told_exp args)
  | XPost e p => XPost (told_exp e) p
  | XArrow xs e => XArrow xs (told_exp e)
  | XFun x f => XFun x (told_fn f)
  | XLam xs ds ss => XLam xs ds (map told ss)
  | XClass x sup ms => XClass x (option_map told_exp sup) (map (fun m => (fst m, told_fn (snd m))) ms)
  | XId _ | XNum _ | XStr _ | XNull | XThis => e
  end
with told_fn (f : fn) : fn :=
  match f with Fn xs ds ss => Fn xs ds (map told ss) end
with told (s : stm) : stm :=
  match s with
  | SForIn k x e s => SForIn DVar x (told_exp e) (told s)
  | SForOf k x e s => SForOf DLet x (told_exp e) (told s)
  | SExp e => SExp (told_exp e)
  | SDecl k ds => SDecl k (map (fun d => (fst d, option_map told_exp (snd d))) ds)
  | SBlock ss => SBlock (map told ss)
  | SIf e s s' => SIf (told_exp e) (told s) (option_map told s')
  | SWhile e s => SWhile (told_exp e) (told s)
  | SDo s e => SDo (told s) (told_exp e)
  | SFor i t u s => SFor (option_map told_exp i) (option_map told_exp t) (option_map told_exp u) (told s)
  | SForDecl k x i t u s => SForDecl k x (option_map told_exp i) (option_map told_exp t) (option_map told_exp u) (told s)
  | SReturn e => SReturn (option_map told_exp e)
  | SThrow e => SThrow (told_exp e)
  | STry ss x ss1 ss2 => STry (map told ss) x (map told ss1) (option_map (map told) ss2)
  | STryFinally ss ss2 => STryFinally (map told ss) (map told ss2)
  | SSwitch e cs => SSwitch (told_exp e) (map (fun a => (option_map told_exp (fst a), map told (snd a))) cs)
  | SLabel x s => SLabel x (told s)
  | SFun x f => SFun x (told_fn f)
  | SClass x sup ms => SClass x (option_map told_exp sup) (map (fun m => (fst m, told_fn (snd m))) ms)
  | SEmpty | SContinue _ | SBreak _ | SDebugger => s
  end.
