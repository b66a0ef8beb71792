(** * UnparseProofs: source text from the JSON form (C61). *)
From Verif Require Import Base Punct Token Ast Scanner ParserBase Parser Json.
From Verif Require Import SpecTree SpecLex SpecJson SpecBare SpecGrammar SpecPrint SpecUnparse.
From Verif Require Import ParseProofs TreeProofs JsonProofs PrintProofs.
Open Scope list_scope.

(** ** Positions do not matter *)
Definition view (j : json) : field := mkField (leaf j) (unparse j) (match j with JArr l => map unparse l | _ => [] end).
Lemma unparse_tagged ty fs : unparse (tagged ty fs) = sentence (s2l ty) (map (fun f => view (snd f)) fs).
Proof. reflexivity. Qed.
Lemma view_tagged ty fs : view (tagged ty fs) = mkField (JArr []) (sentence (s2l ty) (map (fun f => view (snd f)) fs)) [].
Proof. reflexivity. Qed.
Lemma view_unparse a b : view a = view b -> unparse a = unparse b.
Proof. intros [= _ H _]. exact H. Qed.
Definition bare_part (x : part) : part :=
  match x with
  | T_Node x => T_Node (bare_node x) | T_Elem x => T_Elem (bare_elem x) | T_Bind x => T_Bind (bare_bind x)
  | T_APat x => T_APat (bare_apat x) | T_AAPat x => T_AAPat (bare_aapat x) | T_Key x => T_Key (bare_key x)
  | T_Val x => T_Val (bare_val x) | T_OPat x => T_OPat (bare_opat x) | T_Param x => T_Param (bare_param x)
  | T_Arg x => T_Arg (bare_arg x) | T_Prop x => T_Prop (bare_prop x) | T_Meth x => T_Meth (bare_meth x)
  | T_Fn x => T_Fn (SpecBare.bare_fn x) | T_Case x => T_Case (bare_case x) | T_Decl x => T_Decl (bare_decl x)
  | T_Catch x => T_Catch (bare_catch x)
  end.
Lemma v_jarr A (f : A -> json) g l : Forall (fun x => view (f (g x)) = view (f x)) l -> view (jarr f (map g l)) = view (jarr f l).
Proof. intros H. unfold jarr, view. cbn [leaf unparse]. f_equal. rewrite !map_map. apply map_ext_Forall. eapply Forall_impl; [|exact H]. intros a K. exact (view_unparse _ _ K). Qed.
Lemma v_jopt A (f : A -> json) g o : (forall x, o = Some x -> view (f (g x)) = view (f x)) -> view (jopt f (option_map g o)) = view (jopt f o).
Proof. destruct o; cbn [option_map jopt]; auto. Qed.
Lemma v_jarro A (f : A -> json) g l : Forall (fun o => forall x, o = Some x -> view (f (g x)) = view (f x)) l -> view (jarro f (map (option_map g) l)) = view (jarro f l).
Proof. intros H. unfold jarro, view. cbn [leaf unparse]. f_equal. rewrite !map_map. apply map_ext_Forall. eapply Forall_impl; [|exact H]. intros [x|] Hx; cbn [option_map]; auto. apply view_unparse; auto. Qed.
Lemma v_all A (f : A -> json) g l : (forall x, view (f (g x)) = view (f x)) -> view (jarr f (map g l)) = view (jarr f l).
Proof. intros H. apply v_jarr. rewrite Forall_forall. auto. Qed.
Lemma view_literal v raw raw' : view (tagged "Literal" [("value", v); ("raw", raw)])%string = view (tagged "Literal" [("value", v); ("raw", raw')])%string.
Proof. reflexivity. Qed.
Lemma view_regex a a' b b' c : view (tagged "RegexLiteral" [("value", a); ("raw", b); ("regex", c)])%string = view (tagged "RegexLiteral" [("value", a'); ("raw", b'); ("regex", c)])%string.
Proof. reflexivity. Qed.
Lemma view_span a b : view (j_span a) = view (j_span b).
Proof. reflexivity. Qed.
Lemma view_import x : view (j_import (strip_import x)) = view (j_import x).
Proof. destruct x; reflexivity. Qed.
Lemma view_export x : view (j_export (strip_export x)) = view (j_export x).
Proof. destruct x; reflexivity. Qed.
Lemma view_lit x : view (j_lit (strip_lit x)) = view (j_lit x).
Proof. destruct x; reflexivity. Qed.

Lemma bare_view x : view (j_part (bare_part x)) = view (j_part x).
Proof.
  induction x as [x IH] using part_induction.
  destruct x as [n|n|n|n|n|n|n|n|n|n|n|n|n|n|n|n]; destruct n; cbn [children] in IH; kids_in IH; cbn [bare_part j_part] in IH;
    cbn [bare_part bare_node bare_elem bare_bind bare_apat bare_aapat bare_key bare_val bare_opat bare_param bare_arg bare_prop bare_meth SpecBare.bare_fn bare_case bare_decl bare_catch];
    cbn [j_part j_node j_elem j_bind j_apat j_aapat j_key j_val j_opat j_param j_arg j_prop j_meth j_fn j_case j_decl j_catch];
    repeat match goal with H : _ /\ _ |- _ => destruct H end; auto;
    try (rewrite !view_tagged; cbn [map snd];
    repeat match goal with
    | |- context [view (jarr ?f (map ?g ?l))] => rewrite (@v_jarr _ f g l) by assumption
    | |- context [view (jopt ?f (option_map ?g ?l))] => rewrite (@v_jopt _ f g l) by assumption
    | |- context [view (jarro ?f (map (option_map ?g) ?l))] => rewrite (@v_jarro _ f g l) by assumption
    | H : view ?a = view ?b |- context [view ?a] => rewrite H
    end; reflexivity).
  - rewrite !view_tagged; cbn [map snd]. rewrite !view_tagged; cbn [map snd].
    rewrite (@v_jarr _ j_meth bare_meth) by assumption. rewrite !(@v_jopt _ j_node bare_node) by assumption. reflexivity.
  - rewrite !view_tagged; cbn [map snd]. rewrite (@v_all _ j_export strip_export) by apply view_export.
    rewrite (@v_jopt _ j_node bare_node) by assumption. reflexivity.
  - rewrite !view_tagged; cbn [map snd]. rewrite (@v_all _ j_import strip_import) by apply view_import. reflexivity.
Qed.
Lemma unparse_bare t : unparse (j_node t) = unparse (j_node (bare_node t)).
Proof. pose proof (bare_view (T_Node t)) as H. cbn in H. symmetry. exact (view_unparse _ _ H). Qed.

(** ** The words of the form of a printed tree *)
Lemma items_jarr A (f : A -> json) l : items (view (jarr f l)) = map (fun x => unparse (f x)) l.
Proof. unfold view, jarr. cbn [items]. apply map_map. Qed.
Lemma items_jarro A (f : A -> json) l : items (view (jarro f (map Some l))) = map (fun x => unparse (f x)) l.
Proof. unfold view, jarro. cbn [items]. rewrite !map_map. reflexivity. Qed.
Lemma concat_flat A B (f : A -> list B) l : concat (map f l) = flat_map f l.
Proof. symmetry. apply flat_map_concat_map. Qed.
Lemma text_view j : text (view j) = unparse j. Proof. reflexivity. Qed.
Lemma word_str s : word (view (JStr s)) = s. Proof. reflexivity. Qed.
Lemma word_stat s : word (view (jstat s)) = s2l s. Proof. reflexivity. Qed.
Lemma unparse_bid x at_ : unparse (j_node (NBindingIdentifier x at_)) = [x]. Proof. reflexivity. Qed.
Lemma unparse_str E w : unparse (j_node (lit_tree E (VStr w))) = [quoted 0x22 w]. Proof. reflexivity. Qed.
Lemma params_words xs : map (fun x => unparse (j_param x)) (map FP_Id xs) = map (fun x => [x]) xs.
Proof. rewrite map_map. apply map_ext. reflexivity. Qed.
Lemma map_words A (Q : A -> Prop) (f g : A -> list str) l : Forall (fun x => f x = g x) l -> map f l = map g l.
Proof. intros H. apply map_ext_Forall. exact H. Qed.

Lemma s_ThisExpression  : sentence (s2l "ThisExpression") [] = [s2l "this"]. Proof. reflexivity. Qed.
Lemma s_EmptyStatement  : sentence (s2l "EmptyStatement") [] = [s2l ";"]. Proof. reflexivity. Qed.
Lemma s_DebuggerStatement  : sentence (s2l "DebuggerStatement") [] = [s2l "debugger"; s2l ";"]. Proof. reflexivity. Qed.
Lemma s_Identifier a : sentence (s2l "Identifier") [a] = [word a]. Proof. reflexivity. Qed.
Lemma s_BindingIdentifier a : sentence (s2l "BindingIdentifier") [a] = [word a]. Proof. reflexivity. Qed.
Lemma s_SequenceExpression a : sentence (s2l "SequenceExpression") [a] = listed "(" (items a) ")". Proof. reflexivity. Qed.
Lemma s_ArrayExpression a : sentence (s2l "ArrayExpression") [a] = listed "[" (items a) "]". Proof. reflexivity. Qed.
Lemma s_ObjectExpression a : sentence (s2l "ObjectExpression") [a] = listed "{" (items a) "}". Proof. reflexivity. Qed.
Lemma s_BlockStatement a : sentence (s2l "BlockStatement") [a] = joined "{" (items a) "}". Proof. reflexivity. Qed.
Lemma s_ClassBody a : sentence (s2l "ClassBody") [a] = joined "{" (items a) "}". Proof. reflexivity. Qed.
Lemma s_ExpressionStatement a : sentence (s2l "ExpressionStatement") [a] = text a ++ [s2l ";"]. Proof. reflexivity. Qed.
Lemma s_BreakStatement a : sentence (s2l "BreakStatement") [a] = s2l "break" :: text a ++ [s2l ";"]. Proof. reflexivity. Qed.
Lemma s_ContinueStatement a : sentence (s2l "ContinueStatement") [a] = s2l "continue" :: text a ++ [s2l ";"]. Proof. reflexivity. Qed.
Lemma s_ReturnStatement a : sentence (s2l "ReturnStatement") [a] = s2l "return" :: text a ++ [s2l ";"]. Proof. reflexivity. Qed.
Lemma s_ThrowStatement a : sentence (s2l "ThrowStatement") [a] = s2l "throw" :: text a ++ [s2l ";"]. Proof. reflexivity. Qed.
Lemma s_Literal a b : sentence (s2l "Literal") [a; b] = match own a with JStr s => [quoted 0x22 s] | JNum x => [decimal (mant x)] | JNull => [s2l "null"] | _ => [] end. Proof. reflexivity. Qed.
Lemma s_CallExpression a b : sentence (s2l "CallExpression") [a; b] = text a ++ listed "(" (items b) ")". Proof. reflexivity. Qed.
Lemma s_NewExpression a b : sentence (s2l "NewExpression") [a; b] = s2l "new" :: text a ++ listed "(" (items b) ")". Proof. reflexivity. Qed.
Lemma s_WhileStatement a b : sentence (s2l "WhileStatement") [a; b] = s2l "while" :: s2l "(" :: text a ++ s2l ")" :: text b. Proof. reflexivity. Qed.
Lemma s_DoWhileStatement a b : sentence (s2l "DoWhileStatement") [a; b] = s2l "do" :: text a ++ s2l "while" :: s2l "(" :: text b ++ [s2l ")"; s2l ";"]. Proof. reflexivity. Qed.
Lemma s_SwitchStatement a b : sentence (s2l "SwitchStatement") [a; b] = s2l "switch" :: s2l "(" :: text a ++ s2l ")" :: joined "{" (items b) "}". Proof. reflexivity. Qed.
Lemma s_SwitchCase a b : sentence (s2l "SwitchCase") [a; b] = (if given a then s2l "case" :: text a else [s2l "default"]) ++ s2l ":" :: concat (items b). Proof. reflexivity. Qed.
Lemma s_VariableDeclaration a b : sentence (s2l "VariableDeclaration") [a; b] = word b :: commas (items a) ++ [s2l ";"]. Proof. reflexivity. Qed.
Lemma s_VariableDeclarator a b : sentence (s2l "VariableDeclarator") [a; b] = text a ++ (if given b then s2l "=" :: text b else []). Proof. reflexivity. Qed.
Lemma s_LabeledStatement a b : sentence (s2l "LabeledStatement") [a; b] = text a ++ s2l ":" :: text b. Proof. reflexivity. Qed.
Lemma s_CatchClause a b : sentence (s2l "CatchClause") [a; b] = (if given a then s2l "(" :: text a ++ [s2l ")"] else []) ++ text b. Proof. reflexivity. Qed.
Lemma s_Program a b : sentence (s2l "Program") [a; b] = concat (items a). Proof. reflexivity. Qed.
Lemma s_BinaryExpression a b c : sentence (s2l "BinaryExpression") [a; b; c] = text b ++ word a :: text c. Proof. reflexivity. Qed.
Lemma s_AssignmentExpression a b c : sentence (s2l "AssignmentExpression") [a; b; c] = text b ++ word a :: text c. Proof. reflexivity. Qed.
Lemma s_UnaryExpression a b c : sentence (s2l "UnaryExpression") [a; b; c] = match own c with JBool true => word a :: text b | _ => text b ++ [word a] end. Proof. reflexivity. Qed.
Lemma s_UpdateExpression a b c : sentence (s2l "UpdateExpression") [a; b; c] = match own c with JBool true => word a :: text b | _ => text b ++ [word a] end. Proof. reflexivity. Qed.
Lemma s_StaticMemberExpression a b c : sentence (s2l "StaticMemberExpression") [a; b; c] = text b ++ s2l "." :: text c. Proof. reflexivity. Qed.
Lemma s_ComputedMemberExpression a b c : sentence (s2l "ComputedMemberExpression") [a; b; c] = text b ++ s2l "[" :: text c ++ [s2l "]"]. Proof. reflexivity. Qed.
Lemma s_ConditionalExpression a b c : sentence (s2l "ConditionalExpression") [a; b; c] = text a ++ s2l "?" :: text b ++ s2l ":" :: text c. Proof. reflexivity. Qed.
Lemma s_IfStatement a b c : sentence (s2l "IfStatement") [a; b; c] = s2l "if" :: s2l "(" :: text a ++ s2l ")" :: text b ++ (if given c then s2l "else" :: text c else []). Proof. reflexivity. Qed.
Lemma s_ForOfStatement a b c : sentence (s2l "ForOfStatement") [a; b; c] = s2l "for" :: s2l "(" :: s2l "let" :: text a ++ s2l "of" :: text b ++ s2l ")" :: text c. Proof. reflexivity. Qed.
Lemma s_TryStatement a b c : sentence (s2l "TryStatement") [a; b; c] = s2l "try" :: text a ++ (if given b then s2l "catch" :: text b else []) ++ (if given c then s2l "finally" :: text c else []). Proof. reflexivity. Qed.
Lemma s_ClassDeclaration a b c : sentence (s2l "ClassDeclaration") [a; b; c] = s2l "class" :: text a ++ (if given b then s2l "extends" :: text b else []) ++ text c. Proof. reflexivity. Qed.
Lemma s_ForStatement a b c d : sentence (s2l "ForStatement") [a; b; c; d] = s2l "for" :: s2l "(" :: for_first (text a) ++ text b ++ s2l ";" :: text c ++ s2l ")" :: text d. Proof. reflexivity. Qed.
Lemma s_ForInStatement a b c d : sentence (s2l "ForInStatement") [a; b; c; d] = s2l "for" :: s2l "(" :: s2l "var" :: text a ++ s2l "in" :: text b ++ s2l ")" :: text c. Proof. reflexivity. Qed.
Lemma s_MethodDefinition a b c d e : sentence (s2l "MethodDefinition") [a; b; c; d; e] = text a ++ tl (text c). Proof. reflexivity. Qed.
Lemma s_FunctionExpression a b c d e f : sentence (s2l "FunctionExpression") [a; b; c; d; e; f] = s2l "function" :: text a ++ listed "(" (items b) ")" ++ text c. Proof. reflexivity. Qed.
Lemma s_FunctionDeclaration a b c d e f : sentence (s2l "FunctionDeclaration") [a; b; c; d; e; f] = s2l "function" :: text a ++ listed "(" (items b) ")" ++ text c. Proof. reflexivity. Qed.
Lemma s_ArrowFunctionExpression a b c d e f : sentence (s2l "ArrowFunctionExpression") [a; b; c; d; e; f] = listed "(" (items b) ")" ++ s2l "=>" :: text c. Proof. reflexivity. Qed.
Lemma s_Property a b c d e f g : sentence (s2l "Property") [a; b; c; d; e; f; g] = text a ++ s2l ":" :: text c. Proof. reflexivity. Qed.
Lemma s_ImportNamespaceSpecifier a : sentence (s2l "ImportNamespaceSpecifier") [a] = s2l "*" :: s2l "as" :: text a. Proof. reflexivity. Qed.
Lemma s_ExportAllDeclaration a : sentence (s2l "ExportAllDeclaration") [a] = s2l "export" :: s2l "*" :: s2l "from" :: text a ++ [s2l ";"]. Proof. reflexivity. Qed.
Lemma s_ExportDefaultDeclaration a : sentence (s2l "ExportDefaultDeclaration") [a] = s2l "export" :: s2l "default" :: text a ++ (if declared (text a) then [] else [s2l ";"]). Proof. reflexivity. Qed.
Lemma s_ImportSpecifier a b : sentence (s2l "ImportSpecifier") [a; b] = text b ++ s2l "as" :: text a. Proof. reflexivity. Qed.
Lemma s_ExportSpecifier a b : sentence (s2l "ExportSpecifier") [a; b] = text a ++ s2l "as" :: text b. Proof. reflexivity. Qed.
Lemma s_ImportDeclaration a b : sentence (s2l "ImportDeclaration") [a; b] = s2l "import" :: imported (items a) ++ s2l "from" :: text b ++ [s2l ";"]. Proof. reflexivity. Qed.
Lemma s_ExportNamedDeclaration a b c : sentence (s2l "ExportNamedDeclaration") [a; b; c] = s2l "export" :: (if given a then text a else listed "{" (items b) "}"). Proof. reflexivity. Qed.
Global Hint Rewrite s_ImportNamespaceSpecifier s_ExportAllDeclaration s_ExportDefaultDeclaration s_ImportSpecifier s_ExportSpecifier s_ImportDeclaration s_ExportNamedDeclaration s_ThisExpression s_EmptyStatement s_DebuggerStatement s_Identifier s_BindingIdentifier s_SequenceExpression s_ArrayExpression s_ObjectExpression s_BlockStatement s_ClassBody s_ExpressionStatement s_BreakStatement s_ContinueStatement s_ReturnStatement s_ThrowStatement s_Literal s_CallExpression s_NewExpression s_WhileStatement s_DoWhileStatement s_SwitchStatement s_SwitchCase s_VariableDeclaration s_VariableDeclarator s_LabeledStatement s_CatchClause s_Program s_BinaryExpression s_AssignmentExpression s_UnaryExpression s_UpdateExpression s_StaticMemberExpression s_ComputedMemberExpression s_ConditionalExpression s_IfStatement s_ForOfStatement s_TryStatement s_ClassDeclaration s_ForStatement s_ForInStatement s_MethodDefinition s_FunctionExpression s_FunctionDeclaration s_ArrowFunctionExpression s_Property : sent.

Lemma i_map A B C (f : B -> json) (T : A -> B) (W : C -> list str) (t : A -> C) l :
  Forall (fun x => unparse (f (T x)) = W (t x)) l -> items (view (jarr f (map T l))) = map W (map t l).
Proof. intros H. rewrite items_jarr, !map_map. apply map_ext_Forall. exact H. Qed.
Lemma i_maps A B C (f : B -> json) (T : A -> B) (W : C -> list str) (t : A -> C) l :
  Forall (fun x => unparse (f (T x)) = W (t x)) l -> items (view (jarro f (map (fun x => Some (T x)) l))) = map W (map t l).
Proof. intros H. rewrite <- (map_map T Some), items_jarro, !map_map. apply map_ext_Forall. exact H. Qed.
Lemma given_some A (f : A -> json) x : (forall y, f y <> JNull) -> given (view (jopt f (Some x))) = true.
Proof. intros H. cbn. destruct (f x) eqn:G; auto. elim (H x G). Qed.
Lemma node_object x : exists ty fs, j_node x = tagged ty fs.
Proof. destruct x; cbn [j_node]; eauto. Qed.
Lemma o_map A B C (f : B -> json) (T : A -> B) (W : C -> list str) (t : A -> C) o :
  opt (fun x => unparse (f (T x)) = W (t x)) o -> text (view (jopt f (option_map T o))) = maybe W (option_map t o).
Proof. destruct o; cbn; auto. Qed.
Lemma given_map A B (f : B -> json) (T : A -> B) o : (forall y, exists ty fs, f y = tagged ty fs) -> given (view (jopt f (option_map T o))) = negb (is_none o).
Proof. intros H. destruct o as [x|]; cbn; auto. destruct (H (T x)) as (ty & fs & ->). reflexivity. Qed.

Section Words.
Context (E : env).
Notation fix_tree := (tree_of E). Notation fix_fun := (ftree E). Notation fix_stm := (stree E).
Definition fn_words (f : fn) : Prop :=
  s2l "(" :: commas (items (view (jarr j_param (fparams f)))) ++ s2l ")" :: unparse (j_node (ftree E f)) = fwords (told_fn f).
Lemma l_words (T : exp -> node) es : Forall (fun e => unparse (j_node (T e)) = words (told_exp e)) es ->
  map (fun x => unparse (j_node x)) (map T es) = map words (map told_exp es).
Proof. intros H. rewrite !map_map. apply map_ext_Forall. exact H. Qed.
Lemma args_words es : Forall (fun e => unparse (j_node (tree_of E e)) = words (told_exp e)) es ->
  items (view (jarr j_arg (map (fun e => AR_Expr (tree_of E e)) es))) = map words (map told_exp es).
Proof. intros H. apply i_map. exact H. Qed.
Lemma o_words o : opt (fun e => unparse (j_node (tree_of E e)) = words (told_exp e)) o ->
  unparse (jopt j_node (option_map (tree_of E) o)) = maybe words (option_map told_exp o).
Proof. destruct o; cbn; auto. Qed.
Lemma id_words x : unparse (j_node (id_tree x)) = [x]. Proof. reflexivity. Qed.
Lemma ids_words o : unparse (jopt j_node (option_map id_tree o)) = maybe (fun x => [x]) o. Proof. destruct o; reflexivity. Qed.
Lemma params_items xs : items (view (jarr j_param (map FP_Id xs))) = map (fun x => [x]) xs.
Proof. rewrite items_jarr. apply params_words. Qed.
Lemma stms_words ss : Forall (fun s => unparse (j_node (stree E s)) = swords (told s)) ss ->
  concat (items (view (jarr j_node (map (stree E) ss)))) = flat_map swords (map told ss).
Proof. intros H. rewrite (@i_map _ _ _ j_node (stree E) swords told) by exact H. symmetry. apply flat_map_concat_map. Qed.
Lemma block_words ss : Forall (fun s => unparse (j_node (stree E s)) = swords (told s)) ss ->
  unparse (j_node (block (map (stree E) ss))) = s2l "{" :: flat_map swords (map told ss) ++ [s2l "}"].
Proof. intros H. unfold block. cbn [j_node]. rewrite unparse_tagged; cbn [map snd]; rewrite s_BlockStatement. unfold joined. rewrite stms_words by exact H. reflexivity. Qed.
Lemma dirs_words ds : concat (map (fun x => unparse (j_node x)) (map (directive E) ds)) = flat_map (fun w => [quoted 0x22 w; s2l ";"]) ds.
Proof. rewrite map_map, concat_flat. apply flat_map_ext. reflexivity. Qed.
Lemma given_node o : given (view (jopt j_node o)) = negb (is_none o).
Proof. destruct o as [x|]; cbn [jopt]; auto. destruct (node_object x) as (ty & fs & ->). reflexivity. Qed.
Lemma decl_words x o : opt (fun e => unparse (j_node (tree_of E e)) = words (told_exp e)) o ->
  unparse (j_decl (VarDeclarator (B_Id x nowhere) (option_map (tree_of E) o))) = x :: maybe (fun e => s2l "=" :: words e) (option_map told_exp o).
Proof.
  intros H. cbn [j_decl]. rewrite unparse_tagged; cbn [map snd]. rewrite s_VariableDeclarator, given_node, !text_view, o_words by exact H.
  destruct o; reflexivity.
Qed.
Lemma unlisted a l b : listed a l b = s2l a :: commas l ++ [s2l b]. Proof. reflexivity. Qed.
Lemma words_all : (forall e, unparse (j_node (tree_of E e)) = words (told_exp e)) /\ (forall f, fn_words f) /\
  (forall s, unparse (j_node (stree E s)) = swords (told s)).
Proof.
  apply syntax_ind; intros; unfold fn_words in *; cbn [tree_of ftree stree told_exp told_fn told words fwords swords j_node];
    fold (tree_of E) (ftree E) (stree E) told_exp told_fn told words fwords swords.
  all: try (rewrite unparse_tagged; cbn [map snd]; autorewrite with sent; rewrite ?text_view, ?word_str, ?word_stat).
  all: try reflexivity.
  all: try solve [cbn [own view leaf]; congruence].
  all: rewrite ?unlisted, ?args_words, ?o_words, ?id_words, ?ids_words, ?params_items, ?block_words, ?given_node by assumption.
  all: try solve [repeat (cbn [app]; rewrite <- ?app_assoc); congruence].
  - rewrite items_jarr. cbn [map commas]. rewrite H. reflexivity.
  - rewrite (@i_maps _ _ _ j_elem (fun e => AE_Expr (tree_of E e)) words told_exp) by exact H. reflexivity.
  - rewrite items_jarr. cbn [map]. rewrite H, l_words by exact H0. reflexivity.
  - rewrite (@i_map _ _ _ j_prop _ (fun p => fst p :: s2l ":" :: words (snd p)) (fun p => (fst p, told_exp (snd p)))); [reflexivity|].
    eapply Forall_impl; [|exact H]. cbn beta. intros [x e] G. cbn [fst snd] in *. cbn [j_prop]. rewrite unparse_tagged; cbn [map snd]. rewrite s_Property, !text_view.
    cbn [jopt j_val j_key key_tree]. rewrite G. reflexivity.
  - unfold block. cbn [j_node]. rewrite unparse_tagged; cbn [map snd]; rewrite s_BlockStatement. unfold joined.
    rewrite items_jarr, map_app, concat_app, dirs_words. rewrite <- (items_jarr _ j_node (map (stree E) ss)), stms_words by exact H.
    repeat (cbn [app]; rewrite <- ?app_assoc). reflexivity.
  - unfold name_tree. cbn [jopt]. rewrite unparse_bid. rewrite unparse_tagged; cbn [map snd]; rewrite s_ClassBody. unfold joined.
    rewrite (@i_map _ _ _ j_meth _ (fun m => fst m :: fwords (snd m)) (fun m => (fst m, told_fn (snd m)))).
    + rewrite concat_flat. destruct sup; reflexivity.
    + eapply Forall_impl; [|exact H0]. cbn beta. intros [y f] G. unfold fn_words in G. cbn [fst snd] in *. cbn [j_meth].
      rewrite unparse_tagged; cbn [map snd]; rewrite s_MethodDefinition, !text_view. cbn [jopt j_fn].
      rewrite unparse_tagged; cbn [map snd]; rewrite s_FunctionExpression, !text_view. cbn [jopt unparse app tl]. rewrite id_words, <- G. unfold listed.
      repeat (cbn [app]; rewrite <- ?app_assoc). reflexivity.
  - cbn [fparams]. rewrite params_items. unfold block. cbn [j_node]. rewrite unparse_tagged; cbn [map snd]; rewrite s_BlockStatement. unfold joined.
    rewrite items_jarr, map_app, concat_app, dirs_words. rewrite <- (items_jarr _ j_node (map (stree E) ss)), stms_words by exact H.
    repeat (cbn [app]; rewrite <- ?app_assoc). reflexivity.
  - rewrite (@i_map _ _ _ j_decl _ (fun d => fst d :: maybe (fun e => s2l "=" :: words e) (snd d)) (fun d => (fst d, option_map told_exp (snd d)))); [reflexivity|].
    eapply Forall_impl; [|exact H]. cbn beta. intros [x e] G. cbn [fst snd] in *. apply decl_words, G.
  - destruct s' as [s'|]; cbn [option_map is_none negb maybe opt jopt] in *; congruence.
  - rewrite H2. f_equal. f_equal. destruct i as [e|]; cbn [option_map maybe opt jopt] in *; [|reflexivity].
    cbn [j_node]. rewrite unparse_tagged; cbn [map snd]; rewrite s_SequenceExpression, items_jarr. cbn [map commas]. rewrite H.
    unfold listed, for_first. change (str_eqb (s2l "(") (s2l "(")) with true. cbv iota. rewrite removelast_last, <- app_assoc. reflexivity.
  - rewrite H2. f_equal. f_equal. cbn [jopt j_node]. rewrite unparse_tagged; cbn [map snd]; rewrite s_VariableDeclaration, items_jarr, word_stat. cbn [map commas].
    rewrite decl_words by exact H. unfold for_first. replace (str_eqb (s2l (kind_text k)) (s2l "(")) with false by (destruct k; reflexivity).
    repeat (cbn [app]; rewrite <- ?app_assoc). reflexivity.
  - unfold name_tree. rewrite unparse_bid. cbn [kind_text app]. congruence.
  - unfold name_tree. rewrite unparse_bid. cbn [kind_text app]. congruence.
  - f_equal. f_equal.
    change (given (view (jopt j_catch (Some (CatchClause (option_map (fun x => B_Id x nowhere) x) (block (map (stree E) ss1))))))) with true. cbn [jopt j_catch].
    rewrite unparse_tagged; cbn [map snd]; rewrite s_CatchClause, !text_view, block_words by assumption.
    destruct x as [x|], ss2 as [l|]; cbn [option_map maybe jopt is_none negb opt_list] in *; rewrite ?block_words by assumption;
      cbn [given view own leaf j_bind]; repeat (cbn [app tagged]; rewrite <- ?app_assoc, ?app_nil_r); reflexivity.
  - cbn [jopt is_none negb]. change (given (view JNull)) with false. cbv iota. rewrite block_words by assumption. reflexivity.
  - unfold joined. rewrite H.
    rewrite (@i_map _ _ _ j_case _ (fun a => match fst a with Some e => s2l "case" :: words e | None => [s2l "default"] end ++ s2l ":" :: flat_map swords (snd a)) (fun a => (option_map told_exp (fst a), map told (snd a)))).
    + rewrite concat_flat. reflexivity.
    + eapply Forall_impl; [|exact H0]. cbn beta. intros [o ss] [G1 G2]. cbn [fst snd] in *. cbn [j_case].
      rewrite unparse_tagged; cbn [map snd]; rewrite s_SwitchCase, given_node, !text_view, o_words, stms_words by assumption. destruct o; reflexivity.
  - rewrite H. reflexivity.
  - unfold fn_words in H. rewrite <- H. unfold name_tree. cbn [jopt]. rewrite unparse_bid. repeat (cbn [app]; rewrite <- ?app_assoc). reflexivity.
  - unfold name_tree. cbn [jopt]. rewrite unparse_bid. rewrite unparse_tagged; cbn [map snd]; rewrite s_ClassBody. unfold joined.
    rewrite (@i_map _ _ _ j_meth _ (fun m => fst m :: fwords (snd m)) (fun m => (fst m, told_fn (snd m)))).
    + rewrite concat_flat. destruct sup; reflexivity.
    + eapply Forall_impl; [|exact H0]. cbn beta. intros [y f] G. unfold fn_words in G. cbn [fst snd] in *. cbn [j_meth].
      rewrite unparse_tagged; cbn [map snd]; rewrite s_MethodDefinition, !text_view. cbn [jopt j_fn].
      rewrite unparse_tagged; cbn [map snd]; rewrite s_FunctionExpression, !text_view. cbn [jopt unparse app tl]. rewrite id_words, <- G. unfold listed.
      repeat (cbn [app]; rewrite <- ?app_assoc). reflexivity.
Qed.

Lemma program_unparsed ds ss ty at_ t : bare_node t = Program (map (directive E) ds ++ map (stree E) ss) ty at_ ->
  spaced (unparse (j_node t)) = print_program ds (map told ss).
Proof.
  intros H. rewrite unparse_bare, H. cbn [j_node]. rewrite unparse_tagged; cbn [map snd]; rewrite s_Program, items_jarr, map_app, concat_app, dirs_words.
  rewrite <- (items_jarr _ j_node (map (stree E) ss)), stms_words; [reflexivity|]. apply Forall_forall. intros s _. apply words_all.
Qed.

(** ** What is told keeps the tree *)
Lemma map_same A B (f g : A -> B) (Q : A -> Prop) l : Forall Q l -> (forall x, Q x -> f x = g x) -> map f l = map g l.
Proof. intros H G. apply map_ext_Forall. eapply Forall_impl; [|exact H]. exact G. Qed.
Lemma opt_told o : opt (fun e => tree_of E (told_exp e) = tree_of E e) o -> option_map (tree_of E) (option_map told_exp o) = option_map (tree_of E) o.
Proof. destruct o; cbn; auto. congruence. Qed.
Lemma stms_told ss : Forall (fun s => stree E (told s) = stree E s) ss -> map (fun s => stree E (told s)) ss = map (stree E) ss.
Proof. intros H. apply map_ext_Forall. exact H. Qed.
Lemma told_all : (forall e, tree_of E (told_exp e) = tree_of E e) /\ (forall f, ftree E (told_fn f) = ftree E f /\ fparams (told_fn f) = fparams f) /\
  (forall s, stree E (told s) = stree E s).
Proof.
  apply syntax_ind; intros; cbn [tree_of ftree stree told_exp told_fn told]; fold (tree_of E) (ftree E) (stree E) told_exp told_fn told; auto.
  all: rewrite ?map_map, ?opt_told by assumption; try congruence.
  - rewrite (@map_same _ _ _ (fun e => Some (AE_Expr (tree_of E e))) _ _ H); [reflexivity|intros; congruence].
  - rewrite H, (@map_same _ _ _ (fun e => AR_Expr (tree_of E e)) _ _ H0); [reflexivity|intros; congruence].
  - rewrite H, (@map_same _ _ _ (tree_of E) _ _ H0); [reflexivity|auto].
  - erewrite (@map_same _ _ _ _ _ _ H); [reflexivity|]. cbn [fst snd]. intros; congruence.
  - rewrite H, (@map_same _ _ _ (fun e => AR_Expr (tree_of E e)) _ _ H0); [reflexivity|intros; congruence].
  - destruct H. congruence.
  - rewrite stms_told by exact H. auto.
  - erewrite (@map_same _ _ _ _ _ _ H0); [reflexivity|]. cbn [fst snd]. intros y [G1 G2]. rewrite G1, G2. reflexivity.
  - rewrite stms_told by exact H. auto.
  - erewrite (@map_same _ _ _ _ _ _ H); [reflexivity|]. cbn [fst snd]. intros x G. rewrite opt_told by exact G. reflexivity.
  - rewrite stms_told by exact H. auto.
  - destruct s'; cbn [option_map opt] in *; congruence.
  - destruct i; cbn [option_map opt] in *; congruence.
  - rewrite !stms_told by assumption. destruct ss2; cbn [option_map opt_list] in *; rewrite ?map_map, ?stms_told by assumption; reflexivity.
  - rewrite !stms_told by assumption. auto.
  - rewrite H. erewrite (@map_same _ _ _ _ _ _ H0); [reflexivity|]. cbn [fst snd]. intros x [G1 G2]. rewrite opt_told, map_map, stms_told by assumption. reflexivity.
  - destruct H. congruence.
  - erewrite (@map_same _ _ _ _ _ _ H0); [reflexivity|]. cbn [fst snd]. intros y [G1 G2]. rewrite G1, G2. reflexivity.
Qed.
Lemma told_trees ss : map (stree E) (map told ss) = map (stree E) ss.
Proof. rewrite map_map. apply map_ext. apply told_all. Qed.
End Words.
