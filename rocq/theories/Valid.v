(** * Valid: a tree-wide validity judgement that collects all local conditions
    on returned trees (proof device: the theorems about trees are read off from it). *)
From Verif Require Import Base Punct Token Ast.
From Verif Require Import SpecLex SpecTree.
Set Implicit Arguments.

(** What is known about the surroundings of a part. *)
Record vctx := mkV {
  v_ret : bool; v_iter : bool; v_switch : bool; v_strict : bool; v_top : bool; v_root : bool;
  v_yield : bool; v_await : bool; v_bind : bool; v_len : N; v_lines : N }.

Definition down (c : vctx) (a : part) (r : role) : vctx := mkV
  (if body_step a r then true else v_ret c)
  (if loop_step a r then true else v_iter c)
  (if switch_step a r then true else v_switch c)
  (if strict_step a r then true else v_strict c)
  (is_module_root a)
  false
  (if generator_step a r then true else v_yield c)
  (if async_step a r then true else v_await c)
  (match r with Name => true | Param => negb (is_arrow a) | Sub => v_bind c | _ => false end)
  (v_len c) (v_lines c).

(** The context of an ordinary child. *)
Definition plain (c : vctx) : vctx :=
  mkV (v_ret c) (v_iter c) (v_switch c) (v_strict c) false false (v_yield c) (v_await c) false (v_len c) (v_lines c).

Definition not_punct (v : value) : Prop := match v with VPunc _ => False | _ => True end.
Definition callable (n : node) : Prop := is_expr n = true \/ is_super n = true.
Definition function_ok (ps : list func_param) (b : node) : Prop := only_last rest_param ps /\ is_block b = true.
Definition kind_in (k : string) (l : list string) : Prop := In k l.
Definition for_left (strict : bool) (n : node) : Prop := is_binding_node n = true \/ assign_target strict n.
Definition is_B_Id (b : binding) : bool := match b with B_Id _ _ => true | _ => false end.
Definition is_PK_Expr (k : prop_key) : bool := match k with PK_Expr _ => true | _ => false end.
Definition is_PK_Id (k : prop_key) : bool := match k with PK_Id _ => true | _ => false end.
(** Functions used as accessors. *)
Definition accessor_ok (kind : string) (f : fn_expr) : Prop :=
  match f with
  | FnExpr _ ps _ g _ a =>
    (kind = "get"%string -> ps = []) /\ (kind = "get"%string \/ kind = "set"%string -> g = false /\ a = false)
  end.

Definition local_node (c : vctx) (n : node) : Prop :=
  let st := v_strict c in
  match n with
  | ArrayExpression _ a _ => a = AInvalid
  | NArrayPattern es a _ => a = ASimple /\ only_last rest_apat es
  | ArrayAssignmentPattern _ a _ => a = ASimple
  | ArrowFunctionExpression id ps b g e as_ a _ =>
    id = None /\ only_last rest_param ps /\ (if e then is_expr b = true else is_block b = true) /\
    g = false /\ as_ = false /\ a = AInvalid
  | AsyncArrowFunctionExpression id ps b g e as_ a _ =>
    id = None /\ only_last rest_param ps /\ (if e then is_expr b = true else is_block b = true) /\
    g = false /\ as_ = true /\ a = AInvalid
  | AssignmentExpression o l r a _ =>
    In o assign_operators /\ (if String.eqb o "=" then assign_target st l else simple_target st l) /\
    is_expr r = true /\ a = AInvalid
  | NAssignmentPattern l r _ => is_expr r = true
  | BinaryExpression o l r a _ => operands_ok o l r /\ is_expr l = true /\ is_expr r = true /\ a = AInvalid
  | NBindingIdentifier _ _ => True
  | CallExpression f _ a _ => callable f /\ a = AInvalid
  | NewExpression f _ a _ => is_expr f = true /\ a = AInvalid
  | ComputedMemberExpression b o p a _ => b = true /\ callable o /\ is_expr p = true /\ a = ASimple
  | StaticMemberExpression b o p a _ => b = false /\ callable o /\ is_identifier p = true /\ a = ASimple
  | ConditionalExpression t x y _ => 1 <= level t /\ is_expr t = true /\ is_expr x = true /\ is_expr y = true
  | Identifier name a _ => a = ASimple -> st = true -> name <> s2l "eval" /\ name <> s2l "arguments"
  | FunctionExpression id ps b g e as_ a _ =>
    all_opt is_name id /\ function_ok ps b /\ g = false /\ e = false /\ a = AInvalid
  | NLiteral v _ a _ => not_punct v /\ a = AInvalid
  | ObjectExpression _ a _ => a = AInvalid
  | NObjectPattern ps a _ => a = ASimple /\ only_last rest_opat ps
  | RegexLiteral _ _ _ a _ => a = AInvalid
  | SequenceExpression es a _ =>
    Forall (fun e => is_expr e = true) es /\ (a = ASimple -> exists e, es = [e] /\ assign_target_type e = ASimple)
  | TaggedTemplateExpression t qs es _ =>
    is_expr t = true /\ template_shape qs es /\ Forall (fun e => is_expr e = true) es
  | TemplateLiteral qs es a _ => template_shape qs es /\ Forall (fun e => is_expr e = true) es /\ a = AInvalid
  | ThisExpression a _ => a = AInvalid
  | Super _ _ => True
  | UnaryExpression o e p a _ =>
    one_of o unary_operators /\ (o = s2l "await" -> v_await c = true) /\ 13 <= level e /\ is_expr e = true /\
    p = true /\ a = AInvalid
  | UpdateExpression o e _ a _ => one_of o update_operators /\ simple_target st e /\ a = AInvalid
  | YieldExpression e d a _ =>
    v_yield c = true /\ all_opt is_expr e /\ (d = true -> e <> None) /\ a = AInvalid
  | MetaProperty m p a _ =>
    (exists sp sp', m = Identifier (s2l "new") AInvalid sp /\ p = Identifier (s2l "target") AInvalid sp') /\ a = AInvalid
  | BreakStatement l _ => all_opt is_identifier l /\ (l = None -> v_iter c = true \/ v_switch c = true)
  | ContinueStatement l _ => all_opt is_identifier l /\ (l = None -> v_iter c = true)
  | DebuggerStatement _ | EmptyStatement _ => True
  | DoWhileStatement b t _ | WhileStatement t b _ => is_plain_statement b = true /\ is_expr t = true
  | ExpressionStatement e _ | ThrowStatement e _ => is_expr e = true
  | ForStatement i t u b _ =>
    match i with Some x => is_expr x = true \/ is_declaration_list x = true | None => True end /\
    all_opt is_expr t /\ all_opt is_expr u /\ is_plain_statement b = true
  | ForInStatement l r b e _ => for_left st l /\ is_expr r = true /\ is_plain_statement b = true /\ e = false
  | ForOfStatement l r b _ => for_left st l /\ is_expr r = true /\ is_plain_statement b = true
  | FunctionDeclaration id ps b g e _ _ => all_opt is_name id /\ function_ok ps b /\ e = false
  | IfStatement t x y _ => is_expr t = true /\ is_plain_statement x = true /\ all_opt is_plain_statement y
  | ReturnStatement e _ => v_ret c = true /\ all_opt is_expr e
  | SwitchStatement d cs _ => is_expr d = true /\ at_most_one is_default cs
  | TryStatement b h f _ => is_block b = true /\ all_opt is_block f /\ (h <> None \/ f <> None)
  | VariableDeclaration ds k _ => ds <> [] /\ In k ["var"; "let"; "const"]%string
  | WithStatement o b _ => st = false /\ is_expr o = true /\ is_plain_statement b = true
  | BlockStatement b _ => Forall (fun x => is_item x = true) b
  | ClassDeclaration id s _ _ => all_opt is_name id /\ all_opt is_expr s
  | ExportAllDeclaration l _ => v_top c = true /\ not_punct (lit_value l)
  | ExportDefaultDeclaration d _ =>
    v_top c = true /\ (is_expr d = true \/ is_function_declaration d = true)
  | ExportNamedDeclaration d ss l _ =>
    v_top c = true /\ all_opt is_declaration d /\ (d <> None -> ss = [] /\ l = None) /\
    match l with Some x => not_punct (lit_value x) | None => True end
  | ImportDeclaration _ l _ => v_top c = true /\ not_punct (lit_value l)
  | LabeledStatement _ b _ => is_plain_statement b = true \/ (st = false /\ is_plain_function b = true)
  | Program b ty _ =>
    v_root c = true /\
    (ty = "script"%string /\ Forall (fun x => is_item x = true) b \/
     ty = "module"%string /\ Forall (fun x => is_module_item x = true) b)
  | AssignmentRestElement _ _ | AsyncFunctionExpression _ _ _ _ _ _ _ _ | AwaitExpression _ _
  | LogicalExpression _ _ _ _ | ClassExpression _ _ _ _ _ | ArrowParameterPlaceHolder _ _ _ | NSpreadElement _ _
  | NRestElement _ _ | AsyncFunctionDeclaration _ _ _ _ _ _ _ | Directive _ _ _ | NImportDefaultSpecifier _ _
  | NImportNamespaceSpecifier _ _ | NImportSpecifier _ _ _ | Module _ _ _ => False
  end.

Definition object_value_ok (kind : string) (method shorthand : bool) (v : option prop_value) : Prop :=
  match v with
  | None => shorthand = true /\ method = false
  | Some (PV_Expr e) => is_expr e = true /\ method = false
  | Some (PV_Fn f) => method = true /\ shorthand = false /\ accessor_ok kind f
  | Some (PV_AsyncFn _ _ _ _ _ _) => method = true /\ shorthand = false /\ kind = "init"%string
  | _ => False
  end.
Definition pattern_value_ok (c : vctx) (key : prop_key) (shorthand : bool) (v : option prop_value) : Prop :=
  match v with
  | None => shorthand = true /\ (v_bind c = true -> is_PK_Id key = true)
  | Some (PV_Expr e) => v_bind c = false /\ element_target (v_strict c) e
  | Some (PV_Fn _) | Some (PV_AsyncFn _ _ _ _ _ _) => False
  | Some _ => True
  end.
Definition local_other (c : vctx) (a : part) : Prop :=
  match a with
  | T_Node n => local_node c n
  | T_Elem (AE_Expr e) | T_Elem (AE_Spread e _) | T_Arg (AR_Expr e) | T_Arg (AR_Spread e _) | T_Prop (OE_Spread e _) => is_expr e = true
  | T_Bind (B_Id _ _) => True
  | T_Bind (B_Array es _) => only_last rest_apat es
  | T_Bind (B_Object ps _) => only_last rest_opat ps
  | T_Bind (B_Expr e) => v_bind c = false /\ assign_target (v_strict c) e
  | T_APat (AP_Assign _ r) => is_expr r = true
  | T_APat (AP_Array es) => only_last rest_apat es
  | T_APat (AP_Object ps) => only_last rest_opat ps
  | T_APat _ => True
  | T_AAPat (AA_Expr e) => element_target (v_strict c) e
  | T_AAPat (AA_Rest _) => False
  | T_Key (PK_Expr e) => is_expr e = true
  | T_Key (PK_Lit l) => not_punct (lit_value l)
  | T_Key (PK_Id _) => True
  | T_Val (PV_Assign _ r) => is_expr r = true
  | T_Val (PV_AsyncFn id ps b _ e as_) => id = None /\ function_ok ps b /\ e = false /\ as_ = true
  | T_Val (PV_ArrayPat es) => only_last rest_apat es
  | T_Val (PV_ObjectPat ps) => only_last rest_opat ps
  | T_Val _ => True
  | T_OPat (OP_Prop key comp v kind m sh) =>
    comp = is_PK_Expr key /\ In kind ["init"; "get"; "set"]%string /\ m = false /\ pattern_value_ok c key sh v
  | T_OPat (OP_Rest _) => True
  | T_Param (FP_Assign _ r) => is_expr r = true
  | T_Param (FP_Array es) => only_last rest_apat es
  | T_Param (FP_Object ps) => only_last rest_opat ps
  | T_Param _ => True
  | T_Prop (OE_Prop key comp v kind m sh _) =>
    comp = is_PK_Expr key /\ In kind ["init"; "get"; "set"]%string /\ object_value_ok kind m sh v
  | T_Meth (MethodDef key comp v kind static) =>
    is_expr key = true /\ (comp = false -> is_identifier key = true \/ is_literal key = true) /\
    In kind ["constructor"; "method"; "get"; "set"]%string /\ (kind = "constructor"%string -> comp = false) /\
    static = false /\ exists f, v = Some f /\ accessor_ok kind f
  | T_Fn (FnExpr id ps b _ e _) => id = None /\ function_ok ps b /\ e = false
  | T_Case (SwitchCase t l) => all_opt is_expr t /\ Forall (fun x => is_item x = true) l
  | T_Decl (VarDeclarator id i) => all_opt is_expr i /\ (i = None -> is_B_Id id = true)
  | T_Catch (CatchClause _ b) => is_block b = true
  end.
Definition local (c : vctx) (a : part) : Prop :=
  Forall (span_within (v_len c) (v_lines c)) (own_spans a) /\ local_other c a.

Inductive valid : vctx -> part -> Prop :=
| V_intro c a : local c a -> (forall r b, In (r, b) (children a) -> valid (down c a r) b) -> valid c a.

Lemma valid_local c a : valid c a -> local c a.
Proof. inversion 1; auto. Qed.
Lemma valid_other c a : valid c a -> local_other c a.
Proof. intros H. apply valid_local in H. apply H. Qed.
Lemma valid_child c a r b : valid c a -> In (r, b) (children a) -> valid (down c a r) b.
Proof. inversion 1; auto. Qed.

(** Children, by list former. *)
Definition FC (c : vctx) (a : part) (l : list (role * part)) : Prop := forall r b, In (r, b) l -> valid (down c a r) b.
Lemma valid_mk c a : local c a -> FC c a (children a) -> valid c a.
Proof. constructor; auto. Qed.
Lemma FC_nil c a : FC c a [].
Proof. intros r b []. Qed.
Lemma FC_app c a l1 l2 : FC c a l1 -> FC c a l2 -> FC c a (l1 ++ l2).
Proof. intros H1 H2 r b H. apply in_app_or in H. destruct H; auto. Qed.
Lemma FC_one c a r x : valid (down c a r) x -> FC c a (one r x).
Proof. intros H r' b [[= <- <-]|[]]. exact H. Qed.
Lemma FC_on c a r A (T : A -> part) l : Forall (fun x => valid (down c a r) (T x)) l -> FC c a (on r T l).
Proof.
  intros H r' b Hi. unfold on in Hi. apply in_map_iff in Hi. destruct Hi as (x & [= <- <-] & Hx).
  rewrite Forall_forall in H. auto.
Qed.
Lemma FC_opt c a r A (T : A -> part) o : (forall x, o = Some x -> valid (down c a r) (T x)) -> FC c a (opt r T o).
Proof. destruct o; cbn; intros H r' b Hi; [destruct Hi as [[= <- <-]|[]]; auto|destruct Hi]. Qed.
Definition opt_all A (P : A -> Prop) (o : option A) : Prop := match o with Some x => P x | None => True end.
Lemma FC_opts c a r A (T : A -> part) l : Forall (opt_all (fun x => valid (down c a r) (T x))) l -> FC c a (opts r T l).
Proof.
  induction 1 as [|[x|] l Hx Hl IH]; cbn; [apply FC_nil| |exact IH].
  intros r' b [[= <- <-]|Hi]; [exact Hx|auto].
Qed.

(** Inversion counterparts. *)
Lemma on_valid c a r A (T : A -> part) l : (forall x, In x l -> In (r, T x) (children a)) -> valid c a ->
  Forall (fun x => valid (down c a r) (T x)) l.
Proof. intros H V. rewrite Forall_forall. intros x Hx. eapply valid_child; eauto. Qed.
Lemma in_on r A (T : A -> part) l x : In x l -> In (r, T x) (on r T l).
Proof. intros H. unfold on. apply in_map_iff. eauto. Qed.
Lemma in_opts r A (T : A -> part) l x : In (Some x) l -> In (r, T x) (opts r T l).
Proof.
  induction l as [|[y|] l IH]; cbn; intros H; [destruct H| |]; destruct H as [H|H]; auto; try discriminate H.
  injection H as ->. auto.
Qed.
Lemma opts_valid c a r A (T : A -> part) l : children a = opts r T l -> valid c a ->
  Forall (opt_all (fun x => valid (down c a r) (T x))) l.
Proof.
  intros H V. rewrite Forall_forall. intros [x|] Hx; cbn; auto. eapply valid_child; eauto. rewrite H. apply in_opts. auto.
Qed.
