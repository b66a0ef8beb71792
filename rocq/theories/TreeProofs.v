(** * TreeProofs: the theorems about trees, read off from validity (proofs). *)
From Verif Require Import Base Codepoint Punct Token Scanner Ast Convert ParserBase ParserExpr ParserStmt Parser.
From Verif Require Import SpecLex SpecScan SpecParse SpecTree SpecSlots Hoare TermTop ParseProofs Valid ValidConv ValidBase ValidExpr ValidStmt ValidTop.
From Coq Require Import ZifyBool ZifyN ZifyNat.
Set Implicit Arguments.

(** ** Contexts along paths *)
Fixpoint ctx_at (c : vctx) (path : list (part * role)) : vctx :=
  match path with [] => c | (x, r) :: p => down (ctx_at c p) x r end.
Lemma occurs_valid c t path x : valid c t -> occurs t path x -> valid (ctx_at c path) x.
Proof. intros V H. induction H; auto. cbn. eapply valid_child; eauto. Qed.

Lemma inside_cons P x r path : P x r = true \/ inside P path -> inside P ((x, r) :: path).
Proof. intros [H|(y & r' & H & Hp)]; [exists x, r; cbn; auto|exists y, r'; cbn; auto]. Qed.
Lemma inside_inv P x r path : inside P ((x, r) :: path) -> P x r = true \/ inside P path.
Proof. intros (y & r' & [[= -> ->]|H] & Hp); [auto|right; exists y, r'; auto]. Qed.
Lemma inside_nil P : inside P [] -> False.
Proof. intros (y & r' & [] & _). Qed.

Section Known.
Context (f : vctx -> bool) (P : part -> role -> bool).
Hypothesis Hf : forall c x r, f (down c x r) = if P x r then true else f c.
Lemma known_inside c path : f (ctx_at c path) = true -> f c = true \/ inside P path.
Proof.
  induction path as [|[x r] path IH]; cbn; auto. rewrite Hf. destruct (P x r) eqn:Hp.
  - intros _. right. apply inside_cons. auto.
  - intros H. destruct (IH H); auto. right. apply inside_cons. auto.
Qed.
Lemma inside_known c path : inside P path -> f (ctx_at c path) = true.
Proof.
  induction path as [|[x r] path IH]; cbn; [intros H; destruct (inside_nil H)|]. intros H. rewrite Hf.
  destruct (inside_inv H) as [->|H']; auto. rewrite (IH H'). destruct (P x r); auto.
Qed.
End Known.
Lemma root_len src path : v_len (ctx_at (root_ctx src) path) = N.of_nat (length src).
Proof. induction path as [|[x r] path IH]; cbn; auto. Qed.
Lemma root_lines src path : v_lines (ctx_at (root_ctx src) path) = line_count src.
Proof. induction path as [|[x r] path IH]; cbn; auto. Qed.

(** What a part of a returned tree satisfies. *)
Lemma tree_valid E src t path x : tree_of E src t -> occurs (T_Node t) path x -> valid (ctx_at (root_ctx src) path) x.
Proof. intros [H|H] Ho; (eapply occurs_valid; [|exact Ho]); [eapply script_valid|eapply module_valid]; eauto. Qed.
Lemma tree_local E src t path x : tree_of E src t -> occurs (T_Node t) path x -> local_other (ctx_at (root_ctx src) path) x.
Proof. intros H Ho. apply valid_other. eapply tree_valid; eauto. Qed.

Section Tree.
Context (E : env) (src : str) (t : node) (path : list (part * role)).
Hypothesis HT : tree_of E src t.
Notation c := (ctx_at (root_ctx src) path).
Ltac loc H := let W := fresh "W" in pose proof (tree_local HT H) as W; cbn in W.

Lemma in_body : v_ret c = true -> inside body_step path.
Proof. intros H. destruct (@known_inside v_ret body_step (fun _ _ _ => eq_refl) _ _ H); [discriminate|auto]. Qed.
Lemma in_loop : v_iter c = true -> inside loop_step path.
Proof. intros H. destruct (@known_inside v_iter loop_step (fun _ _ _ => eq_refl) _ _ H); [discriminate|auto]. Qed.
Lemma in_switch_ : v_switch c = true -> inside switch_step path.
Proof. intros H. destruct (@known_inside v_switch switch_step (fun _ _ _ => eq_refl) _ _ H); [discriminate|auto]. Qed.
Lemma in_generator : v_yield c = true -> inside generator_step path.
Proof. intros H. destruct (@known_inside v_yield generator_step (fun _ _ _ => eq_refl) _ _ H); [discriminate|auto]. Qed.
Lemma in_async : v_await c = true -> inside async_step path.
Proof. intros H. destruct (@known_inside v_await async_step (fun _ _ _ => eq_refl) _ _ H); [discriminate|auto]. Qed.
Lemma is_strict : inside strict_step path -> v_strict c = true.
Proof. apply (@inside_known v_strict strict_step (fun _ _ _ => eq_refl)). Qed.

Lemma return_inside e sp : occurs (T_Node t) path (T_Node (ReturnStatement e sp)) -> inside body_step path.
Proof. intros H. loc H. apply in_body. tauto. Qed.
Lemma continue_inside sp : occurs (T_Node t) path (T_Node (ContinueStatement None sp)) -> inside loop_step path.
Proof. intros H. loc H. apply in_loop. tauto. Qed.
Lemma break_inside sp : occurs (T_Node t) path (T_Node (BreakStatement None sp)) -> inside loop_step path \/ inside switch_step path.
Proof. intros H. loc H. destruct W as [_ W]. destruct (W eq_refl); [left; apply in_loop|right; apply in_switch_]; auto. Qed.
Lemma with_not_strict o b sp : occurs (T_Node t) path (T_Node (WithStatement o b sp)) -> ~ inside strict_step path.
Proof. intros H Hs. loc H. rewrite (is_strict Hs) in W. destruct W; discriminate. Qed.
Lemma label_not_strict l b sp : occurs (T_Node t) path (T_Node (LabeledStatement l b sp)) -> inside strict_step path -> is_plain_statement b = true.
Proof. intros H Hs. loc H. rewrite (is_strict Hs) in W. destruct W as [W|[W _]]; [auto|discriminate]. Qed.

(** Targets. *)
Lemma simple_weaken e b : simple_target b e -> simple_target false e.
Proof. induction 1; constructor; auto. discriminate. Qed.
Lemma assign_weaken e b : assign_target b e -> assign_target false e.
Proof. intros [H|H]; [left; eapply simple_weaken; eauto|right; auto]. Qed.
Lemma element_weaken e b : element_target b e -> element_target false e.
Proof. intros [H|(l & r & sp & -> & H)]; [left; eapply assign_weaken; eauto|right; exists l, r, sp; split; auto; eapply assign_weaken; eauto]. Qed.
Lemma strictness (P : bool -> Prop) : (forall b, P b -> P false) -> P (v_strict c) -> at_strictness path P.
Proof. intros Hw H. split; [eauto|]. intros Hs. rewrite (is_strict Hs) in H. exact H. Qed.

Lemma assignment_targets o l r a sp : occurs (T_Node t) path (T_Node (AssignmentExpression o l r a sp)) ->
  at_strictness path (fun b => if String.eqb o "=" then assign_target b l else simple_target b l).
Proof.
  intros H. loc H. destruct W as (_ & W & _). apply strictness.
  - intros b. destruct (String.eqb o "="); [apply assign_weaken|apply simple_weaken].
  - exact W.
Qed.
Lemma update_targets o e pre a sp : occurs (T_Node t) path (T_Node (UpdateExpression o e pre a sp)) -> at_strictness path (fun b => simple_target b e).
Proof. intros H. loc H. apply strictness; [intros b; apply simple_weaken|tauto]. Qed.
Lemma left_weaken l b : for_left b l -> for_left false l.
Proof. intros [H|H]; [left; auto|right; eapply assign_weaken; eauto]. Qed.
Lemma for_in_targets l r b e sp : occurs (T_Node t) path (T_Node (ForInStatement l r b e sp)) -> at_strictness path (fun s => is_binding_node l = true \/ assign_target s l).
Proof. intros H. loc H. apply strictness; [intros s; apply left_weaken|tauto]. Qed.
Lemma for_of_targets l r b sp : occurs (T_Node t) path (T_Node (ForOfStatement l r b sp)) -> at_strictness path (fun s => is_binding_node l = true \/ assign_target s l).
Proof. intros H. loc H. apply strictness; [intros s; apply left_weaken|tauto]. Qed.
Lemma array_element_targets e : occurs (T_Node t) path (T_AAPat (AA_Expr e)) -> at_strictness path (fun b => element_target b e).
Proof. intros H. loc H. apply strictness; [intros b; apply element_weaken|auto]. Qed.
Lemma property_targets k co e ki m sh : occurs (T_Node t) path (T_OPat (OP_Prop k co (Some (PV_Expr e)) ki m sh)) -> at_strictness path (fun b => element_target b e).
Proof. intros H. loc H. apply strictness; [intros b; apply element_weaken|tauto]. Qed.
Lemma rest_targets e : occurs (T_Node t) path (T_Bind (B_Expr e)) -> at_strictness path (fun b => assign_target b e).
Proof. intros H. loc H. apply strictness; [intros b; apply assign_weaken|tauto]. Qed.

(** Operators. *)
Lemma binary_operands o l r a sp : occurs (T_Node t) path (T_Node (BinaryExpression o l r a sp)) -> operands_ok o l r.
Proof. intros H. loc H. tauto. Qed.
Lemma conditional_operands x y z sp : occurs (T_Node t) path (T_Node (ConditionalExpression x y z sp)) -> 1 <= level x.
Proof. intros H. loc H. tauto. Qed.
Lemma unary_operands o e pre a sp : occurs (T_Node t) path (T_Node (UnaryExpression o e pre a sp)) -> 13 <= level e.
Proof. intros H. loc H. tauto. Qed.

(** Lists. *)
Lemma rest_last x : occurs (T_Node t) path x ->
  only_last rest_param (params_of x) /\ only_last rest_apat (apats_of x) /\ only_last rest_opat (opats_of x).
Proof.
  intros H. loc H. destruct x as [n|[]|[]|[]|[]|[]|[]|[]|[]|[]|[]|[]|[]|[]|[]|[]]; try destruct n; cbn in *;
    repeat split; try apply only_last_nil; unfold function_ok in *; try tauto.
Qed.
Lemma no_array_rest b : ~ occurs (T_Node t) path (T_AAPat (AA_Rest b)).
Proof. intros H. loc H. auto. Qed.
Lemma try_complete b h f sp : occurs (T_Node t) path (T_Node (TryStatement b h f sp)) -> h <> None \/ f <> None.
Proof. intros H. loc H. tauto. Qed.
Lemma one_default d cs sp : occurs (T_Node t) path (T_Node (SwitchStatement d cs sp)) -> at_most_one is_default cs.
Proof. intros H. loc H. tauto. Qed.
Lemma declared_initialised id i : occurs (T_Node t) path (T_Decl (VarDeclarator id i)) -> i <> None \/ exists name sp, id = B_Id name sp.
Proof. intros H. loc H. destruct W as [_ W]. destruct i; [left; discriminate|]. right. specialize (W eq_refl). destruct id; try discriminate W. eauto. Qed.
Lemma template_ok qs es a sp : occurs (T_Node t) path (T_Node (TemplateLiteral qs es a sp)) -> template_shape qs es.
Proof. intros H. loc H. tauto. Qed.
Lemma tagged_ok x qs es sp : occurs (T_Node t) path (T_Node (TaggedTemplateExpression x qs es sp)) -> template_shape qs es.
Proof. intros H. loc H. tauto. Qed.
Lemma span_bounds x sp : occurs (T_Node t) path x -> In sp (own_spans x) -> span_within (N.of_nat (length src)) (line_count src) sp.
Proof.
  intros H Hs. pose proof (valid_local (tree_valid HT H)) as [W _]. rewrite Forall_forall in W. specialize (W _ Hs).
  rewrite root_len, root_lines in W. exact W.
Qed.

(** Modules. *)
Lemma top_only : v_top c = true -> exists x r p, path = (x, r) :: p /\ is_module_root x = true.
Proof. destruct path as [|[x r] p]; cbn; [discriminate|]. eauto. Qed.

(** Programs occur only at the root. *)
Lemma program_root l ty sp : occurs (T_Node t) path (T_Node (Program l ty sp)) -> path = [] /\ (ty = "script"%string \/ ty = "module"%string).
Proof.
  intros H. loc H. destruct W as [W1 W2]. split; [|tauto]. destruct path as [|[x r] p]; auto. discriminate W1.
Qed.
End Tree.

Lemma occurs_cons t x r p y : occurs t ((x, r) :: p) y -> occurs t p x /\ In (r, y) (children x).
Proof. inversion 1; subst. auto. Qed.
Lemma top_parent E src t path y : tree_of E src t -> occurs (T_Node t) path y -> v_top (ctx_at (root_ctx src) path) = true ->
  exists l sp, t = Program l "module" sp /\ path = [(T_Node t, Other)].
Proof.
  intros HT H Hv. destruct (top_only src path Hv) as (x & r & p & -> & Hx). apply occurs_cons in H. destruct H as [H Hc].
  destruct x as [n| | | | | | | | | | | | | | |]; try discriminate Hx. destruct n; try discriminate Hx.
  destruct (@program_root _ _ _ _ HT _ _ _ H) as [-> _]. inversion H; subst. cbn in Hx. apply String.eqb_eq in Hx. subst.
  exists body, sp. split; auto. cbn [children] in Hc. unfold on in Hc. apply in_map_iff in Hc. destruct Hc as (z & [= <- <-] & _). reflexivity.
Qed.
Lemma import_export_top E src t path n : tree_of E src t -> occurs (T_Node t) path (T_Node n) -> is_import_export n = true ->
  exists l sp, t = Program l "module" sp /\ path = [(T_Node t, Other)].
Proof.
  intros HT H Hn. eapply top_parent; eauto. pose proof (tree_local HT H) as W. destruct n; try discriminate Hn; cbn in W; tauto.
Qed.

Lemma path_root : forall E src t path y, tree_of E src t -> occurs (T_Node t) path y -> path = [] \/ exists p r, path = p ++ [(T_Node t, r)].
Proof.
  intros E src t path y HT H. induction H as [|path x r y H IH Hc]; auto. right. destruct IH as [->|(p & r' & ->)].
  - inversion H; subst. exists [], r. reflexivity.
  - exists ((x, r) :: p), r'. reflexivity.
Qed.
Lemma module_strict E src t path x r y : parse_module E src = Ok t -> occurs (T_Node t) ((x, r) :: path) y -> inside strict_step ((x, r) :: path).
Proof.
  intros H Ho. destruct (@path_root E src t _ _ (or_intror H) Ho) as [Hp|(p & r' & Hp)]; [discriminate Hp|]. rewrite Hp.
  exists (T_Node t), r'. split; [apply in_or_app; cbn; auto|]. destruct (module_program _ _ H) as (body & sp & ->). reflexivity.
Qed.

(** Positions. *)
Lemma Forall_slots s l : Forall (fills s) l -> Forall (fun '(s, n) => fills s n) (all s l).
Proof. induction 1; constructor; auto. Qed.
Lemma maybe_slots s o : match o with Some n => fills s n | None => True end -> Forall (fun '(s, n) => fills s n) (maybe s o).
Proof. destruct o; cbn; constructor; auto. Qed.
Lemma local_slots c x : local_other c x -> Forall (fun '(s, n) => fills s n) (slots x).
Proof.
  intros W. destruct x as [n|[]|[]|[]|[]|[]|[]|o|[]|[]|o|m|f|[]|[]|[]]; try destruct f; try destruct n; try destruct o; try destruct m; try (destruct v as [[]|]); cbn in W; try contradiction;
    unfold slots, function_slots, function_ok in *;
    repeat first [apply Forall_app; split | apply Forall_cons; [|] | apply Forall_nil | apply Forall_slots | apply maybe_slots];
    repeat match goal with H : _ /\ _ |- _ => destruct H end; subst; cbn in *; auto;
    try (match goal with o : option _ |- _ => destruct o; cbn in *; auto; fail end);
    try (match goal with b : bool |- _ => destruct b; cbn in *; auto; fail end).
  - destruct (operator =? "=")%string; [eapply assign_weaken; eauto|left; eapply simple_weaken; eauto].
  - left. eapply simple_weaken; eauto.
  - destruct H as (? & ? & -> & ->). reflexivity.
  - destruct H as (? & ? & -> & ->). reflexivity.
  - eapply left_weaken; eauto.
  - eapply left_weaken; eauto.
  - destruct W as [W|[_ W]]; auto.
  - destruct H0 as [[-> H0]|[-> H0]]; cbn; (eapply Forall_impl; [|exact H0]); auto.
  - eapply assign_weaken; eauto.
  - eapply element_weaken; eauto.
  - eapply element_weaken; eauto.
Qed.
Definition part_nodes (y : part) : list node := match y with T_Node n => [n] | T_Val (PV_Expr e) => [e] | _ => [] end.
Definition pn (l : list (role * part)) : list node := flat_map (fun '(_, y) => part_nodes y) l.
Lemma pn_app l1 l2 : pn (l1 ++ l2) = pn l1 ++ pn l2.
Proof. apply flat_map_app. Qed.
Lemma pn_on r A (T : A -> part) l : (forall x, part_nodes (T x) = []) -> pn (on r T l) = [].
Proof. intros H. induction l; cbn; auto. rewrite H. exact IHl. Qed.
Lemma pn_nodes r l : pn (on r T_Node l) = l.
Proof. induction l; cbn; auto. f_equal. exact IHl. Qed.
Lemma pn_opts r A (T : A -> part) l : (forall x, part_nodes (T x) = []) -> pn (opts r T l) = [].
Proof. intros H. induction l as [|[x|] l IH]; cbn; auto. rewrite H. exact IH. Qed.
Lemma pn_opt r A (T : A -> part) o : (forall x, part_nodes (T x) = []) -> pn (opt r T o) = [].
Proof. intros H. destruct o; cbn; auto. rewrite H. reflexivity. Qed.
Lemma pn_optn r s o : pn (opt r T_Node o) = map snd (maybe s o).
Proof. destruct o; reflexivity. Qed.
Lemma map_all s l : map snd (all s l) = l.
Proof. induction l; cbn; auto. f_equal. exact IHl. Qed.
Lemma pn_fun id b ps body : pn (function_children id ps body) = map snd (function_slots id b body).
Proof.
  unfold function_children, function_slots. rewrite !pn_app, (pn_on Param T_Param ps) by reflexivity. rewrite map_app.
  destruct id; reflexivity.
Qed.
Lemma slots_complete x : direct_nodes x = map snd (slots x).
Proof.
  change (direct_nodes x) with (pn (match x with T_Val (PV_Expr _) => [] | _ => children x end)).
  destruct x as [n|[]|[]|[]|[]|[]|[]|o|[]|[]|o|m|[]|[]|[]|[]]; try destruct n; try destruct o; try destruct m; cbn [children slots];
    repeat first [rewrite pn_app | rewrite map_app | rewrite (@pn_optn _ S_Expr) | rewrite pn_nodes | rewrite map_all
      | rewrite pn_opts by reflexivity | rewrite pn_on by reflexivity | rewrite (pn_opt _ T_Catch) by reflexivity | rewrite (pn_opt _ T_Bind) by reflexivity | rewrite (pn_opt _ T_Fn) by reflexivity];
    cbn [app map snd maybe]; rewrite ?app_nil_r; try reflexivity;
    try (apply pn_fun);
    repeat match goal with o : option _ |- _ => destruct o; try reflexivity end;
    try (destruct v; reflexivity); rewrite ?map_all; try reflexivity.
  all: destruct p; reflexivity.
Qed.

(** Vocabulary. *)
Section Vocabulary.
Context (E : env) (src : str) (t : node) (path : list (part * role)).
Hypothesis HT : tree_of E src t.
Ltac loc H := let W := fresh "W" in pose proof (tree_local HT H) as W; cbn in W.
Lemma never x : occurs (T_Node t) path (T_Node x) -> never_emitted x = false.
Proof. intros H. loc H. destruct x; auto; contradiction. Qed.
Lemma object_property_facts k co v ki m sh sp : occurs (T_Node t) path (T_Prop (OE_Prop k co v ki m sh sp)) ->
  In ki object_kinds /\ co = is_computed_key k /\ (m = true <-> value_function v <> None) /\ (v = None -> sh = true) /\
  (forall ps g a, value_function v = Some (ps, g, a) -> sh = false /\ (ki = "get"%string -> ps = []) /\ (ki <> "init"%string -> g = false /\ a = false)).
Proof.
  intros H. pose proof (tree_local HT H) as W. cbn [local_other] in W. destruct W as (W1 & W2 & W3).
  split; [exact W2|]. split; [exact W1|].
  assert (Hk : ki <> "init"%string -> ki = "get"%string \/ ki = "set"%string).
  { intros Hn. cbn in W2. intuition congruence. }
  destruct v as [[]|]; cbn in W3 |- *; try contradiction.
  - destruct W3 as (-> & -> & ->). split; [split; [discriminate|auto]|]. split; [discriminate|].
    intros ps g a [= <- <- <-]. split; auto. split; [discriminate|]. intros Hx; destruct (Hx eq_refl).
  - destruct f. destruct W3 as (-> & -> & W3 & W4). split; [split; [discriminate|auto]|]. split; [discriminate|].
    intros ps g a [= <- <- <-]. split; auto.
  - destruct W3 as [_ ->]. split; [split; [discriminate|congruence]|]. split; discriminate.
  - destruct W3 as [-> ->]. split; [split; [discriminate|congruence]|]. split; [auto|discriminate].
Qed.
Lemma method_facts k co v ki st : occurs (T_Node t) path (T_Meth (MethodDef k co v ki st)) ->
  In ki method_kinds /\ st = false /\ exists id ps b g e a, v = Some (FnExpr id ps b g e a) /\
    (ki = "get"%string -> ps = []) /\ (ki = "get"%string \/ ki = "set"%string -> g = false /\ a = false).
Proof.
  intros H. loc H. destruct W as (_ & _ & W1 & _ & W2 & [] & -> & W3 & W4). split; [exact W1|]. split; auto. do 6 eexists. split; [reflexivity|]. auto.
Qed.
Lemma yield_inside e d a sp : occurs (T_Node t) path (T_Node (YieldExpression e d a sp)) -> inside generator_step path.
Proof. intros H. loc H. eapply in_generator. apply W. Qed.
Lemma await_inside e p a sp : occurs (T_Node t) path (T_Node (UnaryExpression (s2l "await") e p a sp)) -> inside async_step path.
Proof. intros H. loc H. eapply in_async. apply W. reflexivity. Qed.
Lemma declared_bind : declared path -> v_bind (ctx_at (root_ctx src) path) = true.
Proof.
  induction path as [|[x r] p IH]; cbn; [intros []|]. destruct r; auto; try contradiction. intros ->. reflexivity.
Qed.
Lemma declared_no_expr e : occurs (T_Node t) path (T_Bind (B_Expr e)) -> ~ declared path.
Proof. intros H Hd. loc H. rewrite (declared_bind Hd) in W. destruct W; discriminate. Qed.
Lemma declared_property k co v ki m sh : occurs (T_Node t) path (T_OPat (OP_Prop k co v ki m sh)) -> declared path ->
  match v with None => exists i, k = PK_Id i | Some (PV_Expr _) => False | _ => True end.
Proof.
  intros H Hd. loc H. destruct W as (_ & _ & _ & W). unfold pattern_value_ok in W. rewrite (declared_bind Hd) in W. destruct v as [[]|]; auto.
  - destruct W; discriminate.
  - destruct W as [_ W]. specialize (W eq_refl). destruct k; try discriminate W. eauto.
Qed.
Lemma pattern_property_facts k co v ki m sh : occurs (T_Node t) path (T_OPat (OP_Prop k co v ki m sh)) ->
  co = is_computed_key k /\ m = false /\ value_function v = None /\ (v = None -> sh = true).
Proof.
  intros H. loc H. destruct W as (W1 & _ & W2 & W3). split; [exact W1|]. split; [exact W2|].
  destruct v as [[]|]; cbn in *; try contradiction; split; auto; try discriminate. intros _. apply W3.
Qed.
Lemma operator_facts x : occurs (T_Node t) path (T_Node x) ->
  match x with
  | AssignmentExpression o _ _ _ _ => In o assign_operators
  | BinaryExpression o _ _ _ _ => lookup o operator_levels <> None \/ o = power
  | UnaryExpression o _ p _ _ => one_of o unary_operators /\ p = true
  | UpdateExpression o _ _ _ _ => one_of o update_operators
  | VariableDeclaration ds k _ => In k declaration_kinds /\ ds <> []
  | ForInStatement _ _ _ e _ => e = false
  | ComputedMemberExpression b _ _ _ _ => b = true
  | StaticMemberExpression b _ _ _ _ => b = false
  | NLiteral (VPunc _) _ _ _ => False
  | MetaProperty (Identifier m _ _) (Identifier p _ _) _ _ => m = s2l "new" /\ p = s2l "target"
  | YieldExpression e d _ _ => d = true -> e <> None
  | FunctionExpression _ _ _ g e _ _ _ => g = false /\ e = false
  | ArrowFunctionExpression id _ _ g _ a _ _ => id = None /\ g = false /\ a = false
  | AsyncArrowFunctionExpression id _ _ g _ a _ _ => id = None /\ g = false /\ a = true
  | _ => True
  end.
Proof.
  intros H. pose proof (tree_local HT H) as W. cbn [local_other] in W. destruct x; auto; cbn [local_node] in W.
  all: try (repeat match goal with H : _ /\ _ |- _ => destruct H end; auto; fail).
  - destruct W as [W _]. unfold operands_ok in W. destruct (lookup operator operator_levels); [left; discriminate|right; tauto].
  - destruct W as [(sp1 & sp2 & -> & ->) _]. auto.
Qed.
Lemma slots_filled x s n : occurs (T_Node t) path x -> In (s, n) (slots x) -> fills s n.
Proof. intros H Hi. pose proof (@local_slots _ _ (tree_local HT H)) as F. rewrite Forall_forall in F. exact (F (s, n) Hi). Qed.
End Vocabulary.

(** Errors. *)
Lemma error_line E src e : error_of E src e -> 1 <= err_line e <= line_count src.
Proof.
  intros [H|H]; revert H; unfold parse_script, parse_module, parse_with;
    destruct (s_next E GRegExp (s_new src)) as [t sc|e'|p|] eqn:Hn; try discriminate.
  - pose proof (@script_v E (L_of src) (LB_of src) (fuel_for src) (run E (fuel_for src)) (run_hV E _ _ _) _ _ _ (init_at _ _ Hn)) as W. unfold wp in W.
    destruct (script _ _ _ _); try discriminate. intros [= <-]. exact W.
  - pose proof (@module_v E (L_of src) (LB_of src) (fuel_for src) (run E (fuel_for src)) (run_hV E _ _ _) _ _ _ (init_at _ _ Hn)) as W. unfold wp in W.
    destruct (module_ _ _ _ _); try discriminate. intros [= <-]. exact W.
Qed.
