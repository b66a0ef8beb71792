(** * PropsTree: properties of every returned tree
    (C17-C25, C29, C31, C32, C34-C36, C39-C44). *)
From Verif Require Import Base Codepoint Punct Token Scanner Ast ParserBase Parser.
From Verif Require Import SpecLex SpecParse SpecTree SpecSlots Witness FindPart ParseProofs TreeProofs.

Ltac witness := apply found_sound; vm_compute; reflexivity.
Notation script_ x := (parse_script E0 (s2l x)).
Notation module_ x := (parse_module E0 (s2l x)).

(** ** C17: return only inside function bodies *)
Theorem C17_return_in_function : forall E src t path e sp, tree_of E src t ->
  occurs (T_Node t) path (T_Node (ReturnStatement e sp)) -> inside body_step path.
Proof. intros; eapply return_inside; eauto. Qed.
Example C17_witness : holds_in (script_ "a = function(x) { if (x) { return x + 1; } }")
  (fun path x => match x with T_Node (ReturnStatement (Some _) _) => insideb body_step path | _ => false end).
Proof. witness. Qed.

(** ** C18: unlabelled break and continue *)
Theorem C18_continue_in_loop : forall E src t path sp, tree_of E src t ->
  occurs (T_Node t) path (T_Node (ContinueStatement None sp)) -> inside loop_step path.
Proof. intros; eapply continue_inside; eauto. Qed.
Theorem C18_break_in_loop_or_switch : forall E src t path sp, tree_of E src t ->
  occurs (T_Node t) path (T_Node (BreakStatement None sp)) -> inside loop_step path \/ inside switch_step path.
Proof. intros; eapply break_inside; eauto. Qed.
Example C18_witness_continue : holds_in (script_ "for (;;) { do if (a) continue; while (b) }")
  (fun path x => match x with T_Node (ContinueStatement None _) => insideb loop_step path | _ => false end).
Proof. witness. Qed.
Example C18_witness_break : holds_in (script_ "switch (a) { case 1: b; break; default: c }")
  (fun path x => match x with T_Node (BreakStatement None _) => negb (insideb loop_step path) | _ => false end).
Proof. witness. Qed.
(** The loop need not be in the same function. *)
Theorem C18_same_function_refuted : holds_in (script_ "while (a) { b = function() { break; } }")
  (fun path x => match x with
                 | T_Node (BreakStatement None _) => negb (insideb loop_step (own_function path)) && negb (insideb switch_step (own_function path))
                 | _ => false end).
Proof. witness. Qed.

(** ** C19: strict code *)
Theorem C19_no_with : forall E src t path o b sp, tree_of E src t ->
  occurs (T_Node t) path (T_Node (WithStatement o b sp)) -> ~ inside strict_step path.
Proof. intros; eapply with_not_strict; eauto. Qed.
Theorem C19_no_labelled_function : forall E src t path l b sp, tree_of E src t ->
  occurs (T_Node t) path (T_Node (LabeledStatement l b sp)) -> inside strict_step path -> is_function_declaration b = false.
Proof. intros E src t path l b sp HT H Hs. pose proof (label_not_strict HT H Hs) as Hp. destruct b; auto; discriminate Hp. Qed.
Theorem C19_module_is_strict : forall E src t path x r y, parse_module E src = Ok t ->
  occurs (T_Node t) ((x, r) :: path) y -> inside strict_step ((x, r) :: path).
Proof. exact module_strict. Qed.
Example C19_witness : holds_in (script_ "a: function f() { 'x'; with (a) b } ")
  (fun path x => match x with T_Node (WithStatement _ _ _) => negb (insideb strict_step path) | _ => false end).
Proof. witness. Qed.
Example C19_witness_strict : holds_in (script_ "function f() { 'x'; 'use strict'; a: class b { c() { d } } }")
  (fun path x => match x with T_Node (LabeledStatement _ _ _) => insideb strict_step path | _ => false end).
Proof. witness. Qed.

(** ** C20: assignment targets.  [P false] always, [P true] in strict code. *)
Theorem C20_assignment : forall E src t path o l r a sp, tree_of E src t ->
  occurs (T_Node t) path (T_Node (AssignmentExpression o l r a sp)) ->
  at_strictness path (fun b => if String.eqb o "=" then assign_target b l else simple_target b l).
Proof. intros; eapply assignment_targets; eauto. Qed.
Theorem C20_update : forall E src t path o e pre a sp, tree_of E src t ->
  occurs (T_Node t) path (T_Node (UpdateExpression o e pre a sp)) -> at_strictness path (fun b => simple_target b e).
Proof. intros; eapply update_targets; eauto. Qed.
Theorem C20_for_in : forall E src t path l r b e sp, tree_of E src t ->
  occurs (T_Node t) path (T_Node (ForInStatement l r b e sp)) ->
  at_strictness path (fun s => is_binding_node l = true \/ assign_target s l).
Proof. intros; eapply for_in_targets; eauto. Qed.
Theorem C20_for_of : forall E src t path l r b sp, tree_of E src t ->
  occurs (T_Node t) path (T_Node (ForOfStatement l r b sp)) ->
  at_strictness path (fun s => is_binding_node l = true \/ assign_target s l).
Proof. intros; eapply for_of_targets; eauto. Qed.
Theorem C20_array_element : forall E src t path e, tree_of E src t ->
  occurs (T_Node t) path (T_AAPat (AA_Expr e)) -> at_strictness path (fun b => element_target b e).
Proof. intros; eapply array_element_targets; eauto. Qed.
Theorem C20_property : forall E src t path k co e ki m sh, tree_of E src t ->
  occurs (T_Node t) path (T_OPat (OP_Prop k co (Some (PV_Expr e)) ki m sh)) -> at_strictness path (fun b => element_target b e).
Proof. intros; eapply property_targets; eauto. Qed.
Theorem C20_pattern_expression : forall E src t path e, tree_of E src t ->
  occurs (T_Node t) path (T_Bind (B_Expr e)) -> at_strictness path (fun b => assign_target b e).
Proof. intros; eapply rest_targets; eauto. Qed.
Example C20_witness : holds_in (script_ "function f() { 'use strict'; [a.b, [c] = 1, {d: e[0]}] = f; (g)++; h += 1 }")
  (fun path x => match x with T_Node (AssignmentExpression o (ArrayAssignmentPattern [_; _; _] _ _) _ _ _) => insideb strict_step path | _ => false end).
Proof. witness. Qed.
Example C20_witness_element : holds_in (script_ "({d: e[0], f: g = 1} = h)")
  (fun path x => match x with T_OPat (OP_Prop _ _ (Some (PV_Expr (NAssignmentPattern _ _ _))) _ _ _) => true | _ => false end).
Proof. witness. Qed.
Example C20_witness_update : holds_in (script_ "class a { b() { --(c); } }")
  (fun path x => match x with T_Node (UpdateExpression _ (SequenceExpression _ _ _) true _ _) => insideb strict_step path | _ => false end).
Proof. witness. Qed.
Example C20_witness_for : holds_in (script_ "for ([a, b.c] in d) e; for (const {f} of g) h")
  (fun path x => match x with T_Node (ForInStatement (ArrayAssignmentPattern _ _ _) _ _ _ _) => true | _ => false end).
Proof. witness. Qed.
(** Shorthand properties of destructuring assignments are not checked. *)
Theorem C20_shorthand_refuted : holds_in (script_ "'use strict'; ({eval} = 1)")
  (fun path x => match x with
                 | T_OPat (OP_Prop (PK_Id i) _ None _ _ true) => str_eqb (id_name i) (s2l "eval") && insideb strict_step path
                 | _ => false end).
Proof. witness. Qed.

(** ** C21: precedence and associativity of binary operators *)
Theorem C21_operands : forall E src t path o l r a sp, tree_of E src t ->
  occurs (T_Node t) path (T_Node (BinaryExpression o l r a sp)) -> operands_ok o l r.
Proof. intros; eapply binary_operands; eauto. Qed.
Theorem C21_conditional_test : forall E src t path x y z sp, tree_of E src t ->
  occurs (T_Node t) path (T_Node (ConditionalExpression x y z sp)) -> 1 <= level x.
Proof. intros; eapply conditional_operands; eauto. Qed.
Theorem C21_unary_operand : forall E src t path o e p a sp, tree_of E src t ->
  occurs (T_Node t) path (T_Node (UnaryExpression o e p a sp)) -> 13 <= level e.
Proof. intros; eapply unary_operands; eauto. Qed.
Definition is_op (o : str) (x : string) : bool := str_eqb o (s2l x).
Example C21_witness : holds_in (script_ "a - b - c * d ** e || f")
  (fun _ x => match x with
              | T_Node (BinaryExpression o1 (BinaryExpression o2 (BinaryExpression o3 _ _ _ _) (BinaryExpression o4 _ (BinaryExpression o5 _ _ _ _) _ _) _ _) _ _ _) =>
                is_op o1 "||" && is_op o2 "-" && is_op o3 "-" && is_op o4 "*" && is_op o5 "**"
              | _ => false end).
Proof. witness. Qed.
(** In ECMAScript "%" has the strength of "*" and groups from the left. *)
Theorem C21_modulo_refuted : holds_in (script_ "a * b % c")
  (fun _ x => match x with
              | T_Node (BinaryExpression o1 (Identifier _ _ _) (BinaryExpression o2 _ _ _ _) _ _) => is_op o1 "*" && is_op o2 "%"
              | _ => false end).
Proof. witness. Qed.
(** An arrow function may be an operand without parentheses around it. *)
Theorem C21_arrow_refuted : holds_in (script_ "d + () => e")
  (fun _ x => match x with T_Node (BinaryExpression _ _ (ArrowFunctionExpression _ _ _ _ _ _ _ _) _ _) => true | _ => false end).
Proof. witness. Qed.

(** ** C22: rest elements come last *)
Theorem C22_rest_last : forall E src t path x, tree_of E src t -> occurs (T_Node t) path x ->
  only_last rest_param (params_of x) /\ only_last rest_apat (apats_of x) /\ only_last rest_opat (opats_of x).
Proof. intros; eapply rest_last; eauto. Qed.
(** Destructuring assignments of arrays never contain a rest element. *)
Theorem C22_no_rest_in_array_assignment : forall E src t path b, tree_of E src t ->
  ~ occurs (T_Node t) path (T_AAPat (AA_Rest b)).
Proof. intros; eapply no_array_rest; eauto. Qed.
Example C22_witness : holds_in (script_ "function f(a, [b, ...c], ...d) {}")
  (fun _ x => match params_of x with [_; FP_Array [_; Some (AP_Rest _)]; FP_Rest _] => true | _ => false end).
Proof. witness. Qed.
Example C22_witness_object : holds_in (script_ "let {a, ...b} = c")
  (fun _ x => match opats_of x with [_; OP_Rest _] => true | _ => false end).
Proof. witness. Qed.

(** ** C23: try *)
Theorem C23_try : forall E src t path b h f sp, tree_of E src t ->
  occurs (T_Node t) path (T_Node (TryStatement b h f sp)) -> h <> None \/ f <> None.
Proof. intros; eapply try_complete; eauto. Qed.
Example C23_witness : holds_in (script_ "try { a } finally { b }")
  (fun _ x => match x with T_Node (TryStatement _ None (Some _) _) => true | _ => false end).
Proof. witness. Qed.

(** ** C24: switch *)
Theorem C24_one_default : forall E src t path d cs sp, tree_of E src t ->
  occurs (T_Node t) path (T_Node (SwitchStatement d cs sp)) -> at_most_one is_default cs.
Proof. intros; eapply one_default; eauto. Qed.
Example C24_witness : holds_in (script_ "switch (a) { case 1: switch (b) { default: } default: case 2: }")
  (fun path x => match x with T_Node (SwitchStatement _ cs _) => existsb is_default cs && insideb switch_step path | _ => false end).
Proof. witness. Qed.

(** ** C25: declarations *)
Theorem C25_initialised : forall E src t path id i, tree_of E src t ->
  occurs (T_Node t) path (T_Decl (VarDeclarator id i)) -> i <> None \/ exists name sp, id = B_Id name sp.
Proof. intros; eapply declared_initialised; eauto. Qed.
Example C25_witness : holds_in (script_ "var a, [b] = c")
  (fun _ x => match x with T_Decl (VarDeclarator (B_Array _ _) (Some _)) => true | _ => false end).
Proof. witness. Qed.

(** ** C29: vocabulary *)
Theorem C29_vocabulary : forall E src t path x, tree_of E src t ->
  occurs (T_Node t) path (T_Node x) -> never_emitted x = false.
Proof. intros; eapply never; eauto. Qed.
Theorem C29_no_static_method : forall E src t path k co v ki st, tree_of E src t ->
  occurs (T_Node t) path (T_Meth (MethodDef k co v ki st)) -> st = false.
Proof. intros E src t path k co v ki st HT H. destruct (method_facts HT H) as (_ & W & _). exact W. Qed.
Example C29_witness : holds_in (script_ "a = {async z() { await b && c }}; class d extends e { f() {} }; 'x'")
  (fun _ x => match x with T_Node (BinaryExpression _ (UnaryExpression _ _ _ _ _) _ _ _) => true | _ => false end).
Proof. witness. Qed.
Example C29_witness_static : holds_in (script_ "class a { b() {} *c() {} }")
  (fun _ x => match x with T_Meth (MethodDef _ _ _ _ _) => true | _ => false end).
Proof. witness. Qed.

(** ** C31: template literals *)
Theorem C31_template : forall E src t path qs es a sp, tree_of E src t ->
  occurs (T_Node t) path (T_Node (TemplateLiteral qs es a sp)) -> template_shape qs es.
Proof. intros; eapply template_ok; eauto. Qed.
Theorem C31_tagged : forall E src t path x qs es sp, tree_of E src t ->
  occurs (T_Node t) path (T_Node (TaggedTemplateExpression x qs es sp)) -> template_shape qs es.
Proof. intros; eapply tagged_ok; eauto. Qed.
Example C31_witness : holds_in (script_ "`a${b}c${`d`}e`")
  (fun _ x => match x with T_Node (TemplateLiteral [_; _; _] [_; TemplateLiteral _ _ _ _] _ _) => true | _ => false end).
Proof. witness. Qed.
Example C31_witness_tagged : holds_in (script_ "f`a${b}`")
  (fun _ x => match x with T_Node (TaggedTemplateExpression _ [_; _] [_] _) => true | _ => false end).
Proof. witness. Qed.

(** ** C32: exponentiation *)
Theorem C32_power : forall E src t path l r a sp, tree_of E src t ->
  occurs (T_Node t) path (T_Node (BinaryExpression power l r a sp)) ->
  (forall o e p a sp, l <> UnaryExpression o e p a sp) /\ (forall o l' r' a sp, l <> BinaryExpression o l' r' a sp).
Proof.
  intros E src t path l r a sp HT H. pose proof (binary_operands HT H) as W. unfold operands_ok in W.
  change (lookup power operator_levels) with (@None N) in W. destruct W as (_ & W & _).
  assert (Hb : forall o v, lookup o operator_levels = Some v -> v < 14).
  { assert (F : Forall (fun '(_, v) => v < 14) operator_levels) by (repeat constructor).
    intros o v. revert F. generalize operator_levels. intros q F. induction F as [|[k v'] q Hv F IH]; cbn; [discriminate|].
    destruct (str_eqb o (s2l k)); [intros [= <-]; exact Hv|exact IH]. }
  split; intros; intros ->; revert W; cbn [level]; [intros W; apply W; reflexivity|].
  destruct (@lookup N o operator_levels) as [v|] eqn:Hl; intros W; [specialize (Hb _ _ Hl)|]; apply (N.lt_irrefl 14); eapply N.le_lt_trans; eauto; reflexivity.
Qed.
Example C32_witness : holds_in (script_ "(-a) ** b++ ** -c")
  (fun _ x => match x with T_Node (BinaryExpression o (SequenceExpression _ _ _) (BinaryExpression o' (UpdateExpression _ _ _ _ _) (UnaryExpression _ _ _ _ _) _ _) _ _) => str_eqb o power && str_eqb o' power | _ => false end).
Proof. witness. Qed.

(** ** C34: positions *)
Theorem C34_spans : forall E src t path x sp, tree_of E src t -> occurs (T_Node t) path x -> In sp (own_spans x) ->
  span_within (N.of_nat (length src)) (line_count src) sp.
Proof. intros; eapply span_bounds; eauto. Qed.
Theorem C34_error_line : forall E src e, error_of E src e -> 1 <= err_line e <= line_count src.
Proof. exact error_line. Qed.
Example C34_witness : holds_in (script_ "a;
 function b() {
 c }")
  (fun _ x => match own_spans x with [sp] => (mk_line (sp_end sp) =? 3) && (mk_idx (sp_start sp) =? 20) && (mk_idx (sp_end sp) =? 23) | _ => false end).
Proof. witness. Qed.
Example C34_witness_error : exists e, error_of E0 (s2l "a;
 b c") e /\ err_line e = 2.
Proof. eexists. split; [left; vm_compute; reflexivity|reflexivity]. Qed.
(** The start of a span may lie after its end, when the parser has looked ahead. *)
Theorem C34_order_refuted : holds_in (script_ "({get    a(){}})")
  (fun _ x => existsb (fun sp => mk_idx (sp_end sp) <? mk_idx (sp_start sp)) (own_spans x)).
Proof. witness. Qed.

(** ** C35: properties and methods *)
Theorem C35_object_property : forall E src t path k co v ki m sh sp, tree_of E src t ->
  occurs (T_Node t) path (T_Prop (OE_Prop k co v ki m sh sp)) ->
  In ki object_kinds /\ co = is_computed_key k /\ (m = true <-> value_function v <> None) /\ (v = None -> sh = true) /\
  (forall ps g a, value_function v = Some (ps, g, a) ->
     sh = false /\ (ki = "get"%string -> ps = []) /\ (ki <> "init"%string -> g = false /\ a = false)).
Proof. intros; eapply object_property_facts; eauto. Qed.
Theorem C35_method : forall E src t path k co v ki st, tree_of E src t ->
  occurs (T_Node t) path (T_Meth (MethodDef k co v ki st)) ->
  In ki method_kinds /\ exists id ps b g e a, v = Some (FnExpr id ps b g e a) /\
    (ki = "get"%string -> ps = []) /\ (ki = "get"%string \/ ki = "set"%string -> g = false /\ a = false).
Proof. intros E src t path k co v ki st HT H. destruct (method_facts HT H) as (W1 & _ & W2). auto. Qed.
Theorem C35_pattern_property : forall E src t path k co v ki m sh, tree_of E src t ->
  occurs (T_Node t) path (T_OPat (OP_Prop k co v ki m sh)) ->
  co = is_computed_key k /\ m = false /\ value_function v = None /\ (v = None -> sh = true).
Proof. intros; eapply pattern_property_facts; eauto. Qed.
Example C35_witness : holds_in (script_ "({get a() {}, set b(c) {}, async d() {}, [e]: 1, f})")
  (fun _ x => match x with T_Prop (OE_Prop _ _ v "get" true _ _) => match value_function v with Some ([], _, _) => true | _ => false end | _ => false end).
Proof. witness. Qed.
Example C35_witness_method : holds_in (script_ "class a { constructor() {} get b() {} *c() {} }")
  (fun _ x => match x with T_Meth (MethodDef _ _ _ "get" _) => true | _ => false end).
Proof. witness. Qed.
Example C35_witness_pattern : holds_in (script_ "var {a, b: c, [d]: e = 1} = f")
  (fun _ x => match x with T_OPat (OP_Prop (PK_Expr _) true (Some _) _ _ _) => true | _ => false end).
Proof. witness. Qed.
(** A property of kind "get" need not have a function as its value. *)
Theorem C35_getter_refuted : holds_in (script_ "({get a: 1})")
  (fun _ x => match x with T_Prop (OE_Prop _ _ (Some (PV_Expr _)) "get" _ _ _) => true | _ => false end).
Proof. witness. Qed.

(** ** C36: imports and exports *)
Theorem C36_top_level : forall E src t path n, tree_of E src t -> occurs (T_Node t) path (T_Node n) -> is_import_export n = true ->
  exists l sp, t = Program l "module" sp /\ path = [(T_Node t, Other)].
Proof. intros; eapply import_export_top; eauto. Qed.
Theorem C36_script : forall E src t, parse_script E src = Ok t -> exists l sp, t = Program l "script" sp.
Proof. exact script_program. Qed.
Theorem C36_module : forall E src t, parse_module E src = Ok t -> exists l sp, t = Program l "module" sp.
Proof. exact module_program. Qed.
Theorem C36_root_only : forall E src t path l ty sp, tree_of E src t -> occurs (T_Node t) path (T_Node (Program l ty sp)) -> path = [].
Proof. intros E src t path l ty sp HT H. apply (program_root HT H). Qed.
Example C36_witness : holds_in (module_ "import {a as b} from 'c'; export default d; export {e}; export var f = 1")
  (fun _ x => match x with T_Node n => is_import_export n | _ => false end).
Proof. witness. Qed.

(** ** C39: every position is filled with the right kind of node *)
Theorem C39_positions : forall E src t path x s n, tree_of E src t -> occurs (T_Node t) path x -> In (s, n) (slots x) -> fills s n.
Proof. intros; eapply slots_filled; eauto. Qed.
(** [slots] leaves out no node. *)
Theorem C39_all_positions : forall x, direct_nodes x = map snd (slots x).
Proof. exact slots_complete. Qed.
Example C39_witness : holds_in (script_ "if (a) { let b = c } else d: for (var e in f) ;")
  (fun _ x => match slots x with [(S_Expr, _); (S_Statement, _); (S_Statement, LabeledStatement _ _ _)] => true | _ => false end).
Proof. witness. Qed.

(** ** C40: operators and kinds *)
Theorem C40_operators : forall E src t path x, tree_of E src t -> occurs (T_Node t) path (T_Node x) ->
  match x with
  | AssignmentExpression o _ _ _ _ => In o assign_operators
  | BinaryExpression o _ _ _ _ => lookup o operator_levels <> None \/ o = power
  | UnaryExpression o _ p _ _ => one_of o unary_operators /\ p = true
  | UpdateExpression o _ _ _ _ => one_of o update_operators
  | VariableDeclaration ds k _ => In k declaration_kinds /\ ds <> []
  | ForInStatement _ _ _ e _ => e = false
  | ComputedMemberExpression b _ _ _ _ => b = true
  | StaticMemberExpression b _ _ _ _ => b = false
  | NLiteral (VPunc _) _ _ _ => False
  | MetaProperty (Identifier m _ _) (Identifier p _ _) _ _ => m = s2l "new" /\ p = s2l "target"
  | YieldExpression e d _ _ => d = true -> e <> None
  | FunctionExpression _ _ _ g e _ _ _ => g = false /\ e = false
  | ArrowFunctionExpression id _ _ g _ a _ _ => id = None /\ g = false /\ a = false
  | AsyncArrowFunctionExpression id _ _ g _ a _ _ => id = None /\ g = false /\ a = true
  | _ => True
  end.
Proof. intros; eapply operator_facts; eauto. Qed.
Example C40_witness : holds_in (script_ "a >>>= typeof b[c] instanceof d.e")
  (fun _ x => match x with T_Node (AssignmentExpression ">>>=" _ (BinaryExpression _ (UnaryExpression _ (ComputedMemberExpression true _ _ _ _) true _ _) (StaticMemberExpression false _ _ _ _) _ _) _ _) => true | _ => false end).
Proof. witness. Qed.

(** ** C41: yield and await *)
Theorem C41_yield : forall E src t path e d a sp, tree_of E src t ->
  occurs (T_Node t) path (T_Node (YieldExpression e d a sp)) -> inside generator_step path.
Proof. intros; eapply yield_inside; eauto. Qed.
Theorem C41_await : forall E src t path e p a sp, tree_of E src t ->
  occurs (T_Node t) path (T_Node (UnaryExpression (s2l "await") e p a sp)) -> inside async_step path.
Proof. intros; eapply await_inside; eauto. Qed.
Example C41_witness_yield : holds_in (script_ "function *a() { yield b; }")
  (fun path x => match x with T_Node (YieldExpression (Some _) _ _ _) => insideb generator_step path | _ => false end).
Proof. witness. Qed.
Example C41_witness_await : holds_in (script_ "({async a() { await b; }})")
  (fun path x => match x with T_Node (UnaryExpression o _ _ _ _) => str_eqb o (s2l "await") && insideb async_step path | _ => false end).
Proof. witness. Qed.

(** ** C42: patterns that declare variables contain only names *)
Theorem C42_names : forall E src t path e, tree_of E src t -> occurs (T_Node t) path (T_Bind (B_Expr e)) -> ~ declared path.
Proof. intros; eapply declared_no_expr; eauto. Qed.
Theorem C42_properties : forall E src t path k co v ki m sh, tree_of E src t ->
  occurs (T_Node t) path (T_OPat (OP_Prop k co v ki m sh)) -> declared path ->
  match v with None => exists i, k = PK_Id i | Some (PV_Expr _) => False | _ => True end.
Proof. intros; eapply declared_property; eauto. Qed.
Example C42_witness : holds_in (script_ "var {a, b: {c}} = d")
  (fun path x => match x, path with T_OPat (OP_Prop _ _ None _ _ _), [(_, Sub); (_, Sub); (_, Sub); (T_Decl _, Name); _; _] => true | _, _ => false end).
Proof. witness. Qed.
Example C42_witness_expr : holds_in (script_ "({...a.b} = c)")
  (fun path x => match x with T_Bind (B_Expr (StaticMemberExpression _ _ _ _ _)) => true | _ => false end).
Proof. witness. Qed.

Print Assumptions C17_return_in_function.
Print Assumptions C18_continue_in_loop.
Print Assumptions C18_break_in_loop_or_switch.
Print Assumptions C18_same_function_refuted.
Print Assumptions C19_no_with.
Print Assumptions C19_no_labelled_function.
Print Assumptions C19_module_is_strict.
Print Assumptions C20_assignment.
Print Assumptions C20_update.
Print Assumptions C20_for_in.
Print Assumptions C20_for_of.
Print Assumptions C20_array_element.
Print Assumptions C20_property.
Print Assumptions C20_pattern_expression.
Print Assumptions C20_shorthand_refuted.
Print Assumptions C21_operands.
Print Assumptions C21_conditional_test.
Print Assumptions C21_unary_operand.
Print Assumptions C21_modulo_refuted.
Print Assumptions C21_arrow_refuted.
Print Assumptions C22_rest_last.
Print Assumptions C22_no_rest_in_array_assignment.
Print Assumptions C23_try.
Print Assumptions C24_one_default.
Print Assumptions C25_initialised.
Print Assumptions C29_vocabulary.
Print Assumptions C29_no_static_method.
Print Assumptions C31_template.
Print Assumptions C31_tagged.
Print Assumptions C32_power.
Print Assumptions C34_spans.
Print Assumptions C34_error_line.
Print Assumptions C34_order_refuted.
Print Assumptions C35_object_property.
Print Assumptions C35_method.
Print Assumptions C35_pattern_property.
Print Assumptions C35_getter_refuted.
Print Assumptions C36_top_level.
Print Assumptions C36_script.
Print Assumptions C36_module.
Print Assumptions C36_root_only.
Print Assumptions C39_positions.
Print Assumptions C39_all_positions.
Print Assumptions C40_operators.
Print Assumptions C41_yield.
Print Assumptions C41_await.
Print Assumptions C42_names.
Print Assumptions C42_properties.
