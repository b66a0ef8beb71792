(** * ValidStmt: validity pass over ParserStmt.v (proofs). *)
From Verif Require Import Base Codepoint Punct Token Scanner Ast Convert ParserBase ParserExpr ParserStmt Parser.
From Verif Require Import SpecLex SpecScan SpecTree Hoare LexFacts ParserInv Valid ValidConv ValidBase ValidExpr.
From Coq Require Import ZifyBool ZifyN ZifyNat.
Set Implicit Arguments.

Section Pass.
Context (E : env) (L LB : N) (n : nat) (h : handler).
Notation vs := (vs L LB).
Notation gd := (gd L LB).
Notation gdb := (gdb L LB).
Notation ER := (ER L LB).
Notation er := (er L LB).
Notation At := (At L LB).
Notation XV := (XV LB).
Notation span_ok := (span_ok L LB).
Notation statement_post := (statement_post L LB).
Notation item_post := (item_post L LB).
Hypothesis HV : hV L LB h.
#[local] Hint Resolve hV_bindpat hV_lhs hV_new hV_unary hV_exp hV_assign hV_expression hV_statement hV_item HV : vs.

Lemma expr_in_v k p : vs k p (with_in true (parse_expression E n h)) (er 0 k p).
Proof. apply vs_with_in. eapply vs_weaken; [apply (@expression_v E L LB n h HV)|]. intros. eapply er_in; eauto. Qed.
Lemma assign_in_b b k p : vs k p (with_in b (parse_assignment_expr E n h)) (er 0 k p).
Proof. apply vs_with_in. eapply vs_weaken; [apply (@assignment_v E L LB n h HV)|]. intros. eapply er_in; eauto. Qed.
#[local] Hint Resolve expr_in_v assign_in_b : vs.

Ltac fside := cbn; intros; try discriminate; auto; try congruence; try (left; subst; reflexivity).
Ltac ffn := cbn [children]; unfold function_children; repeat lazymatch goal with
  | |- FC _ _ (_ ++ _) => apply FC_app
  | |- FC _ _ (opt _ _ None) => apply FC_none
  | |- FC _ _ (opt _ _ (Some _)) => apply FC_some; try (vchild; fail)
  | |- FC _ _ (on Param _ _) => eapply FC_params; [eassumption|eassumption|fside ..]
  | |- FC _ _ (one Body _) => eapply FC_body; [eassumption|eassumption|reflexivity|reflexivity|reflexivity|fside ..]
  end.
Ltac vfn := let c := fresh "c" in let Hc := fresh "Hc" in intros c Hc; apply valid_mk; [split; [spans|cbn [local_other local_node]]|ffn].

(** Statements other than expression statements. *)
Definition not_expr_stmt (a : node) : bool := match a with ExpressionStatement _ _ => false | _ => true end.
Definition stmt_post (k : pctx) (p : params) (t : token) (a : node) (t' : token) : Prop :=
  gd k p (T_Node a) /\ is_plain_statement a && not_expr_stmt a = true.

(** ** Declarations *)
Definition fdecl_post (k : pctx) (p : params) (gen : bool) (a : node) : Prop :=
  gd k p (T_Node a) /\ is_function_declaration a = true /\ (has_default p = false -> is_declaration a = true) /\
  (has_default p = false -> gen = false -> is_plain_function a = true).
Lemma function_dclr_v async allow k p : vs k p (parse_function_dclr E n h async allow) (fun _ a _ => fdecl_post k p allow a).
Proof.
  vgo parse_function_dclr.
  all: split; [vfn|split; [reflexivity|split]].
  all: try (destruct allow; discriminate).
  all: try (intros Hd; rewrite Hd in *; discriminate).
  all: try reflexivity.
  all: try (intros _ ->; discriminate).
  all: match goal with H : gdb _ _ _ |- _ => pose proof (gdb_block H) end; unfold function_ok; cbn [all_opt];
    match goal with H : params_post _ _ _ _ _ |- _ => destruct H end; repeat split; auto.
Qed.
#[local] Hint Resolve function_dclr_v : vs.
Lemma hoistable_v k p : vs k p (parse_hoistable_dclr E n h) (fun _ a _ => fdecl_post k p true a).
Proof. vgo parse_hoistable_dclr; assumption. Qed.
#[local] Hint Resolve hoistable_v : vs.
Lemma variable_dclr_v k p : vs k p (parse_variable_dclr E n h) (fun _ d _ => gd k p (T_Decl d)).
Proof.
  vgo parse_variable_dclr.
  - vgd. cbn. split; [assumption|discriminate].
  - vgd. cbn. auto.
Qed.
#[local] Hint Resolve variable_dclr_v : vs.
Definition decls_post (k : pctx) (p : params) (l : list var_declarator) : Prop := Forall (fun d => gd k p (T_Decl d)) l /\ l <> [].
Lemma variable_dclr_list_v k p : vs k p (variable_dclr_list E n h) (fun _ l _ => decls_post k p l).
Proof.
  pose proof (@vs_while L LB _ _ k p _ (fun x => gd k p (T_Decl x)) (@comma_then_v E L LB _ (parse_variable_dclr E n h) k p _ (@variable_dclr_v k p)) ltac:(cbv beta; intros t a t' [t0 ?]; auto) n Comma) as Hl.
  vgo variable_dclr_list. split; [constructor; auto|discriminate].
Qed.
#[local] Hint Resolve variable_dclr_list_v : vs.
Lemma decls_in k p b l : decls_post k (set_in b p) l -> decls_post k p l.
Proof. intros [H1 H2]. split; auto. eapply Forall_impl; [|exact H1]. cbv beta. intros. eapply gd_in; eauto. Qed.
Lemma variable_dclr_list_in k p : vs k p (with_in true (variable_dclr_list E n h)) (fun _ l _ => decls_post k p l).
Proof. apply vs_with_in. eapply vs_weaken; [apply variable_dclr_list_v|]. cbv beta. intros. eapply decls_in; eauto. Qed.
#[local] Hint Resolve variable_dclr_list_in : vs.
Lemma decl_node k p l kind sp : decls_post k p l -> In kind ["var"; "let"; "const"]%string -> span_ok sp -> gd k p (T_Node (VariableDeclaration l kind sp)).
Proof. intros [H1 H2] Hk Hs. vgd. auto. Qed.
Lemma variable_stmt_v b k p : vs k p (parse_variable_stmt E n h b) (fun _ a _ => gd k p (T_Node a) /\ is_plain_statement a = true /\ is_declaration a = true).
Proof. vgo parse_variable_stmt; (split; [apply decl_node; cbn; auto|auto]). Qed.
Lemma lexical_dclr_v k p : vs k p (parse_lexical_dclr E n h) (fun _ a _ => gd k p (T_Node a) /\ is_declaration a = true).
Proof. vgo parse_lexical_dclr; (split; [apply decl_node; cbn; auto|auto]). Qed.
Lemma lexical_dclr_in k p : vs k p (with_in true (parse_lexical_dclr E n h)) (fun _ a _ => gd k p (T_Node a) /\ is_declaration a = true).
Proof. apply vs_with_in. eapply vs_weaken; [apply lexical_dclr_v|]. cbv beta. intros ? ? ? [H1 H2]. split; [eapply gd_in; eauto|auto]. Qed.
#[local] Hint Resolve variable_stmt_v lexical_dclr_in : vs.
Lemma gd_default k p b a : gd k (set_default b p) a -> gd k p a.
Proof. intros H c Hc. apply H. destruct Hc. constructor; auto. Qed.
Definition decl_post (k : pctx) (p : params) (a : node) : Prop := gd k p (T_Node a) /\ is_declaration a = true.
Lemma hoistable_no_default k p : vs k p (with_default false (parse_hoistable_dclr E n h)) (fun _ a _ => decl_post k p a).
Proof. apply vs_with_default. eapply vs_weaken; [apply hoistable_v|]. cbv beta. intros ? ? ? (H1 & H2 & H3 & H4). split; [eapply gd_default; eauto|auto]. Qed.
Lemma function_no_default k p : vs k p (with_default false (parse_function_dclr E n h false false)) (fun _ a _ => decl_post k p a /\ is_plain_function a = true).
Proof. apply vs_with_default. eapply vs_weaken; [apply function_dclr_v|]. cbv beta. intros ? ? ? (H1 & H2 & H3 & H4). split; [split; [eapply gd_default; eauto|auto]|auto]. Qed.
Lemma class_no_default k p : vs k p (with_default false (parse_class_dclr E n h)) (fun _ a _ => decl_post k p a).
Proof. apply vs_with_default. eapply vs_weaken; [eapply class_dclr_v; exact HV|]. cbv beta. intros ? ? ? [H1 H2]. apply andb_prop in H2. destruct H2. split; [eapply gd_default; eauto|auto]. Qed.
#[local] Hint Resolve hoistable_no_default function_no_default class_no_default : vs.
Lemma declaration_v k p : vs k p (parse_declaration E n h) (fun _ a _ => decl_post k p a).
Proof. vgo parse_declaration; try assumption. split; assumption. Qed.

(** ** Statements *)
Lemma block_v k p : vs k p (parse_block_stmt E n h) (fun _ a _ => gd k p (T_Node a) /\ is_block a = true).
Proof.
  vgo parse_block_stmt. match goal with H : list_post _ _ _ _ _ _ _ |- _ => destruct H as (B1 & B2 & B3) end.
  split; [vgd; auto|reflexivity].
Qed.
Lemma empty_v k p : vs k p (parse_empty_stmt E) (stmt_post k p).
Proof. vgo parse_empty_stmt. split; [vgd; exact I|reflexivity]. Qed.
Lemma expression_stmt_v e k p : gd k p (T_Node e) -> is_expr e = true -> vs k p (parse_expression_stmt E e) (fun _ a _ => gd k p (T_Node a) /\ exists sp, a = ExpressionStatement e sp).
Proof. intros He Hx. vgo parse_expression_stmt. split; [vgd; auto|eauto]. Qed.
#[local] Hint Resolve block_v empty_v expression_stmt_v : vs.
Ltac sdest := repeat match goal with H : ValidExpr.statement_post _ _ _ _ _ _ _ |- _ => destruct H end.
Lemma if_v k p : vs k p (parse_if_stmt E n h) (stmt_post k p).
Proof. vgo parse_if_stmt; sdest; (split; [vgd; cbn; auto|reflexivity]). Qed.
Lemma iteration_body_v k p : vs k p (iteration_body h) (fun _ a _ => gd (ctx_in_iteration true k) p (T_Node a) /\ is_plain_statement a = true).
Proof.
  vgo iteration_body. eexists. split; [|eassumption].
  match goal with H : At _ (ctx_in_iteration _ _) _ _ _ |- At _ k _ _ _ => replace k with (ctx_in_iteration (in_iteration k) (ctx_in_iteration true k)) by (destruct k; reflexivity); exact H end.
Qed.
#[local] Hint Resolve iteration_body_v : vs.
Definition init_ok (k : pctx) (p : params) (o : option node) : Prop :=
  match o with Some x => gd k p (T_Node x) /\ (is_expr x = true \/ is_declaration_list x = true) | None => True end.
Lemma for_classic_v i k p : init_ok k p i -> vs k p (parse_for_classic_stmt E n h i) (stmt_post k p).
Proof.
  intros Hi. vgo parse_for_classic_stmt; (split; [|reflexivity]); destruct i; cbn in Hi; vdest; vgd; cbn; auto.
Qed.
Definition left_ok (k : pctx) (p : params) (l : node) : Prop := forall c, at_ctx L LB c k p -> v_bind c = false -> valid c (T_Node l) /\ for_left (v_strict c) l.
Lemma for_in_v l k p : left_ok k p l -> vs k p (parse_for_in_stmt E n h l) (stmt_post k p).
Proof.
  intros Hi. vgo parse_for_in_stmt. split; [|reflexivity]. intros c Hc. apply valid_mk.
  - split; [spans|]. cbn. split; [|auto].
    match goal with |- for_left _ l => apply (Hi (plain c)) end; [|reflexivity]. destruct Hc; constructor; auto.
  - cbn [children]. apply FC_app; [apply FC_one; apply Hi; [mv|reflexivity]|fc].
Qed.
Lemma for_of_v l k p : left_ok k p l -> vs k p (parse_for_of_stmt E n h l) (stmt_post k p).
Proof.
  intros Hi. vgo parse_for_of_stmt. split; [|reflexivity]. intros c Hc. apply valid_mk.
  - split; [spans|]. cbn. split; [|auto].
    match goal with |- for_left _ l => apply (Hi (plain c)) end; [|reflexivity]. destruct Hc; constructor; auto.
  - cbn [children]. apply FC_app; [apply FC_one; apply Hi; [mv|reflexivity]|fc].
Qed.
#[local] Hint Resolve for_classic_v for_in_v for_of_v : vs.
Lemma variable_dclr_in k p : vs k p (with_in true (parse_variable_dclr E n h)) (fun _ d _ => gd k p (T_Decl d)).
Proof. apply vs_with_in. eapply vs_weaken; [apply variable_dclr_v|]. cbv beta. intros. eapply gd_in; eauto. Qed.
Lemma for_declarations_v kind id i k p : In kind ["var"; "let"; "const"]%string -> gd k p (T_Bind id) ->
  opt_all (fun e => gd k p (T_Node e) /\ is_expr e = true) i -> (i = None -> is_B_Id id = true) ->
  vs k p (for_declarations E n h kind id i) (stmt_post k p).
Proof.
  intros Hk Hid Hi Hn.
  pose proof (@vs_while L LB _ _ k p _ (fun x => gd k p (T_Decl x)) (@comma_then_v E L LB _ _ k p _ (@variable_dclr_in k p)) ltac:(cbv beta; intros t a t' [t0 ?]; auto) n Comma) as Hl.
  unfold for_declarations. intros s st t HA. do 4 vstep. eapply wp_conseq; [eapply use_vs; [eassumption|eapply for_classic_v]|cbv beta; intros ? ? (? & ? & ?); eauto].
  cbn [init_ok]. split; [|right; reflexivity]. apply decl_node; auto. split; [|discriminate]. constructor; auto.
  destruct i; cbn in Hi; vdest; vgd; cbn; try (split; [assumption|discriminate]); auto.
Qed.
Lemma bind_left k p b : gd k p (T_Bind b) -> forall l, binding_to_node b = COk l -> left_ok k p l.
Proof.
  intros H l Hl c Hc Hb. pose proof (H c Hc) as V. destruct b; cbn in Hl; try discriminate Hl; injection Hl as <-; (split; [|left; reflexivity]).
  - apply valid_mk; [|apply FC_nil]. eapply local_1; [reflexivity|eapply valid_span; [exact V|cbn; auto]|exact I].
  - apply valid_mk.
    + eapply local_1; [reflexivity|eapply valid_span; [exact V|cbn; auto]|]. split; [reflexivity|exact (valid_other V)].
    + cbn [children]. apply FC_opts. match type of V with valid _ (T_Bind (B_Array ?es ?sp)) => pose proof (@opts_valid c (T_Bind (B_Array es sp)) Sub _ T_APat es eq_refl V) as F end. unfold down in F. cbn in F. rewrite (plain_sub _ Hb) in F. exact F.
  - apply valid_mk.
    + eapply local_1; [reflexivity|eapply valid_span; [exact V|cbn; auto]|]. split; [reflexivity|exact (valid_other V)].
    + cbn [children]. apply FC_on.
      match type of V with valid _ (T_Bind (B_Object ?ps ?sp)) => pose proof (@on_valid c (T_Bind (B_Object ps sp)) Sub _ T_OPat ps (fun x Hx => @in_on Sub _ T_OPat ps x Hx) V) as F end.
      unfold down in F. cbn in F. rewrite (plain_sub _ Hb) in F. exact F.
Qed.
Lemma bind_left_v k p b : gd k p (T_Bind b) -> vs k p (lift_c (binding_to_node b)) (fun _ l _ => left_ok k p l).
Proof.
  intros H s st t HA. unfold wp, lift_c. destruct (binding_to_node b) eqn:Hb; cbn; [|destruct b; discriminate Hb|exact I].
  exists t. split; [assumption|]. eapply bind_left; eauto.
Qed.
#[local] Hint Resolve bind_left_v : vs.
Ltac vthen lem := eapply wp_conseq; [eapply use_vs; [eassumption|eapply lem]|cbv beta; intros ? ? (? & ? & ?); eexists; split; eassumption].
Lemma for_var_v k p : vs k p (for_var E n h) (stmt_post k p).
Proof.
  vgo for_var.
  all: try assumption.
  all: vthen for_declarations_v; cbn; auto; try discriminate.
Qed.
Lemma for_lexical_v k p : vs k p (for_lexical E n h) (stmt_post k p).
Proof.
  unfold for_lexical. intros s st t HA. do 4 vstep. apply wp_bind. eapply wp_conseq with (P := fun kind s' => At s' k p st t /\ In kind ["var"; "let"; "const"]%string).
  { vwalk; split; auto; cbn; auto. }
  cbv beta. intros kind s1 [HA1 Hk]. vwalk.
  all: try assumption.
  all: vthen for_declarations_v; cbn; auto; try discriminate.
Qed.
#[local] Hint Resolve for_var_v for_lexical_v : vs.
Lemma for_target_v e k p : gd k p (T_Node e) -> is_expr e = true -> vs k p (for_target E e) (fun _ l _ => left_ok k p l).
Proof.
  intros He Hx s st t HA. unfold for_target. apply wp_bind.
  eapply wp_conseq with (P := fun y s' => At s' k p st t /\ forall c, at_ctx L LB c k p -> v_bind c = false -> valid c (T_Node y) /\ expr_or_pattern y).
  { assert (wp XV (ret e) (fun y s' => At s' k p st t /\ forall c, at_ctx L LB c k p -> v_bind c = false -> valid c (T_Node y) /\ expr_or_pattern y) s).
    { apply wp_ret. split; [assumption|]. intros c Hc _. split; [apply He; assumption|left; assumption]. }
    assert (wp XV (lift_c (to_assignment_pattern E e)) (fun y s' => At s' k p st t /\ forall c, at_ctx L LB c k p -> v_bind c = false -> valid c (T_Node y) /\ expr_or_pattern y) s).
    { eapply (@v_conv L LB k p _ (to_assignment_pattern E e) (fun c y => valid c (T_Node y) /\ expr_or_pattern y)); [eassumption|].
      intros c Hc Hb. apply to_assignment_pattern_ok; auto. }
    destruct e; assumption. }
  cbv beta. intros y s1 [HA1 Hy]. vwalk.
  match goal with H : not_assignable _ = false |- _ => apply assignable_simple in H; rename H into Hs end.
  intros c Hc Hb. destruct (Hy c Hc Hb) as [V1 V2]. split; [assumption|]. right. apply valid_assign_target; auto.
Qed.
#[local] Hint Resolve for_target_v : vs.
Lemma for_expression_v k p : vs k p (for_expression E n h) (stmt_post k p).
Proof.
  pose proof (@vs_while L LB _ _ k p _ (fun x => gd k p (T_Node x) /\ is_expr x = true) (@comma_then_v E L LB _ _ k p _ (@assign_in_b true k p)) ltac:(cbv beta; intros t a t' [t0 [? ? ? ?]]; auto) n Comma) as Hl.
  unfold for_expression. intros s st t HA. do 4 vstep. vstep.
  { eapply wp_conseq; [eapply use_vs; [eassumption|eapply for_classic_v; exact I]|cbv beta; intros ? ? (? & ? & ?); eauto]. }
  vwalk; try assumption.
  eapply wp_conseq; [eapply use_vs; [eassumption|eapply for_classic_v]|cbv beta; intros ? ? (? & ? & ?); eauto].
  cbn [init_ok]. split; [|left; reflexivity].
  match goal with H : Forall _ ?l |- gd _ _ (T_Node (SequenceExpression (?e :: ?l) _ _)) => rename H into HF;
    assert (Forall (fun x => gd k p (T_Node x)) (e :: l)) by (constructor; [assumption|eapply Forall_impl; [|exact HF]; cbv beta; intros ? [? _]; assumption]);
    assert (Forall (fun x => is_expr x = true) (e :: l)) by (constructor; [assumption|eapply Forall_impl; [|exact HF]; cbv beta; intros ? [_ ?]; assumption]) end.
  vgd. split; [assumption|discriminate].
Qed.
#[local] Hint Resolve for_expression_v : vs.
Lemma for_v k p : vs k p (parse_for_stmt E n h) (stmt_post k p).
Proof. vgo parse_for_stmt; assumption. Qed.
Lemma while_v k p : vs k p (parse_while_stmt E n h) (stmt_post k p).
Proof. vgo parse_while_stmt; (split; [vgd; cbn; auto|reflexivity]). Qed.
Lemma do_while_v k p : vs k p (parse_do_while_stmt E n h) (stmt_post k p).
Proof. vgo parse_do_while_stmt; (split; [vgd; cbn; auto|reflexivity]). Qed.
#[local] Hint Resolve for_v while_v do_while_v : vs.
Lemma iteration_v k p : vs k p (parse_iteration_stmt E n h) (stmt_post k p).
Proof. vgo parse_iteration_stmt; assumption. Qed.
#[local] Hint Resolve iteration_v if_v : vs.

(** Switch. *)
Definition items_post (k : pctx) (p : params) (l : list node) : Prop :=
  Forall (fun x => gd k p (T_Node x)) l /\ Forall (fun x => is_item x = true) l.
Lemma switch_consequent_v k p j : vs k p (switch_consequent h j) (fun _ l _ => items_post k p l).
Proof.
  induction j as [|j IH]; [intros s st t HA; exact I|]. cbn [switch_consequent]. intros s st t HA. vwalk.
  1-3: split; constructor.
  match goal with H : ValidExpr.item_post _ _ _ _ _ _ _ |- _ => destruct H as (? & ? & _) end.
  match goal with H : items_post _ _ _ |- _ => destruct H end. split; constructor; assumption.
Qed.
#[local] Hint Resolve switch_consequent_v : vs.
Lemma switch_test_v fd k p : vs k p (switch_test E n h fd) (fun _ r _ =>
  opt_all (fun e => gd k p (T_Node e) /\ is_expr e = true) (fst r) /\ (match fst r with None => fd = true /\ snd r = false | Some _ => snd r = fd end)).
Proof. vgo switch_test; cbn; auto. apply andb_prop in Heqb0. tauto. Qed.
#[local] Hint Resolve switch_test_v : vs.
Definition cases_post (k : pctx) (p : params) (fd : bool) (l : list switch_case) : Prop :=
  Forall (fun x => gd k p (T_Case x)) l /\ (length (filter is_default l) <= if fd then 1 else 0)%nat.
Lemma case_node k p o l : opt_all (fun e => gd k p (T_Node e) /\ is_expr e = true) o -> items_post k p l -> gd k p (T_Case (SwitchCase o l)).
Proof. intros Ho [H1 H2]. destruct o; cbn in Ho; vdest; vgd; cbn; auto. Qed.
Lemma switch_cases_v k p j : forall fd, vs k p (switch_cases E n h j fd) (fun _ l _ => cases_post k p fd l).
Proof.
  induction j as [|j IH]; intros fd; [intros s st t HA; exact I|]. cbn [switch_cases]. intros s st t HA.
  vstep. vstep. destruct a as [o fd']. cbn [fst snd] in *.
  match goal with H : match o with Some _ => _ | None => _ end |- _ => rename H into Hfd end.
  match goal with H : opt_all _ o |- _ => rename H into Ho end.
  vwalk.
  - split; [constructor; [apply case_node; assumption|constructor]|]. cbn. destruct o; cbn; [destruct fd; auto|]. destruct Hfd as [-> _]. auto.
  - match goal with H : cases_post _ _ _ _ |- _ => destruct H as [G1 G2] end.
    split; [constructor; [apply case_node; assumption|assumption]|]. cbn. destruct o; [subst fd'; exact G2|]. destruct Hfd as [-> ->]. cbn. apply le_n_S. exact G2.
Qed.
#[local] Hint Resolve switch_cases_v : vs.
Lemma switch_v k p : vs k p (parse_switch_stmt E n h) (stmt_post k p).
Proof.
  vgo parse_switch_stmt. eexists. split.
  { match goal with H : At _ (ctx_in_switch _ _) _ _ _ |- At _ k _ _ _ => replace k with (ctx_in_switch (in_switch k) (ctx_in_switch true k)) by (destruct k; reflexivity); exact H end. }
  match goal with H : cases_post _ _ _ _ |- _ => destruct H as [G1 G2] end.
  split; [|reflexivity]. vgd. split; [assumption|exact G2].
Qed.

(** Jumps. *)
Lemma jump_label_v k p : vs k p (jump_label E) (fun _ o _ => opt_all (fun e => gd k p (T_Node e) /\ is_identifier e = true) o).
Proof. vgo jump_label; cbn; auto. Qed.
#[local] Hint Resolve jump_label_v : vs.
Lemma continue_v k p : vs k p (parse_continue_stmt E) (stmt_post k p).
Proof.
  unfold parse_continue_stmt. intros s st t HA. do 6 vstep. destruct a0; cbn in *; vdest; vwalk; (split; [vgd; cbn; auto|reflexivity]).
  - split; [assumption|discriminate].
  - split; [exact I|]. intros _. apply (ac_iter Hc). destruct (in_iteration k); auto.
Qed.
Lemma break_v k p : vs k p (parse_break_stmt E) (stmt_post k p).
Proof.
  unfold parse_break_stmt. intros s st t HA. do 6 vstep. destruct a0; cbn in *; vdest; vwalk; (split; [vgd; cbn; auto|reflexivity]).
  - split; [assumption|discriminate].
  - split; [exact I|]. intros _. destruct (in_iteration k) eqn:Hi; [left; apply (ac_iter Hc); auto|right; apply (ac_switch Hc); destruct (in_switch k); auto].
Qed.
Lemma return_or_error_v k p : vs k p (return_or_error E n h) (stmt_post k p).
Proof.
  unfold return_or_error, parse_return_stmt. intros s st t HA. vwalk; (split; [vgd; cbn; auto|reflexivity]).
  all: split; [apply (ac_ret Hc); assumption|auto].
Qed.
#[local] Hint Resolve switch_v continue_v break_v return_or_error_v : vs.
Lemma with_v k p : vs k p (parse_with_stmt E n h) (stmt_post k p).
Proof.
  vgo parse_with_stmt. sdest. split; [|reflexivity]. vgd. split; [|auto].
  destruct (v_strict c) eqn:Hv; auto. rewrite (ac_strict Hc Hv) in Heqb. discriminate Heqb.
Qed.
Definition body_ok (k : pctx) (b : node) : Prop := is_plain_statement b = true \/ (strict k = false /\ is_plain_function b = true).
Lemma labelled_v i k p : span_ok (id_span i) -> vs k p (parse_labelled_stmt E n h i) (fun _ a _ => gd k p (T_Node a) /\ exists b sp, a = LabeledStatement i b sp).
Proof.
  intros Hi. unfold parse_labelled_stmt. intros s st t HA. do 6 vstep. apply wp_bind.
  eapply wp_conseq with (P := fun b s' => exists t', At s' k p st t' /\ gd k p (T_Node b) /\ body_ok k b).
  { vwalk; sdest; try match goal with H : decl_post _ _ _ |- _ => destruct H end; (split; [assumption|]); [right; split; assumption|left; assumption]. }
  cbv beta. intros b s1 (t1 & HA1 & Hb & Ho). vwalk. split; [|eauto].
  vgd. destruct Ho as [Ho|[Ho1 Ho2]]; [left; auto|right]. split; [|auto].
  destruct (v_strict c) eqn:Hv; auto. rewrite (ac_strict Hc Hv) in Ho1. discriminate Ho1.
Qed.
#[local] Hint Resolve with_v labelled_v : vs.
Definition both (k : pctx) (p : params) (t : token) (a : node) (t' : token) : Prop := statement_post k p t a t' /\ item_post k p t a t'.
Definition other_stmt (k : pctx) (p : params) (a : node) : Prop :=
  gd k p (T_Node a) /\ is_plain_statement a = true /\ match a with ExpressionStatement _ _ => False | _ => True end.
Lemma id_span_ok k p name a sp : gd k p (T_Node (Identifier name a sp)) -> span_ok sp.
Proof.
  intros H. pose proof (@valid_span _ _ sp (H _ (some_ctx_ok L LB k p)) (or_introl eq_refl)) as V. exact V.
Qed.
Lemma expression_or_labelled_v k p : vs k p (parse_expression_or_labelled_stmt E n h) (both k p).
Proof.
  assert (Hx : forall e t0 s st t, ER 0 k p t0 e -> At s k p st t -> wp XV (parse_expression_stmt E e) (fun a s' => exists t', At s' k p st t' /\ both k p t0 a t') s).
  { intros e t0 s st t [H1 H2 H3 H4] HA. eapply wp_conseq; [eapply expression_stmt_v; eassumption|]. cbv beta. intros a s' (t' & HA' & G & sp & ->).
    exists t'. split; [assumption|]. split; [split; [assumption|reflexivity]|]. split; [assumption|split; [reflexivity|assumption]]. }
  unfold parse_expression_or_labelled_stmt. intros s st t HA. do 2 vstep. apply wp_bind. eapply wp_conseq; [eapply expr_in_v; eassumption|].
  cbv beta. intros e s1 (t1 & HA1 & He). unfold ValidBase.er in He. do 2 vstep. 
  destruct e; try (eapply Hx; eassumption). vstep; [|eapply Hx; eassumption].
  eapply wp_conseq; [eapply labelled_v; [|eassumption]|].
  { cbn. eapply id_span_ok. exact (er_gd He). }
  cbv beta. intros x s2 (t2 & HA2 & G & b & sp' & ->). exists t2. split; [assumption|]. split; [split; [assumption|reflexivity]|]. split; [assumption|split; [reflexivity|exact I]].
Qed.
#[local] Hint Resolve expression_or_labelled_v : vs.
Lemma throw_v k p : vs k p (parse_throw_stmt E n h) (stmt_post k p).
Proof. vgo parse_throw_stmt; (split; [vgd; cbn; auto|reflexivity]). Qed.
Lemma catch_v k p : vs k p (parse_catch_clause E n h) (fun t o t' => opt_all (fun x => gd k p (T_Catch x)) o /\ (o = None -> tok_kw t' "finally" = true)).
Proof.
  vgo parse_catch_clause; cbn.
  1-2: split; [vgd; cbn; auto|discriminate].
  split; [exact I|auto].
Qed.
#[local] Hint Resolve throw_v catch_v : vs.
Lemma finally_v k p : vs k p (parse_finally_clause E n h) (fun t o _ => opt_all (fun e => gd k p (T_Node e) /\ is_block e = true) o /\ (tok_kw t "finally" = true -> o <> None)).
Proof.
  vgo parse_finally_clause; cbn.
  - split; [split; assumption|discriminate].
  - split; [exact I|congruence].
Qed.
#[local] Hint Resolve finally_v : vs.
Lemma try_v k p : vs k p (parse_try_stmt E n h) (stmt_post k p).
Proof.
  vgo parse_try_stmt. split; [|reflexivity].
  match goal with |- gd _ _ (T_Node (TryStatement _ ?x ?y _)) => destruct x; destruct y; cbn in *; vdest end.
  all: try (match goal with H : None = None -> _, H' : _ -> None <> None |- _ => destruct (H' (H eq_refl) eq_refl) end).
  all: vgd; cbn.
  all: split; [assumption|]; split; auto.
  all: first [left; discriminate|right; discriminate].
Qed.
Lemma debugger_v k p : vs k p (parse_debugger_stmt E) (stmt_post k p).
Proof. vgo parse_debugger_stmt; (split; [vgd; cbn; auto|reflexivity]). Qed.
#[local] Hint Resolve try_v debugger_v : vs.
Lemma stmt_statement k p t a t' : stmt_post k p t a t' -> statement_post k p t a t'.
Proof. intros [H1 H2]. apply andb_prop in H2. destruct H2. split; assumption. Qed.
Lemma stmt_item k p t a t' : stmt_post k p t a t' -> item_post k p t a t'.
Proof. intros [H1 H2]. apply andb_prop in H2. destruct H2 as [H2 H3]. split; [assumption|]. unfold is_item. rewrite H2. split; [reflexivity|]. destruct a; auto; discriminate H3. Qed.
Lemma decl_item k p t a t' : decl_post k p a -> item_post k p t a t'.
Proof. intros [H1 H2]. split; [assumption|]. unfold is_item. rewrite H2, orb_true_r. split; [reflexivity|]. destruct a; auto; discriminate H2. Qed.
Lemma both_item k p t a t' : both k p t a t' -> item_post k p t a t'.
Proof. intros [_ H]. exact H. Qed.
Lemma both_statement k p t a t' : both k p t a t' -> statement_post k p t a t'.
Proof. intros [H _]. exact H. Qed.
Lemma block_stmt k p t a t' : gd k p (T_Node a) -> is_block a = true -> stmt_post k p t a t'.
Proof. intros H1 H2. split; [assumption|]. destruct a; try discriminate H2; reflexivity. Qed.
Lemma var_stmt k p t a t' : gd k p (T_Node a) -> is_plain_statement a = true -> is_declaration a = true -> stmt_post k p t a t'.
Proof. intros H1 H2 H3. split; [assumption|]. rewrite H2. destruct a; try discriminate H3; reflexivity. Qed.
#[local] Hint Resolve stmt_statement stmt_item decl_item both_item both_statement : items.
Lemma async_stmt_v k p : vs k p (async_stmt E n h) (item_post k p).
Proof.
  unfold async_stmt. intros s st t HA. vwalk; eauto with items.
Qed.
#[local] Hint Resolve async_stmt_v : vs.
Ltac stmts := try match goal with H : is_block _ = true |- _ => pose proof (fun k p t t' G => @block_stmt k p t _ t' G H) end.
Lemma stmt_list_item_v k p : vs k p (parse_stmt_list_item E n h) (item_post k p).
Proof.
  vgo parse_stmt_list_item; eauto with items; try (apply stmt_item; first [apply block_stmt; assumption|apply var_stmt; assumption]).
  all: apply decl_item; split; assumption.
Qed.
Lemma statement_v k p : vs k p (parse_statement E n h) (statement_post k p).
Proof.
  vgo parse_statement; eauto with items; try (apply stmt_statement; first [apply block_stmt; assumption|apply var_stmt; assumption]).
Qed.
End Pass.
#[export] Hint Resolve variable_stmt_v declaration_v hoistable_v hoistable_no_default class_no_default stmt_list_item_v statement_v : vs.
