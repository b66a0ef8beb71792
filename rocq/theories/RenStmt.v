(** * RenStmt: statements and declarations run in lock step (proofs,
    C60; cf. SimStmt). *)
From Verif Require Import Base Codepoint Punct Token Scanner Ast Convert ParserBase ParserExpr ParserStmt Parser SpecRename Rel SimBase RenRel RenBase RenConv RenTac RenExpr.
Set Implicit Arguments.

Section Stmt.
Context (E : env) (rho : str -> str) (sl : bool) (RM : marker -> marker -> Prop) (n : nat) (h : handler).
Hypothesis RM_line : line_rel RM.
Hypothesis keeps : keeps_special rho E.
Hypothesis Hh : sim_h E rho sl RM h.
Let H0 I g := @sim_advance E rho sl RM RM_line I g.
Let H0' I := @sim_look E rho sl RM I.
Let H1 := sh_bindpat Hh. Let H2 := sh_lhs Hh. Let H3 := sh_new Hh. Let H4 := sh_unary Hh. Let H5 := sh_exp Hh.
Let H5' := sh_climb Hh. Let H6 := sh_assign Hh. Let H7 := sh_expression Hh. Let H8 := sh_statement Hh. Let H9 := sh_item Hh.
#[local] Hint Resolve H0 H0' H1 H2 H3 H4 H5 H5' H6 H7 H8 H9 : rsim.

Lemma s_parse_function_dclr : forall (I : Type) x1 x2, sim E rho sl RM (r_node rho (RS RM) (RA sl)) (parse_function_dclr E n h x1 x2) (fun i : I => parse_function_dclr E n h x1 x2).
Proof. intros. unfold parse_function_dclr. sims. Qed.
#[local] Hint Resolve s_parse_function_dclr : rsim.
Lemma s_parse_hoistable_dclr : forall (I : Type), sim E rho sl RM (r_node rho (RS RM) (RA sl)) (parse_hoistable_dclr E n h) (fun i : I => parse_hoistable_dclr E n h).
Proof. intros. unfold parse_hoistable_dclr. sims. Qed.
#[local] Hint Resolve s_parse_hoistable_dclr : rsim.
Lemma s_parse_variable_dclr : forall (I : Type), sim E rho sl RM (r_decl rho (RS RM) (RA sl)) (parse_variable_dclr E n h) (fun i : I => parse_variable_dclr E n h).
Proof. intros. unfold parse_variable_dclr. sims. Qed.
#[local] Hint Resolve s_parse_variable_dclr : rsim.
Lemma s_variable_dclr_list : forall (I : Type), sim E rho sl RM (Forall2 (r_decl rho (RS RM) (RA sl))) (variable_dclr_list E n h) (fun i : I => variable_dclr_list E n h).
Proof. intros. unfold variable_dclr_list. sims. Qed.
#[local] Hint Resolve s_variable_dclr_list : rsim.
Lemma s_parse_variable_stmt : forall (I : Type) x1, sim E rho sl RM (r_node rho (RS RM) (RA sl)) (parse_variable_stmt E n h x1) (fun i : I => parse_variable_stmt E n h x1).
Proof. intros. unfold parse_variable_stmt. sims. Qed.
#[local] Hint Resolve s_parse_variable_stmt : rsim.
Lemma s_parse_lexical_dclr : forall (I : Type), sim E rho sl RM (r_node rho (RS RM) (RA sl)) (parse_lexical_dclr E n h) (fun i : I => parse_lexical_dclr E n h).
Proof. intros. unfold parse_lexical_dclr. sims. Qed.
#[local] Hint Resolve s_parse_lexical_dclr : rsim.
Lemma s_parse_declaration : forall (I : Type), sim E rho sl RM (r_node rho (RS RM) (RA sl)) (parse_declaration E n h) (fun i : I => parse_declaration E n h).
Proof. intros. unfold parse_declaration. sims. Qed.
#[local] Hint Resolve s_parse_declaration : rsim.
Lemma s_parse_block_stmt : forall (I : Type), sim E rho sl RM (r_node rho (RS RM) (RA sl)) (parse_block_stmt E n h) (fun i : I => parse_block_stmt E n h).
Proof. intros. unfold parse_block_stmt. sims. Qed.
#[local] Hint Resolve s_parse_block_stmt : rsim.
Lemma s_parse_empty_stmt : forall (I : Type), sim E rho sl RM (r_node rho (RS RM) (RA sl)) (parse_empty_stmt E) (fun i : I => parse_empty_stmt E).
Proof. intros. unfold parse_empty_stmt. sims. Qed.
#[local] Hint Resolve s_parse_empty_stmt : rsim.
Lemma s_parse_expression_stmt : forall (I : Type) x1 (x1' : I -> node), (forall i, r_node rho (RS RM) (RA sl) x1 (x1' i)) -> sim E rho sl RM (r_node rho (RS RM) (RA sl)) (parse_expression_stmt E x1) (fun i : I => parse_expression_stmt E (x1' i)).
Proof. intros. unfold parse_expression_stmt. sims. Qed.
#[local] Hint Resolve s_parse_expression_stmt : rsim.
Lemma s_parse_if_stmt : forall (I : Type), sim E rho sl RM (r_node rho (RS RM) (RA sl)) (parse_if_stmt E n h) (fun i : I => parse_if_stmt E n h).
Proof. intros. unfold parse_if_stmt. sims. Qed.
#[local] Hint Resolve s_parse_if_stmt : rsim.
Lemma s_iteration_body : forall (I : Type), sim E rho sl RM (r_node rho (RS RM) (RA sl)) (iteration_body h) (fun i : I => iteration_body h).
Proof. intros. unfold iteration_body. sims. Qed.
#[local] Hint Resolve s_iteration_body : rsim.
Lemma s_parse_for_classic_stmt : forall (I : Type) x1 (x1' : I -> option node), (forall i, orel (r_node rho (RS RM) (RA sl)) x1 (x1' i)) -> sim E rho sl RM (r_node rho (RS RM) (RA sl)) (parse_for_classic_stmt E n h x1) (fun i : I => parse_for_classic_stmt E n h (x1' i)).
Proof. intros. unfold parse_for_classic_stmt. sims. Qed.
#[local] Hint Resolve s_parse_for_classic_stmt : rsim.
Lemma s_parse_for_in_stmt : forall (I : Type) x1 (x1' : I -> node), (forall i, r_node rho (RS RM) (RA sl) x1 (x1' i)) -> sim E rho sl RM (r_node rho (RS RM) (RA sl)) (parse_for_in_stmt E n h x1) (fun i : I => parse_for_in_stmt E n h (x1' i)).
Proof. intros. unfold parse_for_in_stmt. sims. Qed.
#[local] Hint Resolve s_parse_for_in_stmt : rsim.
Lemma s_parse_for_of_stmt : forall (I : Type) x1 (x1' : I -> node), (forall i, r_node rho (RS RM) (RA sl) x1 (x1' i)) -> sim E rho sl RM (r_node rho (RS RM) (RA sl)) (parse_for_of_stmt E n h x1) (fun i : I => parse_for_of_stmt E n h (x1' i)).
Proof. intros. unfold parse_for_of_stmt. sims. Qed.
#[local] Hint Resolve s_parse_for_of_stmt : rsim.
Lemma s_for_declarations : forall (I : Type) x1 x2 (x2' : I -> binding) x3 (x3' : I -> option node), (forall i, r_bind rho (RS RM) (RA sl) x2 (x2' i)) -> (forall i, orel (r_node rho (RS RM) (RA sl)) x3 (x3' i)) -> sim E rho sl RM (r_node rho (RS RM) (RA sl)) (for_declarations E n h x1 x2 x3) (fun i : I => for_declarations E n h x1 (x2' i) (x3' i)).
Proof.
  intros. unfold for_declarations. sims. eapply s_comma_then; [eassumption|eassumption|]. intros. sims.
Qed.
#[local] Hint Resolve s_for_declarations : rsim.
Lemma s_for_var : forall (I : Type), sim E rho sl RM (r_node rho (RS RM) (RA sl)) (for_var E n h) (fun i : I => for_var E n h).
Proof. intros. unfold for_var. sims. Qed.
#[local] Hint Resolve s_for_var : rsim.
Lemma s_for_lexical : forall (I : Type), sim E rho sl RM (r_node rho (RS RM) (RA sl)) (for_lexical E n h) (fun i : I => for_lexical E n h).
Proof. intros. unfold for_lexical. sims. Qed.
#[local] Hint Resolve s_for_lexical : rsim.
Lemma s_for_target : forall (I : Type) x1 (x1' : I -> node), (forall i, r_node rho (RS RM) (RA sl) x1 (x1' i)) -> sim E rho sl RM (r_node rho (RS RM) (RA sl)) (for_target E x1) (fun i : I => for_target E (x1' i)).
Proof.
  intros I x1 x1' H. unfold for_target. sstep; [|sims].
  apply sim_ext with (m'' := fun i => match x1 with ObjectExpression _ _ _ | ArrayExpression _ _ _ => lift_c (to_assignment_pattern E (x1' i)) | _ => ret (x1' i) end).
  { intros i. specialize (H i). destruct H; reflexivity. }
  destruct x1; sims.
Qed.
#[local] Hint Resolve s_for_target : rsim.
Lemma s_for_expression : forall (I : Type), sim E rho sl RM (r_node rho (RS RM) (RA sl)) (for_expression E n h) (fun i : I => for_expression E n h).
Proof.
  intros. unfold for_expression. sims. eapply s_comma_then; [eassumption|eassumption|]. intros. sims.
Qed.
#[local] Hint Resolve s_for_expression : rsim.
Lemma s_parse_for_stmt : forall (I : Type), sim E rho sl RM (r_node rho (RS RM) (RA sl)) (parse_for_stmt E n h) (fun i : I => parse_for_stmt E n h).
Proof. intros. unfold parse_for_stmt. sims. Qed.
#[local] Hint Resolve s_parse_for_stmt : rsim.
Lemma s_parse_while_stmt : forall (I : Type), sim E rho sl RM (r_node rho (RS RM) (RA sl)) (parse_while_stmt E n h) (fun i : I => parse_while_stmt E n h).
Proof. intros. unfold parse_while_stmt. sims. Qed.
#[local] Hint Resolve s_parse_while_stmt : rsim.
Lemma s_parse_do_while_stmt : forall (I : Type), sim E rho sl RM (r_node rho (RS RM) (RA sl)) (parse_do_while_stmt E n h) (fun i : I => parse_do_while_stmt E n h).
Proof. intros. unfold parse_do_while_stmt. sims. Qed.
#[local] Hint Resolve s_parse_do_while_stmt : rsim.
Lemma s_parse_iteration_stmt : forall (I : Type), sim E rho sl RM (r_node rho (RS RM) (RA sl)) (parse_iteration_stmt E n h) (fun i : I => parse_iteration_stmt E n h).
Proof. intros. unfold parse_iteration_stmt. sims. Qed.
#[local] Hint Resolve s_parse_iteration_stmt : rsim.
Lemma s_switch_consequent : forall k  (I : Type), sim E rho sl RM (Forall2 (r_node rho (RS RM) (RA sl))) (switch_consequent h k) (fun i : I => switch_consequent h k).
Proof. induction k as [|k IH]; intros; [apply sim_fuel|]. cbn [switch_consequent]. sims. Qed.
#[local] Hint Resolve s_switch_consequent : rsim.
Lemma s_switch_test : forall (I : Type) x1, sim E rho sl RM (prel (orel (r_node rho (RS RM) (RA sl))) (@eq bool)) (switch_test E n h x1) (fun i : I => switch_test E n h x1).
Proof. intros. unfold switch_test. sims. Qed.
#[local] Hint Resolve s_switch_test : rsim.
Lemma s_switch_cases : forall k  (I : Type) x1, sim E rho sl RM (Forall2 (r_case rho (RS RM) (RA sl))) (switch_cases E n h k x1) (fun i : I => switch_cases E n h k x1).
Proof. induction k as [|k IH]; intros; [apply sim_fuel|]. cbn [switch_cases]. sims. Qed.
#[local] Hint Resolve s_switch_cases : rsim.
Lemma s_parse_switch_stmt : forall (I : Type), sim E rho sl RM (r_node rho (RS RM) (RA sl)) (parse_switch_stmt E n h) (fun i : I => parse_switch_stmt E n h).
Proof. intros. unfold parse_switch_stmt. sims. Qed.
#[local] Hint Resolve s_parse_switch_stmt : rsim.
Lemma s_jump_label : forall (I : Type), sim E rho sl RM (orel (r_node rho (RS RM) (RA sl))) (jump_label E) (fun i : I => jump_label E).
Proof. intros. unfold jump_label. sims. Qed.
#[local] Hint Resolve s_jump_label : rsim.
Lemma orel_some A B (R : A -> B -> Prop) o o' : orel R o o' -> is_some o' = is_some o.
Proof. intros []; reflexivity. Qed.
Lemma s_parse_continue_stmt : forall (I : Type), sim E rho sl RM (r_node rho (RS RM) (RA sl)) (parse_continue_stmt E) (fun i : I => parse_continue_stmt E).
Proof.
  intros. unfold parse_continue_stmt. do 4 (sstep; [sims|]).
  eapply sim_if; [intros; erewrite orel_some by rel; reflexivity|intros _|intros _]; sims.
Qed.
#[local] Hint Resolve s_parse_continue_stmt : rsim.
Lemma s_parse_break_stmt : forall (I : Type), sim E rho sl RM (r_node rho (RS RM) (RA sl)) (parse_break_stmt E) (fun i : I => parse_break_stmt E).
Proof.
  intros. unfold parse_break_stmt. do 4 (sstep; [sims|]).
  eapply sim_if; [intros; erewrite orel_some by rel; reflexivity|intros _|intros _]; sims.
Qed.
#[local] Hint Resolve s_parse_break_stmt : rsim.
Lemma s_parse_return_stmt : forall (I : Type), sim E rho sl RM (r_node rho (RS RM) (RA sl)) (parse_return_stmt E n h) (fun i : I => parse_return_stmt E n h).
Proof. intros. unfold parse_return_stmt. sims. Qed.
#[local] Hint Resolve s_parse_return_stmt : rsim.
Lemma s_return_or_error : forall (I : Type), sim E rho sl RM (r_node rho (RS RM) (RA sl)) (return_or_error E n h) (fun i : I => return_or_error E n h).
Proof. intros. unfold return_or_error. sims. Qed.
#[local] Hint Resolve s_return_or_error : rsim.
Lemma RB_false a b : RB sl a b -> a = false -> b = false.
Proof. intros [->|(_ & X & _)] Y; congruence. Qed.
Lemma RB_eq a b : sl = false -> RB sl a b -> b = a.
Proof. intros K [->|(X & _)]; congruence. Qed.
Lemma s_parse_with_stmt : forall (I : Type), sim E rho sl RM (r_node rho (RS RM) (RA sl)) (parse_with_stmt E n h) (fun i : I => parse_with_stmt E n h).
Proof.
  intros. unfold parse_with_stmt. sstep; [sims|]. eapply sim_if_nok; [intros j X; eapply RB_false; [|exact X]; rel|intros K j; eapply (RB_eq K); rel|apply nok_error_current| |]; sims.
Qed.
#[local] Hint Resolve s_parse_with_stmt : rsim.
Lemma s_parse_labelled_stmt : forall (I : Type) x1 (x1' : I -> identifier), (forall i, r_id rho (RS RM) x1 (x1' i)) -> sim E rho sl RM (r_node rho (RS RM) (RA sl)) (parse_labelled_stmt E n h x1) (fun i : I => parse_labelled_stmt E n h (x1' i)).
Proof.
  intros. unfold parse_labelled_stmt. do 3 (sstep; [sims|]). sstep; [|sims].
  sstep; [|sims]. eapply sim_if_nok; [intros j X; eapply RB_false; [|exact X]; rel|intros K j; eapply (RB_eq K); rel|apply nok_error_current| |]; sims.
Qed.
#[local] Hint Resolve s_parse_labelled_stmt : rsim.
Lemma s_parse_expression_or_labelled_stmt : forall (I : Type), sim E rho sl RM (r_node rho (RS RM) (RA sl)) (parse_expression_or_labelled_stmt E n h) (fun i : I => parse_expression_or_labelled_stmt E n h).
Proof. intros. unfold parse_expression_or_labelled_stmt. sims. Qed.
#[local] Hint Resolve s_parse_expression_or_labelled_stmt : rsim.
Lemma s_parse_throw_stmt : forall (I : Type), sim E rho sl RM (r_node rho (RS RM) (RA sl)) (parse_throw_stmt E n h) (fun i : I => parse_throw_stmt E n h).
Proof. intros. unfold parse_throw_stmt. sims. Qed.
#[local] Hint Resolve s_parse_throw_stmt : rsim.
Lemma s_parse_catch_clause : forall (I : Type), sim E rho sl RM (orel (r_catch rho (RS RM) (RA sl))) (parse_catch_clause E n h) (fun i : I => parse_catch_clause E n h).
Proof. intros. unfold parse_catch_clause. sims. Qed.
#[local] Hint Resolve s_parse_catch_clause : rsim.
Lemma s_parse_finally_clause : forall (I : Type), sim E rho sl RM (orel (r_node rho (RS RM) (RA sl))) (parse_finally_clause E n h) (fun i : I => parse_finally_clause E n h).
Proof. intros. unfold parse_finally_clause. sims. Qed.
#[local] Hint Resolve s_parse_finally_clause : rsim.
Lemma s_parse_try_stmt : forall (I : Type), sim E rho sl RM (r_node rho (RS RM) (RA sl)) (parse_try_stmt E n h) (fun i : I => parse_try_stmt E n h).
Proof. intros. unfold parse_try_stmt. sims. Qed.
#[local] Hint Resolve s_parse_try_stmt : rsim.
Lemma s_parse_debugger_stmt : forall (I : Type), sim E rho sl RM (r_node rho (RS RM) (RA sl)) (parse_debugger_stmt E) (fun i : I => parse_debugger_stmt E).
Proof. intros. unfold parse_debugger_stmt. sims. Qed.
#[local] Hint Resolve s_parse_debugger_stmt : rsim.
Lemma s_async_stmt : forall (I : Type), sim E rho sl RM (r_node rho (RS RM) (RA sl)) (async_stmt E n h) (fun i : I => async_stmt E n h).
Proof.
  intros. unfold async_stmt. do 3 (sstep; [sims|]).
  eapply sim_if; [|intros _|intros _]; [|sims..].
  intros j. ren_rw. f_equal. exact (line_eqb RM_line _ _ _ _ (H (i1 j)) (H10 j)).
Qed.
#[local] Hint Resolve s_async_stmt : rsim.
Lemma s_parse_stmt_list_item : forall (I : Type), sim E rho sl RM (r_node rho (RS RM) (RA sl)) (parse_stmt_list_item E n h) (fun i : I => parse_stmt_list_item E n h).
Proof. intros. unfold parse_stmt_list_item. sims. Qed.
#[local] Hint Resolve s_parse_stmt_list_item : rsim.
Lemma s_parse_statement : forall (I : Type), sim E rho sl RM (r_node rho (RS RM) (RA sl)) (parse_statement E n h) (fun i : I => parse_statement E n h).
Proof. intros. unfold parse_statement. sims. Qed.
#[local] Hint Resolve s_parse_statement : rsim.

End Stmt.
#[export] Hint Resolve s_parse_function_dclr s_parse_hoistable_dclr s_parse_variable_dclr s_variable_dclr_list s_parse_variable_stmt s_parse_lexical_dclr s_parse_declaration s_parse_block_stmt s_parse_empty_stmt s_parse_expression_stmt s_parse_if_stmt s_iteration_body s_parse_for_classic_stmt s_parse_for_in_stmt s_parse_for_of_stmt s_for_declarations s_for_var s_for_lexical s_for_target s_for_expression s_parse_for_stmt s_parse_while_stmt s_parse_do_while_stmt s_parse_iteration_stmt s_switch_consequent s_switch_test s_switch_cases s_parse_switch_stmt s_jump_label s_parse_continue_stmt s_parse_break_stmt s_parse_return_stmt s_return_or_error s_parse_with_stmt s_parse_labelled_stmt s_parse_expression_or_labelled_stmt s_parse_throw_stmt s_parse_catch_clause s_parse_finally_clause s_parse_try_stmt s_parse_debugger_stmt s_async_stmt s_parse_stmt_list_item s_parse_statement : rsim.
