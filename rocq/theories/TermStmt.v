(** * TermStmt: termination pass over ParserStmt.v and Parser.v (proofs). *)
From Verif Require Import Base Codepoint Punct Token Scanner Ast Convert ParserBase ParserExpr ParserStmt Parser.
From Verif Require Import SpecLex SpecScan SpecParse Hoare ScanBase LexFacts ParserInv TermBase TermExpr.
From Coq Require Import ZifyBool ZifyN ZifyNat.
Set Implicit Arguments.

Section Pass.
Context (E : env) (L LB : N) (bnd n : nat) (h : handler).
Notation inv := (inv L LB).
Notation frame := (frame L LB).
Notation ts := (ts E L LB bnd).
Notation XT := (XT E).
Hypothesis Hbnd : (bnd < n)%nat.
Hypothesis HT : hT E L LB bnd h.
Let H1 := hT_bindpat HT. Let H2 := hT_lhs HT. Let H3 := hT_new HT. Let H4 := hT_unary HT.
Let H5 := hT_exp HT. Let H6 := hT_assign HT. Let H7 := hT_expression HT. Let H8 := hT_statement HT. Let H9 := hT_item HT.
#[local] Hint Resolve H1 H2 H3 H4 H5 H6 H7 H8 H9 : ts.
#[local] Hint Unfold with_in with_default : ts.

Lemma function_dclr_t a g : ts 0 1 (parse_function_dclr E n h a g) any.
Proof. go parse_function_dclr. Qed.
#[local] Hint Resolve function_dclr_t : ts.
Lemma hoistable_t : ts 0 1 (parse_hoistable_dclr E n h) any.
Proof. go parse_hoistable_dclr. Qed.
#[local] Hint Resolve hoistable_t : ts.
Lemma variable_dclr_t : ts 0 1 (parse_variable_dclr E n h) any.
Proof. go parse_variable_dclr. Qed.
#[local] Hint Resolve variable_dclr_t : ts.
Lemma variable_dclr_list_t : ts 0 1 (variable_dclr_list E n h) any.
Proof. go variable_dclr_list. Qed.
#[local] Hint Resolve variable_dclr_list_t : ts.
Lemma variable_stmt_t b : ts 0 1 (parse_variable_stmt E n h b) any.
Proof. go parse_variable_stmt. Qed.
#[local] Hint Resolve variable_stmt_t : ts.
Lemma lexical_dclr_t : ts 0 1 (parse_lexical_dclr E n h) any.
Proof. go parse_lexical_dclr. Qed.
#[local] Hint Resolve lexical_dclr_t : ts.
Lemma declaration_t : ts 0 1 (parse_declaration E n h) any.
Proof. go parse_declaration. Qed.
#[local] Hint Resolve declaration_t : ts.
Lemma block_t : ts 0 1 (parse_block_stmt E n h) any.
Proof. go parse_block_stmt. Qed.
Lemma empty_t : ts 0 1 (parse_empty_stmt E) any.
Proof. go parse_empty_stmt. Qed.
Lemma expression_stmt_t e : ts 0 0 (parse_expression_stmt E e) any.
Proof. go parse_expression_stmt. Qed.
#[local] Hint Resolve block_t empty_t expression_stmt_t : ts.
Lemma if_t : ts 0 1 (parse_if_stmt E n h) any.
Proof. go parse_if_stmt. Qed.
#[local] Hint Resolve if_t : ts.
Lemma iteration_body_t : ts 1 1 (iteration_body h) any.
Proof. go iteration_body. fin. ctxeq. Qed.
#[local] Hint Resolve iteration_body_t : ts.
Lemma for_classic_t i : ts 0 1 (parse_for_classic_stmt E n h i) any.
Proof. go parse_for_classic_stmt. Qed.
Lemma for_in_t e : ts 0 1 (parse_for_in_stmt E n h e) any.
Proof. go parse_for_in_stmt. Qed.
Lemma for_of_t e : ts 0 1 (parse_for_of_stmt E n h e) any.
Proof. go parse_for_of_stmt. Qed.
#[local] Hint Resolve for_classic_t for_in_t for_of_t : ts.
Lemma for_declarations_t k b i : ts 0 1 (for_declarations E n h k b i) any.
Proof. go for_declarations. Qed.
#[local] Hint Resolve for_declarations_t : ts.
Lemma lift_node_t b : noexpr b -> ts 0 0 (lift_c (binding_to_node b)) any.
Proof. intros Hb s ? ?. unfold wp. destruct b; cbn; fin. Qed.
#[local] Hint Resolve lift_node_t : ts.
Lemma for_var_t : ts 0 1 (for_var E n h) any.
Proof. go for_var. Qed.
Lemma for_lexical_t : ts 0 1 (for_lexical E n h) any.
Proof. go for_lexical. Qed.
#[local] Hint Resolve for_var_t for_lexical_t : ts.
Lemma for_target_t e : ts 0 0 (for_target E e) any.
Proof. go for_target. Qed.
#[local] Hint Resolve for_target_t : ts.
Lemma for_expression_t : ts 0 1 (for_expression E n h) any.
Proof. go for_expression. Qed.
#[local] Hint Resolve for_expression_t : ts.
Lemma for_t : ts 0 1 (parse_for_stmt E n h) any.
Proof. go parse_for_stmt. Qed.
Lemma while_t : ts 0 1 (parse_while_stmt E n h) any.
Proof. go parse_while_stmt. Qed.
Lemma do_while_t : ts 0 1 (parse_do_while_stmt E n h) any.
Proof. go parse_do_while_stmt. Qed.
#[local] Hint Resolve for_t while_t do_while_t : ts.
Lemma iteration_kw_cases t : is_iteration_kw t = true -> tok_kw t "for" = true \/ tok_kw t "while" = true \/ tok_kw t "do" = true.
Proof.
  unfold is_iteration_kw, tok_kw. destruct (ttype t); try discriminate. cbn [tt_eqb andb].
  intros H. apply Bool.orb_true_iff in H. destruct H as [H|H]; [apply Bool.orb_true_iff in H; destruct H|]; auto.
Qed.
Lemma iteration_t s : inv s -> (mu s + 0 <= bnd)%nat -> is_iteration_kw (cur s) = true ->
  wp XT (parse_iteration_stmt E n h) (fun a s' => frame s s' /\ (mu s' + 1 <= mu s)%nat /\ any a) s.
Proof.
  intros ? ? Hk. unfold parse_iteration_stmt. walk. exfalso. apply iteration_kw_cases in Hk.
  destruct Hk as [Hk|[Hk|Hk]]; congruence.
Qed.
Lemma switch_consequent_k k : forall s, inv s -> (mu s + 1 <= bnd)%nat -> (mu s < k)%nat ->
  wp XT (switch_consequent h k) (fun _ s' => frame s s' /\ (mu s' <= mu s)%nat) s.
Proof.
  induction k as [|k IH]; intros s Hi Hm Hk; [lia|]. cbn [switch_consequent]. do 3 tstep; [walk|].
  tstep; [walk|]. tstep; [walk|]. do 3 tstep. use_spec ltac:(apply IH; [eassumption|mlia|mlia]). walk.
Qed.
Lemma switch_test_t b : ts 0 1 (switch_test E n h b) any.
Proof. go switch_test. Qed.
#[local] Hint Resolve switch_test_t : ts.
Lemma switch_cases_k k : forall b s, inv s -> (mu s <= bnd)%nat -> (mu s < k)%nat ->
  wp XT (switch_cases E n h k b) (fun _ s' => frame s s' /\ (mu s' <= mu s)%nat) s.
Proof.
  induction k as [|k IH]; intros b s Hi Hm Hk; [lia|]. cbn [switch_cases]. do 6 tstep.
  use_spec ltac:(eapply switch_consequent_k; [eassumption|mlia|mlia]). do 3 tstep; [walk|].
  tstep. use_spec ltac:(apply IH; [eassumption|mlia|mlia]). walk.
Qed.
Lemma switch_cases_t : ts 0 0 (switch_cases E n h n true) any.
Proof. intros s ? ?. use_spec ltac:(apply switch_cases_k; [eassumption|mlia|mlia]). fin. Qed.
#[local] Hint Resolve switch_cases_t : ts.
Lemma switch_t : ts 0 1 (parse_switch_stmt E n h) any.
Proof. go parse_switch_stmt. fin. ctxeq. Qed.
Lemma jump_label_t : ts 0 0 (jump_label E) any.
Proof. go jump_label. Qed.
#[local] Hint Resolve switch_t jump_label_t : ts.
Lemma continue_t : ts 0 1 (parse_continue_stmt E) any.
Proof. go parse_continue_stmt. Qed.
Lemma break_t : ts 0 1 (parse_break_stmt E) any.
Proof. go parse_break_stmt. Qed.
Lemma return_t : ts 0 1 (parse_return_stmt E n h) any.
Proof. go parse_return_stmt. Qed.
#[local] Hint Resolve continue_t break_t return_t : ts.
Lemma return_or_error_t : ts 0 1 (return_or_error E n h) any.
Proof. go return_or_error. Qed.
Lemma with_t : ts 0 1 (parse_with_stmt E n h) any.
Proof. go parse_with_stmt. Qed.
Lemma labelled_t i : ts 0 1 (parse_labelled_stmt E n h i) any.
Proof. go parse_labelled_stmt. Qed.
#[local] Hint Resolve return_or_error_t with_t labelled_t : ts.
Lemma expression_or_labelled_t : ts 0 1 (parse_expression_or_labelled_stmt E n h) any.
Proof. go parse_expression_or_labelled_stmt. Qed.
Lemma throw_t : ts 0 1 (parse_throw_stmt E n h) any.
Proof. go parse_throw_stmt. Qed.
Lemma catch_t : ts 0 0 (parse_catch_clause E n h) any.
Proof. go parse_catch_clause. Qed.
Lemma finally_t : ts 0 0 (parse_finally_clause E n h) any.
Proof. go parse_finally_clause. Qed.
#[local] Hint Resolve expression_or_labelled_t throw_t catch_t finally_t : ts.
Lemma try_t : ts 0 1 (parse_try_stmt E n h) any.
Proof. go parse_try_stmt. Qed.
Lemma debugger_t : ts 0 1 (parse_debugger_stmt E) any.
Proof. go parse_debugger_stmt. Qed.
Lemma async_stmt_t : ts 0 1 (async_stmt E n h) any.
Proof. go async_stmt. Qed.
#[local] Hint Resolve try_t debugger_t async_stmt_t : ts.
Lemma item_t : ts 0 1 (parse_stmt_list_item E n h) any.
Proof.
  unfold parse_stmt_list_item. intros s ? ?. repeat lazymatch goal with |- wp _ (parse_iteration_stmt _ _ _) _ _ => idtac | _ => tstep end; try solve [fin].
  apply Bool.andb_true_iff in Heqb3. apply iteration_t; tauto.
Qed.
Lemma statement_t : ts 0 1 (parse_statement E n h) any.
Proof.
  unfold parse_statement. intros s ? ?. repeat lazymatch goal with |- wp _ (parse_iteration_stmt _ _ _) _ _ => idtac | _ => tstep end; try solve [fin].
  apply Bool.andb_true_iff in Heqb3. apply iteration_t; tauto.
Qed.
#[local] Hint Resolve item_t statement_t : ts.

End Pass.
#[export] Hint Resolve function_dclr_t hoistable_t variable_dclr_t variable_dclr_list_t variable_stmt_t lexical_dclr_t declaration_t block_t empty_t expression_stmt_t if_t iteration_body_t for_classic_t for_in_t for_of_t for_declarations_t lift_node_t for_var_t for_lexical_t for_target_t for_expression_t for_t while_t do_while_t switch_test_t switch_cases_t switch_t jump_label_t continue_t break_t return_t return_or_error_t with_t labelled_t expression_or_labelled_t throw_t catch_t finally_t try_t debugger_t async_stmt_t item_t statement_t : ts.
