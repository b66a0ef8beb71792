(** * BlameStmt: the errors of the functions of ParserStmt.v and the tokens they refer
    to; spans begin at tokens (proofs for C50, C51). *)
From Verif Require Import Base Codepoint Punct Token Scanner Ast Convert ParserBase ParserExpr ParserStmt.
From Verif Require Import SpecLex SpecScan SpecTree SpecSpell SpecBlame Hoare LexFacts ParserInv SpellBase SpellStmt Rel BlameBase BlameConv BlameExpr.
Set Implicit Arguments.

Ltac eblame := unfold error_tok, err_at; apply wp_fail; apply blame; [eapply T_known; eassumption|cbn [explains]].
Definition inside (p : pos) : Prop := exists u l, before p = u :: l.
Lemma inside_ext p q : inside p -> ext p q -> inside q.
Proof. intros H [->|[us K]]; [exact H|]. unfold inside. rewrite K. destruct us; cbn; eauto. Qed.
Lemma inside_step p q : step p q -> inside q.
Proof. intros H. unfold step in H. unfold inside. eauto. Qed.

Section Pass.
Context (E : env) (src : str) (first : token) (L LB : N) (n : nat) (h : handler).
Notation es := (es E src first L LB).
Notation T := (T E src first L LB).
Notation sp_ok := (sp_ok E src).
Notation gn x := (r_node sp_ok eq x x).
Notation gb x := (r_bind sp_ok eq x x).
Hypothesis HS : hEs E src first L LB h.
#[local] Hint Resolve he_lhs he_new he_unary he_exp he_climb he_assign he_expression he_statement he_item HS : es.
Let bindpat_h := he_bindpat HS.
#[local] Hint Resolve bindpat_h binding_id_node_e params_and_body_e bindpat_e assignment_e expression_e statement_list_e class_dclr_e id_reference_e : es.

Lemma e_sure A (m : cres A) (G : A -> Prop) s p : crok (fun _ => False) G m -> T s p -> wp (XB E src) (lift_c m) (fun a s' => G a /\ T s' p) s.
Proof. intros H HT. unfold wp, lift_c. destruct m; cbn in *; auto. destruct H. Qed.
Lemma e_maybe_start (b : bool) s p : T s p -> wp (XB E src) (if b then ret tt else start_span) (fun _ s' => T s' p) s.
Proof. intros H. destruct b; [apply wp_ret; exact H|apply e_start; exact H]. Qed.
Lemma function_dclr_e async gen : es (parse_function_dclr E n h async gen) (fun _ a _ => gn a).
Proof.
  intros s p H. unfold parse_function_dclr. estep. estep. estep; [ewalk|]. estep. euse ltac:(eapply e_maybe_start; exact H).
  do 6 estep; [estep|]; ewalk.
  - apply tok_punc_eq. assumption.
  - split; [apply tok_punc_eq; assumption|]. eapply last_step; [eassumption|]. right. apply tok_punc_eq. assumption.
  - split; [apply tok_punc_eq; assumption|]. eapply last_eats; [eassumption|]. intros K. left. exact K.
Qed.
#[local] Hint Resolve function_dclr_e : es.
Lemma hoistable_e : es (parse_hoistable_dclr E n h) (fun _ a _ => gn a).
Proof. ego parse_hoistable_dclr. Qed.
Lemma variable_dclr_e : es (parse_variable_dclr E n h) (fun _ a _ => r_decl sp_ok eq a a).
Proof.
  ego parse_variable_dclr; try contradiction; eblame; left;
    match goal with K : bracketed _ _ _ |- _ => destruct K as (_ & u & l & K1 & K2) end; eapply last_before; eassumption.
Qed.
#[local] Hint Resolve hoistable_e variable_dclr_e : es.
Lemma dclr_list_e : es (variable_dclr_list E n h) (fun _ l _ => Forall (fun x => r_decl sp_ok eq x x) l).
Proof. pose proof (comma_then_e (fun x => r_decl sp_ok eq x x) variable_dclr_e) as HL. ego variable_dclr_list. Qed.
#[local] Hint Resolve dclr_list_e : es.
Lemma variable_stmt_e b : es (parse_variable_stmt E n h b) (fun _ a _ => gn a).
Proof. ego parse_variable_stmt. Qed.
Lemma lexical_dclr_e : es (parse_lexical_dclr E n h) (fun _ a _ => gn a).
Proof. ego parse_lexical_dclr. Qed.
#[local] Hint Resolve variable_stmt_e lexical_dclr_e : es.
Lemma declaration_e : es (parse_declaration E n h) (fun _ a _ => gn a).
Proof. ego parse_declaration. Qed.
Lemma block_e : es (parse_block_stmt E n h) (fun _ a _ => gn a).
Proof. ego parse_block_stmt. Qed.
Lemma empty_e : es (parse_empty_stmt E) (fun _ a _ => gn a).
Proof. ego parse_empty_stmt. Qed.
Lemma expression_stmt_e e : gn e -> es (parse_expression_stmt E e) (fun _ a _ => gn a).
Proof. intros He. ego parse_expression_stmt. Qed.
Lemma if_e : es (parse_if_stmt E n h) (fun _ a _ => gn a).
Proof. ego parse_if_stmt. Qed.
Lemma iteration_body_e : es (iteration_body h) (fun _ a _ => gn a).
Proof. ego iteration_body. Qed.
#[local] Hint Resolve declaration_e block_e empty_e expression_stmt_e if_e iteration_body_e : es.

(** ** Loops *)
Lemma for_classic_e i : orel (r_node sp_ok eq) i i -> es (parse_for_classic_stmt E n h i) (fun _ a _ => gn a).
Proof. intros Hi. ego parse_for_classic_stmt. Qed.
Lemma for_in_e l : gn l -> es (parse_for_in_stmt E n h l) (fun _ a _ => gn a).
Proof. intros Hl. ego parse_for_in_stmt. Qed.
Lemma for_of_e l : gn l -> es (parse_for_of_stmt E n h l) (fun _ a _ => gn a).
Proof. intros Hl. ego parse_for_of_stmt. Qed.
#[local] Hint Extern 3 (es (parse_for_classic_stmt _ _ _ _) _) => apply for_classic_e; egood : es.
#[local] Hint Resolve for_in_e for_of_e : es.
Lemma for_declarations_e kind b i : gb b -> orel (r_node sp_ok eq) i i -> es (for_declarations E n h kind b i) (fun _ a _ => gn a).
Proof.
  intros Hb Hi. pose proof (comma_then_e (fun x => r_decl sp_ok eq x x) (es_with_prm (set_in true) variable_dclr_e)) as HL.
  unfold for_declarations, with_in. intros s p H. ewalk.
Qed.
#[local] Hint Extern 3 (es (for_declarations _ _ _ _ _ _) _) => apply for_declarations_e; egood : es.
Lemma bind_node_ok b : gb b -> crok (fun _ => False) (fun x => gn x) (binding_to_node b).
Proof. intros H. inversion H; subst; cbn; egood. Qed.
Ltac enode := match goal with |- wp _ (bind (lift_c (binding_to_node _)) _) _ _ => apply wp_bind; euse ltac:(eapply e_sure; [apply bind_node_ok; eassumption|eassumption]) end.
Lemma for_var_e : es (for_var E n h) (fun _ a _ => gn a).
Proof.
  unfold for_var. intros s p H. do 8 estep. estep; [ewalk|]. rewrite no_of by (eapply Fa_wf, t_fa; eassumption). estep; [enode; ewalk|].
  ewalk; try contradiction; left;
    match goal with K : bracketed _ _ _ |- _ => destruct K as (_ & u & l & K1 & K2) end; eapply last_before; eassumption.
Qed.
Lemma kind_e t : es (if tok_kw t "const" then ret "const"%string else if tok_id t "let" then ret "let"%string else unexpected_current E)
  (fun p k q => p = q /\ either (is_k "const") (is_w "let") t).
Proof.
  intros s p H. destruct (tok_kw t "const") eqn:K; [|destruct (tok_id t "let") eqn:K']; ewalk; (split; [reflexivity|]).
  - left. apply tok_kw_eq. exact K.
  - right. apply tok_id_eq. exact K'.
Qed.
Lemma for_lexical_e : es (for_lexical E n h) (fun _ a _ => gn a).
Proof.
  unfold for_lexical. intros s p H. do 5 estep. euse ltac:(eapply use_es; [eassumption|apply kind_e]). do 8 estep.
  estep; [ewalk|]. estep; [enode; ewalk|]. estep; [enode; ewalk|].
  ewalk; try contradiction; eblame; right; (match goal with K : bracketed _ _ _ |- _ => destruct K as (K0 & _) end; split; [exact K0|]);
    (eapply last_step; [eassumption|assumption]).
Qed.
Lemma for_target_e e s p : T s p -> inside p -> is_k "in" (next p) -> gn e -> wp (XB E src) (ParserStmt.for_target E e) (fun a s' => T s' p /\ gn a) s.
Proof.
  intros H (u & l & Hu) Hk He. unfold ParserStmt.for_target. estep.
  assert (G : wp (XB E src) (match e with ObjectExpression _ _ _ | ArrayExpression _ _ _ => lift_c (to_assignment_pattern E e) | _ => ret e end)
     (fun a s' => gn a /\ T s' p) s).
  { assert (G0 : wp (XB E src) (ret e) (fun a s' => gn a /\ T s' p) s) by (apply wp_ret; auto).
    assert (G1 : wp (XB E src) (lift_c (to_assignment_pattern E e)) (fun a s' => gn a /\ T s' p) s).
    { eapply e_conv; [apply to_assignment_pattern_ok; exact He| |exact H]. rewrite Hu. cbn [rev]. exists (rev l), u, (next p). rewrite <- app_assoc. auto. }
    destruct e; assumption. }
  euse ltac:(exact G). estep; [|estep; auto]. do 2 estep. eblame. exact Hk.
Qed.
Lemma for_expression_e s p : T s p -> inside p -> wp (XB E src) (for_expression E n h) (fun a s' => exists q, T s' q /\ ext p q /\ gn a) s.
Proof.
  intros H Hi. pose proof (comma_then_e (fun x => gn x) (es_with_prm (set_in true) (@assignment_e E src first L LB n h HS))) as HL.
  unfold for_expression, with_in. do 4 estep. estep; [ewalk|]. do 4 estep. estep.
  - assert (Hi' : inside x) by (eapply inside_ext; eassumption). assert (Hk : is_k "in" (next x)) by (apply tok_kw_eq; assumption).
    do 3 estep. euse ltac:(eapply for_target_e; [eassumption|exact Hi'|exact Hk|eassumption]). ewalk.
  - rewrite no_of by (eapply Fa_wf, t_fa; eassumption). ewalk.
Qed.
#[local] Hint Resolve for_var_e for_lexical_e : es.
Lemma for_e : es (parse_for_stmt E n h) (fun _ a _ => gn a).
Proof.
  unfold parse_for_stmt. intros s p H. do 8 estep. estep; [ewalk|]. estep; [ewalk|].
  euse ltac:(eapply for_expression_e; [eassumption|]). { eapply inside_step. eapply eats_step. eassumption. } ewalk.
Qed.
Lemma while_e : es (parse_while_stmt E n h) (fun _ a _ => gn a).
Proof. ego parse_while_stmt. Qed.
Lemma do_e : es (parse_do_while_stmt E n h) (fun _ a _ => gn a).
Proof. ego parse_do_while_stmt. Qed.
#[local] Hint Resolve for_e while_e do_e : es.
Lemma iteration_e : es (parse_iteration_stmt E n h) (fun _ a _ => gn a).
Proof. ego parse_iteration_stmt. Qed.

(** ** Switch, jumps *)
Lemma consequent_e k : es (switch_consequent h k) (fun _ l _ => Forall (fun x => gn x) l).
Proof. induction k as [|k IH]; intros s p H; [exact I|]. cbn [switch_consequent]. ewalk. Qed.
#[local] Hint Resolve consequent_e : es.
Lemma switch_test_e b : es (switch_test E n h b) (fun _ r _ => orel (r_node sp_ok eq) (fst r) (fst r)).
Proof. ego switch_test. apply tok_kw_eq. assumption. Qed.
#[local] Hint Resolve switch_test_e : es.
Lemma switch_cases_e k : forall b, es (switch_cases E n h k b) (fun _ l _ => Forall (fun x => r_case sp_ok eq x x) l).
Proof. induction k as [|k IH]; intros b s p H; [exact I|]. cbn [switch_cases]. ewalk. Qed.
#[local] Hint Resolve switch_cases_e : es.
Lemma switch_e : es (parse_switch_stmt E n h) (fun _ a _ => gn a).
Proof. ego parse_switch_stmt. Qed.
Lemma jump_label_e : es (jump_label E) (fun p l q => orel (r_node sp_ok eq) l l /\ (l = None -> q = p)).
Proof.
  ego jump_label.
  split; [egood|discriminate].
Qed.
#[local] Hint Resolve jump_label_e : es.
Ltac ejump := match goal with K : negb (is_some ?l) && _ = true, K' : ?l = None -> _ |- _ => destruct l; [discriminate K|]; rewrite (K' eq_refl) end;
  eapply last_eats; [eassumption|auto].
Lemma continue_e : es (parse_continue_stmt E) (fun _ a _ => gn a).
Proof. ego parse_continue_stmt. ejump. Qed.
Lemma break_e : es (parse_break_stmt E) (fun _ a _ => gn a).
Proof. ego parse_break_stmt. ejump. Qed.
Lemma return_e : es (parse_return_stmt E n h) (fun _ a _ => gn a).
Proof. ego parse_return_stmt. Qed.
#[local] Hint Resolve iteration_e switch_e continue_e break_e return_e : es.
Lemma return_or_error_e s p : T s p -> is_k "return" (next p) -> wp (XB E src) (return_or_error E n h) (fun a s' => exists q, T s' q /\ ext p q /\ gn a) s.
Proof. intros H Hk. unfold return_or_error. ewalk. eblame. exact Hk. Qed.
Lemma with_e s p : T s p -> is_k "with" (next p) -> wp (XB E src) (parse_with_stmt E n h) (fun a s' => exists q, T s' q /\ ext p q /\ gn a) s.
Proof. intros H Hk. unfold parse_with_stmt. ewalk. Qed.
Lemma labelled_e l : r_id sp_ok l l -> es (parse_labelled_stmt E n h l) (fun _ a _ => gn a).
Proof. intros Hl. ego parse_labelled_stmt. apply tok_kw_eq. assumption. Qed.
#[local] Hint Extern 3 (es (parse_labelled_stmt _ _ _ _) _) => apply labelled_e; egood : es.
Lemma expression_or_labelled_e : es (parse_expression_or_labelled_stmt E n h) (fun _ a _ => gn a).
Proof.
  unfold parse_expression_or_labelled_stmt. intros s p H. do 7 estep.
  assert (G : wp (XB E src) (parse_expression_stmt E a0) (fun a s' => exists q, T s' q /\ ext p q /\ gn a) s'0) by ewalk.
  destruct a0; try exact G. estep; [|exact G]. match goal with K : r_node _ _ (Identifier _ _ _) _ |- _ => inversion K; subst end. ewalk.
Qed.
Lemma throw_e : es (parse_throw_stmt E n h) (fun _ a _ => gn a).
Proof.
  ego parse_throw_stmt.
  match goal with K : negb (broken ?q) = false, K' : eats _ _ ?q |- _ => apply negb_false_iff in K; apply broken_later in K; destruct K' as [K1 K2]; unfold step in K1 end.
  match goal with K : later_line ?q |- _ => unfold later_line in K; rewrite K1 in K; eapply last_before; [exact K1|]; split; [exact K2|exact K] end.
Qed.
Lemma catch_e : es (parse_catch_clause E n h) (fun _ c _ => orel (r_catch sp_ok eq) c c).
Proof. ego parse_catch_clause. Qed.
Lemma finally_e : es (parse_finally_clause E n h) (fun _ c _ => orel (r_node sp_ok eq) c c).
Proof. ego parse_finally_clause. Qed.
#[local] Hint Resolve expression_or_labelled_e throw_e catch_e finally_e : es.
Lemma try_e : es (parse_try_stmt E n h) (fun _ a _ => gn a).
Proof. ego parse_try_stmt. Qed.
Lemma debugger_e : es (parse_debugger_stmt E) (fun _ a _ => gn a).
Proof. ego parse_debugger_stmt. Qed.
Lemma async_stmt_e s p : T s p -> is_w "async" (next p) -> wp (XB E src) (async_stmt E n h) (fun a s' => exists q, T s' q /\ ext p q /\ gn a) s.
Proof. intros H Hk. unfold async_stmt. do 5 estep. euse ltac:(eapply e_look; [eassumption|left; exact Hk]). ewalk. Qed.
#[local] Hint Resolve try_e debugger_e : es.
Ltac edone := euse ltac:(first [ eapply return_or_error_e; [eassumption|apply tok_kw_eq; assumption] | eapply with_e; [eassumption|apply tok_kw_eq; assumption]
  | eapply async_stmt_e; [eassumption|apply tok_id_eq; assumption] ]); eexists; split; [eassumption|split; [eext|assumption]].
Lemma item_e : es (parse_stmt_list_item E n h) (fun _ a _ => gn a).
Proof. unfold parse_stmt_list_item. intros s p H. do 2 estep. repeat (estep; [first [edone|ewalk; fail]|]). ewalk. Qed.
Lemma statement_e : es (parse_statement E n h) (fun _ a _ => gn a).
Proof. unfold parse_statement. intros s p H. do 2 estep. repeat (estep; [first [edone|ewalk; fail]|]). ewalk. Qed.
End Pass.
