(** * SpellStmt: what the functions of ParserStmt.v read is spelled by what they
    return (proofs). *)
From Verif Require Import Base Codepoint Punct Token Scanner Ast Convert ParserBase ParserExpr ParserStmt.
From Verif Require Import SpecLex SpecScan SpecTree SpecSpell Hoare LexFacts ParserInv SpellBase SpellConv SpellExpr.
Set Implicit Arguments.

Lemma no_kw t k : token_wf t -> (forall w, In w reserved_words -> s2l k <> s2l w) -> tok_kw t k = false.
Proof.
  intros W N. destruct (tok_kw t k) eqn:H; auto. apply kw_reserved in H; auto. destruct H as (w & Hw & He). destruct (N w Hw He).
Qed.
Lemma no_of t : token_wf t -> tok_kw t "of" = false.
Proof. intros W. apply no_kw; auto. intros w Hw. cbn in Hw. repeat (destruct Hw as [<-|Hw]; [discriminate|]). contradiction. Qed.
Lemma no_from t : token_wf t -> tok_kw t "from" = false.
Proof. intros W. apply no_kw; auto. intros w Hw. cbn in Hw. repeat (destruct Hw as [<-|Hw]; [discriminate|]). contradiction. Qed.

Section Pass.
Context (E : env) (At : span -> pos -> pos -> Prop) (src : str) (first : token) (L LB : N) (n : nat) (h : handler).
Hypothesis HAt : tell At.
Notation fsx := (fsx E src first L LB).
#[local] Hint Resolve HAt : fs fsx.
Notation fs := (fs E src first L LB).
Notation Fa := (Fa E src first L LB).
Notation spells := (spells E At).
Notation spn := (fun x => spells (T_Node x)).
Hypothesis HS : hSp E At src first L LB h.
#[local] Hint Resolve hs_bindpat hs_lhs hs_new hs_unary hs_exp hs_assign hs_expression hs_statement hs_item HS : fs.
#[local] Hint Resolve binding_id_node_f params_and_body_f bindpat_f assignment_f expression_f statement_list_f class_dclr_f : fs.
#[local] Hint Resolve id_reference_n : fsx.

Lemma function_dclr_f async gen : fs (parse_function_dclr E n h async gen) (fun p a q => is_declared a = true /\ forall p0, flag async (is_w "async") p0 p -> spn a p0 q).
Proof.
  intros s p H. unfold parse_function_dclr. fstep. fstep. fstep; [fwalk|]. fstep. fuse ltac:(eapply f_maybe_start; exact H).
  fwalk; (split; [reflexivity|]); intros p' K; cbn [fst snd] in *; (eapply S_function_declaration; [eassumption|eassumption|cbn; eauto with sp|try (constructor; eassumption)|eassumption]); constructor.
Qed.
#[local] Hint Resolve function_dclr_f : fs.
Lemma hoistable_f : fs (parse_hoistable_dclr E n h) (fun p a q => is_declared a = true /\ spn a p q).
Proof.
  fgo parse_hoistable_dclr; (split; [assumption|]); match goal with H : forall p0, flag _ _ p0 _ -> _ |- _ => apply H end; cbn; eauto with sp.
Qed.
Lemma variable_dclr_f : fs (parse_variable_dclr E n h) (fun p a q => spells (T_Decl a) p q).
Proof.
  fgo parse_variable_dclr.
  - eapply S_declarator_init; eauto with sp.
  - eapply S_declarator; eassumption.
Qed.
#[local] Hint Resolve hoistable_f variable_dclr_f : fs.
Lemma while_commas A (m : PM A) (R : A -> pos -> pos -> Prop) : fs m (fun p a q => R a p q) ->
  fs (parse_while_punc n Comma (comma_then E m)) (fun p l q => forall x p0, R x p0 p -> commas1 R (x :: l) p0 q).
Proof.
  intros Hm. eapply fs_weaken; [apply fs_while; apply comma_then_f; exact Hm|]. cbv beta. intros p l q [H _] x p0 K.
  eapply many_commas1; [exact K|]. eapply many_impl; [|exact H]. cbv beta. tauto.
Qed.
Lemma dclr_list_f : fs (variable_dclr_list E n h) (fun p l q => commas1 (fun x => spells (T_Decl x)) l p q).
Proof.
  pose proof (@while_commas _ _ (fun x => spells (T_Decl x)) variable_dclr_f) as HL. fgo variable_dclr_list. auto.
Qed.
#[local] Hint Resolve dclr_list_f : fs.
Lemma variable_stmt_f : fs (parse_variable_stmt E n h true) (fun p a q => spn a p q).
Proof. fgo parse_variable_stmt. eapply S_declaration; [|eassumption]. econstructor; [|eassumption].
  match goal with H : eats _ _ _ |- _ => destruct H as [K1 K2]; split; [exact K1|left; auto] end.
Qed.
Lemma lexical_dclr_f : fs (parse_lexical_dclr E n h) (fun p a q => spn a p q).
Proof.
  fgo parse_lexical_dclr; (eapply S_declaration; [|eassumption]; econstructor; [|eassumption]);
  match goal with H : eats _ _ _ |- _ => destruct H as [K1 K2]; split; [exact K1|unfold is_kind; auto 6] end.
Qed.
#[local] Hint Resolve variable_stmt_f lexical_dclr_f : fs.
Lemma declaration_f : fs (parse_declaration E n h) (fun p a q => spn a p q).
Proof. fgo parse_declaration; assumption. Qed.
Lemma block_f : fs (parse_block_stmt E n h) (fun p a q => spn a p q).
Proof. fgo parse_block_stmt. constructor. econstructor; eassumption. Qed.
Lemma empty_f : fs (parse_empty_stmt E) (fun p a q => spn a p q).
Proof. fgo parse_empty_stmt. constructor; [assumption|fat HAt]. Qed.
Lemma expression_stmt_f e : fs (parse_expression_stmt E e) (fun p a q => forall p0, spn e p0 p -> spn a p0 q).
Proof. fgo parse_expression_stmt. intros p0 K. eapply S_expression; eassumption. Qed.
Lemma if_f : fs (parse_if_stmt E n h) (fun p a q => spn a p q).
Proof.
  fgo parse_if_stmt.
  - eapply S_if_else; [eassumption|econstructor; eassumption|eassumption|econstructor; eauto with sp].
  - eapply S_if; [eassumption|econstructor; eassumption|eassumption|]. intros K. apply tok_kw_eq in K. congruence.
Qed.
Lemma iteration_body_f : fs (iteration_body h) (fun p a q => spn a p q).
Proof. fgo iteration_body. assumption. Qed.
#[local] Hint Resolve declaration_f block_f empty_f expression_stmt_f if_f iteration_body_f : fs.

Lemma for_classic_f i : fs (parse_for_classic_stmt E n h i) (fun p a q => forall p0 p1 p2,
  eats (is_k "for") p0 p1 -> eats (is_p LParen) p1 p2 -> for_init spells i p2 p -> spn a p0 q).
Proof.
  fgo parse_for_classic_stmt; intros p0' p1' p2' K1 K2 K3; (eapply S_for; [eassumption| |eassumption]; econstructor; [eassumption| |eassumption]);
  do 4 eexists; (split; [eassumption|]); (split; [eassumption|]); (split; [constructor; eassumption + constructor|]); (split; [eassumption|]); constructor; assumption.
Qed.
Lemma for_in_f l : fs (parse_for_in_stmt E n h l) (fun p a q => forall p0 p1 p2 d,
  eats (is_k "for") p0 p1 -> eats (is_p LParen) p1 p2 -> for_target spells d l p2 p -> spn a p0 q).
Proof.
  fgo parse_for_in_stmt. intros p0' p1' p2' d K1 K2 K3. eapply S_for_in; [eassumption| |eassumption]. econstructor; [eassumption| |eassumption].
  do 2 eexists. split; [eassumption|]. split; eassumption.
Qed.
Lemma for_of_f l : fs (parse_for_of_stmt E n h l) (fun p a q => forall p0 p1 p2,
  eats (is_k "for") p0 p1 -> eats (is_p LParen) p1 p2 -> for_target spells true l p2 p -> spn a p0 q).
Proof.
  fgo parse_for_of_stmt. intros p0' p1' p2' K1 K2 K3. eapply S_for_of; [eassumption| |eassumption]. econstructor; [eassumption| |eassumption].
  do 2 eexists. split; [eassumption|]. split; eassumption.
Qed.
#[local] Hint Resolve for_classic_f for_in_f for_of_f : fs.
Lemma for_declarations_f kind b i : fs (for_declarations E n h kind b i) (fun p a q => forall p0 p1 p2 p3,
  eats (is_k "for") p0 p1 -> eats (is_p LParen) p1 p2 -> eats (is_kind kind) p2 p3 -> spells (T_Decl (VarDeclarator b i)) p3 p -> spn a p0 q).
Proof.
  pose proof (@while_commas _ _ (fun x => spells (T_Decl x)) (@fs_with_prm E src first L LB _ (set_in true) _ _ variable_dclr_f)) as HL. 
  unfold for_declarations, with_in. intros s p H. fwalk. intros p0' p1' p2' p3' K1 K2 K3 K4. 
  match goal with H : forall p0 p1 p2, eats _ p0 p1 -> _ |- _ => eapply H; [eassumption|eassumption|] end.
  apply fi_decl. econstructor; [eassumption|]. auto.
Qed.
#[local] Hint Resolve for_declarations_f : fs.
Lemma bind_node b l p q : binding_to_node b = COk l -> spells (T_Bind b) p q -> spells (T_Node l) p q.
Proof. intros H K. destruct b; try discriminate H; injection H as <-; inversion K; subst; constructor; assumption. Qed.
Lemma for_var_f : fs (for_var E n h) (fun p a q => forall p0 p1, eats (is_k "for") p0 p1 -> eats (is_p LParen) p1 p -> tok_kw (next p) "var" = true -> spn a p0 q).
Proof.
  unfold for_var. intros s p H. do 8 fstep. fstep.
  - fwalk. intros. match goal with H : forall p0 p1 p2 p3, eats _ p0 p1 -> _ |- _ => eapply H; [eassumption|eassumption| |] end.
    + split; [eassumption|]. left. split; auto. apply tok_kw_eq. assumption.
    + eapply S_declarator_init; eauto with sp.
  - rewrite no_of by (eapply Fa_wf; eassumption). fwalk; intros.
    + match goal with H : forall p0 p1 p2 d, eats _ p0 p1 -> _ |- _ => eapply H; [eassumption|eassumption|] end.
      eapply ft_decl; [reflexivity| |eapply bind_node; eassumption]. split; [eassumption|]. left. split; auto. apply tok_kw_eq. assumption.
    + match goal with H : forall p0 p1 p2 p3, eats _ p0 p1 -> _ |- _ => eapply H; [eassumption|eassumption| |] end.
      * split; [eassumption|]. left. split; auto. apply tok_kw_eq. assumption.
      * eapply S_declarator. assumption.
Qed.

Lemma kind_tok t kind : (if tok_kw t "const" then Some "const"%string else if tok_id t "let" then Some "let"%string else None) = Some kind -> is_kind kind t.
Proof.
  destruct (tok_kw t "const") eqn:H1; [intros [= <-]; right; left; split; auto; apply tok_kw_eq; exact H1|].
  destruct (tok_id t "let") eqn:H2; [intros [= <-]; right; right; split; auto; apply tok_id_eq; exact H2|discriminate].
Qed.
Lemma kind_f t : fs (if tok_kw t "const" then ret "const"%string else if tok_id t "let" then ret "let"%string else unexpected_current E)
  (fun p k q => p = q /\ is_kind k t).
Proof.
  intros s p H. pose proof (kind_tok t) as K. destruct (tok_kw t "const"); [|destruct (tok_id t "let")]; fwalk; (split; [reflexivity|apply K; reflexivity]).
Qed.
#[local] Hint Resolve kind_f : fs.
Lemma for_lexical_f : fs (for_lexical E n h) (fun p a q => forall p0 p1, eats (is_k "for") p0 p1 -> eats (is_p LParen) p1 p -> spn a p0 q).
Proof.
  unfold for_lexical. intros s p H. do 4 fstep. fstep. fuse ltac:(eapply use_fs; [eassumption|apply kind_f]). do 8 fstep. fstep.
  - fwalk. intros. match goal with H : forall p0 p1 p2 p3, eats _ p0 p1 -> _ |- _ => eapply H; [eassumption|eassumption| |] end.
    + split; eassumption.
    + eapply S_declarator_init; eauto with sp.
  - fwalk; intros.
    + match goal with H : forall p0 p1 p2 d, eats _ p0 p1 -> _ |- _ => eapply H; [eassumption|eassumption|] end.
      eapply ft_decl; [reflexivity| |eapply bind_node; eassumption]. split; eassumption.
    + match goal with H : forall p0 p1 p2, eats _ p0 p1 -> _ |- _ => eapply H; [eassumption|eassumption|] end.
      eapply ft_decl; [reflexivity| |eapply bind_node; eassumption]. split; eassumption.
    + match goal with H : forall p0 p1 p2 p3, eats _ p0 p1 -> _ |- _ => eapply H; [eassumption|eassumption| |] end.
      * split; eassumption.
      * eapply S_declarator. assumption.
Qed.

Lemma for_target_f e : fs (ParserStmt.for_target E e) (fun p a q => p = q /\ forall p0 q0, spn e p0 q0 -> spn a p0 q0).
Proof.
  unfold ParserStmt.for_target. intros s p H. fstep.
  assert (G : wp xAny (match e with ObjectExpression _ _ _ | ArrayExpression _ _ _ => lift_c (to_assignment_pattern E e) | _ => ret e end)
     (fun a s' => Fa s' p /\ forall p0 q0, spn e p0 q0 -> spn a p0 q0) s).
  { assert (G0 : wp xAny (ret e) (fun a s' => Fa s' p /\ forall p0 q0, spn e p0 q0 -> spn a p0 q0) s) by (apply wp_ret; auto).
    assert (G1 : wp xAny (lift_c (to_assignment_pattern E e)) (fun a s' => Fa s' p /\ forall p0 q0, spn e p0 q0 -> spn a p0 q0) s).
    { fuse ltac:(eapply f_conv; eassumption). split; auto. intros p0 q0 K. apply to_assignment_pattern_spells in K.
      match goal with H : to_assignment_pattern _ _ = _ |- _ => rewrite H in K; exact K end. }
    destruct e; assumption. }
  fuse ltac:(exact G). fwalk. split; auto.
Qed.
#[local] Hint Resolve for_target_f : fs.
Lemma for_expression_f : fs (for_expression E n h) (fun p a q => forall p0 p1, eats (is_k "for") p0 p1 -> eats (is_p LParen) p1 p -> spn a p0 q).
Proof.
  pose proof (@while_commas _ _ (fun x => spells (T_Node x)) (@fs_with_prm E src first L LB _ (set_in true) _ _ (@assignment_f E At src first L LB n h HAt HS))) as HL. 
  unfold for_expression, with_in. intros s p H. do 4 fstep. fstep.
  - fwalk. intros. match goal with H : forall p0 p1 p2, eats _ p0 p1 -> _ |- _ => eapply H; [eassumption|eassumption|] end. constructor.
  - do 4 fstep. fstep.
    + fwalk. intros. match goal with H : forall p0 p1 p2 d, eats _ p0 p1 -> _ |- _ => eapply H; [eassumption|eassumption|] end.
      eapply ft_plain with (declared := false); auto.
    + rewrite no_of by (eapply Fa_wf; eassumption). fwalk. intros. 
      match goal with H : forall p0 p1 p2, eats _ p0 p1 -> _ |- _ => eapply H; [eassumption|eassumption|] end. apply fi_expr. auto.
Qed.
#[local] Hint Resolve for_var_f for_lexical_f for_expression_f : fs.
Lemma for_f : fs (parse_for_stmt E n h) (fun p a q => spn a p q).
Proof. fgo parse_for_stmt; eauto. Qed.
Lemma while_f : fs (parse_while_stmt E n h) (fun p a q => spn a p q).
Proof. fgo parse_while_stmt. eapply S_while; [eassumption|econstructor; eassumption|eassumption]. Qed.
Lemma do_f : fs (parse_do_while_stmt E n h) (fun p a q => spn a p q).
Proof. fgo parse_do_while_stmt. eapply S_do; [eassumption|eassumption|eassumption|econstructor; eassumption|eassumption]. Qed.
#[local] Hint Resolve for_f while_f do_f : fs.
Lemma iteration_f : fs (parse_iteration_stmt E n h) (fun p a q => spn a p q).
Proof. fgo parse_iteration_stmt; assumption. Qed.
Lemma consequent_f k : fs (switch_consequent h k) (fun p l q => many spn l p q).
Proof. induction k as [|k IH]; intros s p H; [exact I|]. cbn [switch_consequent]. fwalk; econstructor; eassumption. Qed.
#[local] Hint Resolve consequent_f : fs.
Lemma switch_test_f b : fs (switch_test E n h b) (fun p r q => match fst r with Some e => clause spells "case" (T_Node e) p q | None => eats (is_k "default") p q end).
Proof.
  fgo switch_test; cbn.
  - econstructor; eauto with sp.
  - match goal with H : _ && _ = true |- _ => apply andb_true_iff in H; destruct H end. eauto with sp.
Qed.
#[local] Hint Resolve switch_test_f : fs.
Lemma case_of t l p q r s : match t with Some e => clause spells "case" (T_Node e) p q | None => eats (is_k "default") p q end ->
  eats (is_p Colon) q r -> many spn l r s -> spells (T_Case (SwitchCase t l)) p s.
Proof. destruct t; intros; [eapply S_case|eapply S_default]; eassumption. Qed.
Lemma switch_cases_f k : forall b, fs (switch_cases E n h k b) (fun p l q => many (fun x => spells (T_Case x)) l p q).
Proof.
  induction k as [|k IH]; intros b s p H; [exact I|]. cbn [switch_cases]. fwalk; cbn [fst] in *.
  - econstructor; [|constructor]. eapply case_of; eassumption.
  - econstructor; [|eassumption]. eapply case_of; eassumption.
Qed.
#[local] Hint Resolve switch_cases_f : fs.
Lemma switch_f : fs (parse_switch_stmt E n h) (fun p a q => spn a p q).
Proof. fgo parse_switch_stmt. eapply S_switch; [eassumption|econstructor; eassumption|econstructor; eassumption]. Qed.
Lemma jump_label_f : fsx (jump_label E) (fun p ms l q ms' => ms' = ms /\ maybe spn l p q /\ (l <> None -> ~ later_line p)).
Proof.
  fgo jump_label.
  - match goal with H : _ && _ = true |- _ => apply andb_true_iff in H; destruct H as [_ Hb] end. split; [constructor; assumption|].
    intros _. apply broken_not. apply negb_true_iff. exact Hb.
  - split; [constructor|congruence].
Qed.
#[local] Hint Resolve jump_label_f : fsx.
Lemma continue_f : fs (parse_continue_stmt E) (fun p a q => spn a p q).
Proof. fgo parse_continue_stmt. eapply S_continue; [eassumption|eassumption|eassumption|eassumption|fat HAt]. Qed.
Lemma break_f : fs (parse_break_stmt E) (fun p a q => spn a p q).
Proof. fgo parse_break_stmt. eapply S_break; [eassumption|eassumption|eassumption|eassumption|fat HAt]. Qed.
Lemma return_f : fs (parse_return_stmt E n h) (fun p a q => spn a p q).
Proof.
  fgo parse_return_stmt; (eapply S_return; [eassumption| | |eassumption|first [discriminate|intros _; fat HAt]]); try (constructor; assumption); try congruence; try constructor.
  intros _. apply broken_not. apply negb_true_iff. assumption.
Qed.
#[local] Hint Resolve iteration_f switch_f continue_f break_f return_f : fs.
Lemma return_or_error_f : fs (return_or_error E n h) (fun p a q => spn a p q).
Proof. fgo return_or_error. assumption. Qed.
Lemma with_f : fs (parse_with_stmt E n h) (fun p a q => spn a p q).
Proof. fgo parse_with_stmt. eapply S_with; [eassumption|econstructor; eassumption|eassumption]. Qed.
Lemma labelled_f l : fs (parse_labelled_stmt E n h l) (fun p a q => forall p0, eats (is_ref (id_name l)) p0 p -> At (id_span l) p0 p -> spn a p0 q).
Proof. fgo parse_labelled_stmt; intros; (eapply S_labelled; [eassumption|eassumption|eassumption|]); auto.
  match goal with H : forall p0, flag _ _ p0 _ -> _ |- _ => apply H end. reflexivity.
Qed.
#[local] Hint Resolve return_or_error_f with_f labelled_f : fs.
Lemma expression_or_labelled_f : fs (parse_expression_or_labelled_stmt E n h) (fun p a q => spn a p q).
Proof.
  fgo parse_expression_or_labelled_stmt; try (match goal with H : forall p0, _ -> _ |- _ => apply H; assumption end).
  match goal with H : forall p0, eats _ p0 _ -> _, K : SpecSpell.spells _ _ _ _ _ |- _ => apply inv_identifier in K; destruct K; apply H; assumption end.
Qed.
Lemma throw_f : fs (parse_throw_stmt E n h) (fun p a q => spn a p q).
Proof. fgo parse_throw_stmt. eapply S_throw; [eassumption| |eassumption|eassumption]. apply broken_not. apply negb_true_iff. assumption. Qed.
Lemma catch_f : fs (parse_catch_clause E n h) (fun p c q => maybe (fun x => spells (T_Catch x)) c p q).
Proof.
  fgo parse_catch_clause; constructor.
  - eapply S_catch_param; [eauto with sp|econstructor; eauto with sp|eassumption].
  - eapply S_catch; [eauto with sp|eassumption].
Qed.
Lemma finally_f : fs (parse_finally_clause E n h) (fun p c q => maybe (fun x => clause spells "finally" (T_Node x)) c p q).
Proof. fgo parse_finally_clause; constructor. econstructor; eauto with sp. Qed.
#[local] Hint Resolve expression_or_labelled_f throw_f catch_f finally_f : fs.
Lemma try_f : fs (parse_try_stmt E n h) (fun p a q => spn a p q).
Proof. fgo parse_try_stmt. eapply S_try; eassumption. Qed.
Lemma debugger_f : fs (parse_debugger_stmt E) (fun p a q => spn a p q).
Proof. fgo parse_debugger_stmt. eapply S_debugger; [eassumption|eassumption|fat HAt]. Qed.
Lemma async_stmt_f s p : Fa s p -> tok_id (next p) "async" = true -> wp xAny (async_stmt E n h) (fun a s' => exists q, Fa s' q /\ spn a p q) s.
Proof. intros H K. unfold async_stmt. fwalk; assumption. Qed.
#[local] Hint Resolve try_f debugger_f : fs.
Lemma item_f : fs (parse_stmt_list_item E n h) (fun p a q => spn a p q).
Proof. fgo parse_stmt_list_item; try assumption. fuse ltac:(eapply async_stmt_f; eassumption). fret. assumption. Qed.
Lemma statement_f : fs (parse_statement E n h) (fun p a q => spn a p q).
Proof. fgo parse_statement; assumption. Qed.
End Pass.
