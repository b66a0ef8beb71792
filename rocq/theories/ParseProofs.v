(** * ParseProofs: lemmas behind PropsParse.v. *)
From Verif Require Import Base Codepoint Punct Token Scanner Ast Convert ParserBase ParserExpr ParserStmt Parser.
From Verif Require Import SpecLex SpecScan SpecParse Hoare ScanBase LexFacts ParserInv TermBase TermExpr TermStmt TermTop Fuel FrameFacts.
From Coq Require Import ZifyBool ZifyN ZifyNat.
Set Implicit Arguments.

Lemma script_run E src t sc : s_next E GRegExp (s_new src) = ROk t sc ->
  wp (XT E) (script E (fuel_for src) (run E (fuel_for src))) (fun _ s' => inv (L_of src) (LB_of src) s' /\ ttype (cur s') = TEof) (init_pst t sc).
Proof.
  intros H. destruct (first_token _ _ H) as [Hi Hm].
  eapply script_t with (bnd := S (length src)); auto; try (unfold fuel_for; lia). apply run_hT. unfold fuel_for. lia.
Qed.
Lemma module_run E src t sc : s_next E GRegExp (s_new src) = ROk t sc ->
  wp (XT E) (module_ E (fuel_for src) (run E (fuel_for src))) (fun _ s' => inv (L_of src) (LB_of src) s' /\ ttype (cur s') = TEof) (init_pst t sc).
Proof.
  intros H. destruct (first_token _ _ H) as [Hi Hm].
  eapply module_t with (bnd := S (length src)); auto; try (unfold fuel_for; lia). apply run_hT. unfold fuel_for. lia.
Qed.

Lemma within_script E src n : (length src + 2 <= n)%nat ->
  parse_within script n E src = parse_script E src /\ parse_script E src <> OutOfFuel.
Proof.
  intros Hn. pose proof (script_total E src) as T. split; [|intros H; rewrite H in T; auto].
  unfold parse_script, parse_with, parse_within in *. destruct (s_next E GRegExp (s_new src)) as [t sc| | |] eqn:Hs; auto.
  rewrite (@script_fuel E (fuel_for src) n); [reflexivity|unfold fuel_for; lia|]. intros H. rewrite H in T. exact T.
Qed.
Lemma within_module E src n : (length src + 2 <= n)%nat ->
  parse_within module_ n E src = parse_module E src /\ parse_module E src <> OutOfFuel.
Proof.
  intros Hn. pose proof (module_total E src) as T. split; [|intros H; rewrite H in T; auto].
  unfold parse_module, parse_with, parse_within in *. destruct (s_next E GRegExp (s_new src)) as [t sc| | |] eqn:Hs; auto.
  rewrite (@module_fuel E (fuel_for src) n); [reflexivity|unfold fuel_for; lia|]. intros H. rewrite H in T. exact T.
Qed.

Lemma with_final go E src ast : parse_with go E src = Ok ast <-> exists s, final go E src ast s.
Proof.
  unfold parse_with, final. destruct (s_next E GRegExp (s_new src)) as [t sc| | |] eqn:Hs.
  2-4: split; [discriminate|intros (s & t & sc & H & _); congruence].
  destruct (go E _ _ _) as [a s| | |] eqn:Hg.
  - split; [intros [= <-]; exists s, t, sc; auto|]. intros (s' & t' & sc' & H & H'). injection H as <- <-. congruence.
  - split; [discriminate|intros (s & t' & sc' & H & H'); injection H as <- <-; congruence].
  - split; [discriminate|intros (s & t' & sc' & H & H'); injection H as <- <-; congruence].
  - split; [discriminate|intros (s & t' & sc' & H & H'); injection H as <- <-; congruence].
Qed.

Lemma final_script E src ast s : final script E src ast s -> inv (L_of src) (LB_of src) s /\ ttype (cur s) = TEof.
Proof. intros (t & sc & H & H'). pose proof (script_run _ _ H) as W. unfold wp in W; rewrite H' in W; exact W. Qed.
Lemma final_module E src ast s : final module_ E src ast s -> inv (L_of src) (LB_of src) s /\ ttype (cur s) = TEof.
Proof. intros (t & sc & H & H'). pose proof (module_run _ _ H) as W. unfold wp in W; rewrite H' in W; exact W. Qed.
Lemma inv_all_read L LB s : inv L LB s -> ttype (cur s) = TEof -> all_read s.
Proof. intros H He. destruct (i_eof H He). split; auto. Qed.
Lemma script_all_read E src ast : parse_script E src = Ok ast -> exists s, final script E src ast s /\ all_read s.
Proof.
  intros H. apply with_final in H. destruct H as [s H]. exists s. split; auto. apply final_script in H. destruct H.
  eapply inv_all_read; eauto.
Qed.
Lemma module_all_read E src ast : parse_module E src = Ok ast -> exists s, final module_ E src ast s /\ all_read s.
Proof.
  intros H. apply with_final in H. destruct H as [s H]. exists s. split; auto. apply final_module in H. destruct H.
  eapply inv_all_read; eauto.
Qed.

Lemma script_program E src ast : parse_script E src = Ok ast -> exists body sp, ast = Program body "script" sp.
Proof.
  intros H. apply with_final in H. destruct H as (s & t & sc & _ & H). unfold script in H. peel. eauto.
Qed.
Lemma module_program E src ast : parse_module E src = Ok ast -> exists body sp, ast = Program body "module" sp.
Proof.
  intros H. apply with_final in H. destruct H as (s & t & sc & _ & H). unfold module_ in H. peel. eauto.
Qed.
Lemma script_panics E src p : parse_script E src = Panicked p -> live_panic E p.
Proof. intros H. pose proof (script_total E src) as T. rewrite H in T. exact T. Qed.
Lemma module_panics E src p : parse_module E src = Panicked p -> live_panic E p.
Proof. intros H. pose proof (module_total E src) as T. rewrite H in T. exact T. Qed.

Lemma fr_preserves A (m : PM A) : fr m -> preserves m.
Proof. exact (fun H => H). Qed.
Lemma expressions_preserve E n k : let h := run E k in
  preserves (parse_primary_expr E n h) /\ preserves (parse_left_hand_side_expr E n h) /\ preserves (parse_update_expr E n h) /\
  preserves (parse_unary_expr E n h) /\ preserves (parse_exponentiation_expr E n h) /\ preserves (parse_binary_expr E n h) /\
  preserves (parse_conditional_expr E n h) /\ preserves (parse_assignment_expr E n h) /\ preserves (parse_expression E n h) /\
  (forall b, preserves (parse_function_expr E n h b)) /\ preserves (parse_class_expr E n h) /\ preserves (parse_arrow_body E n h) /\
  preserves (parse_object_lit_expr E n h) /\ preserves (parse_binding_id_or_pat E n h) /\ preserves (parse_formal_params E n h) /\
  preserves (parse_function_body E n h).
Proof.
  intros h. pose proof (fr_run E k) as Hh. fold h in Hh. splits; intros; apply fr_preserves;
  first [apply fr_parse_primary_expr | apply fr_parse_left_hand_side_expr | apply fr_parse_update_expr | apply fr_parse_unary_expr
   | apply fr_parse_exponentiation_expr | apply fr_parse_binary_expr | apply fr_parse_conditional_expr | apply fr_parse_assignment_expr
   | apply fr_parse_expression | apply fr_parse_function_expr | apply fr_parse_class_expr | apply fr_parse_arrow_body
   | apply fr_parse_object_lit_expr | apply fr_parse_binding_id_or_pat | apply fr_parse_formal_params | apply fr_parse_function_body]; auto.
Qed.
Lemma statements_preserve E n k : let h := run E k in
  preserves (parse_statement E n h) /\ preserves (parse_stmt_list_item E n h) /\ preserves (parse_block_stmt E n h) /\
  preserves (parse_if_stmt E n h) /\ preserves (parse_for_stmt E n h) /\ preserves (parse_while_stmt E n h) /\
  preserves (parse_do_while_stmt E n h) /\ preserves (parse_switch_stmt E n h) /\ preserves (parse_with_stmt E n h) /\
  preserves (parse_try_stmt E n h) /\ (forall a g, preserves (parse_function_dclr E n h a g)) /\ preserves (parse_class_dclr E n h) /\
  (forall b, preserves (parse_variable_stmt E n h b)) /\ preserves (parse_lexical_dclr E n h) /\ preserves (parse_module_item E n h).
Proof.
  intros h. pose proof (fr_run E k) as Hh. fold h in Hh. splits; intros; apply fr_preserves;
  first [apply fr_parse_statement | apply fr_parse_stmt_list_item | apply fr_parse_block_stmt | apply fr_parse_if_stmt
   | apply fr_parse_for_stmt | apply fr_parse_while_stmt | apply fr_parse_do_while_stmt | apply fr_parse_switch_stmt
   | apply fr_parse_with_stmt | apply fr_parse_try_stmt | apply fr_parse_function_dclr | apply fr_parse_class_dclr
   | apply fr_parse_variable_stmt | apply fr_parse_lexical_dclr | apply fr_parse_module_item]; auto.
Qed.

(** ** Semicolons *)
Lemma semicolon_exact E g s :
  (at_semicolon s -> consume_semicolon E g s = bind (advance E g) (fun _ => ret tt) s) /\
  (~ at_semicolon s -> terminator s -> consume_semicolon E g s = ROk tt s) /\
  (~ terminator s -> forall s', consume_semicolon E g s <> ROk tt s').
Proof.
  assert (Heq : consume_semicolon E g s = (if tok_punc (cur s) Semicolon then bind (advance E g) (fun _ => ret tt)
    else if negb (has_lt s) then if tok_punc (cur s) RBrace then ret tt else if tok_is (cur s) TEof then ret tt
      else unexpected_current E else ret tt) s) by reflexivity.
  rewrite !Heq. clear Heq. unfold at_semicolon.
  destruct (tok_punc (cur s) Semicolon) eqn:H1.
  { apply tok_punc_eq in H1. destruct H1 as [A B]. splits; [reflexivity|tauto|]. intros H. destruct H. apply tm_semicolon; auto. }
  assert (N1 : ~ (ttype (cur s) = TPunctuator /\ tval (cur s) = VPunc Semicolon)) by (rewrite <- tok_punc_eq; congruence).
  split; [tauto|]. destruct (has_lt s) eqn:Hl; cbn [negb].
  { split; [reflexivity|]. intros H. destruct H. apply tm_line; auto. }
  destruct (tok_punc (cur s) RBrace) eqn:H2.
  { split; [reflexivity|]. intros H. apply tok_punc_eq in H2. destruct H, H2. apply tm_brace; auto. }
  destruct (tok_is (cur s) TEof) eqn:H3.
  { split; [reflexivity|]. intros H. apply tok_is_eq in H3. destruct H. apply tm_eof; auto. }
  split.
  - intros _ [A B|A B|A|A].
    + tauto.
    + assert (tok_punc (cur s) RBrace = true) by (apply tok_punc_eq; auto). congruence.
    + assert (tok_is (cur s) TEof = true) by (apply tok_is_eq; auto). congruence.
    + congruence.
  - intros _ s' H. unfold unexpected_current, unexpected, error_tok, bind in H. destruct (advance E GRegExp s); discriminate.
Qed.
Lemma advance_effect E g s t s' : advance E g s = ROk t s' ->
  t = cur s /\ s_next E g (scn s) = ROk (cur s') (scn s') /\ has_lt s' = (tline (cur s) <? tline (cur s')).
Proof.
  unfold advance. destruct (s_next E g (scn s)) as [u sc| | |]; try discriminate. intros [= <- <-]. cbn. auto.
Qed.
