(** * FrameFacts: no parse function leaves a changed grammar context behind (proofs).
    [fr m]: whenever [m] returns, strictness, loop/switch flags, grammar
    parameters and the parameter stack are what they were. *)
From Verif Require Import Base Codepoint Punct Token Scanner Ast Convert ParserBase ParserExpr ParserStmt Parser.
Set Implicit Arguments.

Definition keep (s s' : pst) : Prop := ctx s' = ctx s /\ prm s' = prm s /\ pstack s' = pstack s.
Lemma keep_trans s1 s2 s3 : keep s1 s2 -> keep s2 s3 -> keep s1 s3.
Proof. intros (A & B & C) (A' & B' & C'). repeat split; congruence. Qed.
Definition fr {A} (m : PM A) : Prop := forall s a s', m s = ROk a s' -> keep s s'.

Lemma bind_ok S A B (m : M S A) (k : A -> M S B) s b s' : bind m k s = ROk b s' ->
  exists a s1, m s = ROk a s1 /\ k a s1 = ROk b s'.
Proof. unfold bind. destruct (m s) as [a s1| | |]; try discriminate. eauto. Qed.
Lemma fr_bind A B (m : PM A) (k : A -> PM B) : fr m -> (forall a, fr (k a)) -> fr (bind m k).
Proof. intros H K s b s' Hb. apply bind_ok in Hb. destruct Hb as (a & s1 & H1 & H2). eapply keep_trans; [eapply H|eapply K]; eauto. Qed.
Lemma fr_ret A (a : A) : fr (ret a).
Proof. intros s x s' [= _ <-]. repeat split. Qed.
Lemma fr_gets A (f : pst -> A) : fr (gets f).
Proof. intros s x s' [= _ <-]. repeat split. Qed.
Lemma fr_fail A e : fr (A := A) (fail e).
Proof. intros s x s' [=]. Qed.
Lemma fr_crash A e : fr (A := A) (crash e).
Proof. intros s x s' [=]. Qed.
Lemma fr_nofuel A : fr (A := A) nofuel.
Proof. intros s x s' [=]. Qed.
Lemma fr_unwrap A p (o : option A) : fr (unwrap p o).
Proof. destruct o; [apply fr_ret|apply fr_crash]. Qed.
Lemma fr_lift_c A (c : cres A) : fr (lift_c c).
Proof. intros s x s'. unfold lift_c. destruct c; try discriminate. intros [= _ <-]. repeat split. Qed.
Lemma fr_lift_s A (c : SM A) : fr (lift_s c).
Proof. intros s x s'. unfold lift_s. destruct (c (scn s)); try discriminate. intros [= _ <-]. repeat split. Qed.
Lemma fr_start : fr start_span.
Proof. intros s x s' [= _ <-]. repeat split. Qed.
Lemma fr_end : fr end_span.
Proof. intros s x s'. unfold end_span. destruct (marks s); try discriminate. intros [= _ <-]. repeat split. Qed.
Lemma fr_peek : fr peek_span.
Proof. intros s x s'. unfold peek_span. destruct (marks s); try discriminate. intros [= _ <-]. repeat split. Qed.
Lemma fr_advance E g : fr (advance E g).
Proof. intros s x s'. unfold advance. destruct (s_next E g (scn s)); try discriminate. intros [= _ <-]. repeat split. Qed.
Lemma fr_with_prm A f (m : PM A) : fr m -> fr (with_prm f m).
Proof.
  intros H s x s'. unfold with_prm, save_params, upd_prm, modify, bind, restore_params, ret.
  destruct (m _) as [a s1| | |] eqn:Hm; try discriminate. apply H in Hm. destruct Hm as (A1 & A2 & A3). cbn in *.
  rewrite A3. intros [= _ <-]. cbn. repeat split. auto.
Qed.
Create HintDb fr discriminated.
#[global] Hint Constants Opaque : fr.
#[export] Hint Resolve fr_ret fr_gets fr_fail fr_crash fr_nofuel fr_unwrap fr_lift_c fr_lift_s fr_start fr_end fr_peek fr_advance fr_with_prm : fr.
Lemma fr_getcur : fr getcur. Proof. apply fr_gets. Qed.
Lemma fr_with_in A b (m : PM A) : fr m -> fr (with_in b m).
Proof. apply fr_with_prm. Qed.
Lemma fr_with_default A b (m : PM A) : fr m -> fr (with_default b m).
Proof. apply fr_with_prm. Qed.
#[export] Hint Resolve fr_getcur fr_with_in fr_with_default : fr.
Ltac frstep := cbv beta; lazymatch goal with
  | |- fr (bind _ _) => apply fr_bind; [|intros ?]
  | |- fr (if ?b then _ else _) => destruct b
  | |- fr (match ?x with _ => _ end) => destruct x
  | |- _ => solve [eauto with fr]
  end.
Ltac frs := repeat frstep.
Ltac frgo f := unfold f; frs.
Lemma fr_error_tok A t e : fr (A := A) (error_tok t e). Proof. frgo @error_tok. Qed.
Lemma fr_err_at A l c e : fr (A := A) (err_at l c e). Proof. frgo @err_at. Qed.
#[export] Hint Resolve fr_error_tok fr_err_at : fr.
Lemma fr_error_current A E e : fr (A := A) (error_current E e). Proof. frgo @error_current. Qed.
Lemma fr_unexpected A E t : fr (A := A) (unexpected E t). Proof. frgo @unexpected. Qed.
#[export] Hint Resolve fr_error_current fr_unexpected : fr.
Lemma fr_unexpected_current A E : fr (A := A) (unexpected_current E). Proof. frgo @unexpected_current. Qed.
#[export] Hint Resolve fr_unexpected_current : fr.
Lemma fr_consume_p E p g : fr (consume_p E p g). Proof. frgo consume_p. Qed.
Lemma fr_consume_kw E p g : fr (consume_kw E p g). Proof. frgo consume_kw. Qed.
Lemma fr_consume_id E p g : fr (consume_id E p g). Proof. frgo consume_id. Qed.
Lemma fr_consume_semicolon E g : fr (consume_semicolon E g). Proof. frgo consume_semicolon. Qed.
Lemma fr_advance_string E g : fr (advance_string E g). Proof. frgo advance_string. Qed.
Lemma fr_strict_reserved : fr strict_reserved. Proof. frgo strict_reserved. Qed.
#[export] Hint Resolve fr_consume_p fr_consume_kw fr_consume_id fr_consume_semicolon fr_advance_string fr_strict_reserved : fr.
Lemma fr_parse_id_reference E : fr (parse_id_reference E). Proof. frgo parse_id_reference. Qed.
Lemma fr_parse_binding_id E : fr (parse_binding_id E). Proof. frgo parse_binding_id. Qed.
Lemma fr_parse_id_name E g : fr (parse_id_name E g). Proof. frgo parse_id_name. Qed.
#[export] Hint Resolve fr_parse_id_reference fr_parse_binding_id fr_parse_id_name : fr.
Lemma fr_while A p (f : PM A) : fr f -> forall k, fr (parse_while_punc k p f).
Proof. intros H. induction k; cbn [parse_while_punc]; frs. Qed.
Lemma fr_until A p (f : PM A) : fr f -> forall k, fr (parse_until_punc k p f).
Proof. intros H. induction k; cbn [parse_until_punc]; frs. Qed.
Lemma fr_until_rest A p (f : PM A) : fr f -> forall k, fr (parse_until_punc_or_rest k p f).
Proof. intros H. induction k; cbn [parse_until_punc_or_rest]; frs. Qed.
Lemma fr_until_eof A (f : PM A) : fr f -> forall k, fr (parse_until_eof k f).
Proof. intros H. induction k; cbn [parse_until_eof]; frs. Qed.
#[export] Hint Resolve fr_while fr_until fr_until_rest fr_until_eof : fr.

Record fr_h (h : handler) : Prop := mkFrH {
  fh_bindpat : fr (h_bindpat h); fh_lhs : fr (h_lhs h); fh_new : fr (h_new h); fh_unary : fr (h_unary h);
  fh_exp : fr (h_exp h); fh_climb : forall l p, fr (h_climb h l p); fh_assign : fr (h_assign h);
  fh_expression : fr (h_expression h); fh_statement : fr (h_statement h); fh_item : fr (h_item h) }.

(** Peel an execution that is known to return. *)
Ltac peel := repeat match goal with
  | H : bind _ _ _ = ROk _ _ |- _ => apply bind_ok in H; destruct H as (? & ? & ? & H)
  | H : gets _ _ = ROk _ _ |- _ => injection H as <- <-
  | H : upd_ctx _ _ = ROk _ _ |- _ => injection H as <- <-
  | H : getcur _ = ROk _ _ |- _ => injection H as <- <-
  | H : ret _ _ = ROk _ _ |- _ => injection H as <- <-
  end.
Ltac fruse := repeat match goal with
  | H : ?m ?s = ROk _ ?s' |- _ =>
    lazymatch goal with K : keep s s' |- _ => fail | _ => idtac end;
    let K := fresh "K" in assert (K : keep s s') by (assert (fr m) as F by (solve [eauto with fr]); exact (F _ _ _ H))
  end; unfold keep in *; repeat match goal with H : _ /\ _ |- _ => destruct H end; cbn [ctx prm pstack set_ctx] in *.
Ltac ctxfin := repeat split; try congruence;
  repeat match goal with H : ctx ?x = _ |- context[ctx ?x] => rewrite H end;
  try (match goal with |- context[ctx ?x] => destruct (ctx x) end; reflexivity).

Section Frame.
Context (E : env) (n : nat) (h : handler).
Hypothesis Hh : fr_h h.
Let H1 := fh_bindpat Hh. Let H2 := fh_lhs Hh. Let H3 := fh_new Hh. Let H4 := fh_unary Hh. Let H5 := fh_exp Hh.
Let H5' := fh_climb Hh. Let H6 := fh_assign Hh. Let H7 := fh_expression Hh. Let H8 := fh_statement Hh. Let H9 := fh_item Hh.
#[local] Hint Resolve H1 H2 H3 H4 H5 H5' H6 H7 H8 H9 : fr.
Lemma fr_comma_then A (m : PM A) : fr m -> fr (comma_then E m).
Proof. intros H. frgo @comma_then. Qed.
Lemma fr_seq_to_arrow_params : forall l, fr (seq_to_arrow_params E l).
Proof.
  induction l; cbn [seq_to_arrow_params]; [apply fr_ret|]. unfold param_of_pattern. frs.
Qed.
#[local] Hint Resolve fr_comma_then fr_seq_to_arrow_params : fr.
Lemma fr_comma_unless (x1 : punct) : fr (comma_unless E x1).
Proof. frgo comma_unless. Qed.
#[local] Hint Resolve fr_comma_unless : fr.
Lemma fr_assign_in : fr (assign_in h).
Proof. frgo assign_in. Qed.
#[local] Hint Resolve fr_assign_in : fr.
Lemma fr_expression_in : fr (expression_in h).
Proof. frgo expression_in. Qed.
#[local] Hint Resolve fr_expression_in : fr.
Lemma fr_value_to_key (x1 : value_or_expr) (x2 : bool) (x3 : span) : fr (value_to_key E x1 x2 x3).
Proof. frgo value_to_key. Qed.
#[local] Hint Resolve fr_value_to_key : fr.
Lemma fr_obj_pat_value (x1 : N) (x2 : N) (x3 : binding) : fr (obj_pat_value E h x1 x2 x3).
Proof. frgo obj_pat_value. Qed.
#[local] Hint Resolve fr_obj_pat_value : fr.
Lemma fr_obj_pat_key : fr (obj_pat_key E h).
Proof. frgo obj_pat_key. Qed.
#[local] Hint Resolve fr_obj_pat_key : fr.
Lemma fr_obj_pat_rest (x1 : value_or_expr) (x2 : span) : fr (obj_pat_rest E h x1 x2).
Proof. frgo obj_pat_rest. Qed.
#[local] Hint Resolve fr_obj_pat_rest : fr.
Lemma fr_obj_pat_property : fr (obj_pat_property E h).
Proof. frgo obj_pat_property. Qed.
#[local] Hint Resolve fr_obj_pat_property : fr.
Lemma fr_parse_obj_binding_pat : fr (parse_obj_binding_pat E n h).
Proof. frgo parse_obj_binding_pat. Qed.
#[local] Hint Resolve fr_parse_obj_binding_pat : fr.
Lemma fr_arr_pat_element : fr (arr_pat_element E h).
Proof. frgo arr_pat_element. Qed.
#[local] Hint Resolve fr_arr_pat_element : fr.
Lemma fr_parse_arr_binding_pat : fr (parse_arr_binding_pat E n h).
Proof. frgo parse_arr_binding_pat. Qed.
#[local] Hint Resolve fr_parse_arr_binding_pat : fr.
Lemma fr_parse_binding_id_or_pat : fr (parse_binding_id_or_pat E n h).
Proof. frgo parse_binding_id_or_pat. Qed.
#[local] Hint Resolve fr_parse_binding_id_or_pat : fr.
(** The directive prologue may switch strictness on, and changes nothing else. *)
Definition dir_post (s s' : pst) : Prop :=
  (ctx s' = ctx s \/ ctx s' = ctx_strict true (ctx s)) /\ prm s' = prm s /\ pstack s' = pstack s.
Lemma dir_trans s1 s2 s3 : dir_post s1 s2 -> dir_post s2 s3 -> dir_post s1 s3.
Proof.
  intros (A & B & C) (A' & B' & C'). unfold dir_post. repeat split; try congruence.
  destruct A as [A|A], A' as [A'|A']; rewrite A', A; auto.
Qed.
Lemma keep_dir s1 s2 : keep s1 s2 -> dir_post s1 s2.
Proof. intros (A & B & C). unfold dir_post; auto. Qed.
Lemma set_strict_ok (expr : node) s u s' :
  (match expr with
   | NLiteral (VStr v) _ _ _ => if str_eqb v (s2l "use strict") then upd_ctx (ctx_strict true) else ret tt
   | _ => ret tt end) s = ROk u s' -> dir_post s s'.
Proof.
  assert (R : ret tt s = ROk u s' -> dir_post s s') by (intros [= _ <-]; unfold dir_post; auto).
  destruct expr; try exact R. destruct v; try exact R. destruct (str_eqb _ _); try exact R.
  intros [= _ <-]. unfold dir_post. cbn. auto.
Qed.
Lemma directives_ok : forall k s a s', directive_prologues E h k s = ROk a s' -> dir_post s s'.
Proof.
  induction k as [|k IH]; intros s a s' H; [discriminate|]. cbn [directive_prologues] in H. peel.
  destruct (tok_is _ TString); [|injection H as <- <-; unfold dir_post; auto]. peel.
  eapply dir_trans; [apply keep_dir; eapply fr_start; eassumption|].
  eapply dir_trans; [apply keep_dir; eapply H7; eassumption|].
  eapply dir_trans; [eapply set_strict_ok; eassumption|].
  eapply dir_trans; [apply keep_dir; eapply fr_consume_semicolon; eassumption|].
  eapply dir_trans; [apply keep_dir; eapply fr_end; eassumption|].
  eapply IH; eassumption.
Qed.
Lemma fr_parse_statement_list : fr (parse_statement_list n h).
Proof. frgo parse_statement_list. Qed.
#[local] Hint Resolve fr_parse_statement_list : fr.
Lemma fr_parse_function_body_block : fr (parse_function_body_block E n h).
Proof.
  intros s a s' H. unfold parse_function_body_block in H. peel.
  repeat match goal with H : directive_prologues _ _ _ _ = _ |- _ => apply directives_ok in H; destruct H as (D & ? & ?) end.
  fruse. destruct D as [D|D]; ctxfin.
Qed.
#[local] Hint Resolve fr_parse_function_body_block : fr.
Lemma fr_parse_function_body : fr (parse_function_body E n h).
Proof. intros s a s' H. unfold parse_function_body in H. peel. fruse. ctxfin. Qed.
#[local] Hint Resolve fr_parse_function_body : fr.
Lemma fr_formal_param : fr (formal_param E n h).
Proof. frgo formal_param. Qed.
#[local] Hint Resolve fr_formal_param : fr.
Lemma fr_parse_formal_params : fr (parse_formal_params E n h).
Proof. frgo parse_formal_params. Qed.
#[local] Hint Resolve fr_parse_formal_params : fr.
Lemma fr_params_and_body (x1 : bool) (x2 : bool) : fr (params_and_body E n h x1 x2).
Proof. frgo params_and_body. Qed.
#[local] Hint Resolve fr_params_and_body : fr.
Lemma fr_parse_function_expr (x1 : bool) : fr (parse_function_expr E n h x1).
Proof. frgo parse_function_expr. Qed.
#[local] Hint Resolve fr_parse_function_expr : fr.
Lemma fr_parse_arrow_body : fr (parse_arrow_body E n h).
Proof. frgo parse_arrow_body. Qed.
#[local] Hint Resolve fr_parse_arrow_body : fr.
Lemma fr_parse_single_param_arrow_function_expr (x1 : str) : fr (parse_single_param_arrow_function_expr E n h x1).
Proof. frgo parse_single_param_arrow_function_expr. Qed.
#[local] Hint Resolve fr_parse_single_param_arrow_function_expr : fr.
Lemma fr_param_of_pattern (x1 : bool) (x2 : node) : fr (param_of_pattern E x1 x2).
Proof. frgo param_of_pattern. Qed.
#[local] Hint Resolve fr_param_of_pattern : fr.
Lemma fr_arguments_to_params (x1 : list arg_elem) : fr (arguments_to_params E x1).
Proof. frgo arguments_to_params. Qed.
#[local] Hint Resolve fr_arguments_to_params : fr.
Lemma fr_parse_computed_property_name : fr (parse_computed_property_name E h).
Proof. frgo parse_computed_property_name. Qed.
#[local] Hint Resolve fr_parse_computed_property_name : fr.
Lemma fr_parse_property_name : fr (parse_property_name E h).
Proof. frgo parse_property_name. Qed.
#[local] Hint Resolve fr_parse_property_name : fr.
Lemma fr_class_getter (x1 : bool) : fr (class_getter E n h x1).
Proof. frgo class_getter. Qed.
#[local] Hint Resolve fr_class_getter : fr.
Lemma fr_class_setter (x1 : bool) : fr (class_setter E n h x1).
Proof. frgo class_setter. Qed.
#[local] Hint Resolve fr_class_setter : fr.
Lemma fr_class_async_method (x1 : bool) : fr (class_async_method E n h x1).
Proof. frgo class_async_method. Qed.
#[local] Hint Resolve fr_class_async_method : fr.
Lemma fr_class_generator_method (x1 : bool) : fr (class_generator_method E n h x1).
Proof. frgo class_generator_method. Qed.
#[local] Hint Resolve fr_class_generator_method : fr.
Lemma fr_class_plain_method (x1 : bool) : fr (class_plain_method E n h x1).
Proof. frgo class_plain_method. Qed.
#[local] Hint Resolve fr_class_plain_method : fr.
Lemma fr_class_element : fr (class_element E n h).
Proof. frgo class_element. Qed.
#[local] Hint Resolve fr_class_element : fr.
Lemma fr_parse_class_body : fr (parse_class_body E n h).
Proof. frgo parse_class_body. Qed.
#[local] Hint Resolve fr_parse_class_body : fr.
Lemma fr_parse_class_tail (x1 : option node) : fr (parse_class_tail E n h x1).
Proof. frgo parse_class_tail. Qed.
#[local] Hint Resolve fr_parse_class_tail : fr.
Lemma fr_binding_id_node : fr (binding_id_node E).
Proof. frgo binding_id_node. Qed.
#[local] Hint Resolve fr_binding_id_node : fr.
Lemma fr_parse_class_dclr : fr (parse_class_dclr E n h).
Proof. intros s a s' H. unfold parse_class_dclr in H. peel. fruse. ctxfin. Qed.
#[local] Hint Resolve fr_parse_class_dclr : fr.
Lemma fr_parse_class_expr : fr (parse_class_expr E n h).
Proof.
  intros s a s' H. unfold parse_class_expr in H. peel.
  match goal with H : ?m ?s1 = ROk ?x ?s2 |- _ => lazymatch m with (if _ then _ else _) =>
    assert (keep s1 s2) by (assert (fr m) as F by frs; exact (F _ _ _ H)) end end.
  fruse. ctxfin.
Qed.
#[local] Hint Resolve fr_parse_class_expr : fr.
Lemma fr_template_piece : fr (template_piece E).
Proof. frgo template_piece. Qed.
#[local] Hint Resolve fr_template_piece : fr.
Lemma fr_parse_template_head : fr (parse_template_head E).
Proof. frgo parse_template_head. Qed.
#[local] Hint Resolve fr_parse_template_head : fr.
Lemma fr_parse_template_element : fr (parse_template_element E).
Proof. frgo parse_template_element. Qed.
#[local] Hint Resolve fr_parse_template_element : fr.
Lemma fr_template_rest : forall k (x1 : bool), fr (template_rest E h k x1).
Proof. induction k; intros; cbn [template_rest]; frs. Qed.
#[local] Hint Resolve fr_template_rest : fr.
Lemma fr_template_literal : fr (template_literal E n h).
Proof. frgo template_literal. Qed.
#[local] Hint Resolve fr_template_literal : fr.
Lemma fr_parse_template_literal : fr (parse_template_literal E n h).
Proof. frgo parse_template_literal. Qed.
#[local] Hint Resolve fr_parse_template_literal : fr.
Lemma fr_tagged_template (x1 : node) : fr (tagged_template E n h x1).
Proof. frgo tagged_template. Qed.
#[local] Hint Resolve fr_tagged_template : fr.
Lemma fr_array_lit_element : fr (array_lit_element E h).
Proof. frgo array_lit_element. Qed.
#[local] Hint Resolve fr_array_lit_element : fr.
Lemma fr_parse_array_lit_expr : fr (parse_array_lit_expr E n h).
Proof. frgo parse_array_lit_expr. Qed.
#[local] Hint Resolve fr_parse_array_lit_expr : fr.
Lemma fr_parse_method_definition (x1 : prop_key) (x2 : string) (x3 : bool) (x4 : bool) (x5 : bool) : fr (parse_method_definition E n h x1 x2 x3 x4 x5).
Proof. frgo parse_method_definition. Qed.
#[local] Hint Resolve fr_parse_method_definition : fr.
Lemma fr_lookahead : fr (lookahead E).
Proof. frgo lookahead. Qed.
#[local] Hint Resolve fr_lookahead : fr.
Lemma fr_accessor_modifier (x1 : string) : fr (accessor_modifier E n h x1).
Proof. frgo accessor_modifier. Qed.
#[local] Hint Resolve fr_accessor_modifier : fr.
Lemma fr_async_modifier : fr (async_modifier E n h).
Proof. frgo async_modifier. Qed.
#[local] Hint Resolve fr_async_modifier : fr.
Lemma fr_property_modifiers : fr (property_modifiers E n h).
Proof. frgo property_modifiers. Qed.
#[local] Hint Resolve fr_property_modifiers : fr.
Lemma fr_property_key : fr (property_key E h).
Proof. frgo property_key. Qed.
#[local] Hint Resolve fr_property_key : fr.
Lemma fr_object_property : fr (object_property E n h).
Proof. frgo object_property. Qed.
#[local] Hint Resolve fr_object_property : fr.
Lemma fr_parse_object_lit_expr : fr (parse_object_lit_expr E n h).
Proof. frgo parse_object_lit_expr. Qed.
#[local] Hint Resolve fr_parse_object_lit_expr : fr.
Lemma fr_argument : fr (argument E h).
Proof. frgo argument. Qed.
#[local] Hint Resolve fr_argument : fr.
Lemma fr_parse_arguments : fr (parse_arguments E n h).
Proof. frgo parse_arguments. Qed.
#[local] Hint Resolve fr_parse_arguments : fr.
Lemma fr_seq_element : fr (seq_element E n h).
Proof. frgo seq_element. Qed.
#[local] Hint Resolve fr_seq_element : fr.
Lemma fr_seq_to_arrow (x1 : list node) : fr (seq_to_arrow E n h x1).
Proof. frgo seq_to_arrow. Qed.
#[local] Hint Resolve fr_seq_to_arrow : fr.
Lemma fr_parse_seq_or_arrow : fr (parse_seq_or_arrow E n h).
Proof. frgo parse_seq_or_arrow. Qed.
#[local] Hint Resolve fr_parse_seq_or_arrow : fr.
Lemma fr_parse_async_call_or_arrow (x1 : node) : fr (parse_async_call_or_arrow E n h x1).
Proof. frgo parse_async_call_or_arrow. Qed.
#[local] Hint Resolve fr_parse_async_call_or_arrow : fr.
Lemma fr_parse_async_primary_expr : fr (parse_async_primary_expr E n h).
Proof. frgo parse_async_primary_expr. Qed.
#[local] Hint Resolve fr_parse_async_primary_expr : fr.
Lemma fr_parse_primary_expr : fr (parse_primary_expr E n h).
Proof. frgo parse_primary_expr. Qed.
#[local] Hint Resolve fr_parse_primary_expr : fr.
Lemma fr_parse_computed_member_expr (x1 : node) : fr (parse_computed_member_expr E h x1).
Proof. frgo parse_computed_member_expr. Qed.
#[local] Hint Resolve fr_parse_computed_member_expr : fr.
Lemma fr_parse_static_member_expr (x1 : node) : fr (parse_static_member_expr E x1).
Proof. frgo parse_static_member_expr. Qed.
#[local] Hint Resolve fr_parse_static_member_expr : fr.
Lemma fr_parse_super : fr (parse_super E).
Proof. frgo parse_super. Qed.
#[local] Hint Resolve fr_parse_super : fr.
Lemma fr_member_tail : forall k (x1 : node), fr (member_tail E n h k x1).
Proof. induction k; intros; cbn [member_tail]; frs. Qed.
#[local] Hint Resolve fr_member_tail : fr.
Lemma fr_parse_member_expr : fr (parse_member_expr E n h).
Proof. frgo parse_member_expr. Qed.
#[local] Hint Resolve fr_parse_member_expr : fr.
Lemma fr_call_tail : forall k (x1 : node), fr (call_tail E n h k x1).
Proof. induction k; intros; cbn [call_tail]; frs. Qed.
#[local] Hint Resolve fr_call_tail : fr.
Lemma fr_parse_new_expr : fr (parse_new_expr E n h).
Proof. frgo parse_new_expr. Qed.
#[local] Hint Resolve fr_parse_new_expr : fr.
Lemma fr_parse_call_expr : fr (parse_call_expr E n h).
Proof. frgo parse_call_expr. Qed.
#[local] Hint Resolve fr_parse_call_expr : fr.
Lemma fr_parse_left_hand_side_expr : fr (parse_left_hand_side_expr E n h).
Proof. frgo parse_left_hand_side_expr. Qed.
#[local] Hint Resolve fr_parse_left_hand_side_expr : fr.
Lemma fr_parse_update_expr : fr (parse_update_expr E n h).
Proof. frgo parse_update_expr. Qed.
#[local] Hint Resolve fr_parse_update_expr : fr.
Lemma fr_cur_unary_op : fr (cur_unary_op).
Proof. frgo cur_unary_op. Qed.
#[local] Hint Resolve fr_cur_unary_op : fr.
Lemma fr_parse_unary_expr : fr (parse_unary_expr E n h).
Proof. frgo parse_unary_expr. Qed.
#[local] Hint Resolve fr_parse_unary_expr : fr.
Lemma fr_parse_exponentiation_expr : fr (parse_exponentiation_expr E n h).
Proof. frgo parse_exponentiation_expr. Qed.
#[local] Hint Resolve fr_parse_exponentiation_expr : fr.
Lemma fr_climb_inner : forall k (x1 : token) (x2 : node), fr (climb_inner h k x1 x2).
Proof. induction k; intros; cbn [climb_inner]; frs. Qed.
#[local] Hint Resolve fr_climb_inner : fr.
Lemma fr_climb : forall k (x1 : node) (x2 : N), fr (climb E n h k x1 x2).
Proof. induction k; intros; cbn [climb]; frs. Qed.
#[local] Hint Resolve fr_climb : fr.
Lemma fr_precedence_climbing (x1 : node) (x2 : N) : fr (precedence_climbing E n h x1 x2).
Proof. frgo precedence_climbing. Qed.
#[local] Hint Resolve fr_precedence_climbing : fr.
Lemma fr_parse_binary_expr : fr (parse_binary_expr E n h).
Proof. frgo parse_binary_expr. Qed.
#[local] Hint Resolve fr_parse_binary_expr : fr.
Lemma fr_parse_conditional_expr : fr (parse_conditional_expr E n h).
Proof. frgo parse_conditional_expr. Qed.
#[local] Hint Resolve fr_parse_conditional_expr : fr.
Lemma fr_parse_yield_expr : fr (parse_yield_expr E n h).
Proof. frgo parse_yield_expr. Qed.
#[local] Hint Resolve fr_parse_yield_expr : fr.
Lemma fr_maybe_arrow (x1 : node) : fr (maybe_arrow E n h x1).
Proof. frgo maybe_arrow. Qed.
#[local] Hint Resolve fr_maybe_arrow : fr.
Lemma fr_assignment_tail (x1 : node) : fr (assignment_tail E h x1).
Proof. frgo assignment_tail. Qed.
#[local] Hint Resolve fr_assignment_tail : fr.
Lemma fr_parse_assignment_expr : fr (parse_assignment_expr E n h).
Proof. frgo parse_assignment_expr. Qed.
#[local] Hint Resolve fr_parse_assignment_expr : fr.
Lemma fr_parse_expression : fr (parse_expression E n h).
Proof. frgo parse_expression. Qed.
#[local] Hint Resolve fr_parse_expression : fr.
Lemma fr_parse_function_dclr (x1 : bool) (x2 : bool) : fr (parse_function_dclr E n h x1 x2).
Proof. frgo parse_function_dclr. Qed.
#[local] Hint Resolve fr_parse_function_dclr : fr.
Lemma fr_parse_hoistable_dclr : fr (parse_hoistable_dclr E n h).
Proof. frgo parse_hoistable_dclr. Qed.
#[local] Hint Resolve fr_parse_hoistable_dclr : fr.
Lemma fr_parse_variable_dclr : fr (parse_variable_dclr E n h).
Proof. frgo parse_variable_dclr. Qed.
#[local] Hint Resolve fr_parse_variable_dclr : fr.
Lemma fr_variable_dclr_list : fr (variable_dclr_list E n h).
Proof. frgo variable_dclr_list. Qed.
#[local] Hint Resolve fr_variable_dclr_list : fr.
Lemma fr_parse_variable_stmt (x1 : bool) : fr (parse_variable_stmt E n h x1).
Proof. frgo parse_variable_stmt. Qed.
#[local] Hint Resolve fr_parse_variable_stmt : fr.
Lemma fr_parse_lexical_dclr : fr (parse_lexical_dclr E n h).
Proof. frgo parse_lexical_dclr. Qed.
#[local] Hint Resolve fr_parse_lexical_dclr : fr.
Lemma fr_parse_declaration : fr (parse_declaration E n h).
Proof. frgo parse_declaration. Qed.
#[local] Hint Resolve fr_parse_declaration : fr.
Lemma fr_parse_block_stmt : fr (parse_block_stmt E n h).
Proof. frgo parse_block_stmt. Qed.
#[local] Hint Resolve fr_parse_block_stmt : fr.
Lemma fr_parse_empty_stmt : fr (parse_empty_stmt E).
Proof. frgo parse_empty_stmt. Qed.
#[local] Hint Resolve fr_parse_empty_stmt : fr.
Lemma fr_parse_expression_stmt (x1 : node) : fr (parse_expression_stmt E x1).
Proof. frgo parse_expression_stmt. Qed.
#[local] Hint Resolve fr_parse_expression_stmt : fr.
Lemma fr_parse_if_stmt : fr (parse_if_stmt E n h).
Proof. frgo parse_if_stmt. Qed.
#[local] Hint Resolve fr_parse_if_stmt : fr.
Lemma fr_iteration_body : fr (iteration_body h).
Proof. intros s a s' H. unfold iteration_body in H. peel. fruse. ctxfin. Qed.
#[local] Hint Resolve fr_iteration_body : fr.
Lemma fr_parse_for_classic_stmt (x1 : option node) : fr (parse_for_classic_stmt E n h x1).
Proof. frgo parse_for_classic_stmt. Qed.
#[local] Hint Resolve fr_parse_for_classic_stmt : fr.
Lemma fr_parse_for_in_stmt (x1 : node) : fr (parse_for_in_stmt E n h x1).
Proof. frgo parse_for_in_stmt. Qed.
#[local] Hint Resolve fr_parse_for_in_stmt : fr.
Lemma fr_parse_for_of_stmt (x1 : node) : fr (parse_for_of_stmt E n h x1).
Proof. frgo parse_for_of_stmt. Qed.
#[local] Hint Resolve fr_parse_for_of_stmt : fr.
Lemma fr_for_declarations (x1 : string) (x2 : binding) (x3 : option node) : fr (for_declarations E n h x1 x2 x3).
Proof. frgo for_declarations. Qed.
#[local] Hint Resolve fr_for_declarations : fr.
Lemma fr_for_var : fr (for_var E n h).
Proof. frgo for_var. Qed.
#[local] Hint Resolve fr_for_var : fr.
Lemma fr_for_lexical : fr (for_lexical E n h).
Proof. frgo for_lexical. Qed.
#[local] Hint Resolve fr_for_lexical : fr.
Lemma fr_for_target (x1 : node) : fr (for_target E x1).
Proof. frgo for_target. Qed.
#[local] Hint Resolve fr_for_target : fr.
Lemma fr_for_expression : fr (for_expression E n h).
Proof. frgo for_expression. Qed.
#[local] Hint Resolve fr_for_expression : fr.
Lemma fr_parse_for_stmt : fr (parse_for_stmt E n h).
Proof. frgo parse_for_stmt. Qed.
#[local] Hint Resolve fr_parse_for_stmt : fr.
Lemma fr_parse_while_stmt : fr (parse_while_stmt E n h).
Proof. frgo parse_while_stmt. Qed.
#[local] Hint Resolve fr_parse_while_stmt : fr.
Lemma fr_parse_do_while_stmt : fr (parse_do_while_stmt E n h).
Proof. frgo parse_do_while_stmt. Qed.
#[local] Hint Resolve fr_parse_do_while_stmt : fr.
Lemma fr_parse_iteration_stmt : fr (parse_iteration_stmt E n h).
Proof. frgo parse_iteration_stmt. Qed.
#[local] Hint Resolve fr_parse_iteration_stmt : fr.
Lemma fr_switch_consequent : forall k, fr (switch_consequent h k).
Proof. induction k; intros; cbn [switch_consequent]; frs. Qed.
#[local] Hint Resolve fr_switch_consequent : fr.
Lemma fr_switch_test (x1 : bool) : fr (switch_test E n h x1).
Proof. frgo switch_test. Qed.
#[local] Hint Resolve fr_switch_test : fr.
Lemma fr_switch_cases : forall k (x1 : bool), fr (switch_cases E n h k x1).
Proof. induction k; intros; cbn [switch_cases]; frs. Qed.
#[local] Hint Resolve fr_switch_cases : fr.
Lemma fr_parse_switch_stmt : fr (parse_switch_stmt E n h).
Proof. intros s a s' H. unfold parse_switch_stmt in H. peel. fruse. ctxfin. Qed.
#[local] Hint Resolve fr_parse_switch_stmt : fr.
Lemma fr_jump_label : fr (jump_label E).
Proof. frgo jump_label. Qed.
#[local] Hint Resolve fr_jump_label : fr.
Lemma fr_parse_continue_stmt : fr (parse_continue_stmt E).
Proof. frgo parse_continue_stmt. Qed.
#[local] Hint Resolve fr_parse_continue_stmt : fr.
Lemma fr_parse_break_stmt : fr (parse_break_stmt E).
Proof. frgo parse_break_stmt. Qed.
#[local] Hint Resolve fr_parse_break_stmt : fr.
Lemma fr_parse_return_stmt : fr (parse_return_stmt E n h).
Proof. frgo parse_return_stmt. Qed.
#[local] Hint Resolve fr_parse_return_stmt : fr.
Lemma fr_return_or_error : fr (return_or_error E n h).
Proof. frgo return_or_error. Qed.
#[local] Hint Resolve fr_return_or_error : fr.
Lemma fr_parse_with_stmt : fr (parse_with_stmt E n h).
Proof. frgo parse_with_stmt. Qed.
#[local] Hint Resolve fr_parse_with_stmt : fr.
Lemma fr_parse_labelled_stmt (x1 : identifier) : fr (parse_labelled_stmt E n h x1).
Proof. frgo parse_labelled_stmt. Qed.
#[local] Hint Resolve fr_parse_labelled_stmt : fr.
Lemma fr_parse_expression_or_labelled_stmt : fr (parse_expression_or_labelled_stmt E n h).
Proof. frgo parse_expression_or_labelled_stmt. Qed.
#[local] Hint Resolve fr_parse_expression_or_labelled_stmt : fr.
Lemma fr_parse_throw_stmt : fr (parse_throw_stmt E n h).
Proof. frgo parse_throw_stmt. Qed.
#[local] Hint Resolve fr_parse_throw_stmt : fr.
Lemma fr_parse_catch_clause : fr (parse_catch_clause E n h).
Proof. frgo parse_catch_clause. Qed.
#[local] Hint Resolve fr_parse_catch_clause : fr.
Lemma fr_parse_finally_clause : fr (parse_finally_clause E n h).
Proof. frgo parse_finally_clause. Qed.
#[local] Hint Resolve fr_parse_finally_clause : fr.
Lemma fr_parse_try_stmt : fr (parse_try_stmt E n h).
Proof. frgo parse_try_stmt. Qed.
#[local] Hint Resolve fr_parse_try_stmt : fr.
Lemma fr_parse_debugger_stmt : fr (parse_debugger_stmt E).
Proof. frgo parse_debugger_stmt. Qed.
#[local] Hint Resolve fr_parse_debugger_stmt : fr.
Lemma fr_async_stmt : fr (async_stmt E n h).
Proof. frgo async_stmt. Qed.
#[local] Hint Resolve fr_async_stmt : fr.
Lemma fr_parse_stmt_list_item : fr (parse_stmt_list_item E n h).
Proof. frgo parse_stmt_list_item. Qed.
#[local] Hint Resolve fr_parse_stmt_list_item : fr.
Lemma fr_parse_statement : fr (parse_statement E n h).
Proof. frgo parse_statement. Qed.
#[local] Hint Resolve fr_parse_statement : fr.
Lemma fr_import_binding : fr (import_binding E).
Proof. frgo import_binding. Qed.
#[local] Hint Resolve fr_import_binding : fr.
Lemma fr_namespace_import_specifiers : fr (namespace_import_specifiers E).
Proof. frgo namespace_import_specifiers. Qed.
#[local] Hint Resolve fr_namespace_import_specifiers : fr.
Lemma fr_named_import_specifier : fr (named_import_specifier E).
Proof. frgo named_import_specifier. Qed.
#[local] Hint Resolve fr_named_import_specifier : fr.
Lemma fr_named_import_specifiers : fr (named_import_specifiers E n).
Proof. frgo named_import_specifiers. Qed.
#[local] Hint Resolve fr_named_import_specifiers : fr.
Lemma fr_parse_module_specifier : fr (parse_module_specifier E).
Proof. frgo parse_module_specifier. Qed.
#[local] Hint Resolve fr_parse_module_specifier : fr.
Lemma fr_parse_import_from_dclr (x1 : list import_spec) : fr (parse_import_from_dclr E x1).
Proof. frgo parse_import_from_dclr. Qed.
#[local] Hint Resolve fr_parse_import_from_dclr : fr.
Lemma fr_parse_import_dclr : fr (parse_import_dclr E n).
Proof. frgo parse_import_dclr. Qed.
#[local] Hint Resolve fr_parse_import_dclr : fr.
Lemma fr_named_export_specifier : fr (named_export_specifier E).
Proof. frgo named_export_specifier. Qed.
#[local] Hint Resolve fr_named_export_specifier : fr.
Lemma fr_named_export_specifiers : fr (named_export_specifiers E n).
Proof. frgo named_export_specifiers. Qed.
#[local] Hint Resolve fr_named_export_specifiers : fr.
Lemma fr_export_default : fr (export_default E n h).
Proof. frgo export_default. Qed.
#[local] Hint Resolve fr_export_default : fr.
Lemma fr_parse_export_dclr : fr (parse_export_dclr E n h).
Proof. frgo parse_export_dclr. Qed.
#[local] Hint Resolve fr_parse_export_dclr : fr.
Lemma fr_parse_module_item : fr (parse_module_item E n h).
Proof. frgo parse_module_item. Qed.
#[local] Hint Resolve fr_parse_module_item : fr.
End Frame.

Lemma fr_run E : forall k, fr_h (run E k).
Proof.
  induction k as [|k IH].
  - constructor; intros; apply fr_nofuel.
  - constructor; cbn [run step h_bindpat h_lhs h_new h_unary h_exp h_climb h_assign h_expression h_statement h_item]; intros;
    [apply fr_parse_binding_id_or_pat|apply fr_parse_left_hand_side_expr|apply fr_parse_new_expr|apply fr_parse_unary_expr
    |apply fr_parse_exponentiation_expr|apply fr_precedence_climbing|apply fr_parse_assignment_expr|apply fr_parse_expression
    |apply fr_parse_statement|apply fr_parse_stmt_list_item]; auto.
Qed.
