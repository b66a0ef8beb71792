(** * SimExpr: the expression parser run in lock step (proofs). *)
From Verif Require Import Base Codepoint Punct Token Scanner Ast Convert ParserBase ParserExpr ParserStmt Parser Rel SimBase SimTac SimConv.
Set Implicit Arguments.

Record sim_h (E : env) (sl : bool) (RM : marker -> marker -> Prop) (h : handler) : Prop := mkSimH {
  sh_bindpat : forall I : Type, sim E sl RM (r_bind (RS RM) (RA sl)) (h_bindpat h) (fun _ : I => h_bindpat h);
  sh_lhs : forall I : Type, sim E sl RM (r_node (RS RM) (RA sl)) (h_lhs h) (fun _ : I => h_lhs h);
  sh_new : forall I : Type, sim E sl RM (r_node (RS RM) (RA sl)) (h_new h) (fun _ : I => h_new h);
  sh_unary : forall I : Type, sim E sl RM (r_node (RS RM) (RA sl)) (h_unary h) (fun _ : I => h_unary h);
  sh_exp : forall I : Type, sim E sl RM (r_node (RS RM) (RA sl)) (h_exp h) (fun _ : I => h_exp h);
  sh_climb : forall (I : Type) l (l' : I -> node) p, (forall i, r_node (RS RM) (RA sl) l (l' i)) ->
    sim E sl RM (r_node (RS RM) (RA sl)) (h_climb h l p) (fun i : I => h_climb h (l' i) p);
  sh_assign : forall I : Type, sim E sl RM (r_node (RS RM) (RA sl)) (h_assign h) (fun _ : I => h_assign h);
  sh_expression : forall I : Type, sim E sl RM (r_node (RS RM) (RA sl)) (h_expression h) (fun _ : I => h_expression h);
  sh_statement : forall I : Type, sim E sl RM (r_node (RS RM) (RA sl)) (h_statement h) (fun _ : I => h_statement h);
  sh_item : forall I : Type, sim E sl RM (r_node (RS RM) (RA sl)) (h_item h) (fun _ : I => h_item h) }.

Section Expr.
Context (E : env) (sl : bool) (RM : marker -> marker -> Prop) (n : nat) (h : handler).
Hypothesis RM_line : line_rel RM.
Hypothesis Hh : sim_h E sl RM h.
Let H0 I g := @sim_advance E sl RM RM_line I g.
Let H0' I := @sim_look E sl RM I.
Let H1 := sh_bindpat Hh. Let H2 := sh_lhs Hh. Let H3 := sh_new Hh. Let H4 := sh_unary Hh. Let H5 := sh_exp Hh.
Let H5' := sh_climb Hh. Let H6 := sh_assign Hh. Let H7 := sh_expression Hh. Let H8 := sh_statement Hh. Let H9 := sh_item Hh.
#[local] Hint Resolve H0 H0' H1 H2 H3 H4 H5 H5' H6 H7 H8 H9 : sim.

Lemma s_advance_string : forall (I : Type) x1, sim E sl RM (@eq str) (advance_string E x1) (fun i : I => advance_string E x1).
Proof. intros. unfold advance_string. sims. Qed.
#[local] Hint Resolve s_advance_string : sim.
Lemma s_consume_p : forall (I : Type) x1 x2, sim E sl RM (trel RM) (consume_p E x1 x2) (fun i : I => consume_p E x1 x2).
Proof. intros. unfold consume_p. sims. Qed.
#[local] Hint Resolve s_consume_p : sim.
Lemma s_consume_kw : forall (I : Type) x1 x2, sim E sl RM (trel RM) (consume_kw E x1 x2) (fun i : I => consume_kw E x1 x2).
Proof. intros. unfold consume_kw. sims. Qed.
#[local] Hint Resolve s_consume_kw : sim.
Lemma s_consume_id : forall (I : Type) x1 x2, sim E sl RM (trel RM) (consume_id E x1 x2) (fun i : I => consume_id E x1 x2).
Proof. intros. unfold consume_id. sims. Qed.
#[local] Hint Resolve s_consume_id : sim.
Lemma s_consume_semicolon : forall (I : Type) x1, sim E sl RM (@eq unit) (consume_semicolon E x1) (fun i : I => consume_semicolon E x1).
Proof. intros. unfold consume_semicolon. sims. Qed.
#[local] Hint Resolve s_consume_semicolon : sim.
Lemma s_parse_id_reference : forall (I : Type), sim E sl RM (r_node (RS RM) (RA sl)) (parse_id_reference E) (fun i : I => parse_id_reference E).
Proof. intros. unfold parse_id_reference. sims. Qed.
#[local] Hint Resolve s_parse_id_reference : sim.
Lemma s_parse_binding_id : forall (I : Type), sim E sl RM (r_bind (RS RM) (RA sl)) (parse_binding_id E) (fun i : I => parse_binding_id E).
Proof. intros. unfold parse_binding_id. sims. Qed.
#[local] Hint Resolve s_parse_binding_id : sim.
Lemma s_parse_id_name : forall (I : Type) x1, sim E sl RM (@eq str) (parse_id_name E x1) (fun i : I => parse_id_name E x1).
Proof. intros. unfold parse_id_name. sims. Qed.
#[local] Hint Resolve s_parse_id_name : sim.
Lemma s_comma_unless : forall (I : Type) x1, sim E sl RM (@eq unit) (comma_unless E x1) (fun i : I => comma_unless E x1).
Proof. intros. unfold comma_unless. sims. Qed.
#[local] Hint Resolve s_comma_unless : sim.
Lemma s_assign_in : forall (I : Type), sim E sl RM (r_node (RS RM) (RA sl)) (assign_in h) (fun i : I => assign_in h).
Proof. intros. unfold assign_in. sims. Qed.
#[local] Hint Resolve s_assign_in : sim.
Lemma s_expression_in : forall (I : Type), sim E sl RM (r_node (RS RM) (RA sl)) (expression_in h) (fun i : I => expression_in h).
Proof. intros. unfold expression_in. sims. Qed.
#[local] Hint Resolve s_expression_in : sim.
Lemma s_value_to_key : forall (I : Type) x1 (x1' : I -> value_or_expr) x2 x3 (x3' : I -> span), (forall i, r_ve sl RM x1 (x1' i)) -> (forall i, RS RM x3 (x3' i)) -> sim E sl RM (r_key (RS RM) (RA sl)) (value_to_key E x1 x2 x3) (fun i : I => value_to_key E (x1' i) x2 (x3' i)).
Proof. intros. unfold value_to_key. sims. Qed.
#[local] Hint Resolve s_value_to_key : sim.
Lemma s_obj_pat_value : forall (I : Type) x1 x2 (x1' x2' : I -> N) x3 (x3' : I -> binding), (forall i, exists x y, RM (mkMarker x1 x2 x) (mkMarker (x1' i) (x2' i) y)) -> (forall i, r_bind (RS RM) (RA sl) x3 (x3' i)) -> sim E sl RM (r_val (RS RM) (RA sl)) (obj_pat_value E h x1 x2 x3) (fun i : I => obj_pat_value E h (x1' i) (x2' i) (x3' i)).
Proof. intros. unfold obj_pat_value. sims. Qed.
#[local] Hint Resolve s_obj_pat_value : sim.
Lemma s_obj_pat_key : forall (I : Type), sim E sl RM (r_ve sl RM) (obj_pat_key E h) (fun i : I => obj_pat_key E h).
Proof. intros. unfold obj_pat_key. sims. Qed.
#[local] Hint Resolve s_obj_pat_key : sim.
Lemma key_computed_rel k k' : r_key (RS RM) (RA sl) k k' ->
  match k' with PK_Expr _ => true | _ => false end = match k with PK_Expr _ => true | _ => false end.
Proof. intros []; reflexivity. Qed.
Lemma s_obj_pat_rest : forall (I : Type) x1 (x1' : I -> value_or_expr) x2 (x2' : I -> span), (forall i, r_ve sl RM x1 (x1' i)) -> (forall i, RS RM x2 (x2' i)) -> sim E sl RM (r_opat (RS RM) (RA sl)) (obj_pat_rest E h x1 x2) (fun i : I => obj_pat_rest E h (x1' i) (x2' i)).
Proof.
  intros. unfold obj_pat_rest. sims.
  - destruct w; sims.
  - apply sim_ret. intros j. match goal with H : forall _, r_key _ _ _ _ |- _ => rewrite (key_computed_rel (H _)) end. rel.
Qed.
#[local] Hint Resolve s_obj_pat_rest : sim.
Lemma s_obj_pat_property : forall (I : Type), sim E sl RM (r_opat (RS RM) (RA sl)) (obj_pat_property E h) (fun i : I => obj_pat_property E h).
Proof. intros. unfold obj_pat_property. sims. Qed.
#[local] Hint Resolve s_obj_pat_property : sim.
Lemma s_parse_obj_binding_pat : forall (I : Type), sim E sl RM (r_bind (RS RM) (RA sl)) (parse_obj_binding_pat E n h) (fun i : I => parse_obj_binding_pat E n h).
Proof. intros. unfold parse_obj_binding_pat. sims. Qed.
#[local] Hint Resolve s_parse_obj_binding_pat : sim.
Lemma s_arr_pat_element : forall (I : Type), sim E sl RM (orel (r_apat (RS RM) (RA sl))) (arr_pat_element E h) (fun i : I => arr_pat_element E h).
Proof. intros. unfold arr_pat_element. sims. Qed.
#[local] Hint Resolve s_arr_pat_element : sim.
Lemma s_parse_arr_binding_pat : forall (I : Type), sim E sl RM (r_bind (RS RM) (RA sl)) (parse_arr_binding_pat E n h) (fun i : I => parse_arr_binding_pat E n h).
Proof. intros. unfold parse_arr_binding_pat. sims. Qed.
#[local] Hint Resolve s_parse_arr_binding_pat : sim.
Lemma s_parse_binding_id_or_pat : forall (I : Type), sim E sl RM (r_bind (RS RM) (RA sl)) (parse_binding_id_or_pat E n h) (fun i : I => parse_binding_id_or_pat E n h).
Proof. intros. unfold parse_binding_id_or_pat. sims. Qed.
#[local] Hint Resolve s_parse_binding_id_or_pat : sim.
Lemma s_directive (I : Type) e (e' : I -> node) : (forall i, r_node (RS RM) (RA sl) e (e' i)) ->
  sim E sl RM eq
    (match e with NLiteral (VStr s) _ _ _ => if str_eqb s (s2l "use strict") then upd_ctx (ctx_strict true) else ret tt | _ => ret tt end)
    (fun i => match e' i with NLiteral (VStr s) _ _ _ => if str_eqb s (s2l "use strict") then upd_ctx (ctx_strict true) else ret tt | _ => ret tt end).
Proof.
  intros H.
  eapply sim_ext with (m'' := fun i : I => match e with NLiteral (VStr s) _ _ _ => if str_eqb s (s2l "use strict") then upd_ctx (ctx_strict true) else ret tt | _ => ret tt end).
  { intros i. specialize (H i). destruct H; reflexivity. }
  clear H e'. destruct e; try (apply sim_ret; reflexivity). destruct v; try (apply sim_ret; reflexivity).
  destruct (str_eqb _ _); [|apply sim_ret; reflexivity]. apply sim_set_strict. intros. apply RB_refl.
Qed.
Lemma s_directive_prologues : forall k (I : Type), sim E sl RM (Forall2 (r_node (RS RM) (RA sl))) (directive_prologues E h k) (fun i : I => directive_prologues E h k).
Proof.
  induction k as [|k IH]; intros; [apply sim_fuel|]. cbn [directive_prologues].
  sstep; [sims|]. sstep; [|sims]. sstep; [sims|]. sstep; [sims|]. sstep; [apply s_directive; rel|]. sims.
Qed.
#[local] Hint Resolve s_directive_prologues : sim.
Lemma s_parse_statement_list : forall (I : Type), sim E sl RM (Forall2 (r_node (RS RM) (RA sl))) (parse_statement_list n h) (fun i : I => parse_statement_list n h).
Proof. intros. unfold parse_statement_list. sims. Qed.
#[local] Hint Resolve s_parse_statement_list : sim.
Lemma s_parse_function_body_block : forall (I : Type), sim E sl RM (r_node (RS RM) (RA sl)) (parse_function_body_block E n h) (fun i : I => parse_function_body_block E n h).
Proof. intros. unfold parse_function_body_block. sims. Qed.
#[local] Hint Resolve s_parse_function_body_block : sim.
Lemma s_parse_function_body : forall (I : Type), sim E sl RM (r_node (RS RM) (RA sl)) (parse_function_body E n h) (fun i : I => parse_function_body E n h).
Proof. intros. unfold parse_function_body. sims. Qed.
#[local] Hint Resolve s_parse_function_body : sim.
Lemma s_formal_param : forall (I : Type), sim E sl RM (r_param (RS RM) (RA sl)) (formal_param E n h) (fun i : I => formal_param E n h).
Proof. intros. unfold formal_param. sims. Qed.
#[local] Hint Resolve s_formal_param : sim.
Lemma s_parse_formal_params : forall (I : Type), sim E sl RM (Forall2 (r_param (RS RM) (RA sl))) (parse_formal_params E n h) (fun i : I => parse_formal_params E n h).
Proof. intros. unfold parse_formal_params. sims. Qed.
#[local] Hint Resolve s_parse_formal_params : sim.
Lemma s_params_and_body : forall (I : Type) x1 x2, sim E sl RM (prel (Forall2 (r_param (RS RM) (RA sl))) (r_node (RS RM) (RA sl))) (params_and_body E n h x1 x2) (fun i : I => params_and_body E n h x1 x2).
Proof. intros. unfold params_and_body. sims. Qed.
#[local] Hint Resolve s_params_and_body : sim.
Lemma s_parse_function_expr : forall (I : Type) x1, sim E sl RM (r_node (RS RM) (RA sl)) (parse_function_expr E n h x1) (fun i : I => parse_function_expr E n h x1).
Proof. intros. unfold parse_function_expr. sims. Qed.
#[local] Hint Resolve s_parse_function_expr : sim.
Lemma s_parse_arrow_body : forall (I : Type), sim E sl RM (prel (r_node (RS RM) (RA sl)) (@eq bool)) (parse_arrow_body E n h) (fun i : I => parse_arrow_body E n h).
Proof. intros. unfold parse_arrow_body. sims. Qed.
#[local] Hint Resolve s_parse_arrow_body : sim.
Lemma s_parse_single_param_arrow_function_expr : forall (I : Type) x1, sim E sl RM (r_node (RS RM) (RA sl)) (parse_single_param_arrow_function_expr E n h x1) (fun i : I => parse_single_param_arrow_function_expr E n h x1).
Proof. intros. unfold parse_single_param_arrow_function_expr. sims. Qed.
#[local] Hint Resolve s_parse_single_param_arrow_function_expr : sim.
Lemma sim_retx (I A B : Type) (R : A -> B -> Prop) y (m' : I -> PM B) : (forall i, exists z, m' i = ret z /\ R y z) -> sim E sl RM R (ret y) m'.
Proof.
  intros H. eapply sim_split with (P := fun i z => m' i = ret z /\ R y z); [exact H|].
  intros K p q Hq. eapply sim_ext; [intros k; exact (proj1 (Hq k))|]. apply sim_ret. intros k. exact (proj2 (Hq k)).
Qed.
Lemma s_param_of_pattern : forall (I : Type) x1 x2 (x2' : I -> node), (forall i, r_node (RS RM) (RA sl) x2 (x2' i)) -> sim E sl RM (r_param (RS RM) (RA sl)) (param_of_pattern E x1 x2) (fun i : I => param_of_pattern E x1 (x2' i)).
Proof.
  intros I x1 x2 x2' H.
  assert (Z : forall e, sim E sl RM (r_param (RS RM) (RA sl)) (@error_current E func_param e) (fun _ : I => @error_current E func_param e)) by (intros; sims).
  destruct x2;
    try (eapply sim_ext; [|exact (Z InvalidDestructuringTarget)]; intros i; specialize (H i); inversion H; subst; reflexivity).
  all: try (destruct x1; [|eapply sim_ext; [|exact (Z ParamAfterRest)]; intros i; specialize (H i); inversion H; subst; reflexivity]).
  all: cbn [param_of_pattern]; apply sim_retx; intros i; specialize (H i); inversion H; subst; eexists; (split; [reflexivity|constructor; assumption]).
Qed.

#[local] Hint Resolve s_param_of_pattern : sim.
Lemma Forall2_nilb (A B : Type) (R : A -> B -> Prop) l l' : Forall2 R l l' ->
  match l' with [] => true | _ => false end = match l with [] => true | _ => false end.
Proof. intros []; reflexivity. Qed.
Lemma s_seq_to_arrow_params : forall x1 (I : Type) (x1' : I -> list node), (forall i, Forall2 (r_node (RS RM) (RA sl)) x1 (x1' i)) -> sim E sl RM (Forall2 (r_param (RS RM) (RA sl))) (seq_to_arrow_params E x1) (fun i : I => seq_to_arrow_params E (x1' i)).
Proof.
  induction x1 as [|e l IH]; intros I x1' H.
  - apply sim_ext with (m'' := fun i => ret []); [|apply sim_ret; constructor]. intros i. specialize (H i). inversion H; subst. reflexivity.
  - apply sim_split with (P := fun i z => x1' i = fst z :: snd z /\ r_node (RS RM) (RA sl) e (fst z) /\ Forall2 (r_node (RS RM) (RA sl)) l (snd z)).
    { intros i. specialize (H i). inversion H; subst. exists (y, l'). auto. }
    intros K p q Hq.
    assert (Hq1 := fun k => proj1 (proj2 (Hq k))). assert (Hq2 := fun k => proj2 (proj2 (Hq k))).
    eapply sim_ext with (m'' := fun k => bind (lift_c (to_binding_pattern E (fst (q k)))) (fun p =>
      bind (param_of_pattern E (match l with [] => true | _ => false end) p) (fun r => bind (seq_to_arrow_params E (snd (q k))) (fun rs => ret (r :: rs))))).
    { intros k. cbv beta. rewrite (proj1 (Hq k)). cbn [seq_to_arrow_params]. rewrite (Forall2_nilb (Hq2 k)). reflexivity. }
    cbn [seq_to_arrow_params]. clear Hq. sims.
Qed.
#[local] Hint Resolve s_seq_to_arrow_params : sim.
Lemma s_arguments_to_params : forall (I : Type) x1 (x1' : I -> list arg_elem), (forall i, Forall2 (r_arg (RS RM) (RA sl)) x1 (x1' i)) -> sim E sl RM (Forall2 (r_param (RS RM) (RA sl))) (arguments_to_params E x1) (fun i : I => arguments_to_params E (x1' i)).
Proof.
  intros. unfold arguments_to_params. apply s_seq_to_arrow_params with (x1' := fun i => map arg_as_node (x1' i)).
  intros i. specialize (H i). induction H; constructor; auto. apply arg_as_node_rel. assumption.
Qed.
#[local] Hint Resolve s_arguments_to_params : sim.
Lemma s_parse_computed_property_name : forall (I : Type), sim E sl RM (r_key (RS RM) (RA sl)) (parse_computed_property_name E h) (fun i : I => parse_computed_property_name E h).
Proof. intros. unfold parse_computed_property_name. sims. Qed.
#[local] Hint Resolve s_parse_computed_property_name : sim.
Lemma s_parse_property_name : forall (I : Type), sim E sl RM (prel (r_key (RS RM) (RA sl)) (@eq bool)) (parse_property_name E h) (fun i : I => parse_property_name E h).
Proof. intros. unfold parse_property_name. sims. Qed.
#[local] Hint Resolve s_parse_property_name : sim.
Lemma s_class_getter : forall (I : Type) x1, sim E sl RM (orel (r_meth (RS RM) (RA sl))) (class_getter E n h x1) (fun i : I => class_getter E n h x1).
Proof. intros. unfold class_getter. sims. Qed.
#[local] Hint Resolve s_class_getter : sim.
Lemma s_class_setter : forall (I : Type) x1, sim E sl RM (orel (r_meth (RS RM) (RA sl))) (class_setter E n h x1) (fun i : I => class_setter E n h x1).
Proof. intros. unfold class_setter. sims. Qed.
#[local] Hint Resolve s_class_setter : sim.
Lemma s_class_async_method : forall (I : Type) x1, sim E sl RM (orel (r_meth (RS RM) (RA sl))) (class_async_method E n h x1) (fun i : I => class_async_method E n h x1).
Proof. intros. unfold class_async_method. sims. Qed.
#[local] Hint Resolve s_class_async_method : sim.
Lemma s_class_generator_method : forall (I : Type) x1, sim E sl RM (orel (r_meth (RS RM) (RA sl))) (class_generator_method E n h x1) (fun i : I => class_generator_method E n h x1).
Proof. intros. unfold class_generator_method. sims. Qed.
#[local] Hint Resolve s_class_generator_method : sim.
Lemma class_method_kind_rel k k' : r_key (RS RM) (RA sl) k k' -> class_method_kind k' = class_method_kind k.
Proof.
  intros []; cbn [class_method_kind]; [| |reflexivity].
  - match goal with H : r_id _ _ _ |- _ => destruct H as [-> _] end. reflexivity.
  - match goal with H : r_lit _ _ _ |- _ => destruct H as (_ & -> & _) end. reflexivity.
Qed.
Lemma s_class_plain_method : forall (I : Type) x1, sim E sl RM (orel (r_meth (RS RM) (RA sl))) (class_plain_method E n h x1) (fun i : I => class_plain_method E n h x1).
Proof.
  intros. unfold class_plain_method. sims. apply sim_ret. intros j.
  match goal with H : forall _, r_key _ _ _ _ |- _ => rewrite (class_method_kind_rel (H _)) end. rel.
Qed.
#[local] Hint Resolve s_class_plain_method : sim.
Lemma s_class_element : forall (I : Type), sim E sl RM (orel (r_meth (RS RM) (RA sl))) (class_element E n h) (fun i : I => class_element E n h).
Proof. intros. unfold class_element. sims. Qed.
#[local] Hint Resolve s_class_element : sim.
Lemma cat_some_rel (A B : Type) (R : A -> B -> Prop) l l' : Forall2 (orel R) l l' -> Forall2 R (cat_some l) (cat_some l').
Proof. intros F. induction F as [|x y l l' H F IH]; [constructor|]. destruct H; cbn [cat_some]; auto. Qed.
Lemma s_parse_class_body : forall (I : Type), sim E sl RM (Forall2 (r_meth (RS RM) (RA sl))) (parse_class_body E n h) (fun i : I => parse_class_body E n h).
Proof. intros. unfold parse_class_body. sims. apply sim_ret. intros j. apply cat_some_rel. rel. Qed.
#[local] Hint Resolve s_parse_class_body : sim.
Lemma s_parse_class_tail : forall (I : Type) x1 (x1' : I -> option node), (forall i, orel (r_node (RS RM) (RA sl)) x1 (x1' i)) -> sim E sl RM (r_node (RS RM) (RA sl)) (parse_class_tail E n h x1) (fun i : I => parse_class_tail E n h (x1' i)).
Proof. intros. unfold parse_class_tail. sims. Qed.
#[local] Hint Resolve s_parse_class_tail : sim.
Lemma s_binding_id_node : forall (I : Type), sim E sl RM (r_node (RS RM) (RA sl)) (binding_id_node E) (fun i : I => binding_id_node E).
Proof. intros. unfold binding_id_node. sims. Qed.
#[local] Hint Resolve s_binding_id_node : sim.
Lemma s_parse_class_dclr : forall (I : Type), sim E sl RM (r_node (RS RM) (RA sl)) (parse_class_dclr E n h) (fun i : I => parse_class_dclr E n h).
Proof. intros. unfold parse_class_dclr. sims. Qed.
#[local] Hint Resolve s_parse_class_dclr : sim.
Lemma s_parse_class_expr : forall (I : Type), sim E sl RM (r_node (RS RM) (RA sl)) (parse_class_expr E n h) (fun i : I => parse_class_expr E n h).
Proof. intros. unfold parse_class_expr. sims. Qed.
#[local] Hint Resolve s_parse_class_expr : sim.
Lemma s_template_piece : forall (I : Type), sim E sl RM (@eq template_element) (template_piece E) (fun i : I => template_piece E).
Proof. intros. unfold template_piece. sims. Qed.
#[local] Hint Resolve s_template_piece : sim.
Lemma s_parse_template_head : forall (I : Type), sim E sl RM (@eq template_element) (parse_template_head E) (fun i : I => parse_template_head E).
Proof.
  intros. unfold parse_template_head. sstep; [sims|]. sstep; [|sims]. cbn [repos thead]. destruct (thead t) as [[|]|]; sims.
Qed.
#[local] Hint Resolve s_parse_template_head : sim.
Lemma s_parse_template_element : forall (I : Type), sim E sl RM (@eq template_element) (parse_template_element E) (fun i : I => parse_template_element E).
Proof. intros. unfold parse_template_element. sims. Qed.
#[local] Hint Resolve s_parse_template_element : sim.
Lemma s_template_rest : forall k  (I : Type) x1, sim E sl RM (prel (@eq (list template_element)) (Forall2 (r_node (RS RM) (RA sl)))) (template_rest E h k x1) (fun i : I => template_rest E h k x1).
Proof. induction k as [|k IH]; intros; [apply sim_fuel|]. cbn [template_rest]. sims. Qed.
#[local] Hint Resolve s_template_rest : sim.
Lemma s_template_literal : forall (I : Type), sim E sl RM (prel (prel (@eq (list template_element)) (Forall2 (r_node (RS RM) (RA sl)))) (RS RM)) (template_literal E n h) (fun i : I => template_literal E n h).
Proof. intros. unfold template_literal. sims. Qed.
#[local] Hint Resolve s_template_literal : sim.
Lemma s_parse_template_literal : forall (I : Type), sim E sl RM (r_node (RS RM) (RA sl)) (parse_template_literal E n h) (fun i : I => parse_template_literal E n h).
Proof.
  intros. unfold parse_template_literal.
  eapply sim_bind; [apply s_template_literal|]. intros [[qs es] sp] J i0 z Hz.
  apply sim_ext with (m'' := fun j => ret (TemplateLiteral qs (snd (fst (z j))) AInvalid (snd (z j)))).
  { intros j. specialize (Hz j). destruct (z j) as [[qs' es'] sp']. destruct Hz as [[Hz1 Hz2] Hz3]. cbn in *. rewrite Hz1. reflexivity. }
  apply sim_ret. intros j. destruct (Hz j) as [[Hz1 Hz2] Hz3]. constructor; auto; first [apply RA_refl|rel].
Qed.
#[local] Hint Resolve s_parse_template_literal : sim.
Lemma s_tagged_template : forall (I : Type) x1 (x1' : I -> node), (forall i, r_node (RS RM) (RA sl) x1 (x1' i)) -> sim E sl RM (r_node (RS RM) (RA sl)) (tagged_template E n h x1) (fun i : I => tagged_template E n h (x1' i)).
Proof.
  intros. unfold tagged_template.
  eapply sim_bind; [apply s_template_literal|]. intros [[qs es] sp] J i0 z Hz.
  apply sim_ext with (m'' := fun j => ret (TaggedTemplateExpression (x1' (i0 j)) qs (snd (fst (z j))) (snd (z j)))).
  { intros j. specialize (Hz j). destruct (z j) as [[qs' es'] sp']. destruct Hz as [[Hz1 Hz2] Hz3]. cbn in *. rewrite Hz1. reflexivity. }
  apply sim_ret. intros j. destruct (Hz j) as [[Hz1 Hz2] Hz3]. constructor; auto; first [apply RA_refl|rel].
Qed.
#[local] Hint Resolve s_tagged_template : sim.
Lemma s_array_lit_element : forall (I : Type), sim E sl RM (orel (r_elem (RS RM) (RA sl))) (array_lit_element E h) (fun i : I => array_lit_element E h).
Proof. intros. unfold array_lit_element. sims. Qed.
#[local] Hint Resolve s_array_lit_element : sim.
Lemma s_parse_array_lit_expr : forall (I : Type), sim E sl RM (r_node (RS RM) (RA sl)) (parse_array_lit_expr E n h) (fun i : I => parse_array_lit_expr E n h).
Proof. intros. unfold parse_array_lit_expr. sims. Qed.
#[local] Hint Resolve s_parse_array_lit_expr : sim.
Lemma s_parse_method_definition : forall (I : Type) x1 (x1' : I -> prop_key) x2 x3 x4 x5, (forall i, r_key (RS RM) (RA sl) x1 (x1' i)) -> sim E sl RM (r_prop (RS RM) (RA sl)) (parse_method_definition E n h x1 x2 x3 x4 x5) (fun i : I => parse_method_definition E n h (x1' i) x2 x3 x4 x5).
Proof. intros. unfold parse_method_definition. destruct x3; sims. Qed.
#[local] Hint Resolve s_parse_method_definition : sim.
Lemma s_accessor_modifier : forall (I : Type) x1, sim E sl RM (r_mod sl RM) (accessor_modifier E n h x1) (fun i : I => accessor_modifier E n h x1).
Proof. intros. unfold accessor_modifier. sims. Qed.
#[local] Hint Resolve s_accessor_modifier : sim.
Lemma s_async_modifier : forall (I : Type), sim E sl RM (r_mod sl RM) (async_modifier E n h) (fun i : I => async_modifier E n h).
Proof. intros. unfold async_modifier. sims. Qed.
#[local] Hint Resolve s_async_modifier : sim.
Lemma s_property_modifiers : forall (I : Type), sim E sl RM (r_mod sl RM) (property_modifiers E n h) (fun i : I => property_modifiers E n h).
Proof. intros. unfold property_modifiers. sims. Qed.
#[local] Hint Resolve s_property_modifiers : sim.
Lemma s_property_key : forall (I : Type), sim E sl RM (prel (r_key (RS RM) (RA sl)) (@eq bool)) (property_key E h) (fun i : I => property_key E h).
Proof. intros. unfold property_key. sims. Qed.
#[local] Hint Resolve s_property_key : sim.
Lemma s_object_property : forall (I : Type), sim E sl RM (r_prop (RS RM) (RA sl)) (object_property E n h) (fun i : I => object_property E n h).
Proof. intros. unfold object_property. sims. Qed.
#[local] Hint Resolve s_object_property : sim.
Lemma s_parse_object_lit_expr : forall (I : Type), sim E sl RM (r_node (RS RM) (RA sl)) (parse_object_lit_expr E n h) (fun i : I => parse_object_lit_expr E n h).
Proof. intros. unfold parse_object_lit_expr. sims. Qed.
#[local] Hint Resolve s_parse_object_lit_expr : sim.
Lemma s_argument : forall (I : Type), sim E sl RM (r_arg (RS RM) (RA sl)) (argument E h) (fun i : I => argument E h).
Proof. intros. unfold argument. sims. Qed.
#[local] Hint Resolve s_argument : sim.
Lemma s_parse_arguments : forall (I : Type), sim E sl RM (Forall2 (r_arg (RS RM) (RA sl))) (parse_arguments E n h) (fun i : I => parse_arguments E n h).
Proof. intros. unfold parse_arguments. sims. Qed.
#[local] Hint Resolve s_parse_arguments : sim.
Lemma s_seq_element : forall (I : Type), sim E sl RM (prel (r_node (RS RM) (RA sl)) (@eq bool)) (seq_element E n h) (fun i : I => seq_element E n h).
Proof. intros. unfold seq_element. sims. Qed.
#[local] Hint Resolve s_seq_element : sim.
Lemma s_seq_to_arrow : forall (I : Type) x1 (x1' : I -> list node), (forall i, Forall2 (r_node (RS RM) (RA sl)) x1 (x1' i)) -> sim E sl RM (r_node (RS RM) (RA sl)) (seq_to_arrow E n h x1) (fun i : I => seq_to_arrow E n h (x1' i)).
Proof. intros. unfold seq_to_arrow. sims. Qed.
#[local] Hint Resolve s_seq_to_arrow : sim.
Lemma existsb_snd_rel (A B : Type) (R : A -> B -> Prop) l l' : Forall2 (prel R (@eq bool)) l l' -> existsb snd l' = existsb snd l.
Proof. intros F. induction F as [|x y l l' [G1 G2] F IH]; [reflexivity|]. cbn [existsb]. rewrite IH, G2. reflexivity. Qed.
Lemma map_fst_rel (A B C D : Type) (R : A -> B -> Prop) (R' : C -> D -> Prop) l l' : Forall2 (prel R R') l l' -> Forall2 R (map fst l) (map fst l').
Proof. intros F. induction F as [|x y l l' [G1 G2] F IH]; constructor; auto. Qed.
Lemma one_rel l l' : Forall2 (r_node (RS RM) (RA sl)) l l' ->
  RA sl (match l with [e] => assign_target_type e | _ => AInvalid end) (match l' with [e] => assign_target_type e | _ => AInvalid end).
Proof. intros [|x y ? ? H [|? ? ? ? ? ?]]; [apply RA_refl|eapply att_rel; exact H|apply RA_refl]. Qed.
Lemma s_parse_seq_or_arrow : forall (I : Type), sim E sl RM (r_node (RS RM) (RA sl)) (parse_seq_or_arrow E n h) (fun i : I => parse_seq_or_arrow E n h).
Proof.
  intros. unfold parse_seq_or_arrow. cbv zeta. do 4 (sstep; [sims|]). sstep; [sims|].
  match goal with H : forall _, Forall2 (prel _ _) _ _ |- _ => rename H into F end.
  eapply sim_if; [intros j; rewrite (existsb_snd_rel (F _)); reflexivity|intros _|intros _].
  - assert (F' := fun j => map_fst_rel (F j)). sims.
  - sims. apply sim_ret. intros j. assert (F' := fun j => map_fst_rel (F j)). constructor; [apply F'|apply one_rel, F'|rel].
Qed.
#[local] Hint Resolve s_parse_seq_or_arrow : sim.
Lemma s_parse_async_call_or_arrow : forall (I : Type) x1 (x1' : I -> node), (forall i, r_node (RS RM) (RA sl) x1 (x1' i)) -> sim E sl RM (r_node (RS RM) (RA sl)) (parse_async_call_or_arrow E n h x1) (fun i : I => parse_async_call_or_arrow E n h (x1' i)).
Proof. intros. unfold parse_async_call_or_arrow. sims. Qed.
#[local] Hint Resolve s_parse_async_call_or_arrow : sim.
Lemma s_parse_async_primary_expr : forall (I : Type), sim E sl RM (r_node (RS RM) (RA sl)) (parse_async_primary_expr E n h) (fun i : I => parse_async_primary_expr E n h).
Proof. intros. unfold parse_async_primary_expr. sims. Qed.
#[local] Hint Resolve s_parse_async_primary_expr : sim.
Lemma s_parse_primary_expr : forall (I : Type), sim E sl RM (r_node (RS RM) (RA sl)) (parse_primary_expr E n h) (fun i : I => parse_primary_expr E n h).
Proof. intros. unfold parse_primary_expr. sims. Qed.
#[local] Hint Resolve s_parse_primary_expr : sim.
Lemma s_parse_computed_member_expr : forall (I : Type) x1 (x1' : I -> node), (forall i, r_node (RS RM) (RA sl) x1 (x1' i)) -> sim E sl RM (r_node (RS RM) (RA sl)) (parse_computed_member_expr E h x1) (fun i : I => parse_computed_member_expr E h (x1' i)).
Proof. intros. unfold parse_computed_member_expr. sims. Qed.
#[local] Hint Resolve s_parse_computed_member_expr : sim.
Lemma s_parse_static_member_expr : forall (I : Type) x1 (x1' : I -> node), (forall i, r_node (RS RM) (RA sl) x1 (x1' i)) -> sim E sl RM (r_node (RS RM) (RA sl)) (parse_static_member_expr E x1) (fun i : I => parse_static_member_expr E (x1' i)).
Proof. intros. unfold parse_static_member_expr. sims. Qed.
#[local] Hint Resolve s_parse_static_member_expr : sim.
Lemma s_parse_super : forall (I : Type), sim E sl RM (r_node (RS RM) (RA sl)) (parse_super E) (fun i : I => parse_super E).
Proof. intros. unfold parse_super. sims. Qed.
#[local] Hint Resolve s_parse_super : sim.
Lemma s_member_tail : forall k  (I : Type) x1 (x1' : I -> node), (forall i, r_node (RS RM) (RA sl) x1 (x1' i)) -> sim E sl RM (r_node (RS RM) (RA sl)) (member_tail E n h k x1) (fun i : I => member_tail E n h k (x1' i)).
Proof. induction k as [|k IH]; intros; [apply sim_fuel|]. cbn [member_tail]. sims. Qed.
#[local] Hint Resolve s_member_tail : sim.
Lemma s_parse_member_expr : forall (I : Type), sim E sl RM (r_node (RS RM) (RA sl)) (parse_member_expr E n h) (fun i : I => parse_member_expr E n h).
Proof. intros. unfold parse_member_expr. sims. Qed.
#[local] Hint Resolve s_parse_member_expr : sim.
Lemma s_call_tail : forall k  (I : Type) x1 (x1' : I -> node), (forall i, r_node (RS RM) (RA sl) x1 (x1' i)) -> sim E sl RM (r_node (RS RM) (RA sl)) (call_tail E n h k x1) (fun i : I => call_tail E n h k (x1' i)).
Proof. induction k as [|k IH]; intros; [apply sim_fuel|]. cbn [call_tail]. sims. Qed.
#[local] Hint Resolve s_call_tail : sim.
Lemma s_parse_new_expr : forall (I : Type), sim E sl RM (r_node (RS RM) (RA sl)) (parse_new_expr E n h) (fun i : I => parse_new_expr E n h).
Proof. intros. unfold parse_new_expr. sims. Qed.
#[local] Hint Resolve s_parse_new_expr : sim.
Lemma s_parse_call_expr : forall (I : Type), sim E sl RM (r_node (RS RM) (RA sl)) (parse_call_expr E n h) (fun i : I => parse_call_expr E n h).
Proof. intros. unfold parse_call_expr. sims. Qed.
#[local] Hint Resolve s_parse_call_expr : sim.
Lemma s_parse_left_hand_side_expr : forall (I : Type), sim E sl RM (r_node (RS RM) (RA sl)) (parse_left_hand_side_expr E n h) (fun i : I => parse_left_hand_side_expr E n h).
Proof. intros. unfold parse_left_hand_side_expr. sims. Qed.
#[local] Hint Resolve s_parse_left_hand_side_expr : sim.
Lemma s_parse_update_expr : forall (I : Type), sim E sl RM (r_node (RS RM) (RA sl)) (parse_update_expr E n h) (fun i : I => parse_update_expr E n h).
Proof. intros. unfold parse_update_expr. sims.
Qed.
#[local] Hint Resolve s_parse_update_expr : sim.
Lemma s_cur_unary_op : forall (I : Type), sim E sl RM (@eq bool) (cur_unary_op) (fun i : I => cur_unary_op).
Proof. intros. unfold cur_unary_op. sims. Qed.
#[local] Hint Resolve s_cur_unary_op : sim.
Lemma s_parse_unary_expr : forall (I : Type), sim E sl RM (r_node (RS RM) (RA sl)) (parse_unary_expr E n h) (fun i : I => parse_unary_expr E n h).
Proof. intros. unfold parse_unary_expr. sims. Qed.
#[local] Hint Resolve s_parse_unary_expr : sim.
Lemma s_parse_exponentiation_expr : forall (I : Type), sim E sl RM (r_node (RS RM) (RA sl)) (parse_exponentiation_expr E n h) (fun i : I => parse_exponentiation_expr E n h).
Proof. intros. unfold parse_exponentiation_expr. sims. Qed.
#[local] Hint Resolve s_parse_exponentiation_expr : sim.
Lemma s_climb_inner : forall k (I : Type) x1 (q : I -> marker * N) x2 (x2' : I -> node), (forall i, r_node (RS RM) (RA sl) x2 (x2' i)) -> sim E sl RM (r_node (RS RM) (RA sl)) (climb_inner h k x1 x2) (fun i : I => climb_inner h k (repos (q i) x1) (x2' i)).
Proof.
  induction k as [|k IH]; intros; [apply sim_fuel|]. cbn [climb_inner].
  do 2 (sstep; [sims|]). sstep; [|sims].
  sstep; [exact (H5' (fun j => x2' (i (i0 j))) (precedence (has_in a) t) (fun j => H (i (i0 j))))|].
  match goal with |- sim _ _ _ _ (climb_inner _ _ ?y1 ?y2) (fun j => climb_inner _ _ (repos (@?q j) ?y1) (@?y2' j)) => apply (@IH _ y1 q y2 y2') end. rel.
Qed.
Lemma s_climb : forall k (I : Type) x1 (x1' : I -> node) x2, (forall i, r_node (RS RM) (RA sl) x1 (x1' i)) -> sim E sl RM (r_node (RS RM) (RA sl)) (climb E n h k x1 x2) (fun i : I => climb E n h k (x1' i) x2).
Proof.
  induction k as [|k IH]; intros; [apply sim_fuel|]. cbn [climb]. sims.
  match goal with |- sim _ _ _ _ (climb_inner _ ?k ?y1 ?y2) (fun j => climb_inner _ _ (repos (@?q j) ?y1) (@?y2' j)) => apply (@s_climb_inner k _ y1 q y2 y2') end. rel.
Qed.
#[local] Hint Resolve s_climb : sim.
Lemma s_precedence_climbing : forall (I : Type) x1 (x1' : I -> node) x2, (forall i, r_node (RS RM) (RA sl) x1 (x1' i)) -> sim E sl RM (r_node (RS RM) (RA sl)) (precedence_climbing E n h x1 x2) (fun i : I => precedence_climbing E n h (x1' i) x2).
Proof. intros. unfold precedence_climbing. sims. Qed.
#[local] Hint Resolve s_precedence_climbing : sim.
Lemma s_parse_binary_expr : forall (I : Type), sim E sl RM (r_node (RS RM) (RA sl)) (parse_binary_expr E n h) (fun i : I => parse_binary_expr E n h).
Proof. intros. unfold parse_binary_expr. sims. Qed.
#[local] Hint Resolve s_parse_binary_expr : sim.
Lemma s_parse_conditional_expr : forall (I : Type), sim E sl RM (r_node (RS RM) (RA sl)) (parse_conditional_expr E n h) (fun i : I => parse_conditional_expr E n h).
Proof. intros. unfold parse_conditional_expr. sims. Qed.
#[local] Hint Resolve s_parse_conditional_expr : sim.
Lemma s_parse_yield_expr : forall (I : Type), sim E sl RM (r_node (RS RM) (RA sl)) (parse_yield_expr E n h) (fun i : I => parse_yield_expr E n h).
Proof. intros. unfold parse_yield_expr. sims. Qed.
#[local] Hint Resolve s_parse_yield_expr : sim.
Lemma s_maybe_arrow : forall (I : Type) x1 (x1' : I -> node), (forall i, r_node (RS RM) (RA sl) x1 (x1' i)) -> sim E sl RM (r_node (RS RM) (RA sl)) (maybe_arrow E n h x1) (fun i : I => maybe_arrow E n h (x1' i)).
Proof. intros. unfold maybe_arrow. sims. Qed.
#[local] Hint Resolve s_maybe_arrow : sim.
Lemma s_assignment_tail : forall (I : Type) x1 (x1' : I -> node), (forall i, r_node (RS RM) (RA sl) x1 (x1' i)) -> sim E sl RM (r_node (RS RM) (RA sl)) (assignment_tail E h x1) (fun i : I => assignment_tail E h (x1' i)).
Proof. intros. unfold assignment_tail. sims. Qed.
#[local] Hint Resolve s_assignment_tail : sim.
Lemma s_parse_assignment_expr : forall (I : Type), sim E sl RM (r_node (RS RM) (RA sl)) (parse_assignment_expr E n h) (fun i : I => parse_assignment_expr E n h).
Proof. intros. unfold parse_assignment_expr. sims. Qed.
#[local] Hint Resolve s_parse_assignment_expr : sim.
Lemma nil_mark_rel (A B : Type) (R : A -> B -> Prop) l l' : Forall2 R l l' ->
  RA sl (match l with [] => ASimple | _ => AInvalid end) (match l' with [] => ASimple | _ => AInvalid end).
Proof. intros []; apply RA_refl. Qed.
Lemma s_comma_then (I A B : Type) (R : A -> B -> Prop) m (m' : I -> PM B) : (forall J (i : J -> I), sim E sl RM R m (fun j => m' (i j))) ->
  sim E sl RM R (comma_then E m) (fun i => comma_then E (m' i)).
Proof. intros H. unfold comma_then. sstep; [sims|]. apply H. Qed.
Lemma s_parse_expression : forall (I : Type), sim E sl RM (r_node (RS RM) (RA sl)) (parse_expression E n h) (fun i : I => parse_expression E n h).
Proof.
  intros. unfold parse_expression. sims.
  - apply s_comma_then. intros. sims.
  - apply sim_ret. intros j. constructor; [rel|eapply nil_mark_rel; rel|rel].
Qed.
#[local] Hint Resolve s_comma_then s_parse_expression : sim.
End Expr.
#[export] Hint Resolve s_comma_then s_advance_string s_consume_p s_consume_kw s_consume_id s_consume_semicolon s_parse_id_reference s_parse_binding_id s_parse_id_name s_comma_unless s_assign_in s_expression_in s_value_to_key s_obj_pat_value s_obj_pat_key s_obj_pat_rest s_obj_pat_property s_parse_obj_binding_pat s_arr_pat_element s_parse_arr_binding_pat s_parse_binding_id_or_pat s_directive_prologues s_parse_statement_list s_parse_function_body_block s_parse_function_body s_formal_param s_parse_formal_params s_params_and_body s_parse_function_expr s_parse_arrow_body s_parse_single_param_arrow_function_expr s_param_of_pattern s_seq_to_arrow_params s_arguments_to_params s_parse_computed_property_name s_parse_property_name s_class_getter s_class_setter s_class_async_method s_class_generator_method s_class_plain_method s_class_element s_parse_class_body s_parse_class_tail s_binding_id_node s_parse_class_dclr s_parse_class_expr s_template_piece s_parse_template_head s_parse_template_element s_template_rest s_template_literal s_parse_template_literal s_tagged_template s_array_lit_element s_parse_array_lit_expr s_parse_method_definition s_accessor_modifier s_async_modifier s_property_modifiers s_property_key s_object_property s_parse_object_lit_expr s_argument s_parse_arguments s_seq_element s_seq_to_arrow s_parse_seq_or_arrow s_parse_async_call_or_arrow s_parse_async_primary_expr s_parse_primary_expr s_parse_computed_member_expr s_parse_static_member_expr s_parse_super s_member_tail s_parse_member_expr s_call_tail s_parse_new_expr s_parse_call_expr s_parse_left_hand_side_expr s_parse_update_expr s_cur_unary_op s_parse_unary_expr s_parse_exponentiation_expr s_climb_inner s_climb s_precedence_climbing s_parse_binary_expr s_parse_conditional_expr s_parse_yield_expr s_maybe_arrow s_assignment_tail s_parse_assignment_expr s_parse_expression : sim.
