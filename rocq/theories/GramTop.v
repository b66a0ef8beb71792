(** * GramTop: every phrase of the grammar is parsed to its tree (proofs). *)
From Verif Require Import Base Codepoint Punct Token Scanner SpecLex SpecScan Hoare ScanBase ScanTokens2.
From Verif Require Import Ast Convert ParserBase ParserExpr ParserStmt Parser SpecJson SpecBare SpecLayout SpecGrammar GramLex GramBase GramTac GramPat GramExpr GramExpr2 GramExpr3 GramExpr4.
From Verif Require Import GramBal GramStmt GramStmt2 GramStmt3 LexProofs ParseProofs.
From Coq Require Import ZifyBool ZifyN ZifyNat.
Set Implicit Arguments.

Section Top.
Context (E : env).
Hypothesis Hsane : ucd_sane E.

Definition claim (M : mode) (c : cat) : list tok -> tok -> out c -> Prop :=
  match c as c0 return list tok -> tok -> out c0 -> Prop with
  | Primary => fun l nt e => starts start_prim l /\ forall F, mok M F -> P_prim E F l nt e
  | Member => fun l nt e => starts start_prim l /\ forall F, mok M F -> P_member E F l nt e
  | Call n => fun l nt e => starts start_left l /\ forall F, mok M F -> P_call E F n l nt e
  | Left n => fun l nt e => claimLeft E M n l nt e
  | Update lone => fun l nt e => starts start_upd l /\ forall F, mok M F -> ok_upd nt -> P_update E F lone l nt e
  | Unary lone => fun l nt e => starts start_un l /\ forall F, mok M F -> (ok_upd nt -> P_unary E F lone l nt e) /\ (ok_exp nt -> P_exp E F lone l nt e)
  | Exp lone => fun l nt e => starts start_un l /\ forall F, mok M F -> ok_exp nt -> P_exp E F lone l nt e
  | Bin inn q lone => fun l nt e => starts start_un l /\ forall F, eok M F inn -> ok_exp nt -> level inn (knd nt) <= q ->
      P_O E F q lone l nt e /\ P_I E F inn q lone l nt e
  | Cond inn => fun l nt e => starts start_un l /\ forall F, eok M F inn -> ok_assign inn nt -> P_cond E F l nt e
  | Assignment inn => fun l nt e => claimA E M inn l nt e
  | Exprs inn => fun l nt es => sep (claimA E M inn) nt l es
  | Expr inn => fun l nt e => claimE E M inn l nt e
  | OptExpr => fun l nt e => claimX E M l nt e
  | ArrowBody inn => fun l nt e => claimB E M inn l nt e
  | Elems => fun l nt e => claimL E M l nt e
  | Props => fun l nt e => claimOs E M l nt e
  | Prop_ => fun l nt e => claimO E M l nt e
  | Args => fun l nt e => (exists b l0, l = P b LParen :: l0) /\ forall F, mok M F -> P_args E F l nt e
  | ArgList => fun l nt e => claimR E M l nt e
  | Formals => fun l nt e => claimT E M l nt e
  | Params => fun l nt e => claimP E M l nt e
  | FunBody => fun l nt e => claimF E M l nt e
  | Body c => fun l nt e => body E M c nt l e
  | Stmts c => fun l nt e => items E M c nt l e
  | Item c => fun l nt e => claimI E M c l nt e
  | Stmt c => fun l nt e => claimS E M c l nt e
  | Block c => fun l nt e => claimK E M c l nt e
  | Decl inn => fun l nt e => declS E M inn l nt e
  | Decls inn => fun l nt e => sep (declS E M inn) nt l e
  | ForRest c => fun l nt e => claimFR E M c l nt e
  | InRest c => fun l nt e => claimIR E M c l nt e
  | OfRest c => fun l nt e => claimOR E M c l nt e
  | Case c => fun l nt e => caseS E M c l nt e
  | Cases c d => fun l nt e => claimCs E M c d l nt e
  | Template => fun l nt e => (exists b tl w v l0, l = T b (KTempl true tl w v) :: l0) /\ forall F, mok M F -> P_template E F l nt e
  | TemplateRest => fun l nt e => forall F, mok M F -> P_trest E F l nt e
  | ArrowParams => fun l nt e => claimAP E M l nt e
  | Bind => fun l nt e => claimBind E M l nt e
  | BindInit => fun l nt e => claimBI E M l nt e
  | PatElems => fun l nt e => claimPE E M l nt e
  | PatProps => fun l nt e => claimPPs E M l nt e
  | PatProp => fun l nt e => claimPP E M l nt e
  | Key => fun l nt e => claimKey E M l nt e
  | Method _ => fun l nt e => claimM E M l nt e
  | ClassBody _ => fun l nt e => claimCB E M l nt e
  | ClassTail => fun l nt e => claimCT E M l nt e
  end.

Lemma decls_D M inn nt l ds : sep (declS E M inn) nt l ds -> sep (claimD E M inn) nt l ds.
Proof. apply sep_impl. intros; apply declS_D; auto. Qed.
Lemma dot_ok b : ok_lhs (P b Assign). Proof. constructor; reflexivity. Qed.
Lemma aop_lhs b p : assign_op p -> ok_lhs (P b p).
Proof. unfold assign_op. cbn [In]. intros H. repeat destruct H as [<-|H]; [..|contradiction]; constructor; reflexivity. Qed.
Lemma upd_lhs b p : update_op p -> ok_lhs (P b p).
Proof. intros [->| ->]; constructor; reflexivity. Qed.
Lemma pow_upd b : ok_upd (P b Pow).
Proof. split; [constructor; reflexivity|right; reflexivity]. Qed.
Lemma q_exp b : ok_exp (P b Question).
Proof. split; [split; [constructor; reflexivity|right; reflexivity]|reflexivity]. Qed.
Lemma level_max inn k : level inn k <= 11.
Proof. destruct k as [p|w| | | | | | | |]; cbn; try lia; [destruct p; cbn; lia|]. destruct (String.eqb w "instanceof"), (String.eqb w "in" && inn); lia. Qed.
Lemma right_ge q : q <= right_level q.
Proof. unfold right_level. destruct (q =? 10) eqn:?; lia. Qed.

Lemma arrow_gen M a : in_generator (arrow_mode M a) = false.
Proof. reflexivity. Qed.
Lemma piece_ok inn b tl w v : ok_expr inn (T b (KTempl false tl w v)).
Proof. split; [|reflexivity]. constructor; [|reflexivity..]. split; [|split; reflexivity]. split; [|reflexivity]. split; [|right; reflexivity]. constructor; reflexivity. Qed.
Theorem phrase M c l nt e : gr E M c l nt e -> claim M c l nt e.
Proof.
  induction 1; cbn [claim] in *.
  - split; [cbn; eauto with gr|]. intros; eapply r_this; eauto.
  - split; [cbn; eauto with gr|]. intros; eapply r_id; eauto.
  - split; [cbn; eauto with gr|]. intros; eapply r_num; eauto.
  - split; [cbn; eauto with gr|]. intros; eapply r_str; eauto.
  - split; [cbn; eauto with gr|]. intros; eapply r_null; eauto.
  - split; [cbn; eauto with gr|]. intros; eapply r_bool; eauto.
  - split; [cbn; eauto with gr|]. intros; eapply r_paren; eauto.
  - split; [cbn; eauto with gr|]. intros; eapply r_array; eauto.
  - split; [cbn; eauto with gr|]. intros; eapply r_object; eauto.
  - split; [cbn; eauto with gr|]. intros; eapply r_function with (M1 := params_mode (fun_mode M)) (M2 := fun_mode M); auto using mok_params, mok_fun.
  - split; [cbn; eauto with gr|]. intros; eapply r_function_named with (M1 := params_mode (fun_mode M)) (M2 := fun_mode M); auto using mok_params, mok_fun.
  - split; [cbn [starts knd]; eauto with gr|]. intros; eapply r_async with (M1 := params_mode (async_mode M)) (M2 := async_mode M); auto using mok_params, mok_async.
  - split; [cbn [starts knd]; eauto with gr|]. intros; eapply r_async_named with (M1 := params_mode (async_mode M)) (M2 := async_mode M); auto using mok_params, mok_async.
  - split; [cbn; eauto with gr|]. intros; eapply r_class; eauto.
  - split; [cbn; eauto with gr|]. intros; eapply r_regexp; eauto.
  - destruct IHgr as [(b & tl & w & v & l0 & ->) H1]. split; [cbn; eauto with gr|]. intros; eapply r_template; eauto.
  - split; [eauto 10|]. intros; eapply r_template_one; eauto.
  - split; [eauto 10|]. intros; eapply r_template_head; eauto.
  - destruct IHgr as [H1 H2]. intros F HF. eapply r_template_last; eauto. apply H2; [apply eok_in; auto|apply piece_ok].
  - destruct IHgr1 as [H1 H2]. intros F HF. eapply r_template_more; eauto. apply H2; [apply eok_in; auto|apply piece_ok].
  - eapply r_elems_nil; eauto.
  - eapply r_elems_hole; eauto.
  - eapply r_elems_last; eauto.
  - eapply r_elems_more; eauto.
  - eapply r_elems_spread_last; eauto.
  - eapply r_elems_spread; eauto.
  - eapply r_props_nil; eauto.
  - eapply r_props_last; eauto.
  - eapply r_props_more; eauto.
  - eapply r_props_generator; eauto; unfold allows; splits; try reflexivity; discriminate.
  - eapply r_prop_init; eauto.
  - eapply r_prop_str; eauto.
  - eapply r_prop_num; eauto.
  - eapply r_prop_computed; eauto.
  - eapply r_prop_short; eauto.
  - eapply r_prop_method; eauto; unfold allows; splits; try reflexivity; discriminate.
  - eapply r_prop_get; eauto; unfold allows; splits; try reflexivity; discriminate.
  - eapply r_prop_set; eauto; unfold allows; splits; try reflexivity; discriminate.
  - eapply r_prop_async; eauto; unfold allows; splits; try reflexivity; discriminate.
  - eapply r_prop_spread; eauto.
  (* member, call *)
  - destruct IHgr as [H1 H2]. split; auto. intros; eapply r_member_prim; eauto.
  - destruct IHgr as [I1 I2]. split; [auto with gr|]. intros; eapply r_member_dot; eauto.
  - destruct IHgr1 as [H1 H2]. destruct IHgr2 as [H3 H4]. split; [auto with gr|]. intros F HF. eapply r_member_index; eauto.
    apply H4; [apply eok_in; auto|apply close_expr; reflexivity].
  - destruct IHgr1 as [H1 H2]. destruct IHgr2 as [(b & l0 & ->) H4]. split; [auto with gr|]. intros F HF. eapply r_call_member; eauto.
  - destruct IHgr1 as [H1 H2]. destruct IHgr2 as [(b & tl & w & v & l0 & ->) H4]. split; [auto with gr|]. intros F HF. eapply r_member_template; eauto.
  - destruct IHgr1 as [H1 H2]. destruct IHgr2 as [(b & tl & w & v & l0 & ->) H4]. split; [auto with gr|]. intros F HF. eapply r_call_template; eauto.
  - destruct IHgr1 as [H1 H2]. destruct IHgr2 as [(b0 & l0 & ->) H4]. split; [cbn; auto with gr|]. intros F HF. eapply r_call_new; eauto.
  - destruct IHgr1 as [H1 H2]. destruct IHgr2 as [(b0 & l0 & ->) H4]. split; [auto with gr|]. intros F HF. eapply r_call_again; eauto.
  - destruct IHgr as [I1 I2]. split; [auto with gr|]. intros; eapply r_call_dot; eauto.
  - destruct IHgr1 as [H1 H2]. destruct IHgr2 as [H3 H4]. split; [auto with gr|]. intros F HF. eapply r_call_index; eauto.
    apply H4; [apply eok_in; auto|apply close_expr; reflexivity].
  - destruct IHgr as [H1 H2]. split; [auto with gr|]. intros F HF Hn. eapply r_left_member; eauto.
  - destruct IHgr as [H1 H2]. split; [auto with gr|]. intros F HF Hn. eapply r_left_call; eauto.
  - destruct IHgr as [(b0 & l0 & ->) H4]. split; [cbn; auto with gr|]. intros F HF. eapply r_call_super; eauto.
  - split; [cbn; auto with gr|]. intros F HF. eapply r_call_super_dot; eauto.
  - destruct IHgr as [H3 H4]. split; [cbn; auto with gr|]. intros F HF. eapply r_call_super_index; eauto.
    apply H4; [apply eok_in; auto|apply close_expr; reflexivity].
  - split; [cbn; auto with gr|]. intros F HF Hn. eapply r_left_target; eauto.
  - destruct IHgr as [H1 H2]. split; [cbn; auto with gr|]. intros F HF Hn. eapply r_left_new; eauto.
  - split; [eauto|]. intros F HF. eapply r_args; eauto.
  - eapply r_arglist_nil; eauto.
  - eapply r_arglist_last; eauto.
  - eapply r_arglist_more; eauto.
  - eapply r_arglist_spread_last; eauto.
  - eapply r_arglist_spread; eauto.
  (* operators *)
  - destruct IHgr as [H1 H2]. split; [auto with gr|]. intros F HF Hn. apply r_update_left; auto with gr.
  - destruct IHgr as [H3 H4]. split; [auto with gr|]. intros F HF Hn. eapply r_update_postfix; eauto. apply H4; auto. apply upd_lhs; auto.
  - destruct IHgr as [H3 H4]. split; [destruct H as [->| ->]; cbn; auto with gr|]. intros F HF Hn. eapply r_update_prefix; eauto. apply H4; auto.
  - destruct IHgr as [H1 H2]. split; [auto with gr|]. intros F HF. split; intros Hn.
    + eapply r_unary_update; eauto. + apply r_exp_update; auto with gr.
  - destruct IHgr as [H1 H2]. split; [cbn; auto with gr|]. intros F HF.
    assert (Hu : ok_upd nt -> P_unary E F lone (T b k :: l) nt (UnaryExpression (op_text k) e true ASimple nowhere)).
    { intros Hn. eapply r_unary_op; eauto using un_op. apply H2; auto. }
    split; [exact Hu|]. intros Hn. eapply r_exp_op; eauto using un_op. apply Hu. auto with gr.
  - destruct IHgr as [H1 H2]. split; [cbn; auto with gr|]. intros F HF.
    assert (Hk : un_word F (KW "await")) by (apply un_await; apply HF; auto).
    assert (Hu : ok_upd nt -> P_unary E F lone (W b "await" :: l) nt (UnaryExpression (s2l "await") e true ASimple nowhere)).
    { intros Hn. eapply (@r_unary_op E Hsane F b (KW "await")); eauto. apply H2; auto. }
    split; [exact Hu|]. intros Hn. eapply r_exp_op; eauto. apply Hu. auto with gr.
  - destruct IHgr as [H1 H2]. split; auto. intros F HF. apply H2; auto.
  - destruct IHgr1 as [H2 H3]. destruct IHgr2 as [H4 H5]. split; [auto with gr|]. intros F HF Hn. eapply r_exp_pow; eauto. apply H3; auto. apply pow_upd.
  - destruct IHgr as [H1 H2]. split; auto. intros F HF Hn _. split; [apply r_bin_exp_O|apply r_bin_exp_I]; apply H2; auto; apply HF.
  - destruct IHgr as [H1 H2]. split; auto. intros F HF Hn Hq. destruct (H2 F HF Hn) as [H3 H4]; [lia|]. split; [apply r_bin_up_O|apply r_bin_up_I]; auto.
  - destruct IHgr1 as [H4 H5]. destruct IHgr2 as [H6 H7]. split; [auto with gr|]. intros F HF Hn Hq.
    assert (Hk : ok_exp (T b k)) by (apply (@level_ok inn); lia).
    destruct (H5 F HF Hk) as [H8 H9]; [cbn [knd]; lia|]. pose proof (right_ge q). destruct (H7 F HF Hn) as [H11 H12]; [lia|].
    split; [eapply r_bin_op_O with (inn := inn)|eapply r_bin_op_I with (inn := inn)]; eauto; apply HF.
  - destruct IHgr as [H1 H2]. split; auto. intros F HF Hn. apply condx_cond. eapply r_cond_binx; [apply HF| |apply Hn].
    apply H2; auto; [apply Hn|]. destruct Hn as [(_ & Hn & _) _]. lia.
  - destruct IHgr1 as [H4 H5]. split; [auto with gr|]. intros F HF Hn. eapply r_cond; eauto. apply H5; auto; [apply q_exp|cbn; lia].
  - destruct IHgr as [H1 H2]. split; [auto with gr|]. intros F HF Hn. eapply r_assign_cond; eauto.
  - destruct IHgr1 as [H4 H5]. split; [auto with gr|]. intros F HF Hn. eapply r_assign; eauto. apply H5; [apply HF|apply dot_ok].
  - destruct IHgr1 as [H4 H5]. split; [auto with gr|]. intros F HF Hn. eapply r_assign_op; eauto. apply H5; [apply HF|apply aop_lhs; auto].
  - split; [cbn; auto with gr|]. intros F HF Hn. eapply r_yield; eauto.
  - split; [cbn; auto with gr|]. intros F HF Hn. eapply r_yield_arg; eauto.
  - split; [cbn; auto with gr|]. intros F HF Hn. eapply r_yield_star; eauto.
  - split; [cbn; auto with gr|]. intros F HF Hn. eapply r_arrow_one with (M := M) (M' := arrow_mode M false); eauto.
  - split; [cbn; auto with gr|]. intros F HF Hn. eapply r_arrow with (M := M) (M' := arrow_mode M false); eauto.
  - split; [cbn [starts knd]; auto with gr|]. intros F HF Hn. eapply r_arrow_async with (M := M) (M1 := arrow_mode M true); eauto.
  - eapply r_arrow_body_expr; eauto.
  - eapply r_arrow_body_block; eauto.
  - constructor; auto.
  - constructor; auto.
  - eapply r_expr_one; eauto. inversion IHgr; subst; auto. match goal with H : sep _ _ _ [] |- _ => inversion H end.
  - eapply r_expr_seq; eauto.
  - left; auto.
  - right; eauto.
  (* functions *)
  - eapply r_formals; eauto.
  - eapply r_params_nil; eauto.
  - eapply r_params_last; eauto.
  - eapply r_params_more; eauto.
  - eapply r_params_rest; eauto.
  - eapply r_arrow_nil; eauto.
  - eapply r_arrow_last; eauto.
  - eapply r_arrow_more; eauto.
  - eapply r_arrow_rest; eauto.
  - eapply r_bind_id; eauto.
  - eapply r_bind_array; eauto.
  - eapply r_bind_object; eauto.
  - left. split; [reflexivity|]. auto.
  - right. eexists _, _, _, _. splits; [reflexivity|reflexivity|auto|auto].
  - eapply r_pat_elems_nil; eauto.
  - eapply r_pat_elems_hole; eauto.
  - eapply r_pat_elems_last; eauto.
  - eapply r_pat_elems_more; eauto.
  - eapply r_pat_elems_rest; eauto.
  - eapply r_pat_props_nil; eauto.
  - eapply r_pat_props_last; eauto.
  - eapply r_pat_props_more; eauto.
  - eapply r_pat_props_rest; eauto.
  - eapply r_pat_prop_short; eauto.
  - eapply r_pat_prop_short_init; eauto.
  - eapply r_pat_prop_name; eauto.
  - eapply r_pat_prop_str; eauto.
  - eapply r_pat_prop_num; eauto.
  - eapply r_pat_prop_computed; eauto.
  - eapply r_funbody; eauto.
  - eapply r_body_directive; eauto.
  - eapply r_body; eauto.
  (* statements *)
  - constructor.
  - constructor; auto.
  - eapply r_item_stmt; eauto.
  - eapply r_item_let; eauto. apply decls_D; auto.
  - eapply r_item_const; eauto. apply decls_D; auto.
  - eapply r_item_function; eauto; unfold allows; splits; try reflexivity; discriminate.
  - eapply r_item_generator; eauto; unfold allows; splits; try reflexivity; discriminate.
  - eapply r_item_class; eauto.
  - left. eauto.
  - right. eauto 10.
  - constructor; auto.
  - constructor; auto.
  - eapply r_block; eauto.
  - eapply r_stmt_block; eauto.
  - eapply r_stmt_empty; eauto.
  - eapply r_stmt_var; eauto. apply decls_D; auto.
  - eapply r_stmt_expr; eauto.
  - eapply r_stmt_label; eauto.
  - match goal with Ha : m_strict M = false |- _ => eapply (@r_stmt_label_function E M (params_mode (decl_mode M false)) (decl_mode M false)) end; eauto; unfold allows; splits; try reflexivity; discriminate.
  - eapply r_stmt_with; eauto.
  - eapply r_stmt_if; eauto.
  - eapply r_stmt_if_else; eauto.
  - eapply r_stmt_while; eauto.
  - eapply r_stmt_do; eauto.
  - apply GramStmt2.g_for_none; auto.
  - eapply r_for_expr; eauto.
  - eapply r_for_exprs; eauto.
  - eapply r_for_decl; eauto.
  - eapply r_for_decls; eauto. apply decls_D; auto.
  - eapply r_for_rest; eauto.
  - eapply r_for_in_decl; eauto.
  - eapply r_for_in; eauto.
  - eapply r_in_rest; eauto.
  - eapply r_for_of; eauto.
  - eapply r_of_rest; eauto.
  - eapply r_stmt_continue; eauto.
  - eapply r_stmt_continue_label; eauto.
  - eapply r_stmt_break; eauto.
  - eapply r_stmt_break_label; eauto.
  - eapply r_stmt_return; eauto.
  - eapply r_stmt_return_expr; eauto.
  - eapply r_stmt_throw; eauto.
  - eapply r_stmt_debugger; eauto.
  - eapply r_stmt_try_catch; eauto.
  - eapply r_stmt_try_catch0; eauto.
  - eapply r_stmt_try_finally; eauto.
  - eapply r_stmt_try_both; eauto.
  - eapply r_stmt_try_both0; eauto.
  - eapply r_stmt_switch; eauto.
  - left. eauto 10.
  - right. eauto 10.
  - eapply r_cases_one; eauto.
  - eapply r_cases_more; eauto.
  (* classes *)
  - eapply r_key_name; eauto.
  - eapply r_key_computed; eauto.
  - eapply r_method; eauto; unfold allows; splits; try reflexivity; discriminate.
  - eapply r_method_get; eauto; unfold allows; splits; try reflexivity; discriminate.
  - eapply r_method_set; eauto; unfold allows; splits; try reflexivity; discriminate.
  - eapply r_method_gen; eauto; unfold allows; splits; try reflexivity; discriminate.
  - eapply r_method_asyncgen; eauto; unfold allows; splits; try reflexivity; discriminate.
  - eapply r_class_nil; eauto.
  - eapply r_class_semi; eauto.
  - eapply r_class_cons; eauto.
  - eapply r_class_tail; eauto.
  - destruct IHgr1 as [H1 H2]. eapply r_class_extends; eauto. intros F HF. apply H2; auto. constructor; reflexivity.
Qed.

Lemma eof_items M c b l ss F item : sok M c F -> items E M c (T b KEof) l ss ->
  (forall l nt s rest m, claimI E M c l nt s -> no_slash nt -> does E (l ++ nt :: rest) F m item (R_node s) (nt :: rest) m) -> forall k rest m,
  does E (l ++ T b KEof :: rest) F m (parse_until_eof k item) (fun x => map bare_node x = ss) (T b KEof :: rest) m.
Proof.
  intros HF H Hi. eapply (@items_loop E M c (T b KEof) F item (fun k => parse_until_eof k item)); auto.
  - split; reflexivity.
  - intros. apply ht_fuel.
  - intros. cbn [parse_until_eof]. go. fin. auto.
  - intros k t u m Q Ht Hx. cbn [parse_until_eof]. pose proof (it_eof Ht). go. exact Hx.
Qed.
Definition F0 : fr := mkF (mkParams false false false false false) [] false false false.
Notation top := top_place.
Lemma sok_top M F : mok M F -> sok M top F.
Proof. intros H. unfold sok. cbn [in_fun in_loop in_sw]. splits; auto; discriminate. Qed.
Definition ends (ss : list node) (kind : string) (a : node) : Prop := bare_node a = Program ss kind nowhere.
Lemma script_does n n2 b l ss rest : body E (top_mode false) top (T b KEof) l ss ->
  ht E (l ++ T b KEof :: rest) F0 0 (script E n (run E n2)) (fun a _ => ends ss "script" a).
Proof.
  intros (l1 & l2 & s1 & s2 & M' & -> & -> & H1 & H2). unfold script. go. rewrite <- app_assoc.
  assert (Hs2 : no_slash (next l2 (T b KEof))) by (eapply items_next; eauto; split; reflexivity).
  assert (HM0 : mok (top_mode false) F0) by (unfold mok; splits; try reflexivity; discriminate).
  pose proof (@dirs_mok _ _ _ _ _ _ H1 F0 HM0) as HM.
  eapply dirs_bind; [exact Hsane|exact Hs2|exact H1|exact HM0|]. intros xs Hxs.
  eapply ht_use; [eapply eof_items; [apply sok_top; exact HM|exact H2|]|].
  { intros l nt s rest' m [_ H] Hn. apply H; auto. apply sok_top; auto. }
  intros ys Hys. go. intros s Hs. unfold pwp, ends. cbn [ret bare_node]. rewrite map_app, Hxs, Hys. reflexivity.
Qed.
Lemma spelled_nonempty k l r : spelled E k l r -> l = [] -> r = [].
Proof.
  intros H. destruct H as [p r H1 H2 H3 H4|w r Hw H|x r Hx H1 H2 H3 H4|r H|r H|r H|ip fl fp el z r H1 H2 H3 H4 H5 H6 H7|p b ds r H1 H2 H3 H4 H5|q w r H|ps f r H1 H2 H3 H4 H5|hd tl v w r H|]; intros Hl; auto; try discriminate.
  - destruct p; discriminate.
  - destruct (reserved_letters Hw) as [G _]. contradiction.
  - destruct Hx as (c & v & -> & _). discriminate.
  - apply app_eq_nil in Hl as [-> Hl]. apply app_eq_nil in Hl as [-> ->]. inversion H2; subst. contradiction H4; auto.
Qed.
Lemma first_state ts text : source_of E ts text -> fits ts [] -> slashfree ts -> (checked E = true -> text <> []) ->
  exists t sc, s_next E GRegExp (s_new text) = ROk t sc /\ St E ts F0 0 (init_pst t sc).
Proof.
  intros [k tr l r u Tr Hsp Hro Hlay] [Hf Hf'] Hs Hc.
  destruct (@tok_next E Hsane GRegExp (s_new (tr ++ l ++ r)) tr k l r) as (t & sc & Hn & [S1 S2 S3 S4 S5 S6 S7 S8 S9]); auto.
  - apply new_quiet.
  - reflexivity.
  - intros _. destruct Hs as [G1 G2]. unfold is_p in *. cbn [knd] in *. split; intros ->; discriminate.
  - discriminate.
  - intros Hck. right. intros Ha. apply app_eq_nil in Ha as [-> ->]. specialize (Hc Hck). cbn [app] in Hc.
    apply Hc. eapply spelled_nonempty; eauto.
  - exists t, sc. split; auto. constructor; auto. cbn. splits; auto. apply ah_fresh; auto. constructor; auto. { rewrite S5; auto. } { rewrite S2; auto. }
    intros Hck. rewrite S8. specialize (Hc Hck). cbn [current s_new]. intros Hz.
    assert (tr = [] /\ l = []) as [-> ->] by (destruct tr, l; auto; unfold len in Hz; cbn in Hz; lia).
    apply Hc. cbn. eapply spelled_nonempty; eauto.
Qed.
Lemma program_body ts ss : program E false ts ss -> exists b l, ts = l ++ [T b KEof] /\ body E (top_mode false) top (T b KEof) l ss /\ fits ts [] /\ slashfree ts.
Proof.
  intros [b l ss0 H]. exists b, l. pose proof (phrase H) as Hb. splits; auto.
  - apply (balanced H). cbn. auto.
  - apply sf_next. eapply body_next; eauto. split; reflexivity.
Qed.
Theorem script_parses ts text ss : source_of E ts text -> program E false ts ss -> (checked E = true -> text <> []) ->
  exists t, parse_script E text = Ok t /\ bare_node t = Program ss "script" nowhere.
Proof.
  intros Hs Hp Hc. destruct (program_body Hp) as (b & l & -> & Hb & Hft & Hsf). destruct (first_state Hs Hft Hsf Hc) as (t & sc & Hn & HS).
  pose proof (proj2 (@within_script E text _ (Nat.le_refl _))) as Hfuel.
  pose proof (@script_does (fuel_for text) (fuel_for text) b l ss [] Hb _ HS) as Hd.
  unfold parse_script, parse_with in *. rewrite Hn in *. unfold pwp in Hd.
  destruct (script E _ _ _) as [a s'| | |]; try contradiction; try congruence.
  exists a. split; auto.
Qed.
End Top.
