(** * TermExpr: termination pass over ParserExpr.v (proofs). *)
From Verif Require Import Base Codepoint Punct Token Scanner Ast Convert ParserBase ParserExpr ParserStmt Parser.
From Verif Require Import SpecLex SpecScan SpecParse Hoare ScanBase LexFacts ParserInv TermBase.
From Coq Require Import ZifyBool ZifyN ZifyNat.
Set Implicit Arguments.

(** ** The functions called upwards *)
Definition climbs (s : pst) (prec : N) : nat :=
  if is_bin_op (cur s) && (prec <=? precedence (has_in (prm s)) (cur s)) then 1 else 0.

(** ** Conversions: which panics are possible *)
Definition conv_panic (E : env) (p : panic) : Prop := (p = P_PatternUnderflow /\ checked E = true) \/ p = P_ExprSpan.
Definition cgood (E : env) A (c : cres A) : Prop := match c with CPanic p => conv_panic E p | _ => True end.
Lemma cgood_bind E A B (m : cres A) (k : A -> cres B) : cgood E m -> (forall a, cgood E (k a)) -> cgood E (cbind m k).
Proof. destruct m; cbn; auto. Qed.
Lemma strict_binding_good E m x : cgood E (strict_binding_of m x).
Proof. destruct x; exact I. Qed.
Lemma array_pattern_element_good E b x : cgood E (array_pattern_element_of b x).
Proof. unfold cgood, conv_panic. destruct x; cbn; try destruct b; cbn; auto. Qed.
Lemma pattern_value_good E m x : cgood E (pattern_value_of m x).
Proof. destruct x; exact I. Qed.
Lemma assignment_element_good E x : cgood E (assignment_element_of x).
Proof.
  unfold cgood, conv_panic, assignment_element_of.
  destruct x; cbn; repeat match goal with |- context[if ?b then _ else _] => destruct b; cbn end; auto.
Qed.
#[local] Hint Resolve strict_binding_good array_pattern_element_good pattern_value_good assignment_element_good : core.
Ltac cg := repeat first [ exact I | lazymatch goal with |- cgood _ (cbind _ _) => apply cgood_bind; [auto|intros] end | match goal with |- cgood _ (if ?b then _ else _) => destruct b end ].
Lemma to_binding_pattern_good E : forall x, cgood E (to_binding_pattern E x).
Proof.
  fix IH 1. destruct x; try exact I.
  - cbn [to_binding_pattern]. destruct (last_index E (length elements)) as [li|] eqn:Hli; [|left; split; [reflexivity|]; unfold last_index in *; destruct (length elements); [destruct (checked E); [reflexivity|discriminate]|discriminate]].
    clear Hli. apply cgood_bind; [|intros; exact I]. generalize 0%N as i.
    induction elements as [|x l IHl]; intros i; [exact I|]. destruct x as [[e|e esp]|]; cg.
  - cbn [to_binding_pattern]. destruct (String.eqb _ _); [|exact I]. cg.
  - cbn [to_binding_pattern].
    apply cgood_bind; [|intros; exact I]. generalize (N.of_nat (length properties - 1)) as last. generalize 0%N as i.
    induction properties as [|x l IHl]; intros i last; [exact I|]. destruct x as [key computed [[| | | | | |e]|] kind me sh psp|e psp]; cg.
  - cbn [to_binding_pattern]. cg.
Qed.
Lemma to_binding_good E x : cgood E (to_binding E x).
Proof. unfold to_binding. apply cgood_bind; [apply to_binding_pattern_good|]. intros []; exact I. Qed.
Lemma assign_rest_good E t x sp : cgood E (assign_rest_argument E t x sp).
Proof. unfold assign_rest_argument. destruct x; cg; apply to_binding_good. Qed.
#[local] Hint Resolve assign_rest_good : core.
Lemma to_assignment_pattern_good E : forall x, cgood E (to_assignment_pattern E x).
Proof.
  fix IH 1. destruct x; try exact I.
  - cbn [to_assignment_pattern].
    apply cgood_bind; [|intros; exact I]. generalize (N.of_nat (length elements)) as last. generalize 0%N as i.
    induction elements as [|x l IHl]; intros i last; [exact I|]. destruct x as [[e|e esp]|]; cg.
  - cbn [to_assignment_pattern].
    apply cgood_bind; [|intros; exact I]. generalize (N.of_nat (length properties - 1)) as last. generalize 0%N as i.
    induction properties as [|x l IHl]; intros i last; [exact I|]. destruct x as [key computed [[| | | | | |e]|] kind me sh psp|e psp]; cg.
Qed.

Section Pass.
Context (E : env) (L LB : N) (bnd n : nat) (h : handler).
Notation inv := (inv L LB).
Notation frame := (frame L LB).
Notation ts := (ts E L LB bnd).
Notation XT := (XT E).

Record hT : Prop := mkHT {
  hT_bindpat : ts 1 1 (h_bindpat h) noexpr;
  hT_lhs : ts 1 1 (h_lhs h) any;
  hT_new : ts 1 1 (h_new h) any;
  hT_unary : ts 1 1 (h_unary h) any;
  hT_exp : ts 1 1 (h_exp h) any;
  hT_climb : forall lhs prec s, inv s -> (mu s + 1 <= bnd)%nat ->
    wp XT (h_climb h lhs prec) (fun _ s' => frame s s' /\ (mu s' + climbs s prec <= mu s)%nat) s;
  hT_assign : ts 1 1 (h_assign h) any;
  hT_expression : ts 1 1 (h_expression h) any;
  hT_statement : ts 1 1 (h_statement h) any;
  hT_item : ts 1 1 (h_item h) any
}.
Hypothesis Hbnd : (bnd < n)%nat.
Hypothesis HT : hT.
Let H1 := hT_bindpat HT. Let H2 := hT_lhs HT. Let H3 := hT_new HT. Let H4 := hT_unary HT.
Let H5 := hT_exp HT. Let H6 := hT_assign HT. Let H7 := hT_expression HT. Let H8 := hT_statement HT. Let H9 := hT_item HT.
#[local] Hint Resolve H1 H2 H3 H4 H5 H6 H7 H8 H9 : ts.

Lemma comma_unless_t p : ts 0 0 (comma_unless E p) any.
Proof. go comma_unless. Qed.
Lemma assign_in_t : ts 1 1 (assign_in h) any.
Proof. apply ts_with_in. auto. Qed.
Lemma expression_in_t : ts 1 1 (expression_in h) any.
Proof. apply ts_with_in. auto. Qed.
#[local] Hint Resolve comma_unless_t assign_in_t expression_in_t : ts.

(** ** Binding patterns *)
Lemma value_to_key_t v lit sp : ts 0 0 (value_to_key E v lit sp) any.
Proof. go value_to_key. Qed.
#[local] Hint Resolve value_to_key_t : ts.
Lemma obj_pat_value_t l c b : noexpr b -> ts 0 0 (obj_pat_value E h l c b) any.
Proof. intros Hb. go obj_pat_value. Qed.
#[local] Hint Resolve obj_pat_value_t : ts.
Lemma obj_pat_key_t : ts 0 1 (obj_pat_key E h) any.
Proof. go obj_pat_key. Qed.
#[local] Hint Resolve obj_pat_key_t : ts.
Lemma obj_pat_rest_t v sp : ts 0 0 (obj_pat_rest E h v sp) any.
Proof. go obj_pat_rest. Qed.
#[local] Hint Resolve obj_pat_rest_t : ts.
Lemma obj_pat_property_t : ts 0 1 (obj_pat_property E h) any.
Proof. go obj_pat_property. Qed.
#[local] Hint Resolve obj_pat_property_t : ts.
Lemma obj_binding_pat_t : ts 0 1 (parse_obj_binding_pat E n h) noexpr.
Proof. go parse_obj_binding_pat. Qed.
#[local] Hint Resolve obj_binding_pat_t : ts.
Lemma arr_pat_element_t : ts 1 1 (arr_pat_element E h) any.
Proof. go arr_pat_element. Qed.
#[local] Hint Resolve arr_pat_element_t : ts.
Lemma arr_binding_pat_t : ts 0 1 (parse_arr_binding_pat E n h) noexpr.
Proof. go parse_arr_binding_pat. Qed.
#[local] Hint Resolve arr_binding_pat_t : ts.
Lemma bid_noexpr d b (m : PM binding) : ts d b m is_bid -> ts d b m noexpr.
Proof. intros H. eapply ts_weaken; eauto. intros a (? & ? & ->). exact I. Qed.
Lemma binding_id_or_pat_t : ts 0 1 (parse_binding_id_or_pat E n h) noexpr.
Proof.
  unfold parse_binding_id_or_pat. intros s ? ?. repeat tstep; fin.
  match goal with H : is_bid _ |- _ => destruct H as (? & ? & ->) end. exact I.
Qed.
#[local] Hint Resolve binding_id_or_pat_t : ts.


(** ** Functions *)
Definition directives_post (s : pst) (a : list node) (s' : pst) : Prop :=
  inv s' /\ (ctx s' = ctx s \/ ctx s' = ctx_strict true (ctx s)) /\ prm s' = prm s /\ pstack s' = pstack s /\ (mu s' <= mu s)%nat.
Lemma directives_k k : forall s, inv s -> (mu s + 1 <= bnd)%nat -> (mu s < k)%nat ->
  wp XT (directive_prologues E h k) (directives_post s) s.
Proof.
  induction k as [|k IH]; intros s Hi Hm Hk; [lia|]. cbn [directive_prologues].
  tstep. tstep. destruct (tok_is (cur s) TString).
  2:{ tstep. unfold directives_post. splits; auto. }
  do 4 tstep. apply wp_bind.
  assert (R : forall (s : pst), inv s -> wp XT (ret tt) (fun (_ : unit) s' => inv s' /\ (ctx s' = ctx s \/ ctx s' = ctx_strict true (ctx s)) /\ prm s' = prm s /\ pstack s' = pstack s /\ mu s' = mu s) s) by (intros; apply wp_ret; auto 10).
  match goal with |- wp _ ?m _ ?s1 => assert (wp XT m (fun _ s' => inv s' /\ (ctx s' = ctx s1 \/ ctx s' = ctx_strict true (ctx s1)) /\ prm s' = prm s1 /\ pstack s' = pstack s1 /\ mu s' = mu s1) s1) as W end.
  { match goal with |- wp _ (match ?x with _ => _ end) _ _ => destruct x; try (apply R; auto; fail) end.
    match goal with |- wp _ (match ?x with _ => _ end) _ _ => destruct x; try (apply R; auto; fail) end.
    destruct (str_eqb _ _); [|apply R; auto]. apply wp_modify. cbn; splits; auto. }
  eapply wp_conseq; [exact W|]. cbv beta. clear W R.
  intros _ s3 (? & C & ? & ? & ?). do 5 tstep.
  eapply wp_conseq; [apply IH; [auto|mlia|mlia]|]. cbv beta. intros b sz (A1 & A2 & A3 & A4 & A5). tstep.
  unfold directives_post. splits; auto; try congruence; try mlia.
  destruct C as [C|C], A2 as [D|D]; rewrite D; [left|right|right|right]; repeat match goal with H : ctx _ = _ |- _ => rewrite H end; reflexivity.
Qed.
Lemma statement_list_t : ts 1 0 (parse_statement_list n h) any.
Proof. intros s ? ?. unfold parse_statement_list. use_spec ltac:(eapply use_ts; [eapply ts_until_n; eauto with ts|eassumption|mlia]). fin. Qed.
#[local] Hint Resolve statement_list_t : ts.

Lemma function_body_block_t : ts 0 1 (parse_function_body_block E n h) any.
Proof.
  unfold parse_function_body_block. intros s ? ?. do 6 tstep. apply wp_bind.
  eapply wp_conseq; [apply directives_k; [auto|mlia|mlia]|]. cbv beta. intros a2 s2 (A1 & A2 & A3 & A4 & A5).
  do 4 tstep. apply wp_bind, wp_modify. tstep.
  match goal with |- wp _ _ _ ?s => assert (inv s) by auto end. tstep.
  apply wp_bind, wp_modify. tstep.
  match goal with |- wp _ _ _ ?s => assert (inv s) by auto end. tstep. tstep.
  cbn in *. unfold ParserInv.frame. splits; auto; try congruence.
  - destruct A2 as [D|D]; repeat match goal with H : ctx ?x = _ |- context[ctx ?x] => rewrite H end; destruct (ctx s); reflexivity.
  - unfold mu in *. cbn in *. mlia.
Qed.
#[local] Hint Resolve function_body_block_t : ts.

Lemma function_body_t : ts 0 1 (parse_function_body E n h) any.
Proof.
  unfold parse_function_body. intros s ? ?. do 2 tstep. apply wp_bind, wp_modify. tstep.
  use_spec ltac:(eapply use_ts; [solve [eauto with ts]|auto|exact H0]).
  apply wp_bind, wp_modify. tstep. cbn in *. unfold ParserInv.frame; splits; auto; try congruence; try exact I.
  cbn. repeat match goal with H : ctx ?x = _ |- context[ctx ?x] => rewrite H end. destruct (ctx s); reflexivity.
Qed.
#[local] Hint Resolve function_body_t : ts.

Lemma formal_param_t : ts 0 1 (formal_param E n h) any.
Proof. go formal_param. Qed.
#[local] Hint Resolve formal_param_t : ts.
Lemma formal_params_t : ts 0 1 (parse_formal_params E n h) any.
Proof. go parse_formal_params. Qed.
#[local] Hint Resolve formal_params_t : ts.
Lemma params_and_body_t y a : ts 0 1 (params_and_body E n h y a) any.
Proof. go params_and_body. Qed.
#[local] Hint Resolve params_and_body_t : ts.
Lemma function_expr_t b : ts 0 1 (parse_function_expr E n h b) any.
Proof. go parse_function_expr. Qed.
#[local] Hint Resolve function_expr_t : ts.
Lemma arrow_body_t : ts 1 1 (parse_arrow_body E n h) any.
Proof. go parse_arrow_body. Qed.
#[local] Hint Resolve arrow_body_t : ts.
Lemma single_param_t name : ts 0 1 (parse_single_param_arrow_function_expr E n h name) any.
Proof. go parse_single_param_arrow_function_expr. Qed.
#[local] Hint Resolve single_param_t : ts.
Lemma param_of_pattern_t b p : ts 0 0 (param_of_pattern E b p) any.
Proof. go param_of_pattern. Qed.
#[local] Hint Resolve param_of_pattern_t : ts.

Lemma lift_good A (c : cres A) : cgood E c -> ts 0 0 (lift_c c) any.
Proof.
  intros Hc s ? ?. unfold wp, lift_c. destruct c; cbn; [fin|auto|].
  cbn in Hc. destruct Hc as [[-> Hc]| ->]; [exact Hc|exact I].
Qed.
Lemma lift_tbp_t x : ts 0 0 (lift_c (to_binding_pattern E x)) any.
Proof. apply lift_good, to_binding_pattern_good. Qed.
Lemma lift_tap_t x : ts 0 0 (lift_c (to_assignment_pattern E x)) any.
Proof. apply lift_good, to_assignment_pattern_good. Qed.
#[local] Hint Resolve lift_tbp_t lift_tap_t : ts.

Lemma seq_to_arrow_params_t l : ts 0 0 (seq_to_arrow_params E l) any.
Proof. induction l; intros s ? ?; cbn [seq_to_arrow_params]; walk. Qed.
#[local] Hint Resolve seq_to_arrow_params_t : ts.
Lemma arguments_to_params_t l : ts 0 0 (arguments_to_params E l) any.
Proof. apply seq_to_arrow_params_t. Qed.
#[local] Hint Resolve arguments_to_params_t : ts.

(** ** Classes *)
Lemma computed_property_name_t : ts 0 1 (parse_computed_property_name E h) any.
Proof. go parse_computed_property_name. Qed.
#[local] Hint Resolve computed_property_name_t : ts.
Lemma property_name_t : ts 0 0 (parse_property_name E h) any.
Proof. go parse_property_name. Qed.
#[local] Hint Resolve property_name_t : ts.
Lemma class_getter_t b : ts 0 1 (class_getter E n h b) any.
Proof. go class_getter. Qed.
Lemma class_setter_t b : ts 0 1 (class_setter E n h b) any.
Proof. go class_setter. Qed.
Lemma class_async_method_t b : ts 0 1 (class_async_method E n h b) any.
Proof. go class_async_method. Qed.
Lemma class_generator_method_t b : ts 0 1 (class_generator_method E n h b) any.
Proof. go class_generator_method. Qed.
Lemma class_plain_method_t b : ts 0 1 (class_plain_method E n h b) any.
Proof. go class_plain_method. Qed.
#[local] Hint Resolve class_getter_t class_setter_t class_async_method_t class_generator_method_t class_plain_method_t : ts.
Lemma class_element_t : ts 0 1 (class_element E n h) any.
Proof. go class_element. Qed.
#[local] Hint Resolve class_element_t : ts.
Lemma class_body_t : ts 0 0 (parse_class_body E n h) any.
Proof. go parse_class_body. Qed.
#[local] Hint Resolve class_body_t : ts.
Lemma class_tail_t id : ts 0 1 (parse_class_tail E n h id) any.
Proof. go parse_class_tail. Qed.
#[local] Hint Resolve class_tail_t : ts.

Lemma binding_id_node_t : ts 0 1 (binding_id_node E) any.
Proof.
  unfold binding_id_node. intros s ? ?. do 2 tstep.
  match goal with H : is_bid _ |- _ => destruct H as (? & ? & ->) end. walk.
Qed.
#[local] Hint Resolve binding_id_node_t : ts.
Lemma class_dclr_t : ts 0 1 (parse_class_dclr E n h) any.
Proof. go parse_class_dclr. fin. ctxeq. Qed.
Lemma class_expr_t : ts 0 1 (parse_class_expr E n h) any.
Proof. go parse_class_expr; fin; ctxeq. Qed.
#[local] Hint Resolve class_dclr_t class_expr_t : ts.

(** ** Primary expressions *)
Lemma template_piece_t s : inv s -> ttype (cur s) = TTemplate ->
  wp XT (template_piece E) (fun _ s' => frame s s' /\ (mu s' < mu s)%nat) s.
Proof.
  intros Hi Ht. unfold template_piece. assert (ttype (cur s) <> TEof) by congruence. tstep.
  use_spec ltac:(eapply t_adv1; [eassumption|auto]).
  pose proof (tok_wf_inv Hi) as W. unfold token_wf in W. rewrite Ht in W. destruct W as (_ & [a A] & _ & [b B]).
  tstep. apply wp_unwrap; [|congruence]. intros. tstep. apply wp_unwrap; [|congruence]. intros. tstep. fin.
Qed.

Lemma template_head_t : ts 0 1 (parse_template_head E) any.
Proof.
  unfold parse_template_head. intros s ? ?. do 3 tstep; [|tstep].
  destruct (thead (cur s)) as [[]|]; try tstep.
  use_spec ltac:(eapply template_piece_t; [eassumption|apply tok_is_eq; assumption]). fin.
Qed.
Lemma template_element_t : ts 0 1 (parse_template_element E) any.
Proof.
  unfold parse_template_element. intros s ? ?. do 3 tstep; [|tstep].
  use_spec ltac:(eapply template_piece_t; [eassumption|apply tok_is_eq; assumption]). fin.
Qed.
#[local] Hint Resolve template_head_t template_element_t : ts.
Lemma template_rest_t k : forall b s, inv s -> (mu s + 1 <= bnd)%nat -> (mu s < k)%nat ->
  wp XT (template_rest E h k b) (fun _ s' => frame s s' /\ (mu s' <= mu s)%nat) s.
Proof.
  induction k as [|k IH]; intros b s Hi Hm Hk; [lia|]. cbn [template_rest]. destruct b; [walk|].
  do 4 tstep. tstep. use_spec ltac:(apply IH; [assumption|mlia|mlia]). walk.
Qed.
Lemma template_literal_t : ts 0 1 (template_literal E n h) any.
Proof.
  unfold template_literal. intros s ? ?. do 4 tstep. tstep.
  use_spec ltac:(apply template_rest_t; [eassumption|mlia|mlia]). walk.
Qed.
#[local] Hint Resolve template_literal_t : ts.
Lemma parse_template_literal_t : ts 0 1 (parse_template_literal E n h) any.
Proof. go parse_template_literal. Qed.
Lemma tagged_template_t e : ts 0 1 (tagged_template E n h e) any.
Proof. go tagged_template. Qed.
#[local] Hint Resolve parse_template_literal_t tagged_template_t : ts.
Lemma array_lit_element_t : ts 1 1 (array_lit_element E h) any.
Proof. go array_lit_element. Qed.
#[local] Hint Resolve array_lit_element_t : ts.
Lemma array_lit_t : ts 0 1 (parse_array_lit_expr E n h) any.
Proof. go parse_array_lit_expr. Qed.
#[local] Hint Resolve array_lit_t : ts.
Lemma method_definition_t key kind a g c : ts 0 1 (parse_method_definition E n h key kind a g c) any.
Proof. go parse_method_definition. Qed.
#[local] Hint Resolve method_definition_t : ts.
Definition isdone (m : modifiers) : nat := match m with Done _ => 1 | More _ _ _ => 0 end.
Definition modpost (s : pst) (m : modifiers) (s' : pst) : Prop := frame s s' /\ (mu s' + isdone m <= mu s)%nat.
Lemma accessor_modifier_t w s : inv s -> (mu s + 0 <= bnd)%nat -> wp XT (accessor_modifier E n h w) (modpost s) s.
Proof. unfold accessor_modifier, modpost. intros ? ?. repeat tstep; cbn [isdone]; fin. Qed.
Lemma async_modifier_t s : inv s -> (mu s + 0 <= bnd)%nat -> wp XT (async_modifier E n h) (modpost s) s.
Proof. unfold async_modifier, modpost. intros ? ?. repeat tstep; cbn [isdone]; fin. Qed.
Lemma property_modifiers_t s : inv s -> (mu s + 0 <= bnd)%nat -> wp XT (property_modifiers E n h) (modpost s) s.
Proof.
  unfold property_modifiers. intros Hi Hm. do 3 tstep; [apply accessor_modifier_t; auto|].
  tstep; [apply accessor_modifier_t; auto|]. tstep; [apply async_modifier_t; auto|].
  unfold modpost. repeat tstep; cbn [isdone]; fin.
Qed.
Lemma property_key_t : ts 0 1 (property_key E h) any.
Proof. go property_key. Qed.
#[local] Hint Resolve property_key_t : ts.
Lemma object_property_t : ts 0 1 (object_property E n h) any.
Proof.
  unfold object_property. intros s ? ?. do 5 tstep; [walk|].
  tstep. use_spec ltac:(apply property_modifiers_t; [eassumption|mlia]).
  match goal with H : modpost _ ?m _ |- _ => unfold modpost in H; destruct m; cbn [isdone] in H; dest end; walk.
Qed.
#[local] Hint Resolve object_property_t : ts.
Lemma object_lit_t : ts 0 1 (parse_object_lit_expr E n h) any.
Proof. go parse_object_lit_expr. Qed.
#[local] Hint Resolve object_lit_t : ts.
Lemma argument_t : ts 1 1 (argument E h) any.
Proof. go argument. Qed.
#[local] Hint Resolve argument_t : ts.
Lemma arguments_t : ts 0 1 (parse_arguments E n h) any.
Proof. go parse_arguments. Qed.
#[local] Hint Resolve arguments_t : ts.
Lemma seq_element_t : ts 1 1 (seq_element E n h) any.
Proof. go seq_element. Qed.
#[local] Hint Resolve seq_element_t : ts.
Lemma seq_to_arrow_t l : ts 0 1 (seq_to_arrow E n h l) any.
Proof. go seq_to_arrow. Qed.
#[local] Hint Resolve seq_to_arrow_t : ts.
Lemma seq_or_arrow_t : ts 0 1 (parse_seq_or_arrow E n h) any.
Proof. go parse_seq_or_arrow. Qed.
#[local] Hint Resolve seq_or_arrow_t : ts.
Lemma async_call_or_arrow_t e : ts 0 1 (parse_async_call_or_arrow E n h e) any.
Proof. go parse_async_call_or_arrow. Qed.
#[local] Hint Resolve async_call_or_arrow_t : ts.
Lemma async_primary_t : ts 0 1 (parse_async_primary_expr E n h) any.
Proof.
  unfold parse_async_primary_expr. intros s ? ?. repeat tstep; fin.
  all: match goal with H : is_ident _ |- _ => destruct H as (? & ? & ? & H); discriminate H end.
Qed.
#[local] Hint Resolve async_primary_t : ts.
Lemma primary_t : ts 0 1 (parse_primary_expr E n h) any.
Proof.
  unfold parse_primary_expr. intros s ? ?. repeat tstep; fin.
  match goal with H : tok_is (cur s) TRegExp = true |- _ => apply tok_is_eq in H; rename H into Ht end.
  pose proof (tok_wf_inv H) as W. unfold token_wf in W. rewrite Ht in W. destruct W as (_ & [a0 A] & [b B]).
  apply wp_unwrap; [|congruence]. intros. tstep. apply wp_unwrap; [|congruence]. intros. walk.
Qed.
#[local] Hint Resolve primary_t : ts.

(** ** Member, call, new *)
Lemma computed_member_t e : ts 0 1 (parse_computed_member_expr E h e) any.
Proof. go parse_computed_member_expr. Qed.
Lemma static_member_t e : ts 0 1 (parse_static_member_expr E e) any.
Proof. go parse_static_member_expr. Qed.
Lemma super_t : ts 0 1 (parse_super E) any.
Proof. go parse_super. Qed.
#[local] Hint Resolve computed_member_t static_member_t super_t : ts.
Lemma member_tail_k k : forall e s, inv s -> (mu s <= bnd)%nat -> (mu s < k)%nat ->
  wp XT (member_tail E n h k e) (fun _ s' => frame s s' /\ (mu s' <= mu s)%nat) s.
Proof.
  induction k as [|k IH]; intros e s Hi Hm Hk; [lia|]. cbn [member_tail]. do 3 tstep.
  2: tstep. 3: tstep.
  1-3: tstep; tstep; use_spec ltac:(apply IH; [assumption|mlia|mlia]); fin.
  tstep. fin.
Qed.
Lemma member_tail_t e : ts 0 0 (member_tail E n h n e) any.
Proof. intros s ? ?. use_spec ltac:(apply member_tail_k; [eassumption|mlia|mlia]). fin. Qed.
#[local] Hint Resolve member_tail_t : ts.
Lemma member_t : ts 0 1 (parse_member_expr E n h) any.
Proof. go parse_member_expr. Qed.
#[local] Hint Resolve member_t : ts.
Lemma call_tail_k k : forall e s, inv s -> (mu s <= bnd)%nat -> (mu s < k)%nat ->
  wp XT (call_tail E n h k e) (fun _ s' => frame s s' /\ (mu s' <= mu s)%nat) s.
Proof.
  induction k as [|k IH]; intros e s Hi Hm Hk; [lia|]. cbn [call_tail]. do 3 tstep.
  { do 4 tstep. use_spec ltac:(apply IH; [assumption|mlia|mlia]); fin. }
  tstep. 2: tstep. 3: tstep.
  1-3: tstep; tstep; use_spec ltac:(apply IH; [assumption|mlia|mlia]); fin.
  walk.
Qed.
Lemma call_tail_t e : ts 0 0 (call_tail E n h n e) any.
Proof. intros s ? ?. use_spec ltac:(apply call_tail_k; [eassumption|mlia|mlia]). fin. Qed.
#[local] Hint Resolve call_tail_t : ts.
Lemma new_t : ts 0 1 (parse_new_expr E n h) any.
Proof.
  unfold parse_new_expr. intros s ? ?. repeat tstep; fin.
  match goal with H : tok_id _ _ = true |- _ => apply tok_id_eq in H; destruct H as [Ha Hb]; rewrite Hb end.
  apply wp_unwrap; [|discriminate]. intros. tstep.
  match goal with H : tok_kw _ _ = true, H' : cur _ = cur s |- _ => rewrite H' in H; apply tok_kw_eq in H; destruct H as [Hc Hd]; rewrite Hd end.
  apply wp_unwrap; [|discriminate]. intros. walk.
Qed.
#[local] Hint Resolve new_t : ts.
Lemma call_t : ts 0 1 (parse_call_expr E n h) any.
Proof. go parse_call_expr. Qed.
#[local] Hint Resolve call_t : ts.
Lemma lhs_t : ts 0 1 (parse_left_hand_side_expr E n h) any.
Proof. go parse_left_hand_side_expr. Qed.
#[local] Hint Resolve lhs_t : ts.

(** ** Operators *)
Lemma update_t : ts 0 1 (parse_update_expr E n h) any.
Proof. go parse_update_expr. Qed.
#[local] Hint Resolve update_t : ts.

Lemma unary_some a t : token_wf t -> exists b, is_unary_op a t = Some b.
Proof.
  intros W. unfold is_unary_op. destruct (ttype t) eqn:Ht; eauto.
  destruct (wf_kw _ W Ht) as [w Hw]. unfold t_to_str. rewrite Hw. eauto.
Qed.
(** [cur_unary_op] reads; its answer is that of [is_unary_op]. *)
Lemma cur_unary_t s (Q : bool -> pst -> Prop) : inv s ->
  (forall b, is_unary_op (has_await (prm s)) (cur s) = Some b -> Q b s) -> wp XT cur_unary_op Q s.
Proof.
  intros Hi HQ. unfold cur_unary_op. do 4 tstep. destruct (unary_some (has_await (prm s)) _ (tok_wf_inv Hi)) as [b Hb].
  apply wp_unwrap; [|congruence]. auto.
Qed.
Lemma unary_t : ts 0 1 (parse_unary_expr E n h) any.
Proof.
  unfold parse_unary_expr. intros s ? ?. do 3 tstep. destruct (tok_is (cur s) TPunctuator || tok_is (cur s) TKeyword); [|walk].
  apply cur_unary_t; auto. intros b Hb. destruct b; walk.
Qed.
#[local] Hint Resolve unary_t : ts.
Lemma exponentiation_t : ts 0 1 (parse_exponentiation_expr E n h) any.
Proof.
  unfold parse_exponentiation_expr. intros s ? ?. tstep. apply cur_unary_t; auto. intros b Hb. destruct b; [walk|].
  repeat tstep; try solve [fin].
  apply wp_unwrap; [intros; walk|]. unfold t_to_string.
  match goal with H : tval _ = VPunc Pow |- _ => rewrite H; discriminate end.
Qed.
#[local] Hint Resolve exponentiation_t : ts.
Lemma climb_inner_k k : forall op r s, inv s -> (mu s + 1 <= bnd)%nat -> (mu s < k)%nat ->
  wp XT (climb_inner h k op r) (fun _ s' => frame s s' /\ (mu s' <= mu s)%nat) s.
Proof.
  induction k as [|k IH]; intros op r s Hi Hm Hk; [lia|]. cbn [climb_inner]. do 4 tstep.
  destruct (_ && _) eqn:Hb; [|tstep; fin]. apply Bool.andb_true_iff in Hb. destruct Hb as [Hb _].
  tstep. eapply wp_conseq; [apply (hT_climb HT); [auto|lia]|]. cbv beta. intros a s1 (F & M). dest.
  unfold climbs in M. rewrite Hb, N.leb_refl in M. cbn in M.
  use_spec ltac:(apply IH; [assumption|mlia|mlia]). fin.
Qed.
Lemma climb_k k : forall l prec s, inv s -> (mu s <= bnd)%nat -> (mu s < k)%nat ->
  wp XT (climb E n h k l prec) (fun _ s' => frame s s' /\ (mu s' + climbs s prec <= mu s)%nat) s.
Proof.
  induction k as [|k IH]; intros l prec s Hi Hm Hk; [lia|]. cbn [climb]. unfold climbs. do 4 tstep.
  destruct (_ && _) eqn:Hb; [|walk]. pose proof Hb as Hb'. apply Bool.andb_true_iff in Hb'. destruct Hb' as [Hb1 _].
  tstep. use_spec ltac:(eapply t_adv1; [eassumption|eapply ne_binop; eassumption]).
  do 3 tstep. use_spec ltac:(eapply climb_inner_k; [eassumption|mlia|mlia]). tstep.
  apply wp_unwrap.
  2:{ intros Hn. destruct (str_binop _ (tok_wf_inv Hi) Hb1). congruence. }
  intros op Hop. do 4 tstep. use_spec ltac:(apply IH; [assumption|mlia|mlia]). fin.
Qed.
Lemma precedence_climbing_t l prec s : inv s -> (mu s <= bnd)%nat ->
  wp XT (precedence_climbing E n h l prec) (fun _ s' => frame s s' /\ (mu s' + climbs s prec <= mu s)%nat) s.
Proof. intros. apply climb_k; auto. mlia. Qed.
Lemma binary_t : ts 0 1 (parse_binary_expr E n h) any.
Proof.
  unfold parse_binary_expr. intros s ? ?. do 4 tstep. use_spec ltac:(apply precedence_climbing_t; [eassumption|mlia]). fin.
Qed.
#[local] Hint Resolve binary_t : ts.
Lemma conditional_t : ts 0 1 (parse_conditional_expr E n h) any.
Proof. go parse_conditional_expr. Qed.
#[local] Hint Resolve conditional_t : ts.
Lemma yield_t : ts 0 1 (parse_yield_expr E n h) any.
Proof. go parse_yield_expr. Qed.
#[local] Hint Resolve yield_t : ts.
Lemma maybe_arrow_t e : ts 0 0 (maybe_arrow E n h e) any.
Proof. go maybe_arrow. Qed.
#[local] Hint Resolve maybe_arrow_t : ts.
Lemma assignment_tail_t e : ts 1 0 (assignment_tail E h e) any.
Proof.
  unfold assignment_tail. intros s ? ?. repeat tstep; try solve [fin].
  match goal with H : _ && _ = true |- _ => apply Bool.andb_true_iff in H; destruct H as [Ha Hb] end.
  apply tok_is_eq in Ha. destruct (wf_punc _ (tok_wf_inv H) Ha) as [p Hp]. rewrite Hp.
  apply wp_unwrap; [|discriminate]. intros. walk.
Qed.
#[local] Hint Resolve assignment_tail_t : ts.
Lemma assignment_t : ts 0 1 (parse_assignment_expr E n h) any.
Proof. go parse_assignment_expr. Qed.
#[local] Hint Resolve assignment_t : ts.
Lemma comma_then_t A (m : PM A) R : ts 1 1 m R -> ts 0 1 (comma_then E m) R.
Proof. intros Hm. go @comma_then. Qed.
Lemma comma_then0_t A (m : PM A) R : ts 0 1 m R -> ts 0 1 (comma_then E m) R.
Proof. intros Hm. go @comma_then. Qed.
#[local] Hint Resolve comma_then_t comma_then0_t : ts.
Lemma expression_t : ts 0 1 (parse_expression E n h) any.
Proof. go parse_expression. Qed.
#[local] Hint Resolve expression_t : ts.

End Pass.
#[export] Hint Resolve comma_unless_t assign_in_t expression_in_t value_to_key_t obj_pat_value_t obj_pat_key_t obj_pat_rest_t obj_pat_property_t obj_binding_pat_t arr_pat_element_t arr_binding_pat_t binding_id_or_pat_t statement_list_t function_body_block_t function_body_t formal_param_t formal_params_t params_and_body_t function_expr_t arrow_body_t single_param_t param_of_pattern_t lift_tbp_t lift_tap_t seq_to_arrow_params_t arguments_to_params_t computed_property_name_t property_name_t class_getter_t class_setter_t class_async_method_t class_generator_method_t class_plain_method_t class_element_t class_body_t class_tail_t binding_id_node_t class_dclr_t class_expr_t template_head_t template_element_t template_literal_t parse_template_literal_t tagged_template_t array_lit_element_t array_lit_t method_definition_t property_key_t object_property_t object_lit_t argument_t arguments_t seq_element_t seq_to_arrow_t seq_or_arrow_t async_call_or_arrow_t async_primary_t primary_t computed_member_t static_member_t super_t member_tail_t member_t call_tail_t new_t call_t lhs_t update_t unary_t exponentiation_t binary_t conditional_t yield_t maybe_arrow_t assignment_tail_t assignment_t comma_then_t comma_then0_t expression_t : ts.
