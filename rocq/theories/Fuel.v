(** * Fuel: the recursion bound of the model does not influence results (proofs).
    [le m m']: wherever [m] does not run out of its bound, [m'] does the same. *)
From Verif Require Import Base Codepoint Punct Token Scanner Ast Convert ParserBase ParserExpr ParserStmt Parser.
Set Implicit Arguments.

Definition le {S A} (m m' : M S A) : Prop := forall s, m s = RFuel \/ m' s = m s.
Lemma le_refl S A (m : M S A) : le m m.
Proof. right. reflexivity. Qed.
Lemma le_bind S A B (m m' : M S A) (k k' : A -> M S B) : le m m' -> (forall a, le (k a) (k' a)) -> le (bind m k) (bind m' k').
Proof.
  intros H K s. unfold bind. destruct (H s) as [E|E]; [left; rewrite E; reflexivity|]. rewrite E.
  destruct (m s); auto. apply K.
Qed.
Lemma le_with_prm A f (m m' : PM A) : le m m' -> le (with_prm f m) (with_prm f m').
Proof.
  intros H. unfold with_prm. apply le_bind; [apply le_refl|intros]. apply le_bind; [apply le_refl|intros].
  apply le_bind; [auto|intros]. apply le_refl.
Qed.
Lemma le_with_in A b (m m' : PM A) : le m m' -> le (with_in b m) (with_in b m').
Proof. apply le_with_prm. Qed.
Lemma le_with_default A b (m m' : PM A) : le m m' -> le (with_default b m) (with_default b m').
Proof. apply le_with_prm. Qed.
Create HintDb le discriminated.
#[global] Hint Constants Opaque : le.
#[global] Hint Extern 0 (le ?x ?x) => exact (le_refl x) : le.
#[export] Hint Resolve le_with_prm le_with_in le_with_default : le.
Ltac lestep := cbv beta; lazymatch goal with
  | |- le (bind _ _) (bind _ _) => apply le_bind; [|intros ?]
  | |- le (if ?b then _ else _) (if ?b then _ else _) => destruct b eqn:?
  | |- le (match ?x with _ => _ end) (match ?x with _ => _ end) => destruct x eqn:?
  | |- le ?x ?x => apply le_refl
  | |- _ => solve [eauto with le]
  end.
Ltac les := repeat lestep.

Lemma le_while A p (f f' : PM A) : le f f' -> forall k k', (k <= k')%nat -> le (parse_while_punc k p f) (parse_while_punc k' p f').
Proof. intros H. induction k; intros [|k'] Hk; try lia; try (intros s; left; reflexivity). cbn [parse_while_punc]. assert (k <= k')%nat by lia. les. Qed.
Lemma le_until A p (f f' : PM A) : le f f' -> forall k k', (k <= k')%nat -> le (parse_until_punc k p f) (parse_until_punc k' p f').
Proof. intros H. induction k; intros [|k'] Hk; try lia; try (intros s; left; reflexivity). cbn [parse_until_punc]. assert (k <= k')%nat by lia. les. Qed.
Lemma le_until_rest A p (f f' : PM A) : le f f' -> forall k k', (k <= k')%nat -> le (parse_until_punc_or_rest k p f) (parse_until_punc_or_rest k' p f').
Proof. intros H. induction k; intros [|k'] Hk; try lia; try (intros s; left; reflexivity). cbn [parse_until_punc_or_rest]. assert (k <= k')%nat by lia. les. Qed.
Lemma le_until_eof A (f f' : PM A) : le f f' -> forall k k', (k <= k')%nat -> le (parse_until_eof k f) (parse_until_eof k' f').
Proof. intros H. induction k; intros [|k'] Hk; try lia; try (intros s; left; reflexivity). cbn [parse_until_eof]. assert (k <= k')%nat by lia. les. Qed.
#[export] Hint Resolve le_while le_until le_until_rest le_until_eof : le.

Record le_h (h h' : handler) : Prop := mkLeH {
  lh_bindpat : le (h_bindpat h) (h_bindpat h'); lh_lhs : le (h_lhs h) (h_lhs h'); lh_new : le (h_new h) (h_new h');
  lh_unary : le (h_unary h) (h_unary h'); lh_exp : le (h_exp h) (h_exp h');
  lh_climb : forall l p, le (h_climb h l p) (h_climb h' l p);
  lh_assign : le (h_assign h) (h_assign h'); lh_expression : le (h_expression h) (h_expression h');
  lh_statement : le (h_statement h) (h_statement h'); lh_item : le (h_item h) (h_item h') }.

Section Mono.
Context (E : env) (n n' : nat) (h h' : handler).
Hypothesis Hn : (n <= n')%nat.
Hypothesis Hh : le_h h h'.
Let H1 := lh_bindpat Hh. Let H2 := lh_lhs Hh. Let H3 := lh_new Hh. Let H4 := lh_unary Hh. Let H5 := lh_exp Hh.
Let H5' := lh_climb Hh. Let H6 := lh_assign Hh. Let H7 := lh_expression Hh. Let H8 := lh_statement Hh. Let H9 := lh_item Hh.
#[local] Hint Resolve H1 H2 H3 H4 H5 H5' H6 H7 H8 H9 Hn le_S_n : le.
Lemma le_comma_then A (m m' : PM A) : le m m' -> le (comma_then E m) (comma_then E m').
Proof. intros H. unfold comma_then. les. Qed.
#[local] Hint Resolve le_comma_then : le.
Lemma le_assign_in : le (assign_in h) (assign_in h').
Proof. unfold assign_in; les. Qed.
#[local] Hint Resolve le_assign_in : le.
Lemma le_expression_in : le (expression_in h) (expression_in h').
Proof. unfold expression_in; les. Qed.
#[local] Hint Resolve le_expression_in : le.
Lemma le_obj_pat_value (x1 : N) (x2 : N) (x3 : binding) : le (obj_pat_value E h x1 x2 x3) (obj_pat_value E h' x1 x2 x3).
Proof. unfold obj_pat_value; les. Qed.
#[local] Hint Resolve le_obj_pat_value : le.
Lemma le_obj_pat_key : le (obj_pat_key E h) (obj_pat_key E h').
Proof. unfold obj_pat_key; les. Qed.
#[local] Hint Resolve le_obj_pat_key : le.
Lemma le_obj_pat_rest (x1 : value_or_expr) (x2 : span) : le (obj_pat_rest E h x1 x2) (obj_pat_rest E h' x1 x2).
Proof. unfold obj_pat_rest; les. Qed.
#[local] Hint Resolve le_obj_pat_rest : le.
Lemma le_obj_pat_property : le (obj_pat_property E h) (obj_pat_property E h').
Proof. unfold obj_pat_property; les. Qed.
#[local] Hint Resolve le_obj_pat_property : le.
Lemma le_parse_obj_binding_pat : le (parse_obj_binding_pat E n h) (parse_obj_binding_pat E n' h').
Proof. unfold parse_obj_binding_pat; les. Qed.
#[local] Hint Resolve le_parse_obj_binding_pat : le.
Lemma le_arr_pat_element : le (arr_pat_element E h) (arr_pat_element E h').
Proof. unfold arr_pat_element; les. Qed.
#[local] Hint Resolve le_arr_pat_element : le.
Lemma le_parse_arr_binding_pat : le (parse_arr_binding_pat E n h) (parse_arr_binding_pat E n' h').
Proof. unfold parse_arr_binding_pat; les. Qed.
#[local] Hint Resolve le_parse_arr_binding_pat : le.
Lemma le_parse_binding_id_or_pat : le (parse_binding_id_or_pat E n h) (parse_binding_id_or_pat E n' h').
Proof. unfold parse_binding_id_or_pat; les. Qed.
#[local] Hint Resolve le_parse_binding_id_or_pat : le.
Lemma le_directive_prologues : forall k k', (k <= k')%nat -> le (directive_prologues E h k) (directive_prologues E h' k').
Proof. induction k as [|k IH]; intros k0'  Hk; [intros s0; left; reflexivity|destruct k0' as [|k']; [lia|]]; cbn [directive_prologues]; les. Qed.
#[local] Hint Resolve le_directive_prologues : le.
Lemma le_parse_statement_list : le (parse_statement_list n h) (parse_statement_list n' h').
Proof. unfold parse_statement_list; les. Qed.
#[local] Hint Resolve le_parse_statement_list : le.
Lemma le_parse_function_body_block : le (parse_function_body_block E n h) (parse_function_body_block E n' h').
Proof. unfold parse_function_body_block; les. Qed.
#[local] Hint Resolve le_parse_function_body_block : le.
Lemma le_parse_function_body : le (parse_function_body E n h) (parse_function_body E n' h').
Proof. unfold parse_function_body; les. Qed.
#[local] Hint Resolve le_parse_function_body : le.
Lemma le_formal_param : le (formal_param E n h) (formal_param E n' h').
Proof. unfold formal_param; les. Qed.
#[local] Hint Resolve le_formal_param : le.
Lemma le_parse_formal_params : le (parse_formal_params E n h) (parse_formal_params E n' h').
Proof. unfold parse_formal_params; les. Qed.
#[local] Hint Resolve le_parse_formal_params : le.
Lemma le_params_and_body (x1 : bool) (x2 : bool) : le (params_and_body E n h x1 x2) (params_and_body E n' h' x1 x2).
Proof. unfold params_and_body; les. Qed.
#[local] Hint Resolve le_params_and_body : le.
Lemma le_parse_function_expr (x1 : bool) : le (parse_function_expr E n h x1) (parse_function_expr E n' h' x1).
Proof. unfold parse_function_expr; les. Qed.
#[local] Hint Resolve le_parse_function_expr : le.
Lemma le_parse_arrow_body : le (parse_arrow_body E n h) (parse_arrow_body E n' h').
Proof. unfold parse_arrow_body; les. Qed.
#[local] Hint Resolve le_parse_arrow_body : le.
Lemma le_parse_single_param_arrow_function_expr (x1 : str) : le (parse_single_param_arrow_function_expr E n h x1) (parse_single_param_arrow_function_expr E n' h' x1).
Proof. unfold parse_single_param_arrow_function_expr; les. Qed.
#[local] Hint Resolve le_parse_single_param_arrow_function_expr : le.
Lemma le_parse_computed_property_name : le (parse_computed_property_name E h) (parse_computed_property_name E h').
Proof. unfold parse_computed_property_name; les. Qed.
#[local] Hint Resolve le_parse_computed_property_name : le.
Lemma le_parse_property_name : le (parse_property_name E h) (parse_property_name E h').
Proof. unfold parse_property_name; les. Qed.
#[local] Hint Resolve le_parse_property_name : le.
Lemma le_class_getter (x1 : bool) : le (class_getter E n h x1) (class_getter E n' h' x1).
Proof. unfold class_getter; les. Qed.
#[local] Hint Resolve le_class_getter : le.
Lemma le_class_setter (x1 : bool) : le (class_setter E n h x1) (class_setter E n' h' x1).
Proof. unfold class_setter; les. Qed.
#[local] Hint Resolve le_class_setter : le.
Lemma le_class_async_method (x1 : bool) : le (class_async_method E n h x1) (class_async_method E n' h' x1).
Proof. unfold class_async_method; les. Qed.
#[local] Hint Resolve le_class_async_method : le.
Lemma le_class_generator_method (x1 : bool) : le (class_generator_method E n h x1) (class_generator_method E n' h' x1).
Proof. unfold class_generator_method; les. Qed.
#[local] Hint Resolve le_class_generator_method : le.
Lemma le_class_plain_method (x1 : bool) : le (class_plain_method E n h x1) (class_plain_method E n' h' x1).
Proof. unfold class_plain_method; les. Qed.
#[local] Hint Resolve le_class_plain_method : le.
Lemma le_class_element : le (class_element E n h) (class_element E n' h').
Proof. unfold class_element; les. Qed.
#[local] Hint Resolve le_class_element : le.
Lemma le_parse_class_body : le (parse_class_body E n h) (parse_class_body E n' h').
Proof. unfold parse_class_body; les. Qed.
#[local] Hint Resolve le_parse_class_body : le.
Lemma le_parse_class_tail (x1 : option node) : le (parse_class_tail E n h x1) (parse_class_tail E n' h' x1).
Proof. unfold parse_class_tail; les. Qed.
#[local] Hint Resolve le_parse_class_tail : le.
Lemma le_parse_class_dclr : le (parse_class_dclr E n h) (parse_class_dclr E n' h').
Proof. unfold parse_class_dclr; les. Qed.
#[local] Hint Resolve le_parse_class_dclr : le.
Lemma le_parse_class_expr : le (parse_class_expr E n h) (parse_class_expr E n' h').
Proof. unfold parse_class_expr; les. Qed.
#[local] Hint Resolve le_parse_class_expr : le.
Lemma le_template_rest : forall k k' (x1 : bool), (k <= k')%nat -> le (template_rest E h k x1) (template_rest E h' k' x1).
Proof. induction k as [|k IH]; intros k0' x1 Hk; [intros s0; left; reflexivity|destruct k0' as [|k']; [lia|]]; cbn [template_rest]; les. Qed.
#[local] Hint Resolve le_template_rest : le.
Lemma le_template_literal : le (template_literal E n h) (template_literal E n' h').
Proof. unfold template_literal; les. Qed.
#[local] Hint Resolve le_template_literal : le.
Lemma le_parse_template_literal : le (parse_template_literal E n h) (parse_template_literal E n' h').
Proof. unfold parse_template_literal; les. Qed.
#[local] Hint Resolve le_parse_template_literal : le.
Lemma le_tagged_template (x1 : node) : le (tagged_template E n h x1) (tagged_template E n' h' x1).
Proof. unfold tagged_template; les. Qed.
#[local] Hint Resolve le_tagged_template : le.
Lemma le_array_lit_element : le (array_lit_element E h) (array_lit_element E h').
Proof. unfold array_lit_element; les. Qed.
#[local] Hint Resolve le_array_lit_element : le.
Lemma le_parse_array_lit_expr : le (parse_array_lit_expr E n h) (parse_array_lit_expr E n' h').
Proof. unfold parse_array_lit_expr; les. Qed.
#[local] Hint Resolve le_parse_array_lit_expr : le.
Lemma le_parse_method_definition (x1 : prop_key) (x2 : string) (x3 : bool) (x4 : bool) (x5 : bool) : le (parse_method_definition E n h x1 x2 x3 x4 x5) (parse_method_definition E n' h' x1 x2 x3 x4 x5).
Proof. unfold parse_method_definition; les. Qed.
#[local] Hint Resolve le_parse_method_definition : le.
Lemma le_accessor_modifier (x1 : string) : le (accessor_modifier E n h x1) (accessor_modifier E n' h' x1).
Proof. unfold accessor_modifier; les. Qed.
#[local] Hint Resolve le_accessor_modifier : le.
Lemma le_async_modifier : le (async_modifier E n h) (async_modifier E n' h').
Proof. unfold async_modifier; les. Qed.
#[local] Hint Resolve le_async_modifier : le.
Lemma le_property_modifiers : le (property_modifiers E n h) (property_modifiers E n' h').
Proof. unfold property_modifiers; les. Qed.
#[local] Hint Resolve le_property_modifiers : le.
Lemma le_property_key : le (property_key E h) (property_key E h').
Proof. unfold property_key; les. Qed.
#[local] Hint Resolve le_property_key : le.
Lemma le_object_property : le (object_property E n h) (object_property E n' h').
Proof. unfold object_property; les. Qed.
#[local] Hint Resolve le_object_property : le.
Lemma le_parse_object_lit_expr : le (parse_object_lit_expr E n h) (parse_object_lit_expr E n' h').
Proof. unfold parse_object_lit_expr; les. Qed.
#[local] Hint Resolve le_parse_object_lit_expr : le.
Lemma le_argument : le (argument E h) (argument E h').
Proof. unfold argument; les. Qed.
#[local] Hint Resolve le_argument : le.
Lemma le_parse_arguments : le (parse_arguments E n h) (parse_arguments E n' h').
Proof. unfold parse_arguments; les. Qed.
#[local] Hint Resolve le_parse_arguments : le.
Lemma le_seq_element : le (seq_element E n h) (seq_element E n' h').
Proof. unfold seq_element; les. Qed.
#[local] Hint Resolve le_seq_element : le.
Lemma le_seq_to_arrow (x1 : list node) : le (seq_to_arrow E n h x1) (seq_to_arrow E n' h' x1).
Proof. unfold seq_to_arrow; les. Qed.
#[local] Hint Resolve le_seq_to_arrow : le.
Lemma le_parse_seq_or_arrow : le (parse_seq_or_arrow E n h) (parse_seq_or_arrow E n' h').
Proof. unfold parse_seq_or_arrow; les. Qed.
#[local] Hint Resolve le_parse_seq_or_arrow : le.
Lemma le_parse_async_call_or_arrow (x1 : node) : le (parse_async_call_or_arrow E n h x1) (parse_async_call_or_arrow E n' h' x1).
Proof. unfold parse_async_call_or_arrow; les. Qed.
#[local] Hint Resolve le_parse_async_call_or_arrow : le.
Lemma le_parse_async_primary_expr : le (parse_async_primary_expr E n h) (parse_async_primary_expr E n' h').
Proof. unfold parse_async_primary_expr; les. Qed.
#[local] Hint Resolve le_parse_async_primary_expr : le.
Lemma le_parse_primary_expr : le (parse_primary_expr E n h) (parse_primary_expr E n' h').
Proof. unfold parse_primary_expr; les. Qed.
#[local] Hint Resolve le_parse_primary_expr : le.
Lemma le_parse_computed_member_expr (x1 : node) : le (parse_computed_member_expr E h x1) (parse_computed_member_expr E h' x1).
Proof. unfold parse_computed_member_expr; les. Qed.
#[local] Hint Resolve le_parse_computed_member_expr : le.
Lemma le_member_tail : forall k k' (x1 : node), (k <= k')%nat -> le (member_tail E n h k x1) (member_tail E n' h' k' x1).
Proof. induction k as [|k IH]; intros k0' x1 Hk; [intros s0; left; reflexivity|destruct k0' as [|k']; [lia|]]; cbn [member_tail]; les. Qed.
#[local] Hint Resolve le_member_tail : le.
Lemma le_parse_member_expr : le (parse_member_expr E n h) (parse_member_expr E n' h').
Proof. unfold parse_member_expr; les. Qed.
#[local] Hint Resolve le_parse_member_expr : le.
Lemma le_call_tail : forall k k' (x1 : node), (k <= k')%nat -> le (call_tail E n h k x1) (call_tail E n' h' k' x1).
Proof. induction k as [|k IH]; intros k0' x1 Hk; [intros s0; left; reflexivity|destruct k0' as [|k']; [lia|]]; cbn [call_tail]; les. Qed.
#[local] Hint Resolve le_call_tail : le.
Lemma le_parse_new_expr : le (parse_new_expr E n h) (parse_new_expr E n' h').
Proof. unfold parse_new_expr; les. Qed.
#[local] Hint Resolve le_parse_new_expr : le.
Lemma le_parse_call_expr : le (parse_call_expr E n h) (parse_call_expr E n' h').
Proof. unfold parse_call_expr; les. Qed.
#[local] Hint Resolve le_parse_call_expr : le.
Lemma le_parse_left_hand_side_expr : le (parse_left_hand_side_expr E n h) (parse_left_hand_side_expr E n' h').
Proof. unfold parse_left_hand_side_expr; les. Qed.
#[local] Hint Resolve le_parse_left_hand_side_expr : le.
Lemma le_parse_update_expr : le (parse_update_expr E n h) (parse_update_expr E n' h').
Proof. unfold parse_update_expr; les. Qed.
#[local] Hint Resolve le_parse_update_expr : le.
Lemma le_parse_unary_expr : le (parse_unary_expr E n h) (parse_unary_expr E n' h').
Proof. unfold parse_unary_expr; les. Qed.
#[local] Hint Resolve le_parse_unary_expr : le.
Lemma le_parse_exponentiation_expr : le (parse_exponentiation_expr E n h) (parse_exponentiation_expr E n' h').
Proof. unfold parse_exponentiation_expr; les. Qed.
#[local] Hint Resolve le_parse_exponentiation_expr : le.
Lemma le_climb_inner : forall k k' (x1 : token) (x2 : node), (k <= k')%nat -> le (climb_inner h k x1 x2) (climb_inner h' k' x1 x2).
Proof. induction k as [|k IH]; intros k0' x1 x2 Hk; [intros s0; left; reflexivity|destruct k0' as [|k']; [lia|]]; cbn [climb_inner]; les. Qed.
#[local] Hint Resolve le_climb_inner : le.
Lemma le_climb : forall k k' (x1 : node) (x2 : N), (k <= k')%nat -> le (climb E n h k x1 x2) (climb E n' h' k' x1 x2).
Proof. induction k as [|k IH]; intros k0' x1 x2 Hk; [intros s0; left; reflexivity|destruct k0' as [|k']; [lia|]]; cbn [climb]; les. Qed.
#[local] Hint Resolve le_climb : le.
Lemma le_precedence_climbing (x1 : node) (x2 : N) : le (precedence_climbing E n h x1 x2) (precedence_climbing E n' h' x1 x2).
Proof. unfold precedence_climbing; les. Qed.
#[local] Hint Resolve le_precedence_climbing : le.
Lemma le_parse_binary_expr : le (parse_binary_expr E n h) (parse_binary_expr E n' h').
Proof. unfold parse_binary_expr; les. Qed.
#[local] Hint Resolve le_parse_binary_expr : le.
Lemma le_parse_conditional_expr : le (parse_conditional_expr E n h) (parse_conditional_expr E n' h').
Proof. unfold parse_conditional_expr; les. Qed.
#[local] Hint Resolve le_parse_conditional_expr : le.
Lemma le_parse_yield_expr : le (parse_yield_expr E n h) (parse_yield_expr E n' h').
Proof. unfold parse_yield_expr; les. Qed.
#[local] Hint Resolve le_parse_yield_expr : le.
Lemma le_maybe_arrow (x1 : node) : le (maybe_arrow E n h x1) (maybe_arrow E n' h' x1).
Proof. unfold maybe_arrow; les. Qed.
#[local] Hint Resolve le_maybe_arrow : le.
Lemma le_assignment_tail (x1 : node) : le (assignment_tail E h x1) (assignment_tail E h' x1).
Proof. unfold assignment_tail; les. Qed.
#[local] Hint Resolve le_assignment_tail : le.
Lemma le_parse_assignment_expr : le (parse_assignment_expr E n h) (parse_assignment_expr E n' h').
Proof. unfold parse_assignment_expr; les. Qed.
#[local] Hint Resolve le_parse_assignment_expr : le.
Lemma le_parse_expression : le (parse_expression E n h) (parse_expression E n' h').
Proof. unfold parse_expression; les. Qed.
#[local] Hint Resolve le_parse_expression : le.
Lemma le_parse_function_dclr (x1 : bool) (x2 : bool) : le (parse_function_dclr E n h x1 x2) (parse_function_dclr E n' h' x1 x2).
Proof. unfold parse_function_dclr; les. Qed.
#[local] Hint Resolve le_parse_function_dclr : le.
Lemma le_parse_hoistable_dclr : le (parse_hoistable_dclr E n h) (parse_hoistable_dclr E n' h').
Proof. unfold parse_hoistable_dclr; les. Qed.
#[local] Hint Resolve le_parse_hoistable_dclr : le.
Lemma le_parse_variable_dclr : le (parse_variable_dclr E n h) (parse_variable_dclr E n' h').
Proof. unfold parse_variable_dclr; les. Qed.
#[local] Hint Resolve le_parse_variable_dclr : le.
Lemma le_variable_dclr_list : le (variable_dclr_list E n h) (variable_dclr_list E n' h').
Proof. unfold variable_dclr_list; les. Qed.
#[local] Hint Resolve le_variable_dclr_list : le.
Lemma le_parse_variable_stmt (x1 : bool) : le (parse_variable_stmt E n h x1) (parse_variable_stmt E n' h' x1).
Proof. unfold parse_variable_stmt; les. Qed.
#[local] Hint Resolve le_parse_variable_stmt : le.
Lemma le_parse_lexical_dclr : le (parse_lexical_dclr E n h) (parse_lexical_dclr E n' h').
Proof. unfold parse_lexical_dclr; les. Qed.
#[local] Hint Resolve le_parse_lexical_dclr : le.
Lemma le_parse_declaration : le (parse_declaration E n h) (parse_declaration E n' h').
Proof. unfold parse_declaration; les. Qed.
#[local] Hint Resolve le_parse_declaration : le.
Lemma le_parse_block_stmt : le (parse_block_stmt E n h) (parse_block_stmt E n' h').
Proof. unfold parse_block_stmt; les. Qed.
#[local] Hint Resolve le_parse_block_stmt : le.
Lemma le_parse_if_stmt : le (parse_if_stmt E n h) (parse_if_stmt E n' h').
Proof. unfold parse_if_stmt; les. Qed.
#[local] Hint Resolve le_parse_if_stmt : le.
Lemma le_iteration_body : le (iteration_body h) (iteration_body h').
Proof. unfold iteration_body; les. Qed.
#[local] Hint Resolve le_iteration_body : le.
Lemma le_parse_for_classic_stmt (x1 : option node) : le (parse_for_classic_stmt E n h x1) (parse_for_classic_stmt E n' h' x1).
Proof. unfold parse_for_classic_stmt; les. Qed.
#[local] Hint Resolve le_parse_for_classic_stmt : le.
Lemma le_parse_for_in_stmt (x1 : node) : le (parse_for_in_stmt E n h x1) (parse_for_in_stmt E n' h' x1).
Proof. unfold parse_for_in_stmt; les. Qed.
#[local] Hint Resolve le_parse_for_in_stmt : le.
Lemma le_parse_for_of_stmt (x1 : node) : le (parse_for_of_stmt E n h x1) (parse_for_of_stmt E n' h' x1).
Proof. unfold parse_for_of_stmt; les. Qed.
#[local] Hint Resolve le_parse_for_of_stmt : le.
Lemma le_for_declarations (x1 : string) (x2 : binding) (x3 : option node) : le (for_declarations E n h x1 x2 x3) (for_declarations E n' h' x1 x2 x3).
Proof. unfold for_declarations; les. Qed.
#[local] Hint Resolve le_for_declarations : le.
Lemma le_for_var : le (for_var E n h) (for_var E n' h').
Proof. unfold for_var; les. Qed.
#[local] Hint Resolve le_for_var : le.
Lemma le_for_lexical : le (for_lexical E n h) (for_lexical E n' h').
Proof. unfold for_lexical; les. Qed.
#[local] Hint Resolve le_for_lexical : le.
Lemma le_for_expression : le (for_expression E n h) (for_expression E n' h').
Proof. unfold for_expression; les. Qed.
#[local] Hint Resolve le_for_expression : le.
Lemma le_parse_for_stmt : le (parse_for_stmt E n h) (parse_for_stmt E n' h').
Proof. unfold parse_for_stmt; les. Qed.
#[local] Hint Resolve le_parse_for_stmt : le.
Lemma le_parse_while_stmt : le (parse_while_stmt E n h) (parse_while_stmt E n' h').
Proof. unfold parse_while_stmt; les. Qed.
#[local] Hint Resolve le_parse_while_stmt : le.
Lemma le_parse_do_while_stmt : le (parse_do_while_stmt E n h) (parse_do_while_stmt E n' h').
Proof. unfold parse_do_while_stmt; les. Qed.
#[local] Hint Resolve le_parse_do_while_stmt : le.
Lemma le_parse_iteration_stmt : le (parse_iteration_stmt E n h) (parse_iteration_stmt E n' h').
Proof. unfold parse_iteration_stmt; les. Qed.
#[local] Hint Resolve le_parse_iteration_stmt : le.
Lemma le_switch_consequent : forall k k', (k <= k')%nat -> le (switch_consequent h k) (switch_consequent h' k').
Proof. induction k as [|k IH]; intros k0'  Hk; [intros s0; left; reflexivity|destruct k0' as [|k']; [lia|]]; cbn [switch_consequent]; les. Qed.
#[local] Hint Resolve le_switch_consequent : le.
Lemma le_switch_test (x1 : bool) : le (switch_test E n h x1) (switch_test E n' h' x1).
Proof. unfold switch_test; les. Qed.
#[local] Hint Resolve le_switch_test : le.
Lemma le_switch_cases : forall k k' (x1 : bool), (k <= k')%nat -> le (switch_cases E n h k x1) (switch_cases E n' h' k' x1).
Proof. induction k as [|k IH]; intros k0' x1 Hk; [intros s0; left; reflexivity|destruct k0' as [|k']; [lia|]]; cbn [switch_cases]; les. Qed.
#[local] Hint Resolve le_switch_cases : le.
Lemma le_parse_switch_stmt : le (parse_switch_stmt E n h) (parse_switch_stmt E n' h').
Proof. unfold parse_switch_stmt; les. Qed.
#[local] Hint Resolve le_parse_switch_stmt : le.
Lemma le_parse_return_stmt : le (parse_return_stmt E n h) (parse_return_stmt E n' h').
Proof. unfold parse_return_stmt; les. Qed.
#[local] Hint Resolve le_parse_return_stmt : le.
Lemma le_return_or_error : le (return_or_error E n h) (return_or_error E n' h').
Proof. unfold return_or_error; les. Qed.
#[local] Hint Resolve le_return_or_error : le.
Lemma le_parse_with_stmt : le (parse_with_stmt E n h) (parse_with_stmt E n' h').
Proof. unfold parse_with_stmt; les. Qed.
#[local] Hint Resolve le_parse_with_stmt : le.
Lemma le_parse_labelled_stmt (x1 : identifier) : le (parse_labelled_stmt E n h x1) (parse_labelled_stmt E n' h' x1).
Proof. unfold parse_labelled_stmt; les. Qed.
#[local] Hint Resolve le_parse_labelled_stmt : le.
Lemma le_parse_expression_or_labelled_stmt : le (parse_expression_or_labelled_stmt E n h) (parse_expression_or_labelled_stmt E n' h').
Proof. unfold parse_expression_or_labelled_stmt; les. Qed.
#[local] Hint Resolve le_parse_expression_or_labelled_stmt : le.
Lemma le_parse_throw_stmt : le (parse_throw_stmt E n h) (parse_throw_stmt E n' h').
Proof. unfold parse_throw_stmt; les. Qed.
#[local] Hint Resolve le_parse_throw_stmt : le.
Lemma le_parse_catch_clause : le (parse_catch_clause E n h) (parse_catch_clause E n' h').
Proof. unfold parse_catch_clause; les. Qed.
#[local] Hint Resolve le_parse_catch_clause : le.
Lemma le_parse_finally_clause : le (parse_finally_clause E n h) (parse_finally_clause E n' h').
Proof. unfold parse_finally_clause; les. Qed.
#[local] Hint Resolve le_parse_finally_clause : le.
Lemma le_parse_try_stmt : le (parse_try_stmt E n h) (parse_try_stmt E n' h').
Proof. unfold parse_try_stmt; les. Qed.
#[local] Hint Resolve le_parse_try_stmt : le.
Lemma le_async_stmt : le (async_stmt E n h) (async_stmt E n' h').
Proof. unfold async_stmt; les. Qed.
#[local] Hint Resolve le_async_stmt : le.
Lemma le_parse_stmt_list_item : le (parse_stmt_list_item E n h) (parse_stmt_list_item E n' h').
Proof. unfold parse_stmt_list_item; les. Qed.
#[local] Hint Resolve le_parse_stmt_list_item : le.
Lemma le_parse_statement : le (parse_statement E n h) (parse_statement E n' h').
Proof. unfold parse_statement; les. Qed.
#[local] Hint Resolve le_parse_statement : le.
Lemma le_named_import_specifiers : le (named_import_specifiers E n) (named_import_specifiers E n').
Proof. unfold named_import_specifiers; les. Qed.
#[local] Hint Resolve le_named_import_specifiers : le.
Lemma le_parse_import_dclr : le (parse_import_dclr E n) (parse_import_dclr E n').
Proof. unfold parse_import_dclr; les. Qed.
#[local] Hint Resolve le_parse_import_dclr : le.
Lemma le_named_export_specifiers : le (named_export_specifiers E n) (named_export_specifiers E n').
Proof. unfold named_export_specifiers; les. Qed.
#[local] Hint Resolve le_named_export_specifiers : le.
Lemma le_export_default : le (export_default E n h) (export_default E n' h').
Proof. unfold export_default; les. Qed.
#[local] Hint Resolve le_export_default : le.
Lemma le_parse_export_dclr : le (parse_export_dclr E n h) (parse_export_dclr E n' h').
Proof. unfold parse_export_dclr; les. Qed.
#[local] Hint Resolve le_parse_export_dclr : le.
Lemma le_parse_module_item : le (parse_module_item E n h) (parse_module_item E n' h').
Proof. unfold parse_module_item; les. Qed.
#[local] Hint Resolve le_parse_module_item : le.
Lemma le_script : le (script E n h) (script E n' h').
Proof. unfold script; les. Qed.
#[local] Hint Resolve le_script : le.
Lemma le_module_ : le (module_ E n h) (module_ E n' h').
Proof. unfold module_; les. Qed.
#[local] Hint Resolve le_module_ : le.
End Mono.

Lemma le_run E : forall k k', (k <= k')%nat -> le_h (run E k) (run E k').
Proof.
  induction k as [|k IH]; intros [|k'] Hk; try lia.
  - constructor; intros; apply le_refl.
  - constructor; intros; intros s; left; reflexivity.
  - assert (Hr : le_h (run E k) (run E k')) by (apply IH; lia).
    constructor; cbn [run step h_bindpat h_lhs h_new h_unary h_exp h_climb h_assign h_expression h_statement h_item]; intros;
    [apply le_parse_binding_id_or_pat|apply le_parse_left_hand_side_expr|apply le_parse_new_expr|apply le_parse_unary_expr
    |apply le_parse_exponentiation_expr|apply le_precedence_climbing|apply le_parse_assignment_expr|apply le_parse_expression
    |apply le_parse_statement|apply le_parse_stmt_list_item]; auto.
Qed.
Lemma script_fuel E n n' s : (n <= n')%nat -> script E n (run E n) s <> RFuel -> script E n' (run E n') s = script E n (run E n) s.
Proof. intros H Hf. destruct (@le_script E n n' (run E n) (run E n') H (le_run E H) s); auto. contradiction. Qed.
Lemma module_fuel E n n' s : (n <= n')%nat -> module_ E n (run E n) s <> RFuel -> module_ E n' (run E n') s = module_ E n (run E n) s.
Proof. intros H Hf. destruct (@le_module_ E n n' (run E n) (run E n') H (le_run E H) s); auto. contradiction. Qed.
