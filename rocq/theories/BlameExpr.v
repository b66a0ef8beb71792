(** * BlameExpr: the errors of the functions of ParserExpr.v and the tokens they refer
    to; spans begin at tokens (proofs for C50, C51). *)
From Verif Require Import Base Codepoint Punct Token Scanner Ast Convert ParserBase ParserExpr.
From Verif Require Import SpecLex SpecScan SpecTree SpecSpell SpecBlame Hoare LexFacts ParserInv SpellBase Rel BlameBase BlameConv.
Set Implicit Arguments.

Definition bracketed (p : pos) (b : binding) (q : pos) : Prop :=
  match b with
  | B_Id _ _ => True
  | B_Expr _ => False
  | _ => either (is_p LBracket) (is_p LBrace) (next p) /\ exists u l, before q = u :: l /\ either (is_p RBracket) (is_p RBrace) u
  end.
Definition plain_binding (b : binding) : Prop := match b with B_Expr _ => False | _ => True end.
Lemma bracketed_plain p b q : bracketed p b q -> plain_binding b.
Proof. destruct b; cbn; auto. Qed.

Record hEs (E : env) (src : str) (first : token) (L LB : N) (h : handler) : Prop := mkHEs {
  he_bindpat : es E src first L LB (h_bindpat h) (fun p b q => r_bind (sp_ok E src) eq b b /\ bracketed p b q);
  he_lhs : es E src first L LB (h_lhs h) (fun _ e _ => r_node (sp_ok E src) eq e e);
  he_new : es E src first L LB (h_new h) (fun _ e _ => r_node (sp_ok E src) eq e e);
  he_unary : es E src first L LB (h_unary h) (fun _ e _ => r_node (sp_ok E src) eq e e);
  he_exp : es E src first L LB (h_exp h) (fun _ e _ => r_node (sp_ok E src) eq e e);
  he_climb : forall lhs prec, r_node (sp_ok E src) eq lhs lhs -> es E src first L LB (h_climb h lhs prec) (fun _ e _ => r_node (sp_ok E src) eq e e);
  he_assign : es E src first L LB (h_assign h) (fun _ e _ => r_node (sp_ok E src) eq e e);
  he_expression : es E src first L LB (h_expression h) (fun _ e _ => r_node (sp_ok E src) eq e e);
  he_statement : es E src first L LB (h_statement h) (fun _ e _ => r_node (sp_ok E src) eq e e);
  he_item : es E src first L LB (h_item h) (fun _ e _ => r_node (sp_ok E src) eq e e) }.

Lemma last_before (P : token -> Prop) p u l : before p = u :: l -> P u -> last_is P (rev (before p)).
Proof. intros -> H. exists (rev l), u. auto. Qed.
Lemma last_step (P : token -> Prop) p q : step p q -> P (next p) -> last_is P (rev (before q)).
Proof. intros H. unfold step in H. eapply last_before. exact H. Qed.
Lemma last_eats (P Q : token -> Prop) p q : eats P p q -> (P (next p) -> Q (next p)) -> last_is Q (rev (before q)).
Proof. intros [H1 H2] H. eapply last_step; [exact H1|auto]. Qed.
Lemma pattern_end_before p u l : before p = u :: l -> is_p Assign u \/ is_p RParen u -> pattern_end (rev (before p) ++ [next p]).
Proof. intros -> H. cbn [rev]. exists (rev l), u, (next p). rewrite <- app_assoc. cbn. split; [reflexivity|tauto]. Qed.
Lemma map_diag A B (R : B -> B -> Prop) (f : A -> B) l : Forall (fun x => R (f x) (f x)) l -> Forall (fun x => R x x) (map f l).
Proof. induction 1; constructor; auto. Qed.
Lemma cat_some_good A (R : A -> A -> Prop) l : Forall (fun x => orel R x x) l -> Forall (fun x => R x x) (cat_some l).
Proof. induction 1 as [|o l H _ IH]; cbn; [constructor|]. destruct o; auto. inversion H; subst. constructor; auto. Qed.

Section Pass.
Context (E : env) (src : str) (first : token) (L LB : N) (n : nat) (h : handler).
Notation es := (es E src first L LB).
Notation T := (T E src first L LB).
Notation sp_ok := (sp_ok E src).
Notation gn x := (r_node sp_ok eq x x).
Notation gb x := (r_bind sp_ok eq x x).
Hypothesis HS : hEs E src first L LB h.
#[local] Hint Resolve he_lhs he_new he_unary he_exp he_climb he_assign he_expression he_statement he_item HS : es.
Let bindpat_h := he_bindpat HS.
#[local] Hint Resolve bindpat_h : es.

(** ** Names *)
Lemma id_reference_e : es (parse_id_reference E) (fun _ a _ => gn a).
Proof.
  ego parse_id_reference.
  - match goal with H : _ -> explains _ _ _ _ _ |- _ => exact (H eq_refl) end.
  - apply tok_kw_eq. assumption.
  - apply tok_kw_eq. assumption.
Qed.
Lemma binding_id_e : es (parse_binding_id E) (fun _ b _ => gb b /\ exists nm sp, b = B_Id nm sp).
Proof.
  ego parse_binding_id.
  - match goal with H : _ -> explains _ _ _ _ _ |- _ => exact (H eq_refl) end.
  - split; [egood|eauto].
Qed.
Lemma id_name_e g : es (parse_id_name E g) (fun p a q => tval (next p) = VStr a /\ step p q /\ (ttype (next p) = TIdentifier \/ ttype (next p) = TKeyword)).
Proof.
  ego parse_id_name. split; [|split; [assumption|]].
  - destruct (tval (next p)); try discriminate. match goal with H : v_string _ = Some _ |- _ => injection H as -> end. reflexivity.
  - match goal with H : _ || _ = true |- _ => apply orb_true_iff in H; destruct H as [H|H]; apply tok_is_eq in H; auto end.
Qed.
#[local] Hint Resolve id_reference_e binding_id_e id_name_e : es.
Lemma comma_unless_e c : es (comma_unless E c) (fun _ _ _ => True).
Proof. ego comma_unless. Qed.
Lemma assign_in_e : es (assign_in h) (fun _ a _ => gn a).
Proof. unfold assign_in, with_in. eauto with es. Qed.
Lemma expression_in_e : es (expression_in h) (fun _ a _ => gn a).
Proof. unfold expression_in, with_in. eauto with es. Qed.
#[local] Hint Resolve comma_unless_e assign_in_e expression_in_e : es.

(** ** Binding patterns *)
Definition g_ve (v : value_or_expr) : Prop := match v with VEExpr e => gn e | _ => True end.
Lemma obj_pat_key_e : es (obj_pat_key E h) (fun _ v _ => g_ve v).
Proof. ego obj_pat_key. Qed.
Lemma obj_pat_value_e l c b : plain_binding b -> gb b -> es (obj_pat_value E h l c b) (fun _ v _ => r_val sp_ok eq v v).
Proof. intros Hb Hg. inversion Hg; subst; try contradiction; ego obj_pat_value. Qed.
Lemma value_to_key_e v lit sp : g_ve v -> sp_ok sp sp -> es (value_to_key E v lit sp) (fun _ k _ => r_key sp_ok eq k k).
Proof. intros Hv Hs. ego value_to_key. Qed.
Lemma name_of_e v : es (match v with VEValue (VStr s) => ret s | _ => unexpected_current E end) (fun _ _ _ => True).
Proof. intros s p H. destruct v as [[]|]; ewalk. Qed.
#[local] Hint Resolve obj_pat_key_e obj_pat_value_e value_to_key_e bracketed_plain : es.
Lemma obj_pat_rest_e v sp : g_ve v -> sp_ok sp sp -> es (obj_pat_rest E h v sp) (fun _ x _ => r_opat sp_ok eq x x).
Proof.
  intros Hv Hs. unfold obj_pat_rest. intros s p H. do 3 estep.
  - do 2 estep. estep. euse ltac:(eapply use_es; [eassumption|apply name_of_e]). ewalk.
  - ewalk.
Qed.
#[local] Hint Resolve obj_pat_rest_e : es.
Lemma obj_pat_property_e : es (obj_pat_property E h) (fun _ x _ => r_opat sp_ok eq x x).
Proof. ego obj_pat_property. Qed.
#[local] Hint Resolve obj_pat_property_e : es.
Lemma obj_binding_pat_e : es (parse_obj_binding_pat E n h) (fun p b q => gb b /\ bracketed p b q).
Proof.
  ego parse_obj_binding_pat. split; [egood|]. cbn. repeat match goal with H : eats _ _ _ |- _ => destruct H end.
  split; [right; assumption|]. do 2 eexists. split; [eassumption|right; assumption].
Qed.
Lemma arr_pat_element_e : es (arr_pat_element E h) (fun _ x _ => orel (r_apat sp_ok eq) x x).
Proof.
  ego arr_pat_element; try contradiction; match goal with H : r_bind _ _ _ _ |- _ => inversion H; subst; egood end.
Qed.
#[local] Hint Resolve arr_pat_element_e : es.
Lemma arr_binding_pat_e : es (parse_arr_binding_pat E n h) (fun p b q => gb b /\ bracketed p b q).
Proof.
  ego parse_arr_binding_pat. split; [egood|]. cbn. repeat match goal with H : eats _ _ _ |- _ => destruct H end.
  split; [left; assumption|]. do 2 eexists. split; [eassumption|left; assumption].
Qed.
#[local] Hint Resolve obj_binding_pat_e arr_binding_pat_e : es.
Lemma bindpat_e : es (parse_binding_id_or_pat E n h) (fun p b q => gb b /\ bracketed p b q).
Proof. ego parse_binding_id_or_pat; subst; cbn; auto. Qed.
#[local] Hint Resolve bindpat_e : es.

(** ** Functions *)
Lemma directives_e k : es (directive_prologues E h k) (fun _ l _ => Forall (fun x => gn x) l).
Proof. induction k as [|k IH]; intros s p H; [exact I|]. cbn [directive_prologues]. ewalk.
  Qed.
Lemma statement_list_e : es (parse_statement_list n h) (fun _ l _ => Forall (fun x => gn x) l).
Proof. unfold parse_statement_list. eapply es_weaken; [eauto with es|]. cbv beta. intros. fpos. assumption. Qed.
#[local] Hint Resolve directives_e statement_list_e : es.
Lemma function_body_block_e : es (parse_function_body_block E n h) (fun _ a _ => gn a).
Proof. ego parse_function_body_block. Qed.
#[local] Hint Resolve function_body_block_e : es.
Lemma function_body_e : es (parse_function_body E n h) (fun _ a _ => gn a).
Proof. ego parse_function_body. Qed.
#[local] Hint Resolve function_body_e : es.
Notation gp x := (r_param sp_ok eq x x).
Lemma formal_param_e : es (formal_param E n h) (fun _ x _ => gp x).
Proof. ego formal_param; try contradiction; match goal with H : r_bind _ _ _ _ |- _ => inversion H; subst; egood end. Qed.
#[local] Hint Resolve formal_param_e : es.
Lemma formal_params_e : es (parse_formal_params E n h) (fun _ l _ => Forall (fun x => gp x) l).
Proof. ego parse_formal_params. Qed.
#[local] Hint Resolve formal_params_e : es.
Lemma params_and_body_e y a : es (params_and_body E n h y a) (fun _ x _ => Forall (fun x => gp x) (fst x) /\ gn (snd x)).
Proof. ego params_and_body. Qed.
Lemma function_expr_e b : es (parse_function_expr E n h b) (fun _ a _ => gn a).
Proof. ego parse_function_expr. Qed.
Lemma arrow_body_e : es (parse_arrow_body E n h) (fun _ x _ => gn (fst x)).
Proof. ego parse_arrow_body. Qed.
#[local] Hint Resolve params_and_body_e function_expr_e arrow_body_e : es.
Lemma single_arrow_e nm : es (parse_single_param_arrow_function_expr E n h nm) (fun _ a _ => gn a).
Proof. ego parse_single_param_arrow_function_expr. Qed.
#[local] Hint Resolve single_arrow_e : es.
Definition after_paren (p : pos) : Prop := exists u l, before p = u :: l /\ is_p RParen u.
Lemma param_of_pattern_e b x s p : T s p -> after_paren p -> gn x -> wp (XB E src) (param_of_pattern E b x) (fun y s' => T s' p /\ gp y) s.
Proof.
  intros H (u & l & H1 & H2) Hx. unfold param_of_pattern. destruct x; ewalk; try (eapply last_before; eassumption); (split; [assumption|]); inversion Hx; subst; egood.
Qed.
Lemma seq_to_arrow_params_e seq : forall s p, T s p -> after_paren p -> Forall (fun x => gn x) seq ->
  wp (XB E src) (seq_to_arrow_params E seq) (fun y s' => T s' p /\ Forall (fun x => gp x) y) s.
Proof.
  induction seq as [|e seq IH]; intros s p H Hp Hl; cbn [seq_to_arrow_params]; [apply wp_ret; auto|]. inversion Hl; subst.
  estep. pose proof Hp as (u & l & H1 & H2'). euse ltac:(eapply e_conv; [apply to_binding_pattern_ok; eassumption|eapply pattern_end_before; eauto|exact H]).
  estep. euse ltac:(eapply param_of_pattern_e; eassumption). estep. euse ltac:(eapply IH; eassumption). estep. split; [assumption|constructor; assumption].
Qed.

(** ** Classes *)
Notation gk x := (r_key sp_ok eq x x).
Notation gm x := (orel (r_meth sp_ok eq) x x).
Lemma computed_property_name_e : es (parse_computed_property_name E h) (fun _ k _ => gk k).
Proof. ego parse_computed_property_name. Qed.
#[local] Hint Resolve computed_property_name_e : es.
Lemma property_name_e : es (parse_property_name E h) (fun _ x _ => gk (fst x)).
Proof. ego parse_property_name. Qed.
#[local] Hint Resolve property_name_e : es.
Lemma key_as_node_good k : gk k -> gn (key_as_node k).
Proof.
  intros H. inversion H; subst; cbn; [| |assumption];
    match goal with H : r_id _ _ _ |- _ => destruct H | H : r_lit _ _ _ |- _ => destruct H as (? & ? & ?) end; egood.
Qed.
Ltac emeth := repeat match goal with H : r_key _ _ ?k ?k |- _ => apply key_as_node_good in H end; egood.
Lemma class_getter_e b : es (class_getter E n h b) (fun _ x _ => gm x).
Proof. ego class_getter. cbn [fst snd] in *. emeth. Qed.
Lemma class_setter_e b : es (class_setter E n h b) (fun _ x _ => gm x).
Proof. ego class_setter. cbn [fst snd] in *. emeth. Qed.
Lemma class_async_e b : es (class_async_method E n h b) (fun _ x _ => gm x).
Proof. ego class_async_method; cbn [fst snd] in *; emeth. Qed.
Lemma class_generator_e b : es (class_generator_method E n h b) (fun _ x _ => gm x).
Proof. ego class_generator_method; cbn [fst snd] in *; emeth. Qed.
Lemma class_plain_e b : es (class_plain_method E n h b) (fun _ x _ => gm x).
Proof. ego class_plain_method; cbn [fst snd] in *; emeth. Qed.
#[local] Hint Resolve class_getter_e class_setter_e class_async_e class_generator_e class_plain_e : es.
Lemma class_element_e : es (class_element E n h) (fun _ x _ => gm x).
Proof. ego class_element. Qed.
#[local] Hint Resolve class_element_e : es.
Lemma class_body_e : es (parse_class_body E n h) (fun _ l _ => Forall (fun x => r_meth sp_ok eq x x) l).
Proof. ego parse_class_body. apply cat_some_good. assumption. Qed.
#[local] Hint Resolve class_body_e : es.
Lemma class_tail_e id : orel (r_node sp_ok eq) id id -> es (parse_class_tail E n h id) (fun _ a _ => gn a).
Proof. intros Hi. ego parse_class_tail. Qed.
Lemma binding_id_node_e : es (binding_id_node E) (fun _ a _ => gn a).
Proof. ego binding_id_node; match goal with H : r_bind _ _ _ _ |- _ => inversion H; subst; egood end. Qed.
#[local] Hint Resolve binding_id_node_e : es.
#[local] Hint Extern 3 (es (parse_class_tail _ _ _ _) _) => apply class_tail_e; egood : es.
Lemma class_dclr_e : es (parse_class_dclr E n h) (fun _ a _ => gn a).
Proof. ego parse_class_dclr. Qed.
Lemma class_expr_e : es (parse_class_expr E n h) (fun _ a _ => gn a).
Proof. ego parse_class_expr. Qed.
#[local] Hint Resolve class_dclr_e class_expr_e : es.

(** ** Primary expressions *)
Lemma template_piece_e : es (template_piece E) (fun _ _ _ => True).
Proof. ego template_piece. Qed.
#[local] Hint Resolve template_piece_e : es.
Lemma template_head_e : es (parse_template_head E) (fun _ _ _ => True).
Proof.
  unfold parse_template_head. intros s p H. do 3 estep; [|estep]. destruct (thead (next p)) as [[]|] eqn:Hh; ewalk;
    (split; [apply tok_is_eq; assumption|rewrite Hh; discriminate]).
Qed.
Lemma template_element_e : es (parse_template_element E) (fun _ _ _ => True).
Proof. ego parse_template_element. Qed.
#[local] Hint Resolve template_head_e template_element_e : es.
Lemma template_rest_e k : forall b, es (template_rest E h k b) (fun _ x _ => Forall (fun x => gn x) (snd x)).
Proof.
  induction k as [|k IH]; intros b s p H; [exact I|]. cbn [template_rest]. ewalk.
Qed.
#[local] Hint Resolve template_rest_e : es.
Lemma template_literal_e : es (template_literal E n h) (fun _ x _ => Forall (fun x => gn x) (snd (fst x)) /\ sp_ok (snd x) (snd x)).
Proof. ego template_literal. Qed.
#[local] Hint Resolve template_literal_e : es.
Lemma parse_template_e : es (parse_template_literal E n h) (fun _ a _ => gn a).
Proof. ego parse_template_literal. Qed.
Lemma tagged_template_e t : gn t -> es (tagged_template E n h t) (fun _ a _ => gn a).
Proof. intros Ht. ego tagged_template. Qed.
Lemma array_lit_element_e : es (array_lit_element E h) (fun _ x _ => orel (r_elem sp_ok eq) x x).
Proof. ego array_lit_element. Qed.
#[local] Hint Resolve parse_template_e tagged_template_e array_lit_element_e : es.
Lemma array_lit_e : es (parse_array_lit_expr E n h) (fun _ a _ => gn a).
Proof. ego parse_array_lit_expr. Qed.
Notation gpr x := (r_prop sp_ok eq x x).
Lemma method_definition_e k kind a g c : gk k -> es (parse_method_definition E n h k kind a g c) (fun _ x _ => gpr x).
Proof. intros Hk. ego parse_method_definition. destruct a; egood. Qed.
#[local] Hint Resolve array_lit_e : es.
#[local] Hint Extern 3 (es (parse_method_definition _ _ _ _ _ _ _ _) _) => apply method_definition_e; cbn [fst snd] in *; egood : es.
Definition g_mod (m : modifiers) : Prop := match m with Done p => gpr p | More _ _ _ => True end.
Lemma accessor_e w s p : T s p -> peeked (next p) -> wp (XB E src) (accessor_modifier E n h w) (fun m s' => exists q, T s' q /\ ext p q /\ g_mod m) s.
Proof.
  intros H Hp. unfold accessor_modifier. estep. euse ltac:(eapply e_look; eassumption). ewalk.
Qed.
Lemma async_modifier_e s p : T s p -> peeked (next p) -> wp (XB E src) (async_modifier E n h) (fun m s' => exists q, T s' q /\ ext p q /\ g_mod m) s.
Proof.
  intros H Hp. unfold async_modifier. estep. euse ltac:(eapply e_look; eassumption). ewalk.
Qed.
Lemma property_modifiers_e : es (property_modifiers E n h) (fun _ m _ => g_mod m).
Proof.
  unfold property_modifiers. intros s p H. estep. estep. estep; [|estep; [|estep; [|ewalk]]].
  - eapply accessor_e; [exact H|]. right; left. apply tok_id_eq. assumption.
  - eapply accessor_e; [exact H|]. right; right. apply tok_id_eq. assumption.
  - eapply async_modifier_e; [exact H|]. left. apply tok_id_eq. assumption.
Qed.
Lemma property_key_e : es (property_key E h) (fun _ x _ => gk (fst x)).
Proof. ego property_key. Qed.
#[local] Hint Resolve property_modifiers_e property_key_e : es.
Lemma object_property_e : es (object_property E n h) (fun _ x _ => gpr x).
Proof. ego object_property. Qed.
#[local] Hint Resolve object_property_e : es.
Lemma object_lit_e : es (parse_object_lit_expr E n h) (fun _ a _ => gn a).
Proof. ego parse_object_lit_expr. Qed.
Lemma argument_e : es (argument E h) (fun _ x _ => r_arg sp_ok eq x x).
Proof. ego argument. Qed.
#[local] Hint Resolve object_lit_e argument_e : es.
Lemma arguments_e : es (parse_arguments E n h) (fun _ l _ => Forall (fun x => r_arg sp_ok eq x x) l).
Proof. ego parse_arguments. Qed.
#[local] Hint Resolve arguments_e : es.
Lemma seq_element_e : es (seq_element E n h) (fun _ x _ => gn (fst x)).
Proof. ego seq_element. Qed.
#[local] Hint Resolve seq_element_e : es.
Lemma seq_to_arrow_e seq s p : T s p -> after_paren p -> Forall (fun x => gn x) seq -> wp (XB E src) (seq_to_arrow E n h seq) (fun a s' => exists q, T s' q /\ ext p q /\ gn a) s.
Proof.
  intros H Hp Hl. unfold seq_to_arrow. estep. euse ltac:(eapply seq_to_arrow_params_e; eassumption). ewalk.
Qed.
Lemma seq_or_arrow_e : es (parse_seq_or_arrow E n h) (fun _ a _ => gn a).
Proof.
  unfold parse_seq_or_arrow. intros s p H. do 11 estep.
  - match goal with K : Forall _ _ |- _ => apply (@map_diag _ _ (r_node sp_ok eq) fst) in K end.
    eapply wp_conseq; [eapply seq_to_arrow_e; [eassumption| |eassumption]|].
    + match goal with K : eats (is_p RParen) _ _ |- _ => destruct K end. do 2 eexists. split; eassumption.
    + cbv beta. intros; fdest. eexists. split; [eassumption|]. split; [eext|assumption].
  - match goal with K : Forall _ _ |- _ => apply (@map_diag _ _ (r_node sp_ok eq) fst) in K end. ewalk.
Qed.
#[local] Hint Resolve seq_or_arrow_e : es.
Lemma async_primary_e : es (parse_async_primary_expr E n h) (fun _ a _ => gn a).
Proof.
  intros s p H. unfold parse_async_primary_expr. do 6 estep. estep; [|ewalk].
  estep. estep. estep; [ewalk|]. estep; [ewalk|]. estep; [ewalk|].
  estep; [ewalk|]. match goal with K : tok_is ?t TPunctuator && is_some (v_punc (tval ?t)) = false |- _ => rename K into Hp end. estep.
  { exfalso. match goal with K : tok_punc _ LParen = true |- _ => apply tok_punc_eq in K; destruct K as [Hl1 Hl2] end. unfold tok_is in Hp. rewrite Hl1, Hl2 in Hp. discriminate Hp. }
  ewalk.
Qed.
#[local] Hint Resolve async_primary_e : es.
Lemma primary_e : es (parse_primary_expr E n h) (fun _ a _ => gn a).
Proof. ego parse_primary_expr. Qed.
#[local] Hint Resolve primary_e : es.

(** ** Member access, calls, new *)
Lemma computed_member_e o : gn o -> es (parse_computed_member_expr E h o) (fun _ a _ => gn a).
Proof. intros Ho. ego parse_computed_member_expr. Qed.
Lemma static_member_e o : gn o -> es (parse_static_member_expr E o) (fun _ a _ => gn a).
Proof. intros Ho. ego parse_static_member_expr. Qed.
Lemma super_e : es (parse_super E) (fun _ a _ => gn a).
Proof. ego parse_super. Qed.
#[local] Hint Resolve computed_member_e static_member_e super_e : es.
Lemma member_tail_e k : forall e, gn e -> es (member_tail E n h k e) (fun _ a _ => gn a).
Proof. induction k as [|k IH]; intros e He s p H; [exact I|]. cbn [member_tail]. ewalk. Qed.
#[local] Hint Resolve member_tail_e : es.
Lemma member_e : es (parse_member_expr E n h) (fun _ a _ => gn a).
Proof. ego parse_member_expr. Qed.
#[local] Hint Resolve member_e : es.
Lemma call_tail_e k : forall e, gn e -> es (call_tail E n h k e) (fun _ a _ => gn a).
Proof.
  induction k as [|k IH]; intros e He s p H; [exact I|].
  assert (IH' : forall c l a sp, gn (CallExpression c l a sp) -> es (call_tail E n h k (CallExpression c l a sp)) (fun _ a _ => gn a)) by auto.
  cbn [call_tail]. ewalk. euse ltac:(eapply use_es; [eassumption|apply IH'; egood]). ewalk.
Qed.
#[local] Hint Extern 3 (es (call_tail _ _ _ _ _) _) => apply call_tail_e; egood : es.
Lemma new_e : es (parse_new_expr E n h) (fun _ a _ => gn a).
Proof. ego parse_new_expr. Qed.
Lemma call_e : es (parse_call_expr E n h) (fun _ a _ => gn a).
Proof. ego parse_call_expr. Qed.
#[local] Hint Resolve new_e call_e : es.
Lemma lhs_e : es (parse_left_hand_side_expr E n h) (fun _ a _ => gn a).
Proof. ego parse_left_hand_side_expr. Qed.
#[local] Hint Resolve lhs_e : es.

(** ** Operators *)
Lemma update_tok t : token_wf t -> is_update_op t = true -> either (is_p Inc) (is_p Dec) t.
Proof.
  intros W H. unfold is_update_op in H. destruct (tval t) as [| |x|] eqn:K; try discriminate H.
  pose proof (wf_punct _ W K). destruct x; try discriminate H; [left|right]; split; auto.
Qed.
Lemma update_e : es (parse_update_expr E n h) (fun _ a _ => gn a).
Proof.
  unfold parse_update_expr. intros s p H. do 3 estep.
  - do 9 estep; [|ewalk].
    unfold err_at. apply wp_fail. eapply blame; [eapply T_known; eassumption|]. cbn [explains].
    eapply last_step; [eassumption|]. apply update_tok; [|assumption]. eapply Fa_wf, t_fa; exact H.
  - do 9 estep; [|ewalk]. estep; [|ewalk].
    match goal with K : negb _ && is_update_op (next ?q0) = true |- _ => apply andb_true_iff in K; destruct K as [_ Hu]; rename q0 into q end.
    unfold err_at. apply wp_fail. match goal with K : ext p q |- _ => destruct K as [->|[us Kq]] end; [congruence|].
    match goal with K : T _ q |- _ => pose proof (T_known K) as Kn; pose proof (Fa_wf (t_fa K)) as Kw end. unfold known in Kn. rewrite Kq, rev_app_distr in Kn. cbn [rev] in Kn.
    rewrite <- ?app_assoc in Kn. cbn [app] in Kn.
    eapply at_token; [exact Kn|reflexivity|reflexivity|]. cbn [explains err_type]. exists (rev us), (next q). split; [reflexivity|]. apply update_tok; assumption.
Qed.
Lemma cur_unary_e : es cur_unary_op (fun _ _ _ => True).
Proof. ego cur_unary_op. Qed.
#[local] Hint Resolve update_e cur_unary_e : es.
Lemma unary_e : es (parse_unary_expr E n h) (fun _ a _ => gn a).
Proof. ego parse_unary_expr. Qed.
#[local] Hint Resolve unary_e : es.
Lemma exp_e : es (parse_exponentiation_expr E n h) (fun _ a _ => gn a).
Proof. ego parse_exponentiation_expr. Qed.
#[local] Hint Resolve exp_e : es.
Lemma climb_inner_e k op : forall e, gn e -> es (climb_inner h k op e) (fun _ a _ => gn a).
Proof.
  induction k as [|k IH]; intros e He s p H; [exact I|]. cbn [climb_inner]. ewalk.
Qed.
#[local] Hint Resolve climb_inner_e : es.
Lemma climb_e k : forall e prec, gn e -> es (climb E n h k e prec) (fun _ a _ => gn a).
Proof.
  induction k as [|k IH]; intros e prec He s p H; [exact I|]. cbn [climb]. ewalk.
  euse ltac:(eapply use_es; [eassumption|apply IH; egood]). ewalk.
Qed.
Lemma climbing_e e prec : gn e -> es (precedence_climbing E n h e prec) (fun _ a _ => gn a).
Proof. apply climb_e. Qed.
#[local] Hint Resolve climbing_e : es.
Lemma binary_e : es (parse_binary_expr E n h) (fun _ a _ => gn a).
Proof. ego parse_binary_expr. Qed.
#[local] Hint Resolve binary_e : es.
Lemma conditional_e : es (parse_conditional_expr E n h) (fun _ a _ => gn a).
Proof. ego parse_conditional_expr. Qed.
Lemma yield_e : es (parse_yield_expr E n h) (fun _ a _ => gn a).
Proof. ego parse_yield_expr. Qed.
Lemma maybe_arrow_e e : gn e -> es (maybe_arrow E n h e) (fun _ a _ => gn a).
Proof. intros He. ego maybe_arrow. Qed.
Lemma assign_tok t p : ttype t = TPunctuator -> tval t = VPunc p -> p_is_assign_op p = true -> assigning t.
Proof. intros H1 H2 H3. exists p. split; [split; auto|]. destruct p; try discriminate H3; cbn; tauto. Qed.
Lemma assignment_tail_e e : gn e -> es (assignment_tail E h e) (fun _ a _ => gn a).
Proof.
  intros He. unfold assignment_tail. intros s p H. do 3 estep; [|estep; [|ewalk]].
  - assert (Ha : is_p Assign (next p)) by (apply tok_punc_eq; assumption). do 3 estep.
    match goal with K : step p ?q |- _ => pose proof K as Hs; unfold step in Hs end.
    euse ltac:(eapply e_conv; [apply to_assignment_pattern_ok; eassumption|eapply pattern_end_before; [exact Hs|left; exact Ha]|eassumption]).
    estep; [|ewalk]. unfold error_tok. apply wp_fail. apply blame; [eapply T_known; exact H|]. cbn [explains]. exists Assign. split; [exact Ha|left; reflexivity].
  - match goal with K : _ && is_assign_op _ = true |- _ => apply andb_true_iff in K; destruct K as [Ha1 Ha2]; apply tok_is_eq in Ha1 end. do 4 estep. estep; [|ewalk].
    unfold error_tok. apply wp_fail. apply blame; [eapply T_known; exact H|]. cbn [explains]. unfold is_assign_op in Ha2. destruct (tval (next p)) eqn:K; try discriminate Ha2.
    eapply assign_tok; eauto.
Qed.
#[local] Hint Resolve conditional_e yield_e maybe_arrow_e assignment_tail_e : es.
Lemma assignment_e : es (parse_assignment_expr E n h) (fun _ a _ => gn a).
Proof. ego parse_assignment_expr. Qed.
#[local] Hint Resolve assignment_e : es.
Lemma comma_then_e A (m : PM A) (P : A -> Prop) : es m (fun _ a _ => P a) -> es (comma_then E m) (fun _ a _ => P a).
Proof. intros Hm s p H. unfold comma_then. ewalk. Qed.
Lemma expression_e : es (parse_expression E n h) (fun _ a _ => gn a).
Proof.
  pose proof (comma_then_e (fun a => gn a) (he_assign HS)) as HL. ego parse_expression.
Qed.
End Pass.
