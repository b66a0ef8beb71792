(** * BuildProofs: builds with and without overflow checks (proofs, C56).
    [ag m m']: unless [m] panics because of an overflow check, [m'] does the same. *)
From Verif Require Import Base Codepoint Punct Token Scanner Ast Convert ParserBase ParserExpr ParserStmt Parser SpecBuild.
Set Implicit Arguments.

Definition ag {S A} (m m' : M S A) : Prop := forall s, (exists p, overflow p /\ m s = RPanic p) \/ m' s = m s.
Lemma ag_refl S A (m : M S A) : ag m m.
Proof. right. reflexivity. Qed.
Lemma ag_bind S A B (m m' : M S A) (k k' : A -> M S B) : ag m m' -> (forall a, ag (k a) (k' a)) -> ag (bind m k) (bind m' k').
Proof.
  intros H K s. unfold bind. destruct (H s) as [(p & O & E)|E]; [left; rewrite E; eauto|]. rewrite E.
  destruct (m s); auto. apply K.
Qed.
Lemma ag_with_prm A f (m m' : PM A) : ag m m' -> ag (with_prm f m) (with_prm f m').
Proof.
  intros H. unfold with_prm. apply ag_bind; [apply ag_refl|intros]. apply ag_bind; [apply ag_refl|intros].
  apply ag_bind; [auto|intros]. apply ag_refl.
Qed.
Lemma ag_with_in A b (m m' : PM A) : ag m m' -> ag (with_in b m) (with_in b m').
Proof. apply ag_with_prm. Qed.
Lemma ag_with_default A b (m m' : PM A) : ag m m' -> ag (with_default b m) (with_default b m').
Proof. apply ag_with_prm. Qed.
Lemma ag_lift_s A (m m' : SM A) : ag m m' -> ag (lift_s m) (lift_s m').
Proof. intros H s. unfold lift_s. destruct (H (scn s)) as [(p & O & E)|E]; rewrite E; [left; eauto|right; reflexivity]. Qed.
Definition agc {A} (c c' : cres A) : Prop := (exists p, overflow p /\ c = CPanic p) \/ c' = c.
Lemma agc_refl A (c : cres A) : agc c c. Proof. right. reflexivity. Qed.
Lemma agc_bind A B (m m' : cres A) (k k' : A -> cres B) : agc m m' -> (forall a, agc (k a) (k' a)) -> agc (cbind m k) (cbind m' k').
Proof. intros [(p & O & ->)| ->] K; [left; exists p; auto|]. destruct m; cbn; auto; right; reflexivity. Qed.
Lemma ag_lift_c A (c c' : cres A) : agc c c' -> ag (lift_c c) (lift_c c').
Proof. intros [(p & O & ->)| ->] s; [left; exists p; auto|right; reflexivity]. Qed.
Create HintDb ag discriminated.
#[global] Hint Constants Opaque : ag.
#[global] Hint Extern 0 (ag ?x ?x) => exact (ag_refl x) : ag.
#[export] Hint Resolve ag_with_prm ag_with_in ag_with_default ag_lift_s ag_lift_c : ag.
Ltac agstep := cbv beta; lazymatch goal with
  | |- ag ?x ?x => apply ag_refl
  | |- ag (bind _ _) (bind _ _) => apply ag_bind; [|intros ?]
  | |- ag (if ?b then _ else _) (if ?b then _ else _) => destruct b eqn:?
  | |- ag (match ?x with _ => _ end) (match ?x with _ => _ end) => destruct x eqn:?
  | |- _ => solve [eauto with ag]
  end.
Ltac ags0 := repeat agstep.

Lemma ag_until_n A p (f f' : SM A) : ag f f' -> forall n, ag (scan_until_n n p f) (scan_until_n n p f').
Proof. intros H. induction n; cbn [scan_until_n]; ags0. Qed.
Lemma ag_until2_n A p (f f' : SM A) : ag f f' -> forall n, ag (scan2_until_n n p f) (scan2_until_n n p f').
Proof. intros H. induction n; cbn [scan2_until_n]; ags0. Qed.
Lemma ag_scan_until A p (f f' : SM A) : ag f f' -> ag (scan_until p f) (scan_until p f').
Proof. intros H s. unfold scan_until. apply (ag_until_n p H). Qed.
Lemma ag_scan2_until A p (f f' : SM A) : ag f f' -> ag (scan2_until p f) (scan2_until p f').
Proof. intros H s. unfold scan2_until. apply (ag_until2_n p H). Qed.
Lemma ag_while A p (f f' : PM A) : ag f f' -> forall k, ag (parse_while_punc k p f) (parse_while_punc k p f').
Proof. intros H. induction k; cbn [parse_while_punc]; ags0. Qed.
Lemma ag_until A p (f f' : PM A) : ag f f' -> forall k, ag (parse_until_punc k p f) (parse_until_punc k p f').
Proof. intros H. induction k; cbn [parse_until_punc]; ags0. Qed.
Lemma ag_until_rest A p (f f' : PM A) : ag f f' -> forall k, ag (parse_until_punc_or_rest k p f) (parse_until_punc_or_rest k p f').
Proof. intros H. induction k; cbn [parse_until_punc_or_rest]; ags0. Qed.
Lemma ag_until_eof A (f f' : PM A) : ag f f' -> forall k, ag (parse_until_eof k f) (parse_until_eof k f').
Proof. intros H. induction k; cbn [parse_until_eof]; ags0. Qed.
#[export] Hint Resolve ag_scan_until ag_scan2_until ag_while ag_until ag_until_rest ag_until_eof : ag.

Record ag_h (h h' : handler) : Prop := mkAgH {
  gh_bindpat : ag (h_bindpat h) (h_bindpat h'); gh_lhs : ag (h_lhs h) (h_lhs h'); gh_new : ag (h_new h) (h_new h');
  gh_unary : ag (h_unary h) (h_unary h'); gh_exp : ag (h_exp h) (h_exp h');
  gh_climb : forall l p, ag (h_climb h l p) (h_climb h' l p);
  gh_assign : ag (h_assign h) (h_assign h'); gh_expression : ag (h_expression h) (h_expression h');
  gh_statement : ag (h_statement h) (h_statement h'); gh_item : ag (h_item h) (h_item h') }.

Section Build.
Context (E : env) (c : bool) (u : N) (HE : checked E = true).
(** The same sources, built otherwise *)
Notation E' := (mkEnv (ucd_start E) (ucd_continue E) (f64_show E) c u).
Ltac same := change (is_identifier_start E') with (is_identifier_start E) in *; change (ident_stop E') with (ident_stop E) in *;
  change (is_identifier_continue E') with (is_identifier_continue E) in *; change (value_show E') with (value_show E) in *.
Ltac ags := same; ags0.

(** *** Conversions *)
Ltac cs := repeat first [ apply agc_refl | lazymatch goal with |- agc (cbind _ _) (cbind _ _) => apply agc_bind; [auto|intros] end
  | match goal with |- agc (if ?b then _ else _) (if ?b then _ else _) => destruct b end ].
Lemma agc_pattern : forall x, agc (to_binding_pattern E x) (to_binding_pattern E' x).
Proof.
  fix IH 1. destruct x; try apply agc_refl.
  - cbn [to_binding_pattern]. unfold last_index. destruct (length elements) as [|k].
    { rewrite HE. left. exists P_PatternUnderflow. split; [constructor|reflexivity]. }
    apply agc_bind; [|intros; apply agc_refl]. generalize (N.of_nat k) as li. generalize 0%N as i.
    induction elements as [|x l IHl]; intros i li; [apply agc_refl|]. destruct x as [[e|e esp]|]; cs.
  - cbn [to_binding_pattern]. destruct (String.eqb _ _); [|apply agc_refl]. cs.
  - cbn [to_binding_pattern].
    apply agc_bind; [|intros; apply agc_refl]. generalize (N.of_nat (length properties - 1)) as last. generalize 0%N as i.
    induction properties as [|x l IHl]; intros i last; [apply agc_refl|]. destruct x as [key computed [[| | | | | |e]|] kind me sh psp|e psp]; cs.
  - cbn [to_binding_pattern]. cs.
Qed.
Lemma agc_rest t x sp : agc (assign_rest_argument E t x sp) (assign_rest_argument E' t x sp).
Proof.
  assert (K : agc (to_binding E x) (to_binding E' x)).
  { unfold to_binding. apply agc_bind; [apply agc_pattern|]. intros. apply agc_refl. }
  unfold assign_rest_argument. destruct x; cs; exact K.
Qed.
#[local] Hint Resolve agc_rest : core.
Lemma agc_assignment : forall x, agc (to_assignment_pattern E x) (to_assignment_pattern E' x).
Proof.
  fix IH 1. destruct x; try apply agc_refl.
  - cbn [to_assignment_pattern].
    apply agc_bind; [|intros; apply agc_refl]. generalize (N.of_nat (length elements)) as last. generalize 0%N as i.
    induction elements as [|x l IHl]; intros i last; [apply agc_refl|]. destruct x as [[e|e esp]|]; cs.
  - cbn [to_assignment_pattern].
    apply agc_bind; [|intros; apply agc_refl]. generalize (N.of_nat (length properties - 1)) as last. generalize 0%N as i.
    induction properties as [|x l IHl]; intros i last; [apply agc_refl|]. destruct x as [key computed [[| | | | | |e]|] kind me sh psp|e psp]; cs.
Qed.
#[local] Hint Resolve agc_pattern agc_assignment : ag.

(** *** Scanner and parser *)
Context (n : nat) (h h' : handler).
Hypothesis Hh : ag_h h h'.
Let H1 := gh_bindpat Hh. Let H2 := gh_lhs Hh. Let H3 := gh_new Hh. Let H4 := gh_unary Hh. Let H5 := gh_exp Hh.
Let H5' := gh_climb Hh. Let H6 := gh_assign Hh. Let H7 := gh_expression Hh. Let H8 := gh_statement Hh. Let H9 := gh_item Hh.
#[local] Hint Resolve H1 H2 H3 H4 H5 H5' H6 H7 H8 H9 : ag.
Lemma ag_mk ty v p f oc ck hd tl : ag (mk_token E ty v p f oc ck hd tl) (mk_token E' ty v p f oc ck hd tl).
Proof. intros s. unfold mk_token. destruct (current s =? 0); [|right; reflexivity]. rewrite HE. left. exists P_EofUnderflow. split; [constructor|reflexivity]. Qed.
#[local] Hint Resolve ag_mk : ag.
Lemma ag_token_simple (x1 : tokentype) (x2 : value) : ag (token_simple E x1 x2) (token_simple E' x1 x2).
Proof. unfold token_simple; ags. Qed.
#[local] Hint Resolve ag_token_simple : ag.
Lemma fold_same ds : forall a, fold_hex_u32 E a ds = None \/ fold_hex_u32 E' a ds = fold_hex_u32 E a ds.
Proof. induction ds as [|d ds IH]; intros a; cbn [fold_hex_u32]; [right; reflexivity|]. destruct (_ <? _); [rewrite HE; left; reflexivity|apply IH]. Qed.
Lemma ag_scan_unicode_esc_seq : ag (scan_unicode_esc_seq E) (scan_unicode_esc_seq E').
Proof.
  unfold scan_unicode_esc_seq. agstep; [apply ag_refl|]. agstep; [apply ag_refl|]. agstep; [apply ag_refl|]. agstep; [|apply ag_refl].
  agstep; [apply ag_refl|]. agstep; [apply ag_refl|]. destruct (fold_same a3 0) as [K|K]; rewrite K; [|apply ag_refl].
  intros s. left. exists P_EscapeOverflow. split; [constructor|reflexivity].
Qed.
#[local] Hint Resolve ag_scan_unicode_esc_seq : ag.
Lemma ag_scan_identifier_start  : ag (scan_identifier_start E) (scan_identifier_start E').
Proof. unfold scan_identifier_start; ags. Qed.
#[local] Hint Resolve ag_scan_identifier_start : ag.
Lemma ag_scan_identifier_cp  : ag (scan_identifier_cp E) (scan_identifier_cp E').
Proof. unfold scan_identifier_cp; ags. Qed.
#[local] Hint Resolve ag_scan_identifier_cp : ag.
Lemma ag_identifier_token (x1 : str) : ag (identifier_token E x1) (identifier_token E' x1).
Proof. unfold identifier_token; ags. Qed.
#[local] Hint Resolve ag_identifier_token : ag.
Lemma ag_scan_identifier  : ag (scan_identifier E) (scan_identifier E').
Proof. unfold scan_identifier; ags. Qed.
#[local] Hint Resolve ag_scan_identifier : ag.
Lemma ag_scan_numeric_literal  : ag (scan_numeric_literal E) (scan_numeric_literal E').
Proof. unfold scan_numeric_literal; ags. Qed.
#[local] Hint Resolve ag_scan_numeric_literal : ag.
Lemma ag_scan_string_cp_n : forall k , ag (scan_string_cp_n E k) (scan_string_cp_n E' k).
Proof. induction k as [|k IH]; intros; [apply ag_refl|]; cbn [scan_string_cp_n]; ags. Qed.
#[local] Hint Resolve ag_scan_string_cp_n : ag.
Lemma ag_scan_string_literal_cp : ag (scan_string_literal_cp E) (scan_string_literal_cp E').
Proof. intros s. unfold scan_string_literal_cp. apply ag_scan_string_cp_n. Qed.
#[local] Hint Resolve ag_scan_string_literal_cp : ag.
Lemma ag_scan_string_literal  : ag (scan_string_literal E) (scan_string_literal E').
Proof. unfold scan_string_literal; ags. Qed.
#[local] Hint Resolve ag_scan_string_literal : ag.
Lemma ag_scan_regexp_flags  : ag (scan_regexp_flags E) (scan_regexp_flags E').
Proof. unfold scan_regexp_flags; ags. Qed.
#[local] Hint Resolve ag_scan_regexp_flags : ag.
Lemma ag_scan_regexp_literal  : ag (scan_regexp_literal E) (scan_regexp_literal E').
Proof. unfold scan_regexp_literal; ags. Qed.
#[local] Hint Resolve ag_scan_regexp_literal : ag.
Lemma ag_scan_template_char  : ag (scan_template_char E) (scan_template_char E').
Proof. unfold scan_template_char; ags. Qed.
#[local] Hint Resolve ag_scan_template_char : ag.
Lemma ag_scan_template_piece (x1 : N) (x2 : bool) : ag (scan_template_piece E x1 x2) (scan_template_piece E' x1 x2).
Proof. unfold scan_template_piece; ags. Qed.
#[local] Hint Resolve ag_scan_template_piece : ag.
Lemma ag_scan_template  : ag (scan_template E) (scan_template E').
Proof. unfold scan_template; ags. Qed.
#[local] Hint Resolve ag_scan_template : ag.
Lemma ag_scan_template_substitution_tail  : ag (scan_template_substitution_tail E) (scan_template_substitution_tail E').
Proof. unfold scan_template_substitution_tail; ags. Qed.
#[local] Hint Resolve ag_scan_template_substitution_tail : ag.
Lemma ag_punc0 (x1 : str) : ag (punc0 E x1) (punc0 E' x1).
Proof. unfold punc0; ags. Qed.
#[local] Hint Resolve ag_punc0 : ag.
Lemma ag_punc1 (x1 : str) : ag (punc1 E x1) (punc1 E' x1).
Proof. unfold punc1; ags. Qed.
#[local] Hint Resolve ag_punc1 : ag.
Lemma ag_punc2 (x1 : str) : ag (punc2 E x1) (punc2 E' x1).
Proof. unfold punc2; ags. Qed.
#[local] Hint Resolve ag_punc2 : ag.
Lemma ag_scan_punctuator  : ag (scan_punctuator E) (scan_punctuator E').
Proof. unfold scan_punctuator; ags. Qed.
#[local] Hint Resolve ag_scan_punctuator : ag.
Lemma ag_scan_div_punctuator  : ag (scan_div_punctuator E) (scan_div_punctuator E').
Proof. unfold scan_div_punctuator; ags. Qed.
#[local] Hint Resolve ag_scan_div_punctuator : ag.
Lemma ag_scan_token g : ag (scan_token E g) (scan_token E' g).
Proof.
  intros s. unfold scan_token. change (is_identifier_start E') with (is_identifier_start E).
  unfold s_peek2. generalize (hd_error (rest s)) (hd_error (tl (rest s))) (curly s). intros o1 o2 cu.
  match goal with |- (exists p, overflow p /\ ?f ?x = _) \/ ?g ?x = _ => assert (K : ag f g); [|apply K] end. ags.
Qed.
#[local] Hint Resolve ag_scan_token : ag.
Lemma ag_s_next g : ag (s_next E g) (s_next E' g).
Proof.
  intros s. unfold s_next. destruct (unscanned s); [right; reflexivity|].
  match goal with |- (exists p, overflow p /\ ?f ?x = _) \/ ?g ?x = _ => assert (K : ag f g); [|apply K] end. ags.
Qed.
#[local] Hint Resolve ag_s_next : ag.
Lemma ag_advance g : ag (advance E g) (advance E' g).
Proof.
  intros s. unfold advance. destruct (ag_s_next g (scn s)) as [(p & O & K)|K]; rewrite K; [left; exists p; auto|right; reflexivity].
Qed.
#[local] Hint Resolve ag_advance : ag.
Lemma ag_error_current (A : Type) (x1 : errtype) : ag (@error_current E A x1) (@error_current E' A x1).
Proof. unfold error_current; ags. Qed.
#[local] Hint Resolve ag_error_current : ag.
Lemma ag_unexpected (A : Type) (x1 : token) : ag (@unexpected E A x1) (@unexpected E' A x1).
Proof. unfold unexpected; ags. Qed.
#[local] Hint Resolve ag_unexpected : ag.
Lemma ag_unexpected_current (A : Type)  : ag (@unexpected_current E A) (@unexpected_current E' A).
Proof. unfold unexpected_current; ags. Qed.
#[local] Hint Resolve ag_unexpected_current : ag.
Lemma ag_consume_p (x1 : punct) (x2 : lexgoal) : ag (consume_p E x1 x2) (consume_p E' x1 x2).
Proof. unfold consume_p; ags. Qed.
#[local] Hint Resolve ag_consume_p : ag.
Lemma ag_consume_kw (x1 : string) (x2 : lexgoal) : ag (consume_kw E x1 x2) (consume_kw E' x1 x2).
Proof. unfold consume_kw; ags. Qed.
#[local] Hint Resolve ag_consume_kw : ag.
Lemma ag_consume_id (x1 : string) (x2 : lexgoal) : ag (consume_id E x1 x2) (consume_id E' x1 x2).
Proof. unfold consume_id; ags. Qed.
#[local] Hint Resolve ag_consume_id : ag.
Lemma ag_consume_semicolon (x1 : lexgoal) : ag (consume_semicolon E x1) (consume_semicolon E' x1).
Proof. unfold consume_semicolon; ags. Qed.
#[local] Hint Resolve ag_consume_semicolon : ag.
Lemma ag_advance_string (x1 : lexgoal) : ag (advance_string E x1) (advance_string E' x1).
Proof. unfold advance_string; ags. Qed.
#[local] Hint Resolve ag_advance_string : ag.
Lemma ag_parse_id_reference  : ag (parse_id_reference E) (parse_id_reference E').
Proof. unfold parse_id_reference; ags. Qed.
#[local] Hint Resolve ag_parse_id_reference : ag.
Lemma ag_parse_binding_id  : ag (parse_binding_id E) (parse_binding_id E').
Proof. unfold parse_binding_id; ags. Qed.
#[local] Hint Resolve ag_parse_binding_id : ag.
Lemma ag_parse_id_name (x1 : lexgoal) : ag (parse_id_name E x1) (parse_id_name E' x1).
Proof. unfold parse_id_name; ags. Qed.
#[local] Hint Resolve ag_parse_id_name : ag.
Lemma ag_comma_unless (x1 : punct) : ag (comma_unless E x1) (comma_unless E' x1).
Proof. unfold comma_unless; ags. Qed.
#[local] Hint Resolve ag_comma_unless : ag.
Lemma ag_assign_in  : ag (assign_in h) (assign_in h').
Proof. unfold assign_in; ags. Qed.
#[local] Hint Resolve ag_assign_in : ag.
Lemma ag_expression_in  : ag (expression_in h) (expression_in h').
Proof. unfold expression_in; ags. Qed.
#[local] Hint Resolve ag_expression_in : ag.
Lemma ag_value_to_key (x1 : value_or_expr) (x2 : bool) (x3 : span) : ag (value_to_key E x1 x2 x3) (value_to_key E' x1 x2 x3).
Proof. unfold value_to_key; ags. Qed.
#[local] Hint Resolve ag_value_to_key : ag.
Lemma ag_obj_pat_value (x1 : N) (x2 : N) (x3 : binding) : ag (obj_pat_value E h x1 x2 x3) (obj_pat_value E' h' x1 x2 x3).
Proof. unfold obj_pat_value; ags. Qed.
#[local] Hint Resolve ag_obj_pat_value : ag.
Lemma ag_obj_pat_key  : ag (obj_pat_key E h) (obj_pat_key E' h').
Proof. unfold obj_pat_key; ags. Qed.
#[local] Hint Resolve ag_obj_pat_key : ag.
Lemma ag_obj_pat_rest (x1 : value_or_expr) (x2 : span) : ag (obj_pat_rest E h x1 x2) (obj_pat_rest E' h' x1 x2).
Proof. unfold obj_pat_rest; ags. Qed.
#[local] Hint Resolve ag_obj_pat_rest : ag.
Lemma ag_obj_pat_property  : ag (obj_pat_property E h) (obj_pat_property E' h').
Proof. unfold obj_pat_property; ags. Qed.
#[local] Hint Resolve ag_obj_pat_property : ag.
Lemma ag_parse_obj_binding_pat  : ag (parse_obj_binding_pat E n h) (parse_obj_binding_pat E' n h').
Proof. unfold parse_obj_binding_pat; ags. Qed.
#[local] Hint Resolve ag_parse_obj_binding_pat : ag.
Lemma ag_arr_pat_element  : ag (arr_pat_element E h) (arr_pat_element E' h').
Proof. unfold arr_pat_element; ags. Qed.
#[local] Hint Resolve ag_arr_pat_element : ag.
Lemma ag_parse_arr_binding_pat  : ag (parse_arr_binding_pat E n h) (parse_arr_binding_pat E' n h').
Proof. unfold parse_arr_binding_pat; ags. Qed.
#[local] Hint Resolve ag_parse_arr_binding_pat : ag.
Lemma ag_parse_binding_id_or_pat  : ag (parse_binding_id_or_pat E n h) (parse_binding_id_or_pat E' n h').
Proof. unfold parse_binding_id_or_pat; ags. Qed.
#[local] Hint Resolve ag_parse_binding_id_or_pat : ag.
Lemma ag_directive_prologues : forall k , ag (directive_prologues E h k) (directive_prologues E' h' k).
Proof. induction k as [|k IH]; intros; [apply ag_refl|]; cbn [directive_prologues]; ags. Qed.
#[local] Hint Resolve ag_directive_prologues : ag.
Lemma ag_parse_statement_list  : ag (parse_statement_list n h) (parse_statement_list n h').
Proof. unfold parse_statement_list; ags. Qed.
#[local] Hint Resolve ag_parse_statement_list : ag.
Lemma ag_parse_function_body_block  : ag (parse_function_body_block E n h) (parse_function_body_block E' n h').
Proof. unfold parse_function_body_block; ags. Qed.
#[local] Hint Resolve ag_parse_function_body_block : ag.
Lemma ag_parse_function_body  : ag (parse_function_body E n h) (parse_function_body E' n h').
Proof. unfold parse_function_body; ags. Qed.
#[local] Hint Resolve ag_parse_function_body : ag.
Lemma ag_formal_param  : ag (formal_param E n h) (formal_param E' n h').
Proof. unfold formal_param; ags. Qed.
#[local] Hint Resolve ag_formal_param : ag.
Lemma ag_parse_formal_params  : ag (parse_formal_params E n h) (parse_formal_params E' n h').
Proof. unfold parse_formal_params; ags. Qed.
#[local] Hint Resolve ag_parse_formal_params : ag.
Lemma ag_params_and_body (x1 : bool) (x2 : bool) : ag (params_and_body E n h x1 x2) (params_and_body E' n h' x1 x2).
Proof. unfold params_and_body; ags. Qed.
#[local] Hint Resolve ag_params_and_body : ag.
Lemma ag_parse_function_expr (x1 : bool) : ag (parse_function_expr E n h x1) (parse_function_expr E' n h' x1).
Proof. unfold parse_function_expr; ags. Qed.
#[local] Hint Resolve ag_parse_function_expr : ag.
Lemma ag_parse_arrow_body  : ag (parse_arrow_body E n h) (parse_arrow_body E' n h').
Proof. unfold parse_arrow_body; ags. Qed.
#[local] Hint Resolve ag_parse_arrow_body : ag.
Lemma ag_parse_single_param_arrow_function_expr (x1 : str) : ag (parse_single_param_arrow_function_expr E n h x1) (parse_single_param_arrow_function_expr E' n h' x1).
Proof. unfold parse_single_param_arrow_function_expr; ags. Qed.
#[local] Hint Resolve ag_parse_single_param_arrow_function_expr : ag.
Lemma ag_param_of_pattern (x1 : bool) (x2 : node) : ag (param_of_pattern E x1 x2) (param_of_pattern E' x1 x2).
Proof. unfold param_of_pattern; ags. Qed.
#[local] Hint Resolve ag_param_of_pattern : ag.
Lemma ag_seq_to_arrow_params l : ag (seq_to_arrow_params E l) (seq_to_arrow_params E' l).
Proof. induction l as [|x l IH]; cbn [seq_to_arrow_params]; ags. Qed.
#[local] Hint Resolve ag_seq_to_arrow_params : ag.
Lemma ag_arguments_to_params (x1 : list arg_elem) : ag (arguments_to_params E x1) (arguments_to_params E' x1).
Proof. unfold arguments_to_params; ags. Qed.
#[local] Hint Resolve ag_arguments_to_params : ag.
Lemma ag_parse_computed_property_name  : ag (parse_computed_property_name E h) (parse_computed_property_name E' h').
Proof. unfold parse_computed_property_name; ags. Qed.
#[local] Hint Resolve ag_parse_computed_property_name : ag.
Lemma ag_parse_property_name  : ag (parse_property_name E h) (parse_property_name E' h').
Proof. unfold parse_property_name; ags. Qed.
#[local] Hint Resolve ag_parse_property_name : ag.
Lemma ag_class_getter (x1 : bool) : ag (class_getter E n h x1) (class_getter E' n h' x1).
Proof. unfold class_getter; ags. Qed.
#[local] Hint Resolve ag_class_getter : ag.
Lemma ag_class_setter (x1 : bool) : ag (class_setter E n h x1) (class_setter E' n h' x1).
Proof. unfold class_setter; ags. Qed.
#[local] Hint Resolve ag_class_setter : ag.
Lemma ag_class_async_method (x1 : bool) : ag (class_async_method E n h x1) (class_async_method E' n h' x1).
Proof. unfold class_async_method; ags. Qed.
#[local] Hint Resolve ag_class_async_method : ag.
Lemma ag_class_generator_method (x1 : bool) : ag (class_generator_method E n h x1) (class_generator_method E' n h' x1).
Proof. unfold class_generator_method; ags. Qed.
#[local] Hint Resolve ag_class_generator_method : ag.
Lemma ag_class_plain_method (x1 : bool) : ag (class_plain_method E n h x1) (class_plain_method E' n h' x1).
Proof. unfold class_plain_method; ags. Qed.
#[local] Hint Resolve ag_class_plain_method : ag.
Lemma ag_class_element  : ag (class_element E n h) (class_element E' n h').
Proof. unfold class_element; ags. Qed.
#[local] Hint Resolve ag_class_element : ag.
Lemma ag_parse_class_body  : ag (parse_class_body E n h) (parse_class_body E' n h').
Proof. unfold parse_class_body; ags. Qed.
#[local] Hint Resolve ag_parse_class_body : ag.
Lemma ag_parse_class_tail (x1 : option node) : ag (parse_class_tail E n h x1) (parse_class_tail E' n h' x1).
Proof. unfold parse_class_tail; ags. Qed.
#[local] Hint Resolve ag_parse_class_tail : ag.
Lemma ag_binding_id_node  : ag (binding_id_node E) (binding_id_node E').
Proof. unfold binding_id_node; ags. Qed.
#[local] Hint Resolve ag_binding_id_node : ag.
Lemma ag_parse_class_dclr  : ag (parse_class_dclr E n h) (parse_class_dclr E' n h').
Proof. unfold parse_class_dclr; ags. Qed.
#[local] Hint Resolve ag_parse_class_dclr : ag.
Lemma ag_parse_class_expr  : ag (parse_class_expr E n h) (parse_class_expr E' n h').
Proof. unfold parse_class_expr; ags. Qed.
#[local] Hint Resolve ag_parse_class_expr : ag.
Lemma ag_template_piece  : ag (template_piece E) (template_piece E').
Proof. unfold template_piece; ags. Qed.
#[local] Hint Resolve ag_template_piece : ag.
Lemma ag_parse_template_head  : ag (parse_template_head E) (parse_template_head E').
Proof. unfold parse_template_head; ags. Qed.
#[local] Hint Resolve ag_parse_template_head : ag.
Lemma ag_parse_template_element  : ag (parse_template_element E) (parse_template_element E').
Proof. unfold parse_template_element; ags. Qed.
#[local] Hint Resolve ag_parse_template_element : ag.
Lemma ag_template_rest : forall k (x1 : bool), ag (template_rest E h k x1) (template_rest E' h' k x1).
Proof. induction k as [|k IH]; intros; [apply ag_refl|]; cbn [template_rest]; ags. Qed.
#[local] Hint Resolve ag_template_rest : ag.
Lemma ag_template_literal  : ag (template_literal E n h) (template_literal E' n h').
Proof. unfold template_literal; ags. Qed.
#[local] Hint Resolve ag_template_literal : ag.
Lemma ag_parse_template_literal  : ag (parse_template_literal E n h) (parse_template_literal E' n h').
Proof. unfold parse_template_literal; ags. Qed.
#[local] Hint Resolve ag_parse_template_literal : ag.
Lemma ag_tagged_template (x1 : node) : ag (tagged_template E n h x1) (tagged_template E' n h' x1).
Proof. unfold tagged_template; ags. Qed.
#[local] Hint Resolve ag_tagged_template : ag.
Lemma ag_array_lit_element  : ag (array_lit_element E h) (array_lit_element E' h').
Proof. unfold array_lit_element; ags. Qed.
#[local] Hint Resolve ag_array_lit_element : ag.
Lemma ag_parse_array_lit_expr  : ag (parse_array_lit_expr E n h) (parse_array_lit_expr E' n h').
Proof. unfold parse_array_lit_expr; ags. Qed.
#[local] Hint Resolve ag_parse_array_lit_expr : ag.
Lemma ag_parse_method_definition (x1 : prop_key) (x2 : string) (x3 : bool) (x4 : bool) (x5 : bool) : ag (parse_method_definition E n h x1 x2 x3 x4 x5) (parse_method_definition E' n h' x1 x2 x3 x4 x5).
Proof. unfold parse_method_definition; ags. Qed.
#[local] Hint Resolve ag_parse_method_definition : ag.
Lemma ag_lookahead : ag (lookahead E) (lookahead E').
Proof. unfold lookahead. ags. Qed.
#[local] Hint Resolve ag_lookahead : ag.
Lemma ag_accessor_modifier (x1 : string) : ag (accessor_modifier E n h x1) (accessor_modifier E' n h' x1).
Proof. unfold accessor_modifier; ags. Qed.
#[local] Hint Resolve ag_accessor_modifier : ag.
Lemma ag_async_modifier  : ag (async_modifier E n h) (async_modifier E' n h').
Proof. unfold async_modifier; ags. Qed.
#[local] Hint Resolve ag_async_modifier : ag.
Lemma ag_property_modifiers  : ag (property_modifiers E n h) (property_modifiers E' n h').
Proof. unfold property_modifiers; ags. Qed.
#[local] Hint Resolve ag_property_modifiers : ag.
Lemma ag_property_key  : ag (property_key E h) (property_key E' h').
Proof. unfold property_key; ags. Qed.
#[local] Hint Resolve ag_property_key : ag.
Lemma ag_object_property  : ag (object_property E n h) (object_property E' n h').
Proof. unfold object_property; ags. Qed.
#[local] Hint Resolve ag_object_property : ag.
Lemma ag_parse_object_lit_expr  : ag (parse_object_lit_expr E n h) (parse_object_lit_expr E' n h').
Proof. unfold parse_object_lit_expr; ags. Qed.
#[local] Hint Resolve ag_parse_object_lit_expr : ag.
Lemma ag_argument  : ag (argument E h) (argument E' h').
Proof. unfold argument; ags. Qed.
#[local] Hint Resolve ag_argument : ag.
Lemma ag_parse_arguments  : ag (parse_arguments E n h) (parse_arguments E' n h').
Proof. unfold parse_arguments; ags. Qed.
#[local] Hint Resolve ag_parse_arguments : ag.
Lemma ag_seq_element  : ag (seq_element E n h) (seq_element E' n h').
Proof. unfold seq_element; ags. Qed.
#[local] Hint Resolve ag_seq_element : ag.
Lemma ag_seq_to_arrow (x1 : list node) : ag (seq_to_arrow E n h x1) (seq_to_arrow E' n h' x1).
Proof. unfold seq_to_arrow; ags. Qed.
#[local] Hint Resolve ag_seq_to_arrow : ag.
Lemma ag_parse_seq_or_arrow  : ag (parse_seq_or_arrow E n h) (parse_seq_or_arrow E' n h').
Proof. unfold parse_seq_or_arrow; ags. Qed.
#[local] Hint Resolve ag_parse_seq_or_arrow : ag.
Lemma ag_parse_async_call_or_arrow (x1 : node) : ag (parse_async_call_or_arrow E n h x1) (parse_async_call_or_arrow E' n h' x1).
Proof. unfold parse_async_call_or_arrow; ags. Qed.
#[local] Hint Resolve ag_parse_async_call_or_arrow : ag.
Lemma ag_parse_async_primary_expr  : ag (parse_async_primary_expr E n h) (parse_async_primary_expr E' n h').
Proof. unfold parse_async_primary_expr; ags. Qed.
#[local] Hint Resolve ag_parse_async_primary_expr : ag.
Lemma ag_parse_primary_expr  : ag (parse_primary_expr E n h) (parse_primary_expr E' n h').
Proof. unfold parse_primary_expr; ags. Qed.
#[local] Hint Resolve ag_parse_primary_expr : ag.
Lemma ag_parse_computed_member_expr (x1 : node) : ag (parse_computed_member_expr E h x1) (parse_computed_member_expr E' h' x1).
Proof. unfold parse_computed_member_expr; ags. Qed.
#[local] Hint Resolve ag_parse_computed_member_expr : ag.
Lemma ag_parse_static_member_expr (x1 : node) : ag (parse_static_member_expr E x1) (parse_static_member_expr E' x1).
Proof. unfold parse_static_member_expr; ags. Qed.
#[local] Hint Resolve ag_parse_static_member_expr : ag.
Lemma ag_parse_super  : ag (parse_super E) (parse_super E').
Proof. unfold parse_super; ags. Qed.
#[local] Hint Resolve ag_parse_super : ag.
Lemma ag_member_tail : forall k (x1 : node), ag (member_tail E n h k x1) (member_tail E' n h' k x1).
Proof. induction k as [|k IH]; intros; [apply ag_refl|]; cbn [member_tail]; ags. Qed.
#[local] Hint Resolve ag_member_tail : ag.
Lemma ag_parse_member_expr  : ag (parse_member_expr E n h) (parse_member_expr E' n h').
Proof. unfold parse_member_expr; ags. Qed.
#[local] Hint Resolve ag_parse_member_expr : ag.
Lemma ag_call_tail : forall k (x1 : node), ag (call_tail E n h k x1) (call_tail E' n h' k x1).
Proof. induction k as [|k IH]; intros; [apply ag_refl|]; cbn [call_tail]; ags. Qed.
#[local] Hint Resolve ag_call_tail : ag.
Lemma ag_parse_new_expr  : ag (parse_new_expr E n h) (parse_new_expr E' n h').
Proof. unfold parse_new_expr; ags. Qed.
#[local] Hint Resolve ag_parse_new_expr : ag.
Lemma ag_parse_call_expr  : ag (parse_call_expr E n h) (parse_call_expr E' n h').
Proof. unfold parse_call_expr; ags. Qed.
#[local] Hint Resolve ag_parse_call_expr : ag.
Lemma ag_parse_left_hand_side_expr  : ag (parse_left_hand_side_expr E n h) (parse_left_hand_side_expr E' n h').
Proof. unfold parse_left_hand_side_expr; ags. Qed.
#[local] Hint Resolve ag_parse_left_hand_side_expr : ag.
Lemma ag_parse_update_expr  : ag (parse_update_expr E n h) (parse_update_expr E' n h').
Proof. unfold parse_update_expr; ags. Qed.
#[local] Hint Resolve ag_parse_update_expr : ag.
Lemma ag_parse_unary_expr  : ag (parse_unary_expr E n h) (parse_unary_expr E' n h').
Proof. unfold parse_unary_expr; ags. Qed.
#[local] Hint Resolve ag_parse_unary_expr : ag.
Lemma ag_parse_exponentiation_expr  : ag (parse_exponentiation_expr E n h) (parse_exponentiation_expr E' n h').
Proof. unfold parse_exponentiation_expr; ags. Qed.
#[local] Hint Resolve ag_parse_exponentiation_expr : ag.
Lemma ag_climb_inner : forall k (x1 : token) (x2 : node), ag (climb_inner h k x1 x2) (climb_inner h' k x1 x2).
Proof. induction k as [|k IH]; intros; [apply ag_refl|]; cbn [climb_inner]; ags. Qed.
#[local] Hint Resolve ag_climb_inner : ag.
Lemma ag_climb : forall k (x1 : node) (x2 : N), ag (climb E n h k x1 x2) (climb E' n h' k x1 x2).
Proof. induction k as [|k IH]; intros; [apply ag_refl|]; cbn [climb]; ags. Qed.
#[local] Hint Resolve ag_climb : ag.
Lemma ag_precedence_climbing (x1 : node) (x2 : N) : ag (precedence_climbing E n h x1 x2) (precedence_climbing E' n h' x1 x2).
Proof. unfold precedence_climbing; ags. Qed.
#[local] Hint Resolve ag_precedence_climbing : ag.
Lemma ag_parse_binary_expr  : ag (parse_binary_expr E n h) (parse_binary_expr E' n h').
Proof. unfold parse_binary_expr; ags. Qed.
#[local] Hint Resolve ag_parse_binary_expr : ag.
Lemma ag_parse_conditional_expr  : ag (parse_conditional_expr E n h) (parse_conditional_expr E' n h').
Proof. unfold parse_conditional_expr; ags. Qed.
#[local] Hint Resolve ag_parse_conditional_expr : ag.
Lemma ag_parse_yield_expr  : ag (parse_yield_expr E n h) (parse_yield_expr E' n h').
Proof. unfold parse_yield_expr; ags. Qed.
#[local] Hint Resolve ag_parse_yield_expr : ag.
Lemma ag_maybe_arrow (x1 : node) : ag (maybe_arrow E n h x1) (maybe_arrow E' n h' x1).
Proof. unfold maybe_arrow; ags. Qed.
#[local] Hint Resolve ag_maybe_arrow : ag.
Lemma ag_assignment_tail (x1 : node) : ag (assignment_tail E h x1) (assignment_tail E' h' x1).
Proof. unfold assignment_tail; ags. Qed.
#[local] Hint Resolve ag_assignment_tail : ag.
Lemma ag_parse_assignment_expr  : ag (parse_assignment_expr E n h) (parse_assignment_expr E' n h').
Proof. unfold parse_assignment_expr; ags. Qed.
#[local] Hint Resolve ag_parse_assignment_expr : ag.
Lemma ag_comma_then A (m m' : PM A) : ag m m' -> ag (comma_then E m) (comma_then E' m').
Proof. intros H. unfold comma_then. ags. Qed.
#[local] Hint Resolve ag_comma_then : ag.
Lemma ag_parse_expression  : ag (parse_expression E n h) (parse_expression E' n h').
Proof. unfold parse_expression; ags. Qed.
#[local] Hint Resolve ag_parse_expression : ag.
Lemma ag_parse_function_dclr (x1 : bool) (x2 : bool) : ag (parse_function_dclr E n h x1 x2) (parse_function_dclr E' n h' x1 x2).
Proof. unfold parse_function_dclr; ags. Qed.
#[local] Hint Resolve ag_parse_function_dclr : ag.
Lemma ag_parse_hoistable_dclr  : ag (parse_hoistable_dclr E n h) (parse_hoistable_dclr E' n h').
Proof. unfold parse_hoistable_dclr; ags. Qed.
#[local] Hint Resolve ag_parse_hoistable_dclr : ag.
Lemma ag_parse_variable_dclr  : ag (parse_variable_dclr E n h) (parse_variable_dclr E' n h').
Proof. unfold parse_variable_dclr; ags. Qed.
#[local] Hint Resolve ag_parse_variable_dclr : ag.
Lemma ag_variable_dclr_list  : ag (variable_dclr_list E n h) (variable_dclr_list E' n h').
Proof. unfold variable_dclr_list; ags. Qed.
#[local] Hint Resolve ag_variable_dclr_list : ag.
Lemma ag_parse_variable_stmt (x1 : bool) : ag (parse_variable_stmt E n h x1) (parse_variable_stmt E' n h' x1).
Proof. unfold parse_variable_stmt; ags. Qed.
#[local] Hint Resolve ag_parse_variable_stmt : ag.
Lemma ag_parse_lexical_dclr  : ag (parse_lexical_dclr E n h) (parse_lexical_dclr E' n h').
Proof. unfold parse_lexical_dclr; ags. Qed.
#[local] Hint Resolve ag_parse_lexical_dclr : ag.
Lemma ag_parse_declaration  : ag (parse_declaration E n h) (parse_declaration E' n h').
Proof. unfold parse_declaration; ags. Qed.
#[local] Hint Resolve ag_parse_declaration : ag.
Lemma ag_parse_block_stmt  : ag (parse_block_stmt E n h) (parse_block_stmt E' n h').
Proof. unfold parse_block_stmt; ags. Qed.
#[local] Hint Resolve ag_parse_block_stmt : ag.
Lemma ag_parse_empty_stmt  : ag (parse_empty_stmt E) (parse_empty_stmt E').
Proof. unfold parse_empty_stmt; ags. Qed.
#[local] Hint Resolve ag_parse_empty_stmt : ag.
Lemma ag_parse_expression_stmt (x1 : node) : ag (parse_expression_stmt E x1) (parse_expression_stmt E' x1).
Proof. unfold parse_expression_stmt; ags. Qed.
#[local] Hint Resolve ag_parse_expression_stmt : ag.
Lemma ag_parse_if_stmt  : ag (parse_if_stmt E n h) (parse_if_stmt E' n h').
Proof. unfold parse_if_stmt; ags. Qed.
#[local] Hint Resolve ag_parse_if_stmt : ag.
Lemma ag_iteration_body  : ag (iteration_body h) (iteration_body h').
Proof. unfold iteration_body; ags. Qed.
#[local] Hint Resolve ag_iteration_body : ag.
Lemma ag_parse_for_classic_stmt (x1 : option node) : ag (parse_for_classic_stmt E n h x1) (parse_for_classic_stmt E' n h' x1).
Proof. unfold parse_for_classic_stmt; ags. Qed.
#[local] Hint Resolve ag_parse_for_classic_stmt : ag.
Lemma ag_parse_for_in_stmt (x1 : node) : ag (parse_for_in_stmt E n h x1) (parse_for_in_stmt E' n h' x1).
Proof. unfold parse_for_in_stmt; ags. Qed.
#[local] Hint Resolve ag_parse_for_in_stmt : ag.
Lemma ag_parse_for_of_stmt (x1 : node) : ag (parse_for_of_stmt E n h x1) (parse_for_of_stmt E' n h' x1).
Proof. unfold parse_for_of_stmt; ags. Qed.
#[local] Hint Resolve ag_parse_for_of_stmt : ag.
Lemma ag_for_declarations (x1 : string) (x2 : binding) (x3 : option node) : ag (for_declarations E n h x1 x2 x3) (for_declarations E' n h' x1 x2 x3).
Proof. unfold for_declarations; ags. Qed.
#[local] Hint Resolve ag_for_declarations : ag.
Lemma ag_for_var  : ag (for_var E n h) (for_var E' n h').
Proof. unfold for_var; ags. Qed.
#[local] Hint Resolve ag_for_var : ag.
Lemma ag_for_lexical  : ag (for_lexical E n h) (for_lexical E' n h').
Proof. unfold for_lexical; ags. Qed.
#[local] Hint Resolve ag_for_lexical : ag.
Lemma ag_for_target (x1 : node) : ag (for_target E x1) (for_target E' x1).
Proof. unfold for_target; ags. Qed.
#[local] Hint Resolve ag_for_target : ag.
Lemma ag_for_expression  : ag (for_expression E n h) (for_expression E' n h').
Proof. unfold for_expression; ags. Qed.
#[local] Hint Resolve ag_for_expression : ag.
Lemma ag_parse_for_stmt  : ag (parse_for_stmt E n h) (parse_for_stmt E' n h').
Proof. unfold parse_for_stmt; ags. Qed.
#[local] Hint Resolve ag_parse_for_stmt : ag.
Lemma ag_parse_while_stmt  : ag (parse_while_stmt E n h) (parse_while_stmt E' n h').
Proof. unfold parse_while_stmt; ags. Qed.
#[local] Hint Resolve ag_parse_while_stmt : ag.
Lemma ag_parse_do_while_stmt  : ag (parse_do_while_stmt E n h) (parse_do_while_stmt E' n h').
Proof. unfold parse_do_while_stmt; ags. Qed.
#[local] Hint Resolve ag_parse_do_while_stmt : ag.
Lemma ag_parse_iteration_stmt  : ag (parse_iteration_stmt E n h) (parse_iteration_stmt E' n h').
Proof. unfold parse_iteration_stmt; ags. Qed.
#[local] Hint Resolve ag_parse_iteration_stmt : ag.
Lemma ag_switch_consequent : forall k , ag (switch_consequent h k) (switch_consequent h' k).
Proof. induction k as [|k IH]; intros; [apply ag_refl|]; cbn [switch_consequent]; ags. Qed.
#[local] Hint Resolve ag_switch_consequent : ag.
Lemma ag_switch_test (x1 : bool) : ag (switch_test E n h x1) (switch_test E' n h' x1).
Proof. unfold switch_test; ags. Qed.
#[local] Hint Resolve ag_switch_test : ag.
Lemma ag_switch_cases : forall k (x1 : bool), ag (switch_cases E n h k x1) (switch_cases E' n h' k x1).
Proof. induction k as [|k IH]; intros; [apply ag_refl|]; cbn [switch_cases]; ags. Qed.
#[local] Hint Resolve ag_switch_cases : ag.
Lemma ag_parse_switch_stmt  : ag (parse_switch_stmt E n h) (parse_switch_stmt E' n h').
Proof. unfold parse_switch_stmt; ags. Qed.
#[local] Hint Resolve ag_parse_switch_stmt : ag.
Lemma ag_jump_label  : ag (jump_label E) (jump_label E').
Proof. unfold jump_label; ags. Qed.
#[local] Hint Resolve ag_jump_label : ag.
Lemma ag_parse_continue_stmt  : ag (parse_continue_stmt E) (parse_continue_stmt E').
Proof. unfold parse_continue_stmt; ags. Qed.
#[local] Hint Resolve ag_parse_continue_stmt : ag.
Lemma ag_parse_break_stmt  : ag (parse_break_stmt E) (parse_break_stmt E').
Proof. unfold parse_break_stmt; ags. Qed.
#[local] Hint Resolve ag_parse_break_stmt : ag.
Lemma ag_parse_return_stmt  : ag (parse_return_stmt E n h) (parse_return_stmt E' n h').
Proof. unfold parse_return_stmt; ags. Qed.
#[local] Hint Resolve ag_parse_return_stmt : ag.
Lemma ag_return_or_error  : ag (return_or_error E n h) (return_or_error E' n h').
Proof. unfold return_or_error; ags. Qed.
#[local] Hint Resolve ag_return_or_error : ag.
Lemma ag_parse_with_stmt  : ag (parse_with_stmt E n h) (parse_with_stmt E' n h').
Proof. unfold parse_with_stmt; ags. Qed.
#[local] Hint Resolve ag_parse_with_stmt : ag.
Lemma ag_parse_labelled_stmt (x1 : identifier) : ag (parse_labelled_stmt E n h x1) (parse_labelled_stmt E' n h' x1).
Proof. unfold parse_labelled_stmt; ags. Qed.
#[local] Hint Resolve ag_parse_labelled_stmt : ag.
Lemma ag_parse_expression_or_labelled_stmt  : ag (parse_expression_or_labelled_stmt E n h) (parse_expression_or_labelled_stmt E' n h').
Proof. unfold parse_expression_or_labelled_stmt; ags. Qed.
#[local] Hint Resolve ag_parse_expression_or_labelled_stmt : ag.
Lemma ag_parse_throw_stmt  : ag (parse_throw_stmt E n h) (parse_throw_stmt E' n h').
Proof. unfold parse_throw_stmt; ags. Qed.
#[local] Hint Resolve ag_parse_throw_stmt : ag.
Lemma ag_parse_catch_clause  : ag (parse_catch_clause E n h) (parse_catch_clause E' n h').
Proof. unfold parse_catch_clause; ags. Qed.
#[local] Hint Resolve ag_parse_catch_clause : ag.
Lemma ag_parse_finally_clause  : ag (parse_finally_clause E n h) (parse_finally_clause E' n h').
Proof. unfold parse_finally_clause; ags. Qed.
#[local] Hint Resolve ag_parse_finally_clause : ag.
Lemma ag_parse_try_stmt  : ag (parse_try_stmt E n h) (parse_try_stmt E' n h').
Proof. unfold parse_try_stmt; ags. Qed.
#[local] Hint Resolve ag_parse_try_stmt : ag.
Lemma ag_parse_debugger_stmt  : ag (parse_debugger_stmt E) (parse_debugger_stmt E').
Proof. unfold parse_debugger_stmt; ags. Qed.
#[local] Hint Resolve ag_parse_debugger_stmt : ag.
Lemma ag_async_stmt  : ag (async_stmt E n h) (async_stmt E' n h').
Proof. unfold async_stmt; ags. Qed.
#[local] Hint Resolve ag_async_stmt : ag.
Lemma ag_parse_stmt_list_item  : ag (parse_stmt_list_item E n h) (parse_stmt_list_item E' n h').
Proof. unfold parse_stmt_list_item; ags. Qed.
#[local] Hint Resolve ag_parse_stmt_list_item : ag.
Lemma ag_parse_statement  : ag (parse_statement E n h) (parse_statement E' n h').
Proof. unfold parse_statement; ags. Qed.
#[local] Hint Resolve ag_parse_statement : ag.
Lemma ag_import_binding  : ag (import_binding E) (import_binding E').
Proof. unfold import_binding; ags. Qed.
#[local] Hint Resolve ag_import_binding : ag.
Lemma ag_namespace_import_specifiers  : ag (namespace_import_specifiers E) (namespace_import_specifiers E').
Proof. unfold namespace_import_specifiers; ags. Qed.
#[local] Hint Resolve ag_namespace_import_specifiers : ag.
Lemma ag_named_import_specifier  : ag (named_import_specifier E) (named_import_specifier E').
Proof. unfold named_import_specifier; ags. Qed.
#[local] Hint Resolve ag_named_import_specifier : ag.
Lemma ag_named_import_specifiers  : ag (named_import_specifiers E n) (named_import_specifiers E' n).
Proof. unfold named_import_specifiers; ags. Qed.
#[local] Hint Resolve ag_named_import_specifiers : ag.
Lemma ag_parse_module_specifier  : ag (parse_module_specifier E) (parse_module_specifier E').
Proof. unfold parse_module_specifier; ags. Qed.
#[local] Hint Resolve ag_parse_module_specifier : ag.
Lemma ag_parse_import_from_dclr (x1 : list import_spec) : ag (parse_import_from_dclr E x1) (parse_import_from_dclr E' x1).
Proof. unfold parse_import_from_dclr; ags. Qed.
#[local] Hint Resolve ag_parse_import_from_dclr : ag.
Lemma ag_parse_import_dclr  : ag (parse_import_dclr E n) (parse_import_dclr E' n).
Proof. unfold parse_import_dclr; ags. Qed.
#[local] Hint Resolve ag_parse_import_dclr : ag.
Lemma ag_named_export_specifier  : ag (named_export_specifier E) (named_export_specifier E').
Proof. unfold named_export_specifier; ags. Qed.
#[local] Hint Resolve ag_named_export_specifier : ag.
Lemma ag_named_export_specifiers  : ag (named_export_specifiers E n) (named_export_specifiers E' n).
Proof. unfold named_export_specifiers; ags. Qed.
#[local] Hint Resolve ag_named_export_specifiers : ag.
Lemma ag_export_default  : ag (export_default E n h) (export_default E' n h').
Proof. unfold export_default; ags. Qed.
#[local] Hint Resolve ag_export_default : ag.
Lemma ag_parse_export_dclr  : ag (parse_export_dclr E n h) (parse_export_dclr E' n h').
Proof. unfold parse_export_dclr; ags. Qed.
#[local] Hint Resolve ag_parse_export_dclr : ag.
Lemma ag_parse_module_item  : ag (parse_module_item E n h) (parse_module_item E' n h').
Proof. unfold parse_module_item; ags. Qed.
#[local] Hint Resolve ag_parse_module_item : ag.
Lemma ag_script  : ag (script E n h) (script E' n h').
Proof. unfold script; ags. Qed.
#[local] Hint Resolve ag_script : ag.
Lemma ag_module_  : ag (module_ E n h) (module_ E' n h').
Proof. unfold module_; ags. Qed.
#[local] Hint Resolve ag_module_ : ag.
End Build.

Lemma ag_run E c u : checked E = true -> forall k, ag_h (run E k) (run (mkEnv (ucd_start E) (ucd_continue E) (f64_show E) c u) k).
Proof.
  intros HE. induction k as [|k IH]; [constructor; intros; apply ag_refl|].
  constructor; cbn [run step h_bindpat h_lhs h_new h_unary h_exp h_climb h_assign h_expression h_statement h_item]; intros;
  [apply ag_parse_binding_id_or_pat|apply ag_parse_left_hand_side_expr|apply ag_parse_new_expr|apply ag_parse_unary_expr
  |apply ag_parse_exponentiation_expr|apply ag_precedence_climbing|apply ag_parse_assignment_expr|apply ag_parse_expression
  |apply ag_parse_statement|apply ag_parse_stmt_list_item]; auto.
Qed.
Lemma ag_parse go E E' src : (forall E c u n h h', checked E = true -> ag_h h h' -> ag (go E n h) (go (mkEnv (ucd_start E) (ucd_continue E) (f64_show E) c u) n h')) ->
  same_source E E' -> checked E = true -> (exists p, overflow p /\ parse_with go E src = Panicked p) \/ parse_with go E' src = parse_with go E src.
Proof.
  intros Hgo (A1 & A2 & A3) HE. destruct E' as [a1 a2 a3 c u]. cbn in A1, A2, A3. subst a1 a2 a3. unfold parse_with.
  pose proof (@ag_s_next E c u HE GRegExp (s_new src)) as K.
  pose proof (fun t sc => Hgo E c u (fuel_for src) _ _ HE (@ag_run E c u HE (fuel_for src)) (init_pst t sc)) as G. clear Hgo.
  set (E' := mkEnv _ _ _ c u) in *. clearbody E'.
  generalize dependent (fuel_for src). intros n G. unfold ag in G.
  destruct K as [(p & O & K)|K]; rewrite K; [left; eauto|]. clear K.
  destruct (s_next E GRegExp (s_new src)) as [t sc|e|p|]; [|right; reflexivity|right; reflexivity|right; reflexivity].
  destruct (G t sc) as [(p & O & K)|K]; rewrite K; [left; eauto|right; reflexivity].
Qed.
Lemma script_builds E E' src : same_source E E' -> checked E = true -> (exists p, overflow p /\ parse_script E src = Panicked p) \/ parse_script E' src = parse_script E src.
Proof. apply ag_parse. intros. apply ag_script; auto. Qed.
Lemma module_builds E E' src : same_source E E' -> checked E = true -> (exists p, overflow p /\ parse_module E src = Panicked p) \/ parse_module E' src = parse_module E src.
Proof. apply ag_parse. intros. apply ag_module_; auto. Qed.
