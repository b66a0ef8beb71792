(** * UcdProofs: a parse asks the Unicode tables only about characters of the source
    (proofs, C57).  [ag m m']: from every state whose unread text is such that the two
    tables agree, [m'] does what [m] does. *)
From Verif Require Import Base Codepoint Punct Token Scanner Ast Convert ParserBase ParserExpr ParserStmt Parser.
From Verif Require Import SpecLex SpecScan Hoare ScanBase ScanTrivia ScanToken ScanTokens2 ScanNext LexFacts SpecUcd.
Set Implicit Arguments.

(** ** The scanner *)
Section Scan.
Context (E : env) (us uc : N -> bool).
Notation E' := (mkEnv us uc (f64_show E) (checked E) (usize_max E)).
Definition same_char (c : N) : Prop := is_identifier_start E' c = is_identifier_start E c /\ is_identifier_continue E' c = is_identifier_continue E c.
Definition same_text (l : str) : Prop := forall c, In c l -> same_char c.
Hypothesis no_escape : is_identifier_start E 92 = false.

Definition shr {A} (m : SM A) : Prop := forall s a t, m s = ROk a t -> incl (rest t) (rest s).
Lemma shr_ret A (a : A) : shr (ret a). Proof. intros s b t [= <- <-]. apply incl_refl. Qed.
Lemma shr_bind A B (m : SM A) (k : A -> SM B) : shr m -> (forall a, shr (k a)) -> shr (bind m k).
Proof. intros H G s b t K. unfold bind in K. destruct (m s) as [a s1| | |] eqn:Em; try discriminate. apply H in Em. apply G in K. eapply incl_tran; eauto. Qed.
Lemma shr_none A (m : SM A) : (forall s a t, m s <> ROk a t) -> shr m.
Proof. intros H s a t G. destruct (H _ _ _ G). Qed.
Lemma shr_gets A (f : sst -> A) : shr (gets f). Proof. intros s a t [= <- <-]. apply incl_refl. Qed.
Lemma rest_consume s : rest (s_consume s) = tl (rest s).
Proof. unfold s_consume. destruct (counts_line _ _); reflexivity. Qed.
Lemma shr_consume : shr consume.
Proof. intros s a t [= <- <-]. rewrite rest_consume. destruct (rest s); [apply incl_refl|]. cbn. apply incl_tl, incl_refl. Qed.
Lemma shr_unwrap A p (o : option A) : shr (unwrap p o).
Proof. destruct o; [apply shr_ret|apply shr_none; discriminate]. Qed.
Ltac sh1 :=
  match goal with
  | |- shr (s_error _) => apply shr_none; discriminate
  | |- shr (crash _) => apply shr_none; discriminate
  | |- shr nofuel => apply shr_none; discriminate
  | |- shr (ret _) => apply shr_ret
  | |- shr consume => apply shr_consume
  | |- shr (unwrap _ _) => apply shr_unwrap
  | |- shr (bind _ _) => apply shr_bind; [|intro]
  | |- shr peek => apply shr_gets
  | |- shr peek2 => apply shr_gets
  | |- shr (if ?b then _ else _) => destruct b
  | |- shr (match ?x with _ => _ end) => destruct x
  end.
Ltac sh := repeat first [assumption | sh1 | progress cbn beta iota].
Lemma shr_consume_or t : shr (consume_or t). Proof. unfold consume_or. sh. Qed.
Lemma shr_consume_unwrap : shr consume_unwrap. Proof. unfold consume_unwrap. sh. Qed.
Lemma shr_expect c : shr (expect_c c). Proof. unfold expect_c. sh. Qed.
Lemma shr_until_n B pred (read : SM B) : shr read -> forall n, shr (scan_until_n n pred read).
Proof. intros H. induction n as [|n IH]; cbn [scan_until_n]; sh. Qed.
Lemma shr_until B pred (read : SM B) : shr read -> shr (scan_until pred read).
Proof. intros H s a t G. exact (@shr_until_n _ pred _ H _ _ _ _ G). Qed.
Lemma shr_hex k : forall v t, shr (scan_hex_k k v t).
Proof. induction k as [|k IH]; intros v t; cbn [scan_hex_k]; sh; auto using shr_consume_or. Qed.
Lemma shr_esc : shr (scan_unicode_esc_seq E).
Proof.
  unfold scan_unicode_esc_seq, from_u32_or. sh; auto using shr_expect, shr_hex, shr_until, shr_consume_or.
Qed.
Lemma shr_cp : shr (scan_identifier_cp E).
Proof. unfold scan_identifier_cp. sh; auto using shr_consume_unwrap, shr_esc. Qed.
Lemma shr_regexp n : shr (scan_regexp_loop n).
Proof. induction n as [|n IH]; cbn [scan_regexp_loop]; sh; auto using shr_until, shr_consume_or. Qed.
Lemma shr_body : shr scan_regexp_body.
Proof. unfold scan_regexp_body. sh; auto using shr_expect. intros s b t H. apply shr_regexp in H. exact H. Qed.

Lemma same_incl l l' : same_text l -> incl l' l -> same_text l'.
Proof. intros H I c K. apply H, I, K. Qed.
Lemma until_same n : forall s, same_text (rest s) ->
  scan_until_n n (ident_stop E') (scan_identifier_cp E) s = scan_until_n n (ident_stop E) (scan_identifier_cp E) s.
Proof.
  induction n as [|n IH]; intros s H; [reflexivity|]. cbn [scan_until_n]. unfold bind, peek, gets, s_peek.
  destruct (rest s) as [|c r] eqn:Er; cbn [hd_error]; [reflexivity|].
  assert (Hc : ident_stop E' c = ident_stop E c).
  { unfold ident_stop. destruct (H c) as [_ ->]; [left; reflexivity|reflexivity]. }
  rewrite Hc. destruct (ident_stop E c); [reflexivity|].
  destruct (scan_identifier_cp E s) as [x s1| | |] eqn:E1; [|reflexivity|reflexivity|reflexivity].
  rewrite IH; [reflexivity|]. apply shr_cp in E1. eapply same_incl; [exact H|]. rewrite <- Er. exact E1.
Qed.
Lemma part_same s : same_text (rest s) -> scan_until (ident_stop E') (scan_identifier_cp E') s = scan_until (ident_stop E) (scan_identifier_cp E) s.
Proof. intros H. unfold scan_until. change (scan_identifier_cp E') with (scan_identifier_cp E). apply until_same; auto. Qed.
Lemma regexp_same s : same_text (rest s) -> scan_regexp_literal E' s = scan_regexp_literal E s.
Proof.
  intros H. unfold scan_regexp_literal, bind.
  destruct (scan_regexp_body s) as [b s1| | |] eqn:E1; [|reflexivity|reflexivity|reflexivity].
  unfold scan_regexp_flags. rewrite part_same; [reflexivity|]. eapply same_incl; [exact H|]. apply (shr_body _ E1).
Qed.
Lemma identifier_same s c r : same_text (rest s) -> rest s = c :: r -> is_identifier_start E c = true -> scan_identifier E' s = scan_identifier E s.
Proof.
  intros H Er Hc. unfold scan_identifier, bind, scan_identifier_start, peek, gets, s_peek. unfold bind. rewrite Er. cbn [hd_error].
  assert (Hn : (c =? 0x5C) = false). { apply N.eqb_neq. intros ->. change (is_identifier_start E 92 = true) in Hc. congruence. }
  rewrite Hn. unfold consume_unwrap, bind, consume. rewrite Er. cbn [hd_error unwrap ret].
  destruct (H c) as [-> _]; [rewrite Er; left; reflexivity|]. rewrite Hc. cbn [ret].
  rewrite part_same; [reflexivity|]. rewrite rest_consume, Er. cbn. eapply same_incl; [exact H|]. rewrite Er. apply incl_tl, incl_refl.
Qed.
Lemma token_same g s : same_text (rest s) -> scan_token E' g s = scan_token E g s.
Proof.
  intros H. unfold scan_token, s_peek2. destruct (rest s) as [|c r] eqn:Er; cbn [hd_error tl]; [reflexivity|].
  destruct (H c) as [Hc _]; [left; reflexivity|]. rewrite Hc.
  destruct (is_identifier_start E c) eqn:Hi.
  - eapply identifier_same; [rewrite Er; exact H|exact Er|exact Hi].
  - destruct ((c =? 0x22) || (c =? 0x27)); [reflexivity|].
    destruct ((c =? chr ".") && _); [reflexivity|]. destruct (is_decimal_digit c); [reflexivity|].
    destruct (c =? chr "`"); [reflexivity|]. destruct ((c =? chr "}") && _); [reflexivity|].
    destruct (c =? chr "/"); [|reflexivity]. destruct g; [reflexivity|]. apply regexp_same. rewrite Er. exact H.
Qed.
(** One call of the scanner. *)
Definition good (s : sst) : Prop := hist s /\ same_text (rest s).
Lemma next_same g s : good s -> s_next E' g s = s_next E g s.
Proof.
  intros [_ H]. unfold s_next. destruct (unscanned s); [reflexivity|].
  destruct (scan_comments_spec (set_newline false s)) as (s1 & l & H1 & R & _). unfold bind, modify. rewrite H1.
  apply token_same. assert (K : rest (s_start_new_token s1) = rest s1) by reflexivity. rewrite K.
  eapply same_incl; [exact H|]. pose proof (rd_rest R) as Hr. change (rest (set_newline false s)) with (rest s) in Hr. rewrite Hr. apply incl_appr, incl_refl.
Qed.
Lemma next_good g s t s' : good s -> s_next E g s = ROk t s' -> good s'.
Proof.
  intros [Q H] K. split; [eapply hist_next; eauto|]. destruct (unscanned s) as [u|] eqn:Hu.
  - unfold s_next in K. rewrite Hu in K. injection K as <- <-. exact H.
  - destruct Q as [Q _]. pose proof (@s_next_fresh E g s Q Hu) as W. unfold wp in W. rewrite K in W. destruct W as (tr & l & Nt).
    eapply same_incl; [exact H|]. rewrite (nt_rest Nt). apply incl_appr, incl_appr, incl_refl.
Qed.
End Scan.

(** ** The parser *)
Section Pass.
Context (P : sst -> Prop).
Definition ag {A} (m m' : PM A) : Prop := forall s, P (scn s) -> m' s = m s /\ forall a s', m s = ROk a s' -> P (scn s').
Lemma ag_ret A (a : A) : ag (ret a) (ret a). Proof. intros s H. split; [reflexivity|]. intros b s' [= _ <-]. exact H. Qed.
Lemma ag_none A (m : PM A) : (forall s a s', m s <> ROk a s') -> ag m m.
Proof. intros N s H. split; [reflexivity|]. intros a s' K. destruct (N _ _ _ K). Qed.
Lemma ag_gets A (f : pst -> A) : ag (gets f) (gets f). Proof. intros s H. split; [reflexivity|]. intros b s' [= _ <-]. exact H. Qed.
Lemma ag_modify (f : pst -> pst) : (forall s, scn (f s) = scn s) -> ag (modify f) (modify f).
Proof. intros F s H. split; [reflexivity|]. intros b s' [= _ <-]. rewrite F. exact H. Qed.
Lemma ag_bind A B (m m' : PM A) (k k' : A -> PM B) : ag m m' -> (forall a, ag (k a) (k' a)) -> ag (bind m k) (bind m' k').
Proof.
  intros H K s Hs. unfold bind. destruct (H s Hs) as [E G]. rewrite E.
  destruct (m s) as [a s1| | |]; [apply K; eapply G; reflexivity| | |]; (split; [reflexivity|discriminate]).
Qed.
Lemma ag_restore : ag restore_params restore_params.
Proof. intros s H. split; [reflexivity|]. unfold restore_params. destruct (pstack s); [discriminate|]. intros a s' [= _ <-]. exact H. Qed.
Lemma ag_save : ag save_params save_params. Proof. apply ag_modify. reflexivity. Qed.
Lemma ag_upd_prm f : ag (upd_prm f) (upd_prm f). Proof. apply ag_modify. reflexivity. Qed.
Lemma ag_upd_ctx f : ag (upd_ctx f) (upd_ctx f). Proof. apply ag_modify. reflexivity. Qed.
Lemma ag_start_span : ag start_span start_span. Proof. apply ag_modify. reflexivity. Qed.
Lemma ag_end_span : ag end_span end_span.
Proof. intros s H. split; [reflexivity|]. unfold end_span. destruct (marks s); [discriminate|]. intros a s' [= _ <-]. exact H. Qed.
Lemma ag_peek_span : ag peek_span peek_span.
Proof. intros s H. split; [reflexivity|]. unfold peek_span. destruct (marks s); [discriminate|]. intros a s' [= _ <-]. exact H. Qed.
Lemma ag_unwrap A p (o : option A) : ag (unwrap p o) (unwrap p o).
Proof. destruct o; [apply ag_ret|apply ag_none; discriminate]. Qed.
Lemma ag_lift_c A (c : cres A) : ag (lift_c c) (lift_c c).
Proof. intros s H. split; [reflexivity|]. unfold lift_c. destruct c; try discriminate. intros a' s' [= _ <-]. exact H. Qed.
Lemma ag_with_prm A f (m m' : PM A) : ag m m' -> ag (with_prm f m) (with_prm f m').
Proof.
  intros H. unfold with_prm. apply ag_bind; [apply ag_save|intros]. apply ag_bind; [apply ag_upd_prm|intros].
  apply ag_bind; [auto|intros]. apply ag_bind; [apply ag_restore|intros]. apply ag_ret.
Qed.
Lemma ag_with_in A b (m m' : PM A) : ag m m' -> ag (with_in b m) (with_in b m').
Proof. apply ag_with_prm. Qed.
Lemma ag_with_default A b (m m' : PM A) : ag m m' -> ag (with_default b m) (with_default b m').
Proof. apply ag_with_prm. Qed.
Create HintDb ag discriminated.
Hint Constants Opaque : ag.
Hint Resolve ag_with_prm ag_with_in ag_with_default ag_restore ag_save ag_upd_prm ag_upd_ctx ag_start_span ag_end_span ag_peek_span ag_unwrap ag_lift_c
  ag_ret ag_gets : ag.
Ltac agstep := cbv beta; lazymatch goal with
  | |- ag (bind _ _) (bind _ _) => apply ag_bind; [|intros ?]
  | |- ag (fail _) _ => apply ag_none; discriminate
  | |- ag (error_tok _ _) _ => apply ag_none; discriminate
  | |- ag (crash _) _ => apply ag_none; discriminate
  | |- ag nofuel _ => apply ag_none; discriminate
  | |- ag (err_at _ _ _) _ => apply ag_none; discriminate
  | |- ag getcur _ => apply ag_gets
  | |- ag strict_reserved _ => unfold strict_reserved
  | |- ag cur_unary_op _ => unfold cur_unary_op
  | |- ag (if ?b then _ else _) (if ?b then _ else _) => destruct b eqn:?
  | |- ag (match ?x with _ => _ end) (match ?x with _ => _ end) => destruct x eqn:?
  | |- _ => solve [eauto with ag]
  end.
Ltac ags0 := repeat agstep.

Lemma ag_while A p (f f' : PM A) : ag f f' -> forall k, ag (parse_while_punc k p f) (parse_while_punc k p f').
Proof. intros H. induction k; cbn [parse_while_punc]; ags0. Qed.
Lemma ag_until A p (f f' : PM A) : ag f f' -> forall k, ag (parse_until_punc k p f) (parse_until_punc k p f').
Proof. intros H. induction k; cbn [parse_until_punc]; ags0. Qed.
Lemma ag_until_rest A p (f f' : PM A) : ag f f' -> forall k, ag (parse_until_punc_or_rest k p f) (parse_until_punc_or_rest k p f').
Proof. intros H. induction k; cbn [parse_until_punc_or_rest]; ags0. Qed.
Lemma ag_until_eof A (f f' : PM A) : ag f f' -> forall k, ag (parse_until_eof k f) (parse_until_eof k f').
Proof. intros H. induction k; cbn [parse_until_eof]; ags0. Qed.
Hint Resolve ag_while ag_until ag_until_rest ag_until_eof : ag.

Record ag_h (h h' : handler) : Prop := mkAgH {
  gh_bindpat : ag (h_bindpat h) (h_bindpat h'); gh_lhs : ag (h_lhs h) (h_lhs h'); gh_new : ag (h_new h) (h_new h');
  gh_unary : ag (h_unary h) (h_unary h'); gh_exp : ag (h_exp h) (h_exp h');
  gh_climb : forall l p, ag (h_climb h l p) (h_climb h' l p);
  gh_assign : ag (h_assign h) (h_assign h'); gh_expression : ag (h_expression h) (h_expression h');
  gh_statement : ag (h_statement h) (h_statement h'); gh_item : ag (h_item h) (h_item h') }.

Context (E : env) (us uc : N -> bool).
Notation E' := (mkEnv us uc (f64_show E) (checked E) (usize_max E)).
Hypothesis Pnext : forall g s, P s -> s_next E' g s = s_next E g s.
Hypothesis Pkeep : forall g s t s', P s -> s_next E g s = ROk t s' -> P s'.
Hypothesis Psave : forall s u s', P s -> save_state s = ROk u s' -> P s'.
Hypothesis Prestore : forall s t u s', P s -> restore_state t s = ROk u s' -> P s'.
Ltac same := change (value_show E') with (value_show E) in *.
Ltac ags := same; ags0.

Section Body.
Context (n : nat) (h h' : handler).
Hypothesis Hh : ag_h h h'.
Let H1 := gh_bindpat Hh. Let H2 := gh_lhs Hh. Let H3 := gh_new Hh. Let H4 := gh_unary Hh. Let H5 := gh_exp Hh.
Let H5' := gh_climb Hh. Let H6 := gh_assign Hh. Let H7 := gh_expression Hh. Let H8 := gh_statement Hh. Let H9 := gh_item Hh.
#[local] Hint Resolve H1 H2 H3 H4 H5 H5' H6 H7 H8 H9 : ag.
Lemma ag_advance g : ag (advance E g) (advance E' g).
Proof.
  intros s Hs. unfold advance. rewrite (Pnext g Hs). split; [reflexivity|].
  destruct (s_next E g (scn s)) eqn:K; try discriminate. intros b s' [= _ <-]. exact (Pkeep _ Hs K).
Qed.
#[local] Hint Resolve ag_advance : ag.
Lemma ag_error_current (A : Type) (x1 : errtype) : ag (@error_current E A x1) (@error_current E' A x1).
Proof. unfold error_current; ags. Qed.
#[local] Hint Resolve ag_error_current : ag.
Lemma ag_unexpected (A : Type) (x1 : token) : ag (@unexpected E A x1) (@unexpected E' A x1).
Proof. unfold unexpected; ags. Qed.
#[local] Hint Resolve ag_unexpected : ag.
Lemma ag_unexpected_current (A : Type)  : ag (@unexpected_current E A) (@unexpected_current E' A).
Proof. unfold unexpected_current; ags. Qed.
#[local] Hint Resolve ag_unexpected_current : ag.
Lemma ag_consume_p (x1 : punct) (x2 : lexgoal) : ag (consume_p E x1 x2) (consume_p E' x1 x2).
Proof. unfold consume_p; ags. Qed.
#[local] Hint Resolve ag_consume_p : ag.
Lemma ag_consume_kw (x1 : string) (x2 : lexgoal) : ag (consume_kw E x1 x2) (consume_kw E' x1 x2).
Proof. unfold consume_kw; ags. Qed.
#[local] Hint Resolve ag_consume_kw : ag.
Lemma ag_consume_id (x1 : string) (x2 : lexgoal) : ag (consume_id E x1 x2) (consume_id E' x1 x2).
Proof. unfold consume_id; ags. Qed.
#[local] Hint Resolve ag_consume_id : ag.
Lemma ag_consume_semicolon (x1 : lexgoal) : ag (consume_semicolon E x1) (consume_semicolon E' x1).
Proof. unfold consume_semicolon; ags. Qed.
#[local] Hint Resolve ag_consume_semicolon : ag.
Lemma ag_advance_string (x1 : lexgoal) : ag (advance_string E x1) (advance_string E' x1).
Proof. unfold advance_string; ags. Qed.
#[local] Hint Resolve ag_advance_string : ag.
Lemma ag_parse_id_reference  : ag (parse_id_reference E) (parse_id_reference E').
Proof. unfold parse_id_reference; ags. Qed.
#[local] Hint Resolve ag_parse_id_reference : ag.
Lemma ag_parse_binding_id  : ag (parse_binding_id E) (parse_binding_id E').
Proof. unfold parse_binding_id; ags. Qed.
#[local] Hint Resolve ag_parse_binding_id : ag.
Lemma ag_parse_id_name (x1 : lexgoal) : ag (parse_id_name E x1) (parse_id_name E' x1).
Proof. unfold parse_id_name; ags. Qed.
#[local] Hint Resolve ag_parse_id_name : ag.
Lemma ag_comma_unless (x1 : punct) : ag (comma_unless E x1) (comma_unless E' x1).
Proof. unfold comma_unless; ags. Qed.
#[local] Hint Resolve ag_comma_unless : ag.
Lemma ag_assign_in  : ag (assign_in h) (assign_in h').
Proof. unfold assign_in; ags. Qed.
#[local] Hint Resolve ag_assign_in : ag.
Lemma ag_expression_in  : ag (expression_in h) (expression_in h').
Proof. unfold expression_in; ags. Qed.
#[local] Hint Resolve ag_expression_in : ag.
Lemma ag_value_to_key (x1 : value_or_expr) (x2 : bool) (x3 : span) : ag (value_to_key E x1 x2 x3) (value_to_key E' x1 x2 x3).
Proof. unfold value_to_key; ags. Qed.
#[local] Hint Resolve ag_value_to_key : ag.
Lemma ag_obj_pat_value (x1 : N) (x2 : N) (x3 : binding) : ag (obj_pat_value E h x1 x2 x3) (obj_pat_value E' h' x1 x2 x3).
Proof. unfold obj_pat_value; ags. Qed.
#[local] Hint Resolve ag_obj_pat_value : ag.
Lemma ag_obj_pat_key  : ag (obj_pat_key E h) (obj_pat_key E' h').
Proof. unfold obj_pat_key; ags. Qed.
#[local] Hint Resolve ag_obj_pat_key : ag.
Lemma ag_obj_pat_rest (x1 : value_or_expr) (x2 : span) : ag (obj_pat_rest E h x1 x2) (obj_pat_rest E' h' x1 x2).
Proof. unfold obj_pat_rest; ags. Qed.
#[local] Hint Resolve ag_obj_pat_rest : ag.
Lemma ag_obj_pat_property  : ag (obj_pat_property E h) (obj_pat_property E' h').
Proof. unfold obj_pat_property; ags. Qed.
#[local] Hint Resolve ag_obj_pat_property : ag.
Lemma ag_parse_obj_binding_pat  : ag (parse_obj_binding_pat E n h) (parse_obj_binding_pat E' n h').
Proof. unfold parse_obj_binding_pat; ags. Qed.
#[local] Hint Resolve ag_parse_obj_binding_pat : ag.
Lemma ag_arr_pat_element  : ag (arr_pat_element E h) (arr_pat_element E' h').
Proof. unfold arr_pat_element; ags. Qed.
#[local] Hint Resolve ag_arr_pat_element : ag.
Lemma ag_parse_arr_binding_pat  : ag (parse_arr_binding_pat E n h) (parse_arr_binding_pat E' n h').
Proof. unfold parse_arr_binding_pat; ags. Qed.
#[local] Hint Resolve ag_parse_arr_binding_pat : ag.
Lemma ag_parse_binding_id_or_pat  : ag (parse_binding_id_or_pat E n h) (parse_binding_id_or_pat E' n h').
Proof. unfold parse_binding_id_or_pat; ags. Qed.
#[local] Hint Resolve ag_parse_binding_id_or_pat : ag.
Lemma ag_directive_prologues : forall k , ag (directive_prologues E h k) (directive_prologues E' h' k).
Proof. induction k as [|k IH]; intros; [apply ag_none; discriminate|]; cbn [directive_prologues]; ags. Qed.
#[local] Hint Resolve ag_directive_prologues : ag.
Lemma ag_parse_statement_list  : ag (parse_statement_list n h) (parse_statement_list n h').
Proof. unfold parse_statement_list; ags. Qed.
#[local] Hint Resolve ag_parse_statement_list : ag.
Lemma ag_parse_function_body_block  : ag (parse_function_body_block E n h) (parse_function_body_block E' n h').
Proof. unfold parse_function_body_block; ags. Qed.
#[local] Hint Resolve ag_parse_function_body_block : ag.
Lemma ag_parse_function_body  : ag (parse_function_body E n h) (parse_function_body E' n h').
Proof. unfold parse_function_body; ags. Qed.
#[local] Hint Resolve ag_parse_function_body : ag.
Lemma ag_formal_param  : ag (formal_param E n h) (formal_param E' n h').
Proof. unfold formal_param; ags. Qed.
#[local] Hint Resolve ag_formal_param : ag.
Lemma ag_parse_formal_params  : ag (parse_formal_params E n h) (parse_formal_params E' n h').
Proof. unfold parse_formal_params; ags. Qed.
#[local] Hint Resolve ag_parse_formal_params : ag.
Lemma ag_params_and_body (x1 : bool) (x2 : bool) : ag (params_and_body E n h x1 x2) (params_and_body E' n h' x1 x2).
Proof. unfold params_and_body; ags. Qed.
#[local] Hint Resolve ag_params_and_body : ag.
Lemma ag_parse_function_expr (x1 : bool) : ag (parse_function_expr E n h x1) (parse_function_expr E' n h' x1).
Proof. unfold parse_function_expr; ags. Qed.
#[local] Hint Resolve ag_parse_function_expr : ag.
Lemma ag_parse_arrow_body  : ag (parse_arrow_body E n h) (parse_arrow_body E' n h').
Proof. unfold parse_arrow_body; ags. Qed.
#[local] Hint Resolve ag_parse_arrow_body : ag.
Lemma ag_parse_single_param_arrow_function_expr (x1 : str) : ag (parse_single_param_arrow_function_expr E n h x1) (parse_single_param_arrow_function_expr E' n h' x1).
Proof. unfold parse_single_param_arrow_function_expr; ags. Qed.
#[local] Hint Resolve ag_parse_single_param_arrow_function_expr : ag.
Lemma ag_param_of_pattern (x1 : bool) (x2 : node) : ag (param_of_pattern E x1 x2) (param_of_pattern E' x1 x2).
Proof. unfold param_of_pattern; ags. Qed.
#[local] Hint Resolve ag_param_of_pattern : ag.
Lemma ag_seq_to_arrow_params l : ag (seq_to_arrow_params E l) (seq_to_arrow_params E' l).
Proof.
  induction l as [|x l IH]; cbn [seq_to_arrow_params]; ags.
Qed.
#[local] Hint Resolve ag_seq_to_arrow_params : ag.
Lemma ag_arguments_to_params (x1 : list arg_elem) : ag (arguments_to_params E x1) (arguments_to_params E' x1).
Proof. unfold arguments_to_params; ags. Qed.
#[local] Hint Resolve ag_arguments_to_params : ag.
Lemma ag_parse_computed_property_name  : ag (parse_computed_property_name E h) (parse_computed_property_name E' h').
Proof. unfold parse_computed_property_name; ags. Qed.
#[local] Hint Resolve ag_parse_computed_property_name : ag.
Lemma ag_parse_property_name  : ag (parse_property_name E h) (parse_property_name E' h').
Proof. unfold parse_property_name; ags. Qed.
#[local] Hint Resolve ag_parse_property_name : ag.
Lemma ag_class_getter (x1 : bool) : ag (class_getter E n h x1) (class_getter E' n h' x1).
Proof. unfold class_getter; ags. Qed.
#[local] Hint Resolve ag_class_getter : ag.
Lemma ag_class_setter (x1 : bool) : ag (class_setter E n h x1) (class_setter E' n h' x1).
Proof. unfold class_setter; ags. Qed.
#[local] Hint Resolve ag_class_setter : ag.
Lemma ag_class_async_method (x1 : bool) : ag (class_async_method E n h x1) (class_async_method E' n h' x1).
Proof. unfold class_async_method; ags. Qed.
#[local] Hint Resolve ag_class_async_method : ag.
Lemma ag_class_generator_method (x1 : bool) : ag (class_generator_method E n h x1) (class_generator_method E' n h' x1).
Proof. unfold class_generator_method; ags. Qed.
#[local] Hint Resolve ag_class_generator_method : ag.
Lemma ag_class_plain_method (x1 : bool) : ag (class_plain_method E n h x1) (class_plain_method E' n h' x1).
Proof. unfold class_plain_method; ags. Qed.
#[local] Hint Resolve ag_class_plain_method : ag.
Lemma ag_class_element  : ag (class_element E n h) (class_element E' n h').
Proof. unfold class_element; ags. Qed.
#[local] Hint Resolve ag_class_element : ag.
Lemma ag_parse_class_body  : ag (parse_class_body E n h) (parse_class_body E' n h').
Proof. unfold parse_class_body; ags. Qed.
#[local] Hint Resolve ag_parse_class_body : ag.
Lemma ag_parse_class_tail (x1 : option node) : ag (parse_class_tail E n h x1) (parse_class_tail E' n h' x1).
Proof. unfold parse_class_tail; ags. Qed.
#[local] Hint Resolve ag_parse_class_tail : ag.
Lemma ag_binding_id_node  : ag (binding_id_node E) (binding_id_node E').
Proof. unfold binding_id_node; ags. Qed.
#[local] Hint Resolve ag_binding_id_node : ag.
Lemma ag_parse_class_dclr  : ag (parse_class_dclr E n h) (parse_class_dclr E' n h').
Proof. unfold parse_class_dclr; ags. Qed.
#[local] Hint Resolve ag_parse_class_dclr : ag.
Lemma ag_parse_class_expr  : ag (parse_class_expr E n h) (parse_class_expr E' n h').
Proof. unfold parse_class_expr; ags. Qed.
#[local] Hint Resolve ag_parse_class_expr : ag.
Lemma ag_template_piece  : ag (template_piece E) (template_piece E').
Proof. unfold template_piece; ags. Qed.
#[local] Hint Resolve ag_template_piece : ag.
Lemma ag_parse_template_head  : ag (parse_template_head E) (parse_template_head E').
Proof. unfold parse_template_head; ags. Qed.
#[local] Hint Resolve ag_parse_template_head : ag.
Lemma ag_parse_template_element  : ag (parse_template_element E) (parse_template_element E').
Proof. unfold parse_template_element; ags. Qed.
#[local] Hint Resolve ag_parse_template_element : ag.
Lemma ag_template_rest : forall k (x1 : bool), ag (template_rest E h k x1) (template_rest E' h' k x1).
Proof. induction k as [|k IH]; intros; [apply ag_none; discriminate|]; cbn [template_rest]; ags. Qed.
#[local] Hint Resolve ag_template_rest : ag.
Lemma ag_template_literal  : ag (template_literal E n h) (template_literal E' n h').
Proof. unfold template_literal; ags. Qed.
#[local] Hint Resolve ag_template_literal : ag.
Lemma ag_parse_template_literal  : ag (parse_template_literal E n h) (parse_template_literal E' n h').
Proof. unfold parse_template_literal; ags. Qed.
#[local] Hint Resolve ag_parse_template_literal : ag.
Lemma ag_tagged_template (x1 : node) : ag (tagged_template E n h x1) (tagged_template E' n h' x1).
Proof. unfold tagged_template; ags. Qed.
#[local] Hint Resolve ag_tagged_template : ag.
Lemma ag_array_lit_element  : ag (array_lit_element E h) (array_lit_element E' h').
Proof. unfold array_lit_element; ags. Qed.
#[local] Hint Resolve ag_array_lit_element : ag.
Lemma ag_parse_array_lit_expr  : ag (parse_array_lit_expr E n h) (parse_array_lit_expr E' n h').
Proof. unfold parse_array_lit_expr; ags. Qed.
#[local] Hint Resolve ag_parse_array_lit_expr : ag.
Lemma ag_parse_method_definition (x1 : prop_key) (x2 : string) (x3 : bool) (x4 : bool) (x5 : bool) : ag (parse_method_definition E n h x1 x2 x3 x4 x5) (parse_method_definition E' n h' x1 x2 x3 x4 x5).
Proof. unfold parse_method_definition; ags. Qed.
#[local] Hint Resolve ag_parse_method_definition : ag.
Lemma ag_lift A (m m' : SM A) : (forall s, P s -> m' s = m s) -> (forall s a s', P s -> m s = ROk a s' -> P s') -> ag (lift_s m) (lift_s m').
Proof.
  intros F G s Hs. unfold lift_s. rewrite (F _ Hs). split; [reflexivity|]. destruct (m (scn s)) eqn:K; try discriminate.
  intros b s' [= _ <-]. exact (G _ _ _ Hs K).
Qed.
Lemma ag_lookahead : ag (lookahead E) (lookahead E').
Proof.
  unfold lookahead. apply ag_bind; [apply ag_lift; [reflexivity|exact Psave]|intros _]. apply ag_bind; [apply ag_lift; [exact (Pnext GRegExp)|exact (Pkeep GRegExp)]|intros t].
  apply ag_bind; [apply ag_lift; [reflexivity|intros s a s'; apply Prestore]|intros _]. apply ag_ret.
Qed.
#[local] Hint Resolve ag_lookahead : ag.
Lemma ag_accessor_modifier (x1 : string) : ag (accessor_modifier E n h x1) (accessor_modifier E' n h' x1).
Proof. unfold accessor_modifier; ags. Qed.
#[local] Hint Resolve ag_accessor_modifier : ag.
Lemma ag_async_modifier  : ag (async_modifier E n h) (async_modifier E' n h').
Proof. unfold async_modifier; ags. Qed.
#[local] Hint Resolve ag_async_modifier : ag.
Lemma ag_property_modifiers  : ag (property_modifiers E n h) (property_modifiers E' n h').
Proof. unfold property_modifiers; ags. Qed.
#[local] Hint Resolve ag_property_modifiers : ag.
Lemma ag_property_key  : ag (property_key E h) (property_key E' h').
Proof. unfold property_key; ags. Qed.
#[local] Hint Resolve ag_property_key : ag.
Lemma ag_object_property  : ag (object_property E n h) (object_property E' n h').
Proof. unfold object_property; ags. Qed.
#[local] Hint Resolve ag_object_property : ag.
Lemma ag_parse_object_lit_expr  : ag (parse_object_lit_expr E n h) (parse_object_lit_expr E' n h').
Proof. unfold parse_object_lit_expr; ags. Qed.
#[local] Hint Resolve ag_parse_object_lit_expr : ag.
Lemma ag_argument  : ag (argument E h) (argument E' h').
Proof. unfold argument; ags. Qed.
#[local] Hint Resolve ag_argument : ag.
Lemma ag_parse_arguments  : ag (parse_arguments E n h) (parse_arguments E' n h').
Proof. unfold parse_arguments; ags. Qed.
#[local] Hint Resolve ag_parse_arguments : ag.
Lemma ag_seq_element  : ag (seq_element E n h) (seq_element E' n h').
Proof. unfold seq_element; ags. Qed.
#[local] Hint Resolve ag_seq_element : ag.
Lemma ag_seq_to_arrow (x1 : list node) : ag (seq_to_arrow E n h x1) (seq_to_arrow E' n h' x1).
Proof. unfold seq_to_arrow; ags. Qed.
#[local] Hint Resolve ag_seq_to_arrow : ag.
Lemma ag_parse_seq_or_arrow  : ag (parse_seq_or_arrow E n h) (parse_seq_or_arrow E' n h').
Proof. unfold parse_seq_or_arrow; ags. Qed.
#[local] Hint Resolve ag_parse_seq_or_arrow : ag.
Lemma ag_parse_async_call_or_arrow (x1 : node) : ag (parse_async_call_or_arrow E n h x1) (parse_async_call_or_arrow E' n h' x1).
Proof. unfold parse_async_call_or_arrow; ags. Qed.
#[local] Hint Resolve ag_parse_async_call_or_arrow : ag.
Lemma ag_parse_async_primary_expr  : ag (parse_async_primary_expr E n h) (parse_async_primary_expr E' n h').
Proof. unfold parse_async_primary_expr; ags. Qed.
#[local] Hint Resolve ag_parse_async_primary_expr : ag.
Lemma ag_parse_primary_expr  : ag (parse_primary_expr E n h) (parse_primary_expr E' n h').
Proof. unfold parse_primary_expr; ags. Qed.
#[local] Hint Resolve ag_parse_primary_expr : ag.
Lemma ag_parse_computed_member_expr (x1 : node) : ag (parse_computed_member_expr E h x1) (parse_computed_member_expr E' h' x1).
Proof. unfold parse_computed_member_expr; ags. Qed.
#[local] Hint Resolve ag_parse_computed_member_expr : ag.
Lemma ag_parse_static_member_expr (x1 : node) : ag (parse_static_member_expr E x1) (parse_static_member_expr E' x1).
Proof. unfold parse_static_member_expr; ags. Qed.
#[local] Hint Resolve ag_parse_static_member_expr : ag.
Lemma ag_parse_super  : ag (parse_super E) (parse_super E').
Proof. unfold parse_super; ags. Qed.
#[local] Hint Resolve ag_parse_super : ag.
Lemma ag_member_tail : forall k (x1 : node), ag (member_tail E n h k x1) (member_tail E' n h' k x1).
Proof. induction k as [|k IH]; intros; [apply ag_none; discriminate|]; cbn [member_tail]; ags. Qed.
#[local] Hint Resolve ag_member_tail : ag.
Lemma ag_parse_member_expr  : ag (parse_member_expr E n h) (parse_member_expr E' n h').
Proof. unfold parse_member_expr; ags. Qed.
#[local] Hint Resolve ag_parse_member_expr : ag.
Lemma ag_call_tail : forall k (x1 : node), ag (call_tail E n h k x1) (call_tail E' n h' k x1).
Proof. induction k as [|k IH]; intros; [apply ag_none; discriminate|]; cbn [call_tail]; ags. Qed.
#[local] Hint Resolve ag_call_tail : ag.
Lemma ag_parse_new_expr  : ag (parse_new_expr E n h) (parse_new_expr E' n h').
Proof. unfold parse_new_expr; ags. Qed.
#[local] Hint Resolve ag_parse_new_expr : ag.
Lemma ag_parse_call_expr  : ag (parse_call_expr E n h) (parse_call_expr E' n h').
Proof. unfold parse_call_expr; ags. Qed.
#[local] Hint Resolve ag_parse_call_expr : ag.
Lemma ag_parse_left_hand_side_expr  : ag (parse_left_hand_side_expr E n h) (parse_left_hand_side_expr E' n h').
Proof. unfold parse_left_hand_side_expr; ags. Qed.
#[local] Hint Resolve ag_parse_left_hand_side_expr : ag.
Lemma ag_parse_update_expr  : ag (parse_update_expr E n h) (parse_update_expr E' n h').
Proof. unfold parse_update_expr; ags. Qed.
#[local] Hint Resolve ag_parse_update_expr : ag.
Lemma ag_parse_unary_expr  : ag (parse_unary_expr E n h) (parse_unary_expr E' n h').
Proof. unfold parse_unary_expr; ags. Qed.
#[local] Hint Resolve ag_parse_unary_expr : ag.
Lemma ag_parse_exponentiation_expr  : ag (parse_exponentiation_expr E n h) (parse_exponentiation_expr E' n h').
Proof. unfold parse_exponentiation_expr; ags. Qed.
#[local] Hint Resolve ag_parse_exponentiation_expr : ag.
Lemma ag_climb_inner : forall k (x1 : token) (x2 : node), ag (climb_inner h k x1 x2) (climb_inner h' k x1 x2).
Proof. induction k as [|k IH]; intros; [apply ag_none; discriminate|]; cbn [climb_inner]; ags. Qed.
#[local] Hint Resolve ag_climb_inner : ag.
Lemma ag_climb : forall k (x1 : node) (x2 : N), ag (climb E n h k x1 x2) (climb E' n h' k x1 x2).
Proof. induction k as [|k IH]; intros; [apply ag_none; discriminate|]; cbn [climb]; ags. Qed.
#[local] Hint Resolve ag_climb : ag.
Lemma ag_precedence_climbing (x1 : node) (x2 : N) : ag (precedence_climbing E n h x1 x2) (precedence_climbing E' n h' x1 x2).
Proof. unfold precedence_climbing; ags. Qed.
#[local] Hint Resolve ag_precedence_climbing : ag.
Lemma ag_parse_binary_expr  : ag (parse_binary_expr E n h) (parse_binary_expr E' n h').
Proof. unfold parse_binary_expr; ags. Qed.
#[local] Hint Resolve ag_parse_binary_expr : ag.
Lemma ag_parse_conditional_expr  : ag (parse_conditional_expr E n h) (parse_conditional_expr E' n h').
Proof. unfold parse_conditional_expr; ags. Qed.
#[local] Hint Resolve ag_parse_conditional_expr : ag.
Lemma ag_parse_yield_expr  : ag (parse_yield_expr E n h) (parse_yield_expr E' n h').
Proof. unfold parse_yield_expr; ags. Qed.
#[local] Hint Resolve ag_parse_yield_expr : ag.
Lemma ag_maybe_arrow (x1 : node) : ag (maybe_arrow E n h x1) (maybe_arrow E' n h' x1).
Proof. unfold maybe_arrow; ags. Qed.
#[local] Hint Resolve ag_maybe_arrow : ag.
Lemma ag_assignment_tail (x1 : node) : ag (assignment_tail E h x1) (assignment_tail E' h' x1).
Proof. unfold assignment_tail; ags. Qed.
#[local] Hint Resolve ag_assignment_tail : ag.
Lemma ag_parse_assignment_expr  : ag (parse_assignment_expr E n h) (parse_assignment_expr E' n h').
Proof. unfold parse_assignment_expr; ags. Qed.
#[local] Hint Resolve ag_parse_assignment_expr : ag.
Lemma ag_comma_then A (m m' : PM A) : ag m m' -> ag (comma_then E m) (comma_then E' m').
Proof. intros H. unfold comma_then. ags. Qed.
#[local] Hint Resolve ag_comma_then : ag.
Lemma ag_parse_expression  : ag (parse_expression E n h) (parse_expression E' n h').
Proof. unfold parse_expression; ags. Qed.
#[local] Hint Resolve ag_parse_expression : ag.
Lemma ag_parse_function_dclr (x1 : bool) (x2 : bool) : ag (parse_function_dclr E n h x1 x2) (parse_function_dclr E' n h' x1 x2).
Proof. unfold parse_function_dclr; ags. Qed.
#[local] Hint Resolve ag_parse_function_dclr : ag.
Lemma ag_parse_hoistable_dclr  : ag (parse_hoistable_dclr E n h) (parse_hoistable_dclr E' n h').
Proof. unfold parse_hoistable_dclr; ags. Qed.
#[local] Hint Resolve ag_parse_hoistable_dclr : ag.
Lemma ag_parse_variable_dclr  : ag (parse_variable_dclr E n h) (parse_variable_dclr E' n h').
Proof. unfold parse_variable_dclr; ags. Qed.
#[local] Hint Resolve ag_parse_variable_dclr : ag.
Lemma ag_variable_dclr_list  : ag (variable_dclr_list E n h) (variable_dclr_list E' n h').
Proof. unfold variable_dclr_list; ags. Qed.
#[local] Hint Resolve ag_variable_dclr_list : ag.
Lemma ag_parse_variable_stmt (x1 : bool) : ag (parse_variable_stmt E n h x1) (parse_variable_stmt E' n h' x1).
Proof. unfold parse_variable_stmt; ags. Qed.
#[local] Hint Resolve ag_parse_variable_stmt : ag.
Lemma ag_parse_lexical_dclr  : ag (parse_lexical_dclr E n h) (parse_lexical_dclr E' n h').
Proof. unfold parse_lexical_dclr; ags. Qed.
#[local] Hint Resolve ag_parse_lexical_dclr : ag.
Lemma ag_parse_declaration  : ag (parse_declaration E n h) (parse_declaration E' n h').
Proof. unfold parse_declaration; ags. Qed.
#[local] Hint Resolve ag_parse_declaration : ag.
Lemma ag_parse_block_stmt  : ag (parse_block_stmt E n h) (parse_block_stmt E' n h').
Proof. unfold parse_block_stmt; ags. Qed.
#[local] Hint Resolve ag_parse_block_stmt : ag.
Lemma ag_parse_empty_stmt  : ag (parse_empty_stmt E) (parse_empty_stmt E').
Proof. unfold parse_empty_stmt; ags. Qed.
#[local] Hint Resolve ag_parse_empty_stmt : ag.
Lemma ag_parse_expression_stmt (x1 : node) : ag (parse_expression_stmt E x1) (parse_expression_stmt E' x1).
Proof. unfold parse_expression_stmt; ags. Qed.
#[local] Hint Resolve ag_parse_expression_stmt : ag.
Lemma ag_parse_if_stmt  : ag (parse_if_stmt E n h) (parse_if_stmt E' n h').
Proof. unfold parse_if_stmt; ags. Qed.
#[local] Hint Resolve ag_parse_if_stmt : ag.
Lemma ag_iteration_body  : ag (iteration_body h) (iteration_body h').
Proof. unfold iteration_body; ags. Qed.
#[local] Hint Resolve ag_iteration_body : ag.
Lemma ag_parse_for_classic_stmt (x1 : option node) : ag (parse_for_classic_stmt E n h x1) (parse_for_classic_stmt E' n h' x1).
Proof. unfold parse_for_classic_stmt; ags. Qed.
#[local] Hint Resolve ag_parse_for_classic_stmt : ag.
Lemma ag_parse_for_in_stmt (x1 : node) : ag (parse_for_in_stmt E n h x1) (parse_for_in_stmt E' n h' x1).
Proof. unfold parse_for_in_stmt; ags. Qed.
#[local] Hint Resolve ag_parse_for_in_stmt : ag.
Lemma ag_parse_for_of_stmt (x1 : node) : ag (parse_for_of_stmt E n h x1) (parse_for_of_stmt E' n h' x1).
Proof. unfold parse_for_of_stmt; ags. Qed.
#[local] Hint Resolve ag_parse_for_of_stmt : ag.
Lemma ag_for_declarations (x1 : string) (x2 : binding) (x3 : option node) : ag (for_declarations E n h x1 x2 x3) (for_declarations E' n h' x1 x2 x3).
Proof. unfold for_declarations; ags. Qed.
#[local] Hint Resolve ag_for_declarations : ag.
Lemma ag_for_var  : ag (for_var E n h) (for_var E' n h').
Proof. unfold for_var; ags. Qed.
#[local] Hint Resolve ag_for_var : ag.
Lemma ag_for_lexical  : ag (for_lexical E n h) (for_lexical E' n h').
Proof. unfold for_lexical; ags. Qed.
#[local] Hint Resolve ag_for_lexical : ag.
Lemma ag_for_target (x1 : node) : ag (for_target E x1) (for_target E' x1).
Proof. unfold for_target; ags. Qed.
#[local] Hint Resolve ag_for_target : ag.
Lemma ag_for_expression  : ag (for_expression E n h) (for_expression E' n h').
Proof. unfold for_expression; ags. Qed.
#[local] Hint Resolve ag_for_expression : ag.
Lemma ag_parse_for_stmt  : ag (parse_for_stmt E n h) (parse_for_stmt E' n h').
Proof. unfold parse_for_stmt; ags. Qed.
#[local] Hint Resolve ag_parse_for_stmt : ag.
Lemma ag_parse_while_stmt  : ag (parse_while_stmt E n h) (parse_while_stmt E' n h').
Proof. unfold parse_while_stmt; ags. Qed.
#[local] Hint Resolve ag_parse_while_stmt : ag.
Lemma ag_parse_do_while_stmt  : ag (parse_do_while_stmt E n h) (parse_do_while_stmt E' n h').
Proof. unfold parse_do_while_stmt; ags. Qed.
#[local] Hint Resolve ag_parse_do_while_stmt : ag.
Lemma ag_parse_iteration_stmt  : ag (parse_iteration_stmt E n h) (parse_iteration_stmt E' n h').
Proof. unfold parse_iteration_stmt; ags. Qed.
#[local] Hint Resolve ag_parse_iteration_stmt : ag.
Lemma ag_switch_consequent : forall k , ag (switch_consequent h k) (switch_consequent h' k).
Proof. induction k as [|k IH]; intros; [apply ag_none; discriminate|]; cbn [switch_consequent]; ags. Qed.
#[local] Hint Resolve ag_switch_consequent : ag.
Lemma ag_switch_test (x1 : bool) : ag (switch_test E n h x1) (switch_test E' n h' x1).
Proof. unfold switch_test; ags. Qed.
#[local] Hint Resolve ag_switch_test : ag.
Lemma ag_switch_cases : forall k (x1 : bool), ag (switch_cases E n h k x1) (switch_cases E' n h' k x1).
Proof. induction k as [|k IH]; intros; [apply ag_none; discriminate|]; cbn [switch_cases]; ags. Qed.
#[local] Hint Resolve ag_switch_cases : ag.
Lemma ag_parse_switch_stmt  : ag (parse_switch_stmt E n h) (parse_switch_stmt E' n h').
Proof. unfold parse_switch_stmt; ags. Qed.
#[local] Hint Resolve ag_parse_switch_stmt : ag.
Lemma ag_jump_label  : ag (jump_label E) (jump_label E').
Proof. unfold jump_label; ags. Qed.
#[local] Hint Resolve ag_jump_label : ag.
Lemma ag_parse_continue_stmt  : ag (parse_continue_stmt E) (parse_continue_stmt E').
Proof. unfold parse_continue_stmt; ags. Qed.
#[local] Hint Resolve ag_parse_continue_stmt : ag.
Lemma ag_parse_break_stmt  : ag (parse_break_stmt E) (parse_break_stmt E').
Proof. unfold parse_break_stmt; ags. Qed.
#[local] Hint Resolve ag_parse_break_stmt : ag.
Lemma ag_parse_return_stmt  : ag (parse_return_stmt E n h) (parse_return_stmt E' n h').
Proof. unfold parse_return_stmt; ags. Qed.
#[local] Hint Resolve ag_parse_return_stmt : ag.
Lemma ag_return_or_error  : ag (return_or_error E n h) (return_or_error E' n h').
Proof. unfold return_or_error; ags. Qed.
#[local] Hint Resolve ag_return_or_error : ag.
Lemma ag_parse_with_stmt  : ag (parse_with_stmt E n h) (parse_with_stmt E' n h').
Proof. unfold parse_with_stmt; ags. Qed.
#[local] Hint Resolve ag_parse_with_stmt : ag.
Lemma ag_parse_labelled_stmt (x1 : identifier) : ag (parse_labelled_stmt E n h x1) (parse_labelled_stmt E' n h' x1).
Proof. unfold parse_labelled_stmt; ags. Qed.
#[local] Hint Resolve ag_parse_labelled_stmt : ag.
Lemma ag_parse_expression_or_labelled_stmt  : ag (parse_expression_or_labelled_stmt E n h) (parse_expression_or_labelled_stmt E' n h').
Proof. unfold parse_expression_or_labelled_stmt; ags. Qed.
#[local] Hint Resolve ag_parse_expression_or_labelled_stmt : ag.
Lemma ag_parse_throw_stmt  : ag (parse_throw_stmt E n h) (parse_throw_stmt E' n h').
Proof. unfold parse_throw_stmt; ags. Qed.
#[local] Hint Resolve ag_parse_throw_stmt : ag.
Lemma ag_parse_catch_clause  : ag (parse_catch_clause E n h) (parse_catch_clause E' n h').
Proof. unfold parse_catch_clause; ags. Qed.
#[local] Hint Resolve ag_parse_catch_clause : ag.
Lemma ag_parse_finally_clause  : ag (parse_finally_clause E n h) (parse_finally_clause E' n h').
Proof. unfold parse_finally_clause; ags. Qed.
#[local] Hint Resolve ag_parse_finally_clause : ag.
Lemma ag_parse_try_stmt  : ag (parse_try_stmt E n h) (parse_try_stmt E' n h').
Proof. unfold parse_try_stmt; ags. Qed.
#[local] Hint Resolve ag_parse_try_stmt : ag.
Lemma ag_parse_debugger_stmt  : ag (parse_debugger_stmt E) (parse_debugger_stmt E').
Proof. unfold parse_debugger_stmt; ags. Qed.
#[local] Hint Resolve ag_parse_debugger_stmt : ag.
Lemma ag_async_stmt  : ag (async_stmt E n h) (async_stmt E' n h').
Proof. unfold async_stmt; ags. Qed.
#[local] Hint Resolve ag_async_stmt : ag.
Lemma ag_parse_stmt_list_item  : ag (parse_stmt_list_item E n h) (parse_stmt_list_item E' n h').
Proof. unfold parse_stmt_list_item; ags. Qed.
#[local] Hint Resolve ag_parse_stmt_list_item : ag.
Lemma ag_parse_statement  : ag (parse_statement E n h) (parse_statement E' n h').
Proof. unfold parse_statement; ags. Qed.
#[local] Hint Resolve ag_parse_statement : ag.
Lemma ag_import_binding  : ag (import_binding E) (import_binding E').
Proof. unfold import_binding; ags. Qed.
#[local] Hint Resolve ag_import_binding : ag.
Lemma ag_namespace_import_specifiers  : ag (namespace_import_specifiers E) (namespace_import_specifiers E').
Proof. unfold namespace_import_specifiers; ags. Qed.
#[local] Hint Resolve ag_namespace_import_specifiers : ag.
Lemma ag_named_import_specifier  : ag (named_import_specifier E) (named_import_specifier E').
Proof. unfold named_import_specifier; ags. Qed.
#[local] Hint Resolve ag_named_import_specifier : ag.
Lemma ag_named_import_specifiers  : ag (named_import_specifiers E n) (named_import_specifiers E' n).
Proof. unfold named_import_specifiers; ags. Qed.
#[local] Hint Resolve ag_named_import_specifiers : ag.
Lemma ag_parse_module_specifier  : ag (parse_module_specifier E) (parse_module_specifier E').
Proof. unfold parse_module_specifier; ags. Qed.
#[local] Hint Resolve ag_parse_module_specifier : ag.
Lemma ag_parse_import_from_dclr (x1 : list import_spec) : ag (parse_import_from_dclr E x1) (parse_import_from_dclr E' x1).
Proof. unfold parse_import_from_dclr; ags. Qed.
#[local] Hint Resolve ag_parse_import_from_dclr : ag.
Lemma ag_parse_import_dclr  : ag (parse_import_dclr E n) (parse_import_dclr E' n).
Proof. unfold parse_import_dclr; ags. Qed.
#[local] Hint Resolve ag_parse_import_dclr : ag.
Lemma ag_named_export_specifier  : ag (named_export_specifier E) (named_export_specifier E').
Proof. unfold named_export_specifier; ags. Qed.
#[local] Hint Resolve ag_named_export_specifier : ag.
Lemma ag_named_export_specifiers  : ag (named_export_specifiers E n) (named_export_specifiers E' n).
Proof. unfold named_export_specifiers; ags. Qed.
#[local] Hint Resolve ag_named_export_specifiers : ag.
Lemma ag_export_default  : ag (export_default E n h) (export_default E' n h').
Proof. unfold export_default; ags. Qed.
#[local] Hint Resolve ag_export_default : ag.
Lemma ag_parse_export_dclr  : ag (parse_export_dclr E n h) (parse_export_dclr E' n h').
Proof. unfold parse_export_dclr; ags. Qed.
#[local] Hint Resolve ag_parse_export_dclr : ag.
Lemma ag_parse_module_item  : ag (parse_module_item E n h) (parse_module_item E' n h').
Proof. unfold parse_module_item; ags. Qed.
#[local] Hint Resolve ag_parse_module_item : ag.
Lemma ag_script  : ag (script E n h) (script E' n h').
Proof. unfold script; ags. Qed.
#[local] Hint Resolve ag_script : ag.
Lemma ag_module_  : ag (module_ E n h) (module_ E' n h').
Proof. unfold module_; ags. Qed.
#[local] Hint Resolve ag_module_ : ag.
End Body.
Lemma ag_run : forall k, ag_h (run E k) (run E' k).
Proof.
  induction k as [|k IH]; [constructor; intros; apply ag_none; discriminate|].
  constructor; cbn [run step h_bindpat h_lhs h_new h_unary h_exp h_climb h_assign h_expression h_statement h_item]; intros;
  [apply ag_parse_binding_id_or_pat|apply ag_parse_left_hand_side_expr|apply ag_parse_new_expr|apply ag_parse_unary_expr
  |apply ag_parse_exponentiation_expr|apply ag_precedence_climbing|apply ag_parse_assignment_expr|apply ag_parse_expression
  |apply ag_parse_statement|apply ag_parse_stmt_list_item]; auto.
Qed.
Lemma ag_parse go src : (forall n h h', ag_h h h' -> ag (go E n h) (go E' n h')) ->
  P (s_new src) -> parse_with go E' src = parse_with go E src.
Proof.
  intros Hgo H. unfold parse_with. rewrite (Pnext _ H).
  destruct (s_next E GRegExp (s_new src)) as [t sc|e|p|] eqn:K; [|reflexivity|reflexivity|reflexivity].
  apply Pkeep in K; [|exact H]. destruct (Hgo (fuel_for src) _ _ (ag_run (fuel_for src)) (init_pst t sc) K) as [G _]. rewrite G. reflexivity.
Qed.
Lemma script_pass src : P (s_new src) -> parse_script E' src = parse_script E src.
Proof. apply ag_parse. intros. apply ag_script; auto. Qed.
Lemma module_pass src : P (s_new src) -> parse_module E' src = parse_module E src.
Proof. apply ag_parse. intros. apply ag_module_; auto. Qed.
End Pass.

(** ** Results *)
From Coq Require Import Lia ZifyBool ZifyN.
Local Open Scope N_scope.
Lemma ascii_start E c : ascii_right E -> ascii c -> is_identifier_start E c = ((c =? 36) || (c =? 95) || (65 <=? c) && (c <=? 90) || (97 <=? c) && (c <=? 122)).
Proof.
  intros [A _] H. unfold is_identifier_start, in_range.
  change (chr "$") with 36. change (chr "_") with 95. change (chr "A") with 65. change (chr "Z") with 90. change (chr "a") with 97. change (chr "z") with 122.
  destruct ((c =? 36) || (c =? 95) || (65 <=? c) && (c <=? 90) || (97 <=? c) && (c <=? 122)) eqn:K; [reflexivity|]. apply A; [exact H|]. unfold ascii_letter. lia.
Qed.
Lemma ascii_continue E c : ascii_right E -> ascii c -> is_identifier_continue E c =
  ((c =? 36) || (c =? 95) || (65 <=? c) && (c <=? 90) || (97 <=? c) && (c <=? 122) || (48 <=? c) && (c <=? 57) || (c =? 92)).
Proof.
  intros [_ A] H. unfold is_identifier_continue, in_range.
  change (chr "$") with 36. change (chr "_") with 95. change (chr "A") with 65. change (chr "Z") with 90. change (chr "a") with 97. change (chr "z") with 122.
  change (chr "0") with 48. change (chr "9") with 57. change 0x5C with 92.
  destruct ((c =? 36) || (c =? 95) || (65 <=? c) && (c <=? 90) || (97 <=? c) && (c <=? 122) || (48 <=? c) && (c <=? 57) || (c =? 92)) eqn:K; [reflexivity|].
  apply A; [exact H| | |]; unfold ascii_letter, ascii_digit; lia.
Qed.
Lemma texts E us uc src : ascii_right E -> ascii_right (mkEnv us uc (f64_show E) (checked E) (usize_max E)) ->
  agree_on E (mkEnv us uc (f64_show E) (checked E) (usize_max E)) src -> same_text E us uc src.
Proof.
  intros A A' G c Hc. destruct (N.ltb_spec c 128) as [L|L].
  - split; [rewrite !ascii_start by assumption|rewrite !ascii_continue by assumption]; reflexivity.
  - destruct (G c Hc) as [G1 G2]; [unfold ascii; lia|]. cbn in G1, G2. unfold same_char, is_identifier_start, is_identifier_continue. cbn [ucd_start ucd_continue]. rewrite G1, G2. split; reflexivity.
Qed.
Lemma no_esc E : ascii_right E -> is_identifier_start E 92 = false.
Proof. intros A. rewrite (ascii_start A); [reflexivity|]. unfold ascii. lia. Qed.
Lemma good_new E us uc src : same_text E us uc src -> good E us uc (s_new src).
Proof. intros H. split; [|exact H]. split; [split; reflexivity|discriminate]. Qed.
Lemma good_save E us uc s u s' : good E us uc s -> save_state s = ROk u s' -> good E us uc s'.
Proof. intros [[[Q1 Q2] Hs] H] [= _ <-]. split; [|exact H]. split; [split; auto|]. cbn. intros v [= <-]. exact Q2. Qed.
Lemma good_restore E us uc s t u s' : good E us uc s -> restore_state t s = ROk u s' -> good E us uc s'.
Proof.
  intros [[[Q1 Q2] Hs] H]. unfold restore_state. destruct (sstate s) as [v|] eqn:Hv; [|discriminate]. intros [= <- <-].
  split; [|exact H]. split; [split; cbn; auto|discriminate].
Qed.
Lemma script_tables E E' src : same_but_tables E E' -> ascii_right E -> ascii_right E' -> agree_on E E' src -> parse_script E' src = parse_script E src.
Proof.
  intros (B1 & B2 & B3) A A' G. destruct E' as [us uc a3 c u]. cbn in B1, B2, B3. subst a3 c u.
  eapply (@script_pass (good E us uc) E us uc); [|intros; eapply next_good; eauto|exact (@good_save E us uc)|exact (@good_restore E us uc)|apply good_new, texts; auto].
  intros. apply next_same; auto using no_esc.
Qed.
Lemma module_tables E E' src : same_but_tables E E' -> ascii_right E -> ascii_right E' -> agree_on E E' src -> parse_module E' src = parse_module E src.
Proof.
  intros (B1 & B2 & B3) A A' G. destruct E' as [us uc a3 c u]. cbn in B1, B2, B3. subst a3 c u.
  eapply (@module_pass (good E us uc) E us uc); [|intros; eapply next_good; eauto|exact (@good_save E us uc)|exact (@good_restore E us uc)|apply good_new, texts; auto].
  intros. apply next_same; auto using no_esc.
Qed.
