(** * ValidExpr: validity pass over ParserExpr.v (proofs). *)
From Verif Require Import Base Codepoint Punct Token Scanner Ast Convert ParserBase ParserExpr ParserStmt Parser.
From Verif Require Import SpecLex SpecScan SpecTree Hoare LexFacts ParserInv Valid ValidConv ValidBase.
From Coq Require Import ZifyBool ZifyN ZifyNat.
Set Implicit Arguments.

Lemma wf_not_punct t : token_wf t -> ttype t <> TPunctuator -> not_punct (tval t).
Proof. intros W H. destruct (tval t) eqn:Hv; cbn; auto. apply H. eapply wf_punct; eauto. Qed.
Lemma expr_statements e : is_expr e = true -> statements_of e = [].
Proof. destruct e; cbn; intros H; try reflexivity; discriminate H. Qed.

Section Pass.
Context (E : env) (L LB : N) (n : nat) (h : handler).
Notation vs := (vs L LB).
Notation gd := (gd L LB).
Notation gdw := (gdw L LB).
Notation gdb := (gdb L LB).
Notation ER := (ER L LB).
Notation er := (er L LB).
Notation At := (At L LB).
Notation XV := (XV LB).
Notation span_ok := (span_ok L LB).

(** The same whatever the first token was. *)
Definition ERA (lv : N) (k : pctx) (p : params) (a : node) : Prop := forall t0, ER lv k p t0 a.
Definition statement_post (k : pctx) (p : params) (t : token) (a : node) (t' : token) : Prop :=
  gd k p (T_Node a) /\ is_plain_statement a = true.
Definition item_post (k : pctx) (p : params) (t : token) (a : node) (t' : token) : Prop :=
  gd k p (T_Node a) /\ is_item a = true /\ match a with ExpressionStatement e _ => litfirst t e | _ => True end.

Record hV : Prop := mkHV {
  hV_bindpat : forall k p, vs k p (h_bindpat h) (fun _ b _ => gd k p (T_Bind b));
  hV_lhs : forall k p, vs k p (h_lhs h) (er 15 k p);
  hV_new : forall k p, vs k p (h_new h) (er 15 k p);
  hV_unary : forall k p, vs k p (h_unary h) (er 13 k p);
  hV_exp : forall k p, vs k p (h_exp h) (er 12 k p);
  hV_climb : forall k p lhs prec t0 s st t, At s k p st t -> 1 <= prec -> ER prec k p t0 lhs ->
    (is_bin_op t = true -> prec <= precedence (has_in p) t -> precedence (has_in p) t <= level lhs) ->
    wp XV (h_climb h lhs prec) (fun a s' => exists t', At s' k p st t' /\ ER prec k p t0 a /\
      (is_bin_op t' = true -> precedence (has_in p) t' < prec)) s;
  hV_assign : forall k p, vs k p (h_assign h) (er 0 k p);
  hV_expression : forall k p, vs k p (h_expression h) (er 0 k p);
  hV_statement : forall k p, vs k p (h_statement h) (statement_post k p);
  hV_item : forall k p, vs k p (h_item h) (item_post k p)
}.
Hypothesis HV : hV.
#[local] Hint Resolve hV_bindpat hV_lhs hV_new hV_unary hV_exp hV_assign hV_expression hV_statement hV_item HV : vs.

Lemma comma_unless_v k p c : vs k p (comma_unless E c) (fun _ _ _ => True).
Proof. vgo comma_unless; exact I. Qed.
Lemma gd_in k p b a : gd k (set_in b p) a -> gd k p a.
Proof. intros H c Hc. apply H. destruct Hc. constructor; auto. Qed.
Lemma er_in lv k p b t a t' : er lv k (set_in b p) t a t' -> er lv k p t a t'.
Proof. intros [A B C D]. constructor; auto. eapply gd_in; eauto. Qed.
Lemma assign_in_v k p : vs k p (assign_in h) (er 0 k p).
Proof. apply vs_with_in. eapply vs_weaken; [apply (hV_assign HV)|]. intros. eapply er_in; eauto. Qed.
Lemma expression_in_v k p : vs k p (expression_in h) (er 0 k p).
Proof. apply vs_with_in. eapply vs_weaken; [apply (hV_expression HV)|]. intros. eapply er_in; eauto. Qed.
#[local] Hint Resolve comma_unless_v assign_in_v expression_in_v : vs.

(** ** Names *)
Lemma kw_name t w k : tok_kw t k = true -> t_to_string t = Some w -> w = s2l k.
Proof. intros H Hw. apply tok_kw_eq in H. destruct H as [_ H]. unfold t_to_string in Hw. rewrite H in Hw. injection Hw as <-. reflexivity. Qed.
Lemma id_reference_v k p : vs k p (parse_id_reference E) (fun t a t' => er 15 k p t a t' /\ is_identifier a = true).
Proof.
  vgo parse_id_reference.
  all: split; [ver|reflexivity].
  - intros Ha Hs. rewrite (ac_strict Hc Hs), Bool.andb_true_r in Ha.
    split; intros ->; vm_compute in Ha; discriminate Ha.
  - intros _ _. match goal with H : tok_kw _ _ = true, H' : t_to_string _ = _ |- _ => rewrite (kw_name _ _ H H') end. split; intros Hx; vm_compute in Hx; discriminate Hx.
  - intros _ _. match goal with H : tok_kw _ _ = true, H' : t_to_string _ = _ |- _ => rewrite (kw_name _ _ H H') end. split; intros Hx; vm_compute in Hx; discriminate Hx.
Qed.
Lemma binding_id_v k p : vs k p (parse_binding_id E) (fun _ b _ => gd k p (T_Bind b) /\ is_B_Id b = true).
Proof.
  vgo parse_binding_id.
  split; [vgd; exact I|reflexivity].
Qed.
Lemma id_name_v g k p : vs k p (parse_id_name E g) (fun _ _ _ => True).
Proof. vgo parse_id_name; exact I. Qed.
#[local] Hint Resolve id_reference_v binding_id_v id_name_v : vs.

(** ** Binding patterns *)
Definition key_ok (k : pctx) (p : params) (v : value_or_expr) : Prop :=
  match v with VEValue v => not_punct v | VEExpr e => gd k p (T_Node e) /\ is_expr e = true end.
Lemma value_to_key_v k p v lit sp : key_ok k p v -> span_ok sp -> vs k p (value_to_key E v lit sp) (fun _ key _ => gd k p (T_Key key) /\ (lit = false -> is_PK_Id key = true)).
Proof.
  intros Hk Hsp. destruct v; cbn in Hk; vdest; vgo value_to_key; (split; [vgd; auto|auto; try discriminate]).
Qed.
#[local] Hint Resolve value_to_key_v : vs.
Lemma bind_val_array k p es sp : gd k p (T_Bind (B_Array es sp)) -> gd k p (T_Val (PV_ArrayPat es)).
Proof. intros H. recast H. Qed.
Lemma bind_val_object k p es sp : gd k p (T_Bind (B_Object es sp)) -> gd k p (T_Val (PV_ObjectPat es)).
Proof. intros H. recast H. Qed.
Lemma bind_val_id k p i sp : gd k p (T_Bind (B_Id i sp)) -> gd k p (T_Val (PV_BindId i sp)).
Proof. intros H. recast H. Qed.
Lemma bind_apat_array k p es sp : gd k p (T_Bind (B_Array es sp)) -> gd k p (T_APat (AP_Array es)).
Proof. intros H. recast H. Qed.
Lemma bind_apat_object k p es sp : gd k p (T_Bind (B_Object es sp)) -> gd k p (T_APat (AP_Object es)).
Proof. intros H. recast H. Qed.
Lemma bind_apat_id k p i : gd k p (T_APat (AP_Id i)).
Proof. vgd. exact I. Qed.
Lemma bind_param_array k p es sp : gd k p (T_Bind (B_Array es sp)) -> gd k p (T_Param (FP_Array es)).
Proof. intros H. recast H. Qed.
Lemma bind_param_object k p es sp : gd k p (T_Bind (B_Object es sp)) -> gd k p (T_Param (FP_Object es)).
Proof. intros H. recast H. Qed.
Lemma bind_param_id k p i : gd k p (T_Param (FP_Id i)).
Proof. vgd. exact I. Qed.
Definition val_pattern (v : prop_value) : Prop := match v with PV_Assign _ _ | PV_BindId _ _ | PV_ArrayPat _ | PV_ObjectPat _ => True | _ => False end.
Lemma obj_pat_value_v k p l c b : gd k p (T_Bind b) -> 1 <= l <= LB ->
  vs k p (obj_pat_value E h l c b) (fun _ v _ => gd k p (T_Val v) /\ val_pattern v).
Proof.
  intros Hb Hl. vgo obj_pat_value.
  1: split; [vgd; auto|exact I].
  1-3: split; [eauto using bind_val_array, bind_val_object, bind_val_id|exact I].
  apply wp_fail. exact Hl.
Qed.
Lemma obj_pat_key_v k p : vs k p (obj_pat_key E h) (fun _ v _ => key_ok k p v).
Proof.
  vgo obj_pat_key.
  - cbn. apply wf_not_punct; [eapply At_wf; eassumption|]. intros Ht. unfold tok_is in *. rewrite Ht in *. discriminate.
  - cbn. auto.
Qed.
#[local] Hint Resolve obj_pat_key_v : vs.
Lemma obj_pat_value_v' k p c b t0 : tok_ok L LB t0 -> gd k p (T_Bind b) ->
  vs k p (obj_pat_value E h (tline t0) c b) (fun _ v _ => gd k p (T_Val v) /\ val_pattern v).
Proof. intros Ht Hb. apply obj_pat_value_v; auto. exact (to_line Ht). Qed.
#[local] Hint Resolve obj_pat_value_v' : vs.
#[local] Hint Resolve At_ok : vs.
Lemma gd_B_Id k p i sp : span_ok sp -> gd k p (T_Bind (B_Id i sp)).
Proof. intros Hs. vgd. exact I. Qed.
Lemma gd_PV_Assign k p b e : gd k p (T_Bind b) -> gd k p (T_Node e) -> is_expr e = true -> gd k p (T_Val (PV_Assign b e)).
Proof. intros. vgd. auto. Qed.
Lemma obj_pat_rest_v k p v sp : key_ok k p v -> span_ok sp -> vs k p (obj_pat_rest E h v sp) (fun _ v _ => gd k p (T_OPat v) /\ rest_opat v = false).
Proof.
  intros Hk Hsp. vgo obj_pat_rest; (split; [|reflexivity]).
  - pose proof (@gd_PV_Assign k p (B_Id s0 sp) a0 (@gd_B_Id k p s0 sp Hsp) ltac:(assumption) ltac:(assumption)).
    destruct a; try (discriminate (H2 eq_refl)). vgd. cbn. auto.
  - vgd. split; [destruct a; reflexivity|]. split; [left; reflexivity|]. split; [reflexivity|]. destruct a1; cbn in *; tauto.
  - destruct a; try (match goal with H : _ = _ -> _ |- _ => discriminate (H eq_refl) end). vgd. cbn. auto.
Qed.
#[local] Hint Resolve obj_pat_rest_v : vs.
Lemma obj_pat_property_v k p : vs k p (obj_pat_property E h) (fun t v _ => gd k p (T_OPat v) /\ (rest_opat v = true -> tok_punc t Ellipsis = true)).
Proof.
  vgo obj_pat_property.
  - split; auto. vgd. exact I.
  - split; auto. congruence.
Qed.
Lemma obj_binding_pat_v k p : vs k p (parse_obj_binding_pat E n h) (fun _ b _ => gd k p (T_Bind b)).
Proof.
  pose proof (@vs_until_rest L LB _ _ _ _ _ (fun v => gd k p (T_OPat v)) (@obj_pat_property_v k p) ltac:(cbv beta; intros; tauto) rest_opat n RBrace ltac:(cbv beta; intros; tauto)) as Hl.
  vgo parse_obj_binding_pat. vgd. assumption.
Qed.
Lemma arr_pat_element_v k p : vs k p (arr_pat_element E h) (fun t v _ => opt_all (fun x => gd k p (T_APat x)) v /\ (rest_apat v = true -> tok_punc t Ellipsis = true)).
Proof.
  vgo arr_pat_element; cbn [opt_all rest_apat]; (split; [|auto; try discriminate]); auto; try exact I;
  eauto using bind_apat_array, bind_apat_object, bind_apat_id.
  - vgd. exact I.
  - vgd. auto.
Qed.
Lemma arr_binding_pat_v k p : vs k p (parse_arr_binding_pat E n h) (fun _ b _ => gd k p (T_Bind b)).
Proof.
  pose proof (@vs_until_rest L LB _ _ _ _ _ (fun v => opt_all (fun x => gd k p (T_APat x)) v) (@arr_pat_element_v k p) ltac:(cbv beta; intros; tauto) rest_apat n RBracket ltac:(cbv beta; intros; tauto)) as Hl.
  vgo parse_arr_binding_pat. vgd. assumption.
Qed.
#[local] Hint Resolve obj_binding_pat_v arr_binding_pat_v : vs.
Lemma binding_id_or_pat_v k p : vs k p (parse_binding_id_or_pat E n h) (fun _ b _ => gd k p (T_Bind b)).
Proof. vgo parse_binding_id_or_pat; assumption. Qed.
#[local] Hint Resolve binding_id_or_pat_v : vs.

(** ** Functions *)
Definition unstrict (c : vctx) : vctx := mkV (v_ret c) (v_iter c) (v_switch c) false (v_top c) (v_root c) (v_yield c) (v_await c) (v_bind c) (v_len c) (v_lines c).
Lemma unstrict_at c k p : at_ctx L LB (unstrict c) k p -> (v_strict c = true -> strict k = true) -> at_ctx L LB c k p.
Proof. intros [A B C D F G H I] Hs. constructor; auto. Qed.
Lemma at_unstrict c k p b : at_ctx L LB (unstrict c) k p -> at_ctx L LB (unstrict c) (ctx_strict b k) p.
Proof. intros [A B C D F G H I]. constructor; auto; discriminate. Qed.

Definition dirs (k : pctx) (p : params) (k' : pctx) (ds : list node) : Prop :=
  forall rest c, at_ctx L LB (unstrict c) k p -> (v_strict c = true -> strict k = true \/ use_strict (ds ++ rest) = true) ->
    Forall (fun x => valid c (T_Node x)) ds.
Definition dirs_strict (k' : pctx) (ds : list node) : Prop :=
  forall rest, use_strict (ds ++ rest) = true -> strict k' = true \/ use_strict rest = true.
Lemma literal_anywhere c v r a sp : valid (unstrict c) (T_Node (NLiteral v r a sp)) -> valid c (T_Node (NLiteral v r a sp)).
Proof. intros V. apply valid_mk; [exact (valid_local V)|apply FC_nil]. Qed.
Lemma use_strict_cases e sp l : use_strict (ExpressionStatement e sp :: l) = true ->
  exists v r a sp', e = NLiteral (VStr v) r a sp' /\ (str_eqb v (s2l "use strict") = true \/ use_strict l = true).
Proof.
  destruct e; try discriminate. cbn [use_strict]. destruct v; try discriminate.
  destruct (str_eqb s (s2l "use strict")) eqn:H; [intros _; do 4 eexists; split; [reflexivity|auto]|].
  destruct (_ || _); [discriminate|]. intros Hl. do 4 eexists; split; [reflexivity|auto].
Qed.
Lemma expr_stmt_valid c e sp : valid (down c (T_Node (ExpressionStatement e sp)) Other) (T_Node e) -> is_expr e = true -> span_within (v_len c) (v_lines c) sp ->
  valid c (T_Node (ExpressionStatement e sp)).
Proof. intros V He Hs. apply valid_mk; [split; [constructor; auto|exact He]|]. apply FC_one. exact V. Qed.
Definition after (k : pctx) (e : node) : pctx :=
  match e with NLiteral (VStr s) _ _ _ => if str_eqb s (s2l "use strict") then ctx_strict true k else k | _ => k end.
Lemma dirs_cons k p k1 k' e sp ds : gd k p (T_Node e) -> is_expr e = true -> span_ok sp ->
  k1 = after k e ->
  dirs k1 p k' ds -> dirs k p k' (ExpressionStatement e sp :: ds).
Proof.
  intros He Hx Hs Hk Hd rest c Hc Hst. constructor.
  - apply expr_stmt_valid; auto.
    + set (c1 := down c _ Other). assert (Hc1 : at_ctx L LB (unstrict c1) k p) by (destruct Hc; constructor; auto).
      destruct (v_strict c) eqn:Hv.
      2:{ apply He. apply unstrict_at; auto. cbn. rewrite Hv. discriminate. }
      destruct (Hst eq_refl) as [Hk'|Hu].
      * apply He. apply unstrict_at; auto.
      * destruct (use_strict_cases _ _ _ Hu) as (v & r & a & sp' & -> & _). apply literal_anywhere. apply He. exact Hc1.
    + rewrite (ac_len Hc : v_len c = L), (ac_lines Hc : v_lines c = LB). exact Hs.
  - eapply Hd with (rest := rest).
    + assert (k1 = k \/ k1 = ctx_strict true k) as [->| ->]; [|exact Hc|apply at_unstrict; exact Hc].
      rewrite Hk. unfold after. destruct e; auto. destruct v; auto. destruct (str_eqb _ _); auto.
    + intros Hv. destruct (Hst Hv) as [Hk'|Hu].
      * left. rewrite Hk. unfold after. destruct e; auto. destruct v; auto. destruct (str_eqb _ _); auto.
      * destruct (use_strict_cases _ _ _ Hu) as (v & r & a & sp' & -> & [Hy|Hy]); [|auto]. left. rewrite Hk. unfold after. rewrite Hy. reflexivity.
Qed.
Lemma directives_v j : forall k p s st t, At s k p st t -> wp XV (directive_prologues E h j) (fun ds s' => exists k' t',
  At s' k' p st t' /\ k' = ctx_strict (strict k') k /\ (strict k = true -> strict k' = true) /\ Forall (fun x => is_item x = true) ds /\
  tok_is t' TString = false /\ dirs k p k' ds /\ dirs_strict k' ds) s.
Proof.
  induction j as [|j IH]; intros k p s st t HA; [exact I|]. cbn [directive_prologues]. do 2 vstep. vstep.
  - do 4 vstep.
    vstep. eapply wp_conseq with (P := fun _ s' => exists t', At s' (after k a0) p st t').
    { unfold after. destruct a0; try (vstep; eauto; fail). destruct v; try (vstep; eauto; fail).
      destruct (str_eqb _ _); [|vstep; eauto]. vstep. eauto. }
    cbv beta. intros _ s1 (t1 & HA1). do 5 vstep.
    eapply wp_conseq; [eapply IH; eassumption|]. cbv beta. intros ds s2 (k' & t' & A1 & A2 & A3 & A4 & A5 & A6 & A7).
    
    assert (Hk1 : after k a0 = ctx_strict (strict (after k a0)) k /\ (strict k = true -> strict (after k a0) = true)).
    { unfold after. destruct k. destruct a0; auto. destruct v; auto. destruct (str_eqb _ _); auto. }
    vstep. exists k', t'. destruct Hk1 as [Hk1 Hk2]. 
    split; [assumption|]. split; [rewrite A2 at 1; rewrite Hk1; reflexivity|]. split; [auto|].
    split; [constructor; [reflexivity|assumption]|]. split; [assumption|]. split; [eapply dirs_cons; eauto|].
    intros rest Hu. destruct (use_strict_cases _ _ _ Hu) as (v & r & b & sp' & -> & [Hy|Hy]).
      * left. apply A3. unfold after. rewrite Hy. reflexivity.
      * apply A7. exact Hy.
  - vstep. exists k, t. split; [assumption|]. split; [destruct k; reflexivity|]. split; [auto|]. split; [constructor|].
    split; [assumption|]. split; [constructor|]. intros rest Hu. right. exact Hu.
Qed.
Definition list_post (k : pctx) (p : params) (t : token) (l : list node) (t' : token) : Prop :=
  Forall (fun x => gd k p (T_Node x)) l /\ Forall (fun x => is_item x = true) l /\ (tok_is t TString = false -> use_strict l = false).
Lemma no_prologue k p t t' x l : tok_is t TString = false -> item_post k p t x t' -> use_strict (x :: l) = false.
Proof.
  intros Ht (_ & _ & H). destruct x; auto; match type of H with litfirst _ ?ex => destruct ex; auto end. destruct v; auto. cbn in *.
  destruct H as [H|[->| ->]]; [|reflexivity|reflexivity]. unfold tok_is in Ht. rewrite H in Ht. discriminate Ht.
Qed.
Lemma statement_list_v k p : vs k p (parse_statement_list n h) (list_post k p).
Proof.
  unfold parse_statement_list. eapply vs_weaken.
  { eapply vs_until with (P := fun x => gd k p (T_Node x) /\ is_item x = true); [apply (hV_item HV)|]. unfold item_post. tauto. }
  cbv beta. intros t l t' [Hl Hf]. unfold list_post. split; [|split].
  - eapply Forall_impl; [|exact Hl]. cbv beta; intros ? [? ?]; assumption.
  - eapply Forall_impl; [|exact Hl]. cbv beta; intros ? [? ?]; assumption.
  - intros Ht. destruct l as [|x l]; [reflexivity|]. destruct Hf as [t2 Hf]. eapply no_prologue; eauto.
Qed.
#[local] Hint Resolve statement_list_v : vs.
Lemma function_body_block_v k p : vs k p (parse_function_body_block E n h) (fun _ b _ => gdb k p b).
Proof.
  unfold parse_function_body_block. intros s st t HA. do 6 vstep. vstep. eapply wp_conseq; [eapply directives_v; eassumption|].
  cbv beta. intros ds s1 (k' & t' & A1 & A2 & A3 & A4 & A5 & A6 & A7). do 12 vstep. vstep. eexists. split.
  { match goal with H : At _ ?K _ _ _ |- At _ k _ _ _ => replace k with K; [exact H|] end. rewrite A2. destruct k; reflexivity. }
  match goal with H : list_post _ _ _ _ _ |- _ => destruct H as (B1 & B2 & B3) end. specialize (B3 A5).
  split; [reflexivity|]. cbn [statements_of]. intros c [Hc Hst]. apply valid_mk; [split; [spans|]|].
  - change (span_within (v_len (unstrict c)) (v_lines (unstrict c)) a3). eapply at_span; [exact Hc|assumption].
  - cbn. apply Forall_app. auto.
  - cbn [children]. apply FC_on. apply Forall_app. split.
    + eapply A6 with (rest := a0); [|exact Hst]. destruct Hc. constructor; auto.
    + eapply Forall_gd; [exact B1|]. apply unstrict_at.
      * rewrite A2. apply at_unstrict. destruct Hc. constructor; auto.
      * intros Hv. destruct (Hst Hv) as [Hx|Hx]; auto. destruct (A7 _ Hx) as [Hy|Hy]; auto. congruence.
Qed.
#[local] Hint Resolve function_body_block_v : vs.
Lemma gdb_fn k p b x : gdb (ctx_in_function x k) p b -> gdb k p b.
Proof.
  intros [H1 H2]. split; auto. intros c [Hc Hs]. apply H2. split; auto. destruct Hc; constructor; auto.
Qed.
Lemma function_body_v k p : vs k p (parse_function_body E n h) (fun _ b _ => gdb k (set_return true p) b).
Proof.
  vgo parse_function_body.
  eexists. split.
  { match goal with H : At _ (ctx_in_function _ _) _ _ _ |- At _ k _ _ _ => replace k with (ctx_in_function (in_function k) (ctx_in_function true k)) by (destruct k; reflexivity); exact H end. }
  eapply gdb_fn; eassumption.
Qed.
#[local] Hint Resolve function_body_v : vs.

Lemma formal_param_v k p : vs k p (formal_param E n h) (fun t v _ => gd k p (T_Param v) /\ (rest_param v = true -> tok_punc t Ellipsis = true)).
Proof.
  vgo formal_param; (split; [|auto; try discriminate]); eauto using bind_param_array, bind_param_object, bind_param_id.
  - vgd. exact I.
  - vgd. auto.
Qed.
Definition params_post (k : pctx) (p : params) (ps : list func_param) : Prop :=
  Forall (fun x => gd k p (T_Param x)) ps /\ only_last rest_param ps.
Lemma formal_params_v k p : vs k p (parse_formal_params E n h) (fun _ ps _ => params_post k p ps).
Proof.
  pose proof (@vs_until_rest L LB _ _ _ _ _ (fun v => gd k p (T_Param v)) (@formal_param_v k p) ltac:(cbv beta; intros; tauto) rest_param n RParen ltac:(cbv beta; intros; tauto)) as Hl.
  vgo parse_formal_params. split; assumption.
Qed.
#[local] Hint Resolve formal_params_v : vs.
Lemma params_and_body_v y a k p : vs k p (params_and_body E n h y a) (fun _ r _ =>
  params_post k (ya y a p) (fst r) /\ gdb k (set_return true (ya y a p)) (snd r)).
Proof. vgo params_and_body. split; assumption. Qed.
#[local] Hint Resolve params_and_body_v : vs.

Lemma gdb_block k p b : gdb k p b -> is_block b = true.
Proof. intros []; auto. Qed.

(** Bodies and parameters under a function. *)
Lemma FC_params k p0 p ps c a : params_post k p ps -> at_ctx L LB c k p0 -> 
  (strict_step a Param = true -> strict k = true) ->
  (switch_step a Param = true -> True) ->
  (has_return p = true -> has_return p0 = true) ->
  (has_yield p = true -> generator_step a Param = true \/ has_yield p0 = true) ->
  (has_await p = true -> async_step a Param = true \/ has_await p0 = true) ->
  FC c a (on Param T_Param ps).
Proof.
  intros [Hp _] Hc A1 A2 A3 A4 A5. apply FC_on. eapply Forall_gd; [exact Hp|]. eapply at_move; eauto.
Qed.
Lemma FC_body k p0 p b c a : gdb k p b -> at_ctx L LB c k p0 ->
  is_class a = false -> is_module_root a = false -> code_of a = statements_of b ->
  (has_yield p = true -> generator_step a Body = true \/ has_yield p0 = true) ->
  (has_await p = true -> async_step a Body = true \/ has_await p0 = true) ->
  FC c a (one Body (T_Node b)).
Proof.
  intros [_ Hb] Hc A1 A2 A3 A4 A5. apply FC_one. apply Hb. eapply at_body_move; eauto.
Qed.
Ltac fside := cbn; intros; try discriminate; auto; try congruence; try (left; subst; reflexivity).
Ltac ffn := cbn [children]; unfold function_children; repeat lazymatch goal with
  | |- FC _ _ (_ ++ _) => apply FC_app
  | |- FC _ _ (opt _ _ None) => apply FC_none
  | |- FC _ _ (opt _ _ (Some _)) => apply FC_some; try (vchild; fail)
  | |- FC _ _ (on Param _ _) => eapply FC_params; [eassumption|eassumption|fside ..]
  | |- FC _ _ (one Body _) => eapply FC_body; [eassumption|eassumption|reflexivity|reflexivity|reflexivity|fside ..]
  end.
Ltac vfn := let c := fresh "c" in let Hc := fresh "Hc" in intros c Hc; apply valid_mk; [split; [spans|cbn [local_other local_node]]|ffn].

Lemma no_star t : token_wf t -> tok_is t TPunctuator && matches_str t "*" = false.
Proof.
  intros W. destruct (tok_is t TPunctuator) eqn:H; [|reflexivity]. apply tok_is_eq in H. destruct (wf_punc _ W H) as [q Hq].
  unfold matches_str. rewrite Hq. reflexivity.
Qed.
Lemma identifier_name a : is_identifier a = true -> is_name a = true.
Proof. destruct a; auto. Qed.
Lemma function_expr_v async k p : vs k p (parse_function_expr E n h async) (fun _ a _ => ERA 15 k p a).
Proof.
  vgo parse_function_expr.
  all: rewrite no_star by (eapply At_wf; eassumption).
  all: intros t0; constructor; [vfn|reflexivity|cbn [level]; intro; discriminate|exact I].
  all: try (match goal with H : gdb _ _ _ |- _ => pose proof (gdb_block H) end; unfold function_ok; cbn [all_opt]; 
    match goal with H : params_post _ _ _ |- _ => destruct H end; repeat split; auto using identifier_name).
Qed.
#[local] Hint Resolve function_expr_v : vs.
Definition arrow_body_post (k : pctx) (p : params) (r : node * bool) : Prop :=
  if snd r then gd k (ya false true p) (T_Node (fst r)) /\ is_expr (fst r) = true else gdb k (set_return true (ya false true p)) (fst r).
Lemma arrow_body_v k p : vs k p (parse_arrow_body E n h) (fun _ r _ => arrow_body_post k p r).
Proof. vgo parse_arrow_body; cbn; auto. Qed.
#[local] Hint Resolve arrow_body_v : vs.

Definition aparams_post (k : pctx) (p : params) (ps : list func_param) : Prop :=
  Forall (fun x => gdw k p (T_Param x)) ps /\ only_last rest_param ps.
Lemma FC_aparams k p ps c a : aparams_post k p ps -> at_ctx L LB c k p -> is_arrow a = true -> FC c a (on Param T_Param ps).
Proof.
  intros [Hp _] Hc Ha. apply FC_on. eapply Forall_impl; [|exact Hp]. cbv beta. intros x Hx. apply Hx.
  - destruct a as [[]| | | | | | | | | | | | | | |]; try discriminate Ha; (eapply at_move; [eassumption|cbn; intros; try discriminate; auto ..]).
  - cbn. rewrite Ha. reflexivity.
Qed.
Lemma FC_abody k p b e c a : arrow_body_post k p (b, e) -> at_ctx L LB c k p -> is_arrow a = true -> code_of a = statements_of b ->
  FC c a (one Body (T_Node b)).
Proof.
  intros Hb Hc Ha Hs. destruct e; cbn in Hb.
  - destruct Hb as [Hb He]. apply FC_one. apply Hb. destruct Hc. constructor; auto; unfold down; cbn [v_strict v_iter v_switch v_ret v_yield v_await body_step loop_step]; auto; try discriminate.
    + unfold strict_step. rewrite Hs, (expr_statements _ He). destruct a as [[]| | | | | | | | | | | | | | |]; try discriminate Ha; cbn; auto.
    + destruct a as [[]| | | | | | | | | | | | | | |]; try discriminate Ha; cbn; auto.
    + unfold async_step. rewrite Ha, Bool.orb_true_r. auto.
  - eapply FC_body; eauto; try (destruct a as [[]| | | | | | | | | | | | | | |]; try discriminate Ha; reflexivity); cbn; try discriminate.
    unfold async_step. rewrite Ha, Bool.orb_true_r. auto.
Qed.
Lemma arrow_node_v k p ps b e sp : aparams_post k p ps -> arrow_body_post k p (b, e) -> span_ok sp ->
  gd k p (T_Node (ArrowFunctionExpression None ps b false e false AInvalid sp)).
Proof.
  intros Hp Hb Hs c Hc. apply valid_mk; [split; [spans|]|].
  - cbn. destruct Hp. destruct e; cbn in Hb; [destruct Hb|apply gdb_block in Hb]; auto 10.
  - cbn [children]. unfold function_children. apply FC_app; [apply FC_none|]. apply FC_app.
    + eapply FC_aparams; eauto.
    + eapply FC_abody; eauto.
Qed.
Lemma async_arrow_node_v k p ps b e sp : aparams_post k p ps -> arrow_body_post k p (b, e) -> span_ok sp ->
  gd k p (T_Node (AsyncArrowFunctionExpression None ps b false e true AInvalid sp)).
Proof.
  intros Hp Hb Hs c Hc. apply valid_mk; [split; [spans|]|].
  - cbn. destruct Hp. destruct e; cbn in Hb; [destruct Hb|apply gdb_block in Hb]; auto 10.
  - cbn [children]. unfold function_children. apply FC_app; [apply FC_none|]. apply FC_app.
    + eapply FC_aparams; eauto.
    + eapply FC_abody; eauto.
Qed.
Lemma single_post k p i : aparams_post k p [FP_Id i].
Proof.
  split; [constructor; [|constructor]|].
  - intros c Hc _. apply (@bind_param_id k p i c Hc).
  - apply only_last_none. constructor; auto.
Qed.
Lemma single_param_v k p name : vs k p (parse_single_param_arrow_function_expr E n h name) (fun _ a _ => ERA 15 k p a /\ assign_target_type a = AInvalid).
Proof.
  vgo parse_single_param_arrow_function_expr. split; [|reflexivity].
  intros t0. constructor; [|reflexivity|cbn [level]; intro; discriminate|exact I]. apply arrow_node_v; auto using single_post.
Qed.

Definition cover (k : pctx) (p : params) (e : node) : Prop :=
  (gd k p (T_Node e) /\ is_expr e = true) \/ (exists b sp, e = NRestElement b sp /\ gd k p (T_Bind b)) \/
  (exists a sp, e = NSpreadElement a sp /\ gd k p (T_Node a) /\ is_expr a = true /\ span_ok sp).
Lemma gdw_down k p b c a : gdw k p (T_Bind b) -> at_ctx L LB c k p -> v_bind c = false -> a = T_Param (FP_Rest b) -> valid (down c a Sub) (T_Bind b).
Proof.
  intros H Hc Hb ->. apply H.
  - eapply at_move; [exact Hc|cbn; intros; try discriminate; auto ..].
  - exact Hb.
Qed.
Lemma rest_param_gdw k p b : gdw k p (T_Bind b) -> gdw k p (T_Param (FP_Rest b)).
Proof. intros H c Hc Hb. apply valid_mk; [split; [constructor|exact I]|]. apply FC_one. eapply gdw_down; eauto. Qed.
Lemma cover_param_v k p e b : cover k p e -> vs k p (x <- lift_c (to_binding_pattern E e) ;; param_of_pattern E b x)
  (fun _ q _ => gdw k p (T_Param q) /\ (rest_param q = true -> b = true)).
Proof.
  intros Hc s st t HA. vstep. destruct Hc as [[Hg He]|[(r & sp & -> & Hg)|(x & sp & -> & Hg & He & Hs)]].
  - eapply wp_conseq; [eapply v_conv; [exact HA|]|].
    { intros c Hc Hb. apply (@to_binding_pattern_ok E e c). auto. }
    cbv beta. intros y s1 [A1 A2].
    assert (HR : forall q, match y with
      | NAssignmentPattern l r _ => q = FP_Assign l r
      | NBindingIdentifier name _ => q = FP_Id name
      | NObjectPattern ps _ _ => q = FP_Object ps
      | NArrayPattern es _ _ => q = FP_Array es
      | _ => False
      end -> gdw k p (T_Param q)).
    { intros q Hq c Hc Hb. exact (@param_ok c Hb y q (A2 c Hc Hb) Hq). }
    destruct y; cbn [param_of_pattern]; try (vstep; fail); try (vstep; vret; split; [apply HR; reflexivity|discriminate]).
    destruct (valid_other (A2 _ (some_ctx_ok L LB k p) eq_refl)).
  - eapply wp_conseq; [eapply v_conv with (Q := fun c y => y = NRestElement r sp); [exact HA|intros; reflexivity]|].
    cbv beta. intros y s1 [A1 A2]. rewrite (A2 _ (some_ctx_ok L LB k p) eq_refl). cbn [param_of_pattern].
    vstep; [|vstep]. vstep. vret. split; auto. apply rest_param_gdw. intros c Hc Hb. apply Hg. auto.
  - eapply wp_conseq; [eapply v_conv with (Q := fun c y => exists b, y = NRestElement b sp /\ valid c (T_Bind b)); [exact HA|]|].
    { intros c Hc Hb. cbn [to_binding_pattern]. apply cw_bind. eapply cw_conseq; [apply (@to_binding_pattern_ok E x c); auto|].
      cbv beta. intros y Hy. apply cw_bind. eapply cw_conseq; [apply strict_binding_ok; [exact Hb|exact Hy|]|].
      - rewrite (ac_len Hc), (ac_lines Hc). exact (proj1 Hs).
      - cbv beta. intros b' Hb'. cbn. eauto. }
    cbv beta. intros y s1 [A1 A2]. destruct (A2 _ (some_ctx_ok L LB k p) eq_refl) as (b' & -> & _).
    cbn [param_of_pattern]. vstep; [|vstep]. vstep. vret. split; auto. apply rest_param_gdw. intros c Hc Hb.
    destruct (A2 c Hc Hb) as (b2 & [= <-] & V). exact V.
Qed.
Lemma seq_to_arrow_params_v k p l : Forall (cover k p) l -> vs k p (seq_to_arrow_params E l) (fun _ ps _ => aparams_post k p ps).
Proof.
  induction 1 as [|e l He Hl IH]; cbn [seq_to_arrow_params].
  - intros s st t HA. vstep. vret. split; [constructor|apply only_last_nil].
  - intros s st t HA.
    pose proof (@cover_param_v k p e (match l with [] => true | _ => false end) He s st t HA) as W.
    unfold bind in *. unfold wp in *. destruct (lift_c (to_binding_pattern E e) s) as [x s1|e1|q|]; auto.
    destruct (param_of_pattern E _ x s1) as [q s2|e1|q|]; auto.
    destruct W as (t1 & A1 & A2 & A3). specialize (IH s2 st t1 A1). unfold wp in IH.
    destruct (seq_to_arrow_params E l s2) as [qs s3|e1|q'|] eqn:Hq; auto.
    destruct IH as (t2 & B1 & B2 & B3). cbn. exists t2. split; [exact B1|]. split; [constructor; auto|].
    apply only_last_cons; auto. intros Hr. specialize (A3 Hr). destruct l; [|discriminate A3].
    cbn in Hq. injection Hq as <- _. reflexivity.
Qed.
#[local] Hint Resolve seq_to_arrow_params_v : vs.
Definition arg_ok (k : pctx) (p : params) (a : arg_elem) : Prop :=
  gd k p (T_Arg a) /\ cover k p (arg_as_node a).
Lemma arguments_to_params_v k p args : Forall (arg_ok k p) args -> vs k p (arguments_to_params E args) (fun _ ps _ => aparams_post k p ps).
Proof.
  intros H. apply seq_to_arrow_params_v. apply Forall_map. eapply Forall_impl; [|exact H]. cbv beta. intros a [_ Ha]. exact Ha.
Qed.
#[local] Hint Resolve arguments_to_params_v : vs.

(** ** Classes *)
Definition name_post (k : pctx) (p : params) (r : prop_key * bool) : Prop :=
  gd k p (T_Key (fst r)) /\ gd k p (T_Node (key_as_node (fst r))) /\ is_expr (key_as_node (fst r)) = true /\
  snd r = is_PK_Expr (fst r).
Lemma name_id k p i sp : span_ok sp -> name_post k p (PK_Id (mkId i sp), false).
Proof. intros Hs. split; [|split; [|split]]; cbn [fst snd key_as_node id_name id_span]; try reflexivity; vgd; auto. discriminate. Qed.
Lemma name_lit k p v r sp : span_ok sp -> not_punct v -> name_post k p (PK_Lit (mkLit v r sp), false).
Proof. intros Hs Hv. split; [|split; [|split]]; cbn [fst snd key_as_node lit_value lit_raw lit_span]; try reflexivity; vgd; auto. Qed.
Lemma name_expr k p e : gd k p (T_Node e) -> is_expr e = true -> name_post k p (PK_Expr e, true).
Proof. intros Hs Hv. split; [|split; [|split]]; cbn [fst snd key_as_node lit_value lit_raw lit_span]; try reflexivity; auto; vgd; auto. Qed.
Lemma computed_property_name_v k p : vs k p (parse_computed_property_name E h) (fun _ x _ => exists e, x = PK_Expr e /\ gd k p (T_Node e) /\ is_expr e = true).
Proof. vgo parse_computed_property_name. eauto. Qed.
#[local] Hint Resolve computed_property_name_v : vs.
Lemma not_punct_tok s k p st t : At s k p st t -> tok_is t TPunctuator = false -> not_punct (tval t).
Proof. intros H Ht. apply wf_not_punct; [eapply At_wf; eauto|]. intros Hx. apply tok_is_eq in Hx. congruence. Qed.
Lemma lit_tok t : tok_is t TString || tok_is t TNumeric = true -> tok_is t TPunctuator = false.
Proof. unfold tok_is. destruct (ttype t); cbn; congruence. Qed.
Lemma property_name_v k p : vs k p (parse_property_name E h) (fun _ r _ => name_post k p r).
Proof.
  vgo parse_property_name.
  - apply name_id; auto.
  - apply name_lit; auto. eapply not_punct_tok; [eassumption|apply lit_tok; assumption].
  - apply name_expr; auto.
Qed.
Lemma property_key_v k p : vs k p (property_key E h) (fun _ r _ => name_post k p r).
Proof.
  vgo property_key.
  - apply name_id; auto.
  - apply name_lit; auto. eapply not_punct_tok; [eassumption|apply lit_tok; assumption].
  - apply name_expr; auto.
Qed.
#[local] Hint Resolve property_name_v property_key_v : vs.

Definition meth_ok (k : pctx) (p : params) (static : bool) (m : option method_def) : Prop :=
  opt_all (fun x => static = false -> gd k p (T_Meth x)) m.
Lemma fn_node k p y a ps b : params_post k (ya y a p) ps -> gdb k (set_return true (ya y a p)) b ->
  gd k p (T_Fn (FnExpr None ps b y false a)).
Proof.
  intros Hp Hb. vfn. destruct Hp. repeat split; auto. eapply gdb_block; eauto.
Qed.
Lemma nil_post k p : params_post k p [].
Proof. split; [constructor|apply only_last_nil]. Qed.
Lemma fn_node0 k p b : gdb k (set_return true (ya false false p)) b -> gd k p (T_Fn (FnExpr None [] b false false false)).
Proof. intros Hb. apply fn_node; auto using nil_post. Qed.
Lemma meth_node k p key comp f kind : name_post k p (key, comp) -> gd k p (T_Fn f) -> accessor_ok kind f ->
  In kind ["constructor"; "method"; "get"; "set"]%string -> (kind = "constructor"%string -> comp = false) ->
  gd k p (T_Meth (MethodDef (key_as_node key) comp (Some f) kind false)).
Proof.
  intros (A1 & A2 & A3 & A4) Hf Ha Hk Hc. cbn [fst snd] in *. vgd.
  split; [exact A3|]. split.
  { intros ->. destruct key; cbn in *; auto. discriminate A4. }
  split; [exact Hk|]. split; [exact Hc|]. split; [reflexivity|]. eauto.
Qed.
Ltac meth := cbn [meth_ok opt_all]; intros ->; apply meth_node; [assumption|auto using fn_node, fn_node0|..];
  [cbn; intuition congruence|cbn; auto 6|try discriminate].
Lemma class_getter_v x k p : vs k p (class_getter E n h x) (fun _ m _ => meth_ok k p x m).
Proof. vgo class_getter. meth. Qed.
Lemma class_setter_v x k p : vs k p (class_setter E n h x) (fun _ m _ => meth_ok k p x m).
Proof. vgo class_setter. cbn [fst snd] in *. meth. Qed.
Lemma class_async_method_v x k p : vs k p (class_async_method E n h x) (fun _ m _ => meth_ok k p x m).
Proof. vgo class_async_method; cbn [fst snd] in *; meth. Qed.
Lemma class_generator_method_v x k p : vs k p (class_generator_method E n h x) (fun _ m _ => meth_ok k p x m).
Proof. vgo class_generator_method. cbn [fst snd] in *. meth. Qed.
Lemma class_plain_method_v x k p : vs k p (class_plain_method E n h x) (fun _ m _ => meth_ok k p x m).
Proof.
  vgo class_plain_method. cbn [fst snd] in *. cbn [meth_ok opt_all]; intros ->.
  assert (Hk : class_method_kind p0 = "method"%string \/ class_method_kind p0 = "constructor"%string /\ is_PK_Expr p0 = false).
  { destruct p0; cbn; auto; destruct (str_eqb _ _); auto. }
  apply meth_node; [assumption|auto using fn_node, fn_node0|..].
  - destruct Hk as [->|[-> _]]; cbn; intuition congruence.
  - destruct Hk as [->|[-> _]]; cbn; auto.
  - intros Hx. match goal with H : name_post _ _ _ |- _ => destruct H as (_ & _ & _ & H); cbn in H; rewrite H end.
    destruct Hk as [Hk|[_ Hk]]; [rewrite Hk in Hx; discriminate Hx|exact Hk].
Qed.
#[local] Hint Resolve class_getter_v class_setter_v class_async_method_v class_generator_method_v class_plain_method_v : vs.
Lemma not_reserved_static t : token_wf t -> tok_kw t "static" = false.
Proof.
  intros W. destruct (tok_kw t "static") eqn:H; auto. apply tok_kw_eq in H. destruct H as [H1 H2]. unfold token_wf in W.
  rewrite H1 in W. destruct W as (w & Hw & Hr). rewrite H2 in Hw. injection Hw as <-. exfalso.
  destruct Hr as (kw & Hi & Hk). repeat (destruct Hi as [<-|Hi]; [vm_compute in Hk; discriminate Hk|]). exact Hi.
Qed.
Lemma class_element_v k p : vs k p (class_element E n h) (fun _ m _ => opt_all (fun x => gd k p (T_Meth x)) m).
Proof.
  unfold class_element. intros s st t HA. do 2 vstep. vstep; [vwalk; exact I|].
  vstep. rewrite not_reserved_static by (eapply At_wf; eassumption). vwalk.
  all: match goal with H : meth_ok _ _ _ ?m |- _ => unfold meth_ok in H; destruct m; cbn in *; auto end.
Qed.
#[local] Hint Resolve class_element_v : vs.
Lemma cat_some_all A (P : A -> Prop) l : Forall (opt_all P) l -> Forall P (cat_some l).
Proof. induction 1 as [|[x|] l Hx Hl IH]; cbn; auto. Qed.
Lemma class_body_v k p : vs k p (parse_class_body E n h) (fun _ l _ => Forall (fun x => gd k p (T_Meth x)) l).
Proof.
  pose proof (@vs_until L LB _ _ _ _ _ (opt_all (fun v => gd k p (T_Meth v))) (@class_element_v k p) ltac:(cbv beta; intros; assumption) n RBrace) as Hl.
  vgo parse_class_body. apply cat_some_all. assumption.
Qed.
#[local] Hint Resolve class_body_v : vs.
Definition tail_post (k : pctx) (p : params) (id : option node) (a : node) : Prop :=
  exists super body sp, a = ClassDeclaration id super body sp /\ opt_all (fun e => gd k p (T_Node e) /\ is_expr e = true) super /\
    Forall (fun x => gd k p (T_Meth x)) body /\ span_ok sp.
Lemma class_tail_v id k p : vs k p (parse_class_tail E n h id) (fun _ a _ => tail_post k p id a).
Proof. vgo parse_class_tail; unfold tail_post; do 3 eexists; (split; [reflexivity|]); cbn; auto. Qed.
#[local] Hint Resolve class_tail_v : vs.
Lemma binding_id_node_v k p : vs k p (binding_id_node E) (fun _ a _ => gd k p (T_Node a) /\ is_name a = true).
Proof. vgo binding_id_node. split; [|reflexivity]. match goal with H : gd _ _ _ |- _ => recast H end. Qed.
#[local] Hint Resolve binding_id_node_v : vs.
Lemma class_node k p id a : tail_post (ctx_strict true k) p id a -> opt_all (fun e => gd (ctx_strict true k) p (T_Node e) /\ is_name e = true) id ->
  gd k p (T_Node a).
Proof.
  intros (su & body & sp & -> & A1 & A2 & A3) Hid. vgd.
  - destruct id, su; cbn in *; intuition auto.
  - destruct id; cbn in Hid; [apply FC_some|apply FC_none]. destruct Hid. vchild.
  - destruct su; cbn in A1; [apply FC_some|apply FC_none]. destruct A1. vchild.
Qed.
Lemma ctx_strict_back k : ctx_strict (strict k) (ctx_strict true k) = k.
Proof. destruct k; reflexivity. Qed.
Ltac back := match goal with H : At _ (ctx_strict (strict ?k) (ctx_strict true ?k)) _ _ _ |- _ => rewrite ctx_strict_back in H end.
Lemma class_dclr_v k p : vs k p (parse_class_dclr E n h) (fun _ a _ => gd k p (T_Node a) /\ is_declaration a && is_expr a = true).
Proof.
  vgo parse_class_dclr. back. vret. split.
  - eapply class_node; [eassumption|]. cbn. auto.
  - match goal with H : tail_post _ _ _ _ |- _ => destruct H as (? & ? & ? & -> & _) end. reflexivity.
Qed.
Lemma class_expr_v k p : vs k p (parse_class_expr E n h) (er 15 k p).
Proof.
  vgo parse_class_expr.
  all: back; vret; constructor; [eapply class_node; [eassumption|cbn; auto]|..];
    match goal with H : tail_post _ _ _ _ |- _ => destruct H as (? & ? & ? & -> & _) end; try reflexivity; try exact I; cbn; lia.
Qed.
#[local] Hint Resolve class_dclr_v class_expr_v : vs.

(** ** Primary expressions *)
Lemma template_piece_v k p : vs k p (template_piece E) (fun _ _ _ => True).
Proof. vgo template_piece; exact I. Qed.
#[local] Hint Resolve template_piece_v : vs.
Lemma template_head_v k p : vs k p (parse_template_head E) (fun _ _ _ => True).
Proof. vgo parse_template_head; exact I. Qed.
Lemma template_element_v k p : vs k p (parse_template_element E) (fun _ _ _ => True).
Proof. vgo parse_template_element; exact I. Qed.
#[local] Hint Resolve template_head_v template_element_v : vs.
Definition tpl_post (k : pctx) (p : params) (b : bool) (r : list template_element * list node) : Prop :=
  (forall q0, te_tail q0 = b -> template_shape (q0 :: fst r) (snd r)) /\ Forall (fun x => gd k p (T_Node x)) (snd r) /\ Forall (fun x => is_expr x = true) (snd r).
Lemma template_rest_v k p j : forall b, vs k p (template_rest E h j b) (fun _ r _ => tpl_post k p b r).
Proof.
  induction j as [|j IH]; intros b s st t HA; [exact I|]. cbn [template_rest]. destruct b.
  - vstep. vret. split; [|split; constructor]. intros q Hq. split; [reflexivity|]. exists [], q. auto.
  - do 4 vstep. vstep. eapply wp_conseq; [eapply use_vs; [eassumption|apply IH]|]. cbv beta. intros [qs es] s2 (t2 & A1 & A2 & A3 & A4). cbn [fst snd] in *.
    vstep. vret. unfold tpl_post; cbn [fst snd]. split; [|auto].
    intros q0 Hq. destruct (A2 _ eq_refl) as [B1 (pre & q & B2 & B3 & B4)]. split; [cbn in *; congruence|].
    exists (q0 :: pre), q. rewrite B2. auto.
Qed.
#[local] Hint Resolve template_rest_v : vs.
Definition tplit_post (k : pctx) (p : params) (r : list template_element * list node * span) : Prop :=
  template_shape (fst (fst r)) (snd (fst r)) /\ Forall (fun x => gd k p (T_Node x)) (snd (fst r)) /\ Forall (fun x => is_expr x = true) (snd (fst r)) /\ span_ok (snd r).
Lemma template_literal_v k p : vs k p (template_literal E n h) (fun _ r _ => tplit_post k p r).
Proof.
  vgo template_literal. match goal with H : tpl_post _ _ _ _ |- _ => destruct H as (B1 & B2 & B3) end.
  split; [apply B1; reflexivity|]. auto.
Qed.
#[local] Hint Resolve template_literal_v : vs.
Lemma parse_template_literal_v k p : vs k p (parse_template_literal E n h) (er 15 k p).
Proof.
  vgo parse_template_literal. match goal with H : tplit_post _ _ _ |- _ => destruct H as (B1 & B2 & B3 & B4) end; cbn [fst snd] in *.
  ver. auto.
Qed.
Lemma tagged_template_v e k p : gd k p (T_Node e) -> is_expr e = true -> vs k p (tagged_template E n h e) (fun _ a _ => ERA 15 k p a).
Proof.
  intros He Hx. vgo tagged_template. match goal with H : tplit_post _ _ _ |- _ => destruct H as (B1 & B2 & B3 & B4) end; cbn [fst snd] in *.
  intros t0. ver. auto.
Qed.
#[local] Hint Resolve parse_template_literal_v tagged_template_v : vs.
Lemma array_lit_element_v k p : vs k p (array_lit_element E h) (fun _ x _ => opt_all (fun y => gd k p (T_Elem y)) x).
Proof. vgo array_lit_element; cbn [opt_all]; try exact I; vgd; auto. Qed.
#[local] Hint Resolve array_lit_element_v : vs.
Lemma array_lit_v k p : vs k p (parse_array_lit_expr E n h) (er 15 k p).
Proof.
  pose proof (@vs_until L LB _ _ _ _ _ (opt_all (fun v => gd k p (T_Elem v))) (@array_lit_element_v k p) ltac:(cbv beta; intros; assumption) n RBracket) as Hl.
  vgo parse_array_lit_expr. ver. reflexivity.
Qed.
#[local] Hint Resolve array_lit_v : vs.
Lemma prop_node k p key v kind m sh sp : gd k p (T_Key key) -> opt_all (fun x => gd k p (T_Val x)) v -> span_ok sp ->
  In kind ["init"; "get"; "set"]%string -> object_value_ok kind m sh v ->
  gd k p (T_Prop (OE_Prop key (is_PK_Expr key) v kind m sh sp)).
Proof. intros Hk Hv Hs Hi Ho. vgd; auto. destruct v; cbn in Hv; [apply FC_some; vchild|apply FC_none]. Qed.
Lemma val_fn k p f : gd k p (T_Fn f) -> gd k p (T_Val (PV_Fn f)).
Proof. intros Hf. vgd. exact I. Qed.
Lemma val_expr k p f : gd k p (T_Node f) -> gd k p (T_Val (PV_Expr f)).
Proof. intros Hf. vgd. exact I. Qed.
Lemma val_async k p y ps b : params_post k (ya y true p) ps -> gdb k (set_return true (ya y true p)) b ->
  gd k p (T_Val (PV_AsyncFn None ps b y false true)).
Proof. intros Hp Hb. vfn. destruct Hp. repeat split; auto. eapply gdb_block; eauto. Qed.
Definition kind_ok (kind : string) (a g : bool) : Prop :=
  In kind ["init"; "get"; "set"]%string /\ (kind <> "init"%string -> a = false /\ g = false).
Lemma kind_ok_init a g : kind_ok "init" a g.
Proof. split; [cbn; auto|congruence]. Qed.
Lemma method_definition_v key kind a g c k p : gd k p (T_Key key) -> c = is_PK_Expr key -> kind_ok kind a g ->
  vs k p (parse_method_definition E n h key kind a g c) (fun _ x _ => gd k p (T_Prop x)).
Proof.
  intros Hk -> [Hi Hg]. vgo parse_method_definition; cbn [fst snd] in *;
    match goal with H : String.eqb _ _ = true |- _ => apply String.eqb_eq in H; subst kind end.
  - destruct (Hg ltac:(discriminate)) as [-> ->]. apply prop_node; auto; cbn [opt_all].
    + apply val_fn, fn_node0. assumption.
    + cbn. intuition congruence.
  - destruct (Hg ltac:(discriminate)) as [-> ->]. apply prop_node; auto; cbn [opt_all].
    + apply val_fn, fn_node; assumption.
    + cbn. intuition congruence.
  - apply prop_node; auto; cbn [opt_all].
    + destruct a; [apply val_async|apply val_fn, fn_node]; assumption.
    + destruct a; cbn; intuition congruence.
Qed.
#[local] Hint Resolve method_definition_v kind_ok_init : vs.
Definition mod_post (k : pctx) (p : params) (m : modifiers) : Prop :=
  match m with Done x => gd k p (T_Prop x) | More kind a g => kind_ok kind a g end.
Lemma key_id k p i sp : span_ok sp -> gd k p (T_Key (PK_Id (mkId i sp))).
Proof. intros Hs. vgd. exact I. Qed.
#[local] Hint Resolve key_id : vs.
#[local] Hint Extern 1 (false = is_PK_Expr (PK_Id _)) => reflexivity : vs.
Lemma accessor_modifier_v w k p : w = "get"%string \/ w = "set"%string -> vs k p (accessor_modifier E n h w) (fun _ m _ => mod_post k p m).
Proof.
  intros Hw. vgo accessor_modifier; cbn [mod_post]; auto using kind_ok_init.
  destruct Hw as [-> | ->]; split; cbn; auto.
Qed.
Lemma async_modifier_v k p : vs k p (async_modifier E n h) (fun _ m _ => mod_post k p m).
Proof. vgo async_modifier; cbn [mod_post]; auto using kind_ok_init. Qed.
#[local] Hint Resolve async_modifier_v : vs.
Lemma method_definition_v' key g c k p : name_post k p (key, c) ->
  vs k p (parse_method_definition E n h key "init" false g c) (fun _ x _ => gd k p (T_Prop x)).
Proof. intros (A1 & _ & _ & A4). apply method_definition_v; auto using kind_ok_init. Qed.
#[local] Hint Resolve method_definition_v' : vs.
Lemma property_modifiers_v k p : vs k p (property_modifiers E n h) (fun _ m _ => mod_post k p m).
Proof.
  pose proof (@accessor_modifier_v "get" k p (or_introl eq_refl)). pose proof (@accessor_modifier_v "set" k p (or_intror eq_refl)).
  vgo property_modifiers; cbn [mod_post]; auto using kind_ok_init.
Qed.
#[local] Hint Resolve property_modifiers_v : vs.
Lemma object_property_v k p : vs k p (object_property E n h) (fun _ x _ => gd k p (T_Prop x)).
Proof.
  unfold object_property. intros s st t HA. do 4 vstep. vstep; [vwalk; vgd; auto|].
  do 2 vstep. vstep; [vwalk; assumption|]. do 2 vstep. vstep.
  match goal with H : name_post _ _ _ |- _ => destruct H as (B1 & _ & _ & B2); cbn [fst snd] in *; subst end.
  match goal with H : mod_post _ _ _ |- _ => cbn in H end.
  match goal with H : kind_ok _ _ _ |- _ => pose proof H as [B3 _] end.
  vwalk; auto; apply prop_node; auto; cbn; auto using val_expr.
Qed.
Lemma object_lit_v k p : vs k p (parse_object_lit_expr E n h) (er 15 k p).
Proof.
  pose proof (@vs_until L LB _ _ _ _ _ (fun v => gd k p (T_Prop v)) (@object_property_v k p) ltac:(cbv beta; intros; assumption) n RBrace) as Hl.
  vgo parse_object_lit_expr. ver. reflexivity.
Qed.
#[local] Hint Resolve object_lit_v : vs.
Lemma argument_v k p : vs k p (argument E h) (fun _ x _ => arg_ok k p x).
Proof.
  vgo argument.
  - split; [vgd; auto|]. right. right. cbn. eauto 8.
  - split; [vgd; auto|]. left. auto.
Qed.
Lemma arguments_v k p : vs k p (parse_arguments E n h) (fun _ l _ => Forall (arg_ok k p) l).
Proof.
  pose proof (@vs_until L LB _ _ _ _ _ (arg_ok k p) (@argument_v k p) ltac:(cbv beta; intros; assumption) n RParen) as Hl.
  vgo parse_arguments. assumption.
Qed.
#[local] Hint Resolve arguments_v : vs.
Definition seq_post (k : pctx) (p : params) (r : node * bool) : Prop :=
  cover k p (fst r) /\ (snd r = false -> gd k p (T_Node (fst r)) /\ is_expr (fst r) = true).
Lemma seq_element_v k p : vs k p (seq_element E n h) (fun _ r _ => seq_post k p r).
Proof.
  vgo seq_element; unfold seq_post; cbn [fst snd].
  - split; [|discriminate]. right. left. eauto.
  - split; [left; auto|auto].
  - split; [left; auto|auto].
Qed.
Lemma seq_to_arrow_v l k p : Forall (cover k p) l -> vs k p (seq_to_arrow E n h l) (fun _ a _ => ERA 15 k p a).
Proof.
  intros Hl. vgo seq_to_arrow. intros t0. constructor; [|reflexivity|cbn [level]; intro; discriminate|exact I]. apply arrow_node_v; auto.
Qed.
#[local] Hint Resolve seq_to_arrow_v : vs.
Ltac era := match goal with H : ERA _ _ _ _ |- _ => apply H end.
Lemma seq_or_arrow_v k p : vs k p (parse_seq_or_arrow E n h) (er 15 k p).
Proof.
  pose proof (@vs_until_rest L LB _ _ _ _ _ (seq_post k p) (@seq_element_v k p) ltac:(cbv beta; intros; assumption) (fun _ => false) n RParen ltac:(cbv beta; intros; discriminate)) as Hl.
  unfold parse_seq_or_arrow. intros s st t HA. do 10 vstep.
  match goal with H : Forall (seq_post k p) ?l |- _ => rename H into HF; rename l into items end.
  assert (Hcov : Forall (cover k p) (map fst items)) by (apply Forall_map; eapply Forall_impl; [|exact HF]; cbv beta; intros ? [Hx _]; exact Hx).
  match goal with |- context[existsb snd ?l] => destruct (existsb snd l) eqn:Hex end; cbn [orb].
  - vwalk. era.
  - assert (Hplain : Forall (fun x => gd k p (T_Node x) /\ is_expr x = true) (map fst items)).
    { apply Forall_map. rewrite Forall_forall in HF. rewrite Forall_forall. intros y Hy. apply HF; auto.
      destruct (snd y) eqn:Hsx; auto. assert (existsb snd items = true) by (apply existsb_exists; eauto). congruence. }
    vstep; [vwalk; era|]. vwalk.
    assert (Hg : Forall (fun x => gd k p (T_Node x)) (map fst items)) by (eapply Forall_impl; [|exact Hplain]; cbv beta; intros ? [Hx _]; exact Hx).
    ver. split; [eapply Forall_impl; [|exact Hplain]; cbv beta; intros ? [_ Hx]; exact Hx|].
    destruct (map fst items) as [|e [|]]; try discriminate. eauto.
Qed.
#[local] Hint Resolve seq_or_arrow_v : vs.
Lemma args_children k p args c a : Forall (arg_ok k p) args -> at_ctx L LB (down c a Other) k p -> FC c a (on Other T_Arg args).
Proof.
  intros H Hc. apply FC_on. eapply Forall_impl; [|exact H]. cbv beta. intros x [Hx _]. apply Hx. exact Hc.
Qed.
Lemma call_node k p f args sp : gd k p (T_Node f) -> callable f -> Forall (arg_ok k p) args -> span_ok sp ->
  gd k p (T_Node (CallExpression f args AInvalid sp)).
Proof.
  intros Hf Hc Ha Hs c Hx. apply valid_mk; [split; [spans|cbn; auto]|]. cbn [children]. apply FC_app; [fc|].
  eapply args_children; [exact Ha|mv].
Qed.
Lemma new_node k p f args sp : gd k p (T_Node f) -> is_expr f = true -> Forall (arg_ok k p) args -> span_ok sp ->
  gd k p (T_Node (NewExpression f args AInvalid sp)).
Proof.
  intros Hf Hc Ha Hs c Hx. apply valid_mk; [split; [spans|cbn; auto]|]. cbn [children]. apply FC_app; [fc|].
  eapply args_children; [exact Ha|mv].
Qed.
Lemma async_call_or_arrow_v e k p : gd k p (T_Node e) -> is_expr e = true -> vs k p (parse_async_call_or_arrow E n h e) (fun _ a _ => ERA 15 k p a).
Proof.
  intros He Hx. vgo parse_async_call_or_arrow.
  - intros t0. constructor; [|reflexivity|cbn [level]; intro; discriminate|exact I]. apply async_arrow_node_v; auto.
  - intros t0. constructor; [|reflexivity|cbn [level]; intro; discriminate|exact I]. apply call_node; auto. left; auto.
Qed.
#[local] Hint Resolve async_call_or_arrow_v : vs.
Lemma async_primary_v k p : vs k p (parse_async_primary_expr E n h) (er 15 k p).
Proof.
  vgo parse_async_primary_expr; try (constructor; assumption); try era.
  constructor; [apply async_arrow_node_v; auto using single_post|reflexivity|cbn [level]; intro; discriminate|exact I].
Qed.
#[local] Hint Resolve async_primary_v : vs.
Lemma lit_token t : token_wf t -> tok_is t TNumeric || tok_is t TString || tok_is t TBoolean || tok_is t TNull = true ->
  not_punct (tval t) /\ forall r a sp, litfirst t (NLiteral (tval t) r a sp).
Proof.
  unfold token_wf, tok_is. intros W. destruct (ttype t) eqn:Ht; cbn; try discriminate; intros _.
  1: destruct W as [-> | ->]; cbn; auto.
  1: rewrite W; cbn; auto.
  1: destruct W as [x ->]; cbn; auto.
  destruct W as [x ->]; cbn; auto.
Qed.
Lemma primary_v k p : vs k p (parse_primary_expr E n h) (er 15 k p).
Proof.
  vgo parse_primary_expr; try era; try (constructor; assumption).
  - ver. reflexivity.
  - destruct (lit_token _ (At_wf HA) Heqb4) as [B1 B2].
    constructor; [vgd; auto|reflexivity|intro; discriminate|apply B2].
  - ver. reflexivity.
Qed.
#[local] Hint Resolve primary_v : vs.

(** ** Member, call, new *)
Lemma computed_member_v o k p : gd k p (T_Node o) -> callable o -> vs k p (parse_computed_member_expr E h o) (fun _ a _ => ERA 15 k p a).
Proof. intros Ho Hc. vgo parse_computed_member_expr. intros t0. ver. auto. Qed.
Lemma gd_name k p i sp : span_ok sp -> gd k p (T_Node (Identifier i AInvalid sp)).
Proof. intros Hs. vgd. discriminate. Qed.
Lemma static_member_v o k p : gd k p (T_Node o) -> callable o -> vs k p (parse_static_member_expr E o) (fun _ a _ => ERA 15 k p a).
Proof.
  intros Ho Hc. vgo parse_static_member_expr. intros t0.
  match goal with |- context[Identifier ?i AInvalid ?sp] => pose proof (@gd_name k p i sp ltac:(assumption)) end.
  ver. auto.
Qed.
Lemma super_v k p : vs k p (parse_super E) (fun _ a _ => gd k p (T_Node a) /\ is_super a = true).
Proof. vgo parse_super. split; [vgd; exact I|reflexivity]. Qed.
Lemma callable_expr e : is_expr e = true -> callable e.
Proof. left; auto. Qed.
Lemma callable_super e : is_super e = true -> callable e.
Proof. right; auto. Qed.
#[local] Hint Resolve computed_member_v static_member_v super_v callable_expr callable_super : vs.
Lemma member_tail_v k p t0 j : forall e, ER 15 k p t0 e -> vs k p (member_tail E n h j e) (fun _ a _ => ER 15 k p t0 a).
Proof.
  induction j as [|j IH]; intros e He; intros s st t HA; [exact I|]. cbn [member_tail].
  pose proof He as [B1 B2 B3 B4].
  do 2 vstep.
  vstep; [|vstep; [|vstep]].
  1-3: vstep; vstep; eapply IH; [era|eassumption].
  vwalk. constructor; assumption.
Qed.
Lemma call_tail_v k p t0 j : forall e, ER 15 k p t0 e -> vs k p (call_tail E n h j e) (fun _ a _ => ER 15 k p t0 a).
Proof.
  induction j as [|j IH]; intros e He; intros s st t HA; [exact I|]. cbn [call_tail].
  pose proof He as [B1 B2 B3 B4].
  do 2 vstep.
  vstep; [|vstep; [|vstep; [|vstep]]].
  - do 4 vstep. eapply IH; [|eassumption]. constructor; [|reflexivity|intro; discriminate|exact I].
    apply call_node; auto using callable_expr.
  - vstep; vstep; eapply IH; [era|eassumption].
  - vstep; vstep; eapply IH; [era|eassumption].
  - vstep; vstep; eapply IH; [era|eassumption].
  - vwalk. constructor; assumption.
Qed.
Lemma member_tail_v' k p t0 j e : gd k p (T_Node e) -> is_expr e = true -> 15 <= level e -> litfirst t0 e ->
  vs k p (member_tail E n h j e) (fun _ a _ => ER 15 k p t0 a).
Proof. intros. apply member_tail_v. constructor; auto. Qed.
Lemma call_tail_v' k p t0 j e : gd k p (T_Node e) -> is_expr e = true -> 15 <= level e -> litfirst t0 e ->
  vs k p (call_tail E n h j e) (fun _ a _ => ER 15 k p t0 a).
Proof. intros. apply call_tail_v. constructor; auto. Qed.
Lemma member_v k p : vs k p (parse_member_expr E n h) (er 15 k p).
Proof.
  unfold parse_member_expr. intros s st t HA. do 3 vstep. eapply wp_conseq with (P := fun a s' => exists t', At s' k p st t' /\ ER 15 k p t a).
  { vwalk; try era. constructor; assumption. }
  cbv beta. intros a s' (t' & HA' & He). eapply member_tail_v; eassumption.
Qed.
#[local] Hint Resolve member_v : vs.
Lemma new_target t1 t2 w1 w2 k p sp sp' sp2 : tok_kw t1 "new" = true -> v_string (tval t1) = Some w1 -> tok_id t2 "target" = true -> v_string (tval t2) = Some w2 ->
  span_ok sp -> span_ok sp' -> span_ok sp2 ->
  gd k p (T_Node (MetaProperty (Identifier w1 AInvalid sp) (Identifier w2 AInvalid sp') AInvalid sp2)).
Proof.
  intros H1 H2 H3 H4 S1 S2 S3. apply tok_kw_eq in H1. apply tok_id_eq in H3. destruct H1 as [_ H1], H3 as [_ H3].
  rewrite H1 in H2. rewrite H3 in H4. injection H2 as <-. injection H4 as <-.
  pose proof (@gd_name k p (s2l "new") sp S1). pose proof (@gd_name k p (s2l "target") sp' S2). vgd. eauto.
Qed.
Lemma new_v k p : vs k p (parse_new_expr E n h) (er 15 k p).
Proof.
  unfold parse_new_expr. intros s st t HA. do 8 vstep.
  vstep; [|vstep].
  - vwalk. constructor; [eapply new_target; eassumption|reflexivity|intro; discriminate|exact I].
  - vwalk. constructor; [apply new_node; auto|reflexivity|intro; discriminate|exact I].
  - vwalk; (eapply call_tail_v; [|eassumption]); (constructor; [apply new_node; auto|reflexivity|intro; discriminate|exact I]).
Qed.
Lemma call_v k p : vs k p (parse_call_expr E n h) (er 15 k p).
Proof.
  unfold parse_call_expr. intros s st t HA. do 5 vstep. eapply wp_conseq with (P := fun a s' => exists t', At s' k p st t' /\ ER 15 k p t a).
  { vwalk; try era; try (constructor; assumption).
    constructor; [|reflexivity|intro; discriminate|exact I]. apply call_node; auto using callable_super. }
  cbv beta. intros b s'' (t' & HA' & He). eapply call_tail_v; eassumption.
Qed.
#[local] Hint Resolve new_v call_v : vs.
Lemma lhs_v k p : vs k p (parse_left_hand_side_expr E n h) (er 15 k p).
Proof. vgo parse_left_hand_side_expr; constructor; assumption. Qed.
#[local] Hint Resolve lhs_v : vs.

(** ** Operators *)
Lemma er_le lv lv' k p t a : ER lv k p t a -> lv' <= lv -> ER lv' k p t a.
Proof. intros [A B C D] H. constructor; auto. eapply N.le_trans; eauto. Qed.
Lemma assignable_simple e : not_assignable e = false -> assign_target_type e = ASimple.
Proof. unfold not_assignable. intros H. apply att_eqb_eq. destruct (att_eqb _ _); [reflexivity|discriminate H]. Qed.
Lemma update_name t w : is_update_op t = true -> t_to_string t = Some w -> one_of w update_operators.
Proof.
  unfold is_update_op, t_to_string. destruct (tval t); try discriminate. destruct p; try discriminate; intros _ [= <-];
    [exists "++"%string|exists "--"%string]; split; try reflexivity; cbn; auto.
Qed.
Lemma update_node k p o e b sp : one_of o update_operators -> gd k p (T_Node e) -> is_expr e = true -> not_assignable e = false -> span_ok sp ->
  gd k p (T_Node (UpdateExpression o e b AInvalid sp)).
Proof.
  intros Ho He Hx Ha Hs. vgd. split; [exact Ho|]. split; [|reflexivity].
  apply (@valid_target e (down c (T_Node (UpdateExpression o e b AInvalid sp)) Other)); auto using assignable_simple. apply He. mv.
Qed.
Lemma update_v k p : vs k p (parse_update_expr E n h) (er 14 k p).
Proof.
  vgo parse_update_expr; cbn [er].
  - constructor; [apply update_node; eauto using update_name|reflexivity|intro; discriminate|exact I].
  - constructor; [apply update_node; eauto using update_name|reflexivity|intro; discriminate|exact I].
    match goal with H : _ && _ = true |- _ => apply andb_prop in H; destruct H end. eauto using update_name.
  - constructor; auto. eapply N.le_trans; [|eassumption]. intro; discriminate.
Qed.
#[local] Hint Resolve update_v : vs.
Lemma unary_word w a : str_eqb w (s2l "delete") || str_eqb w (s2l "void") || str_eqb w (s2l "typeof") || (str_eqb w (s2l "await") && a) = true ->
  one_of w unary_operators /\ (w = s2l "await" -> a = true).
Proof.
  intros H. apply Bool.orb_prop in H. destruct H as [H|H].
  - repeat (apply Bool.orb_prop in H; destruct H as [H|H]); apply str_eqb_eq in H; subst w;
      (split; [|intros Hx; vm_compute in Hx; discriminate Hx]); eexists; (split; [|reflexivity]); cbn; auto 10.
  - apply andb_prop in H. destruct H as [H ->]. apply str_eqb_eq in H. subst w. split; [|reflexivity]. exists "await"%string. split; [cbn; auto 10|reflexivity].
Qed.
Lemma unary_punct p w a : match p with Plus | Minus | Tilde | Bang => true | _ => false end = true -> p_to_string p = w ->
  one_of w unary_operators /\ (w = s2l "await" -> a = true).
Proof.
  intros H <-. destruct p; try discriminate H; (split; [|intros Hx; vm_compute in Hx; discriminate Hx]); eexists; (split; [|reflexivity]); cbn; auto 10.
Qed.
Lemma unary_name a t w : token_wf t -> is_unary_op a t = Some true -> t_to_string t = Some w -> one_of w unary_operators /\ (w = s2l "await" -> a = true).
Proof.
  unfold is_unary_op, t_to_string. intros W.
  destruct (tval t) eqn:Hv.
  all: try (destruct (ttype t); discriminate).
  - destruct (ttype t); try discriminate. unfold t_to_str. rewrite Hv. intros H [= <-]. apply unary_word.
    injection H as H. exact H.
  - rewrite (@wf_punct t p W Hv). intros H H2. eapply unary_punct; [|injection H2 as H2; exact H2]. apply (f_equal (fun o => match o with Some b => b | None => false end)) in H. exact H.
Qed.
Lemma cur_unary_v k p : vs k p cur_unary_op (fun t b t' => t' = t /\ is_unary_op (has_await p) t = Some b).
Proof. vgo cur_unary_op. auto. Qed.
#[local] Hint Resolve cur_unary_v : vs.
Lemma unary_node k p t o e sp : token_wf t -> is_unary_op (has_await p) t = Some true -> t_to_string t = Some o ->
  gd k p (T_Node e) -> is_expr e = true -> 13 <= level e -> span_ok sp -> gd k p (T_Node (UnaryExpression o e true AInvalid sp)).
Proof.
  intros W Hu Ho He Hx Hl Hs. destruct (@unary_name _ t o W Hu Ho) as [B1 B2]. vgd. split; [exact B1|].
  split; [intros Hw; exact (ac_await Hc (B2 Hw))|]. auto.
Qed.
Lemma unary_v k p : vs k p (parse_unary_expr E n h) (er 13 k p).
Proof.
  unfold parse_unary_expr. intros s st t HA. do 3 vstep.
  eapply wp_conseq with (P := fun u s' => At s' k p st t /\ (u = true -> is_unary_op (has_await p) t = Some true)).
  { vwalk; try (split; [assumption|congruence]). }
  cbv beta. intros u s1 [HA1 Hu]. destruct u.
  - vwalk. constructor; [|reflexivity|intro; discriminate|exact I]. eapply unary_node; eauto. eapply At_wf; eassumption.
  - vwalk. eapply er_le; [constructor; eassumption|intro; discriminate].
Qed.
#[local] Hint Resolve unary_v : vs.
Lemma exponentiation_v k p : vs k p (parse_exponentiation_expr E n h) (er 12 k p).
Proof.
  unfold parse_exponentiation_expr. intros s st t HA. do 3 vstep.
  - vwalk. eapply er_le; [constructor; eassumption|intro; discriminate].
  - vwalk.
    + match goal with H : tval ?x = VPunc Pow, H' : t_to_string ?x = Some _ |- _ => unfold t_to_string in H'; rewrite H in H'; injection H' as <- end.
      ver. split; [split; [reflexivity|]; split; assumption|auto].
    + eapply er_le; [constructor; eassumption|intro; discriminate].
Qed.
#[local] Hint Resolve exponentiation_v : vs.
Lemma binop_level t hi : token_wf t -> is_bin_op t = true -> 1 <= precedence hi t ->
  exists w, t_to_string t = Some w /\ lookup w operator_levels = Some (precedence hi t).
Proof.
  unfold is_bin_op, precedence, t_to_string. intros W. destruct (ttype t) eqn:Ht; try discriminate.
  - intros H. apply Bool.orb_prop in H. destruct H as [H|H]; rewrite matches_str_eq in H.
    + unfold matches_str. rewrite H. cbn -[lookup operator_levels s2l]. destruct hi; [|intros Hx; exfalso; apply Hx; reflexivity].
      intros _. eexists. split; [reflexivity|]. vm_compute. reflexivity.
    + unfold matches_str. rewrite H. intros _. eexists. split; [reflexivity|]. vm_compute. reflexivity.
  - destruct (tval t); try discriminate. destruct p; try discriminate; intros _ _; eexists; (split; [reflexivity|vm_compute; reflexivity]).
Qed.
Lemma precedence_11 hi t : precedence hi t <= 11.
Proof.
  unfold precedence. destruct (ttype t); try (intro; discriminate).
  - destruct (matches_str _ _); [intro; discriminate|]. destruct (_ && _); intro; discriminate.
  - destruct (tval t); try (intro; discriminate). destruct p; intro; discriminate.
Qed.
Lemma lookup_levels w v : lookup w operator_levels = Some v -> forall l r a sp, level (BinaryExpression w l r a sp) = v.
Proof. intros H l r a sp. cbn [level]. rewrite H. reflexivity. Qed.
Notation pr p t := (precedence (has_in p) t).
Lemma climb_inner_v op k p j : forall s st t t0 rhs, At s k p st t -> gd k p (T_Node rhs) -> is_expr rhs = true -> litfirst t0 rhs -> pr p op < level rhs ->
  (is_bin_op t = true -> pr p op < pr p t -> pr p t <= level rhs) ->
  wp XV (climb_inner h j op rhs) (fun a s' => exists t', At s' k p st t' /\ gd k p (T_Node a) /\ is_expr a = true /\ pr p op < level a /\
     (is_bin_op t' = true -> pr p t' <= pr p op)) s.
Proof.
  induction j as [|j IH]; intros s st t t0 rhs HA B1 B2 B0 B3 B4; [exact I|]. cbn [climb_inner]. do 4 vstep. vstep.
  - apply andb_prop in Heqb. destruct Heqb as [C1 C2]. apply N.ltb_lt in C2. vstep.
    eapply wp_conseq; [eapply (hV_climb HV) with (t0 := t0); [exact HA|lia|constructor; auto|auto]|].
    cbv beta. intros a s' (t' & HA' & [D1 D2 D3 D4] & D5). eapply IH; try eassumption; [lia|]. intros Hb _. specialize (D5 Hb). lia.
  - vstep. exists t. split; [exact HA|]. split; [exact B1|]. split; [exact B2|]. split; [exact B3|].
    intros Hb. rewrite Hb in Heqb. apply N.ltb_ge in Heqb. exact Heqb.
Qed.
Lemma binary_node k p t o l r sp : token_wf t -> is_bin_op t = true -> 1 <= pr p t -> t_to_string t = Some o ->
  gd k p (T_Node l) -> is_expr l = true -> gd k p (T_Node r) -> is_expr r = true -> pr p t <= level l -> pr p t < level r -> span_ok sp ->
  gd k p (T_Node (BinaryExpression o l r AInvalid sp)) /\ level (BinaryExpression o l r AInvalid sp) = pr p t.
Proof.
  intros W Hb H1 Ho Hl1 Hl2 Hr1 Hr2 L1 L2 Hs. destruct (@binop_level t (has_in p) W Hb H1) as (w & Hw & Hk).
  rewrite Ho in Hw. injection Hw as <-. split; [|apply lookup_levels; exact Hk].
  vgd. split; [unfold operands_ok; rewrite Hk; auto|auto].
Qed.
Lemma climb_v k p j : forall s st t t0 lhs prec, At s k p st t -> 1 <= prec -> ER prec k p t0 lhs ->
  (is_bin_op t = true -> prec <= pr p t -> pr p t <= level lhs) ->
  wp XV (climb E n h j lhs prec) (fun a s' => exists t', At s' k p st t' /\ ER prec k p t0 a /\
      (is_bin_op t' = true -> pr p t' < prec)) s.
Proof.
  induction j as [|j IH]; intros s st t t0 lhs prec HA Hp [E1 E2 E3 E4] B; [exact I|]. cbn [climb]. do 4 vstep. vstep.
  - apply andb_prop in Heqb. destruct Heqb as [C1 C2]. apply N.leb_le in C2. specialize (B C1 C2).
    do 5 vstep.
    pose proof (precedence_11 (has_in p) t) as P11.
    match goal with H : 12 <= level _ |- _ => rename H into H12 end.
    eapply wp_conseq.
    { eapply climb_inner_v; try eassumption; [lia|]. intros _ _. match goal with |- precedence ?a ?b <= _ => pose proof (precedence_11 a b) end. lia. }
    cbv beta. intros r s3 (t3 & HA3 & D1 & D2 & D3 & D4). do 6 vstep.
    match goal with |- context[BinaryExpression ?o ?l ?r _ ?sp] => destruct (@binary_node k p t o l r sp) as [F1 F2] end; try assumption; [eapply At_wf; exact HA|lia|].
    eapply IH; try eassumption.
    + constructor; [exact F1|reflexivity|rewrite F2; lia|exact I].
    + intros Hb _. rewrite F2. auto.
  - do 3 vstep. exists t. split; [eassumption|]. split; [constructor; auto|]. intros Hb. rewrite Hb in Heqb. apply N.leb_gt in Heqb. exact Heqb.
Qed.
Lemma climbing_v k p lhs prec t0 s st t : At s k p st t -> 1 <= prec -> ER prec k p t0 lhs ->
    (is_bin_op t = true -> prec <= pr p t -> pr p t <= level lhs) ->
    wp XV (precedence_climbing E n h lhs prec) (fun a s' => exists t', At s' k p st t' /\ ER prec k p t0 a /\
      (is_bin_op t' = true -> pr p t' < prec)) s.
Proof. intros. eapply climb_v; eassumption. Qed.
Lemma binary_v k p : vs k p (parse_binary_expr E n h) (fun t a t' => ER 1 k p t a /\ (is_bin_op t' = true -> pr p t' < 1)).
Proof.
  unfold parse_binary_expr. intros s st t HA. do 4 vstep. eapply climbing_v; [eassumption|lia|constructor; try eassumption; lia|].
  intros _ _. match goal with |- precedence ?a ?b <= _ => pose proof (precedence_11 a b) end. lia.
Qed.
#[local] Hint Resolve binary_v : vs.
Lemma conditional_v k p : vs k p (parse_conditional_expr E n h) (fun t a t' => ER 0 k p t a /\ (assign_target_type a = ASimple -> tval t' <> VPunc Equal)).
Proof.
  vgo parse_conditional_expr.
  - split; [ver; auto|discriminate].
  - split; [constructor; auto; intro Hx; destruct (level _) in Hx; discriminate Hx|].
    intros _ Hv. match goal with H : is_bin_op ?x = true -> _ |- _ => rename H into Hb; assert (Ht : ttype x = TPunctuator) by (eapply wf_punct; [eapply At_wf; eassumption|eassumption]) end.
    unfold is_bin_op, precedence in Hb. rewrite Ht, Hv in Hb. specialize (Hb eq_refl). discriminate Hb.
Qed.
#[local] Hint Resolve conditional_v : vs.
#[local] Hint Resolve single_param_v : vs.
Lemma gd_yield k p a : has_yield p = true -> gd k (set_yield true p) a -> gd k p a.
Proof. intros Hy H c Hc. apply H. destruct Hc. constructor; auto. Qed.
Lemma yield_v k p : has_yield p = true -> vs k p (parse_yield_expr E n h) (er 0 k p).
Proof.
  intros Hy. assert (Ha : vs k p (with_prm (set_yield true) (h_assign h)) (fun _ a _ => gd k p (T_Node a) /\ is_expr a = true)).
  { apply vs_with_prm. eapply vs_weaken; [apply (hV_assign HV)|]. cbv beta. intros t a t' [A1 A2 A3 A4]. split; [apply gd_yield; auto|auto]. }
  vgo parse_yield_expr.
  - ver. split; [exact (ac_yield Hc Hy)|]. cbn. split; [assumption|]. split; [discriminate|reflexivity].
  - eapply er_le; [era|intro; discriminate].
  - ver. split; [exact (ac_yield Hc Hy)|]. cbn. split; [assumption|]. split; [discriminate|reflexivity].
  - ver. split; [exact (ac_yield Hc Hy)|]. cbn. split; [exact I|]. split; [discriminate|reflexivity].
Qed.
#[local] Hint Resolve yield_v : vs.
Lemma assign_op_name q : p_is_assign_op q = true -> q <> Equal -> In (p_spell q) assign_operators /\ String.eqb (p_spell q) "=" = false.
Proof. intros H Hn. destruct q; try discriminate H; try congruence; (split; [cbn; auto 20|reflexivity]). Qed.
Lemma simple_of k p e c : gd k p (T_Node e) -> at_ctx L LB c k p -> is_expr e = true -> assign_target_type e = ASimple -> simple_target (v_strict c) e.
Proof. intros He Hc Hx Ha. apply valid_target; auto. Qed.
Lemma assignment_tail_v k p t0 lhs s st t : At s k p st t -> ER 0 k p t0 lhs -> (assign_target_type lhs = ASimple -> tval t <> VPunc Equal) ->
  wp XV (assignment_tail E h lhs) (fun a s' => exists t', At s' k p st t' /\ ER 0 k p t0 a) s.
Proof.
  intros HA [B1 B2 B3 B4] B5. unfold assignment_tail. do 2 vstep. vstep; [|vstep].
  - do 3 vstep. eapply wp_conseq.
    { eapply (@v_conv L LB k p _ (to_assignment_pattern E lhs) (fun c y => valid c (T_Node y) /\ expr_or_pattern y)); [eassumption|].
      intros c Hc Hb. apply to_assignment_pattern_ok; auto. }
    cbv beta. intros l s3 [HA3 Hl]. vwalk. constructor; [|reflexivity|intro; discriminate|exact I].
    intros c Hc. apply valid_mk.
    + split; [spans|]. cbn [local_other local_node]. split; [cbn; auto|]. split; [|auto].
      cbn [String.eqb Ascii.eqb Bool.eqb]. 
      match goal with |- assign_target _ _ => idtac end.
      destruct (Hl (down c (T_Node (AssignmentExpression "=" l a AInvalid a0)) Other)) as [V1 V2]; [mv|reflexivity|].
      apply (@valid_assign_target l (down c (T_Node (AssignmentExpression "=" l a AInvalid a0)) Other)); auto using assignable_simple.
    + fc. apply Hl; [mv|reflexivity].
  - vwalk. constructor; [|reflexivity|intro; discriminate|exact I].
    match goal with H : not_assignable _ = false |- _ => apply assignable_simple in H; rename H into Hs end.
    match goal with H : v_punc (tval t) = Some ?q |- _ => rename H into Hq; rename q into op end.
    apply andb_prop in Heqb0. destruct Heqb0 as [_ Ho]. unfold is_assign_op in Ho. unfold v_punc in Hq. destruct (tval t) eqn:Hv; try discriminate Hq. injection Hq as ->.
    assert (op <> Equal) by (intros ->; apply B5; auto).
    destruct (@assign_op_name op Ho ltac:(assumption)) as [G1 G2].
    vgd. split; [exact G1|]. rewrite G2. split; [|auto]. eapply simple_of; eauto.
  - vwalk. constructor; auto.
Qed.
Lemma maybe_arrow_v k p t0 lhs s st t : At s k p st t -> ER 0 k p t0 lhs -> (assign_target_type lhs = ASimple -> tval t <> VPunc Equal) ->
  wp XV (maybe_arrow E n h lhs) (fun a s' => exists t', At s' k p st t' /\ ER 0 k p t0 a /\ (assign_target_type a = ASimple -> tval t' <> VPunc Equal)) s.
Proof.
  intros HA He B5. unfold maybe_arrow. do 2 vstep. destruct lhs; try (vstep; eauto; fail). vstep; [|vstep; eauto].
  vstep. eexists. split; [eassumption|]. split; [eapply er_le; [era|intro; discriminate]|].
  congruence.
Qed.
Lemma assignment_v k p : vs k p (parse_assignment_expr E n h) (er 0 k p).
Proof.
  unfold parse_assignment_expr. intros s st t HA. do 4 vstep. vstep.
  - apply andb_prop in Heqb. destruct Heqb as [Hy _]. eapply yield_v; eassumption.
  - do 4 vstep. vstep. eapply wp_conseq.
    { eapply maybe_arrow_v; [eassumption|constructor; eassumption|eassumption]. }
    cbv beta. intros b s3 (t3 & HA3 & He & Hn). eapply assignment_tail_v; eassumption.
Qed.
#[local] Hint Resolve assignment_v : vs.
Lemma comma_then_v A (m : PM A) k p R : vs k p m R -> vs k p (comma_then E m) (fun _ a t' => exists t0, R t0 a t').
Proof. intros Hm. unfold comma_then. intros s st t HA. do 2 vstep. eapply wp_conseq; [eapply use_vs; [eassumption|exact Hm]|]. cbv beta. intros b s5 (t5 & B1 & B2). eauto. Qed.
Lemma expression_v k p : vs k p (parse_expression E n h) (er 0 k p).
Proof.
  pose proof (@vs_while L LB _ _ k p _ (fun x => gd k p (T_Node x) /\ is_expr x = true) (@comma_then_v _ (h_assign h) k p _ (@hV_assign HV k p)) ltac:(cbv beta; intros t a t' [t0 [? ? ? ?]]; auto) n Comma) as Hl.
  vgo parse_expression.
  - match goal with H : matches_punc ?x Comma = true |- _ => rewrite tok_punc_matches in H by (eapply At_wf; eassumption) end.
    match goal with H : Forall _ ?l |- _ => rename H into HF; destruct l as [|e2 more]; [match goal with H : _ -> [] <> [] |- _ => destruct (H ltac:(assumption) eq_refl) end|] end.
    assert (Forall (fun x => gd k p (T_Node x)) (e2 :: more)) by (eapply Forall_impl; [|exact HF]; cbv beta; intros ? [? _]; assumption).
    assert (Forall (fun x => is_expr x = true) (e2 :: more)) by (eapply Forall_impl; [|exact HF]; cbv beta; intros ? [_ ?]; assumption).
    assert (Forall (fun x => gd k p (T_Node x)) (a0 :: e2 :: more)) by (constructor; assumption).
    ver. split; [constructor; assumption|discriminate].
  - constructor; assumption.
Qed.
End Pass.
#[export] Hint Resolve comma_unless_v assign_in_v expression_in_v id_reference_v binding_id_v id_name_v value_to_key_v obj_pat_key_v obj_pat_value_v' obj_pat_rest_v obj_binding_pat_v arr_binding_pat_v binding_id_or_pat_v statement_list_v function_body_block_v function_body_v formal_params_v params_and_body_v function_expr_v arrow_body_v seq_to_arrow_params_v arguments_to_params_v computed_property_name_v property_name_v property_key_v class_getter_v class_setter_v class_async_method_v class_generator_method_v class_plain_method_v class_element_v class_body_v class_tail_v binding_id_node_v class_dclr_v class_expr_v template_piece_v template_head_v template_element_v template_rest_v template_literal_v parse_template_literal_v tagged_template_v array_lit_element_v array_lit_v method_definition_v async_modifier_v method_definition_v' property_modifiers_v object_lit_v arguments_v seq_to_arrow_v seq_or_arrow_v async_call_or_arrow_v async_primary_v primary_v computed_member_v static_member_v super_v member_v new_v call_v lhs_v update_v cur_unary_v unary_v exponentiation_v binary_v conditional_v single_param_v yield_v assignment_v expression_v : vs.
