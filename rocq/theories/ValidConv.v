(** * ValidConv: the cover-grammar conversions preserve validity (proofs). *)
From Verif Require Import Base Punct Token Ast Convert.
From Verif Require Import SpecLex SpecTree Valid.
From Coq Require Import ZifyBool ZifyN ZifyNat.
Set Implicit Arguments.
Ltac splits := repeat match goal with |- _ /\ _ => split end.

(** ** Lists *)
Lemma only_last_nil A (P : A -> bool) : only_last P [].
Proof. intros [|] x post H; discriminate H. Qed.
Lemma only_last_cons A (P : A -> bool) x l : (P x = true -> l = []) -> only_last P l -> only_last P (x :: l).
Proof.
  intros Hx Hl pre y post H Hy. destruct pre as [|z pre]; cbn in H; injection H as -> ->; auto.
  eapply Hl; eauto.
Qed.
Lemma only_last_none A (P : A -> bool) l : Forall (fun x => P x = false) l -> only_last P l.
Proof. induction 1; [apply only_last_nil|]. apply only_last_cons; auto. congruence. Qed.

(** ** Targets *)
Lemma att_eqb_eq a b : att_eqb a b = true <-> a = b.
Proof. destruct a, b; cbn; intuition congruence. Qed.
Lemma valid_target : forall e c, valid c (T_Node e) -> is_expr e = true -> assign_target_type e = ASimple -> simple_target (v_strict c) e.
Proof.
  fix IH 1. intros e c V He Ha.
  destruct e; cbn in He, Ha; try discriminate He; try discriminate Ha; try (constructor; fail);
    pose proof (valid_other V) as W; cbn in W; try (exfalso; intuition congruence).
  - constructor. auto.
  - destruct W as [Hf Hs]. destruct expressions as [|e [|e2 l]]; try (exfalso; destruct (Hs Ha) as (? & ? & _); discriminate).
    constructor. assert (Hc : valid (plain c) (T_Node e)). { apply (@valid_child _ _ Other (T_Node e) V). cbn. auto. }
    apply (IH e (plain c)); auto.
    + inversion Hf; auto.
    + destruct (Hs Ha) as (x & [= ->] & Hx). exact Hx.
Qed.
Lemma valid_assign_target e c : valid c (T_Node e) -> is_expr e = true \/ is_pattern_node e = true ->
  assign_target_type e = ASimple -> assign_target (v_strict c) e.
Proof. intros V [He|He] Ha; [left; eapply valid_target; eauto|right; auto]. Qed.

(** ** The outcome of a conversion *)
Definition cw (c : vctx) A (m : cres A) (Q : A -> Prop) : Prop :=
  match m with COk a => Q a | CErr e => 1 <= err_line e <= v_lines c | CPanic _ => True end.
Lemma cw_bind c A B (m : cres A) (k : A -> cres B) Q : cw c m (fun a => cw c (k a) Q) -> cw c (cbind m k) Q.
Proof. destruct m; cbn; auto. Qed.
Lemma cw_conseq c A (m : cres A) (P Q : A -> Prop) : cw c m P -> (forall a, P a -> Q a) -> cw c m Q.
Proof. destruct m; cbn; auto. Qed.
Lemma cw_error c A t m (Q : A -> Prop) : marker_within (v_len c) (v_lines c) m -> cw c (node_error t m) Q.
Proof. intros [_ H]. exact H. Qed.

Lemma valid_span c a sp : valid c a -> In sp (own_spans a) -> span_within (v_len c) (v_lines c) sp.
Proof. intros V H. apply valid_local in V. destruct V as [V _]. rewrite Forall_forall in V. auto. Qed.
Lemma valid_expr_span c n sp : valid c (T_Node n) -> expr_span n = Some sp -> span_within (v_len c) (v_lines c) sp.
Proof. intros V H. apply (@valid_span _ _ _ V). destruct n; cbn in *; try discriminate H; injection H as ->; auto. Qed.
Lemma start_within n l sp : span_within n l sp -> marker_within n l (sp_start sp).
Proof. intros []; auto. Qed.

(** ** Moving parts between equivalent contexts *)
Lemma down_sub c a : v_bind c = false -> down c a Sub = down c a Other -> down c a Sub = down c a Other.
Proof. auto. Qed.

Ltac vlocal V := let W := fresh "W" in pose proof (valid_other V) as W; cbn in W.

(** Context equality used below: for parts without influence on their children. *)
Lemma plain_sub c : v_bind c = false ->
  mkV (v_ret c) (v_iter c) (v_switch c) (v_strict c) false false (v_yield c) (v_await c) (v_bind c) (v_len c) (v_lines c) = plain c.
Proof. intros H. unfold plain. rewrite H. reflexivity. Qed.

(** The elements of the pattern nodes. *)
Lemma apats_valid c es a sp : valid c (T_Node (NArrayPattern es a sp)) -> Forall (opt_all (fun x => valid (plain c) (T_APat x))) es.
Proof. intros V. exact (@opts_valid c (T_Node (NArrayPattern es a sp)) Other _ T_APat es eq_refl V). Qed.
Lemma opats_valid c ps a sp : valid c (T_Node (NObjectPattern ps a sp)) -> Forall (fun x => valid (plain c) (T_OPat x)) ps.
Proof. intros V. refine (@on_valid c (T_Node (NObjectPattern ps a sp)) Other _ T_OPat ps _ V). intros x Hx. apply in_on. auto. Qed.
Lemma apats_sub c a es : v_bind c = false -> down c a Sub = mkV (v_ret c) (v_iter c) (v_switch c) (v_strict c) false false (v_yield c) (v_await c) (v_bind c) (v_len c) (v_lines c) ->
  Forall (opt_all (fun x => valid (plain c) (T_APat x))) es -> FC c a (opts Sub T_APat es).
Proof. intros Hb Hd H. apply FC_opts. rewrite Hd, (plain_sub _ Hb). exact H. Qed.
Lemma opats_sub c a ps : v_bind c = false -> down c a Sub = mkV (v_ret c) (v_iter c) (v_switch c) (v_strict c) false false (v_yield c) (v_await c) (v_bind c) (v_len c) (v_lines c) ->
  Forall (fun x => valid (plain c) (T_OPat x)) ps -> FC c a (on Sub T_OPat ps).
Proof. intros Hb Hd H. apply FC_on. rewrite Hd, (plain_sub _ Hb). exact H. Qed.
Lemma bind_sub c a b : v_bind c = false -> down c a Sub = mkV (v_ret c) (v_iter c) (v_switch c) (v_strict c) false false (v_yield c) (v_await c) (v_bind c) (v_len c) (v_lines c) ->
  valid (plain c) (T_Bind b) -> FC c a (one Sub (T_Bind b)).
Proof. intros Hb Hd H. apply FC_one. rewrite Hd, (plain_sub _ Hb). exact H. Qed.

Lemma local_nospan c a : own_spans a = [] -> local_other c a -> local c a.
Proof. intros H1 H2. split; auto. rewrite H1. constructor. Qed.
Lemma local_1 c a sp : own_spans a = [sp] -> span_within (v_len c) (v_lines c) sp -> local_other c a -> local c a.
Proof. intros H1 H2 H3. split; auto. rewrite H1. constructor; auto. Qed.

Definition apat_list_ok (es : list (option arr_pat)) (c : vctx) : Prop :=
  only_last rest_apat es /\ Forall (opt_all (fun x => valid (plain c) (T_APat x))) es.

Section Sub.
Context (c : vctx) (Hb : v_bind c = false).
Lemma mk_B_Array es a sp : valid c (T_Node (NArrayPattern es a sp)) -> valid c (T_Bind (B_Array es sp)).
Proof.
  intros V. apply valid_mk.
  - eapply local_1; [reflexivity|eapply valid_span; [eauto|cbn; auto]|]. vlocal V. cbn. tauto.
  - apply apats_sub; auto. eapply apats_valid; eauto.
Qed.
Lemma mk_B_Object ps a sp : valid c (T_Node (NObjectPattern ps a sp)) -> valid c (T_Bind (B_Object ps sp)).
Proof.
  intros V. apply valid_mk.
  - eapply local_1; [reflexivity|eapply valid_span; [eauto|cbn; auto]|]. vlocal V. cbn. tauto.
  - apply opats_sub; auto. eapply opats_valid; eauto.
Qed.
Lemma mk_B_Id name sp : valid c (T_Node (NBindingIdentifier name sp)) -> valid c (T_Bind (B_Id name sp)).
Proof.
  intros V. apply valid_mk; [|apply FC_nil]. eapply local_1; [reflexivity|eapply valid_span; [eauto|cbn; auto]|exact I].
Qed.
Lemma pat_children l r sp : valid c (T_Node (NAssignmentPattern l r sp)) -> valid (plain c) (T_Bind l) /\ valid (plain c) (T_Node r) /\ is_expr r = true.
Proof.
  intros V. split; [|split].
  - apply (@valid_child _ _ Other (T_Bind l) V). cbn. auto.
  - apply (@valid_child _ _ Other (T_Node r) V). cbn. auto.
  - apply (valid_other V).
Qed.

Lemma strict_binding_ok m p : valid c (T_Node p) -> marker_within (v_len c) (v_lines c) m ->
  cw c (strict_binding_of m p) (fun b => valid c (T_Bind b)).
Proof.
  intros V Hm. destruct p; try (apply cw_error; exact Hm); cbn.
  - eapply mk_B_Array; eauto.
  - eapply mk_B_Id; eauto.
  - eapply mk_B_Object; eauto.
Qed.

Lemma array_pattern_element_ok b p : valid c (T_Node p) ->
  cw c (array_pattern_element_of b p) (fun q => valid c (T_APat q) /\ rest_apat (Some q) = false).
Proof.
  intros V.
  assert (Hr : forall b sp, p <> NRestElement b sp). { intros ? ? ->. exact (valid_other V). }
  destruct p; try (exfalso; eapply Hr; reflexivity);
    try (cbn; exact I);
    try (match goal with |- cw _ (array_pattern_element_of _ ?p) _ => change (cw c (match expr_span p with Some sp => node_error InvalidOrUnexpectedToken (sp_start sp) | None => CPanic P_ExprSpan end) (fun q => valid c (T_APat q) /\ rest_apat (Some q) = false)) end;
         cbn [expr_span]; apply cw_error; apply start_within; eapply valid_expr_span; [eassumption|reflexivity]); cbn.
  - split; auto. apply valid_mk; [apply local_nospan; auto; vlocal V; cbn; tauto|]. apply apats_sub; auto. eapply apats_valid; eauto.
  - destruct (pat_children V) as (V1 & V2 & V3). split; auto. apply valid_mk; [apply local_nospan; auto|].
    cbn [children]. apply FC_app; [apply bind_sub; auto|apply FC_one; exact V2].
  - split; auto. apply valid_mk; [apply local_nospan; cbn; auto|]. apply FC_nil.
  - split; auto. apply valid_mk; [apply local_nospan; auto; vlocal V; cbn; tauto|]. apply opats_sub; auto. eapply opats_valid; eauto.
Qed.
Lemma pattern_value_ok' m p key sh : valid c (T_Node p) -> marker_within (v_len c) (v_lines c) m ->
  cw c (pattern_value_of m p) (fun q => valid c (T_Val q) /\ pattern_value_ok c key sh (Some q)).
Proof.
  intros V Hm. destruct p; try (apply cw_error; exact Hm); cbn; split; auto.
  - apply valid_mk; [apply local_nospan; auto; vlocal V; cbn; tauto|]. apply apats_sub; auto. eapply apats_valid; eauto.
  - destruct (pat_children V) as (V1 & V2 & V3). apply valid_mk; [apply local_nospan; auto|].
    cbn [children]. apply FC_app; [apply bind_sub; auto|apply FC_one; exact V2].
  - apply valid_mk; [|apply FC_nil]. eapply local_1; [reflexivity|eapply valid_span; [eauto|cbn; auto]|exact I].
  - apply valid_mk; [apply local_nospan; auto; vlocal V; cbn; tauto|]. apply opats_sub; auto. eapply opats_valid; eauto.
Qed.

(** Patterns as parameters. *)
Lemma param_ok p q : valid c (T_Node p) ->
  match p with
  | NAssignmentPattern l r _ => q = FP_Assign l r
  | NBindingIdentifier name _ => q = FP_Id name
  | NObjectPattern ps _ _ => q = FP_Object ps
  | NArrayPattern es _ _ => q = FP_Array es
  | _ => False
  end -> valid c (T_Param q).
Proof.
  intros V H. destruct p; try contradiction; subst q.
  - apply valid_mk; [apply local_nospan; auto; vlocal V; cbn; tauto|]. apply apats_sub; auto. eapply apats_valid; eauto.
  - destruct (pat_children V) as (V1 & V2 & V3). apply valid_mk; [apply local_nospan; auto|].
    cbn [children]. apply FC_app; [apply bind_sub; auto|apply FC_one; exact V2].
  - apply valid_mk; [apply local_nospan; cbn; auto|apply FC_nil].
  - apply valid_mk; [apply local_nospan; auto; vlocal V; cbn; tauto|]. apply opats_sub; auto. eapply opats_valid; eauto.
Qed.
End Sub.

Section WithEnv.
Context (E : env).

Lemma len_of A (l : list A) : 0 + N.of_nat (length l) <= N.of_nat (length l - 1) + 1.
Proof. lia. Qed.
Lemma length_nil A (l : list A) : length l = O -> l = [].
Proof. destruct l; [auto|discriminate]. Qed.

Definition apats_post (c : vctx) n (es : list (option arr_pat)) : Prop :=
  length es = n /\ only_last rest_apat es /\ Forall (opt_all (fun x => valid (plain c) (T_APat x))) es.
Definition opats_post (c : vctx) n (ps : list obj_pat) : Prop :=
  length ps = n /\ only_last rest_opat ps /\ Forall (fun x => valid (plain c) (T_OPat x)) ps.

Lemma prop_key_valid c k comp v kind m sh sp : valid c (T_Prop (OE_Prop k comp v kind m sh sp)) ->
  valid (plain c) (T_Key k) /\ (forall x, v = Some x -> valid (plain c) (T_Val x)) /\
  comp = is_PK_Expr k /\ In kind ["init"; "get"; "set"]%string /\ object_value_ok kind m sh v.
Proof.
  intros V. pose proof (valid_other V) as W. cbn in W. destruct W as (W1 & W2 & W3). splits; auto.
  - apply (@valid_child _ _ Other (T_Key k) V). cbn. auto.
  - intros x ->. apply (@valid_child _ _ Other (T_Val x) V). cbn. auto.
Qed.
Lemma mk_OP_Prop c k comp v kind m sh : valid c (T_Key k) -> (forall x, v = Some x -> valid c (T_Val x)) ->
  c = plain c -> comp = is_PK_Expr k -> In kind ["init"; "get"; "set"]%string -> m = false -> pattern_value_ok c k sh v ->
  valid c (T_OPat (OP_Prop k comp v kind m sh)).
Proof.
  intros V1 V2 Hc H1 H2 H3 H4. apply valid_mk; [apply local_nospan; cbn; auto|].
  assert (Hb : v_bind c = false) by (rewrite Hc; reflexivity).
  cbn [children]. apply FC_app.
  - apply FC_one. change (down c _ Other) with (plain c). rewrite <- Hc. auto.
  - apply FC_opt. intros x Hx. change (down c _ Sub) with (mkV (v_ret c) (v_iter c) (v_switch c) (v_strict c) false false (v_yield c) (v_await c) (v_bind c) (v_len c) (v_lines c)).
    rewrite (plain_sub _ Hb), <- Hc. auto.
Qed.
Lemma mk_OP_Rest c b : valid c (T_Bind b) -> c = plain c -> valid c (T_OPat (OP_Rest b)).
Proof.
  intros V Hc. apply valid_mk; [apply local_nospan; cbn; auto|].
  assert (Hb : v_bind c = false) by (rewrite Hc; reflexivity).
  apply FC_one. change (down c _ Sub) with (mkV (v_ret c) (v_iter c) (v_switch c) (v_strict c) false false (v_yield c) (v_await c) (v_bind c) (v_len c) (v_lines c)).
  rewrite (plain_sub _ Hb), <- Hc. auto.
Qed.
Lemma mk_AP_Rest c b : valid c (T_Bind b) -> c = plain c -> valid c (T_APat (AP_Rest b)).
Proof.
  intros V Hc. apply valid_mk; [apply local_nospan; cbn; auto|].
  assert (Hb : v_bind c = false) by (rewrite Hc; reflexivity).
  apply FC_one. change (down c _ Sub) with (mkV (v_ret c) (v_iter c) (v_switch c) (v_strict c) false false (v_yield c) (v_await c) (v_bind c) (v_len c) (v_lines c)).
  rewrite (plain_sub _ Hb), <- Hc. auto.
Qed.

Lemma to_binding_pattern_ok : forall x c, valid c (T_Node x) -> cw c (to_binding_pattern E x) (fun y => valid c (T_Node y)).
Proof.
  fix IH 1. intros x c V. destruct x; try exact V.
  - (* array *)
    cbn [to_binding_pattern]. destruct (last_index E (length elements)) as [li|] eqn:Hli; [|exact I].
    assert (Hn : 0 + N.of_nat (length elements) <= li + 1).
    { unfold last_index in Hli. destruct (length elements); [lia|]. injection Hli as <-. lia. }
    clear Hli. apply cw_bind.
    pose proof (@opts_valid c (T_Node (ArrayExpression elements a sp)) Other _ T_Elem elements eq_refl V) as F. change (down c _ Other) with (plain c) in F.
    pose proof (@valid_span _ _ sp V (or_introl eq_refl)) as Hsp.
    eapply cw_conseq with (P := apats_post c (length elements)).
    2:{ intros es (_ & H1 & H2). apply valid_mk; [eapply local_1; [reflexivity|exact Hsp|cbn; auto]|]. apply FC_opts. exact H2. }
    clear V Hsp. revert Hn. generalize 0%N as i.
    induction elements as [|x l IHl]; intros i Hn; [split; [reflexivity|split; [apply only_last_nil|constructor]]|].
    pose proof (Forall_inv F) as Fx; pose proof (Forall_inv_tail F) as Fl. specialize (IHl Fl (i + 1)). assert (Hn' : (i + 1) + N.of_nat (length l) <= li + 1) by (cbn [length] in Hn; lia).
    specialize (IHl Hn'). apply cw_bind.
    eapply cw_conseq with (P := fun y => opt_all (fun x => valid (plain c) (T_APat x)) y /\ (rest_apat y = true -> l = [])).
    2:{ intros y [Hy1 Hy2]. apply cw_bind. eapply cw_conseq; [exact IHl|]. intros ys (H0 & H1 & H2). split; [cbn; congruence|]. split.
        - apply only_last_cons; auto. intros Hr. specialize (Hy2 Hr). apply length_nil. rewrite H0, Hy2. reflexivity.
        - constructor; auto. }
    destruct x as [[e|e esp]|].
    + cbn [opt_all] in Fx. assert (Ve : valid (plain c) (T_Node e)) by (apply (@valid_child _ _ Other (T_Node e) Fx); cbn; auto).
      apply cw_bind. eapply cw_conseq; [exact (IH e _ Ve)|]. clear IH IHl. intros p Vp. apply cw_bind.
      eapply cw_conseq; [apply (@array_pattern_element_ok (plain c) eq_refl _ _ Vp)|]. intros q [Vq Hq]. split; [exact Vq|].
      intros Hr. rewrite Hq in Hr. discriminate Hr.
    + cbn [opt_all] in Fx. assert (Ve : valid (plain c) (T_Node e)) by (apply (@valid_child _ _ Other (T_Node e) Fx); cbn; auto).
      assert (Hs : marker_within (v_len c) (v_lines c) (sp_start esp)) by (apply start_within; apply (@valid_span _ _ _ Fx); cbn; auto).
      destruct (i =? li) eqn:Hi; cbn [negb]; [|apply cw_error; exact Hs].
      apply cw_bind. eapply cw_conseq; [exact (IH e _ Ve)|]. clear IH IHl. intros p Vp. apply cw_bind.
      eapply cw_conseq; [apply (@strict_binding_ok (plain c) eq_refl _ _ Vp Hs)|]. intros b Vb. split.
      * apply mk_AP_Rest; auto.
      * intros _. apply length_nil. apply N.eqb_eq in Hi. lia.
    + split; [exact I|discriminate].
  - (* assignment *)
    cbn [to_binding_pattern]. destruct (String.eqb operator "="); [|exact V].
    pose proof (@valid_span _ _ sp V (or_introl eq_refl)) as Hsp.
    assert (V1 : valid (plain c) (T_Node x1)) by (apply (@valid_child _ _ Other (T_Node x1) V); cbn; auto).
    assert (V2 : valid (plain c) (T_Node x2)) by (apply (@valid_child _ _ Other (T_Node x2) V); cbn; auto).
    pose proof (valid_other V) as W. cbn in W.
    apply cw_bind. eapply cw_conseq; [exact (IH x1 _ V1)|]. intros p Vp. apply cw_bind.
    eapply cw_conseq; [apply (@strict_binding_ok (plain c) eq_refl _ _ Vp)|].
    { apply start_within. exact Hsp. }
    intros b Vb. apply valid_mk; [eapply local_1; [reflexivity|exact Hsp|cbn; tauto]|].
    cbn [children]. apply FC_app; apply FC_one; [exact Vb|exact V2].
  - cbn. apply valid_mk; [|apply FC_nil]. eapply local_1; [reflexivity|eapply valid_span; [eauto|cbn; auto]|exact I].
  - (* object *)
    cbn [to_binding_pattern]. apply cw_bind.
    assert (F : Forall (fun x => valid (plain c) (T_Prop x)) properties).
    { refine (@on_valid c _ Other _ T_Prop properties _ V). intros x Hx. apply in_on. auto. }
    pose proof (@valid_span _ _ sp V (or_introl eq_refl)) as Hsp.
    eapply cw_conseq with (P := opats_post c (length properties)).
    2:{ intros es (_ & H1 & H2). apply valid_mk; [eapply local_1; [reflexivity|exact Hsp|cbn; auto]|]. apply FC_on. exact H2. }
    pose proof (len_of properties) as Hn. revert Hn.
    generalize (N.of_nat (length properties - 1)) as li. intros li.
    clear V Hsp. generalize 0%N as i.
    induction properties as [|x l IHl]; intros i Hn; [split; [reflexivity|split; [apply only_last_nil|constructor]]|].
    pose proof (Forall_inv F) as Fx; pose proof (Forall_inv_tail F) as Fl. specialize (IHl Fl (i + 1)). assert (Hn' : (i + 1) + N.of_nat (length l) <= li + 1) by (cbn [length] in Hn; lia).
    specialize (IHl Hn'). apply cw_bind.
    eapply cw_conseq with (P := fun y => valid (plain c) (T_OPat y) /\ (rest_opat y = true -> l = [])).
    2:{ intros y [Hy1 Hy2]. apply cw_bind. eapply cw_conseq; [exact IHl|]. intros ys (H0 & H1 & H2). split; [cbn; congruence|]. split.
        - apply only_last_cons; auto. intros Hr. specialize (Hy2 Hr). apply length_nil. rewrite H0, Hy2. reflexivity.
        - constructor; auto. }
    destruct x as [key computed v kind me sh psp|e psp].
    + assert (Hs : marker_within (v_len c) (v_lines c) (sp_start psp)) by (apply start_within; apply (@valid_span _ _ _ Fx); cbn; auto).
      destruct (prop_key_valid Fx) as (K1 & K2 & K3 & K4 & K5).
      apply cw_bind. eapply cw_conseq with (P := fun v' => (forall x, v' = Some x -> valid (plain c) (T_Val x)) /\ pattern_value_ok (plain c) key sh v' /\ me = false).
      2:{ intros v' (A1 & A2 & A3). split; [|discriminate]. clear IH. apply mk_OP_Prop; auto. }
      destruct v as [[| | | | | |e]|]; try (apply cw_error; exact Hs).
      * pose proof (K2 _ eq_refl) as Vv. assert (Ve : valid (plain c) (T_Node e)) by (apply (@valid_child _ _ Other (T_Node e) Vv); cbn; auto).
        apply cw_bind. eapply cw_conseq; [exact (IH e _ Ve)|]. clear IH IHl. intros p Vp. apply cw_bind.
        eapply cw_conseq; [apply (@pattern_value_ok' (plain c) eq_refl _ _ key sh Vp Hs)|]. intros q [Vq Hq]. cbn in K5.
        split; [intros x [= <-]; exact Vq|]. split; [exact Hq|]. clear -K5. tauto.
      * cbn in K5. split; [discriminate|]. cbn. clear -K5. intuition discriminate.
    + assert (Ve : valid (plain c) (T_Node e)) by (apply (@valid_child _ _ Other (T_Node e) Fx); cbn; auto).
      assert (Hs : marker_within (v_len c) (v_lines c) (sp_start psp)) by (apply start_within; apply (@valid_span _ _ _ Fx); cbn; auto).
      destruct (i =? li) eqn:Hi; [|apply cw_error; exact Hs].
      apply cw_bind. eapply cw_conseq; [exact (IH e _ Ve)|]. clear IH IHl. intros p Vp. apply cw_bind.
      eapply cw_conseq; [apply (@strict_binding_ok (plain c) eq_refl _ _ Vp Hs)|]. intros b Vb. split.
      * apply mk_OP_Rest; auto.
      * intros _. apply length_nil. apply N.eqb_eq in Hi. lia.
  - destruct (valid_other V).
Qed.

(** An expression is valid independently of whether it is at top level. *)
Lemma valid_plain c e : valid c (T_Node e) -> is_expr e = true \/ is_pattern_node e = true \/ is_binding_node e = true \/ (exists l r sp, e = NAssignmentPattern l r sp) ->
  valid (plain c) (T_Node e).
Proof.
  intros V He. apply valid_mk.
  - destruct (valid_local V) as [H1 H2]. split; [exact H1|]. clear V. destruct He as [He|[He|[He|(l & r & sp & ->)]]]; [| | |exact H2]; destruct e; try discriminate He; exact H2.
  - intros r b Hi. pose proof (@valid_child _ _ _ _ V Hi) as W. destruct r; try exact W. exfalso. clear - Hi.
    destruct e; cbn in Hi; unfold function_children in Hi; cbn in Hi; repeat (apply in_app_or in Hi; destruct Hi as [Hi|Hi]); cbn in Hi;
      repeat (destruct Hi as [Hi|Hi]; try discriminate Hi); try contradiction;
      repeat match goal with o : option _ |- _ => destruct o end; cbn in Hi; try contradiction; repeat (destruct Hi as [Hi|Hi]; try discriminate Hi); try contradiction;
      try (unfold on in Hi; apply in_map_iff in Hi; destruct Hi as (? & Hi & _); discriminate Hi);
      match goal with l : list (option _) |- _ => induction l as [|[?|] ? IHl]; cbn in Hi; try contradiction; try (destruct Hi as [Hi|Hi]; [discriminate Hi|]); auto end.
Qed.

(** ** Assignment patterns *)
Lemma to_binding_ok c e : valid c (T_Node e) -> v_bind c = false -> is_expr e = true -> assign_target_type e = ASimple ->
  cw c (to_binding E e) (fun b => valid c (T_Bind b)).
Proof.
  intros V Hb He Ha. pose proof (valid_target V He Ha) as Ht.
  pose proof (valid_plain V (or_introl He)) as Vp.
  assert (Hx : valid c (T_Bind (B_Expr e))).
  { apply valid_mk; [apply local_nospan; cbn; auto; split; auto; left; auto|]. apply FC_one. exact Vp. }
  unfold to_binding. apply cw_bind.
  inversion Ht; subst; cbn; try exact Hx.
  apply mk_B_Id. apply valid_mk; [|apply FC_nil]. eapply local_1; [reflexivity|apply (@valid_span _ _ sp V); cbn; auto|exact I].
Qed.

Lemma assign_rest_argument_ok c t e sp : valid c (T_Node e) -> v_bind c = false -> is_expr e = true ->
  marker_within (v_len c) (v_lines c) (sp_start sp) ->
  cw c (assign_rest_argument E t e sp) (fun b => valid c (T_Bind b)).
Proof.
  intros V Hb He Hm.
  assert (G : cw c (if negb (att_eqb (assign_target_type e) ASimple) then node_error InvalidLhsInAssignment (sp_start sp) else to_binding E e) (fun b => valid c (T_Bind b))).
  { destruct (att_eqb (assign_target_type e) ASimple) eqn:Ha; cbn [negb]; [|apply cw_error; exact Hm].
    apply att_eqb_eq in Ha. apply to_binding_ok; auto. }
  destruct e; try exact G; apply cw_error, start_within; apply (@valid_span _ _ _ V); cbn; auto.
Qed.

(** The result of the conversion to an assignment pattern: an expression or a pattern node. *)
Definition expr_or_pattern (y : node) : Prop := is_expr y = true \/ is_pattern_node y = true.
Lemma assignment_element_ok c p : valid c (T_Node p) -> v_bind c = false -> expr_or_pattern p ->
  cw c (assignment_element_of p) (fun q => valid (plain c) (T_Node q) /\ element_target (v_strict c) q).
Proof.
  intros V Hb Hp.
  assert (G : cw c (if negb (att_eqb (assign_target_type p) ASimple)
    then match expr_span p with Some sp => node_error InvalidLhsInAssignment (sp_start sp) | None => CPanic P_ExprSpan end
    else COk p) (fun q => valid (plain c) (T_Node q) /\ element_target (v_strict c) q)).
  { destruct (att_eqb (assign_target_type p) ASimple) eqn:Ha; cbn [negb].
    - apply att_eqb_eq in Ha. split; [apply valid_plain; auto; destruct Hp; auto|]. left. apply valid_assign_target; auto.
    - destruct (expr_span p) eqn:Hs; [|exact I]. apply cw_error, start_within. eapply valid_expr_span; eauto. }
  destruct p; try exact G. cbn [assignment_element_of]. destruct (String.eqb operator "=") eqn:Ho; [|exact G].
  destruct (att_eqb (assign_target_type p1) ASimple) eqn:Ha; cbn [negb].
  2:{ apply cw_error, start_within. apply (@valid_span _ _ _ V). cbn. auto. }
  pose proof (valid_other V) as W. cbn in W. rewrite Ho in W. destruct W as (_ & W1 & W2 & W3).
  assert (V1 : valid (plain c) (T_Node p1)) by (apply (@valid_child _ _ Other (T_Node p1) V); cbn; auto).
  assert (V2 : valid (plain c) (T_Node p2)) by (apply (@valid_child _ _ Other (T_Node p2) V); cbn; auto).
  cbn [cw]. split.
  - apply valid_mk.
    + eapply local_1; [reflexivity| |exact W2]. apply (@valid_span _ _ _ V). cbn. auto.
    + cbn [children]. apply FC_app; apply FC_one; [|exact V2]. apply valid_mk; [apply local_nospan; cbn; auto|]. apply FC_one. exact V1.
  - right. eauto 6.
Qed.
Definition aapats_post (c : vctx) (es : list (option arr_apat)) : Prop :=
  Forall (opt_all (fun x => valid (plain c) (T_AAPat x))) es.

Lemma to_assignment_pattern_ok : forall x c, valid c (T_Node x) -> is_expr x = true ->
  cw c (to_assignment_pattern E x) (fun y => valid c (T_Node y) /\ expr_or_pattern y).
Proof.
  fix IH 1. intros x c V He. destruct x; try (split; [exact V|left; exact He]).
  - (* array *)
    cbn [to_assignment_pattern]. cbv zeta.
    assert (Hn : 0 + N.of_nat (length elements) <= N.of_nat (length elements)) by lia. revert Hn.
    generalize (N.of_nat (length elements)) at 2 3 as li. intros li Hn. apply cw_bind.
    pose proof (@opts_valid c (T_Node (ArrayExpression elements a sp)) Other _ T_Elem elements eq_refl V) as F. change (down c _ Other) with (plain c) in F.
    pose proof (@valid_span _ _ sp V (or_introl eq_refl)) as Hsp.
    eapply cw_conseq with (P := aapats_post c).
    2:{ intros es H2. split; [|right; reflexivity]. apply valid_mk; [eapply local_1; [reflexivity|exact Hsp|cbn; auto]|]. apply FC_opts. exact H2. }
    clear V Hsp He. revert Hn. generalize 0%N as i.
    induction elements as [|x l IHl]; intros i Hn; [constructor|].
    pose proof (Forall_inv F) as Fx; pose proof (Forall_inv_tail F) as Fl. specialize (IHl Fl (i + 1)).
    assert (Hn' : (i + 1) + N.of_nat (length l) <= li) by (cbn [length] in Hn; lia).
    specialize (IHl Hn'). apply cw_bind.
    eapply cw_conseq with (P := opt_all (fun x => valid (plain c) (T_AAPat x))).
    2:{ clear IH. intros y Hy. apply cw_bind. eapply cw_conseq; [exact IHl|]. intros ys Hys. constructor; auto. }
    destruct x as [[e|e esp]|].
    + cbn [opt_all] in Fx. assert (Ve : valid (plain c) (T_Node e)) by (apply (@valid_child _ _ Other (T_Node e) Fx); cbn; auto).
      pose proof (valid_other Fx) as We. cbn in We.
      apply cw_bind. eapply cw_conseq; [exact (IH e _ Ve We)|]. clear IH IHl. intros p [Vp Hp]. apply cw_bind.
      eapply cw_conseq; [apply (@assignment_element_ok (plain c) _ Vp eq_refl Hp)|]. intros q [Vq Hq].
      apply valid_mk; [apply local_nospan; cbn; auto|]. apply FC_one. exact Vq.
    + cbn [opt_all] in Fx.
      assert (Hs : marker_within (v_len c) (v_lines c) (sp_start esp)) by (apply start_within; apply (@valid_span _ _ _ Fx); cbn; auto).
      destruct (i =? li) eqn:Hi; cbn [negb]; [|apply cw_error; exact Hs].
      exfalso. clear -Hi Hn. apply N.eqb_eq in Hi. cbn [length] in Hn. lia.
    + exact I.
  - (* object *)
    cbn [to_assignment_pattern]. cbv zeta. apply cw_bind.
    assert (F : Forall (fun x => valid (plain c) (T_Prop x)) properties).
    { refine (@on_valid c _ Other _ T_Prop properties _ V). intros x Hx. apply in_on. auto. }
    pose proof (@valid_span _ _ sp V (or_introl eq_refl)) as Hsp.
    eapply cw_conseq with (P := opats_post c (length properties)).
    2:{ intros es (_ & H1 & H2). split; [|right; reflexivity]. apply valid_mk; [eapply local_1; [reflexivity|exact Hsp|cbn; auto]|]. apply FC_on. exact H2. }
    pose proof (len_of properties) as Hn. revert Hn.
    generalize (N.of_nat (length properties - 1)) as li. intros li.
    clear V Hsp He. generalize 0%N as i.
    induction properties as [|x l IHl]; intros i Hn; [split; [reflexivity|split; [apply only_last_nil|constructor]]|].
    pose proof (Forall_inv F) as Fx; pose proof (Forall_inv_tail F) as Fl. specialize (IHl Fl (i + 1)). assert (Hn' : (i + 1) + N.of_nat (length l) <= li + 1) by (cbn [length] in Hn; lia).
    specialize (IHl Hn'). apply cw_bind.
    eapply cw_conseq with (P := fun y => valid (plain c) (T_OPat y) /\ (rest_opat y = true -> l = [])).
    2:{ clear IH. intros y [Hy1 Hy2]. apply cw_bind. eapply cw_conseq; [exact IHl|]. intros ys (H0 & H1 & H2). split; [cbn; congruence|]. split.
        - apply only_last_cons; auto. intros Hr. specialize (Hy2 Hr). apply length_nil. rewrite H0, Hy2. reflexivity.
        - constructor; auto. }
    destruct x as [key computed v kind me sh psp|e psp].
    + assert (Hs : marker_within (v_len c) (v_lines c) (sp_start psp)) by (apply start_within; apply (@valid_span _ _ _ Fx); cbn; auto).
      destruct (prop_key_valid Fx) as (K1 & K2 & K3 & K4 & K5).
      apply cw_bind. eapply cw_conseq with (P := fun v' => (forall x, v' = Some x -> valid (plain c) (T_Val x)) /\ pattern_value_ok (plain c) key sh v' /\ me = false).
      2:{ intros v' (A1 & A2 & A3). split; [|discriminate]. clear IH. apply mk_OP_Prop; auto. }
      destruct v as [[| | | | | |e]|]; try (apply cw_error; exact Hs).
      * pose proof (K2 _ eq_refl) as Vv. assert (Ve : valid (plain c) (T_Node e)) by (apply (@valid_child _ _ Other (T_Node e) Vv); cbn; auto).
        cbn in K5. destruct K5 as [We K5].
        apply cw_bind. eapply cw_conseq; [exact (IH e _ Ve We)|]. clear IH IHl. intros p [Vp Hp]. apply cw_bind.
        eapply cw_conseq; [apply (@assignment_element_ok (plain c) _ Vp eq_refl Hp)|]. intros q [Vq Hq].
        split; [intros x [= <-]|split; [split; [reflexivity|exact Hq]|exact K5]].
        apply valid_mk; [apply local_nospan; cbn; auto|]. apply FC_one. exact Vq.
      * cbn in K5. split; [discriminate|]. cbn. clear -K5. intuition discriminate.
    + assert (Ve : valid (plain c) (T_Node e)) by (apply (@valid_child _ _ Other (T_Node e) Fx); cbn; auto).
      assert (Hs : marker_within (v_len c) (v_lines c) (sp_start psp)) by (apply start_within; apply (@valid_span _ _ _ Fx); cbn; auto).
      pose proof (valid_other Fx) as We. cbn in We. clear IH IHl.
      destruct (i =? li) eqn:Hi; cbn [negb]; [|apply cw_error; exact Hs].
      apply cw_bind. eapply cw_conseq; [apply (@assign_rest_argument_ok (plain c)); [exact Ve|reflexivity|exact We|exact Hs]|]. intros b Vb. split.
      * apply mk_OP_Rest; auto.
      * intros _. apply length_nil. apply N.eqb_eq in Hi. lia.
Qed.
End WithEnv.
