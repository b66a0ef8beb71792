(** * SpellConv: the cover-grammar conversions keep the spelling (proofs). *)
From Verif Require Import Base Punct Token Ast Convert.
From Verif Require Import SpecLex SpecTree SpecSpell SpellBase.
From Coq Require Import ZifyBool ZifyN ZifyNat.
Set Implicit Arguments.

Section WithEnv.
Context (E : env) (At : span -> pos -> pos -> Prop).
Notation spells := (spells E At).
Notation spn := (fun x => spells (T_Node x)).

(** ** What the spelling of a construct looks like *)
Lemma inv_array es a sp p q : spells (T_Node (ArrayExpression es a sp)) p q -> block LBracket RBracket (holes (fun x => spells (T_Elem x)) es) p q.
Proof. inversion 1; subst; auto. Qed.
Definition loose (x : obj_prop) (p q : pos) : Prop :=
  exists k c f sp r s, x = OE_Prop k c (Some (PV_Fn f)) "init" true false sp /\
    eats (is_p Star) p r /\ key E At spells k c r s /\ exists ps b, f = FnExpr None ps b true false false /\ function spells ps b s q.
Lemma inv_object ps a sp p q : spells (T_Node (ObjectExpression ps a sp)) p q ->
  block LBrace RBrace (properties (fun x => spells (T_Prop x)) loose ps) p q.
Proof. inversion 1; subst; auto. Qed.
Lemma inv_assign op l r a sp p q : spells (T_Node (AssignmentExpression op l r a sp)) p q ->
  exists p1 p2, spn l p p1 /\ eats (fun u => exists x, is_p x u /\ op = p_spell x) p1 p2 /\ spn r p2 q.
Proof. inversion 1; subst; eauto. Qed.
Lemma inv_identifier n a sp p q : spells (T_Node (Identifier n a sp)) p q -> eats (is_ref n) p q /\ At sp p q.
Proof. inversion 1; subst; auto. Qed.
Lemma inv_binding_id n sp p q : spells (T_Node (NBindingIdentifier n sp)) p q -> eats (is_ref n) p q /\ At sp p q.
Proof. inversion 1; subst; auto. Qed.
Lemma inv_apat es a sp p q : spells (T_Node (NArrayPattern es a sp)) p q -> block LBracket RBracket (holes (fun x => spells (T_APat x)) es) p q.
Proof. inversion 1; subst; auto. Qed.
Lemma inv_opat ps a sp p q : spells (T_Node (NObjectPattern ps a sp)) p q -> block LBrace RBrace (commas (fun x => spells (T_OPat x)) ps) p q.
Proof. inversion 1; subst; auto. Qed.
Lemma inv_pattern b e sp p s : spells (T_Node (NAssignmentPattern b e sp)) p s ->
  exists q r, spells (T_Bind b) p q /\ eats (is_p Assign) q r /\ spn e r s.
Proof. inversion 1; subst; eauto. Qed.
Lemma no_rest b sp p q : ~ spells (T_Node (NRestElement b sp)) p q.
Proof. inversion 1. Qed.
Lemma no_spread b sp p q : ~ spells (T_Node (NSpreadElement b sp)) p q.
Proof. inversion 1. Qed.
Lemma inv_elem e p q : spells (T_Elem (AE_Expr e)) p q -> spn e p q.
Proof. inversion 1; subst; auto. Qed.
Lemma inv_elem_spread e sp p q : spells (T_Elem (AE_Spread e sp)) p q -> exists r, eats (is_p Ellipsis) p r /\ spn e r q.
Proof. inversion 1; subst; eauto. Qed.
Lemma inv_prop_spread e sp p q : spells (T_Prop (OE_Spread e sp)) p q -> exists r, eats (is_p Ellipsis) p r /\ spn e r q.
Proof. inversion 1; subst; eauto. Qed.
Lemma inv_prop k c e kind m sh sp p t : spells (T_Prop (OE_Prop k c (Some (PV_Expr e)) kind m sh sp)) p t ->
  m = false /\ exists q r s, prefix kind p q /\ key E At spells k c q r /\ (sh = false /\ eats (is_p Colon) r s \/ sh = true /\ eats (is_p Assign) r s) /\ spn e s t.
Proof. inversion 1; subst; split; eauto 12. Qed.
Lemma inv_prop_short k c kind m sh sp p t : spells (T_Prop (OE_Prop k c None kind m sh sp)) p t ->
  m = false /\ sh = true /\ exists q, prefix kind p q /\ key E At spells k c q t.
Proof. inversion 1; subst; eauto. Qed.
Lemma spell_assign x : "="%string = p_spell x -> x = Assign.
Proof. destruct x; cbn; intros H; try discriminate H; reflexivity. Qed.

(** ** Results of conversions *)
Definition ck A (m : cres A) (Q : A -> Prop) : Prop := match m with COk a => Q a | _ => True end.
Lemma ck_bind A B (m : cres A) (k : A -> cres B) Q : ck m (fun a => ck (k a) Q) -> ck (cbind m k) Q.
Proof. destruct m; cbn; auto. Qed.
Lemma ck_conseq A (m : cres A) (P Q : A -> Prop) : ck m P -> (forall a, P a -> Q a) -> ck m Q.
Proof. destruct m; cbn; auto. Qed.
Lemma ck_use A (m : cres A) (Q : A -> Prop) a : ck m Q -> m = COk a -> Q a.
Proof. intros H ->. exact H. Qed.
Lemma ck_use1 A (m : cres A) (Q : A -> Prop) a : m = COk a -> ck m Q -> Q a.
Proof. intros ->. auto. Qed.

Lemma strict_binding_spells m x p q : spn x p q -> ck (strict_binding_of m x) (fun b => spells (T_Bind b) p q).
Proof.
  intros H. destruct x; try exact I; cbn.
  - constructor. eapply inv_apat; eauto.
  - apply inv_binding_id in H; destruct H; constructor; auto.
  - constructor. eapply inv_opat; eauto.
Qed.
Lemma apat_element_spells l x p q : spn x p q -> ck (array_pattern_element_of l x) (fun y => spells (T_APat y) p q).
Proof.
  intros H. destruct x; try exact I; cbn.
  - constructor. eapply inv_apat; eauto.
  - destruct (inv_pattern H) as (? & ? & ? & ? & ?). eapply S_apat_default; eauto.
  - apply inv_binding_id in H; destruct H; constructor; auto.
  - constructor. eapply inv_opat; eauto.
  - destruct (no_rest H).
Qed.
Lemma pattern_value_spells m x p q : spn x p q -> ck (pattern_value_of m x) (fun y => spells (T_Val y) p q).
Proof.
  intros H. destruct x; try exact I; cbn.
  - constructor. eapply inv_apat; eauto.
  - destruct (inv_pattern H) as (? & ? & ? & ? & ?). eapply S_val_default; eauto.
  - apply inv_binding_id in H; destruct H; constructor; auto.
  - constructor. eapply inv_opat; eauto.
Qed.

Lemma holes_inv A (R : A -> pos -> pos -> Prop) x l p r : holes R (x :: l) p r ->
  match x with
  | None => exists q, eats (is_p Comma) p q /\ holes R l q r
  | Some x => exists q, R x p q /\ (l = [] /\ q = r \/ exists q', eats (is_p Comma) q q' /\ holes R l q' r)
  end.
Proof. inversion 1; subst; eauto 8. Qed.
Lemma holes_mk A (R : A -> pos -> pos -> Prop) x l p r :
  match x with
  | None => exists q, eats (is_p Comma) p q /\ holes R l q r
  | Some x => exists q, R x p q /\ (l = [] /\ q = r \/ exists q', eats (is_p Comma) q q' /\ holes R l q' r)
  end -> holes R (x :: l) p r.
Proof.
  destruct x as [x|].
  - intros (q & H & [[-> ->]|(q' & H1 & H2)]); [apply holes_last; auto|eapply holes_more; eauto].
  - intros (q & H1 & H2). eapply holes_hole; eauto.
Qed.
Lemma properties_inv A (R S : A -> pos -> pos -> Prop) x l p r : properties R S (x :: l) p r ->
  (exists q, R x p q /\ (l = [] /\ q = r \/ exists q', eats (is_p Comma) q q' /\ properties R S l q' r)) \/
  (exists q, S x p q /\ properties R S l q r).
Proof. inversion 1; subst; eauto 10. Qed.
Lemma commas_mk A (R : A -> pos -> pos -> Prop) x l p r :
  (exists q, R x p q /\ (l = [] /\ q = r \/ exists q', eats (is_p Comma) q q' /\ commas R l q' r)) -> commas R (x :: l) p r.
Proof. intros (q & H & [[-> ->]|(q' & H1 & H2)]); [apply commas_last; auto|eapply commas_more; eauto]. Qed.
Lemma block_map o c (P Q : pos -> pos -> Prop) p q : (forall p q, P p q -> Q p q) -> block o c P p q -> block o c Q p q.
Proof. intros H []. econstructor; eauto. Qed.

Lemma to_binding_pattern_spells : forall x p q, spn x p q -> ck (to_binding_pattern E x) (fun y => spells (T_Node y) p q).
Proof.
  fix IH 1. intros x p q V. destruct x; try exact V.
  - (* array *)
    cbn [to_binding_pattern]. destruct (last_index E (length elements)) as [li|]; [|exact I].
    apply inv_array in V. destruct V as [p1 p2 V1 V2 V3]. apply ck_bind.
    eapply ck_conseq with (P := fun es => holes (fun x => spells (T_APat x)) es p1 p2).
    2:{ intros es H. constructor. econstructor; eauto. }
    clear V1 V3. revert p1 V2. generalize 0%N as i.
    induction elements as [|x l IHl]; intros i p1 V2; [inversion V2; constructor|].
    apply holes_inv in V2. specialize (IHl (i + 1)). apply ck_bind. destruct x as [[e|e esp]|].
    + destruct V2 as (q1 & He & Hl). apply inv_elem in He.
      apply ck_bind. eapply ck_conseq; [exact (IH e _ _ He)|]. cbv beta. clear IH. intros y Hy. apply ck_bind.
      eapply ck_conseq; [exact (@apat_element_spells _ _ _ _ Hy)|]. cbv beta. intros z Hz. cbn [ck]. apply ck_bind.
      destruct Hl as [[-> ->]|(q2 & Hc & Hl)].
      * apply holes_mk. eauto.
      * eapply ck_conseq; [exact (IHl _ Hl)|]. cbv beta. intros ys Hys. apply holes_mk. eauto 8.
    + destruct (negb (i =? li)); [exact I|].
      destruct V2 as (q1 & He & Hl). apply inv_elem_spread in He. destruct He as (q0 & H0 & He).
      apply ck_bind. eapply ck_conseq; [exact (IH e _ _ He)|]. cbv beta. clear IH. intros y Hy. apply ck_bind.
      eapply ck_conseq; [exact (@strict_binding_spells _ _ _ _ Hy)|]. cbv beta. intros z Hz. cbn [ck]. apply ck_bind.
      assert (Hz' : spells (T_APat (AP_Rest z)) p1 q1) by (econstructor; eauto).
      destruct Hl as [[-> ->]|(q2 & Hc & Hl)].
      * apply holes_mk. eauto.
      * eapply ck_conseq; [exact (IHl _ Hl)|]. cbv beta. intros ys Hys. apply holes_mk. eauto 8.
    + destruct V2 as (q1 & Hc & Hl). cbn [ck]. apply ck_bind. eapply ck_conseq; [exact (IHl _ Hl)|]. cbv beta. intros ys Hys. apply holes_mk. eauto.
  - (* assignment *)
    cbn [to_binding_pattern]. destruct (String.eqb operator "=") eqn:Ho; [|exact V].
    apply inv_assign in V. destruct V as (p1 & p2 & V1 & [V2 (x & V2' & Hx)] & V3). apply String.eqb_eq in Ho. rewrite Ho in Hx. apply spell_assign in Hx. subst x.
    apply ck_bind. eapply ck_conseq; [exact (IH x1 _ _ V1)|]. cbv beta. intros y Hy. apply ck_bind.
    eapply ck_conseq; [exact (@strict_binding_spells _ _ _ _ Hy)|]. cbv beta. intros b Hb. cbn [ck].
    eapply S_assignment_pattern; [exact Hb|split; eassumption|exact V3].
  - cbn. apply inv_identifier in V; destruct V; constructor; auto.
  - (* object *)
    cbn [to_binding_pattern]. cbv zeta. generalize (N.of_nat (length properties - 1)) as li. intros li.
    apply inv_object in V. destruct V as [p1 p2 V1 V2 V3]. apply ck_bind.
    eapply ck_conseq with (P := fun es => commas (fun x => spells (T_OPat x)) es p1 p2).
    2:{ intros es H. constructor. econstructor; eauto. }
    clear V1 V3. revert p1 V2. generalize 0%N as i.
    induction properties as [|x l IHl]; intros i p1 V2; [inversion V2; constructor|].
    apply properties_inv in V2. specialize (IHl (i + 1)). apply ck_bind. destruct V2 as [(q1 & He & Hl)|(q1 & He & _)].
    2:{ destruct He as (k & c & f & sp' & r & s & -> & _). exact I. }
    eapply ck_conseq with (P := fun y => spells (T_OPat y) p1 q1).
    2:{ intros y Hy. apply ck_bind. destruct Hl as [[-> ->]|(q2 & Hc & Hl)].
        - apply commas_mk. eauto.
        - eapply ck_conseq; [exact (IHl _ Hl)|]. cbv beta. intros ys Hys. apply commas_mk. eauto 8. }
    destruct x as [key computed v kind me sh psp|e psp].
    + apply ck_bind. destruct v as [[| | | | | |e]|]; try exact I.
      * destruct (inv_prop He) as (-> & r1 & r2 & r3 & K1 & K2 & K3 & K4).
        apply ck_bind. eapply ck_conseq; [exact (IH e _ _ K4)|]. cbv beta. clear IH IHl. intros y Hy. apply ck_bind.
        eapply ck_conseq; [exact (@pattern_value_spells _ _ _ _ Hy)|]. cbv beta. intros z Hz. cbn [ck].
        destruct K3 as [[-> K3]|[-> K3]]; [eapply S_opat_lit; eauto|eapply S_opat_lit_default; eauto].
      * destruct (inv_prop_short He) as (-> & -> & r1 & K1 & K2). cbn [ck]. eapply S_opat_lit_short; eauto.
    + destruct (i =? li); [|exact I]. apply inv_prop_spread in He. destruct He as (r1 & H0 & He).
      apply ck_bind. eapply ck_conseq; [exact (IH e _ _ He)|]. cbv beta. clear IH IHl. intros y Hy. apply ck_bind.
      eapply ck_conseq; [exact (@strict_binding_spells _ _ _ _ Hy)|]. cbv beta. intros z Hz. cbn [ck]. eapply S_opat_rest; eauto.
  - destruct (no_spread V).
Qed.

Lemma to_binding_spells x p q : spn x p q -> ck (to_binding E x) (fun b => spells (T_Bind b) p q).
Proof.
  intros H. unfold to_binding. apply ck_bind. eapply ck_conseq; [exact (to_binding_pattern_spells H)|]. cbv beta. clear H. intros y H.
  destruct y; try (apply S_bind_expr; exact H); cbn.
  - constructor. eapply inv_apat; eauto.
  - apply inv_binding_id in H; destruct H; constructor; auto.
  - constructor. eapply inv_opat; eauto.
Qed.
Lemma assign_rest_spells t x sp p q : spn x p q -> ck (assign_rest_argument E t x sp) (fun b => spells (T_Bind b) p q).
Proof.
  intros H. assert (G : ck (if negb (att_eqb (assign_target_type x) ASimple) then node_error InvalidLhsInAssignment (sp_start sp) else to_binding E x)
    (fun b => spells (T_Bind b) p q)).
  { destruct (negb _); [exact I|]. apply to_binding_spells. exact H. }
  destruct x; try exact G; exact I.
Qed.
Lemma assignment_element_spells x p q : spn x p q -> ck (assignment_element_of x) (fun y => spells (T_Node y) p q).
Proof.
  intros H.
  assert (G : ck (if negb (att_eqb (assign_target_type x) ASimple)
    then match expr_span x with Some sp => node_error InvalidLhsInAssignment (sp_start sp) | None => CPanic P_ExprSpan end
    else COk x) (fun y => spells (T_Node y) p q)).
  { destruct (negb _); [|exact H]. destruct (expr_span x); exact I. }
  destruct x; try exact G. cbn [assignment_element_of]. destruct (String.eqb operator "=") eqn:Ho; [|exact G].
  clear G; destruct (negb _); [exact I|]. cbn [ck].
  apply inv_assign in H. destruct H as (p1 & p2 & V1 & [V2 (x & V2' & Hx)] & V3). apply String.eqb_eq in Ho. rewrite Ho in Hx. apply spell_assign in Hx. subst x.
  eapply S_assignment_pattern; [apply S_bind_expr; exact V1|split; eassumption|exact V3].
Qed.

Lemma to_assignment_pattern_spells : forall x p q, spn x p q -> ck (to_assignment_pattern E x) (fun y => spells (T_Node y) p q).
Proof.
  fix IH 1. intros x p q V. destruct x; try exact V.
  - (* array *)
    cbn [to_assignment_pattern]. cbv zeta.
    assert (Hn : 0 + N.of_nat (length elements) <= N.of_nat (length elements)) by lia. revert Hn.
    generalize (N.of_nat (length elements)) at 2 3 as li. intros li Hn.
    apply inv_array in V. destruct V as [p1 p2 V1 V2 V3]. apply ck_bind.
    eapply ck_conseq with (P := fun es => holes (fun x => spells (T_AAPat x)) es p1 p2).
    2:{ intros es H. constructor. econstructor; eauto. }
    clear V1 V3. revert p1 V2 Hn. generalize 0%N as i.
    induction elements as [|x l IHl]; intros i p1 V2 Hn; [inversion V2; constructor|].
    apply holes_inv in V2. specialize (IHl (i + 1)). apply ck_bind.
    assert (Hn' : (i + 1) + N.of_nat (length l) <= li) by (cbn [length] in Hn; lia).
    destruct x as [[e|e esp]|].
    + destruct V2 as (q1 & He & Hl). apply inv_elem in He.
      apply ck_bind. eapply ck_conseq; [exact (IH e _ _ He)|]. cbv beta. clear IH. intros y Hy. apply ck_bind.
      eapply ck_conseq; [exact (@assignment_element_spells _ _ _ Hy)|]. cbv beta. intros z Hz. cbn [ck]. apply ck_bind.
      assert (Hz' : spells (T_AAPat (AA_Expr z)) p1 q1) by (constructor; auto).
      destruct Hl as [[-> ->]|(q2 & Hc & Hl)].
      * apply holes_mk. eauto.
      * eapply ck_conseq; [exact (IHl _ Hl Hn')|]. cbv beta. intros ys Hys. apply holes_mk. eauto 8.
    + destruct (i =? li) eqn:Hi; cbn [negb]; [|exact I].
      exfalso. clear -Hi Hn. apply N.eqb_eq in Hi. cbn [length] in Hn. lia.
    + destruct V2 as (q1 & Hc & Hl). cbn [ck]. apply ck_bind. eapply ck_conseq; [exact (IHl _ Hl Hn')|]. cbv beta. intros ys Hys. apply holes_mk. eauto.
  - (* object *)
    cbn [to_assignment_pattern]. cbv zeta. generalize (N.of_nat (length properties - 1)) as li. intros li.
    apply inv_object in V. destruct V as [p1 p2 V1 V2 V3]. apply ck_bind.
    eapply ck_conseq with (P := fun es => commas (fun x => spells (T_OPat x)) es p1 p2).
    2:{ intros es H. constructor. econstructor; eauto. }
    clear V1 V3. revert p1 V2. generalize 0%N as i.
    induction properties as [|x l IHl]; intros i p1 V2; [inversion V2; constructor|].
    apply properties_inv in V2. specialize (IHl (i + 1)). apply ck_bind. destruct V2 as [(q1 & He & Hl)|(q1 & He & _)].
    2:{ destruct He as (k & c & f & sp' & r & s & -> & _). exact I. }
    eapply ck_conseq with (P := fun y => spells (T_OPat y) p1 q1).
    2:{ intros y Hy. apply ck_bind. destruct Hl as [[-> ->]|(q2 & Hc & Hl)].
        - apply commas_mk. eauto.
        - eapply ck_conseq; [exact (IHl _ Hl)|]. cbv beta. intros ys Hys. apply commas_mk. eauto 8. }
    destruct x as [key computed v kind me sh psp|e psp].
    + apply ck_bind. destruct v as [[| | | | | |e]|]; try exact I.
      * destruct (inv_prop He) as (-> & r1 & r2 & r3 & K1 & K2 & K3 & K4).
        apply ck_bind. eapply ck_conseq; [exact (IH e _ _ K4)|]. cbv beta. clear IH IHl. intros y Hy. apply ck_bind.
        eapply ck_conseq; [exact (@assignment_element_spells _ _ _ Hy)|]. cbv beta. intros z Hz. cbn [ck].
        apply S_val_expr in Hz.
        destruct K3 as [[-> K3]|[-> K3]]; [eapply S_opat_lit; eauto|eapply S_opat_lit_default; eauto].
      * destruct (inv_prop_short He) as (-> & -> & r1 & K1 & K2). cbn [ck]. eapply S_opat_lit_short; eauto.
    + destruct (negb (i =? li)); [exact I|]. apply inv_prop_spread in He. destruct He as (r1 & H0 & He).
      apply ck_bind. eapply ck_conseq; [exact (@assign_rest_spells _ _ _ _ _ He)|]. cbv beta. intros z Hz. cbn [ck]. eapply S_opat_rest; eauto.
Qed.
End WithEnv.
