(** * GramPat: literals read as patterns (proofs). *)
From Verif Require Import Base Punct Token Ast Convert ParserBase ParserExpr SpecJson SpecBare SpecLayout SpecGrammar GramTac.
From Coq Require Import ZifyBool ZifyN ZifyNat.
Set Implicit Arguments.

Scheme assign_pat_i := Minimality for assign_pat Sort Prop
  with assign_item_i := Minimality for assign_item Sort Prop
  with assign_elems_i := Minimality for assign_elems Sort Prop
  with assign_props_i := Minimality for assign_props Sort Prop.
Combined Scheme assign_ind from assign_pat_i, assign_item_i, assign_elems_i, assign_props_i.
Scheme bind_pat_i := Minimality for bind_pat Sort Prop
  with bind_item_i := Minimality for bind_item Sort Prop
  with bind_elems_i := Minimality for bind_elems Sort Prop
  with bind_props_i := Minimality for bind_props Sort Prop.
Combined Scheme bindp_ind from bind_pat_i, bind_item_i, bind_elems_i, bind_props_i.

Lemma inj_assign o l r a s o' l' r' a' s' : AssignmentExpression o l r a s = AssignmentExpression o' l' r' a' s' -> o = o' /\ l = l' /\ r = r'.
Proof. intros H. injection H. auto. Qed.
Lemma inj_id x a s x' a' s' : Identifier x a s = Identifier x' a' s' -> x = x'.
Proof. intros H. injection H. auto. Qed.
Lemma inj_opat x a s x' a' s' : NObjectPattern x a s = NObjectPattern x' a' s' -> x = x'.
Proof. intros H. injection H. auto. Qed.

Section Conv.
Context (E : env).

(** ** Assignment patterns *)
Definition aelem (last i : N) (x : option arr_elem) : cres (option arr_apat) :=
  match x with
  | Some (AE_Expr e) => cbind (to_assignment_pattern E e) (fun p => cbind (assignment_element_of p) (fun q => COk (Some (AA_Expr q))))
  | Some (AE_Spread e esp) =>
    if negb (i =? last) then node_error ParamAfterRest (sp_start esp)
    else cbind (assign_rest_argument E InvalidRestBindingPattern e esp) (fun b => COk (Some (AA_Rest b)))
  | None => COk None
  end.
Definition aelems (last : N) := fix go (i : N) (l : list (option arr_elem)) : cres (list (option arr_apat)) :=
  match l with [] => COk [] | x :: l' => cbind (aelem last i x) (fun y => cbind (go (i + 1) l') (fun ys => COk (y :: ys))) end.
Lemma aelems_cons last i x l : aelems last i (x :: l) = cbind (aelem last i x) (fun y => cbind (aelems last (i + 1) l) (fun ys => COk (y :: ys))).
Proof. reflexivity. Qed.
Lemma aelems_eq es a sp : to_assignment_pattern E (ArrayExpression es a sp) =
  cbind (aelems (N.of_nat (length es)) 0 es) (fun ps => COk (ArrayAssignmentPattern ps ASimple sp)).
Proof. reflexivity. Qed.
Definition aprop (last i : N) (x : obj_prop) : cres obj_pat :=
  match x with
  | OE_Prop key computed v kind method shorthand psp =>
    cbind (match v with
           | Some (PV_Expr e) => cbind (to_assignment_pattern E e) (fun p => cbind (assignment_element_of p) (fun q => COk (Some (PV_Expr q))))
           | None => COk None
           | Some _ => node_error InvalidOrUnexpectedToken (sp_start psp)
           end) (fun v' => COk (OP_Prop key computed v' kind method shorthand))
  | OE_Spread e psp =>
    if negb (i =? last) then node_error ParamAfterRest (sp_start psp)
    else cbind (assign_rest_argument E InvalidLhsInAssignment e psp) (fun b => COk (OP_Rest b))
  end.
Definition aprops (last : N) := fix go (i : N) (l : list obj_prop) : cres (list obj_pat) :=
  match l with [] => COk [] | x :: l' => cbind (aprop last i x) (fun y => cbind (go (i + 1) l') (fun ys => COk (y :: ys))) end.
Lemma aprops_cons last i x l : aprops last i (x :: l) = cbind (aprop last i x) (fun y => cbind (aprops last (i + 1) l) (fun ys => COk (y :: ys))).
Proof. reflexivity. Qed.
Lemma aprops_eq es a sp : to_assignment_pattern E (ObjectExpression es a sp) =
  cbind (aprops (N.of_nat (length es - 1)) 0 es) (fun ps => COk (NObjectPattern ps ASimple sp)).
Proof. reflexivity. Qed.

Lemma target_conv e' : target (bare_node e') = true -> to_assignment_pattern E e' = COk e'.
Proof. destruct e'; cbn; intros H; try discriminate; reflexivity. Qed.
Lemma simple_elem p : simple p = true -> (forall o l r a sp, p <> AssignmentExpression o l r a sp) -> assignment_element_of p = COk p.
Proof. intros H Hp. unfold simple in H. unfold assignment_element_of. rewrite H. destruct p; try reflexivity. exfalso. eapply Hp. reflexivity. Qed.
Lemma target_simple' e e' : tr e e' -> target e = true -> simple e' = true.
Proof. intros [<- H] Ht. apply target_simple; auto. Qed.
Lemma rest_conv e e' t sp : tr e e' -> target e = true ->
  exists b, assign_rest_argument E t e' sp = COk b /\ bare_bind b = match e with Identifier x _ _ => B_Id x nowhere | _ => B_Expr e end.
Proof.
  intros H Ht. pose proof (target_simple' H Ht) as Hs. destruct H as [<- H]. unfold assign_rest_argument. unfold simple in Hs. rewrite Hs.
  destruct e'; cbn in Ht; try discriminate; cbn [negb to_binding to_binding_pattern cbind]; eexists; split; reflexivity.
Qed.
Lemma assign_conv :
  (forall e p, assign_pat e p -> forall e', tr e e' -> exists p', to_assignment_pattern E e' = COk p' /\ bare_node p' = p /\ simple p' = true /\
     (forall o l r a sp, p' <> AssignmentExpression o l r a sp)) /\
  (forall e p, assign_item e p -> forall e', tr e e' -> exists q p', to_assignment_pattern E e' = COk q /\ assignment_element_of q = COk p' /\ bare_node p' = p) /\
  (forall es ps, assign_elems es ps -> forall es' last i, map (option_map bare_elem) es' = es -> forallb good_opt es' = true ->
     exists ps', aelems last i es' = COk ps' /\ map (option_map bare_aapat) ps' = ps) /\
  (forall es ps, assign_props es ps -> forall es' i, map bare_prop es' = es -> forallb good_prop es' = true ->
     exists ps', aprops (i + N.of_nat (length es' - 1)) i es' = COk ps' /\ map bare_opat ps' = ps).
Proof.
  apply assign_ind.
  - intros e Ht e' H. exists e'. pose proof (target_simple' H Ht). destruct H as [<- H]. split; [apply target_conv; auto|]. split; auto. split; auto.
    intros o l r a sp ->. discriminate.
  - intros es ps Hes IH e' [H1 H2]. destruct e'; try discriminate H1. cbn [bare_node] in H1. injection H1 as <-. cbn [good] in H2.
    destruct (IH _ (N.of_nat (length elements)) 0 eq_refl H2) as (ps' & I1 & I2). rewrite aelems_eq, I1. cbn [cbind]. eexists. split; [reflexivity|].
    cbn [bare_node]. rewrite I2. split; [reflexivity|]. split; [reflexivity|discriminate].
  - intros es ps Hes IH e' [H1 H2]. destruct e'; try discriminate H1. cbn [bare_node] in H1. injection H1 as <-. cbn [good] in H2.
    destruct (IH _ 0 eq_refl H2) as (ps' & I1 & I2). rewrite aprops_eq. rewrite N.add_0_l in I1. rewrite I1. cbn [cbind]. eexists. split; [reflexivity|].
    cbn [bare_node]. rewrite I2. split; [reflexivity|]. split; [reflexivity|discriminate].
  - intros e p _ IH e' H. destruct (IH e' H) as (p' & I1 & I2 & I3 & I4). exists p', p'. split; auto. split; auto. apply simple_elem; auto.
  - intros p e e' [H1 H2]. destruct e'; try discriminate H1. cbn [bare_node] in H1. apply inj_assign in H1 as (-> & <- & <-). cbn [good] in H2.
    eexists _, _. cbn [to_assignment_pattern]. split; [reflexivity|]. cbn [assignment_element_of]. unfold simple in H2. rewrite H2. cbn. split; reflexivity.
  - intros [|? ?] last i H _; [|discriminate]. exists []. split; reflexivity.
  - intros es ps _ IH [|x es'] last i H1 H2; [discriminate|]. destruct x; [discriminate|]. cbn [map option_map] in H1. injection H1 as H1. cbn [forallb good_opt andb] in H2.
    destruct (IH es' last (i + 1) H1 H2) as (ps' & I1 & I2). rewrite aelems_cons; cbn [aelem cbind]. rewrite I1. eexists. split; [reflexivity|]. cbn. rewrite I2. reflexivity.
  - intros e p es ps _ IH0 _ IH [|x es'] last i H1 H2; [discriminate|]. destruct x as [[e'|]|]; try discriminate. cbn [map option_map bare_elem] in H1. injection H1 as H0 H1.
    cbn [forallb good_opt good_elem] in H2. apply andb_prop in H2 as [H2 H3]. destruct (IH0 e') as (q & p' & J1 & J2 & J3); [split; auto|].
    destruct (IH es' last (i + 1) H1 H3) as (ps' & I1 & I2). rewrite aelems_cons; cbn [aelem]. rewrite J1. cbn [cbind]. rewrite J2. cbn [cbind]. rewrite I1. eexists. split; [reflexivity|].
    cbn. rewrite I2, J3. reflexivity.
  - intros [|? ?] i H _; [|discriminate]. exists []. split; reflexivity.
  - intros k es ps _ IH [|x es'] i H1 H2; [discriminate|]. destruct x as [k' c [v|] kd mt sh sp|]; try discriminate. cbn [map bare_prop option_map] in H1.
    injection H1 as <- -> -> -> -> H1. cbn [forallb good_prop andb] in H2. destruct (IH es' (i + 1) H1 H2) as (ps' & I1 & I2). destruct es' as [|y es'].
    + cbn in I1. injection I1 as <-. cbn in I2. subst ps. rewrite aprops_cons; cbn [aprop cbind]. eexists. split; reflexivity.
    + replace (i + N.of_nat (length (OE_Prop k' false None "init" false true sp :: y :: es') - 1)) with (i + 1 + N.of_nat (length (y :: es') - 1)) by (cbn [length]; lia).
      rewrite aprops_cons; cbn [aprop cbind]. rewrite I1. eexists. split; [reflexivity|]. cbn. cbn in I2. rewrite I2. reflexivity.
  - intros k c e p es ps _ IH0 _ IH [|x es'] i H1 H2; [discriminate|]. destruct x as [k' c' [v|] kd mt sh sp|]; try discriminate. cbn [map bare_prop option_map] in H1.
    injection H1 as <- -> H0 -> -> -> H1. destruct v; try discriminate. cbn [bare_val] in H0. injection H0 as H0. cbn [forallb good_prop good_val] in H2.
    apply andb_prop in H2 as [H2 H3]. destruct (IH0 e0) as (q & p' & J1 & J2 & J3); [split; auto|]. destruct (IH es' (i + 1) H1 H3) as (ps' & I1 & I2).
    destruct es' as [|y es'].
    + cbn in I1. injection I1 as <-. cbn in I2. subst ps. rewrite aprops_cons; cbn [aprop cbind]. rewrite J1. cbn [cbind]. rewrite J2. cbn [cbind]. eexists. split; [reflexivity|]. cbn. rewrite J3. reflexivity.
    + replace (i + N.of_nat (length (OE_Prop k' c (Some (PV_Expr e0)) "init" false false sp :: y :: es') - 1)) with (i + 1 + N.of_nat (length (y :: es') - 1)) by (cbn [length]; lia).
      rewrite aprops_cons; cbn [aprop cbind]. rewrite J1. cbn [cbind]. rewrite J2. cbn [cbind]. rewrite I1. eexists. split; [reflexivity|]. cbn. cbn in I2. rewrite I2, J3. reflexivity.
  - intros e Ht [|x es'] i H1 H2; [discriminate|]. destruct x as [|e' sp]; [discriminate|]. cbn [map bare_prop] in H1. injection H1 as H0 H1. destruct es'; [|discriminate].
    cbn [forallb good_prop andb] in H2. rewrite andb_true_r in H2. destruct (rest_conv InvalidLhsInAssignment sp (conj H0 H2) Ht) as (b & B1 & B2).
    rewrite aprops_cons; cbn [aprop length]. replace (i + N.of_nat (1 - 1)) with i by lia. rewrite N.eqb_refl. cbn [negb]. rewrite B1. cbn [cbind]. eexists. split; [reflexivity|]. cbn. rewrite B2. reflexivity.
Qed.
Lemma assign_pat_conv e p e' : assign_pat e p -> tr e e' -> exists p', to_assignment_pattern E e' = COk p' /\ bare_node p' = p /\ simple p' = true.
Proof. intros H He. destruct (proj1 assign_conv e p H e' He) as (p' & A & B & C & _). eauto. Qed.
Lemma assign_pat_for e p e' : assign_pat e p -> tr e e' -> exists p',
  match e' with ObjectExpression _ _ _ | ArrayExpression _ _ _ => to_assignment_pattern E e' | _ => COk e' end = COk p' /\ bare_node p' = p /\ simple p' = true.
Proof.
  intros H He. destruct (assign_pat_conv H He) as (p' & A & B & C). exists p'. split; [|auto].
  destruct He as [He _]. destruct e'; try exact A; try reflexivity; cbn in A; injection A as <-; reflexivity.
Qed.

(** ** Binding patterns *)
Definition belem (last i : N) (x : option arr_elem) : cres (option arr_pat) :=
  match x with
  | Some (AE_Expr e) => cbind (to_binding_pattern E e) (fun p => cbind (array_pattern_element_of (i =? last) p) (fun q => COk (Some q)))
  | Some (AE_Spread e esp) =>
    if negb (i =? last) then node_error ParamAfterRest (sp_start esp)
    else cbind (to_binding_pattern E e) (fun p => cbind (strict_binding_of (sp_start esp) p) (fun b => COk (Some (AP_Rest b))))
  | None => COk None
  end.
Definition belems (last : N) := fix go (i : N) (l : list (option arr_elem)) : cres (list (option arr_pat)) :=
  match l with [] => COk [] | x :: l' => cbind (belem last i x) (fun y => cbind (go (i + 1) l') (fun ys => COk (y :: ys))) end.
Lemma belems_cons last i x l : belems last i (x :: l) = cbind (belem last i x) (fun y => cbind (belems last (i + 1) l) (fun ys => COk (y :: ys))).
Proof. reflexivity. Qed.
Lemma belems_eq x es a sp : to_binding_pattern E (ArrayExpression (x :: es) a sp) =
  cbind (belems (N.of_nat (length es)) 0 (x :: es)) (fun ps => COk (NArrayPattern ps ASimple sp)).
Proof. reflexivity. Qed.
Definition bprop (last i : N) (x : obj_prop) : cres obj_pat :=
  match x with
  | OE_Prop key computed v kind method shorthand psp =>
    cbind (match v with
           | Some (PV_Expr e) => cbind (to_binding_pattern E e) (fun p => cbind (pattern_value_of (sp_start psp) p) (fun q => COk (Some q)))
           | None => COk None
           | Some _ => node_error InvalidOrUnexpectedToken (sp_start psp)
           end) (fun v' => COk (OP_Prop key computed v' kind method shorthand))
  | OE_Spread e psp =>
    if i =? last then cbind (to_binding_pattern E e) (fun p => cbind (strict_binding_of (sp_start psp) p) (fun b => COk (OP_Rest b)))
    else node_error InvalidOrUnexpectedToken (sp_start psp)
  end.
Definition bprops (last : N) := fix go (i : N) (l : list obj_prop) : cres (list obj_pat) :=
  match l with [] => COk [] | x :: l' => cbind (bprop last i x) (fun y => cbind (go (i + 1) l') (fun ys => COk (y :: ys))) end.
Lemma bprops_cons last i x l : bprops last i (x :: l) = cbind (bprop last i x) (fun y => cbind (bprops last (i + 1) l) (fun ys => COk (y :: ys))).
Proof. reflexivity. Qed.
Lemma bprops_eq es a sp : to_binding_pattern E (ObjectExpression es a sp) =
  cbind (bprops (N.of_nat (length es - 1)) 0 es) (fun ps => COk (NObjectPattern ps ASimple sp)).
Proof. reflexivity. Qed.

(** What the converted node is, for a binding and perhaps a default value. *)
Inductive bnode : binding -> option node -> node -> Prop :=
| bn_id x sp : bnode (B_Id x nowhere) None (NBindingIdentifier x sp)
| bn_array ps ps' a sp : map (option_map bare_apat) ps' = ps -> bnode (B_Array ps nowhere) None (NArrayPattern ps' a sp)
| bn_object ps ps' a sp : map bare_opat ps' = ps -> bnode (B_Object ps nowhere) None (NObjectPattern ps' a sp)
| bn_default b b' e e' sp : bare_bind b' = b -> bare_node e' = e -> bnode b (Some e) (NAssignmentPattern b' e' sp).
Lemma bnode_strict p q m : bnode p None q -> exists b, strict_binding_of m q = COk b /\ bare_bind b = p.
Proof. intros H. inversion H; subst; eexists; split; reflexivity. Qed.
Lemma bnode_elem p i q l : bnode p i q -> exists b, array_pattern_element_of l q = COk b /\ bare_apat b = pat_elem p i.
Proof. intros H. inversion H; subst; eexists; (split; [reflexivity|]); cbn; auto. Qed.
Lemma bnode_value p i q m : bnode p i q -> exists b, pattern_value_of m q = COk b /\ bare_val b = pat_value p i.
Proof. intros H. inversion H; subst; eexists; (split; [reflexivity|]); cbn; auto. Qed.
Lemma bind_conv :
  (forall e p, bind_pat e p -> forall e', bare_node e' = e -> exists q, to_binding_pattern E e' = COk q /\ bnode p None q) /\
  (forall e p i, bind_item e p i -> forall e', bare_node e' = e -> exists q, to_binding_pattern E e' = COk q /\ bnode p i q) /\
  (forall es ps, bind_elems es ps -> forall es' i, map (option_map bare_elem) es' = es ->
     exists ps', belems (i + N.of_nat (length es' - 1)) i es' = COk ps' /\ map (option_map bare_apat) ps' = ps) /\
  (forall es ps, bind_props es ps -> forall es' i, map bare_prop es' = es ->
     exists ps', bprops (i + N.of_nat (length es' - 1)) i es' = COk ps' /\ map bare_opat ps' = ps).
Proof.
  apply bindp_ind.
  - intros x e' H. destruct e'; try discriminate H. cbn [bare_node] in H. injection H as <-. cbn. eexists. split; [reflexivity|]. constructor.
  - intros es ps Hne _ IH e' H. destruct e'; try discriminate H. cbn [bare_node] in H. injection H as <-. destruct elements as [|x es]; [contradiction Hne; reflexivity|].
    destruct (IH _ 0 eq_refl) as (ps' & I1 & I2). rewrite belems_eq. cbn [length] in I1. replace (0 + N.of_nat (S (length es) - 1)) with (N.of_nat (length es)) in I1 by lia.
    rewrite I1. cbn [cbind]. eexists. split; [reflexivity|]. constructor. auto.
  - intros es ps _ IH e' H. destruct e'; try discriminate H. cbn [bare_node] in H. injection H as <-.
    destruct (IH _ 0 eq_refl) as (ps' & I1 & I2). rewrite bprops_eq. rewrite N.add_0_l in I1. rewrite I1. cbn [cbind]. eexists. split; [reflexivity|]. constructor. auto.
  - intros e p _ IH e' H. auto.
  - intros x e e' H. destruct e'; try discriminate H. cbn [bare_node] in H. apply inj_assign in H as (-> & H & <-). destruct e'1; try discriminate H. apply inj_id in H as <-.
    cbn. eexists. split; [reflexivity|]. constructor; reflexivity.
  - intros ps e Hps e' H. destruct e'; try discriminate H. cbn [bare_node] in H. apply inj_assign in H as (-> & H & <-). destruct e'1; try discriminate H. apply inj_opat in H as <-.
    cbn. eexists. split; [reflexivity|]. constructor; reflexivity.
  - intros [|? ?] i H; [|discriminate]. exists []. split; reflexivity.
  - intros es ps _ IH [|x es'] i H; [discriminate|]. destruct x; [discriminate|]. cbn [map option_map] in H. injection H as H.
    destruct (IH es' (i + 1) H) as (ps' & I1 & I2). destruct es' as [|y es'].
    + cbn in I1. injection I1 as <-. cbn in I2. subst ps. rewrite belems_cons; cbn [belem cbind]. eexists. split; reflexivity.
    + replace (i + N.of_nat (length (None :: y :: es') - 1)) with (i + 1 + N.of_nat (length (y :: es') - 1)) by (cbn [length]; lia).
      rewrite belems_cons; cbn [belem cbind]. rewrite I1. eexists. split; [reflexivity|]. cbn. cbn in I2. rewrite I2. reflexivity.
  - intros e p j es ps _ IH0 _ IH [|x es'] i H; [discriminate|]. destruct x as [[e'|]|]; try discriminate. cbn [map option_map bare_elem] in H. injection H as H0 H.
    destruct (IH0 e' H0) as (q & J1 & J2). destruct (bnode_elem (i =? i + N.of_nat (length (Some (AE_Expr e') :: es') - 1)) J2) as (b & B1 & B2).
    destruct (IH es' (i + 1) H) as (ps' & I1 & I2). rewrite belems_cons; cbn [belem]. rewrite J1. cbn [cbind]. rewrite B1. cbn [cbind]. destruct es' as [|y es'].
    + cbn in I1. injection I1 as <-. cbn in I2. subst ps. cbn [belems cbind]. eexists. split; [reflexivity|]. cbn. rewrite B2. reflexivity.
    + replace (i + N.of_nat (length (Some (AE_Expr e') :: y :: es') - 1)) with (i + 1 + N.of_nat (length (y :: es') - 1)) by (cbn [length]; lia).
      rewrite I1. eexists. split; [reflexivity|]. cbn. cbn in I2. rewrite I2, B2. reflexivity.
  - intros e p _ IH0 [|x es'] i H; [discriminate|]. destruct x as [[|e' sp]|]; try discriminate. cbn [map option_map bare_elem] in H. injection H as H0 H. destruct es'; [|discriminate].
    destruct (IH0 e' H0) as (q & J1 & J2). destruct (bnode_strict (sp_start sp) J2) as (b & B1 & B2). rewrite belems_cons; cbn [belem length]. replace (i + N.of_nat (1 - 1)) with i by lia.
    rewrite N.eqb_refl. cbn [negb]. rewrite J1. cbn [cbind]. rewrite B1. cbn [cbind]. eexists. split; [reflexivity|]. cbn. rewrite B2. reflexivity.
  - intros [|? ?] i H; [|discriminate]. exists []. split; reflexivity.
  - intros k es ps _ IH [|x es'] i H1; [discriminate|]. destruct x as [k' c [v|] kd mt sh sp|]; try discriminate. cbn [map bare_prop option_map] in H1.
    injection H1 as <- -> -> -> -> H1. destruct (IH es' (i + 1) H1) as (ps' & I1 & I2). destruct es' as [|y es'].
    + cbn in I1. injection I1 as <-. cbn in I2. subst ps. rewrite bprops_cons; cbn [bprop cbind]. eexists. split; reflexivity.
    + replace (i + N.of_nat (length (OE_Prop k' false None "init" false true sp :: y :: es') - 1)) with (i + 1 + N.of_nat (length (y :: es') - 1)) by (cbn [length]; lia).
      rewrite bprops_cons; cbn [bprop cbind]. rewrite I1. eexists. split; [reflexivity|]. cbn. cbn in I2. rewrite I2. reflexivity.
  - intros k c e p j es ps _ IH0 _ IH [|x es'] i H1; [discriminate|]. destruct x as [k' c' [v|] kd mt sh sp|]; try discriminate. cbn [map bare_prop option_map] in H1.
    injection H1 as <- -> H0 -> -> -> H1. destruct v; try discriminate. cbn [bare_val] in H0. injection H0 as H0.
    destruct (IH0 e0 H0) as (q & J1 & J2). destruct (bnode_value (sp_start sp) J2) as (b & B1 & B2). destruct (IH es' (i + 1) H1) as (ps' & I1 & I2).
    destruct es' as [|y es'].
    + cbn in I1. injection I1 as <-. cbn in I2. subst ps. rewrite bprops_cons; cbn [bprop cbind]. rewrite J1. cbn [cbind]. rewrite B1. cbn [cbind]. eexists. split; [reflexivity|]. cbn. rewrite B2. reflexivity.
    + replace (i + N.of_nat (length (OE_Prop k' c (Some (PV_Expr e0)) "init" false false sp :: y :: es') - 1)) with (i + 1 + N.of_nat (length (y :: es') - 1)) by (cbn [length]; lia).
      rewrite bprops_cons; cbn [bprop cbind]. rewrite J1. cbn [cbind]. rewrite B1. cbn [cbind]. rewrite I1. eexists. split; [reflexivity|]. cbn. cbn in I2. rewrite I2, B2. reflexivity.
  - intros e p _ IH0 [|x es'] i H1; [discriminate|]. destruct x as [|e' sp]; [discriminate|]. cbn [map bare_prop] in H1. injection H1 as H0 H1. destruct es'; [|discriminate].
    destruct (IH0 e' H0) as (q & J1 & J2). destruct (bnode_strict (sp_start sp) J2) as (b & B1 & B2).
    rewrite bprops_cons; cbn [bprop length]. replace (i + N.of_nat (1 - 1)) with i by lia. rewrite N.eqb_refl. rewrite J1. cbn [cbind]. rewrite B1. cbn [cbind]. eexists. split; [reflexivity|]. cbn. rewrite B2. reflexivity.
Qed.
Lemma bind_item_conv e p i e' : bind_item e p i -> tr e e' -> exists q, to_binding_pattern E e' = COk q /\ bnode p i q.
Proof. intros H [He _]. apply (proj1 (proj2 bind_conv) e p i H e' He). Qed.
End Conv.
