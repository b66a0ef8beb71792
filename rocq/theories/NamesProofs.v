(** * NamesProofs: the cover-grammar conversions keep the names (proofs). *)
From Verif Require Import Base Codepoint Punct Token Scanner Ast Convert ParserBase ParserExpr.
From Verif Require Import SpecNames Hoare.
From Coq Require Import ZifyBool ZifyN ZifyNat.
Set Implicit Arguments.

Section WithEnv.
Context (E : env).
(** What the outcome of a conversion says about the names. *)
Definition cn A (m : cres A) (o : option (list str)) (f : A -> list str) : Prop :=
  match m with
  | COk a => o = Some (f a)
  | CErr _ => o = None
  | CPanic p => p = P_PatternUnderflow /\ checked E = true \/ p = P_ExprSpan /\ o = None
  end.
(** The names of a result of [to_binding_pattern]. *)
Definition pat_names (element : bool) (y : node) : option (list str) :=
  match y with
  | NBindingIdentifier _ _ | NArrayPattern _ _ _ | NObjectPattern _ _ _ => Some (node_names y)
  | NAssignmentPattern _ _ _ => if element then Some (node_names y) else None
  | _ => None
  end.
Definition full_names (last el : bool) (y : node) : option (list str) :=
  match y with NRestElement b _ => if last then Some (binding_names b) else None | _ => pat_names el y end.
Definition full_cover (last el : bool) (x : node) : option (list str) :=
  match x with
  | NRestElement b _ => if last then Some (binding_names b) else None
  | NSpreadElement e _ => if last then cover_names false e else None
  | _ => cover_names el x
  end.
Definition cp (m : cres node) (o : bool -> bool -> option (list str)) : Prop :=
  match m with
  | COk y => forall la el, o la el = full_names la el y
  | CErr _ => forall la el, o la el = None
  | CPanic p => p = P_PatternUnderflow /\ checked E = true \/ p = P_ExprSpan /\ forall la el, o la el = None
  end.
Lemma full_cover_plain el x : full_cover false el x = cover_names el x.
Proof. destruct x; reflexivity. Qed.
Lemma full_names_plain el x : full_names false el x = pat_names el x.
Proof. destruct x; reflexivity. Qed.
Lemma strict_binding_names m y : cn (strict_binding_of m y) (pat_names false y) binding_names.
Proof. destruct y; reflexivity. Qed.
Lemma strict_of m x : cp (to_binding_pattern E x) (fun la el => full_cover la el x) ->
  cn (cbind (to_binding_pattern E x) (strict_binding_of m)) (cover_names false x) binding_names.
Proof.
  rewrite <- full_cover_plain. destruct (to_binding_pattern E x) as [y|e|p]; cbn [cp cn cbind].
  - intros H. rewrite H, full_names_plain. apply strict_binding_names.
  - auto.
  - intros [H|[H1 H2]]; auto.
Qed.
Definition elem_cover (last : bool) (o : option arr_elem) : option (list str) :=
  match o with
  | None => Some []
  | Some (AE_Expr (NRestElement b _)) => if last then Some (binding_names b) else None
  | Some (AE_Expr (NSpreadElement e _)) => if last then cover_names false e else None
  | Some (AE_Expr e) => cover_names true e
  | Some (AE_Spread e _) => if last then cover_names false e else None
  end.
Definition prop_cover (last : bool) (o : obj_prop) : option (list str) :=
  match o with
  | OE_Prop k _ None _ _ _ _ => Some (key_names k)
  | OE_Prop _ _ (Some (PV_Expr e)) _ _ _ _ => cover_names true e
  | OE_Prop _ _ (Some _) _ _ _ _ => None
  | OE_Spread e _ => if last then cover_names false e else None
  end.
Definition is_nil A (l : list A) : bool := match l with [] => true | _ => false end.
Fixpoint elems_cover (l : list (option arr_elem)) : option (list str) :=
  match l with [] => Some [] | o :: l' => cat (elem_cover (is_nil l') o) (elems_cover l') end.
Fixpoint props_cover (l : list obj_prop) : option (list str) :=
  match l with [] => Some [] | o :: l' => cat (prop_cover (is_nil l') o) (props_cover l') end.
Lemma cover_array el es a sp : cover_names el (ArrayExpression es a sp) = elems_cover es.
Proof.
  cbn [cover_names]. induction es as [|o l IH]; [reflexivity|]. cbn [elems_cover]. rewrite <- IH. f_equal.
  destruct o as [[e|e ?]|]; [destruct e| |]; destruct l; reflexivity.
Qed.
Lemma cover_object el ps a sp : cover_names el (ObjectExpression ps a sp) = props_cover ps.
Proof.
  cbn [cover_names]. induction ps as [|o l IH]; [reflexivity|]. cbn [props_cover]. rewrite <- IH. f_equal.
  destruct o as [k c [[]|] ? ? ? ?|e ?]; destruct l; reflexivity.
Qed.
Definition oapat_names (o : option arr_pat) : list str := match o with Some y => apat_names y | None => [] end.

(** Sequencing. *)
Lemma cn_list A (m1 : cres A) (m2 : cres (list A)) o1 o2 f : cn m1 o1 f -> cn m2 o2 (flat_map f) ->
  cn (cbind m1 (fun y => cbind m2 (fun ys => COk (y :: ys)))) (cat o1 o2) (flat_map f).
Proof.
  intros H1 H2. destruct m1 as [y|e|p]; cbn [cn cbind] in *.
  - subst o1. destruct m2 as [ys|e|p]; cbn [cn cbind] in *.
    + subst o2. reflexivity.
    + subst o2. reflexivity.
    + destruct H2 as [H2|[H2 ->]]; auto.
  - subst o1. reflexivity.
  - destruct H1 as [H1|[H1 ->]]; auto.
Qed.
Lemma cn_map A B (m : cres A) (k : A -> cres B) o f g : cn m o f -> (forall a, exists b, k a = COk b /\ g b = f a) -> cn (cbind m k) o g.
Proof. intros H Hk. destruct m as [a|e|p]; cbn [cn cbind] in *; auto. destruct (Hk a) as (b & Hb & Hg). rewrite Hb. cbn. rewrite Hg. exact H. Qed.

Lemma apat_element_names last y : cn (array_pattern_element_of last y) (full_names last true y) apat_names.
Proof. destruct y; try reflexivity; try (right; split; reflexivity). cbn. destruct last; reflexivity. Qed.
Lemma pattern_value_names m y : cn (pattern_value_of m y) (pat_names true y) value_names.
Proof. destruct y; reflexivity. Qed.
Lemma elem_cover_expr last e : elem_cover last (Some (AE_Expr e)) = full_cover last true e.
Proof. destruct e; reflexivity. Qed.
Lemma cp_bind x A (k : node -> cres A) o f la el : cp (to_binding_pattern E x) (fun la el => full_cover la el x) ->
  o = full_cover la el x -> (forall y, cn (k y) (full_names la el y) f) -> cn (cbind (to_binding_pattern E x) k) o f.
Proof.
  intros H -> Hk. destruct (to_binding_pattern E x) as [y|e|p]; cbn [cp cn cbind] in *.
  - rewrite H. apply Hk.
  - auto.
  - destruct H as [H|[H1 H2]]; auto.
Qed.

Lemma binding_pattern_names : forall x, cp (to_binding_pattern E x) (fun la el => full_cover la el x).
Proof.
  fix IH 1. intros x. destruct x; try (intros la el; reflexivity).
  - (* array *)
    assert (G : match last_index E (length elements) with
                | None => checked E = true
                | Some li => elements = [] \/ li = N.of_nat (length elements - 1)
                end).
    { unfold last_index. destruct elements; cbn [length]; [destruct (checked E); auto|right; lia]. }
    cbn [to_binding_pattern]. destruct (last_index E (length elements)) as [li|]; [|left; auto].
    match goal with |- cp (cbind ?m _) _ => assert (K : cn m (elems_cover elements) (flat_map oapat_names)) end.
    2:{ match type of K with cn ?m _ _ => destruct m as [es|e|p] end; cbn [cn cp cbind] in *.
        - intros la el. cbn [full_cover]. rewrite cover_array, K. reflexivity.
        - intros la el. cbn [full_cover]. rewrite cover_array, K. reflexivity.
        - destruct K as [K|[K1 K2]]; auto. right. split; auto. intros la el. cbn [full_cover]. rewrite cover_array, K2. reflexivity. }
    destruct G as [->|G]; [reflexivity|].
    assert (Hi : elements = [] \/ 0 + N.of_nat (length elements) = li + 1) by (destruct elements; auto; right; cbn [length] in *; lia). clear G.
    destruct Hi as [->|Hi]; [reflexivity|]. revert Hi. generalize 0%N as i. rename elements into l.
    induction l as [|o l IHl]; intros i Hi; [reflexivity|].
    assert (Hn : (i =? li) = is_nil l). { destruct l; cbn [is_nil length] in *; lia. }
    assert (Hi' : i + 1 + N.of_nat (length l) = li + 1) by (cbn [length] in *; lia).
    specialize (IHl _ Hi'). apply cn_list; [|exact IHl]. rewrite Hn. clear Hn Hi Hi' IHl.
    destruct o as [[e|e esp]|].
    + rewrite elem_cover_expr. eapply cp_bind with (la := is_nil l) (el := true); [exact (IH e)|reflexivity|]. intros y.
      eapply cn_map; [apply apat_element_names|]. intros z. eexists. split; reflexivity.
    + cbn [elem_cover]. destruct (is_nil l); cbn [negb]; [|reflexivity].
      eapply cp_bind with (la := false) (el := false); [exact (IH e)|symmetry; apply full_cover_plain|]. intros y. rewrite full_names_plain.
      eapply cn_map; [apply strict_binding_names|]. intros z. eexists. split; reflexivity.
    + reflexivity.
  - (* assignment *)
    cbn [to_binding_pattern]. destruct (String.eqb operator "=") eqn:Ho.
    + pose proof (@strict_of (sp_start sp) x1 (IH x1)) as K.
      replace (cbind (to_binding_pattern E x1) (fun p => cbind (strict_binding_of (sp_start sp) p) (fun b => COk (NAssignmentPattern b x2 sp))))
        with (cbind (cbind (to_binding_pattern E x1) (strict_binding_of (sp_start sp))) (fun b => COk (NAssignmentPattern b x2 sp)))
        by (destruct (to_binding_pattern E x1); reflexivity).
      destruct (cbind (to_binding_pattern E x1) (strict_binding_of (sp_start sp))) as [b|e|p]; cbn [cn cp cbind] in *.
      * intros la [|]; cbn [full_cover cover_names andb]; [rewrite Ho; exact K|reflexivity].
      * intros la [|]; cbn [full_cover cover_names andb]; [rewrite Ho; exact K|reflexivity].
      * destruct K as [K|[K1 K2]]; auto. right. split; auto. intros la [|]; cbn [full_cover cover_names andb]; [rewrite Ho; exact K2|reflexivity].
    + intros la el. cbn [full_cover cover_names]. rewrite Ho, andb_false_r. reflexivity.
  - (* object *)
    cbn [to_binding_pattern]. cbv zeta.
    match goal with |- cp (cbind ?m _) _ => assert (K : cn m (props_cover properties) (flat_map opat_names)) end.
    2:{ match type of K with cn ?m _ _ => destruct m as [es|e|p] end; cbn [cn cp cbind] in *.
        - intros la el. cbn [full_cover]. rewrite cover_object, K. reflexivity.
        - intros la el. cbn [full_cover]. rewrite cover_object, K. reflexivity.
        - destruct K as [K|[K1 K2]]; auto. right. split; auto. intros la el. cbn [full_cover]. rewrite cover_object, K2. reflexivity. }
    remember (N.of_nat (length properties - 1)) as li eqn:G.
    assert (Hi : properties = [] \/ 0 + N.of_nat (length properties) = li + 1) by (destruct properties; auto; right; cbn [length] in *; lia). clear G.
    destruct Hi as [->|Hi]; [reflexivity|]. revert Hi. generalize 0%N as i. rename properties into l.
    induction l as [|o l IHl]; intros i Hi; [reflexivity|].
    assert (Hn : (i =? li) = is_nil l). { destruct l; cbn [is_nil length] in *; lia. }
    assert (Hi' : i + 1 + N.of_nat (length l) = li + 1) by (cbn [length] in *; lia).
    specialize (IHl _ Hi'). apply cn_list; [|exact IHl]. rewrite Hn. clear Hn Hi Hi' IHl.
    destruct o as [key computed v kind me sh psp|e psp].
    + destruct v as [[| | | | | |e]|]; try reflexivity.
      cbn [prop_cover].
      assert (K : cn (cbind (to_binding_pattern E e) (fun p => cbind (pattern_value_of (sp_start psp) p) (fun q => COk (Some q)))) (cover_names true e)
                     (fun v => match v with Some v => value_names v | None => [] end)).
      { eapply cp_bind with (la := false) (el := true); [exact (IH e)|symmetry; apply full_cover_plain|]. intros y. rewrite full_names_plain.
        eapply cn_map; [apply pattern_value_names|]. intros z. eexists. split; reflexivity. }
      match type of K with cn ?m _ _ => destruct m as [[w|]|w|p] eqn:Hm end; cbn [cn cbind] in *; auto.
      exfalso. clear -Hm. destruct (to_binding_pattern E e); cbn in Hm; try discriminate. destruct (pattern_value_of _ _); discriminate.
    + cbn [prop_cover]. destruct (is_nil l); [|reflexivity].
      eapply cp_bind with (la := false) (el := false); [exact (IH e)|symmetry; apply full_cover_plain|]. intros y. rewrite full_names_plain.
      eapply cn_map; [apply strict_binding_names|]. intros z. eexists. split; reflexivity.
  - (* spread *)
    cbn [to_binding_pattern]. pose proof (@strict_of (sp_start sp) x (IH x)) as K.
    replace (cbind (to_binding_pattern E x) (fun p => cbind (strict_binding_of (sp_start sp) p) (fun b => COk (NRestElement b sp))))
      with (cbind (cbind (to_binding_pattern E x) (strict_binding_of (sp_start sp))) (fun b => COk (NRestElement b sp)))
      by (destruct (to_binding_pattern E x); reflexivity).
    destruct (cbind (to_binding_pattern E x) (strict_binding_of (sp_start sp))) as [b|e|p]; cbn [cn cp cbind] in *.
    * intros [|] el; cbn [full_cover full_names]; auto.
    * intros [|] el; cbn [full_cover full_names]; auto.
    * destruct K as [K|[K1 K2]]; auto. right. split; auto. intros [|] el; cbn [full_cover full_names]; auto.
Qed.

Lemma strict_binding_ok m x : cn (to_strict_binding E m x) (cover_names false x) binding_names.
Proof. apply strict_of. apply binding_pattern_names. Qed.

Lemma error_never A t s (a : A) s' : error_current E t s <> ROk a s'.
Proof. unfold error_current, bind. destruct (advance E GRegExp s); discriminate. Qed.
Definition rn (r : res pst (list func_param)) (o : option (list str)) : Prop :=
  match r with
  | ROk ps _ => o = Some (flat_map param_names ps)
  | RErr _ => o = None
  | RPanic p => p = P_PatternUnderflow /\ checked E = true \/ o = None
  | RFuel => o = None
  end.
Definition param_cover (last : bool) (x : node) : option (list str) :=
  match x with
  | NSpreadElement e _ => if last then cover_names false e else None
  | NRestElement b _ => if last then Some (binding_names b) else None
  | _ => cover_names true x
  end.
Lemma cover_params_cons x l : cover_params (x :: l) = cat (param_cover (is_nil l) x) (cover_params l).
Proof. cbn [cover_params]. f_equal. destruct x; destruct l; reflexivity. Qed.
Lemma param_cover_full last x : param_cover last x = full_cover last true x.
Proof. destruct x; reflexivity. Qed.
Definition r1 (r : res pst func_param) (o : option (list str)) : Prop :=
  match r with
  | ROk p _ => o = Some (param_names p)
  | RErr _ | RPanic _ | RFuel => o = None
  end.
Lemma param_of_pattern_names last y s : r1 (param_of_pattern E last y s) (full_names last true y).
Proof.
  assert (G : forall t, r1 (error_current E t s) None).
  { intros t. destruct (error_current E t s) eqn:H; try reflexivity. exfalso. eapply error_never. exact H. }
  destruct y; try apply G; try reflexivity. cbn. destruct last; [reflexivity|apply G].
Qed.
Lemma arrow_params_names seq s : rn (seq_to_arrow_params E seq s) (cover_params seq).
Proof.
  revert s. induction seq as [|x l IH]; intros s; [reflexivity|]. rewrite cover_params_cons, param_cover_full. cbn [seq_to_arrow_params].
  unfold bind at 1, lift_c. pose proof (binding_pattern_names x) as K. destruct (to_binding_pattern E x) as [y|e|p]; cbn [cp rn] in *.
  - rewrite K. unfold bind at 1. fold (is_nil l). change (match l with [] => true | _ => false end) with (is_nil l).
    pose proof (param_of_pattern_names (is_nil l) y s) as K1. destruct (param_of_pattern E (is_nil l) y s) as [q s1|e|p|]; cbn [r1 rn] in *.
    + rewrite K1. unfold bind. specialize (IH s1). destruct (seq_to_arrow_params E l s1) as [qs s2|e|p|]; cbn [rn ret] in *.
      * rewrite IH. reflexivity.
      * rewrite IH. reflexivity.
      * destruct IH as [IH| ->]; auto.
      * rewrite IH. reflexivity.
    + rewrite K1. reflexivity.
    + rewrite K1. auto.
    + rewrite K1. reflexivity.
  - rewrite K. reflexivity.
  - destruct K as [K|[_ K]]; [auto|]. rewrite K. auto.
Qed.
End WithEnv.
Lemma binding_accepts E m x ns : cover_names false x = Some ns ->
  (exists b, to_strict_binding E m x = COk b) \/ checked E = true /\ to_strict_binding E m x = CPanic P_PatternUnderflow.
Proof.
  intros H. pose proof (strict_binding_ok E m x) as K. destruct (to_strict_binding E m x) as [b|e|p]; cbn in K; eauto; try congruence.
  destruct K as [[-> K]|[_ K]]; auto. congruence.
Qed.
Lemma params_accepts E l s ns : cover_params l = Some ns ->
  (exists ps s', seq_to_arrow_params E l s = ROk ps s') \/ checked E = true /\ seq_to_arrow_params E l s = RPanic P_PatternUnderflow.
Proof.
  intros H. pose proof (arrow_params_names E l s) as K. destruct (seq_to_arrow_params E l s) as [ps s'|e|p|]; cbn in K; eauto; try congruence.
  destruct K as [[-> K]|K]; auto. congruence.
Qed.
