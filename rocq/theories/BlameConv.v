(** * BlameConv: errors of the conversions of expressions to patterns name the beginning
    of a part (proofs for C50). *)
From Verif Require Import Base Punct Token Scanner Ast Convert ParserBase ParserExpr.
From Verif Require Import SpecLex SpecSpell SpecBlame Rel BlameBase.
Set Implicit Arguments.

Section Conv.
Context (E : env) (src : str).
Notation sp_ok := (sp_ok E src).
Notation ok := (crok (conv_error E src)).
Notation g_node := (fun x => r_node sp_ok eq x x).
Notation g_bind := (fun x => r_bind sp_ok eq x x).

Lemma ok_bind A B (G : A -> Prop) (G' : B -> Prop) m k : ok G m -> (forall a, G a -> ok G' (k a)) -> ok G' (cbind m k).
Proof. intros H K. destruct m; cbn in *; auto. Qed.
Lemma ok_err A (G : A -> Prop) t sp : sp_ok sp sp -> In t [InvalidOrUnexpectedToken; ParamAfterRest; InvalidLhsInAssignment] -> ok G (node_error t (sp_start sp)).
Proof. intros [_ [(ts & t0 & H1 & H2) _]] H. cbn. split; [|exact H]. exists ts, t0. rewrite H2. auto. Qed.
Lemma ok_panic A (G : A -> Prop) p : ok G (CPanic p). Proof. exact I. Qed.
Lemma expr_span_ok x sp : g_node x -> expr_span x = Some sp -> sp_ok sp sp.
Proof. intros H G. destruct x; cbn in G; try discriminate G; injection G as <-; inversion H; subst; assumption. Qed.
Ltac okc := first [ apply ok_panic | apply ok_err; [assumption|cbn; tauto] | solve [cbn; egood] ].

Lemma strict_binding_ok m x : g_node x -> sp_ok m m -> ok g_bind (strict_binding_of (sp_start m) x).
Proof. intros H G. destruct x; cbn [strict_binding_of]; try okc; inversion H; subst; cbn; constructor; auto. Qed.
Lemma array_pattern_element_ok b x : g_node x -> ok (fun y => r_apat sp_ok eq y y) (array_pattern_element_of b x).
Proof.
  intros H. pose proof (@expr_span_ok x) as K.
  assert (O : ok (fun y => r_apat sp_ok eq y y) match expr_span x with Some sp => node_error InvalidOrUnexpectedToken (sp_start sp) | None => CPanic P_ExprSpan end).
  { destruct (expr_span x); [|exact I]. apply ok_err; auto. cbn; tauto. }
  destruct x; try exact O; cbn [array_pattern_element_of]; inversion H; subst; try (cbn; constructor; auto; fail).
  destruct b; [cbn; constructor; auto|okc].
Qed.
Lemma pattern_value_ok m x : g_node x -> sp_ok m m -> ok (fun y => r_val sp_ok eq y y) (pattern_value_of (sp_start m) x).
Proof. intros H G. destruct x; cbn [pattern_value_of]; try okc; inversion H; subst; cbn; constructor; auto. Qed.

Lemma to_binding_pattern_ok : forall x, g_node x -> ok g_node (to_binding_pattern E x).
Proof.
  fix IH 1. intros x H.
  destruct x; inversion H; subst; try (exact H).
  - (* array *)
    cbn [to_binding_pattern].
    destruct (last_index E (length elements)) as [li|]; [|exact I].
    eapply ok_bind with (G := fun l => Forall2 (orel (r_apat sp_ok eq)) l l).
    2:{ intros z Hz. cbn. constructor; auto. }
    match goal with F : Forall2 _ elements elements |- _ => revert F end. clear H. generalize 0%N as i.
    induction elements as [|o l IHl]; intros i F; inversion F; subst; [constructor|].
    eapply ok_bind with (G := fun z => orel (r_apat sp_ok eq) z z).
    2:{ intros z Hz. eapply ok_bind; [apply IHl; assumption|]. intros w Hw. cbn. constructor; auto. }
    match goal with Ho : orel _ o o |- _ => destruct o as [[e|e esp]|]; inversion Ho; subst end.
    + match goal with Ho : r_elem _ _ _ _ |- _ => inversion Ho; subst end.
      eapply ok_bind; [apply IH; assumption|]. intros p Hp.
      eapply ok_bind; [apply array_pattern_element_ok; exact Hp|]. intros q Hq. cbn. constructor; auto.
    + match goal with Ho : r_elem _ _ _ _ |- _ => inversion Ho; subst end.
      destruct (negb (i =? li)%N); [okc|].
      eapply ok_bind; [apply IH; assumption|]. intros p Hp.
      eapply ok_bind; [apply strict_binding_ok; [exact Hp|assumption]|]. intros q Hq. cbn. constructor; constructor; auto.
    + cbn. constructor.
  - (* assignment *)
    cbn [to_binding_pattern]. destruct (String.eqb operator "=").
    + eapply ok_bind; [apply IH; assumption|]. intros p Hp.
      eapply ok_bind; [apply strict_binding_ok; [exact Hp|assumption]|]. intros q Hq. cbn. constructor; auto.
    + exact H.
  - (* identifier *) cbn. constructor; auto.
  - (* object *)
    cbn [to_binding_pattern]. cbv zeta.
    generalize (N.of_nat (length properties - 1)) as li. intros li.
    eapply ok_bind with (G := fun l => Forall2 (r_opat sp_ok eq) l l).
    2:{ intros z Hz. cbn. constructor; auto. }
    match goal with F : Forall2 _ properties properties |- _ => revert F end. clear H. generalize 0%N as i.
    induction properties as [|o l IHl]; intros i F; inversion F; subst; [constructor|].
    eapply ok_bind with (G := fun z => r_opat sp_ok eq z z).
    2:{ intros z Hz. eapply ok_bind; [apply IHl; assumption|]. intros w Hw. cbn. constructor; auto. }
    match goal with Ho : r_prop _ _ o o |- _ => destruct o as [key computed v kind me sh psp|e psp]; inversion Ho; subst end.
    + eapply ok_bind with (G := fun z => orel (r_val sp_ok eq) z z).
      2:{ intros z Hz. cbn. constructor; auto. }
      match goal with Ho : orel _ v v |- _ => destruct v as [v|]; inversion Ho; subst end; [|cbn; constructor].
      destruct v; try okc.
      match goal with Ho : Rel.r_val _ _ _ _ |- _ => inversion Ho; subst end.
      eapply ok_bind; [apply IH; assumption|]. intros p Hp.
      eapply ok_bind; [apply pattern_value_ok; [exact Hp|assumption]|]. intros q Hq. cbn. constructor; auto.
    + destruct (i =? li)%N; [|okc].
      eapply ok_bind; [apply IH; assumption|]. intros p Hp.
      eapply ok_bind; [apply strict_binding_ok; [exact Hp|assumption]|]. intros q Hq. cbn. constructor; auto.
  - (* spread *)
    cbn [to_binding_pattern]. eapply ok_bind; [apply IH; assumption|]. intros p Hp.
    eapply ok_bind; [apply strict_binding_ok; [exact Hp|assumption]|]. intros q Hq. cbn. constructor; auto.
Qed.

Lemma to_binding_ok x : g_node x -> ok g_bind (to_binding E x).
Proof.
  intros H. unfold to_binding. eapply ok_bind; [apply to_binding_pattern_ok; exact H|]. intros p G.
  destruct p; cbn; try (constructor; exact G); inversion G; subst; constructor; auto.
Qed.
Lemma assignment_element_ok x : g_node x -> ok g_node (assignment_element_of x).
Proof.
  intros H. pose proof (@expr_span_ok x) as K.
  assert (O : ok g_node (if negb (att_eqb (assign_target_type x) ASimple)
    then match expr_span x with Some sp => node_error InvalidLhsInAssignment (sp_start sp) | None => CPanic P_ExprSpan end else COk x)).
  { destruct (negb _); [|exact H]. destruct (expr_span x); [|exact I]. apply ok_err; auto. cbn; tauto. }
  destruct x; try exact O. cbn [assignment_element_of]. destruct (String.eqb operator "="); [|exact O].
  inversion H; subst. clear O K. destruct (negb (att_eqb (assign_target_type x1) ASimple)); [okc|]. cbn. constructor; auto. constructor; auto.
Qed.
Lemma assign_rest_ok t x s : g_node x -> sp_ok s s -> In t [InvalidOrUnexpectedToken; ParamAfterRest; InvalidLhsInAssignment] -> ok g_bind (assign_rest_argument E t x s).
Proof.
  intros H G Ht.
  assert (O : ok g_bind (if negb (att_eqb (assign_target_type x) ASimple) then node_error InvalidLhsInAssignment (sp_start s) else to_binding E x)).
  { destruct (negb _); [okc|]. apply to_binding_ok. exact H. }
  unfold assign_rest_argument. destruct x; try exact O; inversion H; subst; apply ok_err; assumption.
Qed.
Lemma to_assignment_pattern_ok : forall x, g_node x -> ok g_node (to_assignment_pattern E x).
Proof.
  fix IH 1. intros x H.
  destruct x; inversion H; subst; try (exact H).
  - (* array *)
    cbn [to_assignment_pattern]. cbv zeta.
    eapply ok_bind with (G := fun l => Forall2 (orel (r_aapat sp_ok eq)) l l).
    2:{ intros z Hz. cbn. constructor; auto. }
    match goal with F : Forall2 _ elements elements |- _ => revert F end. clear H.
    remember (N.of_nat (length elements)) as li eqn:Hli. assert (HL : (0 + N.of_nat (length elements) = li)%N) by (rewrite Hli; lia). clear Hli. revert HL. generalize 0%N as i.
    induction elements as [|o l IHl]; intros i HL F; inversion F; subst; [constructor|].
    eapply ok_bind with (G := fun z => orel (r_aapat sp_ok eq) z z).
    2:{ intros z Hz. eapply ok_bind; [apply IHl; [cbn [length]; lia|assumption]|]. intros w Hw. cbn. constructor; auto. }
    match goal with Ho : orel _ o o |- _ => destruct o as [[e|e esp]|]; inversion Ho; subst end.
    + match goal with Ho : r_elem _ _ _ _ |- _ => inversion Ho; subst end.
      eapply ok_bind; [apply IH; assumption|]. intros p Hp.
      eapply ok_bind; [apply assignment_element_ok; exact Hp|]. intros q Hq. cbn. constructor; constructor; auto.
    + match goal with Ho : r_elem _ _ _ _ |- _ => inversion Ho; subst end.
      replace (i =? _)%N with false by (symmetry; apply N.eqb_neq; cbn [length]; lia). okc.
    + cbn. constructor.
  - (* object *)
    cbn [to_assignment_pattern]. cbv zeta.
    generalize (N.of_nat (length properties - 1)) as li. intros li.
    eapply ok_bind with (G := fun l => Forall2 (r_opat sp_ok eq) l l).
    2:{ intros z Hz. cbn. constructor; auto. }
    match goal with F : Forall2 _ properties properties |- _ => revert F end. clear H. generalize 0%N as i.
    induction properties as [|o l IHl]; intros i F; inversion F; subst; [constructor|].
    eapply ok_bind with (G := fun z => r_opat sp_ok eq z z).
    2:{ intros z Hz. eapply ok_bind; [apply IHl; assumption|]. intros w Hw. cbn. constructor; auto. }
    match goal with Ho : r_prop _ _ o o |- _ => destruct o as [key computed v kind me sh psp|e psp]; inversion Ho; subst end.
    + eapply ok_bind with (G := fun z => orel (r_val sp_ok eq) z z).
      2:{ intros z Hz. cbn. constructor; auto. }
      match goal with Ho : orel _ v v |- _ => destruct v as [v|]; inversion Ho; subst end; [|cbn; constructor].
      destruct v; try okc.
      match goal with Ho : Rel.r_val _ _ _ _ |- _ => inversion Ho; subst end.
      eapply ok_bind; [apply IH; assumption|]. intros p Hp.
      eapply ok_bind; [apply assignment_element_ok; exact Hp|]. intros q Hq. cbn. constructor; constructor; auto.
    + destruct (negb (i =? li)%N); [okc|].
      eapply ok_bind; [apply assign_rest_ok; [assumption|assumption|cbn; tauto]|]. intros q Hq. cbn. constructor; auto.
Qed.
End Conv.
