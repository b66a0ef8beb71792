(** * SimConv: the conversions of expressions to patterns respect the relation between
    trees (proofs). *)
From Verif Require Import Base Punct Token Scanner Ast Convert ParserBase ParserExpr Rel SimBase.
Set Implicit Arguments.

Section Conv.
Context (E : env) (sl : bool) (RM : marker -> marker -> Prop).
Notation RS := (RS RM).
Notation RA := (RA sl).
Notation r_node := (r_node RS RA).
Notation r_bind := (r_bind RS RA).
Notation r_apat := (r_apat RS RA).
Notation r_aapat := (r_aapat RS RA).
Notation r_opat := (r_opat RS RA).
Notation r_val := (r_val RS RA).

(** A successful conversion on one side gives a related one on the other; an error
    gives an error (unless [sl]). *)
Definition crr {A B} (R : A -> B -> Prop) (c : cres A) (c' : cres B) : Prop :=
  (forall a, c = COk a -> exists b, c' = COk b /\ R a b) /\
  (sl = false -> forall e, c = CErr e -> exists e', c' = CErr e' /\ erel RM e e').
Lemma crr_ok A B (R : A -> B -> Prop) a b : R a b -> crr R (COk a) (COk b).
Proof. intros H. split; [|discriminate]. intros x [= <-]. eauto. Qed.
Lemma crr_no A B (R : A -> B -> Prop) p (c' : cres B) : crr R (CPanic p) c'.
Proof. split; discriminate. Qed.
Lemma crr_err A B (R : A -> B -> Prop) t m m' : RM m m' -> crr R (@node_error A t m) (@node_error B t m').
Proof. intros H. split; [discriminate|]. intros _ e [= <-]. eexists. split; [reflexivity|]. split; [reflexivity|]. destruct m, m'. cbn. eauto. Qed.
Lemma crr_bind A A' B B' (R1 : A -> A' -> Prop) (R2 : B -> B' -> Prop) m m' k k' :
  crr R1 m m' -> (forall a a', R1 a a' -> crr R2 (k a) (k' a')) -> crr R2 (cbind m k) (cbind m' k').
Proof.
  intros [H H'] G. split.
  - intros b Hb. destruct m as [a| |]; try discriminate. destruct (H a eq_refl) as (a' & -> & Ha). exact (proj1 (G _ _ Ha) _ Hb).
  - intros S e He. destruct m as [a|e0|]; try discriminate.
    + destruct (H a eq_refl) as (a' & -> & Ha). exact (proj2 (G _ _ Ha) S _ He).
    + injection He as <-. destruct (H' S _ eq_refl) as (e' & -> & K). exists e'. split; [reflexivity|exact K].
Qed.
Lemma crr_if A B (R : A -> B -> Prop) (c : bool) m1 m2 (m1' m2' : cres B) : crr R m1 m1' -> crr R m2 m2' -> crr R (if c then m1 else m2) (if c then m1' else m2').
Proof. destruct c; auto. Qed.

Lemma RS_start a b : RS a b -> RM (sp_start a) (sp_start b). Proof. intros [H _]. exact H. Qed.
#[local] Hint Resolve RS_start : core.
Ltac rc := first [apply crr_err; solve [auto] | apply crr_no | apply crr_ok; solve [constructor; auto] ].
Lemma strict_binding_rel m m' x y : RM m m' -> r_node x y -> crr r_bind (strict_binding_of m x) (strict_binding_of m' y).
Proof. intros Hm []; cbn [strict_binding_of]; rc. Qed.
Lemma array_pattern_element_rel b x y : r_node x y -> crr r_apat (array_pattern_element_of b x) (array_pattern_element_of b y).
Proof. intros H; destruct H; cbn [array_pattern_element_of expr_span]; try rc. destruct b; rc. Qed.
Lemma pattern_value_rel m m' x y : RM m m' -> r_node x y -> crr r_val (pattern_value_of m x) (pattern_value_of m' y).
Proof. intros Hm []; cbn [pattern_value_of]; rc. Qed.

Lemma Forall2_len A B (R : A -> B -> Prop) l l' : Forall2 R l l' -> length l = length l'.
Proof. induction 1; cbn; auto. Qed.

Lemma to_binding_pattern_rel : forall x y, r_node x y -> crr r_node (to_binding_pattern E x) (to_binding_pattern E y).
Proof.
  fix IH 1. intros x y H.
  destruct x; inversion H; subst; try (apply crr_ok; exact H).
  - (* array *)
    cbn [to_binding_pattern].
    match goal with F : Forall2 _ elements ?l |- _ => rewrite <- (Forall2_len F) end.
    destruct (last_index E (length elements)) as [li|]; [|apply crr_no].
    eapply crr_bind with (R1 := Forall2 (orel r_apat)).
    2:{ intros z z' Hz. apply crr_ok. constructor; auto. apply RA_refl. }
    match goal with F : Forall2 _ elements ?l |- _ => revert F; generalize l end. clear H. generalize 0%N as i.
    induction elements as [|o l IHl]; intros i l' F; inversion F; subst; [apply crr_ok; constructor|].
    eapply crr_bind with (R1 := orel r_apat).
    2:{ intros z z' Hz. eapply crr_bind; [apply IHl; eassumption|]. intros w w' Hw. apply crr_ok. constructor; auto. }
    match goal with Ho : orel _ o ?o' |- _ => destruct o as [[e|e esp]|]; inversion Ho; subst end.
    + match goal with Ho : r_elem _ _ _ _ |- _ => inversion Ho; subst end.
      eapply crr_bind; [apply IH; eassumption|]. intros p p' Hp.
      eapply crr_bind; [apply array_pattern_element_rel; exact Hp|]. intros q q' Hq. apply crr_ok. constructor; auto.
    + match goal with Ho : r_elem _ _ _ _ |- _ => inversion Ho; subst end.
      apply crr_if; [apply crr_err; auto|].
      eapply crr_bind; [apply IH; eassumption|]. intros p p' Hp.
      eapply crr_bind; [apply strict_binding_rel; [auto|exact Hp]|]. intros q q' Hq. apply crr_ok. constructor; constructor; auto.
    + apply crr_ok. constructor.
  - (* assignment *)
    cbn [to_binding_pattern]. destruct (String.eqb operator "=").
    + eapply crr_bind; [apply IH; eassumption|]. intros p p' Hp.
      eapply crr_bind; [apply strict_binding_rel; [auto|exact Hp]|]. intros q q' Hq. apply crr_ok. constructor; auto.
    + apply crr_ok. exact H.
  - (* identifier *) apply crr_ok. constructor; auto.
  - (* object *)
    cbn [to_binding_pattern]. cbv zeta.
    match goal with F : Forall2 _ properties ?l |- _ => rewrite <- (Forall2_len F) end.
    generalize (N.of_nat (length properties - 1)) as li. intros li.
    eapply crr_bind with (R1 := Forall2 r_opat).
    2:{ intros z z' Hz. apply crr_ok. constructor; auto. apply RA_refl. }
    match goal with F : Forall2 _ properties ?l |- _ => revert F; generalize l end. clear H. generalize 0%N as i.
    induction properties as [|o l IHl]; intros i l' F; inversion F; subst; [apply crr_ok; constructor|].
    eapply crr_bind with (R1 := r_opat).
    2:{ intros z z' Hz. eapply crr_bind; [apply IHl; eassumption|]. intros w w' Hw. apply crr_ok. constructor; auto. }
    match goal with Ho : r_prop _ _ o ?o' |- _ => destruct o as [key computed v kind me sh psp|e psp]; inversion Ho; subst end.
    + eapply crr_bind with (R1 := orel r_val).
      2:{ intros z z' Hz. apply crr_ok. constructor; auto. }
      match goal with Ho : orel _ v ?v' |- _ => destruct v as [v|]; inversion Ho; subst end; [|apply crr_ok; constructor].
      destruct v; match goal with Ho : Rel.r_val _ _ _ _ |- _ => inversion Ho; subst end; try (apply crr_err; auto; fail).
      eapply crr_bind; [apply IH; eassumption|]. intros p p' Hp.
      eapply crr_bind; [apply pattern_value_rel; [auto|exact Hp]|]. intros q q' Hq. apply crr_ok. constructor; auto.
    + apply crr_if; [|apply crr_err; auto].
      eapply crr_bind; [apply IH; eassumption|]. intros p p' Hp.
      eapply crr_bind; [apply strict_binding_rel; [auto|exact Hp]|]. intros q q' Hq. apply crr_ok. constructor; auto.
  - (* spread *)
    cbn [to_binding_pattern]. eapply crr_bind; [apply IH; eassumption|]. intros p p' Hp.
    eapply crr_bind; [apply strict_binding_rel; [auto|exact Hp]|]. intros q q' Hq. apply crr_ok. constructor; auto.
Qed.

Lemma to_binding_rel x y : r_node x y -> crr r_bind (to_binding E x) (to_binding E y).
Proof.
  intros H. unfold to_binding. eapply crr_bind; [apply to_binding_pattern_rel; exact H|]. intros p q G.
  destruct G; apply crr_ok; constructor; auto; constructor; auto.
Qed.
Lemma assignable_eq' x y : sl = false -> r_node x y -> negb (att_eqb (assign_target_type y) ASimple) = negb (att_eqb (assign_target_type x) ASimple).
Proof. apply assignable_eq. Qed.
Lemma crr_lhs A B (R : A -> B -> Prop) x y (m1 m2 : cres A) (m1' m2' : cres B) : r_node x y -> (forall a, m1 <> COk a) -> crr R m1 m1' -> crr R m2 m2' ->
  crr R (if negb (att_eqb (assign_target_type x) ASimple) then m1 else m2) (if negb (att_eqb (assign_target_type y) ASimple) then m1' else m2').
Proof.
  intros H N H1 H2. split.
  - intros a Ha. destruct (negb (att_eqb (assign_target_type x) ASimple)) eqn:Q; [destruct (N _ Ha)|]. pose proof (assignable_rel H Q) as Q'. unfold not_assignable in Q'. rewrite Q'. exact (proj1 H2 _ Ha).
  - intros S. rewrite (assignable_eq' S H). destruct (negb (att_eqb (assign_target_type x) ASimple)); [exact (proj2 H1 S)|exact (proj2 H2 S)].
Qed.
Lemma expr_span_rel x y : r_node x y -> orel RS (expr_span x) (expr_span y).
Proof. intros []; cbn [expr_span]; constructor; auto. Qed.
Lemma assignable_rel' x y : r_node x y -> negb (att_eqb (assign_target_type x) ASimple) = false -> negb (att_eqb (assign_target_type y) ASimple) = false.
Proof. apply assignable_rel. Qed.
Lemma assignment_element_rel x y : r_node x y -> crr r_node (assignment_element_of x) (assignment_element_of y).
Proof.
  intros H.
  assert (O : crr r_node (if negb (att_eqb (assign_target_type x) ASimple)
    then match expr_span x with Some sp => node_error InvalidLhsInAssignment (sp_start sp) | None => CPanic P_ExprSpan end else COk x)
    (if negb (att_eqb (assign_target_type y) ASimple)
    then match expr_span y with Some sp => node_error InvalidLhsInAssignment (sp_start sp) | None => CPanic P_ExprSpan end else COk y)).
  { apply crr_lhs; [exact H| | |apply crr_ok; exact H].
    - intros a. destruct (expr_span x); discriminate.
    - destruct (expr_span_rel H); rc. }
  destruct H; try exact O. cbn [assignment_element_of]. destruct (String.eqb x0 "="); [|exact O].
  apply crr_lhs; [assumption|discriminate|apply crr_err; auto|]. apply crr_ok. constructor; auto. constructor; auto.
Qed.
Lemma assign_rest_rel t x y s s' : RS s s' -> r_node x y -> crr r_bind (assign_rest_argument E t x s) (assign_rest_argument E t y s').
Proof.
  intros Hs H.
  assert (O : crr r_bind (if negb (att_eqb (assign_target_type x) ASimple) then node_error InvalidLhsInAssignment (sp_start s) else to_binding E x)
     (if negb (att_eqb (assign_target_type y) ASimple) then node_error InvalidLhsInAssignment (sp_start s') else to_binding E y)).
  { apply crr_lhs; [exact H|discriminate|apply crr_err; auto|]. apply to_binding_rel. exact H. }
  unfold assign_rest_argument. destruct H; try exact O; apply crr_err; auto.
Qed.
Lemma to_assignment_pattern_rel : forall x y, r_node x y -> crr r_node (to_assignment_pattern E x) (to_assignment_pattern E y).
Proof.
  fix IH 1. intros x y H.
  destruct x; inversion H; subst; try (apply crr_ok; exact H).
  - (* array *)
    cbn [to_assignment_pattern]. cbv zeta.
    match goal with F : Forall2 _ elements ?l |- _ => rewrite <- (Forall2_len F) end.
    generalize (N.of_nat (length elements)) as li. intros li.
    eapply crr_bind with (R1 := Forall2 (orel r_aapat)).
    2:{ intros z z' Hz. apply crr_ok. constructor; auto. apply RA_refl. }
    match goal with F : Forall2 _ elements ?l |- _ => revert F; generalize l end. clear H. generalize 0%N as i.
    induction elements as [|o l IHl]; intros i l' F; inversion F; subst; [apply crr_ok; constructor|].
    eapply crr_bind with (R1 := orel r_aapat).
    2:{ intros z z' Hz. eapply crr_bind; [apply IHl; eassumption|]. intros w w' Hw. apply crr_ok. constructor; auto. }
    match goal with Ho : orel _ o ?o' |- _ => destruct o as [[e|e esp]|]; inversion Ho; subst end.
    + match goal with Ho : r_elem _ _ _ _ |- _ => inversion Ho; subst end.
      eapply crr_bind; [apply IH; eassumption|]. intros p p' Hp.
      eapply crr_bind; [apply assignment_element_rel; exact Hp|]. intros q q' Hq. apply crr_ok. constructor; constructor; auto.
    + match goal with Ho : r_elem _ _ _ _ |- _ => inversion Ho; subst end.
      apply crr_if; [apply crr_err; auto|].
      eapply crr_bind; [apply assign_rest_rel; eassumption|]. intros p p' Hp.
      apply crr_ok. constructor; constructor; auto.
    + apply crr_ok. constructor.
  - (* object *)
    cbn [to_assignment_pattern]. cbv zeta.
    match goal with F : Forall2 _ properties ?l |- _ => rewrite <- (Forall2_len F) end.
    generalize (N.of_nat (length properties - 1)) as li. intros li.
    eapply crr_bind with (R1 := Forall2 r_opat).
    2:{ intros z z' Hz. apply crr_ok. constructor; auto. apply RA_refl. }
    match goal with F : Forall2 _ properties ?l |- _ => revert F; generalize l end. clear H. generalize 0%N as i.
    induction properties as [|o l IHl]; intros i l' F; inversion F; subst; [apply crr_ok; constructor|].
    eapply crr_bind with (R1 := r_opat).
    2:{ intros z z' Hz. eapply crr_bind; [apply IHl; eassumption|]. intros w w' Hw. apply crr_ok. constructor; auto. }
    match goal with Ho : r_prop _ _ o ?o' |- _ => destruct o as [key computed v kind me sh psp|e psp]; inversion Ho; subst end.
    + eapply crr_bind with (R1 := orel r_val).
      2:{ intros z z' Hz. apply crr_ok. constructor; auto. }
      match goal with Ho : orel _ v ?v' |- _ => destruct v as [v|]; inversion Ho; subst end; [|apply crr_ok; constructor].
      destruct v; match goal with Ho : Rel.r_val _ _ _ _ |- _ => inversion Ho; subst end; try (apply crr_err; auto; fail).
      eapply crr_bind; [apply IH; eassumption|]. intros p p' Hp.
      eapply crr_bind; [apply assignment_element_rel; exact Hp|]. intros q q' Hq. apply crr_ok. constructor; constructor; auto.
    + apply crr_if; [apply crr_err; auto|].
      eapply crr_bind; [apply assign_rest_rel; eassumption|]. intros p p' Hp. apply crr_ok. constructor; auto.
Qed.
Lemma binding_to_node_rel x y : r_bind x y -> crr r_node (binding_to_node x) (binding_to_node y).
Proof. intros []; cbn [binding_to_node]; try apply crr_no; apply crr_ok; constructor; auto using RA_refl. Qed.
Lemma binding_to_id_rel x y : r_bind x y -> crr (r_id RS) (binding_to_id x) (binding_to_id y).
Proof. intros []; cbn [binding_to_id]; try apply crr_no. apply crr_ok. split; auto. Qed.
Lemma key_as_node_rel x y : r_key RS RA x y -> r_node (key_as_node x) (key_as_node y).
Proof.
  intros []; cbn [key_as_node]; auto.
  - match goal with H : r_id _ _ _ |- _ => destruct H as [H1 H2]; rewrite H1 end. constructor; auto using RA_refl.
  - match goal with H : r_lit _ _ _ |- _ => destruct H as (H1 & H2 & H3); rewrite H1, H2 end. constructor; auto using RA_refl.
Qed.
Lemma arg_as_node_rel x y : r_arg RS RA x y -> r_node (arg_as_node x) (arg_as_node y).
Proof. intros []; cbn [arg_as_node]; auto. constructor; auto. Qed.
Lemma sim_conv I A B (R : A -> B -> Prop) (c : cres A) (c' : I -> cres B) :
  (forall i, crr R c (c' i)) -> sim E sl RM R (lift_c c) (fun i => lift_c (c' i)).
Proof. intros H. apply sim_lift_c; [intros i a Ha; exact (proj1 (H i) a Ha)|intros S i e He; exact (proj2 (H i) S e He)]. Qed.
End Conv.
