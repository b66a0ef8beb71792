(** * RenTac: proof automation for the lock step of a renamed run (proofs, C60; cf.
    SimTac). *)
From Verif Require Import Base Codepoint Punct Token Scanner Ast Convert ParserBase ParserExpr ParserStmt Parser SpecLex SpecRename Rel SimBase RenRel RenBase RenConv.
Set Implicit Arguments.

Definition prel {A A' B B'} (R1 : A -> A' -> Prop) (R2 : B -> B' -> Prop) (x : A * B) (y : A' * B') : Prop :=
  R1 (fst x) (fst y) /\ R2 (snd x) (snd y).

Definition specialb (w : string) : bool := existsb (str_eqb (s2l w)) (map s2l (reserved_words ++ contextual_words)).
Lemma str_eqb_eq' a : forall b, str_eqb a b = true <-> a = b.
Proof.
  induction a as [|x a IH]; intros [|y b]; cbn [str_eqb]; try (split; congruence).
  rewrite andb_true_iff, N.eqb_eq, IH. split; [intros [-> ->]; reflexivity|intros [= -> ->]; auto].
Qed.
Lemma specialb_ok w : specialb w = true -> special (s2l w).
Proof. unfold specialb, special. rewrite existsb_exists. intros (x & H & G). apply str_eqb_eq' in G. rewrite G. exact H. Qed.

Section Ren.
Context (E : env) (rho : str -> str).
Hypothesis keeps : keeps_special rho E.
Notation tren := (tren rho).
Lemma ren_eqb s w : specialb w = true -> str_eqb (rho s) (s2l w) = str_eqb s (s2l w).
Proof.
  intros H. apply specialb_ok in H. apply eq_true_iff_eq. rewrite !str_eqb_eq'. exact (proj1 keeps _ H s).
Qed.
Lemma ren_const w : specialb w = true -> rho (s2l w) = s2l w.
Proof. intros H. apply specialb_ok in H. apply (proj1 keeps _ H). reflexivity. Qed.
Lemma ren_v_punc v : v_punc (ren_value rho v) = v_punc v.
Proof. destruct v; reflexivity. Qed.
Lemma ren_v_string v : v_string (ren_value rho v) = option_map rho (v_string v).
Proof. destruct v; reflexivity. Qed.
Lemma ren_to_string q t : t_to_string (tren q t) = option_map rho (t_to_string t).
Proof. unfold t_to_string, RenBase.tren. cbn [tval]. destruct (tval t); cbn; try reflexivity. rewrite (proj2 (proj2 keeps)). reflexivity. Qed.
Lemma ren_matches q t w : specialb w = true -> matches_str (tren q t) w = matches_str t w.
Proof. intros H. unfold matches_str, RenBase.tren. cbn [tval]. destruct (tval t); cbn; try reflexivity. apply ren_eqb. exact H. Qed.
Lemma ren_punc q t p : matches_punc (tren q t) p = matches_punc t p.
Proof. unfold matches_punc, RenBase.tren. cbn [tval]. destruct (tval t); reflexivity. Qed.
Lemma ren_tok_is q t y : tok_is (tren q t) y = tok_is t y. Proof. reflexivity. Qed.
Lemma ren_tok_punc q t p : tok_punc (tren q t) p = tok_punc t p.
Proof. unfold tok_punc. rewrite ren_punc. reflexivity. Qed.
Lemma ren_tok_kw q t w : specialb w = true -> tok_kw (tren q t) w = tok_kw t w.
Proof. intros H. unfold tok_kw. rewrite ren_matches by exact H. reflexivity. Qed.
Lemma ren_tok_id q t w : specialb w = true -> tok_id (tren q t) w = tok_id t w.
Proof. intros H. unfold tok_id. rewrite ren_matches by exact H. reflexivity. Qed.
Lemma ren_assign_op q t : is_assign_op (tren q t) = is_assign_op t.
Proof. unfold is_assign_op, RenBase.tren. cbn [tval]. destruct (tval t); reflexivity. Qed.
Lemma ren_update_op q t : is_update_op (tren q t) = is_update_op t.
Proof. unfold is_update_op, RenBase.tren. cbn [tval]. destruct (tval t); reflexivity. Qed.
Lemma ren_bin_op q t : is_bin_op (tren q t) = is_bin_op t.
Proof. unfold is_bin_op. rewrite !ren_matches by reflexivity. cbn [ttype tval RenBase.tren]. destruct (ttype t); try reflexivity. destruct (tval t); reflexivity. Qed.
Lemma ren_precedence b q t : precedence b (tren q t) = precedence b t.
Proof. unfold precedence. rewrite !ren_matches by reflexivity. cbn [ttype tval RenBase.tren]. destruct (ttype t); try reflexivity. destruct (tval t); reflexivity. Qed.
Lemma ren_unary_op b q t : is_unary_op b (tren q t) = is_unary_op b t.
Proof.
  unfold is_unary_op, t_to_str. cbn [ttype tval RenBase.tren]. destruct (tval t); cbn [ren_value]; try reflexivity.
  rewrite !ren_eqb by reflexivity. reflexivity.
Qed.
Lemma ren_strict_kw q t : is_strict_reserved_kw (tren q t) = is_strict_reserved_kw t.
Proof.
  unfold is_strict_reserved_kw, t_to_str. cbn [tval RenBase.tren]. destruct (tval t); cbn [ren_value]; try reflexivity.
  cbn [existsb]. rewrite !ren_eqb by reflexivity. reflexivity.
Qed.
Lemma ren_iteration q t : is_iteration_kw (tren q t) = is_iteration_kw t.
Proof. unfold is_iteration_kw. rewrite !ren_matches by reflexivity. reflexivity. Qed.
Lemma ren_hoistable q t : is_hoistable_dclr_kw (tren q t) = is_hoistable_dclr_kw t.
Proof. unfold is_hoistable_dclr_kw. rewrite !ren_matches by reflexivity. reflexivity. Qed.
Lemma ren_lexical q t : is_lexical_dclr_kw (tren q t) = is_lexical_dclr_kw t.
Proof. unfold is_lexical_dclr_kw. rewrite !ren_matches by reflexivity. reflexivity. Qed.
Lemma ren_dclr q t : is_dclr_kw (tren q t) = is_dclr_kw t.
Proof. unfold is_dclr_kw. rewrite ren_hoistable, ren_lexical, !ren_matches by reflexivity. reflexivity. Qed.
Lemma ren_keyword s : is_keyword (rho s) = is_keyword s.
Proof.
  unfold is_keyword. assert (H : forallb specialb keywords = true) by reflexivity. revert H.
  generalize keywords. induction l as [|w l IH]; cbn [forallb existsb]; [reflexivity|]. intros H. apply andb_true_iff in H. destruct H as [H G].
  rewrite ren_eqb by exact H. rewrite (IH G). reflexivity.
Qed.
End Ren.

Section More.
Context (E : env) (rho : str -> str) (sl : bool) (RM : marker -> marker -> Prop).
Hypothesis keeps : keeps_special rho E.
Notation sim := (sim E rho sl RM).
Notation RS := (RS RM).
Notation RA := (RA sl).


Lemma RA_mark (x : bool) c b : RB sl (strict c) b ->
  RA (if x && strict c then AStrict else ASimple) (if x && strict (ctx_strict b c) then AStrict else ASimple).
Proof.
  cbn [strict ctx_strict]. intros [->|(S & -> & ->)]; [apply RA_refl|]. rewrite andb_false_r, andb_true_r.
  destruct x; [right; auto|apply RA_refl].
Qed.

Inductive r_ve : value_or_expr -> value_or_expr -> Prop :=
| R_VEValue : forall v, r_ve (VEValue v) (VEValue (ren_value rho v))
| R_VEExpr : forall e e', r_node rho RS RA e e' -> r_ve (VEExpr e) (VEExpr e').
Inductive r_mod : modifiers -> modifiers -> Prop :=
| R_Done : forall p p', r_prop rho RS RA p p' -> r_mod (Done p) (Done p')
| R_More : forall k a g, r_mod (More k a g) (More k a g).

Lemma sim_prel I A A' B B' C C' (R1 : A -> A' -> Prop) (R2 : B -> B' -> Prop) (R : C -> C' -> Prop) (m : PM (A * B)) (m' : I -> PM (A' * B')) k k' :
  sim (prel R1 R2) m m' ->
  (forall a b J (i : J -> I) a' b', (forall j, R1 a (a' j)) -> (forall j, R2 b (b' j)) -> sim R (k a b) (fun j => k' (i j) (a' j) (b' j))) ->
  sim R (bind m (fun '(a, b) => k a b)) (fun i => bind (m' i) (fun '(a, b) => k' i a b)).
Proof. apply sim_pair. Qed.
Lemma sim_prel_r I A A' B C C' (R1 : A -> A' -> Prop) (R : C -> C' -> Prop) (m : PM (A * B)) (m' : I -> PM (A' * B)) k k' :
  sim (prel R1 eq) m m' ->
  (forall a b J (i : J -> I) a', (forall j, R1 a (a' j)) -> sim R (k a b) (fun j => k' (i j) (a' j) b)) ->
  sim R (bind m (fun '(a, b) => k a b)) (fun i => bind (m' i) (fun '(a, b) => k' i a b)).
Proof.
  intros H G. eapply sim_pair; [exact H|]. intros a b J i a' b' Ha Hb. eapply sim_ext; [|exact (G a b J i a' Ha)].
  intros j. cbv beta. rewrite <- (Hb j). reflexivity.
Qed.
Lemma sim_prel_l I A B B' C C' (R1 : B -> B' -> Prop) (R : C -> C' -> Prop) (m : PM (A * B)) (m' : I -> PM (A * B')) k k' :
  sim (prel eq R1) m m' ->
  (forall a b J (i : J -> I) b', (forall j, R1 b (b' j)) -> sim R (k a b) (fun j => k' (i j) a (b' j))) ->
  sim R (bind m (fun '(a, b) => k a b)) (fun i => bind (m' i) (fun '(a, b) => k' i a b)).
Proof.
  intros H G. eapply sim_pair; [exact H|]. intros a b J i a' b' Ha Hb. eapply sim_ext; [|exact (G a b J i b' Hb)].
  intros j. cbv beta. rewrite <- (Ha j). reflexivity.
Qed.
Lemma sim_strict_reserved I A B (R : A -> B -> Prop) (e : PM A) (k : PM A) (e' k' : I -> PM B) :
  nok e -> (forall J (i : J -> I), sim R e (fun j => e' (i j))) -> (forall J (i : J -> I), sim R k (fun j => k' (i j))) ->
  sim R (bind strict_reserved (fun r => if r then e else k)) (fun i => bind strict_reserved (fun r => if r then e' i else k' i)).
Proof.
  intros He He' Hk. eapply sim_bind with (R1 := fun a b : bool => (a = false -> b = false) /\ (sl = false -> b = a)).
  - unfold strict_reserved. eapply sim_bind_ctx; [apply sim_ctx|]. intros c J i b Hb. eapply sim_bind_tok; [apply sim_getcur|].
    intros t J' i' q Hq. cbn [strict ctx_strict].
    destruct (strict c) eqn:Es.
    + destruct (is_strict_reserved_kw t) as [r|] eqn:Er; [|apply sim_crash].
      cbn [unwrap]. eapply sim_ext with (m'' := fun j => ret (if b (i' j) then r else false)).
      { intros j. cbv beta. rewrite (ren_strict_kw keeps), Er.
        destruct (b (i' j)); reflexivity. }
      apply sim_ret. intros j. split; [intros ->; destruct (b (i' j)); reflexivity|]. intros S. destruct (Hb (i' j)) as [K|(K & _)]; [rewrite K|]; congruence.
    + eapply sim_ext with (m'' := fun j => ret false); [|apply sim_ret; auto].
      intros j. cbv beta. destruct (Hb (i' j)) as [->|(_ & ? & _)]; [reflexivity|discriminate].
  - intros a J i a' Ha. eapply sim_if_nok; [|intros S j; apply (proj2 (Ha j) S)|exact He|apply He'|apply Hk]. intros j Hf. apply (proj1 (Ha j)). exact Hf.
Qed.

(** Case distinctions on bindings and on identifiers *)
Lemma sim_binding I A B (R : A -> B -> Prop) b (b' : I -> binding) f1 f2 f3 f4 f1' f2' f3' f4' :
  (forall i, r_bind rho RS RA b (b' i)) ->
  (forall x y J (i : J -> I) y', (forall j, RS y (y' j)) -> sim R (f1 x y) (fun j => f1' (i j) (rho x) (y' j))) ->
  (forall x y J (i : J -> I) x' y', (forall j, Forall2 (orel (r_apat rho RS RA)) x (x' j)) -> (forall j, RS y (y' j)) -> sim R (f2 x y) (fun j => f2' (i j) (x' j) (y' j))) ->
  (forall x y J (i : J -> I) x' y', (forall j, Forall2 (r_opat rho RS RA) x (x' j)) -> (forall j, RS y (y' j)) -> sim R (f3 x y) (fun j => f3' (i j) (x' j) (y' j))) ->
  (forall x J (i : J -> I) x', (forall j, r_node rho RS RA x (x' j)) -> sim R (f4 x) (fun j => f4' (i j) (x' j))) ->
  sim R (match b with B_Id x y => f1 x y | B_Array x y => f2 x y | B_Object x y => f3 x y | B_Expr x => f4 x end)
    (fun i => match b' i return PM B with B_Id x y => f1' i x y | B_Array x y => f2' i x y | B_Object x y => f3' i x y | B_Expr x => f4' i x end).
Proof.
  intros H H1 H2 H3 H4. destruct b as [x y|x y|x y|x].
  - eapply sim_split with (P := fun i y' => b' i = B_Id (rho x) y' /\ RS y y').
    { intros i. specialize (H i). inversion H; subst; repeat match goal with G : rn _ _ _ |- _ => rewrite G; clear G end; eauto. }
    intros K p q Hq. eapply sim_ext; [|exact (H1 x y K p q (fun k => proj2 (Hq k)))]. intros k. cbv beta. rewrite (proj1 (Hq k)). reflexivity.
  - eapply sim_split with (P := fun i z => b' i = B_Array (fst z) (snd z) /\ Forall2 (orel (r_apat rho RS RA)) x (fst z) /\ RS y (snd z)).
    { intros i. specialize (H i). inversion H; subst; repeat match goal with G : rn _ _ _ |- _ => rewrite G; clear G end; eexists (_, _); cbn; eauto. }
    intros K p q Hq. eapply sim_ext; [|exact (H2 x y K p (fun k => fst (q k)) (fun k => snd (q k)) (fun k => proj1 (proj2 (Hq k))) (fun k => proj2 (proj2 (Hq k))))].
    intros k. cbv beta. rewrite (proj1 (Hq k)). reflexivity.
  - eapply sim_split with (P := fun i z => b' i = B_Object (fst z) (snd z) /\ Forall2 (r_opat rho RS RA) x (fst z) /\ RS y (snd z)).
    { intros i. specialize (H i). inversion H; subst; repeat match goal with G : rn _ _ _ |- _ => rewrite G; clear G end; eexists (_, _); cbn; eauto. }
    intros K p q Hq. eapply sim_ext; [|exact (H3 x y K p (fun k => fst (q k)) (fun k => snd (q k)) (fun k => proj1 (proj2 (Hq k))) (fun k => proj2 (proj2 (Hq k))))].
    intros k. cbv beta. rewrite (proj1 (Hq k)). reflexivity.
  - eapply sim_split with (P := fun i y' => b' i = B_Expr y' /\ r_node rho RS RA x y').
    { intros i. specialize (H i). inversion H; subst; repeat match goal with G : rn _ _ _ |- _ => rewrite G; clear G end; eauto. }
    intros K p q Hq. eapply sim_ext; [|exact (H4 x K p q (fun k => proj2 (Hq k)))]. intros k. cbv beta. rewrite (proj1 (Hq k)). reflexivity.
Qed.
Lemma sim_ident I A B (R : A -> B -> Prop) b (b' : I -> node) f g f' g' :
  (forall i, r_node rho RS RA b (b' i)) ->
  (forall x z y J (i : J -> I) z' y', (forall j, RA z (z' j)) -> (forall j, RS y (y' j)) -> sim R (f x z y) (fun j => f' (i j) (rho x) (z' j) (y' j))) ->
  sim R g g' ->
  sim R (match b with Identifier x z y => f x z y | _ => g end)
    (fun i => match b' i return PM B with Identifier x z y => f' i x z y | _ => g' i end).
Proof.
  intros H H1 H2.
  assert (X : (exists x z y, b = Identifier x z y) \/ (forall (C : Type) (F : str -> att -> span -> C) (G : C), match b with Identifier x z y => F x z y | _ => G end = G))
    by (destruct b; eauto; right; reflexivity).
  destruct X as [(x & z & y & ->)|X].
  - eapply sim_split with (P := fun i q => b' i = Identifier (rho x) (fst q) (snd q) /\ RA z (fst q) /\ RS y (snd q)).
    { intros i. specialize (H i). inversion H; subst; repeat match goal with G : rn _ _ _ |- _ => rewrite G; clear G end; eexists (_, _); cbn; eauto. }
    intros K p q Hq. eapply sim_ext; [|exact (H1 x z y K p (fun k => fst (q k)) (fun k => snd (q k)) (fun k => proj1 (proj2 (Hq k))) (fun k => proj2 (proj2 (Hq k))))].
    intros k. cbv beta. rewrite (proj1 (Hq k)). reflexivity.
  - rewrite X. eapply sim_ext; [|exact H2]. intros i. specialize (H i). cbv beta.
    specialize (X bool (fun _ _ _ => true) false). destruct H; try reflexivity. discriminate X.
Qed.
Lemma sim_ve I A B (R : A -> B -> Prop) v (v' : I -> value_or_expr) f g f' g' :
  (forall i, r_ve v (v' i)) ->
  (forall w J (i : J -> I), sim R (f w) (fun j => f' (i j) (ren_value rho w))) ->
  (forall e J (i : J -> I) e', (forall j, r_node rho RS RA e (e' j)) -> sim R (g e) (fun j => g' (i j) (e' j))) ->
  sim R (match v with VEValue w => f w | VEExpr e => g e end) (fun i => match v' i return PM B with VEValue w => f' i w | VEExpr e => g' i e end).
Proof.
  intros H H1 H2. destruct v as [w|e].
  - eapply sim_ext; [|exact (H1 w I (fun i => i))]. intros i. specialize (H i). cbv beta. inversion H; subst. reflexivity.
  - eapply sim_split with (P := fun i y => v' i = VEExpr y /\ r_node rho RS RA e y).
    { intros i. specialize (H i). inversion H; subst; repeat match goal with G : rn _ _ _ |- _ => rewrite G; clear G end; eauto. }
    intros K p q Hq. eapply sim_ext; [|exact (H2 e K p q (fun k => proj2 (Hq k)))]. intros k. cbv beta. rewrite (proj1 (Hq k)). reflexivity.
Qed.
Lemma sim_mod I A B (R : A -> B -> Prop) v (v' : I -> modifiers) f g f' g' :
  (forall i, r_mod v (v' i)) ->
  (forall p J (i : J -> I) p', (forall j, r_prop rho RS RA p (p' j)) -> sim R (f p) (fun j => f' (i j) (p' j))) ->
  (forall a b c J (i : J -> I), sim R (g a b c) (fun j => g' (i j) a b c)) ->
  sim R (match v with Done p => f p | More a b c => g a b c end) (fun i => match v' i return PM B with Done p => f' i p | More a b c => g' i a b c end).
Proof.
  intros H H1 H2. destruct v as [p|a b c].
  - eapply sim_split with (P := fun i y => v' i = Done y /\ r_prop rho RS RA p y).
    { intros i. specialize (H i). inversion H; subst; repeat match goal with G : rn _ _ _ |- _ => rewrite G; clear G end; eauto. }
    intros K p0 q Hq. eapply sim_ext; [|exact (H1 p K p0 q (fun k => proj2 (Hq k)))]. intros k. cbv beta. rewrite (proj1 (Hq k)). reflexivity.
  - eapply sim_ext; [|exact (H2 a b c I (fun i => i))]. intros i. specialize (H i). cbv beta. inversion H; subst. reflexivity.
Qed.
(** Loops *)
Lemma sim_while I A B (R : A -> B -> Prop) p f (f' : I -> PM B) : (forall J (i : J -> I), sim R f (fun j => f' (i j))) -> forall k J (i : J -> I),
  sim (Forall2 R) (parse_while_punc k p f) (fun j => parse_while_punc k p (f' (i j))).
Proof.
  intros H. induction k as [|k IH]; intros J i; [apply sim_fuel|]. cbn [parse_while_punc].
  eapply sim_bind_tok; [apply sim_getcur|]. intros t J1 i1 q Hq. eapply sim_if; [intros ?; first [apply ren_tok_punc|apply ren_tok_is]| |]; intros _.
  - eapply sim_bind; [apply H|]. intros a J2 i2 a' Ha. eapply sim_bind; [apply (IH J2 (fun j => i (i1 (i2 j))))|].
    intros l J3 i3 l' Hl. apply sim_ret. intros j. constructor; [apply Ha|apply Hl].
  - apply sim_ret. constructor.
Qed.
Lemma sim_until I A B (R : A -> B -> Prop) p f (f' : I -> PM B) : (forall J (i : J -> I), sim R f (fun j => f' (i j))) -> forall k J (i : J -> I),
  sim (Forall2 R) (parse_until_punc k p f) (fun j => parse_until_punc k p (f' (i j))).
Proof.
  intros H. induction k as [|k IH]; intros J i; [apply sim_fuel|]. cbn [parse_until_punc].
  eapply sim_bind_tok; [apply sim_getcur|]. intros t J1 i1 q Hq. eapply sim_if; [intros ?; first [apply ren_tok_punc|apply ren_tok_is]| |]; intros _.
  - apply sim_ret. constructor.
  - eapply sim_bind; [apply H|]. intros a J2 i2 a' Ha. eapply sim_bind; [apply (IH J2 (fun j => i (i1 (i2 j))))|].
    intros l J3 i3 l' Hl. apply sim_ret. intros j. constructor; [apply Ha|apply Hl].
Qed.
Lemma sim_until_rest I A B (R : A -> B -> Prop) p f (f' : I -> PM B) : (forall J (i : J -> I), sim R f (fun j => f' (i j))) -> forall k J (i : J -> I),
  sim (Forall2 R) (parse_until_punc_or_rest k p f) (fun j => parse_until_punc_or_rest k p (f' (i j))).
Proof.
  intros H. induction k as [|k IH]; intros J i; [apply sim_fuel|]. cbn [parse_until_punc_or_rest].
  eapply sim_bind_tok; [apply sim_getcur|]. intros t J1 i1 q Hq. eapply sim_if; [intros ?; first [apply ren_tok_punc|apply ren_tok_is]| |]; intros _.
  - apply sim_ret. constructor.
  - eapply sim_if; [intros ?; first [apply ren_tok_punc|apply ren_tok_is]| |]; intros _.
    + eapply sim_bind; [apply H|]. intros a J2 i2 a' Ha. apply sim_ret. constructor; [apply Ha|constructor].
    + eapply sim_bind; [apply H|]. intros a J2 i2 a' Ha. eapply sim_bind; [apply (IH J2 (fun j => i (i1 (i2 j))))|].
      intros l J3 i3 l' Hl. apply sim_ret. intros j. constructor; [apply Ha|apply Hl].
Qed.
Lemma sim_until_eof I A B (R : A -> B -> Prop) f (f' : I -> PM B) : (forall J (i : J -> I), sim R f (fun j => f' (i j))) -> forall k J (i : J -> I),
  sim (Forall2 R) (parse_until_eof k f) (fun j => parse_until_eof k (f' (i j))).
Proof.
  intros H. induction k as [|k IH]; intros J i; [apply sim_fuel|]. cbn [parse_until_eof].
  eapply sim_bind_tok; [apply sim_getcur|]. intros t J1 i1 q Hq. eapply sim_if; [intros ?; first [apply ren_tok_punc|apply ren_tok_is]| |]; intros _.
  - apply sim_ret. constructor.
  - eapply sim_bind; [apply H|]. intros a J2 i2 a' Ha. eapply sim_bind; [apply (IH J2 (fun j => i (i1 (i2 j))))|].
    intros l J3 i3 l' Hl. apply sim_ret. intros j. constructor; [apply Ha|apply Hl].
Qed.
Lemma sim_while_c A B (R : A -> B -> Prop) p k f f' : (forall J : Type, sim R f (fun _ : J => f')) -> forall J : Type, sim (Forall2 R) (parse_while_punc k p f) (fun _ : J => parse_while_punc k p f').
Proof. intros H J. exact (@sim_while J A B R p f (fun _ => f') (fun K _ => H K) k J (fun j => j)). Qed.
Lemma sim_until_c A B (R : A -> B -> Prop) p k f f' : (forall J : Type, sim R f (fun _ : J => f')) -> forall J : Type, sim (Forall2 R) (parse_until_punc k p f) (fun _ : J => parse_until_punc k p f').
Proof. intros H J. exact (@sim_until J A B R p f (fun _ => f') (fun K _ => H K) k J (fun j => j)). Qed.
Lemma sim_until_rest_c A B (R : A -> B -> Prop) p k f f' : (forall J : Type, sim R f (fun _ : J => f')) -> forall J : Type, sim (Forall2 R) (parse_until_punc_or_rest k p f) (fun _ : J => parse_until_punc_or_rest k p f').
Proof. intros H J. exact (@sim_until_rest J A B R p f (fun _ => f') (fun K _ => H K) k J (fun j => j)). Qed.
Lemma sim_until_eof_c A B (R : A -> B -> Prop) k f f' : (forall J : Type, sim R f (fun _ : J => f')) -> forall J : Type, sim (Forall2 R) (parse_until_eof k f) (fun _ : J => parse_until_eof k f').
Proof. intros H J. exact (@sim_until_eof J A B R f (fun _ => f') (fun K _ => H K) k J (fun j => j)). Qed.

(** Results that are texts *)
Lemma sim_bind_rn I B B' (R2 : B -> B' -> Prop) (m : PM str) (m' : I -> PM str) (k : str -> PM B) (k' : I -> str -> PM B') :
  sim (rn rho) m m' ->
  (forall a J (i : J -> I), sim R2 (k a) (fun j => k' (i j) (rho a))) ->
  sim R2 (bind m k) (fun i => bind (m' i) (k' i)).
Proof. intros H G. eapply sim_bind; [exact H|]. intros a J i a' Ha. eapply sim_ext; [|exact (G a J i)]. intros j. cbv beta. rewrite (Ha j). reflexivity. Qed.
Lemma sim_unwrap_eq I A p (o : option A) (o' : I -> option A) : (forall i, o' i = o) -> sim eq (unwrap p o) (fun i => unwrap p (o' i)).
Proof. intros H. eapply sim_ext; [intros i; rewrite H; reflexivity|]. apply sim_unwrap. Qed.
Lemma sim_unwrap_rn I p (o : option str) (o' : I -> option str) : (forall i, o' i = option_map rho o) -> sim (rn rho) (unwrap p o) (fun i => unwrap p (o' i)).
Proof.
  intros H. eapply sim_ext with (m'' := fun i => unwrap p (option_map rho o)); [intros i; rewrite H; reflexivity|].
  destruct o; [apply sim_ret; reflexivity|apply sim_nok; intros ? ?; try intros ?; discriminate].
Qed.
End More.

Create HintDb rnok discriminated.
#[export] Hint Constants Opaque : rnok.
#[export] Hint Resolve nok_fail nok_crash nok_fuel nok_error_tok nok_error_current nok_unexpected_current nok_err_at : rnok.
#[export] Hint Extern 5 (nok (bind _ _)) => apply nok_bind; intros ? : rnok.
Create HintDb rsim discriminated.
#[export] Hint Constants Opaque : rsim.

(** Rewriting: what the parser sees of a renamed token *)
Ltac ren_rw := lazymatch goal with K : keeps_special _ _ |- _ =>
  repeat first
  [ rewrite !ren_tok_punc | rewrite !ren_tok_is | rewrite !(ren_tok_kw K) by (first [reflexivity|assumption]) | rewrite !(ren_tok_id K) by (first [reflexivity|assumption])
  | rewrite !(ren_matches K) by (first [reflexivity|assumption]) | rewrite !ren_punc | rewrite !ren_assign_op | rewrite !ren_update_op
  | rewrite !(ren_bin_op K) | rewrite !(ren_precedence K) | rewrite !(ren_unary_op K) | rewrite !(ren_strict_kw K) | rewrite !(ren_iteration K)
  | rewrite !(ren_hoistable K) | rewrite !(ren_lexical K) | rewrite !(ren_dclr K) | rewrite !(ren_keyword K) | rewrite !(ren_to_string K)
  | rewrite !(ren_eqb K) by (first [reflexivity|assumption])
  | progress cbn [tval RenBase.tren ttype thead ttail tcooked tpattern tflags toctal]
  | rewrite !ren_v_punc | rewrite !ren_v_string | rewrite !(show_ren K) ] end.

(** The relation belonging to a type of results *)
Ltac relof rho sl RM T :=
  let RSx := constr:(RS RM) in
  let RAx := constr:(RA sl) in
  lazymatch T with
  | token => constr:(trel rho RM)
  | pctx => constr:(crel sl)
  | span => constr:(RSx)
  | node => constr:(r_node rho RSx RAx)
  | arr_elem => constr:(r_elem rho RSx RAx)
  | binding => constr:(r_bind rho RSx RAx)
  | arr_pat => constr:(r_apat rho RSx RAx)
  | arr_apat => constr:(r_aapat rho RSx RAx)
  | prop_key => constr:(r_key rho RSx RAx)
  | prop_value => constr:(r_val rho RSx RAx)
  | obj_pat => constr:(r_opat rho RSx RAx)
  | func_param => constr:(r_param rho RSx RAx)
  | arg_elem => constr:(r_arg rho RSx RAx)
  | obj_prop => constr:(r_prop rho RSx RAx)
  | method_def => constr:(r_meth rho RSx RAx)
  | fn_expr => constr:(r_fn rho RSx RAx)
  | switch_case => constr:(r_case rho RSx RAx)
  | var_declarator => constr:(r_decl rho RSx RAx)
  | catch_clause => constr:(r_catch rho RSx RAx)
  | value_or_expr => constr:(r_ve rho sl RM)
  | modifiers => constr:(r_mod rho sl RM)
  | identifier => constr:(r_id rho RSx)
  | literal => constr:(r_lit rho RSx)
  | import_spec => constr:(r_import rho RSx)
  | export_spec => constr:(r_export rho RSx)
  | template_element => constr:(r_te rho)
  | list N => constr:(@rn rho)
  | str => constr:(@rn rho)
  | list ?U => let R := relof rho sl RM U in constr:(Forall2 R)
  | option ?U => let R := relof rho sl RM U in constr:(orel R)
  | prod ?U ?V => let R := relof rho sl RM U in let R' := relof rho sl RM V in constr:(prel R R')
  | _ => constr:(@eq T)
  end.

Ltac rel := intros; cbv beta; first
  [ reflexivity
  | match goal with H : forall _, _ |- _ => solve [apply H] end
  | lazymatch goal with
    | |- rn _ _ _ => red; first [solve [ren_rw; reflexivity] | match goal with K : keeps_special _ _ |- _ => symmetry; apply (ren_const K); first [reflexivity|assumption] end]
    | |- rv _ _ _ => red; ren_rw; reflexivity
    | |- RA _ _ _ => solve [apply RA_refl | apply att_rel; rel | ren_rw; apply RA_mark; rel | eapply att_rel; rel]
    | |- r_node _ _ _ (key_as_node _) (key_as_node _) => apply key_as_node_rel; rel
    | |- Forall2 _ (_ ++ _) (_ ++ _) => apply Forall2_app; rel
    | |- prel _ _ _ _ => split; cbn [fst snd]; rel
    | |- r_id _ _ _ _ => split; cbn [id_name id_span]; rel
    | |- r_lit _ _ _ _ => split; [|split]; cbn [lit_value lit_raw lit_span]; rel
    | |- r_te _ _ _ => split; [|split]; cbn [te_cooked te_raw te_tail]; rel
    | |- r_export _ _ _ _ => split; cbn [ex_exported ex_local]; rel
    | |- _ => constructor; rel
    end ].

(** Positions of tokens *)
Ltac mk := cbv beta; cbn [tline tcol RenBase.tren]; first [assumption|solve [auto]|match goal with H : forall _, _ (tmark _) (fst (?q _)) |- exists _ _, _ (mkMarker _ _ _) (mkMarker (mk_line (fst (?q ?i))) _ _) =>
  specialize (H i); destruct (q i) as [[? ? ?] ?]; unfold tmark in H; cbn in H |- *; eauto end].
Ltac norm := eapply sim_ext; [intros ?; cbv beta; ren_rw; reflexivity|]; cbv beta.
Ltac sstep := cbv beta zeta; lazymatch goal with
  | |- sim _ _ _ _ _ (bind strict_reserved _) _ => eapply sim_strict_reserved; [assumption|solve [auto with rnok]|intros ? ?|intros ? ?]
  | |- sim _ ?rho ?sl ?RM _ (@bind _ ?T _ ?m _) _ =>
    lazymatch T with
    | token => eapply sim_bind_tok; [|intros ? ? ? ? ?]
    | pctx => eapply sim_bind_ctx; [|intros ? ? ? ? ?]
    | prod _ bool => eapply sim_prel_r; [|intros ? ? ? ? ? ?]
    | prod _ _ => eapply sim_prel; [|intros ? ? ? ? ? ? ? ?]
    | _ => let R := relof rho sl RM T in
           lazymatch R with
           | eq => eapply sim_bind_eq; [|intros ? ? ?]
           | rn _ => first [ eapply sim_bind_eq; [solve [apply sim_unwrap_eq; intros ?; reflexivity]|intros ? ? ?] | eapply sim_bind_rn; [|intros ? ? ?] ]
           | _ => eapply sim_bind with (R1 := R); [|intros ? ? ? ? ?]
           end
    end
  | |- sim _ _ _ _ _ (ret _) _ => first [apply sim_ret; [solve [rel]] | norm; apply sim_ret; [rel]]
  | |- sim _ _ _ _ _ (if _ then _ else _) _ =>
    first [ eapply sim_if; [intros ?; cbv beta; ren_rw; reflexivity|intros _|intros _]
          | eapply sim_if_nok; [intros ?; eapply assignable_rel; solve [rel]|let K := fresh in intros K ?; eapply (assignable_eq K); solve [rel]|solve [auto with rnok]| |] ]
  | |- sim _ _ _ _ _ (match ?x with _ => _ end) _ =>
    let T := type of x in
    lazymatch T with
    | binding => eapply sim_binding; [rel|intros..]
    | node => eapply sim_ident; [rel|intros ? ? ? ? ? ? ? ? ?|]
    | value_or_expr => eapply sim_ve; [rel|intros ? ? ?|intros ? ? ? ? ?]
    | modifiers => eapply sim_mod; [rel|intros ? ? ? ? ?|intros ? ? ? ? ?]
    end
  | |- sim _ _ _ _ _ (lift_c _) _ =>
    apply sim_conv; intros; first [apply to_binding_pattern_rel|apply to_assignment_pattern_rel|apply binding_to_node_rel|eapply binding_to_id_rel]; rel
  | |- sim _ _ _ _ _ (upd_ctx (ctx_strict _)) _ => apply sim_set_strict; [rel]
  | |- sim _ _ _ _ _ getcur _ => apply sim_getcur
  | |- sim _ _ _ _ _ (gets has_lt) _ => apply sim_lt
  | |- sim _ _ _ _ _ (gets prm) _ => apply sim_prm
  | |- sim _ _ _ _ _ (gets ctx) _ => apply sim_ctx
  | |- sim _ _ _ _ _ start_span _ => apply sim_start
  | |- sim _ _ _ _ _ end_span _ => apply sim_end
  | |- sim _ _ _ _ _ peek_span _ => apply sim_peek
  | |- sim _ _ _ _ _ (unwrap _ _) _ => first [apply sim_unwrap_rn; intros ?; cbv beta; ren_rw; reflexivity | apply sim_unwrap_eq; intros ?; cbv beta; ren_rw; reflexivity]
  | |- sim _ _ _ _ _ (with_prm _ _) _ => apply sim_with_prm
  | |- sim _ _ _ _ _ (with_in _ _) _ => apply sim_with_prm
  | |- sim _ _ _ _ _ (with_default _ _) _ => apply sim_with_prm
  | |- sim _ _ _ _ _ (upd_ctx (ctx_in_iteration _)) _ => apply sim_set_iter
  | |- sim _ _ _ _ _ (upd_ctx (ctx_in_switch _)) _ => apply sim_set_switch
  | |- sim _ _ _ _ _ (upd_ctx (ctx_in_function _)) _ => apply sim_set_function
  | |- sim _ _ _ _ _ (unexpected_current _) _ => apply sim_unexpected_current; solve [auto with rsim]
  | |- sim _ _ _ _ _ (error_current _ _) _ => apply sim_error_current; solve [auto with rsim]
  | |- sim _ _ _ _ _ (err_at _ _ _) _ => apply sim_err_at; solve [intros; mk]
  | |- sim _ _ _ _ _ (error_tok _ _) _ => apply sim_error_tok; solve [auto]
  | |- sim _ _ _ _ _ (crash _) _ => apply sim_crash
  | |- sim _ _ _ _ _ nofuel _ => apply sim_fuel
  | |- sim _ _ _ _ _ (parse_while_punc _ _ _) _ => apply sim_while_c; intros ?
  | |- sim _ _ _ _ _ (parse_until_punc _ _ _) _ => apply sim_until_c; intros ?
  | |- sim _ _ _ _ _ (parse_until_punc_or_rest _ _ _) _ => apply sim_until_rest_c; intros ?
  | |- sim _ _ _ _ _ (parse_until_eof _ _) _ => apply sim_until_eof_c; intros ?
  | |- _ => first [solve [eauto with rsim] | norm; solve [eauto with rsim]]
  end.
Ltac sims := repeat sstep.
#[export] Hint Extern 1 (r_node _ _ _ _ _) => solve [rel] : rsim.
#[export] Hint Extern 1 (r_bind _ _ _ _ _) => solve [rel] : rsim.
#[export] Hint Extern 1 (r_key _ _ _ _ _) => solve [rel] : rsim.
#[export] Hint Extern 1 (r_ve _ _ _ _ _) => solve [rel] : rsim.
#[export] Hint Extern 1 (r_id _ _ _ _) => solve [rel] : rsim.
#[export] Hint Extern 1 (trel _ _ _ _) => solve [rel] : rsim.
#[export] Hint Extern 1 (RS _ _ _) => solve [rel] : rsim.
#[export] Hint Extern 1 (orel _ _ _) => solve [rel] : rsim.
#[export] Hint Extern 1 (Forall2 _ _ _) => solve [rel] : rsim.
#[export] Hint Extern 1 (keeps_special _ _) => assumption : rsim.
#[export] Hint Extern 1 (exists _, _) => solve [mk] : rsim.
#[export] Hint Extern 1 (specialb _ = true) => first [reflexivity|assumption] : rsim.

