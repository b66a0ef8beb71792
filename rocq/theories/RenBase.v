(** * RenBase: two runs of the parser in lock step, the second on renamed tokens
    (proofs, C60; cf. SimBase). *)
From Verif Require Import Base Codepoint Punct Token Scanner Ast Convert ParserBase ParserExpr SpecLex SpecRename Rel SimBase RenRel.
Set Implicit Arguments.

Definition tren (rho : str -> str) (q : marker * N) (t : token) : token :=
  mkToken (ttype t) (ren_value rho (tval t)) (tpattern t) (tflags t) (toctal t) (tcooked t) (thead t) (ttail t)
          (mk_line (fst q)) (mk_col (fst q)) (mk_idx (fst q)) (snd q).

Section Sim.
Context (E : env) (rho : str -> str) (sl : bool) (RM : marker -> marker -> Prop).
Hypothesis RM_line : line_rel RM.
Hypothesis keeps : keeps_special rho E.
Notation rn := (rn rho).

Definition RS (a b : span) : Prop := RM (sp_start a) (sp_start b) /\ RM (sp_end a) (sp_end b).
Definition RA (a b : att) : Prop := b = a \/ (sl = true /\ a = AStrict /\ b = ASimple).
Definition RB (a b : bool) : Prop := b = a \/ (sl = true /\ a = true /\ b = false).
Definition trel (t t' : token) : Prop := exists q, t' = tren rho q t /\ RM (tmark t) (fst q).
Definition crel (c c' : pctx) : Prop := exists b, c' = ctx_strict b c /\ RB (strict c) b.

Definition erel (e e' : error) : Prop := err_type e' = ren_error rho (err_type e) /\
  exists i i', RM (mkMarker (err_line e) (err_col e) i) (mkMarker (err_line e') (err_col e') i').

Fixpoint srep (tr : list ev) (s s' : sst) : Prop :=
  RM (smark s) (smark s') /\
  match tr with
  | [] => True
  | v :: tr' => (forall t s1, s_ev E v s = ROk t s1 ->
      exists t' s1', s_ev E v s' = ROk t' s1' /\ trel t t' /\ srep tr' s1 s1') /\
      (forall e, s_ev E v s = RErr e -> exists e', s_ev E v s' = RErr e' /\ erel e e')
  end.
Lemma srep_mark tr s s' : srep tr s s' -> RM (smark s) (smark s').
Proof. destruct tr; cbn; tauto. Qed.

Record rep (tr : list ev) (s s' : pst) : Prop := mkRep {
  rp_scn : srep tr (scn s) (scn s');
  rp_lt : has_lt s' = has_lt s;
  rp_cur : trel (cur s) (cur s');
  rp_ctx : crel (ctx s) (ctx s');
  rp_prm : prm s' = prm s;
  rp_marks : Forall2 RM (marks s) (marks s') }.

Definition sim_ok {I A B} (R : A -> B -> Prop) (m : PM A) (m' : I -> PM B) : Prop :=
  forall s a s1, m s = ROk a s1 ->
    pstack s1 = pstack s /\
    exists tr, ran E tr (scn s) (scn s1) /\ forall i tl s', rep (tr ++ tl) s s' ->
      exists a' s1', m' i s' = ROk a' s1' /\ R a a' /\ rep tl s1 s1' /\ pstack s1' = pstack s'.
Definition sim_err {I A B} (m : PM A) (m' : I -> PM B) : Prop :=
  sl = false -> forall s e, m s = RErr e ->
    exists tr r, ranx E tr (scn s) r /\ (forall x, r = inr x -> x = e) /\ forall i tl s', rep (tr ++ tl) s s' ->
      exists e', m' i s' = RErr e' /\ erel e e'.
Definition sim {I A B} (R : A -> B -> Prop) (m : PM A) (m' : I -> PM B) : Prop := sim_ok R m m' /\ sim_err m m'.

Definition nok {A} (m : PM A) : Prop := forall s a s1, m s <> ROk a s1.
Definition noe {A} (m : PM A) : Prop := forall s e, m s <> RErr e.
Lemma noe_err I A B (m : PM A) (m' : I -> PM B) : noe m -> sim_err m m'.
Proof. intros H _ s e G. destruct (H _ _ G). Qed.

Lemma show_ren v : value_show E (ren_value rho v) = rho (value_show E v).
Proof. destruct keeps as (K1 & K2 & K3). destruct v; cbn; auto. symmetry. apply K1; [|reflexivity]. vm_compute. auto 100. Qed.

(** ** Structural rules *)
Lemma sim_nok I A B (R : A -> B -> Prop) m (m' : I -> PM B) : nok m -> noe m -> sim R m m'.
Proof. intros H N. split; [|apply noe_err; exact N]. intros s a s1 G. destruct (H _ _ _ G). Qed.
Lemma sim_ret I A B (R : A -> B -> Prop) a (a' : I -> B) : (forall i, R a (a' i)) -> sim R (ret a) (fun i => ret (a' i)).
Proof.
  intros H. split; [|apply noe_err; discriminate]. intros s b s1 [= <- <-]. split; auto. exists []. split; [reflexivity|]. intros i tl s' Hs. eexists _, _. split; [reflexivity|]. auto.
Qed.
Lemma sim_ext I A B (R : A -> B -> Prop) m (m' m'' : I -> PM B) : (forall i, m' i = m'' i) -> sim R m m'' -> sim R m m'.
Proof.
  intros H [G G']. split.
  - intros s a s1 Hm. destruct (G s a s1 Hm) as [P [tr [Y Q]]]. split; auto. exists tr. split; [exact Y|]. intros i. rewrite H. apply Q.
  - intros S s e Hm. destruct (G' S s e Hm) as (tr & r & Y & Z & Q). exists tr, r. split; [exact Y|]. split; [exact Z|]. intros i. rewrite H. apply Q.
Qed.
Lemma sim_imp I A B (R R' : A -> B -> Prop) m (m' : I -> PM B) : (forall a b, R a b -> R' a b) -> sim R m m' -> sim R' m m'.
Proof.
  intros H [G G']. split; [|exact G']. intros s a s1 Hm. destruct (G s a s1 Hm) as [P [tr [Y Q]]]. split; auto. exists tr. split; [exact Y|]. intros i tl s' Hs.
  destruct (Q i tl s' Hs) as (a' & s1' & ?). exists a', s1'. intuition.
Qed.
(** A family may be indexed more finely. *)
Lemma sim_split I Y A B (R : A -> B -> Prop) m (m' : I -> PM B) (P : I -> Y -> Prop) :
  (forall i, exists y, P i y) ->
  (forall K (p : K -> I) (y : K -> Y), (forall k, P (p k) (y k)) -> sim R m (fun k => m' (p k))) ->
  sim R m m'.
Proof.
  intros H G. destruct (G {x : I * Y | P (fst x) (snd x)} (fun k => fst (proj1_sig k)) (fun k => snd (proj1_sig k)) (fun k => proj2_sig k)) as [G1 G2]. split.
  - intros s a s1 Hm. destruct (G1 s a s1 Hm) as [X [tr [Y0 Q]]].
    split; auto. exists tr. split; [exact Y0|]. intros i. destruct (H i) as [y Py]. exact (Q (exist _ (i, y) Py)).
  - intros S s e Hm. destruct (G2 S s e Hm) as (tr & r & Y0 & Z & Q). exists tr, r. split; [exact Y0|]. split; [exact Z|]. intros i. destruct (H i) as [y Py]. exact (Q (exist _ (i, y) Py)).
Qed.
Lemma sim_bind I A A' B B' (R1 : A -> A' -> Prop) (R2 : B -> B' -> Prop) (m : PM A) (m' : I -> PM A') (k : A -> PM B) (k' : I -> A' -> PM B') :
  sim R1 m m' ->
  (forall a J (i : J -> I) (a' : J -> A'), (forall j, R1 a (a' j)) -> sim R2 (k a) (fun j => k' (i j) (a' j))) ->
  sim R2 (bind m k) (fun i => bind (m' i) (k' i)).
Proof.
  intros [H H'] G. split.
  2:{ intros S s e Hm. unfold bind in Hm. destruct (m s) as [a s1|e0| |] eqn:Em; try discriminate.
      - destruct (H _ _ _ Em) as [P [tr [Y Q]]].
        pose (J := {x : I * A' | R1 a (snd x)}).
        destruct (proj2 (G a J (fun j => fst (proj1_sig j)) (fun j => snd (proj1_sig j)) (fun j => proj2_sig j)) S _ _ Hm) as (tr2 & r & Y2 & Z2 & Q2).
        exists (tr ++ tr2), r. split; [eapply ranx_app; eauto|]. split; [exact Z2|]. intros i tl s' Hs. rewrite <- List.app_assoc in Hs.
        destruct (Q i _ _ Hs) as (a' & s1' & E1 & Ra & Rp & Ep).
        destruct (Q2 (exist _ (i, a') Ra) _ _ Rp) as (e' & E2 & Re). exists e'. cbn in E2. unfold bind. rewrite E1. split; [exact E2|exact Re].
      - injection Hm as <-. destruct (H' S _ _ Em) as (tr & r & Y & Z & Q). exists tr, r. split; [exact Y|]. split; [exact Z|].
        intros i tl s' Hs. destruct (Q i _ _ Hs) as (e' & E1 & Re). exists e'. unfold bind. rewrite E1. split; [reflexivity|exact Re]. }
  intros s b s2 Hm. unfold bind in Hm. destruct (m s) as [a s1| | |] eqn:Em; try discriminate.
  destruct (H _ _ _ Em) as [P [tr [Y Q]]].
  pose (J := {x : I * A' | R1 a (snd x)}).
  destruct (proj1 (G a J (fun j => fst (proj1_sig j)) (fun j => snd (proj1_sig j)) (fun j => proj2_sig j)) _ _ _ Hm) as [P2 [tr2 [Y2 Q2]]].
  split; [congruence|]. exists (tr ++ tr2). split; [eapply ran_app; eauto|]. intros i tl s' Hs. rewrite <- List.app_assoc in Hs.
  destruct (Q i _ _ Hs) as (a' & s1' & E1 & Ra & Rp & Ep).
  destruct (Q2 (exist _ (i, a') Ra) _ _ Rp) as (b' & s2' & E2 & Rb & Rp2 & Ep2).
  exists b', s2'. cbn in E2. unfold bind. rewrite E1. split; [exact E2|]. split; [auto|]. split; [auto|congruence].
Qed.
(** Special forms of the rule for results of known shape *)
Lemma sim_bind_eq I A B B' (R2 : B -> B' -> Prop) (m : PM A) (m' : I -> PM A) (k : A -> PM B) (k' : I -> A -> PM B') :
  sim eq m m' ->
  (forall a J (i : J -> I), sim R2 (k a) (fun j => k' (i j) a)) ->
  sim R2 (bind m k) (fun i => bind (m' i) (k' i)).
Proof.
  intros H G. eapply sim_bind; [exact H|]. intros a J i a' Ha. eapply sim_ext; [|exact (G a J i)]. intros j. cbv beta. rewrite <- (Ha j). reflexivity.
Qed.
Lemma sim_bind_tok I B B' (R2 : B -> B' -> Prop) (m : PM token) (m' : I -> PM token) (k : token -> PM B) (k' : I -> token -> PM B') :
  sim trel m m' ->
  (forall t J (i : J -> I) (q : J -> marker * N), (forall j, RM (tmark t) (fst (q j))) -> sim R2 (k t) (fun j => k' (i j) (tren rho (q j) t))) ->
  sim R2 (bind m k) (fun i => bind (m' i) (k' i)).
Proof.
  intros H G. eapply sim_bind; [exact H|]. intros t J i t' Ht.
  eapply sim_split with (P := fun j q => t' j = tren rho q t /\ RM (tmark t) (fst q)); [exact Ht|].
  intros K p q Hq. eapply sim_ext; [|apply (G t K (fun k => i (p k)) q); intros k0; apply Hq].
  intros k0. cbv beta. rewrite (proj1 (Hq k0)). reflexivity.
Qed.
Lemma sim_bind_ctx I B B' (R2 : B -> B' -> Prop) (m : PM pctx) (m' : I -> PM pctx) (k : pctx -> PM B) (k' : I -> pctx -> PM B') :
  sim crel m m' ->
  (forall c J (i : J -> I) (b : J -> bool), (forall j, RB (strict c) (b j)) -> sim R2 (k c) (fun j => k' (i j) (ctx_strict (b j) c))) ->
  sim R2 (bind m k) (fun i => bind (m' i) (k' i)).
Proof.
  intros H G. eapply sim_bind; [exact H|]. intros t J i t' Ht.
  eapply sim_split with (P := fun j q => t' j = ctx_strict q t /\ RB (strict t) q); [exact Ht|].
  intros K p q Hq. eapply sim_ext; [|apply (G t K (fun k => i (p k)) q); intros k0; apply Hq].
  intros k0. cbv beta. rewrite (proj1 (Hq k0)). reflexivity.
Qed.
Lemma sim_if I A B (R : A -> B -> Prop) (c : bool) (c' : I -> bool) m1 m2 (m1' m2' : I -> PM B) :
  (forall i, c' i = c) -> (c = true -> sim R m1 m1') -> (c = false -> sim R m2 m2') ->
  sim R (if c then m1 else m2) (fun i => if c' i then m1' i else m2' i).
Proof.
  intros H H1 H2. eapply sim_ext with (m'' := fun i => if c then m1' i else m2' i); [intros i; rewrite H; reflexivity|].
  destruct c; auto.
Qed.
(** The first branch is an error. *)
Lemma sim_if_nok I A B (R : A -> B -> Prop) (c : bool) (c' : I -> bool) m1 m2 (m1' m2' : I -> PM B) :
  (forall i, c = false -> c' i = false) -> (sl = false -> forall i, c' i = c) -> nok m1 -> sim R m1 m1' -> sim R m2 m2' ->
  sim R (if c then m1 else m2) (fun i => if c' i then m1' i else m2' i).
Proof.
  intros H H0 H1 H1' H2. destruct c.
  { split; [intros s a s1 G; destruct (H1 _ _ _ G)|]. intros S s e Hm. destruct (proj2 H1' S _ _ Hm) as (tr & r & Y & Z & Q).
    exists tr, r. split; [exact Y|]. split; [exact Z|]. intros i. rewrite (H0 S i). apply Q. }
  eapply sim_ext; [|exact H2]. intros i. rewrite (H i eq_refl). reflexivity.
Qed.
Lemma sim_pair I A A' B B' C C' (R1 : A -> A' -> Prop) (R2 : B -> B' -> Prop) (R : C -> C' -> Prop) (m : PM (A * B)) (m' : I -> PM (A' * B')) k k' :
  sim (fun x y => R1 (fst x) (fst y) /\ R2 (snd x) (snd y)) m m' ->
  (forall a b J (i : J -> I) a' b', (forall j, R1 a (a' j)) -> (forall j, R2 b (b' j)) -> sim R (k a b) (fun j => k' (i j) (a' j) (b' j))) ->
  sim R (bind m (fun '(a, b) => k a b)) (fun i => bind (m' i) (fun '(a, b) => k' i a b)).
Proof.
  intros H G. eapply sim_bind; [exact H|]. intros [a b] J i x Hx.
  eapply sim_ext; [|exact (G a b J i (fun j => fst (x j)) (fun j => snd (x j)) (fun j => proj1 (Hx j)) (fun j => proj2 (Hx j)))].
  intros j. cbv beta. destruct (x j); reflexivity.
Qed.

(** ** State access *)
Lemma repos_trel q t : RM (tmark t) (fst q) -> trel t (tren rho q t).
Proof. intros H. exists q. auto. Qed.
Lemma gets_ok A (f : pst -> A) s a s1 : gets f s = ROk a s1 -> a = f s /\ s1 = s.
Proof. intros [= <- <-]. auto. Qed.
Lemma sim_gets I A B (R : A -> B -> Prop) (f : pst -> A) (g : pst -> B) :
  (forall tr s s', rep tr s s' -> R (f s) (g s')) -> sim R (gets f) (fun _ : I => gets g).
Proof.
  intros H. split; [|apply noe_err; discriminate]. intros s a s1 [= <- <-]. split; auto. exists []. split; [reflexivity|]. intros i tl s' Hs. exists (g s'), s'.
  split; [reflexivity|]. split; [|auto]. exact (H _ _ _ Hs).
Qed.
Lemma sim_getcur I : sim trel getcur (fun _ : I => getcur).
Proof. apply sim_gets. intros. apply (rp_cur H). Qed.
Lemma sim_lt I : sim eq (gets has_lt) (fun _ : I => gets has_lt).
Proof. apply sim_gets. intros. symmetry. apply (rp_lt H). Qed.
Lemma sim_prm I : sim eq (gets prm) (fun _ : I => gets prm).
Proof. apply sim_gets. intros. symmetry. apply (rp_prm H). Qed.
Lemma sim_ctx I : sim crel (gets ctx) (fun _ : I => gets ctx).
Proof. apply sim_gets. intros. apply (rp_ctx H). Qed.
Lemma sim_modify I (f : pst -> pst) (g : I -> pst -> pst) :
  (forall s, scn (f s) = scn s) -> (forall s, pstack (f s) = pstack s) -> (forall i s, pstack (g i s) = pstack s) ->
  (forall i tr s s', rep tr s s' -> rep tr (f s) (g i s')) -> sim eq (modify f) (fun i => modify (g i)).
Proof.
  intros Hc Hf Hg H. split; [|apply noe_err; discriminate]. intros s a s1 [= <- <-]. split; auto. exists []. split; [exact (Hc s)|]. intros i tl s' Hs. exists tt, (g i s'). split; [reflexivity|]. split; [reflexivity|]. split; auto.
Qed.
Lemma sim_start I : sim eq start_span (fun _ : I => start_span).
Proof.
  apply sim_modify; intros; try reflexivity. destruct H. constructor; cbn; auto. constructor; auto.
  destruct rp_cur0 as (q & -> & Hq). destruct q as [[? ? ?] ?]. exact Hq.
Qed.
Lemma sim_end I : sim RS end_span (fun _ : I => end_span).
Proof.
  split; [|apply noe_err; intros s e; unfold end_span; destruct (marks s); discriminate]. intros s a s1 H. unfold end_span in H. destruct (marks s) as [|m ms] eqn:Em; [discriminate|]. injection H as <- <-.
  split; [reflexivity|]. exists []. split; [reflexivity|]. intros i tl s' Hs. destruct Hs as [H1 H2 H3 H4 H5 H6]. rewrite Em in H6. inversion H6 as [|x y l l' Hxy Hl E1 E2]; subst.
  unfold end_span. rewrite <- E2. eexists _, _. split; [reflexivity|]. split; [split; [exact Hxy|eapply srep_mark; exact H1]|].
  split; [|reflexivity]. constructor; auto.
Qed.
Lemma sim_peek I : sim RS peek_span (fun _ : I => peek_span).
Proof.
  split; [|apply noe_err; intros s e; unfold peek_span; destruct (marks s); discriminate]. intros s a s1 H. unfold peek_span in H. destruct (marks s) as [|m ms] eqn:Em; [discriminate|]. injection H as <- <-.
  split; [reflexivity|]. exists []. split; [reflexivity|]. intros i tl s' Hs. pose proof Hs as [H1 H2 H3 H4 H5 H6]. rewrite Em in H6. inversion H6 as [|x y l l' Hxy Hl E1 E2]; subst.
  unfold peek_span. rewrite <- E2. eexists _, _. split; [reflexivity|]. split; [split; [exact Hxy|eapply srep_mark; exact H1]|].
  split; [|reflexivity]. exact Hs.
Qed.
Lemma RB_refl b : RB b b. Proof. left; reflexivity. Qed.
Lemma sim_upd_ctx I (f : pctx -> pctx) (g : I -> pctx -> pctx) :
  (forall i c c', crel c c' -> crel (f c) (g i c')) -> sim eq (upd_ctx f) (fun i => upd_ctx (g i)).
Proof. intros H. apply sim_modify; intros; try reflexivity. destruct H0. constructor; cbn; auto. Qed.
Lemma sim_set_iter I b : sim eq (upd_ctx (ctx_in_iteration b)) (fun _ : I => upd_ctx (ctx_in_iteration b)).
Proof. apply sim_upd_ctx. intros _ c c' (x & -> & Hx). exists x. split; [reflexivity|exact Hx]. Qed.
Lemma sim_set_switch I b : sim eq (upd_ctx (ctx_in_switch b)) (fun _ : I => upd_ctx (ctx_in_switch b)).
Proof. apply sim_upd_ctx. intros _ c c' (x & -> & Hx). exists x. split; [reflexivity|exact Hx]. Qed.
Lemma sim_set_function I b : sim eq (upd_ctx (ctx_in_function b)) (fun _ : I => upd_ctx (ctx_in_function b)).
Proof. apply sim_upd_ctx. intros _ c c' (x & -> & Hx). exists x. split; [reflexivity|exact Hx]. Qed.
Lemma sim_set_strict I b (b' : I -> bool) : (forall i, RB b (b' i)) -> sim eq (upd_ctx (ctx_strict b)) (fun i => upd_ctx (ctx_strict (b' i))).
Proof. intros H. apply sim_upd_ctx. intros i c c' (x & -> & Hx). exists (b' i). split; [reflexivity|apply H]. Qed.

Lemma trel_line t t' u u' : trel t t' -> trel u u' -> (tline t' <? tline u') = (tline t <? tline u).
Proof. intros (q & -> & H) (p & -> & G). exact (RM_line H G). Qed.
Lemma line_eqb a a' b b' : RM a a' -> RM b b' -> (mk_line a' =? mk_line b') = (mk_line a =? mk_line b).
Proof.
  intros H G. pose proof (RM_line H G) as X. pose proof (RM_line G H) as Y.
  apply eq_true_iff_eq. rewrite !N.eqb_eq.
  apply eq_iff_eq_true in X, Y. rewrite !N.ltb_lt in X, Y. lia.
Qed.
Lemma sim_advance I g : sim trel (advance E g) (fun _ : I => advance E g).
Proof.
  split.
  2:{ intros S s e H. unfold advance in H. destruct (s_next E g (scn s)) as [t sc|e0| |] eqn:En; try discriminate. injection H as <-.
      exists [EvNext g], (inr e0). split; [right; split; [reflexivity|]; eexists; split; [exact En|reflexivity]|]. split; [intros x [= <-]; reflexivity|].
      intros i tl s' Hs. destruct (rp_scn Hs) as [_ [_ H1]]. destruct (H1 _ En) as (e' & E1 & E2). exists e'. unfold advance. cbn [s_ev] in E1. rewrite E1. auto. }
  intros s a s1 H. unfold advance in H. destruct (s_next E g (scn s)) as [t sc| | |] eqn:En; try discriminate. injection H as <- <-.
  split; [reflexivity|]. exists [EvNext g]. split; [cbn; eauto|]. intros i tl s' Hs. destruct Hs as [H1 H2 H3 H4 H5 H6]. cbn [srep app s_ev] in H1. destruct H1 as [_ [H1 _]].
  destruct (H1 _ _ En) as (t' & sc' & E1 & E2 & E3). unfold advance. rewrite E1. eexists _, _. split; [reflexivity|].
  split; [exact H3|]. split; [|reflexivity]. constructor; cbn; auto.
  rewrite (trel_line H3 E2). reflexivity.
Qed.
Lemma sim_look I : sim trel (lookahead E) (fun _ : I => lookahead E).
Proof.
  assert (L : forall s, lookahead E s = match s_look E (scn s) with ROk t sc => ROk t (set_scn sc s) | RErr e => RErr e | RPanic p => RPanic p | RFuel => RFuel end).
  { intros s. unfold lookahead, s_look, lift_s, bind. cbn. destruct (s_next E GRegExp _); try reflexivity. cbn.
    destruct (restore_state a s0); reflexivity. }
  split.
  2:{ intros S s e H. rewrite L in H. destruct (s_look E (scn s)) as [t sc|e0| |] eqn:En; try discriminate. injection H as <-.
      exists [EvPeek], (inr e0). split; [right; split; [reflexivity|]; eexists; split; [exact En|reflexivity]|]. split; [intros x [= <-]; reflexivity|].
      intros i tl s' Hs. destruct (rp_scn Hs) as [_ [_ H1]]. destruct (H1 _ En) as (e' & E1 & E2). exists e'. rewrite L. cbn [s_ev] in E1. rewrite E1. auto. }
  intros s a s1 H. rewrite L in H. destruct (s_look E (scn s)) as [t sc| | |] eqn:En; try discriminate. injection H as <- <-.
  split; [reflexivity|]. exists [EvPeek]. split; [cbn; eauto|]. intros i tl s' Hs. destruct Hs as [H1 H2 H3 H4 H5 H6]. cbn [srep app s_ev] in H1. destruct H1 as [_ [H1 _]].
  destruct (H1 _ _ En) as (t' & sc' & E1 & E2 & E3). rewrite L. rewrite E1. eexists _, _. split; [reflexivity|].
  split; [exact E2|]. split; [|reflexivity]. constructor; cbn; auto.
Qed.
Lemma sim_unwrap I A p (o : option A) : sim eq (unwrap p o) (fun _ : I => unwrap p o).
Proof. destruct o; [apply sim_ret; auto|apply sim_nok; intros ? ?; try intros ?; discriminate]. Qed.
Lemma sim_lift_c I A B (R : A -> B -> Prop) (c : cres A) (c' : I -> cres B) :
  (forall i a, c = COk a -> exists b, c' i = COk b /\ R a b) -> (sl = false -> forall i e, c = CErr e -> exists e', c' i = CErr e' /\ erel e e') ->
  sim R (lift_c c) (fun i => lift_c (c' i)).
Proof.
  intros H H'. split.
  2:{ intros S s e Hm. unfold lift_c in Hm. destruct c as [x|e0|]; try discriminate. injection Hm as <-. exists [], (inl (scn s)). split; [reflexivity|]. split; [discriminate|].
      intros i tl s' Hs. destruct (H' S i _ eq_refl) as (e' & E1 & E2). exists e'. unfold lift_c. rewrite E1. auto. }
  intros s a s1 Hm. unfold lift_c in Hm. destruct c as [x| |]; try discriminate. injection Hm as <- <-.
  split; [reflexivity|]. exists []. split; [reflexivity|]. intros i tl s' Hs. destruct (H i x eq_refl) as (b & E1 & Hb).
  exists b, s'. unfold lift_c. rewrite E1. auto.
Qed.
Lemma sim_with_prm I A B (R : A -> B -> Prop) f m (m' : I -> PM B) : sim R m m' -> sim R (with_prm f m) (fun i => with_prm f (m' i)).
Proof.
  intros [H H']. split.
  2:{ intros S s e Hm. unfold with_prm, save_params, upd_prm, restore_params, modify, bind in Hm. cbn in Hm.
      match type of Hm with context [m ?s0] => set (s2 := s0) in *; destruct (m s2) as [x s3|e0| |] eqn:Em end; try discriminate.
      { destruct (pstack s3); discriminate. }
      injection Hm as <-. destruct (H' S _ _ Em) as (tr & r & Y & Z & Q). exists tr, r. split; [exact Y|]. split; [exact Z|].
      intros i tl s' Hs. unfold with_prm, save_params, upd_prm, restore_params, modify, bind. cbn.
      match goal with |- context [m' i ?s0] => set (s2' := s0) in * end.
      destruct (Q i tl s2') as (e' & E1 & E2); [destruct Hs; constructor; cbn; auto; congruence|]. exists e'. rewrite E1. auto. }
  intros s a s1 Hm. unfold with_prm, save_params, upd_prm, restore_params, modify, bind in Hm. cbn in Hm.
  match type of Hm with context [m ?s0] => set (s2 := s0) in *; destruct (m s2) as [x s3| | |] eqn:Em end; try discriminate.
  destruct (H _ _ _ Em) as [P [tr [Y Q]]]. cbn in P. rewrite P in Hm. cbn in Hm. injection Hm as <- <-.
  split; [reflexivity|]. exists tr. split; [exact Y|]. intros i tl s' Hs. unfold with_prm, save_params, upd_prm, restore_params, modify, bind. cbn.
  match goal with |- context [m' i ?s0] => set (s2' := s0) in * end.
  destruct (Q i tl s2') as (a' & s3' & E1 & E2 & E3 & E4).
  { destruct Hs. constructor; cbn; auto. congruence. }
  rewrite E1. cbn in E4. rewrite E4. eexists _, _. split; [reflexivity|]. split; [auto|]. split; [|reflexivity].
  destruct E3, Hs. constructor; cbn; auto.
Qed.

(** ** Errors *)
Lemma nok_fail A e : nok (@fail pst A e). Proof. intros ? ? ?; discriminate. Qed.
Lemma nok_crash A e : nok (@crash pst A e). Proof. intros ? ? ?; discriminate. Qed.
Lemma nok_fuel A : nok (@nofuel pst A). Proof. intros ? ? ?; discriminate. Qed.
Lemma nok_bind A B (m : PM A) (k : A -> PM B) : (forall a, nok (k a)) -> nok (bind m k).
Proof. intros H s b s1 G. unfold bind in G. destruct (m s); try discriminate. destruct (H _ _ _ _ G). Qed.
Lemma nok_error_tok A t e : nok (@error_tok A t e). Proof. apply nok_fail. Qed.
Lemma nok_error_current A e : nok (@error_current E A e). Proof. apply nok_bind. intros. apply nok_fail. Qed.
Lemma nok_unexpected_current A : nok (@unexpected_current E A). Proof. apply nok_bind. intros. apply nok_fail. Qed.
Lemma nok_err_at A l c e : nok (@err_at A l c e). Proof. apply nok_fail. Qed.

Lemma sim_crash I A B (R : A -> B -> Prop) e (m' : I -> PM B) : sim R (@crash pst A e) m'.
Proof. apply sim_nok; [apply nok_crash|intros ? ?; discriminate]. Qed.
Lemma sim_fuel I A B (R : A -> B -> Prop) (m' : I -> PM B) : sim R (@nofuel pst A) m'.
Proof. apply sim_nok; [apply nok_fuel|intros ? ?; discriminate]. Qed.
Lemma sim_fail I A B (R : A -> B -> Prop) e (e' : I -> error) : (sl = false -> forall i, erel e (e' i)) -> sim R (@fail pst A e) (fun i => @fail pst B (e' i)).
Proof.
  intros H. split; [intros s a s1 G; discriminate|]. intros S s x [= <-]. exists [], (inl (scn s)). split; [reflexivity|]. split; [discriminate|].
  intros i tl s' _. exists (e' i). split; [reflexivity|apply H; exact S].
Qed.
Lemma sim_error_tok I A B (R : A -> B -> Prop) t (q : I -> marker * N) e : (forall i, RM (tmark t) (fst (q i))) ->
  sim R (@error_tok A t e) (fun i => @error_tok B (tren rho (q i) t) (ren_error rho e)).
Proof. intros H. apply sim_fail. intros _ i. split; [reflexivity|]. specialize (H i). destruct (q i) as [[l c x] y]. cbn in *. eauto. Qed.
Lemma sim_err_at I A B (R : A -> B -> Prop) l c (l' c' : I -> N) e : (forall i, exists x y, RM (mkMarker l c x) (mkMarker (l' i) (c' i) y)) ->
  sim R (@err_at A l c e) (fun i => @err_at B (l' i) (c' i) (ren_error rho e)).
Proof. intros H. apply sim_fail. intros _ i. split; [reflexivity|]. apply H. Qed.
Lemma sim_error_current I A B (R : A -> B -> Prop) e : sim R (@error_current E A e) (fun _ : I => @error_current E B (ren_error rho e)).
Proof. eapply sim_bind_tok; [apply sim_advance|]. intros t J i q Hq. apply sim_error_tok. exact Hq. Qed.
Lemma sim_unexpected_current I A B (R : A -> B -> Prop) : sim R (@unexpected_current E A) (fun _ : I => @unexpected_current E B).
Proof. eapply sim_bind_tok; [apply sim_advance|]. intros t J i q Hq. eapply sim_ext; [|apply (@sim_error_tok _ A B R t q (UnexpectedToken (value_show E (tval t)))); exact Hq].
  intros j. unfold unexpected. cbn [tval tren ren_error]. rewrite show_ren. reflexivity. Qed.

(** ** Marks *)
Lemma RA_refl a : RA a a. Proof. left; reflexivity. Qed.
Lemma assignable_rel e e' : r_node rho RS RA e e' -> not_assignable e = false -> not_assignable e' = false.
Proof.
  intros H. unfold not_assignable. assert (X : RA (assign_target_type e) (assign_target_type e')).
  { destruct H; cbn; auto using RA_refl. }
  destruct X as [->|(_ & -> & _)]; [auto|discriminate].
Qed.
Lemma assignable_eq e e' : sl = false -> r_node rho RS RA e e' -> not_assignable e' = not_assignable e.
Proof.
  intros S H. unfold not_assignable. assert (X : RA (assign_target_type e) (assign_target_type e')).
  { destruct H; cbn; auto using RA_refl. }
  destruct X as [->|(K & _)]; [reflexivity|congruence].
Qed.
Lemma att_rel e e' : r_node rho RS RA e e' -> RA (assign_target_type e) (assign_target_type e').
Proof. destruct 1; cbn; auto using RA_refl. Qed.

End Sim.
