(** * GramExpr2: conditional, assignment and sequence expressions, literals,
    arguments and parameters (proofs). *)
From Verif Require Import Base Codepoint Punct Token Scanner SpecLex SpecScan Hoare ScanBase ScanTokens2.
From Verif Require Import Ast Convert ParserBase ParserExpr ParserStmt Parser SpecJson SpecBare SpecLayout SpecGrammar GramLex GramBase GramTac GramPat GramExpr.
From Coq Require Import ZifyBool ZifyN ZifyNat.
Set Implicit Arguments.

Inductive sep {A} (C : list tok -> tok -> A -> Prop) (nt : tok) : list tok -> list A -> Prop :=
| sep_one l e : C l nt e -> sep C nt l [e]
| sep_more b l l' e es : C l (P b Comma) e -> sep C nt l' es -> sep C nt (l ++ P b Comma :: l') (e :: es).

Definition closers : list punct := [Comma; RParen; RBracket; RBrace; Colon; Semicolon].
Lemma close_ok inn b p : existsb (punct_eqb p) closers = true -> ok_assign inn (P b p).
Proof. destruct p; cbn; intros H; try discriminate; (constructor; [|reflexivity..]); (split; [|split; reflexivity]); (split; [|reflexivity]); (split; [|right; reflexivity]); constructor; reflexivity. Qed.
Lemma close_expr inn b p : existsb (punct_eqb p) (tl closers) = true -> ok_expr inn (P b p).
Proof. intros H. split; [apply close_ok; cbn [existsb closers] in *; apply orb_true_iff; right; exact H|]. destruct p; try reflexivity; discriminate H. Qed.
Lemma cont_ok inn t : nl t = true -> continues (knd t) = false -> ok_expr inn t.
Proof.
  destruct t as [b k]. cbn [nl knd]. intros -> H.
  assert (G : level inn k = 0).
  { destruct k as [p|w| | | | | | | |]; try reflexivity; [destruct p; try reflexivity; discriminate H|]. cbn in *.
    destruct (String.eqb w "instanceof"); [rewrite orb_true_r in H; discriminate|]. destruct (String.eqb w "in"); [discriminate|]. reflexivity. }
  split; [constructor; [split; [|split; [exact G|]]|..]|].
  { split; [split; [|left; reflexivity]|]; [constructor|]. all: destruct k as [p|w| | | | | | | |]; try reflexivity; try discriminate H; destruct p; try reflexivity; discriminate H. }
  all: destruct k as [p|w| | | | | | | |]; try reflexivity; try discriminate H; destruct p; try reflexivity; discriminate H.
Qed.
Lemma eof_ok inn b : ok_expr inn (T b KEof).
Proof. split; [|reflexivity]. constructor; [|reflexivity..]. split; [|split; reflexivity]. split; [|reflexivity]. split; [|right; reflexivity]. constructor; reflexivity. Qed.
Lemma cont_colon t : continues (knd t) = false -> tok_punc (kt t) Colon = false.
Proof. destruct t as [b [p|w| | | | | | | |]]; try reflexivity. destruct p; try reflexivity; discriminate. Qed.
Lemma semi_next_ok inn sl nt : semi true sl nt -> ok_expr inn (next sl nt) /\ tok_punc (kt (next sl nt)) Colon = false.
Proof.
  intros [b t|b t ->|b t ->|t Hn Hp Hc]; cbn [next hd].
  - split; [apply close_expr|]; reflexivity. - split; [apply close_expr|]; reflexivity.
  - split; [apply eof_ok|reflexivity]. - split; [apply cont_ok|apply cont_colon]; auto.
Qed.
Lemma starts_next l r nt : starts start_as l -> no_slash (next (l ++ r) nt).
Proof. destruct l as [|[b k] l]; [intros []|]. intros H. apply start_slash; auto. Qed.
Lemma starts_next0 l nt : starts start_as l -> no_slash (next l nt).
Proof. intros H. rewrite <- (app_nil_r l). apply starts_next; auto. Qed.
Lemma close_slash b p : existsb (punct_eqb p) closers = true -> no_slash (P b p).
Proof. destruct p; cbn; intros H; try discriminate; split; reflexivity. Qed.
Global Hint Resolve starts_next starts_next0 : gr.
Lemma next_app (l l' : list tok) nt : next (l ++ l') nt = next l (next l' nt).
Proof. destruct l; reflexivity. Qed.

Section Expr.
Context (E : env) (M : mode).
Hypothesis Hsane : ucd_sane E.
Notation ht := (ht E).
Notation does := (does E).
Notation lit_tree := (lit_tree E).
Notation run := (run E).

Notation mok := (mok M).
Notation eok := (eok M).
Hint Resolve eok_in eok_mok : gr.

(** ** Conditional and assignment *)
Definition P_condx F l nt e := forall n n2 rest m,
  does (l ++ nt :: rest) F m (parse_conditional_expr E n (run n2)) (tr e) (nt :: rest) (S m).
Lemma condx_cond F l nt e : P_condx F l nt e -> P_cond E F l nt e.
Proof. intros H n n2 rest m. eapply does_conseq; [| |apply H]; auto. Qed.
Lemma bin_does F inn lone l nt e : has_in (fprm F) = inn -> P_O E F 1 lone l nt e -> level inn (knd nt) = 0 -> forall n n2 rest m,
  does (l ++ nt :: rest) F m (parse_binary_expr E n (run n2)) (tr e) (nt :: rest) m.
Proof.
  intros Hi H Hn n n2 rest m. unfold parse_binary_expr, precedence_climbing. go.
  eapply ht_ext with (mm' := (x <- parse_exponentiation_expr E n (run n2) ;; y <- climb E n (run n2) n x 1 ;; ret y)).
  { intros s. unfold bind, ret. destruct (parse_exponentiation_expr E n (run n2) s); auto. destruct (climb _ _ _ _ _ _ _); auto. }
  eapply H; [lia|lia|]. intros k e' He. eapply ht_mono with (m' := S m); [destruct lone; cbn [mk negb]; lia|].
  eapply (@climb_stop E); [exact Hi|lia|lia|]. fin. auto.
Qed.
Lemma r_cond_binx F inn lone l nt e : has_in (fprm F) = inn -> P_O E F 1 lone l nt e -> ok_cond inn nt -> P_condx F l nt e.
Proof.
  intros Hi H (_ & Hn & Hq) n n2 rest m. unfold parse_conditional_expr. go.
  eapply ht_use; [eapply bin_does; eauto|]. intros e' He. go. fin. auto.
Qed.
Definition claimA inn l nt e := starts start_as l /\ forall F, eok F inn -> ok_assign inn nt -> P_assign E F l nt e.
Lemma assign_in_does l nt e : claimA true l nt e -> ok_assign true nt -> forall F, mok F -> forall n2 rest m,
  does (l ++ nt :: rest) F m (assign_in (run n2)) (tr e) (nt :: rest) m.
Proof. intros [_ H] Hn F HF n2 rest m. unfold assign_in, with_in. apply does_with. apply via_assign. apply H; auto. apply eok_in; auto. Qed.
Lemma h_assign_does inn l nt e : claimA inn l nt e -> ok_assign inn nt -> forall F, eok F inn -> forall n2 rest m,
  does (l ++ nt :: rest) F m (h_assign (run n2)) (tr e) (nt :: rest) m.
Proof. intros [_ H] Hn F HF n2 rest m. apply via_assign. apply H; auto. Qed.
Lemma r_cond F inn lone l b l1 b' l2 nt e e1 e2 : eok F inn -> P_O E F 1 lone l (P b Question) e ->
  claimA true l1 (P b' Colon) e1 -> claimA inn l2 nt e2 -> ok_assign inn nt ->
  P_cond E F (l ++ P b Question :: l1 ++ P b' Colon :: l2) nt (ConditionalExpression e e1 e2 nowhere).
Proof.
  intros HF H H1 H2 Hn n n2 rest m. pose proof (proj1 H1) as S1. pose proof (proj1 H2) as S2. unfold parse_conditional_expr. norm. go.
  eapply ht_use; [eapply bin_does; [apply HF|exact H|reflexivity]|]. intros x Hx. go.
  eapply ht_use; [apply (assign_in_does H1); [apply close_ok; reflexivity|apply HF]|]. intros y Hy. go.
  eapply ht_use; [apply (h_assign_does H2); auto|]. intros z Hz. go. fin.
  apply tr_plain; [|reflexivity]. cbn [bare_node]. rewrite (tr_bare Hx), (tr_bare Hy), (tr_bare Hz). reflexivity.
Qed.
Lemma no_arrow F n n2 nt rest m e : tok_punc (kt nt) FatArrow = false ->
  does (nt :: rest) F m (maybe_arrow E n (run n2) e) (eq e) (nt :: rest) m.
Proof. intros H. unfold maybe_arrow. go. destruct e; go; fin; reflexivity. Qed.
Lemma no_assign F n2 nt rest m e : tok_punc (kt nt) Assign = false -> is_assign_op (kt nt) = false ->
  does (nt :: rest) F (S m) (assignment_tail E (run n2) e) (eq e) (nt :: rest) m.
Proof.
  intros H H'. unfold assignment_tail. go. apply ht_if_f; [krw; rewrite H'; apply andb_false_r|]. go. fin. reflexivity.
Qed.
Lemma no_yield F t b k : mok F -> kmatch t k -> start_un k -> not_yield M (T b k) -> has_yield (fprm F) && matches_str t "yield" = false.
Proof.
  intros [H _] Kt Hk Hn. unfold not_yield in Hn. cbn [knd] in Hn. rewrite H. destruct (in_generator M); [|reflexivity]. krw. specialize (Hn eq_refl).
  unfold matches_str. cbn [ktok tval andb].
  starts_cases Hk; try reflexivity.
  - cbn [kval]. apply (@ident_kw x "yield"); auto. unfold reserved_words. cbn [In]. tauto.
  - cbn [kval]. apply str_eqb_false. congruence.
  - destruct b0; reflexivity.
  - cbn [kval]. apply str_eqb_false. congruence.
Qed.
Lemma r_assign_cond F inn l nt e : eok F inn -> starts start_un l -> not_yield M (next l nt) -> ok_assign inn nt -> P_cond E F l nt e -> P_assign E F l nt e.
Proof.
  intros HF Hl Hy Hn H n n2 rest m. unfold parse_assignment_expr. destruct l as [|[b k] l]; [contradiction|]. specialize (H n n2 rest). cbn [app] in *. cbn [starts knd next hd] in Hl, Hy. go.
  apply ht_if_f; [eapply no_yield; [apply HF|eassumption|solve [eauto with gr]|eassumption]|]. go. eapply ht_use; [apply H|]. intros x Hx.
  eapply ht_use; [apply no_arrow; apply Hn|]. intros z <-. eapply does_conseq; [| |apply no_assign; apply Hn]; auto. intros z <-. auto.
Qed.
Lemma left_condx F inn new l nt e : has_in (fprm F) = inn -> starts start_left l -> ok_cond inn nt -> P_left E F new l nt e -> P_condx F l nt e.
Proof.
  intros HF Hl Hn H. eapply r_cond_binx; eauto. apply r_bin_exp_O. apply r_exp_update; eauto with gr. apply r_update_left; eauto with gr.
Qed.
Lemma prim_condx F inn l nt e : has_in (fprm F) = inn -> starts start_prim l -> ok_cond inn nt -> P_prim E F l nt e -> P_condx F l nt e.
Proof.
  intros HF Hl Hn H. eapply left_condx; eauto with gr. apply r_left_member; eauto with gr. apply r_member_prim; auto.
Qed.
Lemma assign_ok_cond inn b p : p = Assign \/ assign_op p -> ok_cond inn (P b p).
Proof.
  intros [->|H]; [|unfold assign_op in H; cbn [In] in H; repeat destruct H as [<-|H]; [..|contradiction]].
  all: split; [|split; reflexivity]; split; [|reflexivity]; split; [constructor; reflexivity|right; reflexivity].
Qed.
Lemma r_assign F inn new l b l' nt e p e' : eok F inn -> not_yield M (next l nt) -> starts start_left l -> P_left E F new l (P b Assign) e -> assign_pat e p ->
  claimA inn l' nt e' -> ok_assign inn nt ->
  P_assign E F (l ++ P b Assign :: l') nt (AssignmentExpression "=" p e' ASimple nowhere).
Proof.
  intros HF Hy Hl H Ht H' Hn n n2 rest m. pose proof (proj1 H') as S1. unfold parse_assignment_expr.
  assert (Hc : P_cond E F l (P b Assign) e) by (apply condx_cond; eapply left_condx; [apply (proj2 HF)|exact Hl|apply assign_ok_cond; auto|exact H]).
  destruct l as [|[b0 k0] l]; [contradiction|]. cbn [starts knd next hd] in Hl, Hy. norm. go. apply ht_if_f; [eapply no_yield; [apply HF|eassumption|solve [eauto with gr]|eassumption]|]. go.
  specialize (Hc n n2). cbn [app] in Hc. eapply ht_use; [apply Hc|]. intros x Hx.
  eapply ht_use; [apply no_arrow; reflexivity|]. intros w <-. unfold assignment_tail. go.
  destruct (assign_pat_conv E Ht Hx) as (p' & C1 & C2 & C3).
  eapply ht_liftc; [exact C1|]. apply ht_if_f; [unfold not_assignable; unfold simple in C3; rewrite C3; reflexivity|].
  eapply ht_use; [apply (h_assign_does H'); auto|]. intros z Hz. go. fin.
  apply tr_plain; [|exact C3]. cbn [bare_node]. rewrite C2, (tr_bare Hz). reflexivity.
Qed.
Lemma assign_op_facts p : assign_op p -> tok_punc (ktok (KP p)) Assign = false /\ is_assign_op (ktok (KP p)) = true /\ tok_punc (ktok (KP p)) FatArrow = false.
Proof. intros H. unfold assign_op in H. cbn [In] in H. repeat destruct H as [<-|H]; [..|contradiction]; splits; reflexivity. Qed.
Lemma r_assign_op F inn new l b p l' nt e e' : eok F inn -> not_yield M (next l nt) -> starts start_left l -> target e = true -> assign_op p -> P_left E F new l (P b p) e ->
  claimA inn l' nt e' -> ok_assign inn nt ->
  P_assign E F (l ++ P b p :: l') nt (AssignmentExpression (p_spell p) e e' ASimple nowhere).
Proof.
  intros HF Hy Hl Ht Hp H H' Hn n n2 rest m. pose proof (proj1 H') as S1. unfold parse_assignment_expr.
  assert (Hc : P_cond E F l (P b p) e) by (apply condx_cond; eapply left_condx; [apply (proj2 HF)|exact Hl|apply assign_ok_cond; auto|exact H]).
  destruct (assign_op_facts Hp) as (A1 & A2 & A3).
  destruct l as [|[b0 k0] l]; [contradiction|]. cbn [starts knd next hd] in Hl, Hy. norm. go. apply ht_if_f; [eapply no_yield; [apply HF|eassumption|solve [eauto with gr]|eassumption]|]. go.
  specialize (Hc n n2). cbn [app] in Hc. eapply ht_use; [apply Hc|]. intros x Hx.
  eapply ht_use; [apply no_arrow; exact A3|]. intros w <-. unfold assignment_tail. go.
  apply ht_if_f; [eapply tr_target; eauto|].
  eapply ht_use; [apply (h_assign_does H'); auto|]. intros z Hz. go. fin.
  apply tr_plain; [|exact (target_simple' Hx Ht)]. cbn [bare_node]. rewrite (tr_bare Hx), (tr_bare Hz). reflexivity.
Qed.

(** ** yield *)
Lemma here_gen : m_yield M = Here -> in_generator M = true.
Proof. intros H. unfold in_generator. rewrite H. reflexivity. Qed.
Lemma eok_yield F inn : m_yield M = Here -> eok F inn -> eok (setp (set_yield true) F) inn.
Proof. intros H [(H1 & H2 & H3) H4]. split; [|exact H4]. unfold GramExpr.mok. splits; auto. cbn. rewrite here_gen; auto. Qed.
Lemma yield_starts F b u m n n2 (Q : node -> pst -> Prop) : m_yield M = Here -> mok F -> ht (W b "yield" :: u) F m (parse_yield_expr E n (run n2)) Q ->
  ht (W b "yield" :: u) F m (parse_assignment_expr E n (run n2)) Q.
Proof.
  intros Hy HF H. unfold parse_assignment_expr. go. apply ht_if_t; [|exact H]. rewrite (proj1 HF), here_gen by auto. krw. reflexivity.
Qed.
Lemma r_yield F inn b nt : m_yield M = Here -> eok F inn -> nl nt = true -> no_slash nt ->
  P_assign E F [W b "yield"] nt (YieldExpression None false ASimple nowhere).
Proof.
  intros Hy HF Hl Hn n n2 rest m. norm. apply yield_starts; auto; [apply HF|]. unfold parse_yield_expr. go. rewrite Hl. go. fin. apply tr_plain; reflexivity.
Qed.
Lemma r_yield_arg F inn b l nt e : m_yield M = Here -> eok F inn -> nl (next l nt) = false -> claimA inn l nt e -> ok_assign inn nt ->
  P_assign E F (W b "yield" :: l) nt (YieldExpression (Some e) false ASimple nowhere).
Proof.
  intros Hy HF Hl H Hn n n2 rest m. pose proof (proj1 H) as S1. norm. apply yield_starts; auto; [apply HF|]. unfold parse_yield_expr. go.
  destruct l as [|[b0 k0] l]; [contradiction|]. cbn [next hd nl starts knd] in Hl, S1. subst b0. cbn [app]. go.
  change (T false k0 :: l ++ nt :: rest) with ((T false k0 :: l) ++ nt :: rest).
  eapply ht_use; [apply (h_assign_does H); auto; apply eok_yield; eauto|]. intros x Hx. go. fin. apply tr_plain; [|reflexivity].
  cbn [bare_node option_map]. rewrite (tr_bare Hx). reflexivity.
Qed.
Lemma r_yield_star F inn b l nt e : m_yield M = Here -> eok F inn -> claimA inn l nt e -> ok_assign inn nt ->
  P_assign E F (W b "yield" :: P false Star :: l) nt (YieldExpression (Some e) true ASimple nowhere).
Proof.
  intros Hy HF H Hn n n2 rest m. pose proof (proj1 H) as S1. norm. apply yield_starts; auto; [apply HF|]. unfold parse_yield_expr. go.
  eapply ht_use; [apply (h_assign_does H); auto; apply eok_yield; eauto|]. intros x Hx. go. fin. apply tr_plain; [|reflexivity].
  cbn [bare_node option_map]. rewrite (tr_bare Hx). reflexivity.
Qed.

(** ** Sequences *)
Definition claimE inn l nt e := starts start_as l /\ forall F, eok F inn -> ok_expr inn nt -> P_expr E F l nt e.
Lemma sep_starts inn nt l es : sep (claimA inn) nt l es -> starts start_as l.
Proof. intros [? ? []|? ? ? ? ? [] _]; auto using starts_app. Qed.
Lemma while_comma A (C : list tok -> tok -> A -> Prop) (R : A -> A -> Prop) F nt (f : PM A) (ok : tok -> Prop) l es :
  (forall l nt e b rest m, C l nt e -> ok nt -> does (P b Comma :: l ++ nt :: rest) F m f (R e) (nt :: rest) m) ->
  (forall b, ok (P b Comma)) -> ok nt -> tok_punc (kt nt) Comma = false -> sep C nt l es -> forall b k rest m,
  does (P b Comma :: l ++ nt :: rest) F m (parse_while_punc k Comma f) (Forall2 R es) (nt :: rest) m.
Proof.
  intros Hf Hc Hn Hnt H. induction H as [l e H|b' l l' e es H H' IH]; intros b [|k] rest m; try apply ht_fuel; norm; cbn [parse_while_punc]; go.
  - eapply ht_use; [eapply Hf; eauto|]. intros x Hx. destruct k as [|k]; [apply ht_fuel_bind|]. cbn [parse_while_punc]. go. fin. auto.
  - eapply ht_use; [eapply Hf; eauto|]. intros x Hx. eapply ht_use; [apply IH|]. intros xs Hxs. go. fin. auto.
Qed.
Lemma Forall2_bare es es' : Forall2 tr es es' -> map bare_node es' = es.
Proof. induction 1 as [|e e' es es' H H' IH]; [reflexivity|]. cbn [map]. rewrite (tr_bare H), IH. reflexivity. Qed.
Lemma r_expr_one inn l nt e : claimA inn l nt e -> claimE inn l nt e.
Proof.
  intros [Hl H]. split; auto. intros F HF [Hn Hc] n n2 rest m. unfold parse_expression. go.
  eapply ht_use; [apply H; auto|]. intros x Hx. go. fin. auto.
Qed.
Lemma r_expr_seq inn l nt e e' es : sep (claimA inn) nt l (e :: e' :: es) ->
  claimE inn l nt (SequenceExpression (e :: e' :: es) ASimple nowhere).
Proof.
  intros H. split; [eapply sep_starts; eauto|]. intros F HF [Hn Hc] n n2 rest m. inversion H as [|b l1 l2 e1 es1 H1 H2]; subst.
  unfold parse_expression. norm. go. eapply ht_use; [apply (proj2 H1); auto; apply close_ok; reflexivity|]. intros x Hx. go.
  eapply ht_use; [eapply (@while_comma _ (claimA inn) tr F nt) with (ok := ok_assign inn)|]; eauto.
  { intros l3 nt3 e3 b3 rest3 m3 H3 Hn3. unfold comma_then. pose proof (proj1 H3). go. apply (h_assign_does H3); auto. }
  { intros b3. apply close_ok. reflexivity. }
  { unfold tok_punc. rewrite Hc. apply andb_false_r. }
  intros xs Hxs. go. fin. apply tr_plain; [|inversion Hxs; reflexivity]. cbn [bare_node map]. rewrite (tr_bare Hx), (Forall2_bare Hxs). reflexivity.
Qed.
Lemma expr_in_does l nt e : claimE true l nt e -> ok_expr true nt -> forall F, mok F -> forall n n2 rest m,
  does (l ++ nt :: rest) F m (with_in true (parse_expression E n (run n2))) (tr e) (nt :: rest) m.
Proof. intros [_ H] Hn F HF n n2 rest m. unfold with_in. apply does_with. apply H; auto. apply eok_in; auto. Qed.

(** ** Parenthesised lists and arrow functions *)
Lemma paren_items F l b es : mok F -> sep (claimA true) (P b RParen) l es -> forall n n2 k rest m,
  does (l ++ P b RParen :: rest) F m (parse_until_punc_or_rest k RParen (seq_element E n (run n2)))
    (fun x => Forall2 tr es (map fst x) /\ existsb snd x = false) (P b RParen :: rest) m.
Proof.
  intros HF H n n2. induction H as [l e H|b' l l' e es H H' IH]; intros [|k] rest m; try apply ht_fuel; pose proof (proj1 H) as Hs.
  all: destruct l as [|[b0 k0] l]; [contradiction|]; cbn [starts knd] in Hs; norm; cbn [parse_until_punc_or_rest]; go; unfold seq_element at 1; go.
  - eapply ht_use; [apply (assign_in_does H); auto; apply close_ok; reflexivity|]. intros x Hx. go.
    destruct k as [|k]; [apply ht_fuel_bind|]. cbn [parse_until_punc_or_rest]. go. fin. cbn [map fst existsb snd]. auto.
  - eapply ht_use; [apply (assign_in_does H); auto; apply close_ok; reflexivity|]. intros x Hx.
    pose proof (sep_starts H') as Hs'. destruct l' as [|[b1 k1] l']; [contradiction|]. cbn [starts knd] in Hs'. cbn [app] in *. go.
    eapply ht_use; [apply IH|]. intros xs [Hxs Hxx]. go. fin. cbn [map fst existsb snd]. split; [auto|].
    krw. rewrite Hxx, start_mpunc; auto.
Qed.
Lemma r_paren F b b' l nt es : mok F -> is_p nt FatArrow = false -> sep (claimA true) (P b' RParen) l es ->
  P_prim E F (P b LParen :: l ++ [P b' RParen]) nt (SequenceExpression es ASimple nowhere).
Proof.
  intros HF Hn H n n2 rest m. pose proof (sep_starts H) as Hs. unfold parse_primary_expr. norm. go. unfold parse_seq_or_arrow. go.
  eapply ht_use; [apply (paren_items HF H)|]. intros xs [Hxs Hxx]. go. apply ht_if_f.
  { rewrite Hxx. krw. destruct nt as [b0 [p|w| | | | | | | |]]; try reflexivity. exact Hn. }
  go. fin. apply tr_plain; [cbn [bare_node]; rewrite (Forall2_bare Hxs); reflexivity|].
  cbn [good]. destruct (map fst xs) as [|x0 [|x1 xs0]]; try reflexivity. inversion Hxs as [|? ? ? ? Hx0]; subst. rewrite (proj2 Hx0). unfold simple. cbn [andb].
  destruct (att_eqb (assign_target_type x0) ASimple); reflexivity.
Qed.
Lemma claim_id b x nt : ident x -> claimA true [Id b x] nt (id_tree x).
Proof.
  intros Hx. split; [cbn; eauto with gr|]. intros F HF Hn. eapply r_assign_cond; eauto; [cbn; eauto with gr|intros _; exact I|].
  apply condx_cond. eapply prim_condx; [apply HF|cbn; eauto with gr|apply Hn|]. apply r_id; auto.
Qed.
(** The items between the parentheses turn into the parameters. *)
Definition to_params (ps : list func_param) (xs : list node) : Prop := forall F ts m,
  does ts F m (seq_to_arrow_params E xs) (fun qs => map bare_param qs = ps) ts m.
Lemma bnode_param p i q l F ts m : bnode p i q -> does ts F m (param_of_pattern E l q) (fun x => bare_param x = pat_param p i) ts m.
Proof. intros H. inversion H; subst; cbn [param_of_pattern]; fin; cbn; auto. Qed.
Lemma to_params_cons e p i x ps xs : tr e x -> bind_item e p i -> to_params ps xs -> to_params (pat_param p i :: ps) (x :: xs).
Proof.
  intros He Hb H F ts m. cbn [seq_to_arrow_params]. destruct (bind_item_conv E Hb He) as (q & Q1 & Q2).
  eapply ht_liftc; [exact Q1|]. eapply ht_use; [apply (@bnode_param _ _ _ _ F ts m Q2)|]. intros y Hy.
  eapply ht_use; [apply H|]. intros ys Hys. go. fin. cbn [map]. congruence.
Qed.
Definition claimAP l nt ps := forall b, nt = P b RParen -> no_slash (next l nt) /\ forall F, mok F -> forall n n2 k rest m,
  does (l ++ nt :: rest) F m (parse_until_punc_or_rest k RParen (seq_element E n (run n2))) (fun x => to_params ps (map fst x)) (nt :: rest) m.
Ltac loopr k := destruct k as [|k]; [first [apply ht_fuel | apply ht_fuel_bind]|]; cbn [parse_until_punc_or_rest]; go.
Lemma r_arrow_nil nt : claimAP [] nt [].
Proof. intros b ->. split; [split; reflexivity|]. intros F HF n n2 k rest m. norm. loopr k. fin. intros F0 ts0 m0. cbn [map seq_to_arrow_params]. fin. reflexivity. Qed.
Lemma to_params_nil : to_params [] [].
Proof. intros F0 ts0 m0. cbn [map seq_to_arrow_params]. fin. reflexivity. Qed.
Lemma r_arrow_last l nt e p i : claimA true l nt e -> bind_item e p i -> claimAP l nt [pat_param p i].
Proof.
  intros H Hb b ->. pose proof (proj1 H) as Hl. split; [eauto with gr|]. intros F HF n n2 k rest m.
  destruct l as [|[b0 k0] l]; [contradiction|]. cbn [starts knd] in Hl. norm. loopr k. unfold seq_element at 1. go.
  eapply ht_use; [apply (assign_in_does H); auto; apply close_ok; reflexivity|]. intros x Hx. go. loopr k. fin.
  cbn [map fst]. eapply to_params_cons; eauto using to_params_nil.
Qed.
Lemma r_arrow_more b l l' nt e p i ps : claimA true l (P b Comma) e -> bind_item e p i -> claimAP l' nt ps -> claimAP (l ++ P b Comma :: l') nt (pat_param p i :: ps).
Proof.
  intros H Hb H' b' ->. pose proof (proj1 H) as Hl. destruct (H' b' eq_refl) as [Hs Hx]. split; [eauto with gr|]. intros F HF n n2 k rest m.
  destruct l as [|[b0 k0] l]; [contradiction|]. cbn [starts knd] in Hl. norm. loopr k. unfold seq_element at 1. go.
  eapply ht_use; [apply (assign_in_does H); auto; apply close_ok; reflexivity|]. intros x Hx'. go.
  assert (Hsf : slashfree (l' ++ P b' RParen :: rest)) by (apply sf_next; auto).
  destruct l' as [|[b1 k1] l']; cbn [app] in *; go; (eapply ht_use; [apply Hx; auto|]); intros xs Hxs; go; fin; cbn [map fst]; eapply to_params_cons; eauto.
Qed.
Definition claimB inn l nt (eb : node * bool) := starts start_as l /\ forall F, in_generator M = false -> fstrict F = m_strict M -> has_in (fprm F) = inn -> ok_assign inn nt -> forall n n2 rest m,
  does (l ++ nt :: rest) F m (parse_arrow_body E n (run n2)) (fun x => bare_node (fst x) = fst eb /\ snd x = snd eb) (nt :: rest) m.
Lemma r_arrow_body_expr inn l nt e : is_p (next l nt) LBrace = false -> claimA inn l nt e -> claimB inn l nt (e, true).
Proof.
  intros Hn0 H. pose proof (proj1 H) as Hs. split; auto. intros F Hg Hst HF Hn n n2 rest m. unfold parse_arrow_body.
  destruct l as [|[b k] l]; [contradiction|]. norm. apply ht_cur. intros t Kt. cbn [knd] in Kt. apply ht_if_f.
  { krw. cbn [next hd is_p knd] in Hn0. destruct k; try reflexivity. exact Hn0. }
  unfold with_prm. go. apply (@ht_with E _ _ (T b k :: l ++ nt :: rest) F m _ (ya false true)).
  eapply ht_use; [apply (h_assign_does H); auto; apply eok_ya; auto|]. intros x Hx. go. fin. cbn [fst snd]. split; auto. apply tr_bare; auto.
Qed.
Definition claimF l nt body := (exists b l0, l = P b LBrace :: l0) /\ forall F, mok F -> no_slash nt -> forall n n2 rest m,
  does (l ++ nt :: rest) F m (parse_function_body E n (run n2)) (fun x => bare_node x = body) (nt :: rest) m.
Lemma r_arrow_body_block inn l nt body : no_slash nt -> claimF l nt body -> claimB inn l nt (body, false).
Proof.
  intros Hs [(b & l0 & ->) H]. split; [cbn; eauto with gr|]. intros F Hg Hst HF Hn n n2 rest m. unfold parse_arrow_body. norm. go.
  eapply ht_use; [apply (H (setp (ya false true) F)); auto; apply mok_ya; auto|]. intros x Hx. go. fin. auto.
Qed.
(** ** Separators *)
Definition sepr (c : punct) (nt : tok) (rest u : list tok) : Prop :=
  exists b, (nt = P b c /\ u = nt :: rest) \/ (nt = P b Comma /\ u = rest /\ slashfree rest).
Lemma sepr_ok c nt rest u : existsb (punct_eqb c) closers = true -> sepr c nt rest u -> ok_assign true nt.
Proof. intros Hc (b & [[-> _]|[-> _]]); apply close_ok; auto. Qed.
Lemma sepr_comma c nt rest u F m : existsb (punct_eqb c) (tl closers) = true -> sepr c nt rest u ->
  does (nt :: rest) F m (comma_unless E c) (fun _ => True) u m.
Proof.
  intros Hc (b & [[-> ->]|(-> & -> & Hr)]); unfold comma_unless; go.
  - apply ht_if_t; [krw; destruct c; try discriminate Hc; reflexivity|]. fin. auto.
  - apply ht_if_f; [krw; destruct c; try discriminate Hc; reflexivity|]. go. fin. auto.
Qed.
Lemma sepr_last c b rest : sepr c (P b c) rest (P b c :: rest).
Proof. exists b. auto. Qed.
Lemma sepr_more c b rest : slashfree rest -> sepr c (P b Comma) rest rest.
Proof. exists b. auto. Qed.

(** ** Array literals *)
Definition claimL l nt es := forall b, nt = P b RBracket -> no_slash (next l nt) /\ forall F, mok F -> forall n2 k rest m,
  does (l ++ nt :: rest) F m (parse_until_punc k RBracket (array_lit_element E (run n2))) (fun x => map (option_map bare_elem) x = es /\ forallb good_opt x = true) (nt :: rest) m.
Lemma elem_does l nt e rest u F n2 m : claimA true l nt e -> sepr RBracket nt rest u -> mok F ->
  does (l ++ nt :: rest) F m (array_lit_element E (run n2)) (fun x => option_map bare_elem x = Some (AE_Expr e) /\ good_opt x = true) u m.
Proof.
  intros H Hs HF. pose proof (proj1 H) as Hl. destruct l as [|[b0 k0] l]; [contradiction|]. cbn [starts knd] in Hl. norm. unfold array_lit_element. go.
  eapply ht_use; [apply (assign_in_does H); auto; eapply sepr_ok; eauto; reflexivity|]. intros x Hx.
  eapply ht_use; [apply (@sepr_comma RBracket); eauto|]. intros _ _. fin. split; [cbn [option_map bare_elem]; rewrite (tr_bare Hx); reflexivity|exact (proj2 Hx)].
Qed.
Lemma elem_spread_does l nt e rest u F n2 b m : claimA true l nt e -> sepr RBracket nt rest u -> mok F ->
  does (P b Ellipsis :: l ++ nt :: rest) F m (array_lit_element E (run n2)) (fun x => option_map bare_elem x = Some (AE_Spread e nowhere) /\ good_opt x = true) u m.
Proof.
  intros H Hs HF. pose proof (proj1 H) as Hl. unfold array_lit_element. go.
  eapply ht_use; [apply (assign_in_does H); auto; eapply sepr_ok; eauto; reflexivity|]. intros x Hx.
  eapply ht_use; [apply (@sepr_comma RBracket); eauto|]. intros _ _. go. fin. split; [cbn [option_map bare_elem]; rewrite (tr_bare Hx); reflexivity|exact (proj2 Hx)].
Qed.
Ltac loop0 k := destruct k as [|k]; [first [apply ht_fuel | apply ht_fuel_bind]|]; cbn [parse_until_punc parse_until_punc_or_rest]; go.
Lemma r_elems_nil nt : claimL [] nt [].
Proof. intros b ->. split; [split; reflexivity|]. intros F HF n2 k rest m. norm. loop0 k. fin. split; reflexivity. Qed.
Lemma r_elems_hole b l nt es : claimL l nt es -> claimL (P b Comma :: l) nt (None :: es).
Proof.
  intros H b' ->. destruct (H b' eq_refl) as [Hs Hx]. split; [split; reflexivity|]. intros F HF n2 k rest m. norm. loop0 k.
  unfold array_lit_element at 1. go. go.
  eapply ht_use; [apply Hx; auto|]. intros xs [Hxs Hxg]. go. fin. split; [cbn [map option_map]; congruence|exact Hxg].
Qed.
Lemma r_elems_last l nt e : claimA true l nt e -> claimL l nt [Some (AE_Expr e)].
Proof.
  intros H b ->. pose proof (proj1 H) as Hl. split; [eauto with gr|]. intros F HF n2 k rest m.
  destruct l as [|[b0 k0] l]; [contradiction|]. cbn [starts knd] in Hl. norm. loop0 k.
  eapply ht_use; [apply (@elem_does _ _ _ _ _ _ _ _ H (sepr_last _ _ _)); auto|]. intros x [Hx Hg]. loop0 k. fin. split; [cbn [map]; rewrite Hx; reflexivity|cbn [forallb]; rewrite Hg; reflexivity].
Qed.
Lemma r_elems_more b l l' nt e es : claimA true l (P b Comma) e -> claimL l' nt es -> claimL (l ++ P b Comma :: l') nt (Some (AE_Expr e) :: es).
Proof.
  intros H H' b' ->. pose proof (proj1 H) as Hl. destruct (H' b' eq_refl) as [Hs Hx]. split; [eauto with gr|]. intros F HF n2 k rest m.
  destruct l as [|[b0 k0] l]; [contradiction|]. cbn [starts knd] in Hl. norm. loop0 k.
  eapply ht_use; [apply (@elem_does _ _ _ _ _ _ _ _ H); eauto; apply sepr_more, sf_next; auto|]. intros x [Hx' Hg].
  eapply ht_use; [apply Hx; auto|]. intros xs [Hxs Hxg]. go. fin. split; [cbn [map]; congruence|cbn [forallb]; rewrite Hg; exact Hxg].
Qed.
Lemma r_elems_spread_last b l nt e : claimA true l nt e -> claimL (P b Ellipsis :: l) nt [Some (AE_Spread e nowhere)].
Proof.
  intros H b' ->. split; [split; reflexivity|]. intros F HF n2 k rest m. norm. loop0 k.
  eapply ht_use; [apply (@elem_spread_does _ _ _ _ _ _ _ _ _ H (sepr_last _ _ _)); auto|]. intros x [Hx Hg]. loop0 k. fin. split; [cbn [map]; rewrite Hx; reflexivity|cbn [forallb]; rewrite Hg; reflexivity].
Qed.
Lemma r_elems_spread b b' l l' nt e es : claimA true l (P b' Comma) e -> claimL l' nt es ->
  claimL (P b Ellipsis :: l ++ P b' Comma :: l') nt (Some (AE_Spread e nowhere) :: es).
Proof.
  intros H H' b2 ->. destruct (H' b2 eq_refl) as [Hs Hx]. split; [split; reflexivity|]. intros F HF n2 k rest m. norm. loop0 k.
  eapply ht_use; [apply (@elem_spread_does _ _ _ _ _ _ _ _ _ H); eauto; apply sepr_more, sf_next; auto|]. intros x [Hx' Hg].
  eapply ht_use; [apply Hx; auto|]. intros xs [Hxs Hxg]. go. fin. split; [cbn [map]; congruence|cbn [forallb]; rewrite Hg; exact Hxg].
Qed.
Lemma r_array F b b' l nt es : mok F -> claimL l (P b' RBracket) es ->
  P_prim E F (P b LBracket :: l ++ [P b' RBracket]) nt (ArrayExpression es ASimple nowhere).
Proof.
  intros HF H n n2 rest m. destruct (H b' eq_refl) as [Hs Hx]. unfold parse_primary_expr. norm. go. unfold parse_array_lit_expr. go. eapply ht_use; [apply Hx; auto|]. intros xs [Hxs Hxg]. go. fin.
  apply tr_plain; [|exact Hxg]. cbn [bare_node]. rewrite Hxs. reflexivity.
Qed.

(** ** Arguments *)
Definition claimR l nt es := forall b, nt = P b RParen -> no_slash (next l nt) /\ forall F, mok F -> forall n2 k rest m,
  does (l ++ nt :: rest) F m (parse_until_punc k RParen (argument E (run n2))) (fun x => map bare_arg x = es) (nt :: rest) m.
Lemma arg_does l nt e rest u F n2 m : claimA true l nt e -> sepr RParen nt rest u -> mok F ->
  does (l ++ nt :: rest) F m (argument E (run n2)) (fun x => bare_arg x = AR_Expr e) u m.
Proof.
  intros H Hs HF. pose proof (proj1 H) as Hl. destruct l as [|[b0 k0] l]; [contradiction|]. cbn [starts knd] in Hl. norm. unfold argument. go.
  eapply ht_use; [apply (assign_in_does H); auto; eapply sepr_ok; eauto; reflexivity|]. intros x Hx.
  eapply ht_use; [apply (@sepr_comma RParen); eauto|]. intros _ _. fin. cbn [bare_arg]. rewrite (tr_bare Hx). reflexivity.
Qed.
Lemma arg_spread_does l nt e rest u F n2 b m : claimA true l nt e -> sepr RParen nt rest u -> mok F ->
  does (P b Ellipsis :: l ++ nt :: rest) F m (argument E (run n2)) (fun x => bare_arg x = AR_Spread e nowhere) u m.
Proof.
  intros H Hs HF. pose proof (proj1 H) as Hl. unfold argument. go.
  eapply ht_use; [apply (assign_in_does H); auto; eapply sepr_ok; eauto; reflexivity|]. intros x Hx. go.
  eapply ht_use; [apply (@sepr_comma RParen); eauto|]. intros _ _. go. fin. cbn [bare_arg]. rewrite (tr_bare Hx). reflexivity.
Qed.
Lemma r_arglist_nil nt : claimR [] nt [].
Proof. intros b ->. split; [split; reflexivity|]. intros F HF n2 k rest m. norm. loop0 k. fin. reflexivity. Qed.
Lemma r_arglist_last l nt e : claimA true l nt e -> claimR l nt [AR_Expr e].
Proof.
  intros H b ->. pose proof (proj1 H) as Hl. split; [eauto with gr|]. intros F HF n2 k rest m.
  destruct l as [|[b0 k0] l]; [contradiction|]. cbn [starts knd] in Hl. norm. loop0 k.
  eapply ht_use; [apply (@arg_does _ _ _ _ _ _ _ _ H (sepr_last _ _ _)); auto|]. intros x Hx. loop0 k. fin. cbn [map]. rewrite Hx. reflexivity.
Qed.
Lemma r_arglist_more b l l' nt e es : claimA true l (P b Comma) e -> claimR l' nt es -> claimR (l ++ P b Comma :: l') nt (AR_Expr e :: es).
Proof.
  intros H H' b' ->. pose proof (proj1 H) as Hl. destruct (H' b' eq_refl) as [Hs Hx]. split; [eauto with gr|]. intros F HF n2 k rest m.
  destruct l as [|[b0 k0] l]; [contradiction|]. cbn [starts knd] in Hl. norm. loop0 k.
  eapply ht_use; [apply (@arg_does _ _ _ _ _ _ _ _ H); eauto; apply sepr_more, sf_next; auto|]. intros x Hx'.
  eapply ht_use; [apply Hx; auto|]. intros xs Hxs. go. fin. cbn [map]. congruence.
Qed.
Lemma r_arglist_spread_last b l nt e : claimA true l nt e -> claimR (P b Ellipsis :: l) nt [AR_Spread e nowhere].
Proof.
  intros H b' ->. split; [split; reflexivity|]. intros F HF n2 k rest m. norm. loop0 k.
  eapply ht_use; [apply (@arg_spread_does _ _ _ _ _ _ _ _ _ H (sepr_last _ _ _)); auto|]. intros x Hx. loop0 k. fin. cbn [map]. rewrite Hx. reflexivity.
Qed.
Lemma r_arglist_spread b b' l l' nt e es : claimA true l (P b' Comma) e -> claimR l' nt es ->
  claimR (P b Ellipsis :: l ++ P b' Comma :: l') nt (AR_Spread e nowhere :: es).
Proof.
  intros H H' b2 ->. destruct (H' b2 eq_refl) as [Hs Hx]. split; [split; reflexivity|]. intros F HF n2 k rest m. norm. loop0 k.
  eapply ht_use; [apply (@arg_spread_does _ _ _ _ _ _ _ _ _ H); eauto; apply sepr_more, sf_next; auto|]. intros x Hx'.
  eapply ht_use; [apply Hx; auto|]. intros xs Hxs. go. fin. cbn [map]. congruence.
Qed.
Lemma r_args F b b' l nt args : mok F -> claimR l (P b' RParen) args -> P_args E F (P b LParen :: l ++ [P b' RParen]) nt args.
Proof.
  intros HF H n n2 rest m. destruct (H b' eq_refl) as [Hs Hx]. unfold parse_arguments. norm. go. eapply ht_use; [apply Hx; auto|]. intros xs Hxs. go. fin. auto.
Qed.
End Expr.

Section Arrow.
Context (E : env) (M M' : mode).
Hypothesis Hsane : ucd_sane E.
Notation ht := (ht E).
Notation does := (does E).
Notation run := (run E).
Lemma r_arrow F inn b l ps b' b'' l' nt body ex : eok M F inn -> claimAP E M l (P b' RParen) ps -> in_generator M' = false -> m_strict M' = m_strict M -> claimB E M' inn l' nt (body, ex) -> ok_assign inn nt ->
  P_assign E F (P b LParen :: l ++ P b' RParen :: P b'' FatArrow :: l') nt
    (ArrowFunctionExpression None ps body false ex false ASimple nowhere).
Proof.
  intros HF Hl Hg Hg' [Hs H] Hn. assert (Hst : fstrict F = m_strict M') by (rewrite Hg'; apply HF). eapply r_assign_cond; eauto; [cbn; eauto with gr|intros _; exact I|]. apply condx_cond.
  eapply prim_condx; [apply HF|cbn; eauto with gr|apply Hn|]. intros n n2 rest m. unfold parse_primary_expr. norm. go. unfold parse_seq_or_arrow. go.
  destruct (Hl b' eq_refl) as [Hsl Hx].
  assert (Hsf : slashfree (l ++ P b' RParen :: P b'' FatArrow :: l' ++ nt :: rest)) by (apply sf_next; auto).
  go. eapply ht_use; [apply Hx; apply HF|].
  intros ys Hys. go. apply ht_if_t; [krw; apply orb_true_r|]. unfold seq_to_arrow.
  eapply ht_use; [apply Hys|]. intros qs Hqs. go.
  eapply ht_use; [apply H; auto; apply HF|]. intros [bd ex'] [Hb Hx']. cbn [fst snd] in Hb, Hx'. subst. go. fin.
  apply tr_plain; [|reflexivity]. cbn [bare_node option_map]. rewrite Hqs. reflexivity.
Qed.
Lemma r_arrow_one F inn b x b' l nt body ex : eok M F inn -> ident x -> in_generator M' = false -> m_strict M' = m_strict M -> claimB E M' inn l nt (body, ex) -> ok_assign inn nt ->
  P_assign E F (Id b x :: P b' FatArrow :: l) nt (ArrowFunctionExpression None [FP_Id x] body false ex false ASimple nowhere).
Proof.
  intros HF Hx Hg Hg' [Hs H] Hn. assert (Hst : fstrict F = m_strict M') by (rewrite Hg'; apply HF). intros n n2 rest m. unfold parse_assignment_expr. norm. go. apply ht_if_f; [eapply no_yield with (b := b); [apply HF|eassumption|solve [eauto with gr]|intros _; exact I]|]. go.
  assert (Hc : P_condx E F [Id b x] (P b' FatArrow) (id_tree x)).
  { eapply prim_condx; [apply (proj2 HF)|cbn; eauto with gr| |apply r_id; auto].
    split; [|split; reflexivity]. split; [|reflexivity]. split; [constructor; reflexivity|right; reflexivity]. }
  eapply ht_use; [apply Hc|]. intros y [Hy _]. destruct y; try discriminate Hy. injection Hy as ->. unfold maybe_arrow. go.
  unfold parse_single_param_arrow_function_expr. go. eapply ht_use; [apply H; auto; apply HF|]. intros [bd ex'] [Hb Hx']. cbn [fst snd] in Hb, Hx'. subst. go.
  eapply does_conseq; [| |apply (@no_assign E); apply Hn]; auto. intros z <-. apply tr_plain; reflexivity.
Qed.

End Arrow.
