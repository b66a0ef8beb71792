(** * GramStmt2: the parser on the statements of the grammar, continued (proofs). *)
From Verif Require Import Base Codepoint Punct Token Scanner SpecLex SpecScan Hoare ScanBase ScanTokens2.
From Verif Require Import Ast Convert ParserBase ParserExpr ParserStmt Parser SpecJson SpecBare SpecLayout SpecGrammar GramLex GramBase GramTac GramPat GramExpr GramExpr2 GramExpr3 GramExpr4 GramStmt.
From Coq Require Import ZifyBool ZifyN ZifyNat.
Set Implicit Arguments.

Section Stmt.
Context (E : env) (M : mode).
Notation mok := (mok M).
Notation eok := (eok M).
Notation sok := (sok M).
Hypothesis Hsane : ucd_sane E.
Notation ht := (ht E).
Notation does := (does E).
Notation lit_tree := (lit_tree E).
Notation run := (run E).
Notation claimA := (claimA E M).
Notation claimE := (claimE E M).
Notation claimF := (claimF E M).
Notation claimT := (claimT E M).
Notation claimS := (claimS E M).
Notation claimI := (claimI E M).
Notation claimD := (claimD E M).
Notation claimK := (claimK E M).
Notation items := (items E M).
Ltac both := split; [unfold parse_statement|unfold parse_stmt_list_item]; go.
Ltac kw_start := split; [split; [itok|reflexivity]|]; intros F HF Hn n n2 rest m; norm.

(** ** Expression statements and labels *)
Lemma both_expr F k b u m n n2 R ts' m' : start_as k -> is_p (T b k) LBrace = false -> is_w (T b k) "function" = false -> is_w (T b k) "class" = false ->
  (k = KI (s2l "async") -> exists x u', u = Id false x :: u') ->
  does (T b k :: u) F m (parse_expression_or_labelled_stmt E n (run n2)) R ts' m' ->
  does (T b k :: u) F m (parse_statement E n (run n2)) R ts' m' /\ does (T b k :: u) F m (parse_stmt_list_item E n (run n2)) R ts' m'.
Proof.
  intros Hk Hb Hw Hw' Ha H.
  assert (Hcl : tok_kw (ktok k) "class" = false).
  { destruct k as [p|w| | | | | | | |]; auto. unfold tok_kw, matches_str. cbn [ktok ttype tval ktype kval tt_eqb andb]. rewrite s2l_eqb. exact Hw'. }
  assert (Hbr : tok_punc (ktok k) LBrace = false) by (destruct k; auto; exact Hb).
  assert (Hf : tok_kw (ktok k) "function" = false).
  { destruct k as [p|w| | | | | | | |]; auto. unfold tok_kw, matches_str. cbn [ktok ttype tval ktype kval tt_eqb andb]. rewrite s2l_eqb. exact Hw. }
  destruct (tok_id (ktok k) "async") eqn:Has.
  { assert (Hka : k = KI (s2l "async")).
    { destruct k; try discriminate Has. f_equal. apply str_eqb_eq. exact Has. }
    destruct (Ha Hka) as (x & u' & ->). subst k. both; [exact H|]. unfold async_stmt. go.
    eapply ht_look; [assumption|reflexivity|split; reflexivity|reflexivity|]. intros t9 Kt9. go. exact H. }
  destruct (start_dispatch Hk Hf Has) as (D1 & D2 & D3 & D4).
  both; exact H.
Qed.
Lemma expr_stmt_tail F e x sl nt rest n2 n m : tr e x -> semi true sl nt -> no_slash nt ->
  does (sl ++ nt :: rest) F (S m) (t <- getcur ;; match x with
    | Identifier name _ sp => if tok_punc t Colon then parse_labelled_stmt E n (run n2) (mkId name sp) else parse_expression_stmt E x
    | _ => parse_expression_stmt E x end) (R_node (ExpressionStatement e nowhere)) (nt :: rest) m.
Proof.
  intros Hx Hs Hn. assert (Hc : exists t0 u, sl ++ nt :: rest = t0 :: u /\ tok_punc (kt t0) Colon = false).
  { pose proof (proj2 (@semi_next_ok true _ _ Hs)). destruct sl as [|t0 sl]; [exists nt, rest|exists t0, (sl ++ nt :: rest)]; auto. }
  assert (Hd : does (sl ++ nt :: rest) F (S m) (parse_expression_stmt E x) (R_node (ExpressionStatement e nowhere)) (nt :: rest) m).
  { unfold parse_expression_stmt. go. eapply ht_use; [eapply semi_does; eauto|]. intros _ _. fin. unfold R_node. cbn [bare_node]. rewrite (tr_bare Hx). reflexivity. }
  destruct Hc as (t0 & u & He & Hc). rewrite He in *. apply ht_cur. intros t Kt. destruct x; try exact Hd. apply ht_if_f; [krw; exact Hc|exact Hd].
Qed.
Lemma r_stmt_expr c l sl nt e : is_p (next l nt) LBrace = false -> is_w (next l nt) "function" = false -> is_w (next l nt) "class" = false -> async_arrow l ->
  claimE true l (next sl nt) e -> semi true sl nt -> claimS c (l ++ sl) nt (ExpressionStatement e nowhere).
Proof.
  intros Hb Hw Hw' Ha H Hs. pose proof (proj1 H) as Hl. destruct l as [|[b k] l]; [contradiction|]. cbn [starts next hd knd] in *.
  split.
  { split; [apply start_item; auto|]. cbn [knd]. destruct k as [p|w| | | | | | | |]; auto. unfold tok_kw, matches_str. cbn [ktok ttype tval ktype kval tt_eqb andb]. rewrite s2l_eqb. exact Hw. }
  intros F HF Hn n n2 rest m. norm. apply both_expr; auto.
  { intros ->. destruct (Ha _ _ eq_refl) as (x & l2 & ->). norm. eauto. }
  unfold parse_expression_or_labelled_stmt. go.
  eapply ht_use with (R := tr e) (ts' := sl ++ nt :: rest) (m' := S m).
  { change (T b k :: l ++ sl ++ nt :: rest) with ((T b k :: l) ++ sl ++ nt :: rest). apply at_next. intros rest'.
    apply (proj2 H); [apply eok_in, HF|]. apply (semi_next_ok _ Hs). }
  intros x Hx. apply ht_restore. eapply expr_stmt_tail; eauto.
Qed.
Lemma r_stmt_label c b x b' l nt s : ident x -> claimS c l nt s ->
  claimS c (Id b x :: P b' Colon :: l) nt (LabeledStatement (mkId x nowhere) s nowhere).
Proof.
  intros Hx H. pose proof (proj1 H) as Hs.
  assert (Hk : start_as (KI x)) by eauto with gr.
  split.
  { split; [apply start_item; auto|reflexivity]. }
  intros F HF Hn n n2 rest m. norm. apply both_expr; auto; [intros Hc; injection Hc as ->; exfalso; eapply ident_async; eauto|].
  unfold parse_expression_or_labelled_stmt. go.
  eapply ht_use with (R := tr (id_tree x)) (ts' := P b' Colon :: l ++ nt :: rest) (m' := S m).
  { apply (@r_expr_one E M true [Id b x] (P b' Colon) (id_tree x) (@claim_id E M Hsane b x (P b' Colon) Hx)); [apply eok_in, HF|]. apply close_expr. reflexivity. }
  intros y [Hy _]. go. destruct y; try discriminate Hy. injection Hy as ->. go. unfold parse_labelled_stmt.
  pose proof (@stmt_sf l (nt :: rest) Hs). go.
  destruct l as [|tq lq]; [contradiction|]. pose proof (proj2 Hs). norm. go.
  eapply ht_use; [apply (via_stmt H); auto|]. intros z Hz. go. fin. unfold R_node in *. cbn [bare_node strip_id]. rewrite Hz. reflexivity.
Qed.

Lemma r_stmt_with c b b1 l b2 l' nt e s : m_strict M = false -> claimE true l (P b2 RParen) e -> claimS c l' nt s ->
  claimS c (W b "with" :: P b1 LParen :: l ++ P b2 RParen :: l') nt (WithStatement e s nowhere).
Proof.
  intros Hst H H'. pose proof (proj1 H) as Hl. pose proof (proj1 H') as Hl'. kw_start. pose proof (@stmt_sf l' (nt :: rest) Hl').
  assert (Hf : fstrict F = false) by (destruct HF as ((_ & _ & G) & _); congruence).
  both; unfold parse_with_stmt; go; (apply ht_if_f; [congruence|]); go; (eapply ht_use; [apply (proj2 H); [apply eok_in, HF|apply close_expr; reflexivity]|]); intros x Hx; go;
    (eapply ht_use; [apply (via_stmt H'); auto|]); intros z Hz; go; fin; unfold R_node in *; cbn [bare_node option_map]; rewrite Hz, (tr_bare Hx); reflexivity.
Qed.

(** ** If, loops *)
Lemma paren_expr l b e F n n2 rest m : claimE true l (P b RParen) e -> mok F ->
  does (l ++ P b RParen :: rest) F m (with_in true (parse_expression E n (run n2))) (tr e) (P b RParen :: rest) m.
Proof. intros H HF. eapply expr_in_does; eauto. apply close_expr. reflexivity. Qed.
Lemma r_stmt_if c b b1 l b2 l' nt e s : claimE true l (P b2 RParen) e -> claimS c l' nt s -> is_w nt "else" = false ->
  claimS c (W b "if" :: P b1 LParen :: l ++ P b2 RParen :: l') nt (IfStatement e s None nowhere).
Proof.
  intros H H' Hw. pose proof (proj1 H) as Hl. pose proof (proj1 H') as Hl'. kw_start. pose proof (@stmt_sf l' (nt :: rest) Hl').
  assert (Hf : tok_kw (kt nt) "else" = false).
  { destruct nt as [b0 [p|w| | | | | | | |]]; auto. unfold tok_kw, matches_str. cbn [knd ktok ttype tval ktype kval tt_eqb andb]. rewrite s2l_eqb. exact Hw. }
  both; unfold parse_if_stmt; go; (eapply ht_use; [apply (proj2 H); [apply eok_in, HF|apply close_expr; reflexivity]|]); intros x Hx; go;
    (eapply ht_use; [apply (via_stmt H'); auto|]); intros z Hz; go; fin; unfold R_node in *; cbn [bare_node option_map]; rewrite Hz, (tr_bare Hx); reflexivity.
Qed.
Lemma r_stmt_if_else c b b1 l b2 l1 b3 l2 nt e s s' : claimE true l (P b2 RParen) e -> claimS c l1 (W b3 "else") s -> claimS c l2 nt s' ->
  claimS c (W b "if" :: P b1 LParen :: l ++ P b2 RParen :: l1 ++ W b3 "else" :: l2) nt (IfStatement e s (Some s') nowhere).
Proof.
  intros H H' H2. pose proof (proj1 H) as Hl. pose proof (proj1 H') as Hl'. pose proof (proj1 H2) as Hl2. kw_start.
  pose proof (@stmt_sf l1 (W b3 "else" :: l2 ++ nt :: rest) Hl'). pose proof (@stmt_sf l2 (nt :: rest) Hl2).
  both; unfold parse_if_stmt; go; (eapply ht_use; [apply (proj2 H); [apply eok_in, HF|apply close_expr; reflexivity]|]); intros x Hx; go;
    (eapply ht_use; [apply (via_stmt H'); auto; split; reflexivity|]); intros z Hz; go;
    (eapply ht_use; [apply (via_stmt H2); auto|]); intros y Hy; go; fin; unfold R_node in *; cbn [bare_node option_map]; rewrite Hz, Hy, (tr_bare Hx); reflexivity.
Qed.
Lemma sok_loop c F : sok c F -> sok (loop_place c) (setit true F).
Proof. intros (H1 & H2 & H3 & H4). unfold sok. cbn. auto. Qed.
Lemma body_does c l nt s F n2 rest m : claimS (loop_place c) l nt s -> sok c F -> no_slash nt ->
  does (l ++ nt :: rest) F m (iteration_body (run n2)) (R_node s) (nt :: rest) m.
Proof.
  intros H HF Hn. unfold iteration_body. go. apply ht_setit. eapply ht_use; [apply (via_stmt H); auto; apply sok_loop; auto|]. intros x Hx.
  apply ht_setit. rewrite Ci, setit_back. fin. auto.
Qed.
Lemma r_stmt_while c b b1 l b2 l' nt e s : claimE true l (P b2 RParen) e -> claimS (loop_place c) l' nt s ->
  claimS c (W b "while" :: P b1 LParen :: l ++ P b2 RParen :: l') nt (WhileStatement e s nowhere).
Proof.
  intros H H'. pose proof (proj1 H) as Hl. pose proof (proj1 H') as Hl'. kw_start. pose proof (@stmt_sf l' (nt :: rest) Hl').
  both; unfold parse_iteration_stmt; go; unfold parse_while_stmt; go; (eapply ht_use; [apply (proj2 H); [apply eok_in, HF|apply close_expr; reflexivity]|]); intros x Hx; go;
    (eapply ht_use; [eapply body_does; eauto|]); intros z Hz; go; fin; unfold R_node in *; cbn [bare_node option_map]; rewrite Hz, (tr_bare Hx); reflexivity.
Qed.
Lemma r_stmt_do c b l b1 b2 l' b3 sl nt s e : claimS (loop_place c) l (W b1 "while") s -> claimE true l' (P b3 RParen) e -> semi false sl nt ->
  claimS c (W b "do" :: l ++ W b1 "while" :: P b2 LParen :: l' ++ P b3 RParen :: sl) nt (DoWhileStatement s e nowhere).
Proof.
  intros H H' Hs. pose proof (proj1 H) as Hl. pose proof (proj1 H') as Hl'. kw_start.
  pose proof (@stmt_sf l (W b1 "while" :: P b2 LParen :: l' ++ P b3 RParen :: sl ++ nt :: rest) Hl). pose proof (semi_sf rest Hs Hn).
  both; unfold parse_iteration_stmt; go; unfold parse_do_while_stmt; go; (eapply ht_use; [eapply body_does; eauto; split; reflexivity|]); intros z Hz; go;
    (eapply ht_use; [apply (proj2 H'); [apply eok_in, HF|apply close_expr; reflexivity]|]); intros x Hx; go;
    (eapply ht_use; [eapply semi_does; eauto|]); intros _ _; go; fin; unfold R_node in *; cbn [bare_node option_map]; rewrite Hz, (tr_bare Hx); reflexivity.
Qed.

(** ** For *)
Definition claimX l nt (e : option node) := (e = None /\ l = []) \/ exists x, e = Some x /\ claimE true l nt x.
Definition claimFR c l nt (r : option node * option node * node) := (exists b l0, l = P b Semicolon :: l0) /\
  forall F, sok c F -> no_slash nt -> forall n n2 rest m init,
  does (l ++ nt :: rest) F (S m) (parse_for_classic_stmt E n (run n2) init)
    (R_node (ForStatement (option_map bare_node init) (fst (fst r)) (snd (fst r)) (snd r) nowhere)) (nt :: rest) m.
Lemma opt_sf l nt e rest : claimX l nt e -> no_slash nt -> slashfree (l ++ nt :: rest).
Proof. intros [[_ ->]|(x & _ & H)] Hn; [exact Hn|apply starts_sf, H]. Qed.
Lemma cur_next B l nt rest F m (k : token -> PM B) Q : (forall t, kmatch t (knd (next l nt)) -> ht (l ++ nt :: rest) F m (k t) Q) ->
  ht (l ++ nt :: rest) F m (bind getcur k) Q.
Proof. intros H. destruct l; apply ht_cur; apply H. Qed.
Lemma opt_does l b p e F n n2 rest m t : claimX l (P b p) e -> mok F -> existsb (punct_eqb p) (tl closers) = true -> kmatch t (knd (next l (P b p))) ->
  does (l ++ P b p :: rest) F m (if tok_punc t p then ret None else e <- with_in true (parse_expression E n (run n2)) ;; ret (Some e))
    (fun x => option_map bare_node x = e) (P b p :: rest) m.
Proof.
  intros [[-> ->]|(x & -> & H)] HF Hp Kt.
  - cbn [next hd knd] in Kt. apply ht_if_t; [krw; destruct p; reflexivity|]. fin. reflexivity.
  - pose proof (proj1 H) as Hl. destruct l as [|[b0 k0] l]; [contradiction|]. cbn [starts knd next hd] in Hl, Kt.
    apply ht_if_f; [krw; apply start_punc; auto; destruct p; try reflexivity; discriminate Hp|].
    eapply ht_use; [eapply (expr_in_does H); auto; apply close_expr; auto|]. intros y Hy. fin. cbn [option_map]. rewrite (tr_bare Hy). reflexivity.
Qed.
Lemma r_for_rest c b l b1 l1 b2 l2 nt t u s : claimX l (P b1 Semicolon) t -> claimX l1 (P b2 RParen) u -> claimS (loop_place c) l2 nt s ->
  claimFR c (P b Semicolon :: l ++ P b1 Semicolon :: l1 ++ P b2 RParen :: l2) nt (t, u, s).
Proof.
  intros H H1 H2. split; [eauto|]. intros F HF Hn n n2 rest m init. unfold parse_for_classic_stmt. norm. pose proof (proj1 H2) as Hl2.
  pose proof (@stmt_sf l2 (nt :: rest) Hl2). pose proof (opt_sf (l2 ++ nt :: rest) H1 (conj eq_refl eq_refl)).
  pose proof (opt_sf (l1 ++ P b2 RParen :: l2 ++ nt :: rest) H (conj eq_refl eq_refl)).
  go. apply cur_next. intros ta Kta. eapply ht_use; [eapply opt_does; eauto; apply HF|]. intros x Hx.
  go. apply cur_next. intros tb Ktb. eapply ht_use; [eapply opt_does; eauto; apply HF|]. intros y Hy. go.
  eapply ht_use; [eapply body_does; eauto|]. intros z Hz. go. fin. unfold R_node in *. cbn [bare_node fst snd]. rewrite Hx, Hy, Hz. reflexivity.
Qed.
Definition claimIR c l nt (r : node * node) := (exists b l0, l = W b "in" :: l0) /\
  forall F, sok c F -> no_slash nt -> forall n n2 rest m lhs,
  does (l ++ nt :: rest) F (S m) (parse_for_in_stmt E n (run n2) lhs) (R_node (ForInStatement (bare_node lhs) (fst r) (snd r) false nowhere)) (nt :: rest) m.
Definition claimOR c l nt (r : node * node) := (exists b l0, l = Id b (s2l "of") :: l0) /\
  forall F, sok c F -> no_slash nt -> forall n n2 rest m lhs,
  does (l ++ nt :: rest) F (S m) (parse_for_of_stmt E n (run n2) lhs) (R_node (ForOfStatement (bare_node lhs) (fst r) (snd r) nowhere)) (nt :: rest) m.
Lemma r_in_rest c b l b1 l' nt e s : claimE true l (P b1 RParen) e -> claimS (loop_place c) l' nt s ->
  claimIR c (W b "in" :: l ++ P b1 RParen :: l') nt (e, s).
Proof.
  intros H H'. split; [eauto|]. intros F HF Hn n n2 rest m lhs. unfold parse_for_in_stmt. norm. pose proof (proj1 H) as Hl. pose proof (proj1 H') as Hl'.
  pose proof (@stmt_sf l' (nt :: rest) Hl'). go.
  eapply ht_use; [apply (proj2 H); [apply eok_in, HF|apply close_expr; reflexivity]|]. intros x Hx. go.
  eapply ht_use; [eapply body_does; eauto|]. intros z Hz. go. fin. unfold R_node in *. cbn [bare_node fst snd]. rewrite (tr_bare Hx), Hz. reflexivity.
Qed.
Lemma r_of_rest c b l b1 l' nt e s : claimA true l (P b1 RParen) e -> claimS (loop_place c) l' nt s ->
  claimOR c (Id b (s2l "of") :: l ++ P b1 RParen :: l') nt (e, s).
Proof.
  intros H H'. split; [eauto|]. intros F HF Hn n n2 rest m lhs. unfold parse_for_of_stmt. norm. pose proof (proj1 H) as Hl. pose proof (proj1 H') as Hl'.
  pose proof (@stmt_sf l' (nt :: rest) Hl'). go.
  eapply ht_use; [apply (proj2 H); [apply eok_in, HF|apply close_ok; reflexivity]|]. intros x Hx. go.
  eapply ht_use; [eapply body_does; eauto|]. intros z Hz. go. fin. unfold R_node in *. cbn [bare_node fst snd]. rewrite (tr_bare Hx), Hz. reflexivity.
Qed.

Lemma for_start c l nt s : (forall F, sok c F -> no_slash nt -> forall n n2 rest m, slashfree (l ++ nt :: rest) /\
    ht (l ++ nt :: rest) F (S m) (t <- getcur ;;
      if tok_kw t "var" then for_var E n (run n2)
      else if (tok_is t TKeyword || tok_is t TIdentifier) && is_lexical_dclr_kw t then for_lexical E n (run n2)
      else for_expression E n (run n2)) (fun a s' => R_node s a /\ St E (nt :: rest) F m s')) ->
  forall b b1, claimS c (W b "for" :: P b1 LParen :: l) nt s.
Proof.
  intros H b b1. kw_start. destruct (H F HF Hn n n2 rest m) as [Hs Hx]. clear H.
  both; unfold parse_iteration_stmt; go; unfold parse_for_stmt; go; exact Hx.
Qed.
Lemma rest_ok inn c l nt r : claimFR c l nt r -> ok_expr inn (next l nt).
Proof. intros [(b & l0 & ->) _]. apply close_expr. reflexivity. Qed.
Lemma g_for_none c b b1 l nt t u s : claimFR c l nt (t, u, s) -> claimS c (W b "for" :: P b1 LParen :: l) nt (ForStatement None t u s nowhere).
Proof.
  intros [(b0 & l0 & ->) H]. apply for_start. intros F HF Hn n n2 rest m. norm. split; [split; reflexivity|]. go. unfold for_expression. go.
  eapply does_conseq; [| |apply (H F HF Hn n n2 rest (S m) None)]; auto.
Qed.
Lemma start_no_lex k : start_as k -> (tok_is (ktok k) TKeyword || tok_is (ktok k) TIdentifier) && is_lexical_dclr_kw (ktok k) = false.
Proof.
  intros H. starts_cases H; try reflexivity.
  unfold tok_is, is_lexical_dclr_kw, matches_str. cbn [ktok ttype tval ktype kval tt_eqb andb orb].
  rewrite (@ident_not x "let"), (@ident_kw x "const") by (auto; first [reflexivity | unfold reserved_words; cbn [In]; tauto]). reflexivity.
Qed.
Lemma r_for_expr c b b1 l l' nt e t u s : claimA false l (next l' nt) e -> claimFR c l' nt (t, u, s) ->
  claimS c (W b "for" :: P b1 LParen :: l ++ l') nt (ForStatement (Some (SequenceExpression [e] ASimple nowhere)) t u s nowhere).
Proof.
  intros H H'. apply for_start. intros F HF Hn n n2 rest m. pose proof (proj1 H) as Hl. destruct l as [|[b0 k0] l]; [contradiction|]. cbn [starts knd] in Hl.
  pose proof (start_no_lex Hl). norm. split; [apply start_slash; auto|]. go. unfold for_expression. go.
  eapply ht_use with (ts' := l' ++ nt :: rest) (m' := S (S m)).
  { change (T b0 k0 :: l ++ l' ++ nt :: rest) with ((T b0 k0 :: l) ++ l' ++ nt :: rest). apply at_next. intros rest'.
    apply (proj2 H); [apply eok_noin, HF|]. apply (@rest_ok false _ _ _ _ H'). }
  intros x Hx. apply ht_restore. destruct H' as [(b2 & l2 & ->) H']. norm. go. destruct n as [|n]; [apply ht_fuel_bind|]. cbn [parse_while_punc]. go.
  eapply does_conseq; [| |apply (H' F HF Hn (S n) n2 rest m)]; auto. intros y Hy. unfold R_node in *. rewrite Hy. cbn [fst snd option_map bare_node map]. rewrite (tr_bare Hx). reflexivity.
Qed.
Lemma comma_assign_in F l nt e b rest m n n2 : mok F -> claimA true l nt e -> ok_assign true nt ->
  does (P b Comma :: l ++ nt :: rest) F m (comma_then E (with_in true (parse_assignment_expr E n (run n2)))) (tr e) (nt :: rest) m.
Proof. intros HF H Hn. unfold comma_then. pose proof (proj1 H). go. eapply ht_use; [apply (proj2 H); auto; apply eok_in; auto|]. intros x Hx. go. fin. auto. Qed.
Lemma r_for_exprs c b b1 l b2 l1 l' nt e es t u s : claimA false l (P b2 Comma) e ->
  sep (claimA true) (next l' nt) l1 es -> claimFR c l' nt (t, u, s) ->
  claimS c (W b "for" :: P b1 LParen :: l ++ P b2 Comma :: l1 ++ l') nt (ForStatement (Some (SequenceExpression (e :: es) ASimple nowhere)) t u s nowhere).
Proof.
  intros H H1 H'. apply for_start. intros F HF Hn n n2 rest m. pose proof (proj1 H) as Hl. destruct l as [|[b0 k0] l]; [contradiction|]. cbn [starts knd] in Hl.
  pose proof (start_no_lex Hl). norm. split; [apply start_slash; auto|]. go. unfold for_expression. go.
  eapply ht_use with (ts' := P b2 Comma :: l1 ++ l' ++ nt :: rest) (m' := S (S m)).
  { change (T b0 k0 :: l ++ ?u) with ((T b0 k0 :: l) ++ u). apply (proj2 H); [apply eok_noin, HF|]. apply close_ok. reflexivity. }
  intros x Hx. go.
  eapply ht_use with (ts' := l' ++ nt :: rest) (R := Forall2 tr es) (m' := S (S m)).
  { change (P b2 Comma :: l1 ++ l' ++ nt :: rest) with ((P b2 Comma :: l1) ++ l' ++ nt :: rest). apply at_next. intros rest'. cbn [app].
    pose proof (@rest_ok true _ _ _ _ H') as Hr.
    eapply (@while_comma E _ (claimA true) tr F (next l' nt)) with (ok := ok_assign true); eauto.
    - intros. apply comma_assign_in; auto. apply HF.
    - intros b3. apply close_ok. reflexivity.
    - apply Hr.
    - eapply expr_comma; eauto. }
  intros xs Hxs. go.
  eapply does_conseq; [| |apply (proj2 H' F HF Hn n n2 rest m)]; auto. intros y Hy. unfold R_node in *. rewrite Hy. cbn [fst snd option_map bare_node map]. rewrite (tr_bare Hx), (Forall2_bare Hxs). reflexivity.
Qed.
Definition declS inn l nt d := (exists b x, ident x /\ l = [Id b x] /\ d = VarDeclarator (B_Id x nowhere) None) \/
  (exists lp b' l0 p e, claimBind E M lp (P b' Assign) p /\ l = lp ++ P b' Assign :: l0 /\ claimA inn l0 nt e /\ d = VarDeclarator p (Some e)).
Lemma declS_D inn l nt d : declS inn l nt d -> claimD inn l nt d.
Proof. intros [(b & x & Hx & -> & ->)|(lp & b' & l0 & p & e & Hx & -> & He & ->)]; [apply r_decl|apply r_decl_init]; auto. Qed.
Lemma sep_impl A (C C' : list tok -> tok -> A -> Prop) nt l es : (forall l nt e, C l nt e -> C' l nt e) -> sep C nt l es -> sep C' nt l es.
Proof. intros H. induction 1; constructor; auto. Qed.
Lemma comma_decl_in F l nt e b rest m n n2 : mok F -> claimD true l nt e -> ok_assign true nt ->
  does (P b Comma :: l ++ nt :: rest) F m (comma_then E (with_in true (parse_variable_dclr E n (run n2)))) (R_decl e) (nt :: rest) m.
Proof. intros HF H Hn. unfold comma_then. pose proof (claimD_sf (nt :: rest) H). go. eapply ht_use; [apply (proj2 H); auto; apply eok_in; auto|]. intros x Hx. go. fin. auto. Qed.
(** The declarators after the first one: none, or a comma and more. *)
Definition moreD nt l ds := (l = [] /\ ds = []) \/ exists b l1, l = P b Comma :: l1 /\ sep (claimD true) nt l1 ds.
Lemma more_next inn c l1 l' nt ds r : moreD (next l' nt) l1 ds -> claimFR c l' nt r -> exists b p, next (l1 ++ l') nt = P b p /\ (p = Comma \/ p = Semicolon) /\ ok_assign inn (P b p).
Proof.
  intros [[-> ->]|(b & l2 & -> & _)] [(b' & l0 & ->) _]; eexists _, _; (split; [reflexivity|]); (split; [tauto|]); apply close_ok; reflexivity.
Qed.
Lemma decls_tail c F l1 l' nt ds t u s kind id init d n n2 rest m : sok c F -> no_slash nt -> moreD (next l' nt) l1 ds -> claimFR c l' nt (t, u, s) ->
  bare_decl (VarDeclarator id init) = d ->
  does (l1 ++ l' ++ nt :: rest) F (S (S m)) (for_declarations E n (run n2) kind id init)
    (R_node (ForStatement (Some (VariableDeclaration (d :: ds) kind nowhere)) t u s nowhere)) (nt :: rest) m.
Proof.
  intros HF Hn Hm H Hb. unfold for_declarations.
  eapply ht_use with (ts' := l' ++ nt :: rest) (R := Forall2 R_decl ds) (m' := S (S m)).
  { destruct Hm as [[-> ->]|(b & l2 & -> & Hm)].
    - destruct n as [|n]; [apply ht_fuel|]. destruct H as [(b0 & l0 & ->) H]. cbn [parse_while_punc app]. go. fin. auto.
    - change ((P b Comma :: l2) ++ l' ++ nt :: rest) with ((P b Comma :: l2) ++ l' ++ nt :: rest). apply at_next. intros rest'. cbn [app].
      pose proof (@rest_ok true _ _ _ _ H) as Hr.
      eapply (@while_comma E _ (claimD true) R_decl F (next l' nt)) with (ok := ok_assign true); eauto.
      + intros. apply comma_decl_in; auto. apply HF.
      + intros b3. apply close_ok. reflexivity.
      + apply Hr.
      + eapply expr_comma; eauto. }
  intros xs Hxs. go.
  eapply does_conseq; [| |apply (proj2 H F HF Hn n n2 rest m)]; auto. intros y Hy. unfold R_node in *. rewrite Hy. cbn [fst snd option_map bare_node map].
  rewrite Hb, (decls_bare Hxs). reflexivity.
Qed.
Definition decl_word k (kind : string) := (k, kind) = (KW "var", "var"%string) \/ (k, kind) = (KI (s2l "let"), "let"%string) \/ (k, kind) = (KW "const", "const"%string).
Lemma r_for_declm c b b1 b0 k kind l l1 l' nt d ds t u s : decl_word k kind -> declS false l (next (l1 ++ l') nt) d -> moreD (next l' nt) l1 ds ->
  claimFR c l' nt (t, u, s) ->
  claimS c (W b "for" :: P b1 LParen :: T b0 k :: l ++ l1 ++ l') nt (ForStatement (Some (VariableDeclaration (d :: ds) kind nowhere)) t u s nowhere).
Proof.
  intros Hk H Hm H'. apply for_start. intros F HF Hn n n2 rest m. destruct (@more_next false _ _ _ _ _ _ Hm H') as (bn & p & Hnx & Hp & Hok). rewrite Hnx in H.
  assert (Hu : exists u, l1 ++ l' ++ nt :: rest = P bn p :: u).
  { rewrite app_assoc. destruct (l1 ++ l') as [|t0 u0] eqn:He; [|cbn [next hd] in Hnx; subst t0; eexists; reflexivity].
    apply app_eq_nil in He as [-> ->]. destruct (proj1 H') as (? & ? & ?); discriminate. }
  destruct Hu as (u0 & Hu).
  assert (Hsl : slashfree (l1 ++ l' ++ nt :: rest)) by (rewrite Hu; destruct Hp; subst p; split; reflexivity).
  assert (Htail : forall kind' id init, bare_decl (VarDeclarator id init) = d ->
    does (l1 ++ l' ++ nt :: rest) F (S (S m)) (for_declarations E n (run n2) kind' id init)
      (R_node (ForStatement (Some (VariableDeclaration (d :: ds) kind' nowhere)) t u s nowhere)) (nt :: rest) m).
  { intros kind' id init Hb. eapply decls_tail; eauto. }
  destruct H as [(b3 & x & Hx & -> & ->)|(lp & b' & l0 & p' & e & Hx & -> & He & ->)].
  - destruct Hk as [Hk|[Hk|Hk]]; injection Hk as -> ->; norm; (split; [split; reflexivity|]); go; [unfold for_var|unfold for_lexical..]; go;
      (eapply ht_use; [apply bindpat_id; auto; try discriminate; rewrite Hu; discriminate|]); intros y (sp & ->);
      rewrite Hu in *; destruct Hp; subst p; go; apply Htail; reflexivity.
  - destruct (@bind_first _ (proj1 (proj1 Hx))) as (t9 & l9 & Hl9 & [T1 _ _ _ _ _]).
    assert (Hb9 : slashfree (lp ++ P b' Assign :: l0 ++ l1 ++ l' ++ nt :: rest)) by (apply bind_sf, Hx).
    assert (Hg : forall m0, ht (lp ++ P b' Assign :: l0 ++ l1 ++ l' ++ nt :: rest) F m0 (parse_binding_id_or_pat E n (run n2)) (fun x s => bare_bind x = p' /\ St E (P b' Assign :: l0 ++ l1 ++ l' ++ nt :: rest) F m0 s)).
    { intros m0. apply (proj2 Hx); [apply HF|split; reflexivity]. }
    assert (Hn9 : exists u9, lp ++ P b' Assign :: l0 ++ l1 ++ l' ++ nt :: rest = t9 :: u9) by (subst lp; eexists; reflexivity).
    destruct Hn9 as (u9 & Hn9). pose proof (proj1 He).
    destruct Hk as [Hk|[Hk|Hk]]; injection Hk as -> ->; norm; (split; [split; reflexivity|]); go; [unfold for_var|unfold for_lexical..]; go;
      try (rewrite Hn9; go; rewrite <- Hn9);
      (eapply ht_use; [apply Hg|]); intros y Hy; go;
      (eapply ht_use with (ts' := l1 ++ l' ++ nt :: rest); [rewrite Hu; apply (proj2 He); auto; apply eok_noin, HF|]); intros z Hz; apply ht_restore; apply Htail;
      cbn [bare_decl option_map]; rewrite (tr_bare Hz), Hy; reflexivity.
Qed.
Lemma r_for_decl c b b1 b0 k kind l l' nt d t u s : decl_word k kind -> declS false l (next l' nt) d -> claimFR c l' nt (t, u, s) ->
  claimS c (W b "for" :: P b1 LParen :: T b0 k :: l ++ l') nt (ForStatement (Some (VariableDeclaration [d] kind nowhere)) t u s nowhere).
Proof. intros Hk H H'. apply (@r_for_declm c b b1 b0 k kind l [] l' nt d []); auto. left; auto. Qed.
Lemma r_for_decls c b b1 b0 k kind l b2 l1 l' nt d ds t u s : decl_word k kind -> declS false l (P b2 Comma) d -> sep (claimD true) (next l' nt) l1 ds ->
  claimFR c l' nt (t, u, s) ->
  claimS c (W b "for" :: P b1 LParen :: T b0 k :: l ++ P b2 Comma :: l1 ++ l') nt (ForStatement (Some (VariableDeclaration (d :: ds) kind nowhere)) t u s nowhere).
Proof. intros Hk H H1 H'. apply (@r_for_declm c b b1 b0 k kind l (P b2 Comma :: l1) l' nt d ds); auto. right; eauto. Qed.
Lemma bind_to_node y p : bare_bind y = p -> simple_bind p -> exists z, binding_to_node y = COk z /\ bare_node z = bind_node p.
Proof. intros <-. destruct y; intros H; try destruct H; eexists; split; reflexivity. Qed.
Lemma r_for_in_decl c b b1 b2 k l l' nt p e s : In k [KW "var"; KI (s2l "let"); KW "const"] -> claimBind E M l (next l' nt) p -> claimIR c l' nt (e, s) ->
  claimS c (W b "for" :: P b1 LParen :: T b2 k :: l ++ l') nt (ForInStatement (bind_node p) e s false nowhere).
Proof.
  intros Hk Hp [(b0 & l0 & ->) H]. apply for_start. intros F HF Hn n n2 rest m. cbn [next hd] in Hp.
  assert (Ht : forall z, bare_node z = bind_node p -> does ((W b0 "in" :: l0) ++ nt :: rest) F (S (S m)) (parse_for_in_stmt E n (run n2) z)
    (R_node (ForInStatement (bind_node p) e s false nowhere)) (nt :: rest) m).
  { intros z <-. eapply does_conseq; [| |apply (H F HF Hn n n2 rest (S m))]; auto. }
  assert (Hg : forall m0, ht (l ++ W b0 "in" :: l0 ++ nt :: rest) F m0 (parse_binding_id_or_pat E n (run n2)) (fun x s => bare_bind x = p /\ St E (W b0 "in" :: l0 ++ nt :: rest) F m0 s)).
  { intros m0. apply (proj2 Hp); [apply HF|split; reflexivity]. }
  assert (Hb9 : slashfree (l ++ W b0 "in" :: l0 ++ nt :: rest)) by (apply bind_sf, Hp).
  destruct (@bind_first _ (proj1 (proj1 Hp))) as (t9 & l9 & Hl9 & [T1 _ _ _ _ _]).
  assert (Hn9 : exists u9, l ++ W b0 "in" :: l0 ++ nt :: rest = t9 :: u9) by (subst l; eexists; reflexivity). destruct Hn9 as (u9 & Hn9).
  cbn [In] in Hk. destruct Hk as [<-|[<-|[<-|[]]]]; norm; (split; [split; reflexivity|]); go; unfold for_var, for_lexical; go;
      try (rewrite Hn9; go; rewrite <- Hn9);
      (eapply ht_use; [apply Hg|]); intros y Hy; destruct (@bind_to_node _ _ Hy (proj2 (proj1 Hp))) as (z & Hz & Hz'); go; (eapply ht_liftc; [exact Hz|]); apply Ht; auto.
Qed.
Lemma r_for_of c b b1 b2 k l l' nt p e s : In k [KI (s2l "let"); KW "const"] -> claimBind E M l (next l' nt) p -> claimOR c l' nt (e, s) ->
  claimS c (W b "for" :: P b1 LParen :: T b2 k :: l ++ l') nt (ForOfStatement (bind_node p) e s nowhere).
Proof.
  intros Hk Hp [(b0 & l0 & ->) H]. apply for_start. intros F HF Hn n n2 rest m. cbn [next hd] in Hp.
  assert (Ht : forall z, bare_node z = bind_node p -> does ((Id b0 (s2l "of") :: l0) ++ nt :: rest) F (S (S m)) (parse_for_of_stmt E n (run n2) z)
    (R_node (ForOfStatement (bind_node p) e s nowhere)) (nt :: rest) m).
  { intros z <-. eapply does_conseq; [| |apply (H F HF Hn n n2 rest (S m))]; auto. }
  assert (Hg : forall m0, ht (l ++ Id b0 (s2l "of") :: l0 ++ nt :: rest) F m0 (parse_binding_id_or_pat E n (run n2)) (fun x s => bare_bind x = p /\ St E (Id b0 (s2l "of") :: l0 ++ nt :: rest) F m0 s)).
  { intros m0. apply (proj2 Hp); [apply HF|split; reflexivity]. }
  assert (Hb9 : slashfree (l ++ Id b0 (s2l "of") :: l0 ++ nt :: rest)) by (apply bind_sf, Hp).
  destruct (@bind_first _ (proj1 (proj1 Hp))) as (t9 & l9 & Hl9 & [T1 _ _ _ _ _]).
  assert (Hn9 : exists u9, l ++ Id b0 (s2l "of") :: l0 ++ nt :: rest = t9 :: u9) by (subst l; eexists; reflexivity). destruct Hn9 as (u9 & Hn9).
  cbn [In] in Hk. destruct Hk as [<-|[<-|[]]]; norm; (split; [split; reflexivity|]); go; unfold for_lexical; go;
      try (rewrite Hn9; go; rewrite <- Hn9);
      (eapply ht_use; [apply Hg|]); intros y Hy; destruct (@bind_to_node _ _ Hy (proj2 (proj1 Hp))) as (z & Hz & Hz'); go; (eapply ht_liftc; [exact Hz|]); apply Ht; auto.
Qed.
Definition claimLeft n l nt e := starts start_left l /\ forall F, mok F -> ok_lhs nt -> P_left E F n l nt e.
Lemma in_ok b : ok_assign false (W b "in").
Proof. constructor; [|reflexivity..]. split; [|split; reflexivity]. split; [|reflexivity]. split; [|right; reflexivity]. constructor; reflexivity. Qed.
Lemma for_target_eq x : for_target E x = (e <- lift_c (match x with ObjectExpression _ _ _ | ArrayExpression _ _ _ => to_assignment_pattern E x | _ => COk x end) ;;
  if not_assignable e then tok <- advance E GRegExp ;; error_tok tok InvalidLhsInFor else ret e).
Proof. destruct x; reflexivity. Qed.
Lemma r_for_in c b b1 nw l l' nt e' p e s : not_yield M (next l nt) -> claimLeft nw l (next l' nt) e' -> assign_pat e' p -> claimIR c l' nt (e, s) ->
  claimS c (W b "for" :: P b1 LParen :: l ++ l') nt (ForInStatement p e s false nowhere).
Proof.
  intros Hyy [Hl H] Ht [(b2 & l2 & ->) H']. cbn [next hd] in H. apply for_start. intros F HF Hn n n2 rest m. destruct l as [|[b0 k0] l]; [contradiction|].
  assert (Hu : start_un k0) by (cbn [starts knd] in Hl; eauto with gr).
  pose proof (start_no_lex (sa_un Hu)). norm. split; [apply start_slash, sa_un; auto|]. go. unfold for_expression. go.
  assert (Ha : P_assign E (setp (set_in false) F) (T b0 k0 :: l) (W b2 "in") e').
  { apply r_assign_cond with (M := M) (inn := false); [apply eok_noin, HF|exact Hu|exact Hyy|apply in_ok|]. apply condx_cond.
    eapply left_condx with (inn := false); [reflexivity|exact Hl|apply in_ok|]. apply H; [exact (proj1 HF)|apply in_ok]. }
  eapply ht_use; [apply Ha|]. intros x Hx. go. rewrite for_target_eq.
  destruct (assign_pat_for E Ht Hx) as (p' & C1 & C2 & C3).
  eapply ht_use with (R := eq p') (m' := S m) (ts' := W b2 "in" :: l2 ++ nt :: rest).
  { assert (Hna : not_assignable p' = false) by (unfold not_assignable; unfold simple in C3; rewrite C3; reflexivity).
    eapply ht_liftc; [exact C1|]. go. fin. reflexivity. }
  intros y <-.
  eapply does_conseq; [| |apply (H' F HF Hn n n2 rest m)]; auto. intros z Hz. unfold R_node in *. rewrite Hz. cbn [fst snd]. rewrite C2. reflexivity.
Qed.

(** ** Jumps *)
Lemma jump_none F t sl nt rest m : semi false sl nt -> kmatch t (knd (next sl nt)) ->
  does (sl ++ nt :: rest) F m (lt <- gets has_lt ;; if (tok_is t TIdentifier || tok_is t TKeyword) && negb lt then i <- parse_id_reference E ;; ret (Some i) else ret None)
   (eq None) (sl ++ nt :: rest) m.
Proof.
  intros Hs Kt. destruct Hs as [b t0|b t0 ->|b t0 ->|t0 Hl Hp _]; cbn [next hd knd app] in *; go; try (fin; reflexivity).
  apply ht_if_f; [rewrite Hl; apply andb_false_r|]. fin. reflexivity.
Qed.
Lemma r_stmt_continue c b sl nt : in_loop c = true -> semi false sl nt -> claimS c (W b "continue" :: sl) nt (ContinueStatement None nowhere).
Proof.
  intros Hc Hs. kw_start. pose proof (semi_sf rest Hs Hn).
  assert (Hi : forall n0, negb (is_some (@None n0)) && negb (fit F) = false) by (intros; rewrite (proj1 (proj2 (proj2 HF)) Hc); reflexivity).
  both; unfold parse_continue_stmt; go; unfold jump_label; go; apply cur_next; intros ta Kta;
    (eapply ht_use; [eapply jump_none; eauto|]); intros x <-; go; (apply ht_if_f; [rewrite Ci; apply Hi|]);
    (eapply ht_use; [eapply semi_does; eauto|]); intros _ _; go; fin; reflexivity.
Qed.
End Stmt.

Section LabelFun.
Context (E : env) (M M1 M2 : mode).
Hypothesis Hsane : ucd_sane E.
Notation ht := (ht E).
Notation does := (does E).
Notation run := (run E).
Lemma r_stmt_label_function c b0 x0 b1 b b' x l l' nt ps body : m_strict M = false -> ident x0 -> ident x ->
  allows M M1 false false -> allows M M2 false false -> claimT E M1 l (next l' nt) ps -> claimF E M2 l' nt body ->
  claimS E M c (Id b0 x0 :: P b1 Colon :: W b "function" :: Id b' x :: l ++ l') nt
    (LabeledStatement (mkId x0 nowhere) (FunctionDeclaration (Some (NBindingIdentifier x nowhere)) ps body false false false nowhere) nowhere).
Proof.
  intros Hst Hx0 Hx A1 A2 H H'.
  assert (Hk : start_as (KI x0)) by eauto with gr.
  split. { split; [apply start_item; auto|reflexivity]. }
  intros F HF Hn n n2 rest m. assert (Hf : fstrict F = false) by (destruct HF as ((_ & _ & G) & _); congruence).
  norm. pose proof (proj1 H) as (b2 & l1 & ->). apply both_expr; auto; [intros Hc; injection Hc as ->; exfalso; eapply ident_async; eauto|]. unfold parse_expression_or_labelled_stmt. go.
  eapply ht_use with (R := tr (id_tree x0)) (ts' := P b1 Colon :: W b "function" :: Id b' x :: (P b2 LParen :: l1) ++ l' ++ nt :: rest) (m' := S m).
  { apply (@r_expr_one E M true [Id b0 x0] (P b1 Colon) (id_tree x0) (@claim_id E M Hsane b0 x0 (P b1 Colon) Hx0)); [apply eok_in, HF|]. apply close_expr. reflexivity. }
  intros y [Hy _]. go. destruct y; try discriminate Hy. injection Hy as ->. go. unfold parse_labelled_stmt. go.
  apply ht_ifb_f; [congruence|]. go. unfold parse_function_dclr. go.
  unfold binding_id_node. go. eapply ht_use; [apply bind_id; auto; discriminate|]. intros y (sp1 & ->). go.
  eapply ht_use; [eapply params_body with (M1 := M1) (M2 := M2); first [eassumption | eapply allows_mok; [apply HF|eassumption]]|]. intros [xs z] [Hxs Hz]. cbn [fst snd] in *. go. fin.
  unfold R_node. cbn [bare_node option_map strip_id]. rewrite Hxs, Hz. reflexivity.
Qed.
End LabelFun.
