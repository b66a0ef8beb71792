(** * GramStmt3: the parser on the statements of the grammar, continued (proofs). *)
From Verif Require Import Base Codepoint Punct Token Scanner SpecLex SpecScan Hoare ScanBase ScanTokens2.
From Verif Require Import Ast Convert ParserBase ParserExpr ParserStmt Parser SpecJson SpecBare SpecLayout SpecGrammar GramLex GramBase GramTac GramExpr GramExpr2 GramExpr3 GramExpr4 GramStmt GramStmt2.
From Coq Require Import ZifyBool ZifyN ZifyNat.
Set Implicit Arguments.

Section Stmt.
Context (E : env) (M : mode).
Notation mok := (mok M).
Notation eok := (eok M).
Notation sok := (sok M).
Hypothesis Hsane : ucd_sane E.
Notation ht := (ht E).
Notation does := (does E).
Notation lit_tree := (lit_tree E).
Notation run := (run E).
Notation claimA := (claimA E M).
Notation claimE := (claimE E M).
Notation claimF := (claimF E M).
Notation claimT := (claimT E M).
Notation claimS := (claimS E M).
Notation claimI := (claimI E M).
Notation claimD := (claimD E M).
Notation claimK := (claimK E M).
Notation items := (items E M).
Ltac both := split; [unfold parse_statement|unfold parse_stmt_list_item]; go.
Ltac kw_start := split; [split; [itok|reflexivity]|]; intros F HF Hn n n2 rest m; norm.


Lemma tok_kw_is nt w : is_w nt w = false -> tok_kw (kt nt) w = false.
Proof. intros H. destruct nt as [b0 [p|w0| | | | | | | |]]; auto. unfold tok_kw, matches_str. cbn [knd ktok ttype tval ktype kval tt_eqb andb]. rewrite s2l_eqb. exact H. Qed.
Lemma tok_p_is nt p : is_p nt p = false -> tok_punc (kt nt) p = false.
Proof. intros H. destruct nt as [b0 [q|w0| | | | | | | |]]; auto. Qed.

(** ** Jumps, continued *)
Lemma r_stmt_break c b sl nt : in_loop c || in_sw c = true -> semi false sl nt -> claimS c (W b "break" :: sl) nt (BreakStatement None nowhere).
Proof.
  intros Hc Hs. kw_start. pose proof (semi_sf rest Hs Hn).
  assert (Hi : forall n0, negb (is_some (@None n0)) && (negb (fit F) && negb (fsw F)) = false).
  { intros. destruct HF as (_ & _ & H3 & H4). apply orb_true_iff in Hc as [Hc|Hc]; [rewrite (H3 Hc)|rewrite (H4 Hc), andb_false_r]; reflexivity. }
  both; unfold parse_break_stmt; go; unfold jump_label; go; apply cur_next; intros ta Kta;
    (eapply ht_use; [eapply jump_none; eauto|]); intros x <-; go; (apply ht_if_f; [rewrite Ci, Cs; apply Hi|]);
    (eapply ht_use; [eapply semi_does; eauto|]); intros _ _; go; fin; reflexivity.
Qed.
Lemma r_stmt_continue_label c b x sl nt : ident x -> semi false sl nt ->
  claimS c (W b "continue" :: Id false x :: sl) nt (ContinueStatement (Some (id_tree x)) nowhere).
Proof.
  intros Hx Hs. kw_start. pose proof (semi_ne rest Hs).
  both; unfold parse_continue_stmt; go; unfold jump_label; go;
    (eapply ht_use; [apply id_ref; auto|]); intros y (a & sp & -> & _); go;
    (eapply ht_use; [eapply semi_does; eauto|]); intros _ _; go; fin; reflexivity.
Qed.
Lemma r_stmt_break_label c b x sl nt : ident x -> semi false sl nt ->
  claimS c (W b "break" :: Id false x :: sl) nt (BreakStatement (Some (id_tree x)) nowhere).
Proof.
  intros Hx Hs. kw_start. pose proof (semi_ne rest Hs).
  both; unfold parse_break_stmt; go; unfold jump_label; go;
    (eapply ht_use; [apply id_ref; auto|]); intros y (a & sp & -> & _); go;
    (eapply ht_use; [eapply semi_does; eauto|]); intros _ _; go; fin; reflexivity.
Qed.
Lemma r_stmt_return c b sl nt : in_fun c = true -> (exists b', sl = [P b' Semicolon]) \/ (sl = [] /\ nl nt = true /\ is_p nt Semicolon = false) ->
  claimS c (W b "return" :: sl) nt (ReturnStatement None nowhere).
Proof.
  intros Hc Hs. kw_start. pose proof (proj1 (proj2 HF) Hc) as Hr.
  destruct Hs as [(b' & ->)|(-> & Hl & Hp)].
  - norm. both; unfold return_or_error; go; unfold parse_return_stmt, consume_semicolon; go; fin; reflexivity.
  - norm. apply tok_p_is in Hp. both; unfold return_or_error; go; unfold parse_return_stmt, consume_semicolon; go; rewrite Hl; go; rewrite Hl; go; fin; reflexivity.
Qed.
Lemma r_stmt_return_expr c b l sl nt e : in_fun c = true -> nl (next l nt) = false -> claimE true l (next sl nt) e -> semi true sl nt ->
  claimS c (W b "return" :: l ++ sl) nt (ReturnStatement (Some e) nowhere).
Proof.
  intros Hc Hl H Hs. pose proof (proj1 H) as Hst. destruct l as [|[b0 k0] l]; [contradiction|]. cbn [next hd nl] in Hl. subst b0. cbn [starts knd] in Hst.
  kw_start. pose proof (proj1 (proj2 HF) Hc) as Hr.
  assert (Hx : forall m0, does (T false k0 :: l ++ sl ++ nt :: rest) (setp (set_in true) F) m0 (parse_expression E n (run n2)) (tr e) (sl ++ nt :: rest) m0).
  { intros m0. change (T false k0 :: l ++ sl ++ nt :: rest) with ((T false k0 :: l) ++ sl ++ nt :: rest). apply at_next. intros rest'.
    apply (proj2 H); [apply eok_in, HF|]. apply (semi_next_ok _ Hs). }
  both; unfold return_or_error; go; unfold parse_return_stmt; go; (eapply ht_use; [apply Hx|]); intros y Hy; go;
    (eapply ht_use; [eapply semi_does; eauto|]); intros _ _; go; fin; unfold R_node; cbn [bare_node option_map]; rewrite (tr_bare Hy); reflexivity.
Qed.
Lemma r_stmt_throw c b l sl nt e : nl (next l nt) = false -> claimE true l (next sl nt) e -> semi true sl nt ->
  claimS c (W b "throw" :: l ++ sl) nt (ThrowStatement e nowhere).
Proof.
  intros Hl H Hs. pose proof (proj1 H) as Hst. destruct l as [|[b0 k0] l]; [contradiction|]. cbn [next hd nl] in Hl. subst b0. cbn [starts knd] in Hst.
  kw_start.
  assert (Hx : forall m0, does (T false k0 :: l ++ sl ++ nt :: rest) (setp (set_in true) F) m0 (parse_expression E n (run n2)) (tr e) (sl ++ nt :: rest) m0).
  { intros m0. change (T false k0 :: l ++ sl ++ nt :: rest) with ((T false k0 :: l) ++ sl ++ nt :: rest). apply at_next. intros rest'.
    apply (proj2 H); [apply eok_in, HF|]. apply (semi_next_ok _ Hs). }
  both; unfold parse_throw_stmt; go; (eapply ht_use; [apply Hx|]); intros y Hy; go;
    (eapply ht_use; [eapply semi_does; eauto|]); intros _ _; go; fin; unfold R_node; cbn [bare_node option_map]; rewrite (tr_bare Hy); reflexivity.
Qed.
Lemma r_stmt_debugger c b sl nt : semi false sl nt -> claimS c (W b "debugger" :: sl) nt (DebuggerStatement nowhere).
Proof.
  intros Hs. kw_start. pose proof (semi_sf rest Hs Hn).
  both; unfold parse_debugger_stmt; go; (eapply ht_use; [eapply semi_does; eauto|]); intros _ _; go; fin; reflexivity.
Qed.

(** ** Try *)
Ltac kwsf := split; reflexivity.
Lemma block_does c l nt s F n n2 rest m : claimK c l nt s -> sok c F -> no_slash nt ->
  does (l ++ nt :: rest) F m (parse_block_stmt E n (run n2)) (R_node s) (nt :: rest) m.
Proof. intros [_ H] HF Hn. apply H; auto. Qed.
Lemma block_sf c l nt s r : claimK c l nt s -> slashfree (l ++ r).
Proof. intros [(b & l0 & ->) _]. kwsf. Qed.
Lemma r_stmt_try_catch c b l b1 b2 l0 b4 l' nt s p s' : claimK c l (W b1 "catch") s -> claimBind E M l0 (P b4 RParen) p -> claimK c l' nt s' -> is_w nt "finally" = false ->
  claimS c (W b "try" :: l ++ W b1 "catch" :: P b2 LParen :: l0 ++ P b4 RParen :: l') nt
      (TryStatement s (Some (CatchClause (Some p) s')) None nowhere).
Proof.
  intros H Hx H' Hw. apply tok_kw_is in Hw. kw_start. pose proof (block_sf (nt :: rest) H').
  pose proof (block_sf (W b1 "catch" :: P b2 LParen :: l0 ++ P b4 RParen :: l' ++ nt :: rest) H). pose proof (@bind_sf l0 (P b4 RParen :: l' ++ nt :: rest) (proj1 (proj1 Hx))).
  both; unfold parse_try_stmt; go; (eapply ht_use; [eapply block_does; eauto; kwsf|]); intros y Hy; unfold parse_catch_clause; go;
    (eapply ht_use; [apply (proj2 Hx); [apply HF|kwsf]|]); intros z0 Hz0; go;
    (eapply ht_use; [eapply block_does; eauto|]); intros z Hz; go; unfold parse_finally_clause; go; fin; unfold R_node in *; cbn [bare_node option_map bare_catch]; rewrite Hy, Hz, Hz0; reflexivity.
Qed.
Lemma r_stmt_try_catch0 c b l b1 l' nt s s' : claimK c l (W b1 "catch") s -> claimK c l' nt s' -> is_w nt "finally" = false ->
  claimS c (W b "try" :: l ++ W b1 "catch" :: l') nt (TryStatement s (Some (CatchClause None s')) None nowhere).
Proof.
  intros H H' Hw. apply tok_kw_is in Hw. kw_start. pose proof (block_sf (nt :: rest) H').
  pose proof (block_sf (W b1 "catch" :: l' ++ nt :: rest) H). pose proof (proj1 H') as (b5 & l5 & ->). norm. cbn [app] in *.
  both; unfold parse_try_stmt; go; (eapply ht_use; [eapply block_does; eauto; kwsf|]); intros y Hy; unfold parse_catch_clause; go;
    (eapply ht_use; [apply (@block_does c (P b5 LBrace :: l5) nt s' F n n2 rest _ H' HF Hn)|]); intros z Hz; go; unfold parse_finally_clause; go; fin; unfold R_node in *; cbn; rewrite Hy, Hz; reflexivity.
Qed.
Lemma r_stmt_try_finally c b l b1 l' nt s s' : claimK c l (W b1 "finally") s -> claimK c l' nt s' ->
  claimS c (W b "try" :: l ++ W b1 "finally" :: l') nt (TryStatement s None (Some s') nowhere).
Proof.
  intros H H'. kw_start. pose proof (block_sf (nt :: rest) H'). pose proof (block_sf (W b1 "finally" :: l' ++ nt :: rest) H).
  both; unfold parse_try_stmt; go; (eapply ht_use; [eapply block_does; eauto; kwsf|]); intros y Hy; unfold parse_catch_clause; go; unfold parse_finally_clause; go;
    (eapply ht_use; [eapply block_does; eauto|]); intros z Hz; go; fin; unfold R_node in *; cbn; rewrite Hy, Hz; reflexivity.
Qed.
Lemma r_stmt_try_both c b l b1 b2 l0 b4 l1 b5 l2 nt s p s1 s2 : claimK c l (W b1 "catch") s -> claimBind E M l0 (P b4 RParen) p -> claimK c l1 (W b5 "finally") s1 -> claimK c l2 nt s2 ->
  claimS c (W b "try" :: l ++ W b1 "catch" :: P b2 LParen :: l0 ++ P b4 RParen :: l1 ++ W b5 "finally" :: l2) nt
      (TryStatement s (Some (CatchClause (Some p) s1)) (Some s2) nowhere).
Proof.
  intros H Hx H1 H2. kw_start. pose proof (block_sf (nt :: rest) H2). pose proof (block_sf (W b5 "finally" :: l2 ++ nt :: rest) H1).
  pose proof (block_sf (W b1 "catch" :: P b2 LParen :: l0 ++ P b4 RParen :: l1 ++ W b5 "finally" :: l2 ++ nt :: rest) H).
  pose proof (@bind_sf l0 (P b4 RParen :: l1 ++ W b5 "finally" :: l2 ++ nt :: rest) (proj1 (proj1 Hx))).
  both; unfold parse_try_stmt; go; (eapply ht_use; [eapply block_does; eauto; kwsf|]); intros y Hy; unfold parse_catch_clause; go;
    (eapply ht_use; [apply (proj2 Hx); [apply HF|kwsf]|]); intros z0 Hz0; go;
    (eapply ht_use; [eapply block_does; eauto; kwsf|]); intros z Hz; go; unfold parse_finally_clause; go;
    (eapply ht_use; [eapply block_does; eauto|]); intros w Hww; go; fin; unfold R_node in *; cbn [bare_node option_map bare_catch]; rewrite Hy, Hz, Hww, Hz0; reflexivity.
Qed.
Lemma r_stmt_try_both0 c b l b1 l1 b5 l2 nt s s1 s2 : claimK c l (W b1 "catch") s -> claimK c l1 (W b5 "finally") s1 -> claimK c l2 nt s2 ->
  claimS c (W b "try" :: l ++ W b1 "catch" :: l1 ++ W b5 "finally" :: l2) nt (TryStatement s (Some (CatchClause None s1)) (Some s2) nowhere).
Proof.
  intros H H1 H2. kw_start. pose proof (block_sf (nt :: rest) H2). pose proof (block_sf (W b5 "finally" :: l2 ++ nt :: rest) H1).
  pose proof (block_sf (W b1 "catch" :: l1 ++ W b5 "finally" :: l2 ++ nt :: rest) H). pose proof (proj1 H1) as (b6 & l6 & ->). norm. cbn [app] in *.
  both; unfold parse_try_stmt; go; (eapply ht_use; [eapply block_does; eauto; kwsf|]); intros y Hy; unfold parse_catch_clause; go;
    (eapply ht_use; [apply (@block_does c (P b6 LBrace :: l6) (W b5 "finally") s1 F n n2 _ _ H1 HF); kwsf|]); intros z Hz; go; unfold parse_finally_clause; go;
    (eapply ht_use; [eapply block_does; eauto|]); intros w Hww; go; fin; unfold R_node in *; cbn [bare_node option_map bare_catch]; rewrite Hy, Hz, Hww; reflexivity.
Qed.

(** ** Switch *)
Definition case_end (t : tok) : Prop := exists b, t = P b RBrace \/ t = W b "case" \/ t = W b "default".
Lemma case_end_sf t : case_end t -> no_slash t.
Proof. intros (b & [->|[->| ->]]); kwsf. Qed.
Lemma consequent_does c nt l ss F : sok c F -> case_end nt -> items c nt l ss -> forall n2 k rest m,
  does (l ++ nt :: rest) F m (switch_consequent (run n2) k) (fun x => map bare_node x = ss) (nt :: rest) m.
Proof.
  intros HF Hn H n2. eapply (@items_loop E M c nt F (h_item (run n2)) (switch_consequent (run n2))); auto.
  - apply case_end_sf; auto.
  - intros. eapply via_item; eauto.
  - intros. apply ht_fuel.
  - intros k rest m. cbn [switch_consequent]. destruct Hn as (b & [->|[->| ->]]); go; fin; auto.
  - intros k t u m Q Ht Hx. cbn [switch_consequent]. pose proof (it_brace Ht). pose proof (it_case Ht). pose proof (it_default Ht). go. exact Hx.
Qed.
Definition caseS c l nt (s : switch_case) :=
  (exists b l0 b1 l1 e ss, l = W b "case" :: l0 ++ P b1 Colon :: l1 /\ claimE true l0 (P b1 Colon) e /\ items c nt l1 ss /\ s = SwitchCase (Some e) ss) \/
  (exists b b1 l1 ss, l = W b "default" :: P b1 Colon :: l1 /\ items c nt l1 ss /\ s = SwitchCase None ss).
Lemma case_does c l nt t ss F d n n2 rest m B (k : list node -> option node * bool -> PM B) Q : caseS c l nt (SwitchCase t ss) -> (t = None -> d = true) ->
  sok c F -> case_end nt ->
  (forall t' ss', option_map bare_node t' = t -> map bare_node ss' = ss ->
     ht (nt :: rest) F m (k ss' (t', match t with None => false | Some _ => d end)) Q) ->
  ht (l ++ nt :: rest) F m (x <- switch_test E n (run n2) d ;; consume_p E Colon GRegExp ;;; y <- switch_consequent (run n2) n ;; k y x) Q.
Proof.
  intros H Hd HF Hn Hk. pose proof (case_end_sf Hn) as Hns.
  destruct H as [(b & l0 & b1 & l1 & e & ss0 & -> & He & Hi & Hs)|(b & b1 & l1 & ss0 & -> & Hi & Hs)]; injection Hs as -> ->; unfold switch_test; norm.
  - pose proof (proj1 He). pose proof (sf_next l1 nt rest (items_next Hns Hi)). go.
    eapply ht_use; [apply (proj2 He); [apply eok_in, HF|apply close_expr; reflexivity]|]. intros x Hx. go.
    eapply ht_use; [eapply consequent_does; eauto|]. intros y Hy. apply Hk; auto. cbn [option_map]. rewrite (tr_bare Hx). reflexivity.
  - rewrite (Hd eq_refl). pose proof (sf_next l1 nt rest (items_next Hns Hi)). go.
    eapply ht_use; [eapply consequent_does; eauto|]. intros y Hy. apply Hk; auto.
Qed.
Lemma case_starts c l nt s r : caseS c l nt s -> case_end (next l r).
Proof. intros [(b & l0 & b1 & l1 & e & ss0 & -> & _)|(b & b1 & l1 & ss0 & -> & _)]; exists b; cbn; auto. Qed.
Definition claimCs c d l nt cs := forall b, nt = P b RBrace -> case_end (next l nt) /\ (exists t u, l = t :: u /\ tok_punc (kt t) RBrace = false) /\ forall F, sok c F -> forall n n2 k rest m,
  does (l ++ nt :: rest) F m (switch_cases E n (run n2) k d) (fun x => map bare_case x = cs) (nt :: rest) m.
Lemma case_nonempty c l nt s r : caseS c l nt s -> exists t u, l ++ r = t :: u /\ tok_punc (kt t) RBrace = false.
Proof. intros [(b & l0 & b1 & l1 & e & ss0 & -> & _)|(b & b1 & l1 & ss0 & -> & _)]; cbn [app]; eexists _, _; split; reflexivity. Qed.
Lemma r_cases_one c d l nt ss t : caseS c l nt (SwitchCase t ss) -> (t = None -> d = true) -> claimCs c d l nt [SwitchCase t ss].
Proof.
  intros H Hd b ->. split; [eapply case_starts; eauto|]. split; [rewrite <- (app_nil_r l); eapply case_nonempty; eauto|].
  intros F HF n n2 [|k] rest m; [apply ht_fuel|]. cbn [switch_cases].
  eapply ht_ext; [|eapply (@case_does c l (P b RBrace) t ss F d n n2 rest m _ (fun y x => let '(test, fd) := x in t <- getcur ;; if tok_punc t RBrace then ret [SwitchCase test y] else rest <- switch_cases E n (run n2) k fd ;; ret (SwitchCase test y :: rest))); eauto].
  - intros s0. unfold bind. destruct (switch_test _ _ _ _ _) as [[test fd] s1| | |]; reflexivity.
  - exists b; auto.
  - intros t' ss' Ht Hss. go. fin. cbn [map bare_case]. rewrite Ht, Hss. reflexivity.
Qed.
Lemma r_cases_more c d l l' nt t ss cs : caseS c l (next l' nt) (SwitchCase t ss) -> (t = None -> d = true) ->
  claimCs c (match t with None => false | Some _ => d end) l' nt cs -> claimCs c d (l ++ l') nt (SwitchCase t ss :: cs).
Proof.
  intros H Hd H' b ->. destruct (H' b eq_refl) as (Hs & (t0 & u0 & -> & Ht0) & Hx). cbn [next hd] in *.
  split; [rewrite next_app; eapply case_starts; eauto|]. split; [eapply case_nonempty; eauto|].
  intros F HF n n2 [|k] rest m; [apply ht_fuel|]. cbn [switch_cases]. norm.
  eapply ht_ext; [|eapply (@case_does c l t0 t ss F d n n2 _ m _ (fun y x => let '(test, fd) := x in t <- getcur ;; if tok_punc t RBrace then ret [SwitchCase test y] else rest <- switch_cases E n (run n2) k fd ;; ret (SwitchCase test y :: rest))); eauto].
  - intros s0. unfold bind. destruct (switch_test _ _ _ _ _) as [[test fd] s1| | |]; reflexivity.
  - intros t' ss' Ht Hss. go. eapply ht_use; [apply Hx; auto|]. intros xs Hxs. go. fin. cbn [map bare_case]. rewrite Ht, Hss, Hxs. reflexivity.
Qed.
Lemma sok_switch c F : sok c F -> sok (switch_place c) (setsw true F).
Proof. intros (H1 & H2 & H3 & H4). unfold sok. cbn. auto. Qed.
Lemma r_stmt_switch c b b1 l b2 b3 l' b4 nt e cs : claimE true l (P b2 RParen) e -> claimCs (switch_place c) true l' (P b4 RBrace) cs ->
  claimS c (W b "switch" :: P b1 LParen :: l ++ P b2 RParen :: P b3 LBrace :: l' ++ [P b4 RBrace]) nt (SwitchStatement e cs nowhere).
Proof.
  intros H H'. pose proof (proj1 H). destruct (H' b4 eq_refl) as (Hs & _ & Hx). apply case_end_sf in Hs. kw_start.
  pose proof (sf_next l' (P b4 RBrace) (nt :: rest) Hs).
  both; unfold parse_switch_stmt; go; apply ht_setsw; go; (eapply ht_use; [apply (proj2 H); [apply eok_in; exact (proj1 HF)|apply close_expr; reflexivity]|]); intros x Hxx; go;
    (eapply ht_use; [apply Hx; apply sok_switch; auto|]); intros xs Hxs; go; apply ht_setsw; rewrite Cs, setsw_back; go; fin;
    unfold R_node; cbn [bare_node]; rewrite (tr_bare Hxx), Hxs; reflexivity.
Qed.
End Stmt.
