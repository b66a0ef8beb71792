(** * GramStmt: the parser on the statements of the grammar (proofs). *)
From Verif Require Import Base Codepoint Punct Token Scanner SpecLex SpecScan Hoare ScanBase ScanTokens2.
From Verif Require Import Ast Convert ParserBase ParserExpr ParserStmt Parser SpecJson SpecBare SpecLayout SpecGrammar GramLex GramBase GramTac GramExpr GramExpr2 GramExpr3 GramExpr4.
From Coq Require Import ZifyBool ZifyN ZifyNat.
Set Implicit Arguments.

(** First tokens of statements. *)
Record item_tok (t : tok) : Prop := mkItemTok {
  it_slash : no_slash t; it_brace : tok_punc (kt t) RBrace = false; it_eof : tok_is (kt t) TEof = false;
  it_case : tok_kw (kt t) "case" = false; it_default : tok_kw (kt t) "default" = false;
  it_import : tok_kw (kt t) "import" = false; it_export : tok_kw (kt t) "export" = false; it_from : tok_kw (kt t) "from" = false }.
Definition item_start (l : list tok) : Prop := match l with t :: _ => item_tok t | [] => False end.
Definition stmt_start (l : list tok) : Prop := match l with t :: _ => item_tok t /\ tok_kw (kt t) "function" = false | [] => False end.
Lemma stmt_item l : stmt_start l -> item_start l.
Proof. destruct l; [auto|]. intros H; apply H. Qed.
Lemma item_sf l r : item_start l -> slashfree (l ++ r).
Proof. destruct l; [intros []|]. intros H. apply H. Qed.
Lemma stmt_sf l r : stmt_start l -> slashfree (l ++ r).
Proof. intros H. apply item_sf, stmt_item; auto. Qed.
Lemma item_next l nt : item_start l -> no_slash (next l nt).
Proof. destruct l; [intros []|]. intros H. apply H. Qed.
Lemma start_item b k : start_as k -> item_tok (T b k).
Proof. intros H. constructor; [apply start_slash; auto|apply start_punc; auto|apply start_eof; auto|apply start_kw; auto..]. Qed.
Ltac itok := constructor; [split|..]; reflexivity.
Lemma start_dispatch k : start_as k -> tok_kw (ktok k) "function" = false -> tok_id (ktok k) "async" = false ->
  (tok_is (ktok k) TIdentifier || tok_is (ktok k) TKeyword) && is_hoistable_dclr_kw (ktok k) = false /\
  (tok_is (ktok k) TIdentifier || tok_is (ktok k) TKeyword) && is_lexical_dclr_kw (ktok k) = false /\
  (tok_is (ktok k) TKeyword || tok_is (ktok k) TIdentifier) && is_lexical_dclr_kw (ktok k) = false /\
  tok_is (ktok k) TKeyword && is_iteration_kw (ktok k) = false.
Proof.
  intros H Hf Ha. starts_cases H; try (splits; reflexivity); try discriminate Hf; try discriminate Ha.
  unfold tok_is, is_hoistable_dclr_kw, is_lexical_dclr_kw, is_iteration_kw, matches_str. cbn [ktok ttype tval ktype kval tt_eqb andb orb].
  rewrite (@ident_not x "async"), (@ident_not x "let"), (@ident_kw x "function"), (@ident_kw x "const") by (auto; first [reflexivity | unfold reserved_words; cbn [In]; tauto]). splits; reflexivity.
Qed.

Section Stmt.
Context (E : env) (M : mode).
Notation mok := (mok M).
Notation eok := (eok M).
Hypothesis Hsane : ucd_sane E.
Notation ht := (ht E).
Notation does := (does E).
Notation lit_tree := (lit_tree E).
Notation run := (run E).
Notation claimA := (claimA E M).
Notation claimE := (claimE E M).
Notation claimF := (claimF E M).

Definition sok (c : place) (F : fr) : Prop :=
  mok F /\ (in_fun c = true -> has_return (fprm F) = true) /\ (in_loop c = true -> fit F = true) /\ (in_sw c = true -> fsw F = true).
Definition R_node (s : node) : node -> Prop := fun x => bare_node x = s.
Definition claimS c l nt s := stmt_start l /\ forall F, sok c F -> no_slash nt -> forall n n2 rest m,
  does (l ++ nt :: rest) F m (parse_statement E n (run n2)) (R_node s) (nt :: rest) m /\
  does (l ++ nt :: rest) F m (parse_stmt_list_item E n (run n2)) (R_node s) (nt :: rest) m.
Definition claimI c l nt s := item_start l /\ forall F, sok c F -> no_slash nt -> forall n n2 rest m,
  does (l ++ nt :: rest) F m (parse_stmt_list_item E n (run n2)) (R_node s) (nt :: rest) m.
Inductive items c (nt : tok) : list tok -> list node -> Prop :=
| items_nil : items c nt [] []
| items_cons l l' s ss : claimI c l (next l' nt) s -> items c nt l' ss -> items c nt (l ++ l') (s :: ss).

Lemma r_item_stmt c l nt s : claimS c l nt s -> claimI c l nt s.
Proof. intros [H1 H2]. split; [apply stmt_item; auto|]. intros F HF Hn n n2 rest m. apply H2; auto. Qed.
Lemma via_stmt c l nt s : claimS c l nt s -> forall F, sok c F -> no_slash nt -> forall n2 rest m,
  does (l ++ nt :: rest) F m (h_statement (run n2)) (R_node s) (nt :: rest) m.
Proof. intros [_ H] F HF Hn [|n2] rest m; [apply ht_fuel|]. apply H; auto. Qed.
Lemma via_item c l nt s : claimI c l nt s -> forall F, sok c F -> no_slash nt -> forall n2 rest m,
  does (l ++ nt :: rest) F m (h_item (run n2)) (R_node s) (nt :: rest) m.
Proof. intros [_ H] F HF Hn [|n2] rest m; [apply ht_fuel|]. apply H; auto. Qed.
Lemma items_next c nt l ss : no_slash nt -> items c nt l ss -> no_slash (next l nt).
Proof. intros Hn [|l1 l2 s ss' [H _] _]; auto. rewrite next_app. apply item_next; auto. Qed.

(** The three loops over statements. *)
Lemma items_loop c nt F (item : PM node) (loop : nat -> PM (list node)) : no_slash nt ->
  (forall l nt s rest m, claimI c l nt s -> no_slash nt -> does (l ++ nt :: rest) F m item (R_node s) (nt :: rest) m) ->
  (forall ts m Q, ht ts F m (loop O) Q) ->
  (forall k rest m, does (nt :: rest) F m (loop (S k)) (eq []) (nt :: rest) m) ->
  (forall k t u m Q, item_tok t -> ht (t :: u) F m (x <- item ;; xs <- loop k ;; ret (x :: xs)) Q -> ht (t :: u) F m (loop (S k)) Q) ->
  forall l ss, items c nt l ss -> forall k rest m, does (l ++ nt :: rest) F m (loop k) (fun x => map bare_node x = ss) (nt :: rest) m.
Proof.
  intros Hn Hi H0 Hnil Hcons l ss H. induction H as [|l l' s ss H H' IH]; intros k rest m.
  - destruct k as [|k]; [apply H0|]. eapply does_conseq; [| |apply Hnil]; auto. intros a <-. reflexivity.
  - destruct k as [|k]; [apply H0|]. norm. pose proof (proj1 H) as Hs. pose proof (items_next Hn H') as Hs'.
    assert (Hg : does (l ++ l' ++ nt :: rest) F m (x <- item ;; xs <- loop k ;; ret (x :: xs)) (fun x => map bare_node x = s :: ss) (nt :: rest) m).
    { eapply ht_use with (ts' := l' ++ nt :: rest).
      { pose proof (Hi l (next l' nt) s (tl (l' ++ nt :: rest)) m H Hs') as Hx. destruct l'; exact Hx. }
      intros x Hx. eapply ht_use; [apply IH|]. intros xs Hxs. fin. cbn [map]. rewrite Hxs, Hx. reflexivity. }
    destruct l as [|t l]; [contradiction|]. apply Hcons; auto.
Qed.
Lemma until_brace c b l ss F : sok c F -> items c (P b RBrace) l ss -> forall n2 k rest m,
  does (l ++ P b RBrace :: rest) F m (parse_until_punc k RBrace (h_item (run n2))) (fun x => map bare_node x = ss) (P b RBrace :: rest) m.
Proof.
  intros HF H n2. eapply (@items_loop c (P b RBrace) F (h_item (run n2)) (fun k => parse_until_punc k RBrace (h_item (run n2)))); auto.
  - split; reflexivity.
  - intros. eapply via_item; eauto.
  - intros. apply ht_fuel.
  - intros. cbn [parse_until_punc]. go. fin. auto.
  - intros k t u m Q Ht Hx. cbn [parse_until_punc]. pose proof (it_brace Ht). go. exact Hx.
Qed.

(** ** Blocks *)
Definition claimK c l nt s := (exists b l0, l = P b LBrace :: l0) /\ forall F, sok c F -> no_slash nt -> forall n n2 rest m,
  does (l ++ nt :: rest) F m (parse_block_stmt E n (run n2)) (R_node s) (nt :: rest) m.
Lemma r_block c b b' l nt ss : items c (P b' RBrace) l ss -> claimK c (P b LBrace :: l ++ [P b' RBrace]) nt (BlockStatement ss nowhere).
Proof.
  intros H. split; [eauto|]. intros F HF Hn n n2 rest m. unfold parse_block_stmt, parse_statement_list. norm.
  assert (Hs : no_slash (next l (P b' RBrace))) by (eapply items_next; eauto; split; reflexivity).
  go. eapply ht_use; [eapply until_brace; eauto|]. intros xs Hxs. go. fin. unfold R_node. cbn [bare_node]. rewrite Hxs. reflexivity.
Qed.
Lemma r_stmt_block c l nt s : claimK c l nt s -> claimS c l nt s.
Proof.
  intros [(b & l0 & ->) H]. split; [split; [itok|reflexivity]|]. intros F HF Hn n n2 rest m. specialize (H F HF Hn n n2). norm. cbn [app] in H.
  split; [unfold parse_statement|unfold parse_stmt_list_item]; go; apply H.
Qed.
Ltac both := split; [unfold parse_statement|unfold parse_stmt_list_item]; go.
Lemma r_stmt_empty c b nt : claimS c [P b Semicolon] nt (EmptyStatement nowhere).
Proof.
  split; [split; [itok|reflexivity]|]. intros F HF Hn n n2 rest m. norm. both; unfold parse_empty_stmt; go; fin; reflexivity.
Qed.

Lemma at_next A l r nt rest F m (mm : PM A) R m' : (forall rest', does (l ++ next r nt :: rest') F m mm R (next r nt :: rest') m') ->
  does (l ++ r ++ nt :: rest) F m mm R (r ++ nt :: rest) m'.
Proof. intros H. destruct r; apply H. Qed.

(** ** Semicolons *)
Lemma semi_does ex sl nt F rest m : semi ex sl nt -> no_slash nt ->
  does (sl ++ nt :: rest) F m (consume_semicolon E GRegExp) (fun _ => True) (nt :: rest) m.
Proof.
  intros H Hn. unfold consume_semicolon. destruct H as [b t|b t ->|b t ->|t Hl Hp _]; norm; go.
  - fin. auto.
  - destruct b; cbn [negb]; go; fin; auto.
  - destruct b; cbn [negb]; go; fin; auto.
  - assert (Hq : tok_punc (kt t) Semicolon = false) by (destruct t as [b [p|w| | | | | | | |]]; auto; exact Hp).
    go. rewrite Hl. go. fin. auto.
Qed.
Lemma semi_sf ex sl nt rest : semi ex sl nt -> no_slash nt -> slashfree (sl ++ nt :: rest).
Proof. intros [b t|b t ->|b t ->|t Hl Hp _] Hn; cbn; auto; split; reflexivity. Qed.
Lemma semi_ne ex sl nt rest : semi ex sl nt -> sl ++ nt :: rest <> [].
Proof. intros [b t|b t ->|b t ->|t Hl Hp _]; discriminate. Qed.
Lemma semi_next ex sl nt : semi ex sl nt -> no_slash nt -> no_slash (next sl nt).
Proof. intros [b t|b t ->|b t ->|t Hl Hp _] Hn; cbn; auto; split; reflexivity. Qed.

(** ** Function bodies *)
Lemma setp_frame f F : fit (setp f F) = fit F /\ fsw (setp f F) = fsw F.
Proof. auto. Qed.
Lemma setit_back b F : setit (fit F) (setit b F) = F.
Proof. destruct F; reflexivity. Qed.
Lemma setit_same F : setit (fit F) F = F.
Proof. destruct F; reflexivity. Qed.
Lemma setsw_back b F : setsw (fsw F) (setsw b F) = F.
Proof. destruct F; reflexivity. Qed.

(** ** Declarations *)
Definition R_decl (d : var_declarator) : var_declarator -> Prop := fun x => bare_decl x = d.
Definition claimD inn l nt d := (exists l0 l1, l = l0 ++ l1 /\ bind_start l0) /\ forall F, eok F inn -> ok_assign inn nt -> forall n n2 rest m,
  does (l ++ nt :: rest) F m (parse_variable_dclr E n (run n2)) (R_decl d) (nt :: rest) m.
Lemma r_decl inn b x nt : ident x -> claimD inn [Id b x] nt (VarDeclarator (B_Id x nowhere) None).
Proof.
  intros Hx. split; [exists [Id b x], []; split; auto|]. intros F HF Hn n n2 rest m. unfold parse_variable_dclr. norm.
  eapply ht_use; [apply bindpat_id; auto; discriminate|]. intros y (sp & ->). pose proof (oa_assign Hn). go. fin. reflexivity.
Qed.
Lemma r_decl_init inn l b l' nt p e : claimBind E M l (P b Assign) p -> claimA inn l' nt e ->
  claimD inn (l ++ P b Assign :: l') nt (VarDeclarator p (Some e)).
Proof.
  intros Hp H. split; [exists l, (P b Assign :: l'); split; auto; apply Hp|]. intros F HF Hn n n2 rest m. unfold parse_variable_dclr. norm. pose proof (proj1 H) as Hs.
  eapply ht_use; [apply (proj2 Hp); [apply HF|split; reflexivity]|]. intros y Hy. go.
  eapply ht_use; [apply (proj2 H); auto|]. intros z Hz. go. fin. unfold R_decl. cbn [bare_decl option_map]. rewrite (tr_bare Hz), Hy. reflexivity.
Qed.
Lemma claimD_sf inn l nt d r : claimD inn l nt d -> slashfree (l ++ r).
Proof. intros [(l0 & l1 & -> & H) _]. rewrite <- app_assoc. apply bind_sf; auto. Qed.
Lemma decls_sf inn nt l ds r : sep (claimD inn) nt l ds -> slashfree (l ++ r).
Proof. intros [? ? H|? ? ? ? ? H _]; [|rewrite <- app_assoc]; eapply claimD_sf; eauto. Qed.
Lemma comma_decl inn F l nt e b rest m n n2 : eok F inn -> claimD inn l nt e -> ok_assign inn nt ->
  does (P b Comma :: l ++ nt :: rest) F m (comma_then E (parse_variable_dclr E n (run n2))) (R_decl e) (nt :: rest) m.
Proof. intros HF H Hn. unfold comma_then. pose proof (claimD_sf (nt :: rest) H). go. apply H; auto. Qed.
Lemma decls_bare ds xs : Forall2 R_decl ds xs -> map bare_decl xs = ds.
Proof. induction 1 as [|d x ds xs H _ IH]; [reflexivity|]. cbn [map]. rewrite H, IH. reflexivity. Qed.
Lemma expr_comma inn nt : ok_expr inn nt -> tok_punc (kt nt) Comma = false.
Proof. intros [_ H]. unfold tok_punc. rewrite H. apply andb_false_r. Qed.
Lemma decls_does inn F l nt ds n n2 rest m : eok F inn -> ok_expr inn nt -> sep (claimD inn) nt l ds ->
  does (l ++ nt :: rest) F m (variable_dclr_list E n (run n2)) (fun x => map bare_decl x = ds) (nt :: rest) m.
Proof.
  intros HF Hn H. pose proof (expr_comma Hn) as Hc. unfold variable_dclr_list. destruct H as [l d H|b l l' d ds H H']; norm.
  - eapply ht_use; [apply H; auto; apply Hn|]. intros x Hx. destruct n as [|n]; [apply ht_fuel_bind|]. cbn [parse_while_punc]. go. fin. cbn [map]. rewrite Hx. reflexivity.
  - eapply ht_use; [apply H; auto; apply close_ok; reflexivity|]. intros x Hx.
    eapply ht_use; [eapply (@while_comma E _ (claimD inn) R_decl F nt) with (ok := ok_assign inn); eauto|].
    { intros. apply (@comma_decl inn); auto. } { intros b3. apply close_ok. reflexivity. } { apply Hn. }
    intros xs Hxs. go. fin. cbn [map]. rewrite Hx, (decls_bare Hxs). reflexivity.
Qed.
Lemma decls_in_does inn F l sl nt ds n n2 rest m : has_in (fprm F) = inn -> mok F -> semi true sl nt -> sep (claimD inn) (next sl nt) l ds ->
  does (l ++ sl ++ nt :: rest) F m (variable_dclr_list E n (run n2)) (fun x => map bare_decl x = ds) (sl ++ nt :: rest) m.
Proof. intros Hi HF Hs H. apply at_next. intros rest'. eapply decls_does; eauto; [split; auto|]. apply (semi_next_ok _ Hs). Qed.
Lemma r_stmt_var c b l sl nt ds : sep (claimD true) (next sl nt) l ds -> semi true sl nt ->
  claimS c (W b "var" :: l ++ sl) nt (VariableDeclaration ds "var" nowhere).
Proof.
  intros H Hs. split; [split; [itok|reflexivity]|]. intros F HF Hn n n2 rest m. norm. pose proof (decls_sf (sl ++ nt :: rest) H).
  both; unfold parse_variable_stmt; go; (eapply ht_use; [eapply decls_in_does; eauto; apply HF|]); intros xs Hxs; go;
    (eapply ht_use; [eapply semi_does; eauto|]); intros _ _; go; fin; unfold R_node; cbn [bare_node]; rewrite Hxs; reflexivity.
Qed.
Lemma r_item_let c b l sl nt ds : sep (claimD true) (next sl nt) l ds -> semi true sl nt ->
  claimI c (Id b (s2l "let") :: l ++ sl) nt (VariableDeclaration ds "let" nowhere).
Proof.
  intros H Hs. split; [itok|]. intros F HF Hn n n2 rest m. norm. pose proof (decls_sf (sl ++ nt :: rest) H).
  unfold parse_stmt_list_item. go. unfold parse_lexical_dclr. go. (eapply ht_use; [eapply decls_in_does; eauto; apply HF|]); intros xs Hxs; go;
    (eapply ht_use; [eapply semi_does; eauto|]); intros _ _; go; fin; unfold R_node; cbn [bare_node]; rewrite Hxs; reflexivity.
Qed.
Lemma r_item_const c b l sl nt ds : sep (claimD true) (next sl nt) l ds -> semi true sl nt ->
  claimI c (W b "const" :: l ++ sl) nt (VariableDeclaration ds "const" nowhere).
Proof.
  intros H Hs. split; [itok|]. intros F HF Hn n n2 rest m. norm. pose proof (decls_sf (sl ++ nt :: rest) H).
  unfold parse_stmt_list_item. go. unfold parse_lexical_dclr. go. (eapply ht_use; [eapply decls_in_does; eauto; apply HF|]); intros xs Hxs; go;
    (eapply ht_use; [eapply semi_does; eauto|]); intros _ _; go; fin; unfold R_node; cbn [bare_node]; rewrite Hxs; reflexivity.
Qed.
End Stmt.

(** ** Function bodies *)
Lemma not_string t : (forall b w, t <> T b (KStr w)) -> tok_is (kt t) TString = false.
Proof. destruct t as [b [p|w| |x|w| | | | |]]; intros H; try reflexivity. exfalso. eapply H. reflexivity. Qed.
Section Body.
Context (E : env).
Hypothesis Hsane : ucd_sane E.
Notation ht := (ht E).
Notation does := (does E).
Notation lit_tree := (lit_tree E).
Notation run := (run E).
Lemma claim_str M inn b w nt : not_yield M (T b (KStr w)) -> claimE E M inn [T b (KStr w)] nt (lit_tree (VStr w)).
Proof.
  intros Hy. apply r_expr_one; auto. split; [cbn; eauto with gr|]. intros F HF Hn. eapply r_assign_cond; eauto; [cbn; eauto with gr|].
  apply condx_cond. eapply prim_condx; [apply HF|cbn; eauto with gr|apply Hn|]. apply r_str; auto.
Qed.
(** [dirs M nt l ss M']: the directives [l] in the mode [M], leading to the mode [M']. *)
Inductive dirs (nt : tok) : mode -> list tok -> list node -> mode -> Prop :=
| dirs_nil M : (forall b w, nt <> T b (KStr w)) -> dirs nt M [] [] M
| dirs_cons M M' b w sl l ss : not_yield M (T b (KStr w)) -> semi true sl (next l nt) -> dirs nt (directive_mode M w) l ss M' ->
    dirs nt M (T b (KStr w) :: sl ++ l) (ExpressionStatement (lit_tree (VStr w)) nowhere :: ss) M'.
Lemma dir_mok M w F : mok M F -> mok (directive_mode M w) (setst (m_strict (directive_mode M w)) F).
Proof.
  intros (H1 & H2 & H3). unfold directive_mode. destruct (str_eqb w (s2l "use strict")); unfold mok; splits; auto.
Qed.
Lemma dirs_mok nt M l ss M' : dirs nt M l ss M' -> forall F, mok M F -> mok M' (setst (m_strict M') F).
Proof.
  induction 1 as [M H|M M' b w sl l ss Hy Hs H IH]; intros F HF.
  - replace (setst (m_strict M) F) with F; auto. destruct HF as (_ & _ & <-). symmetry. apply setst_same.
  - rewrite <- (setst_setst (m_strict M') (m_strict (directive_mode M w))). apply IH. apply dir_mok; auto.
Qed.
Lemma dirs_does nt M l ss M' : no_slash nt -> dirs nt M l ss M' -> forall F, mok M F -> forall n2 k rest m,
  ht (l ++ nt :: rest) F m (directive_prologues E (run n2) k) (fun x s => map bare_node x = ss /\ St E (nt :: rest) (setst (m_strict M') F) m s).
Proof.
  intros Hn H. induction H as [M Ht|M M' b w sl l ss Hy Hs H IH]; intros F HF n2 [|k] rest m; try apply ht_fuel; cbn [directive_prologues]; norm.
  - pose proof (not_string Ht). destruct HF as (_ & _ & <-). rewrite setst_same. go. fin. reflexivity.
  - assert (Hl : no_slash (next l nt)) by (destruct H; auto; split; reflexivity).
    go. eapply ht_use.
    { change (T b (KStr w) :: sl ++ l ++ nt :: rest) with ([T b (KStr w)] ++ sl ++ l ++ nt :: rest). rewrite (app_assoc sl). apply at_next.
      intros rest'. apply via_expr. apply (proj2 (@claim_str M (has_in (fprm F)) b w _ Hy)); [split; auto|]. rewrite next_app. apply (semi_next_ok _ Hs). }
    intros x Hx. rewrite <- app_assoc.
    pose proof (fun m => IH (setst (m_strict (directive_mode M w)) F) (dir_mok w HF) n2 k rest m) as IH'. rewrite setst_setst in IH'.
    assert (Hk : forall F' a, F' = setst (m_strict (directive_mode M w)) F -> bare_node a = lit_tree (VStr w) ->
      ht (sl ++ l ++ nt :: rest) F' (S m)
      (bind (consume_semicolon E GRegExp) (fun _ => sp <- end_span ;; body <- directive_prologues E (run n2) k ;; ret (ExpressionStatement a sp :: body)))
      (fun x s => map bare_node x = ExpressionStatement (lit_tree (VStr w)) nowhere :: ss /\ St E (nt :: rest) (setst (m_strict M') F) m s)).
    { intros F' a -> Ha. eapply ht_use; [apply at_next; intros; eapply semi_does; eauto|]. intros _ _. go.
      eapply ht_bind; [apply IH'|]. intros xs s' [Hxs Hs']. split; auto. cbn [map bare_node]. rewrite Hxs, Ha. reflexivity. }
    pose proof (tr_bare Hx) as Hb. unfold directive_mode in Hk. destruct x; try discriminate Hb. pose proof Hb as Hb'. injection Hb as -> Hraw.
    destruct (str_eqb w (s2l "use strict")).
    + apply ht_setst. apply Hk; auto.
    + apply ht_ret_bind. apply Hk; auto. destruct HF as (_ & _ & <-). symmetry. apply setst_same.
Qed.
(** The statements of a body: directives, then statements. *)
Definition body M c (nt : tok) l ss := exists l1 l2 s1 s2 M', l = l1 ++ l2 /\ ss = s1 ++ s2 /\ dirs (next l2 nt) M l1 s1 M' /\ items E M' c nt l2 s2.
Lemma r_body M c l nt ss : (forall b w, next l nt <> T b (KStr w)) -> items E M c nt l ss -> body M c nt l ss.
Proof. intros H H'. exists [], l, [], ss, M. splits; auto. constructor; auto. Qed.
Lemma r_body_directive M c b w sl l nt ss : not_yield M (T b (KStr w)) -> semi true sl (next l nt) -> body (directive_mode M w) c nt l ss ->
  body M c nt (T b (KStr w) :: sl ++ l) (ExpressionStatement (lit_tree (VStr w)) nowhere :: ss).
Proof.
  intros Hy H (l1 & l2 & s1 & s2 & M' & -> & -> & H1 & H2). exists (T b (KStr w) :: sl ++ l1), l2, (ExpressionStatement (lit_tree (VStr w)) nowhere :: s1), s2, M'.
  splits; auto; [norm; reflexivity|]. constructor; auto. rewrite <- next_app. auto.
Qed.
Lemma body_next M c nt l ss : no_slash nt -> body M c nt l ss -> no_slash (next l nt).
Proof.
  intros Hn (l1 & l2 & s1 & s2 & M' & -> & -> & H1 & H2). rewrite next_app. destruct H1; [exact (items_next Hn H2)|split; reflexivity].
Qed.
Lemma dirs_bind nt M l1 l2 s1 M' : no_slash (next l2 nt) -> dirs (next l2 nt) M l1 s1 M' -> forall F, mok M F -> forall n2 k rest m B (K : list node -> PM B) Q,
  (forall xs, map bare_node xs = s1 -> ht (l2 ++ nt :: rest) (setst (m_strict M') F) m (K xs) Q) ->
  ht (l1 ++ l2 ++ nt :: rest) F m (bind (directive_prologues E (run n2) k) K) Q.
Proof.
  intros Hs H F HF n2 k rest m B K Q HQ.
  assert (Hx : exists rest', l2 ++ nt :: rest = next l2 nt :: rest') by (destruct l2; eexists; reflexivity).
  destruct Hx as (rest' & Hx). rewrite Hx in *. eapply ht_bind; [eapply dirs_does; eauto|].
  intros xs s [Hxs Hs']. apply HQ; auto.
Qed.
Lemma r_funbody M b b' l nt ss : body M fun_place (P b' RBrace) l ss -> claimF E M (P b LBrace :: l ++ [P b' RBrace]) nt (BlockStatement ss nowhere).
Proof.
  intros H. split; [eauto|]. intros F HF Hn n n2 rest m. unfold parse_function_body, parse_function_body_block, parse_statement_list. norm.
  assert (Hs : no_slash (next l (P b' RBrace))) by (eapply body_next; eauto; split; reflexivity).
  destruct H as (l1 & l2 & s1 & s2 & M' & -> & -> & H1 & H2).
  go. apply ht_updctx; auto. go. rewrite <- app_assoc.
  assert (Hs2 : no_slash (next l2 (P b' RBrace))) by (eapply items_next; eauto; split; reflexivity).
  pose proof (@dirs_mok _ _ _ _ _ H1 (setp (set_return true) F) HF) as HM.
  eapply dirs_bind; [exact Hs2|exact H1|exact HF|]. intros xs Hxs. go.
  eapply ht_use; [eapply until_brace; eauto|]. { split; [exact HM|]. cbn. repeat split; auto; intros; discriminate. } intros ys Hys. go.
  apply ht_setit. replace (in_iteration _) with (fit (setst (m_strict M') (setp (set_return true) F))) by auto. rewrite setit_same. go.
  apply ht_setst. replace (strict _) with (fstrict (setp (set_return true) F)) by auto. rewrite setst_back. go.
  apply ht_updctx; auto. fin. cbn [bare_node]. rewrite map_app, Hxs, Hys. reflexivity.
Qed.
End Body.
Section FunDecl.
Context (E : env) (M M1 M2 : mode).
Hypothesis Hsane : ucd_sane E.
Notation ht := (ht E).
Notation does := (does E).
Notation run := (run E).
Lemma r_item_function c b b' x l l' nt ps body : ident x -> allows M M1 false false -> allows M M2 false false -> claimT E M1 l (next l' nt) ps -> claimF E M2 l' nt body ->
  claimI E M c (W b "function" :: Id b' x :: l ++ l') nt (FunctionDeclaration (Some (NBindingIdentifier x nowhere)) ps body false false false nowhere).
Proof.
  intros Hx A1 A2 H H'. split; [itok|]. intros F HF Hn n n2 rest m. norm. pose proof (proj1 H) as (b1 & l1 & ->).
  unfold parse_stmt_list_item. go. unfold parse_hoistable_dclr. go. unfold parse_function_dclr. go.
  unfold binding_id_node. go. eapply ht_use; [apply bind_id; auto; discriminate|]. intros y (sp & ->). go.
  eapply ht_use; [eapply params_body with (M1 := M1) (M2 := M2); first [eassumption | eapply allows_mok; [apply HF|eassumption]]|]. intros [xs z] [Hxs Hz]. cbn [fst snd] in *. go. fin.
  unfold R_node. cbn [bare_node option_map]. rewrite Hxs, Hz. reflexivity.
Qed.
Lemma r_item_generator c b b0 b' x l l' nt ps body : ident x -> allows M M1 true false -> allows M M2 true false -> claimT E M1 l (next l' nt) ps -> claimF E M2 l' nt body ->
  claimI E M c (W b "function" :: P b0 Star :: Id b' x :: l ++ l') nt (FunctionDeclaration (Some (NBindingIdentifier x nowhere)) ps body true false false nowhere).
Proof.
  intros Hx A1 A2 H H'. split; [itok|]. intros F HF Hn n n2 rest m. norm. pose proof (proj1 H) as (b1 & l1 & ->).
  unfold parse_stmt_list_item. go. unfold parse_hoistable_dclr. go. unfold parse_function_dclr. go.
  unfold binding_id_node. go. eapply ht_use; [apply bind_id; auto; discriminate|]. intros y (sp & ->). go.
  eapply ht_use; [eapply params_body with (M1 := M1) (M2 := M2); first [eassumption | eapply allows_mok; [apply HF|eassumption]]|]. intros [xs z] [Hxs Hz]. cbn [fst snd] in *. go. fin.
  unfold R_node. cbn [bare_node option_map]. rewrite Hxs, Hz. reflexivity.
Qed.
End FunDecl.

(** ** Class declarations *)
Section ClassDecl.
Context (E : env) (M : mode).
Hypothesis Hsane : ucd_sane E.
Notation ht := (ht E).
Notation does := (does E).
Notation run := (run E).
Lemma r_item_class c b b' x l nt s ms : ident x -> claimCT E (strict_mode M) l nt (s, ms) ->
  claimI E M c (W b "class" :: Id b' x :: l) nt (ClassDeclaration (Some (NBindingIdentifier x nowhere)) s ms nowhere).
Proof.
  intros Hx H. split; [itok|]. intros F HF Hn n n2 rest m. norm. destruct (@ct_ne_ E (strict_mode M) _ _ _ (nt :: rest) H) as [Hne Hsf].
  unfold parse_stmt_list_item. go. unfold parse_class_dclr. go. apply ht_setst. go. unfold binding_id_node. go.
  eapply ht_use; [apply bind_id; auto|]. intros y (sp & ->). go.
  eapply ht_use; [apply (proj2 H); auto; apply (@mok_class M (setp (set_default false) F)), HF|]. intros z (s' & ms' & sp' & -> & H1 & H2). cbn [fst snd] in *. go.
  apply ht_setst. replace (strict c0) with (fstrict (setp (set_default false) F)) by auto. rewrite setst_back. go. fin. unfold R_node.
  cbn [bare_node option_map]. rewrite H1, H2. reflexivity.
Qed.
End ClassDecl.
