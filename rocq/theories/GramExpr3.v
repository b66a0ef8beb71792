(** * GramExpr3: parameters, object literals, function expressions (proofs). *)
From Verif Require Import Base Codepoint Punct Token Scanner SpecLex SpecScan Hoare ScanBase ScanTokens2.
From Verif Require Import Ast Convert ParserBase ParserExpr ParserStmt Parser SpecJson SpecBare SpecLayout SpecGrammar GramLex GramBase GramTac GramExpr GramExpr2.
From Coq Require Import ZifyBool ZifyN ZifyNat.
Set Implicit Arguments.

Section Expr.
Context (E : env) (M : mode).
Hypothesis Hsane : ucd_sane E.
Notation ht := (ht E).
Notation does := (does E).
Notation lit_tree := (lit_tree E).
Notation run := (run E).
Notation claimA := (claimA E M).
Notation mok := (mok M).
Ltac loop0 k := destruct k as [|k]; [first [apply ht_fuel | apply ht_fuel_bind]|]; cbn [parse_until_punc parse_until_punc_or_rest]; go.
Hint Resolve eok_in eok_mok : gr.

Definition prop_start (l : list tok) : Prop := match l with t :: _ => no_slash t /\ tok_punc (kt t) RBrace = false | [] => False end.

(** ** Binding patterns *)
Definition simple_bind (p : binding) : Prop := match p with B_Expr _ => False | _ => True end.
Definition bind_start (l : list tok) : Prop := match l with
  | T _ (KI x) :: _ => ident x | T _ (KP p) :: _ => p = LBracket \/ p = LBrace | _ => False end.
Definition claimBind l nt p := (bind_start l /\ simple_bind p) /\ forall F, mok F -> no_slash nt -> forall n n2 rest m,
  does (l ++ nt :: rest) F m (parse_binding_id_or_pat E n (run n2)) (fun x => bare_bind x = p) (nt :: rest) m.
Definition claimBI l nt (pi : binding * option node) := (snd pi = None /\ claimBind l nt (fst pi)) \/
  exists l1 b l2 e, l = l1 ++ P b Assign :: l2 /\ snd pi = Some e /\ claimBind l1 (P b Assign) (fst pi) /\ claimA true l2 nt e.
Definition claimPE l nt es := forall b, nt = P b RBracket -> no_slash (next l nt) /\ forall F, mok F -> forall n2 k rest m,
  does (l ++ nt :: rest) F m (parse_until_punc_or_rest k RBracket (arr_pat_element E (run n2))) (fun x => map (option_map bare_apat) x = es) (nt :: rest) m.
Definition claimPP l nt p := prop_start l /\ tok_punc (kt (next l nt)) Ellipsis = false /\ forall F, mok F -> forall n2 rest u m, sepr RBrace nt rest u ->
  does (l ++ nt :: rest) F m (obj_pat_property E (run n2)) (fun x => bare_opat x = p) u m.
Definition claimPPs l nt ps := forall b, nt = P b RBrace -> no_slash (next l nt) /\ forall F, mok F -> forall n2 k rest m,
  does (l ++ nt :: rest) F m (parse_until_punc_or_rest k RBrace (obj_pat_property E (run n2))) (fun x => map bare_opat x = ps) (nt :: rest) m.
Definition claimP l nt ps := forall b, nt = P b RParen -> no_slash (next l nt) /\ forall F, mok F -> forall n n2 k rest m,
  does (l ++ nt :: rest) F m (parse_until_punc_or_rest k RParen (formal_param E n (run n2))) (fun x => map bare_param x = ps) (nt :: rest) m.
Definition claimT l nt ps := (exists b l0, l = P b LParen :: l0) /\ forall F, mok F -> no_slash nt -> forall n n2 rest m,
  does (l ++ nt :: rest) F m (parse_formal_params E n (run n2)) (fun x => map bare_param x = ps) (nt :: rest) m.

Record bind_tests (t : tok) : Prop := mkBindTests {
  bt_slash : no_slash t; bt_comma : tok_punc (kt t) Comma = false; bt_brace : tok_punc (kt t) RBrace = false;
  bt_bracket : tok_punc (kt t) RBracket = false; bt_paren : tok_punc (kt t) RParen = false; bt_rest : tok_punc (kt t) Ellipsis = false }.
Lemma bind_first l : bind_start l -> exists t l0, l = t :: l0 /\ bind_tests t.
Proof.
  destruct l as [|[b k] l]; [intros []|]. intros H. exists (T b k), l. split; auto. destruct k as [p| |x| | | | | | |]; try destruct H; subst; constructor; try (split; reflexivity); reflexivity.
Qed.
Lemma bind_sf l r : bind_start l -> slashfree (l ++ r).
Proof. intros H. destruct (@bind_first _ H) as (t & l0 & -> & Ht). apply Ht. Qed.
Lemma via_bind l nt p F : claimBind l nt p -> mok F -> no_slash nt -> forall n2 rest m,
  does (l ++ nt :: rest) F m (h_bindpat (run n2)) (fun x => bare_bind x = p) (nt :: rest) m.
Proof. intros [_ H] HF Hn [|n2] rest m; [apply ht_fuel|]. apply H; auto. Qed.
Lemma bindpat_id n n2 x b u F m : ident x -> u <> [] ->
  does (Id b x :: u) F m (parse_binding_id_or_pat E n (run n2)) (fun e => exists sp, e = B_Id x sp) u m.
Proof. intros Hx Hu. unfold parse_binding_id_or_pat. go. apply bind_id; auto. Qed.
Lemma r_bind_id b x nt : ident x -> claimBind [Id b x] nt (B_Id x nowhere).
Proof.
  intros Hx. split; [split; [exact Hx|exact I]|]. intros F HF Hn n n2 rest m. eapply does_conseq; [| |apply bindpat_id; auto; discriminate]; auto.
  intros y (sp & ->). reflexivity.
Qed.
Lemma r_bind_array b l b' nt es : claimPE l (P b' RBracket) es -> claimBind (P b LBracket :: l ++ [P b' RBracket]) nt (B_Array es nowhere).
Proof.
  intros H. split; [split; [left; reflexivity|exact I]|]. intros F HF Hn n n2 rest m. destruct (H b' eq_refl) as [Hs Hr]. unfold parse_binding_id_or_pat. norm. go. unfold parse_arr_binding_pat. go.
  eapply ht_use; [apply Hr; auto|]. intros xs Hxs. go. fin. cbn [bare_bind]. rewrite Hxs. reflexivity.
Qed.
Lemma r_bind_object b l b' nt ps : claimPPs l (P b' RBrace) ps -> claimBind (P b LBrace :: l ++ [P b' RBrace]) nt (B_Object ps nowhere).
Proof.
  intros H. split; [split; [right; reflexivity|exact I]|]. intros F HF Hn n n2 rest m. destruct (H b' eq_refl) as [Hs Hr]. unfold parse_binding_id_or_pat. norm. go. unfold parse_obj_binding_pat. go.
  eapply ht_use; [apply Hr; auto|]. intros xs Hxs. go. fin. cbn [bare_bind]. rewrite Hxs. reflexivity.
Qed.
Lemma bi_first l nt pi : claimBI l nt pi -> exists t l0, l = t :: l0 /\ bind_tests t.
Proof.
  intros [[_ [[H _] _]]|(l1 & b & l2 & e & -> & _ & [[H _] _] & _)]; [apply bind_first; auto|].
  destruct (@bind_first _ H) as (t & l0 & -> & Ht). eexists _, _. split; [reflexivity|auto].
Qed.
Lemma bi_simple l nt pi : claimBI l nt pi -> simple_bind (fst pi).
Proof. intros [[_ [[_ H] _]]|(l1 & b & l2 & e & -> & _ & [[_ H] _] & _)]; auto. Qed.
Lemma bare_none x p : bare_bind x = p -> simple_bind p -> simple_bind x.
Proof. intros <-. destruct x; auto. Qed.

(** Elements of array patterns. *)
Lemma sepr_assign c nt rest u : existsb (punct_eqb c) (tl closers) = true -> sepr c nt rest u -> no_slash nt /\ tok_punc (kt nt) Assign = false.
Proof. intros Hc (b0 & [[-> _]|[-> _]]); destruct c; try discriminate Hc; (split; [split|]; reflexivity). Qed.
Lemma pat_elem_does l nt p i rest u F n2 m : claimBI l nt (p, i) -> sepr RBracket nt rest u -> mok F ->
  does (l ++ nt :: rest) F m (arr_pat_element E (run n2)) (fun x => option_map bare_apat x = Some (pat_elem p i)) u m.
Proof.
  intros H Hs HF. pose proof (bi_simple H) as Hsp. cbn [fst] in Hsp. destruct (@bi_first _ _ _ H) as (t0 & l0 & Hl & [T1 T2 T3 T4 T5 T6]). destruct (@sepr_assign RBracket nt rest u eq_refl Hs) as [S1 S2].
  unfold arr_pat_element. rewrite Hl. cbn [app]. go. change (t0 :: l0 ++ nt :: rest) with ((t0 :: l0) ++ nt :: rest). rewrite <- Hl. clear Hl T1 T2 T3 T4 T5 T6.
  destruct H as [[Hi H]|(l1 & b & l2 & e & -> & Hi & H & He)]; cbn [fst snd] in *; subst i.
  - eapply ht_use; [apply (via_bind H); auto|]. intros y Hy. go.
    assert (Hz : simple_bind y) by exact (@bare_none y p Hy Hsp).
    destruct y; try destruct Hz; go; (eapply ht_use; [apply (@sepr_comma E Hsane RBracket); eauto|]); intros _ _; fin; subst p; reflexivity.
  - norm. eapply ht_use; [apply (via_bind H); auto; split; reflexivity|]. intros y Hy. pose proof (proj1 He) as Hle. go.
    eapply ht_use; [apply (assign_in_does He); auto; eapply sepr_ok; eauto; reflexivity|]. intros z Hz. go.
    eapply ht_use; [apply (@sepr_comma E Hsane RBracket); eauto|]. intros _ _. fin. cbn [option_map bare_apat pat_elem]. rewrite (tr_bare Hz), Hy. reflexivity.
Qed.
Lemma r_pat_elems_nil nt : claimPE [] nt [].
Proof. intros b ->. split; [split; reflexivity|]. intros F HF n2 k rest m. norm. loop0 k. fin. reflexivity. Qed.
Lemma r_pat_elems_hole b l nt es : claimPE l nt es -> claimPE (P b Comma :: l) nt (None :: es).
Proof.
  intros H b' ->. destruct (H b' eq_refl) as [Hs Hr]. split; [split; reflexivity|]. intros F HF n2 k rest m. norm. loop0 k.
  unfold arr_pat_element at 1. go. eapply ht_use; [apply Hr; auto|]. intros xs Hxs. go. fin. cbn [map option_map]. congruence.
Qed.
Lemma r_pat_elems_last l nt p i : claimBI l nt (p, i) -> claimPE l nt [Some (pat_elem p i)].
Proof.
  intros H b ->. destruct (@bi_first _ _ _ H) as (t0 & l0 & Hl & [T1 T2 T3 T4 T5 T6]). subst l. split; [exact T1|]. intros F HF n2 k rest m. norm. loop0 k.
  eapply ht_use; [apply (@pat_elem_does _ _ _ _ _ _ F n2 _ H); auto; apply sepr_last|]. intros y Hy. loop0 k. fin. cbn [map]. rewrite Hy. reflexivity.
Qed.
Lemma r_pat_elems_more b l l' nt p i es : claimBI l (P b Comma) (p, i) -> claimPE l' nt es -> claimPE (l ++ P b Comma :: l') nt (Some (pat_elem p i) :: es).
Proof.
  intros H H' b2 ->. destruct (@bi_first _ _ _ H) as (t0 & l0 & Hl & [T1 T2 T3 T4 T5 T6]). subst l. destruct (H' b2 eq_refl) as [Hs Hr]. split; [exact T1|]. intros F HF n2 k rest m. norm. loop0 k.
  eapply ht_use; [apply (@pat_elem_does _ _ _ _ _ _ F n2 _ H); auto; apply sepr_more, sf_next; auto|]. intros y Hy.
  eapply ht_use; [apply Hr; auto|]. intros ys Hys. go. fin. cbn [map]. congruence.
Qed.
Lemma r_pat_elems_rest b l nt p : claimBind l nt p -> claimPE (P b Ellipsis :: l) nt [Some (AP_Rest p)].
Proof.
  intros H b2 ->. split; [split; reflexivity|]. intros F HF n2 k rest m. pose proof (@bind_sf l (P b2 RBracket :: rest) (proj1 (proj1 H))). norm. loop0 k. unfold arr_pat_element. go.
  eapply ht_use; [apply (via_bind H); auto; split; reflexivity|]. intros y Hy. go. fin. cbn [map option_map bare_apat]. rewrite Hy. reflexivity.
Qed.

(** Properties of object patterns. *)
Lemma r_pat_props_nil nt : claimPPs [] nt [].
Proof. intros b ->. split; [split; reflexivity|]. intros F HF n2 k rest m. norm. loop0 k. fin. reflexivity. Qed.
Lemma r_pat_props_last l nt p : claimPP l nt p -> claimPPs l nt [p].
Proof.
  intros (Hl & He & H) b ->. destruct l as [|t l]; [contradiction|]. destruct Hl as [Hs Hb]. cbn [next hd] in He. split; [exact Hs|]. intros F HF n2 k rest m.
  specialize (H F HF n2). norm. loop0 k. eapply ht_use; [apply H; apply sepr_last|]. intros x Hx. loop0 k. fin. cbn [map]. rewrite Hx. reflexivity.
Qed.
Lemma r_pat_props_more b l l' nt p ps : claimPP l (P b Comma) p -> claimPPs l' nt ps -> claimPPs (l ++ P b Comma :: l') nt (p :: ps).
Proof.
  intros (Hl & He & H) H' b' ->. destruct l as [|t l]; [contradiction|]. destruct Hl as [Hs Hb]. cbn [next hd] in He. destruct (H' b' eq_refl) as [Hs' Hr]. split; [exact Hs|]. intros F HF n2 k rest m.
  specialize (H F HF n2). norm. loop0 k. eapply ht_use; [apply H; apply sepr_more, sf_next; auto|]. intros x Hx.
  eapply ht_use; [apply Hr; auto|]. intros xs Hxs. go. fin. cbn [map]. congruence.
Qed.
Lemma r_pat_props_rest b l nt p : claimBind l nt p -> claimPPs (P b Ellipsis :: l) nt [OP_Rest p].
Proof.
  intros H b2 ->. split; [split; reflexivity|]. intros F HF n2 k rest m. pose proof (@bind_sf l (P b2 RBrace :: rest) (proj1 (proj1 H))). norm. loop0 k. unfold obj_pat_property. go.
  eapply ht_use; [apply (via_bind H); auto; split; reflexivity|]. intros y Hy. go. fin. cbn [map bare_opat]. rewrite Hy. reflexivity.
Qed.
Lemma ident_not_keyword x : ident x -> is_keyword x = false.
Proof.
  intros [H _]. destruct (is_keyword x) eqn:Hk; [|reflexivity]. apply is_keyword_reserved in Hk. contradiction.
Qed.
Lemma r_pat_prop_short b x nt : ident x -> claimPP [Id b x] nt (OP_Prop (key_tree x) false None "init" false true).
Proof.
  intros Hx. pose proof (ident_not_keyword Hx). split; [split; [split|]; reflexivity|]. split; [reflexivity|]. intros F HF n2 rest u m Hs. norm.
  assert (Hns : slashfree (nt :: rest)) by (destruct Hs as (b0 & [[-> _]|[-> _]]); split; reflexivity).
  unfold obj_pat_property. go. unfold obj_pat_key. go. unfold obj_pat_rest.
  pose proof Hs as (b0 & [[-> _]|[-> _]]); go; unfold value_to_key; krw; cbn [value_show]; go.
  all: eapply ht_use; [apply (@sepr_comma E Hsane RBrace); eauto|]; intros _ _; fin; reflexivity.
Qed.
Lemma r_pat_prop_short_init b x b' l nt e : ident x -> claimA true l nt e ->
  claimPP (Id b x :: P b' Assign :: l) nt (OP_Prop (key_tree x) false (Some (PV_Assign (B_Id x nowhere) e)) "init" false true).
Proof.
  intros Hx H. pose proof (ident_not_keyword Hx). pose proof (proj1 H) as Hl. split; [split; [split|]; reflexivity|]. split; [reflexivity|]. intros F HF n2 rest u m Hs. norm.
  unfold obj_pat_property. go. unfold obj_pat_key. go. unfold obj_pat_rest. go. krw. cbn [kval]. go. unfold value_to_key. cbn [value_show]. go.
  eapply ht_use; [apply (assign_in_does H); auto; eapply sepr_ok; eauto; reflexivity|]. intros z Hz. go.
  eapply ht_use; [apply (@sepr_comma E Hsane RBrace); eauto|]. intros _ _. fin. cbn. rewrite (tr_bare Hz). reflexivity.
Qed.
(** After the colon. *)
Lemma pat_value_does l nt p i rest u F n2 m B C (k : prop_value -> PM B) (k2 : B -> PM C) Q : claimBI l nt (p, i) -> sepr RBrace nt rest u -> mok F ->
  (forall y, bare_val y = pat_value p i -> ht (nt :: rest) F m (x <- k y ;; k2 x) Q) ->
  ht (l ++ nt :: rest) F m (t' <- getcur ;; x <- (pattern <- h_bindpat (run n2) ;; ov <- obj_pat_value E (run n2) (tline t') (tcol t') pattern ;; k ov) ;; k2 x) Q.
Proof.
  intros H Hs HF Hk. pose proof (bi_simple H) as Hsp. cbn [fst] in Hsp. destruct (@bi_first _ _ _ H) as (t0 & l0 & Hl & _). destruct (@sepr_assign RBrace nt rest u eq_refl Hs) as [S1 S2].
  rewrite Hl. cbn [app]. go. change (t0 :: l0 ++ nt :: rest) with ((t0 :: l0) ++ nt :: rest). rewrite <- Hl. clear Hl.
  destruct H as [[Hi H]|(l1 & b & l2 & e & -> & Hi & H & He)]; cbn [fst snd] in *; subst i.
  - eapply ht_use; [apply (via_bind H); auto|]. intros y Hy. unfold obj_pat_value. go.
    assert (Hz : simple_bind y) by exact (@bare_none y p Hy Hsp).
    destruct y; try destruct Hz; go; apply Hk; subst p; reflexivity.
  - norm. eapply ht_use; [apply (via_bind H); auto; split; reflexivity|]. intros y Hy. pose proof (proj1 He) as Hle. unfold obj_pat_value. go.
    eapply ht_use; [apply (assign_in_does He); auto; eapply sepr_ok; eauto; reflexivity|]. intros z Hz. go.
    apply Hk. cbn [bare_val pat_value]. rewrite (tr_bare Hz), Hy. reflexivity.
Qed.
Lemma bi_sf l nt pi r : claimBI l nt pi -> slashfree (l ++ r).
Proof. intros H. destruct (@bi_first _ _ _ H) as (t0 & l0 & -> & T). apply T. Qed.
Lemma pat_prop_lit t v b l nt p i : no_slash t -> tok_punc (kt t) RBrace = false -> tok_punc (kt t) Ellipsis = false -> tval (kt t) = v ->
  tok_is (kt t) TIdentifier || tok_is (kt t) TKeyword || tok_is (kt t) TString || tok_is (kt t) TNumeric = true ->
  claimBI l nt (p, i) ->
  claimPP (t :: P b Colon :: l) nt (OP_Prop (PK_Lit (mkLit v [] nowhere)) false (Some (pat_value p i)) "init" false false).
Proof.
  intros Hs Hb He Hv Hk H. split; [split; auto|]. split; [exact He|]. intros F HF n2 rest u m Hu. norm. pose proof (bi_sf (nt :: rest) H) as Hsf.
  unfold obj_pat_property. go. unfold obj_pat_key. go. unfold obj_pat_rest. go. unfold value_to_key. go.
  eapply pat_value_does; eauto. intros y Hy. go.
  eapply ht_use; [apply (@sepr_comma E Hsane RBrace); eauto|]. intros _ _. fin. krw. cbn [bare_opat bare_key option_map lit_value]. rewrite Hy. subst v. reflexivity.
Qed.
Lemma r_pat_prop_name t x b l nt p i : name_tok t x -> claimBI l nt (p, i) ->
  claimPP (t :: P b Colon :: l) nt (OP_Prop (PK_Lit (mkLit (VStr x) [] nowhere)) false (Some (pat_value p i)) "init" false false).
Proof. intros Ht H. apply pat_prop_lit; auto; destruct Ht; try (split; reflexivity); reflexivity. Qed.
Lemma r_pat_prop_str b w b' l nt p i : claimBI l nt (p, i) ->
  claimPP (T b (KStr w) :: P b' Colon :: l) nt (OP_Prop (PK_Lit (mkLit (VStr w) [] nowhere)) false (Some (pat_value p i)) "init" false false).
Proof. intros H. apply pat_prop_lit; auto; try (split; reflexivity); reflexivity. Qed.
Lemma r_pat_prop_num b x b' l nt p i : claimBI l nt (p, i) ->
  claimPP (T b (KNum x) :: P b' Colon :: l) nt (OP_Prop (PK_Lit (mkLit (VNum x) [] nowhere)) false (Some (pat_value p i)) "init" false false).
Proof. intros H. apply pat_prop_lit; auto; try (split; reflexivity); reflexivity. Qed.
Lemma r_pat_prop_computed b k b1 b2 l nt ke p i : claimA true k (P b1 RBracket) ke -> claimBI l nt (p, i) ->
  claimPP (P b LBracket :: k ++ P b1 RBracket :: P b2 Colon :: l) nt (OP_Prop (PK_Expr ke) true (Some (pat_value p i)) "init" false false).
Proof.
  intros Hk H. split; [split; [split|]; reflexivity|]. split; [reflexivity|]. intros F HF n2 rest u m Hu. norm. pose proof (bi_sf (nt :: rest) H) as Hsf. pose proof (proj1 Hk) as Hl'.
  unfold obj_pat_property. go. unfold obj_pat_key. go.
  eapply ht_use; [apply (assign_in_does Hk); auto; apply close_ok; reflexivity|]. intros y Hy. go. unfold obj_pat_rest. go. unfold value_to_key. go.
  eapply pat_value_does; eauto. intros z Hz. go.
  eapply ht_use; [apply (@sepr_comma E Hsane RBrace); eauto|]. intros _ _. fin. cbn [bare_opat bare_key option_map]. rewrite Hz, (tr_bare Hy). reflexivity.
Qed.

(** ** Parameters *)
Lemma param_does l nt p i rest u F n n2 m : claimBI l nt (p, i) -> sepr RParen nt rest u -> mok F ->
  does (l ++ nt :: rest) F m (formal_param E n (run n2)) (fun x => bare_param x = pat_param p i) u m.
Proof.
  intros H Hs HF. pose proof (bi_simple H) as Hsp. cbn [fst] in Hsp. destruct (@bi_first _ _ _ H) as (t0 & l0 & Hl & [T1 T2 T3 T4 T5 T6]). destruct (@sepr_assign RParen nt rest u eq_refl Hs) as [S1 S2].
  unfold formal_param. rewrite Hl. cbn [app]. go. change (t0 :: l0 ++ nt :: rest) with ((t0 :: l0) ++ nt :: rest). rewrite <- Hl. clear Hl T1 T2 T3 T4 T5 T6.
  destruct H as [[Hi H]|(l1 & b & l2 & e & -> & Hi & H & He)]; cbn [fst snd] in *; subst i.
  - eapply ht_use; [apply (proj2 H); auto|]. intros y Hy. go.
    assert (Hz : simple_bind y) by exact (@bare_none y p Hy Hsp).
    destruct y; try destruct Hz; go; (eapply ht_use; [apply (@sepr_comma E Hsane RParen); eauto|]); intros _ _; fin; subst p; reflexivity.
  - norm. eapply ht_use; [apply (proj2 H); auto; split; reflexivity|]. intros y Hy. pose proof (proj1 He) as Hle. go.
    eapply ht_use; [apply (assign_in_does He); auto; eapply sepr_ok; eauto; reflexivity|]. intros z Hz. go.
    eapply ht_use; [apply (@sepr_comma E Hsane RParen); eauto|]. intros _ _. fin. cbn [bare_param pat_param]. rewrite (tr_bare Hz), Hy. reflexivity.
Qed.
Lemma r_params_nil nt : claimP [] nt [].
Proof. intros b ->. split; [split; reflexivity|]. intros F HF n n2 k rest m. norm. loop0 k. fin. reflexivity. Qed.
Lemma r_params_last l nt p i : claimBI l nt (p, i) -> claimP l nt [pat_param p i].
Proof.
  intros H b ->. destruct (@bi_first _ _ _ H) as (t0 & l0 & Hl & [T1 T2 T3 T4 T5 T6]). subst l. split; [exact T1|]. intros F HF n n2 k rest m. norm. loop0 k.
  eapply ht_use; [apply (@param_does _ _ _ _ _ _ F n n2 _ H); auto; apply sepr_last|]. intros y Hy. loop0 k. fin. cbn [map]. rewrite Hy. reflexivity.
Qed.
Lemma r_params_more b l l' nt p i ps : claimBI l (P b Comma) (p, i) -> claimP l' nt ps -> claimP (l ++ P b Comma :: l') nt (pat_param p i :: ps).
Proof.
  intros H H' b2 ->. destruct (@bi_first _ _ _ H) as (t0 & l0 & Hl & [T1 T2 T3 T4 T5 T6]). subst l. destruct (H' b2 eq_refl) as [Hs Hr]. split; [exact T1|]. intros F HF n n2 k rest m. norm. loop0 k.
  eapply ht_use; [apply (@param_does _ _ _ _ _ _ F n n2 _ H); auto; apply sepr_more, sf_next; auto|]. intros y Hy.
  eapply ht_use; [apply Hr; auto|]. intros ys Hys. go. fin. cbn [map]. congruence.
Qed.
Lemma r_params_rest b l nt p : claimBind l nt p -> claimP (P b Ellipsis :: l) nt [FP_Rest p].
Proof.
  intros H b2 ->. split; [split; reflexivity|]. intros F HF n n2 k rest m. pose proof (@bind_sf l (P b2 RParen :: rest) (proj1 (proj1 H))). norm. loop0 k. unfold formal_param. go.
  eapply ht_use; [apply (proj2 H); auto; split; reflexivity|]. intros y Hy. go. fin. cbn [map bare_param]. rewrite Hy. reflexivity.
Qed.
Lemma r_arrow_rest b l nt p : claimBind l nt p -> claimAP E M (P b Ellipsis :: l) nt [FP_Rest p].
Proof.
  intros H b2 ->. split; [split; reflexivity|]. intros F HF n n2 k rest m. pose proof (@bind_sf l (P b2 RParen :: rest) (proj1 (proj1 H))). norm. loop0 k. unfold seq_element at 1. go.
  eapply ht_use; [apply (proj2 H); auto; split; reflexivity|]. intros y Hy. go. fin. cbn [map fst]. intros F1 ts1 m1. cbn [seq_to_arrow_params].
  eapply ht_liftc; [reflexivity|]. unfold param_of_pattern. go. fin. cbn [map bare_param]. rewrite Hy. reflexivity.
Qed.
Lemma r_formals b b' l nt ps : claimP l (P b' RParen) ps -> claimT (P b LParen :: l ++ [P b' RParen]) nt ps.
Proof.
  intros H. split; [eauto|]. intros F HF Hn n n2 rest m. destruct (H b' eq_refl) as [Hs Hr]. unfold parse_formal_params. norm. go.
  eapply ht_use; [apply Hr; auto|]. intros xs Hxs. go. fin. auto.
Qed.

(** ** Object literals *)
Definition claimO l nt p := prop_start l /\ forall F, mok F -> forall n n2 rest u m, sepr RBrace nt rest u ->
  does (l ++ nt :: rest) F m (object_property E n (run n2)) (fun x => bare_prop x = p /\ good_prop x = true) u m.
Definition claimOs l nt ps := forall b, nt = P b RBrace -> no_slash (next l nt) /\ forall F, mok F -> forall n n2 k rest m,
  does (l ++ nt :: rest) F m (parse_until_punc k RBrace (object_property E n (run n2))) (fun x => map bare_prop x = ps /\ forallb good_prop x = true) (nt :: rest) m.
Lemma r_props_nil nt : claimOs [] nt [].
Proof. intros b ->. split; [split; reflexivity|]. intros F HF n n2 k rest m. norm. loop0 k. fin. split; reflexivity. Qed.
Lemma r_props_last l nt p : claimO l nt p -> claimOs l nt [p].
Proof.
  intros [Hl H] b ->. destruct l as [|t l]; [contradiction|]. destruct Hl as [Hs Hb]. split; [exact Hs|]. intros F HF n n2 k rest m.
  specialize (H F HF n n2). norm. loop0 k. eapply ht_use; [apply H; apply sepr_last|]. intros x [Hx Hg]. loop0 k. fin. split; [cbn [map]; rewrite Hx; reflexivity|cbn [forallb]; rewrite Hg; reflexivity].
Qed.
Lemma r_props_more b l l' nt p ps : claimO l (P b Comma) p -> claimOs l' nt ps -> claimOs (l ++ P b Comma :: l') nt (p :: ps).
Proof.
  intros [Hl H] H' b' ->. destruct l as [|t l]; [contradiction|]. destruct Hl as [Hs Hb]. destruct (H' b' eq_refl) as [Hs' Hr]. split; [exact Hs|]. intros F HF n n2 k rest m.
  specialize (H F HF n n2). norm. loop0 k. eapply ht_use; [apply H; apply sepr_more, sf_next; auto|]. intros x [Hx Hg].
  eapply ht_use; [apply Hr; auto|]. intros xs [Hxs Hxg]. go. fin. split; [cbn [map]; congruence|cbn [forallb]; rewrite Hg; exact Hxg].
Qed.
Lemma r_object F b b' l nt ps : mok F -> no_slash nt -> claimOs l (P b' RBrace) ps ->
  P_prim E F (P b LBrace :: l ++ [P b' RBrace]) nt (ObjectExpression ps ASimple nowhere).
Proof.
  intros HF Hn H n n2 rest m. destruct (H b' eq_refl) as [Hs Hr]. unfold parse_primary_expr. norm. go. unfold parse_object_lit_expr. go.
  eapply ht_use; [apply Hr; auto|]. intros xs [Hxs Hxg]. go. fin. apply tr_plain; [|exact Hxg]. cbn [bare_node]. rewrite Hxs. reflexivity.
Qed.
Lemma key_not x w : key_name x -> existsb (String.eqb w) ["get"; "set"; "async"]%string = true -> tok_id (ktok (KI x)) w = false.
Proof.
  intros H Hw. unfold tok_id, matches_str. cbn [ktok ttype tval ktype kval tt_eqb andb]. apply str_eqb_false. intros ->. apply H.
  apply existsb_exists in Hw as (v & Hv & Hx). apply String.eqb_eq in Hx. subst v. apply in_map; auto.
Qed.
Lemma name_start t x : name_tok t x -> no_slash t /\ tok_punc (kt t) RBrace = false.
Proof. intros [b y|b w Hw]; repeat split; reflexivity. Qed.
(** After the key of a property that has no modifier. *)
Definition after_key (n n2 : nat) (key : prop_key) (computed : bool) : PM obj_prop :=
  t <- getcur ;;
  property <-
    (if tok_punc t Colon then advance E GRegExp ;;; e <- assign_in (run n2) ;; sp <- end_span ;; ret (OE_Prop key computed (Some (PV_Expr e)) "init" false false sp)
     else if tok_punc t Assign then advance E GRegExp ;;; e <- assign_in (run n2) ;; sp <- end_span ;; ret (OE_Prop key computed (Some (PV_Expr e)) "init" false true sp)
     else if tok_punc t LParen then parse_method_definition E n (run n2) key "init" false false computed
     else sp <- end_span ;; ret (OE_Prop key computed None "init" false true sp)) ;;
  comma_unless E RBrace ;;;
  ret property.
Lemma prop_name t x u F n n2 m Q : name_tok t x -> (key_name x \/ exists p u0, u = P false p :: u0 /\ no_slash (P false p) /\ nobrace (KP p) = true) -> u <> [] -> is_regexp (hd t u) = false ->
  (forall sp, ht u F (S m) (after_key n n2 (PK_Id (mkId x sp)) false) Q) ->
  ht (t :: u) F m (object_property E n (run n2)) Q.
Proof.
  intros Ht Hk Hu Hrx H. unfold object_property.
  assert (N4 : tok_punc (kt t) Star = false) by (destruct Ht; reflexivity).
  assert (N5 : matches_punc (kt t) Ellipsis = false) by (destruct Ht; reflexivity).
  assert (N6 : tok_is (kt t) TIdentifier || tok_is (kt t) TKeyword = true) by (destruct Ht; reflexivity).
  assert (HK : ht (t :: u) F (S m) (bind (property_key E (run n2)) (fun kc => let '(key, computed) := kc in after_key n n2 key computed)) Q).
  { unfold property_key. go. eapply ht_use; [apply (@id_name E Hsane t x u); auto; discriminate|]. intros y <-. go. apply H. }
  go. unfold property_modifiers. go.
  assert (Hd : (tok_id (kt t) "get" = false /\ tok_id (kt t) "set" = false /\ tok_id (kt t) "async" = false) \/
    ((exists p u0, u = P false p :: u0 /\ no_slash (P false p) /\ nobrace (KP p) = true) /\ exists b, In t [Id b (s2l "get"); Id b (s2l "set"); Id b (s2l "async")])).
  { destruct Ht as [b y|b w Hw]; [|left; splits; reflexivity].
    assert (Hy : (exists w, In w ["get"; "set"; "async"]%string /\ y = s2l w) \/ key_name y).
    { unfold key_name. destruct (in_dec (list_eq_dec N.eq_dec) y (map s2l ["get"; "set"; "async"]%string)) as [Hi|Hi]; [|auto].
      left. apply in_map_iff in Hi as (w & Hw & Hi). exists w. auto. }
    destruct Hy as [(w & Hw & ->)|Hy]; [|left; splits; apply key_not; auto].
    right. split; [destruct Hk as [Hk|Hk]; auto; exfalso; apply Hk; apply in_map; auto|].
    exists b. cbn [In] in Hw. destruct Hw as [<-|[<-|[<-|[]]]]; cbn; auto. }
  destruct Hd as [(N1 & N2 & N3)|((p & u0 & -> & Hp & Hnb) & b & Hi)].
  - go. exact HK.
  - assert (Hm : forall f, ht (t :: P false p :: u0) F (S m) (bind (lookahead E) (fun nt => if tok_is nt TPunctuator then ret (More "init" false false) else f)) 
        (fun x s => x = More "init" false false /\ St E (t :: P false p :: u0) F (S m) s)).
    { intros f. eapply ht_look; [assumption|reflexivity|exact Hp|exact Hnb|]. intros t9 Kt9. go. apply does_ret; auto. }
    cbn [In] in Hi. destruct Hi as [<-|[<-|[<-|[]]]]; go; (eapply ht_use; [apply Hm|]; intros ? ->; exact HK).
Qed.
Lemma r_prop_init t x b l nt e : name_tok t x -> key_before x (P b Colon) -> claimA true l nt e ->
  claimO (t :: P b Colon :: l) nt (OE_Prop (key_tree x) false (Some (PV_Expr e)) "init" false false nowhere).
Proof.
  intros Ht Hk H. split; [eapply name_start; eauto|]. intros F HF n n2 rest u m Hs. norm. pose proof (proj1 H) as Hl.
  eapply prop_name; eauto; [destruct Hk as [Hk|[Hk _]]; [auto|right; cbn in Hk; subst b; eexists _, _; repeat split; reflexivity]|discriminate|]. intros sp. unfold after_key. go.
  eapply ht_use; [apply (assign_in_does H); auto; eapply sepr_ok; eauto; reflexivity|]. intros z Hz. go.
  eapply ht_use; [apply (@sepr_comma E Hsane RBrace); eauto|]. intros _ _. fin. split; [cbn; rewrite (tr_bare Hz); reflexivity|exact (proj2 Hz)].
Qed.
Lemma r_prop_short b x nt : ident x -> key_before x nt -> claimO [Id b x] nt (OE_Prop (key_tree x) false None "init" false true nowhere).
Proof.
  intros Hx Hk. split; [split; [split|]; reflexivity|]. intros F HF n n2 rest u m Hs. norm.
  eapply prop_name; eauto; [constructor| |discriminate| |].
  { destruct Hk as [Hk|[Hk Hk']]; [auto|right]. pose proof Hs as (b0 & [[-> _]|[-> _]]); cbn in Hk, Hk'; try discriminate; subst b0; eexists _, _; repeat split; reflexivity. }
  { pose proof Hs as (b0 & [[-> _]|[-> _]]); reflexivity. } intros sp. unfold after_key. pose proof Hs as (b0 & [[-> _]|[-> _]]); go.
  all: eapply ht_use; [apply (@sepr_comma E Hsane RBrace); eauto|]; intros _ _; fin; split; reflexivity.
Qed.
Lemma r_prop_str b w b' l nt e : claimA true l nt e ->
  claimO (T b (KStr w) :: P b' Colon :: l) nt (OE_Prop (PK_Lit (mkLit (VStr w) [] nowhere)) false (Some (PV_Expr e)) "init" false false nowhere).
Proof.
  intros H. split; [split; [split|]; reflexivity|]. intros F HF n n2 rest u m Hs. norm. pose proof (proj1 H) as Hl.
  unfold object_property. go. unfold property_modifiers. go. unfold property_key. go.
  eapply ht_use; [apply (assign_in_does H); auto; eapply sepr_ok; eauto; reflexivity|]. intros z Hz. go.
  eapply ht_use; [apply (@sepr_comma E Hsane RBrace); eauto|]. intros _ _. fin. krw. split; [cbn; rewrite (tr_bare Hz); reflexivity|exact (proj2 Hz)].
Qed.
Lemma r_prop_num b x b' l nt e : claimA true l nt e ->
  claimO (T b (KNum x) :: P b' Colon :: l) nt (OE_Prop (PK_Lit (mkLit (VNum x) [] nowhere)) false (Some (PV_Expr e)) "init" false false nowhere).
Proof.
  intros H. split; [split; [split|]; reflexivity|]. intros F HF n n2 rest u m Hs. norm. pose proof (proj1 H) as Hl.
  unfold object_property. go. unfold property_modifiers. go. unfold property_key. go.
  eapply ht_use; [apply (assign_in_does H); auto; eapply sepr_ok; eauto; reflexivity|]. intros z Hz. go.
  eapply ht_use; [apply (@sepr_comma E Hsane RBrace); eauto|]. intros _ _. fin. krw. split; [cbn; rewrite (tr_bare Hz); reflexivity|exact (proj2 Hz)].
Qed.
Lemma r_prop_computed b k b1 b2 l nt ke e : claimA true k (P b1 RBracket) ke -> claimA true l nt e ->
  claimO (P b LBracket :: k ++ P b1 RBracket :: P b2 Colon :: l) nt (OE_Prop (PK_Expr ke) true (Some (PV_Expr e)) "init" false false nowhere).
Proof.
  intros Hk H. split; [split; [split|]; reflexivity|]. intros F HF n n2 rest u m Hs. norm. pose proof (proj1 H) as Hl. pose proof (proj1 Hk) as Hl'.
  unfold object_property. go. unfold property_modifiers. go. unfold property_key. go. unfold parse_computed_property_name. go.
  eapply ht_use; [apply (assign_in_does Hk); auto; apply close_ok; reflexivity|]. intros y Hy. go.
  eapply ht_use; [apply (assign_in_does H); auto; eapply sepr_ok; eauto; reflexivity|]. intros z Hz. go.
  eapply ht_use; [apply (@sepr_comma E Hsane RBrace); eauto|]. intros _ _. fin. split; [cbn; rewrite (tr_bare Hz), (tr_bare Hy); reflexivity|exact (proj2 Hz)].
Qed.
Lemma r_prop_spread b l nt e : claimA true l nt e -> claimO (P b Ellipsis :: l) nt (OE_Spread e nowhere).
Proof.
  intros H. split; [split; [split|]; reflexivity|]. intros F HF n n2 rest u m Hs. norm. pose proof (proj1 H) as Hl.
  unfold object_property. go. eapply ht_use; [apply (assign_in_does H); auto; eapply sepr_ok; eauto; reflexivity|]. intros z Hz. go.
  eapply ht_use; [apply (@sepr_comma E Hsane RBrace); eauto|]. intros _ _. fin. split; [cbn; rewrite (tr_bare Hz); reflexivity|exact (proj2 Hz)].
Qed.
End Expr.

(** ** Functions *)
Section Fun.
Context (E : env) (M1 M2 : mode).
Hypothesis Hsane : ucd_sane E.
Notation ht := (ht E).
Notation does := (does E).
Notation run := (run E).
Lemma params_body F y a l l' nt ps body n n2 rest m : mok M1 (setp (ya y a) F) -> mok M2 (setp (ya y a) F) ->
  claimT E M1 l (next l' nt) ps -> claimF E M2 l' nt body -> no_slash nt ->
  does (l ++ l' ++ nt :: rest) F m (params_and_body E n (run n2) y a) (fun x => map bare_param (fst x) = ps /\ bare_node (snd x) = body) (nt :: rest) m.
Proof.
  intros HM1 HM2 [_ H] [(b & l0 & ->) H'] Hn. cbn [next hd] in H. unfold params_and_body. norm. go.
  eapply ht_use; [apply H; [apply HM1|split; reflexivity]|]. intros xs Hxs. go.
  eapply ht_use; [apply H'; auto; apply HM2|]. intros z Hz. go. fin. auto.
Qed.
Lemma r_function F b l l' nt ps body : mok M1 F -> mok M2 F -> no_slash nt -> claimT E M1 l (next l' nt) ps -> claimF E M2 l' nt body ->
  P_prim E F (W b "function" :: l ++ l') nt (FunctionExpression None ps body false false false ASimple nowhere).
Proof.
  intros HM1 HM2 Hn [(b1 & l1 & ->) H] [(b2 & l2 & ->) H'] n n2 rest m. cbn [next hd] in H. unfold parse_primary_expr. norm. go. unfold parse_function_expr. go.
  specialize (H F HM1 (conj eq_refl eq_refl) n n2). cbn [app] in H. specialize (H' F HM2 Hn n n2). cbn [app] in H'.
  eapply ht_use; [apply H|]. intros xs Hxs. eapply ht_use; [apply H'|]. intros z Hz. go. fin.
  apply tr_plain; [|reflexivity]. cbn [bare_node option_map]. krw. rewrite Hxs, Hz. reflexivity.
Qed.
Lemma r_function_named F b b' x l l' nt ps body : mok M1 F -> mok M2 F -> no_slash nt -> ident x -> claimT E M1 l (next l' nt) ps -> claimF E M2 l' nt body ->
  P_prim E F (W b "function" :: Id b' x :: l ++ l') nt (FunctionExpression (Some (id_tree x)) ps body false false false ASimple nowhere).
Proof.
  intros HM1 HM2 Hn Hx [(b1 & l1 & ->) H] [(b2 & l2 & ->) H'] n n2 rest m. cbn [next hd] in H. unfold parse_primary_expr. norm. go. unfold parse_function_expr. go.
  specialize (H F HM1 (conj eq_refl eq_refl) n n2). cbn [app] in H. specialize (H' F HM2 Hn n n2). cbn [app] in H'.
  eapply ht_use; [apply id_ref; auto; discriminate|]. intros y (a & sp & -> & _). go.
  eapply ht_use; [apply H|]. intros xs Hxs. eapply ht_use; [apply H'|]. intros z Hz. go. fin.
  apply tr_plain; [|reflexivity]. cbn [bare_node option_map]. krw. rewrite Hxs, Hz. reflexivity.
Qed.
End Fun.

Section Methods.
Context (E : env) (M M1 M2 : mode).
Hypothesis Hsane : ucd_sane E.
Notation ht := (ht E).
Notation does := (does E).
Notation run := (run E).
Lemma r_prop_method t x l l' nt ps body : name_tok t x -> key_before x (next l (next l' nt)) -> allows M M1 false false -> allows M M2 false false -> claimT E M1 l (next l' nt) ps -> claimF E M2 l' nt body ->
  claimO E M (t :: l ++ l') nt (OE_Prop (key_tree x) false (Some (PV_Fn (FnExpr None ps body false false false))) "init" true false nowhere).
Proof.
  intros Ht Hk A1 A2 H H'. split; [eapply name_start; eauto|]. intros F HF n n2 rest u m Hs. norm.
  eapply prop_name; eauto; [|destruct l; [destruct l'|]; discriminate| |].
  { destruct Hk as [Hk|[Hk _]]; [auto|right]. destruct H as [(b1 & l1 & ->) _]. cbn in Hk. subst b1. eexists _, _; repeat split; reflexivity. }
  { destruct H as [(b1 & l1 & ->) _]. reflexivity. } intros sp. unfold after_key.
  assert (Hn : no_slash nt) by (destruct Hs as (b0 & [[-> _]|[-> _]]); split; reflexivity).
  pose proof (fun n n2 rest m => @params_body E M1 M2 F false false l l' nt ps body n n2 rest m (allows_mok HF A1) (allows_mok HF A2) H H' Hn) as Hp.
  destruct H as [(b1 & l1 & ->) _]. cbn [app] in *. go. unfold parse_method_definition. cbn [String.eqb Ascii.eqb Bool.eqb]. go.
  eapply ht_use; [apply Hp|]. intros [xs z] [Hxs Hz]. cbn [fst snd] in Hxs, Hz. go.
  eapply ht_use; [apply (@sepr_comma E Hsane RBrace); eauto|]. intros _ _. fin. split; [cbn; rewrite Hxs, Hz; reflexivity|reflexivity].
Qed.
End Methods.
