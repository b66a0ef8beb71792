(** * PrintModProofs: printed modules are phrases of the grammar (proofs). *)
From Verif Require Import Base Punct Token Ast Scanner Parser.
From Verif Require Import SpecLex SpecJson SpecBare SpecLayout SpecGrammar SpecPrint SpecPrintMod GramLex GramTac GramTop GramMod ScanTokens2 PrintProofs.
Set Implicit Arguments.

Definition gtoks (g : group) : list tok :=
  match g with
  | GAll x => [P false Star; Id false (s2l "as"); Id false x]
  | GNames xs => braced (tcommas (map (fun p => tmaybe (fun y => [name_tk y; Id false (s2l "as")]) (fst p) ++ [Id false (snd p)]) xs))
  end.
Definition from_toks (w : str) : list tok := [Id false (s2l "from"); T false (KStr w); P false Semicolon].
Definition mtoks (m : item) : list tok :=
  match m with
  | MStm s => stoks s
  | MImport x w => W false "import" :: Id false x :: from_toks w
  | MImportGroup g w => W false "import" :: gtoks g ++ from_toks w
  | MImportBoth x g w => W false "import" :: Id false x :: P false Comma :: gtoks g ++ from_toks w
  | MExportAll w => W false "export" :: P false Star :: from_toks w
  | MExport s => W false "export" :: stoks s
  | MDefault e => W false "export" :: W false "default" :: toks e ++ [P false Semicolon]
  | MDefaultFun x f => W false "export" :: W false "default" :: W false "function" :: tmaybe (fun x => [Id false x]) x ++ ftoks f
  | MDefaultClass x sup ms => W false "export" :: W false "default" :: stoks (SClass x sup ms)
  end.
Definition xtoks (ex : exports) : list tok :=
  tmaybe (fun xs => W false "export" :: braced (tcommas (map (fun p => name_tk (fst p) :: tmaybe (fun y => [Id false (s2l "as"); name_tk y]) (snd p)) xs))) ex.

Section Print.
Context (E : env).
Hypothesis Hsane : ucd_sane E.
Hypothesis Hspace : ucd_continue E 32 = false.
Ltac conjs := repeat match goal with H : _ /\ _ |- _ => destruct H end.
Ltac ns := first [apply sep_slash; discriminate].
Ltac sp1 := first [apply sp_num|apply sp_str|apply sp_kind|apply sp_name; assumption|apply sp_prop; assumption
  | apply sp_kw; [assumption|reflexivity] | apply sp_kw; reflexivity | apply sp_word; [assumption|discriminate|reflexivity|reflexivity] | apply sp_word; [discriminate|reflexivity|reflexivity] | apply sp_p; unfold never_scanned; intuition discriminate].

(** ** Words and tokens *)
Ltac spx := repeat (first [apply sps_app | apply sps_cons; [try sp1|] | apply Forall2_nil | apply sps_dirs | apply sps_names; assumption]).
Lemma sps_group g : gproper E g -> sps E (gwords g) (gtoks g).
Proof.
  destruct g as [x|xs]; cbn [gproper gwords gtoks]; intros H; unfold braced; spx.
  apply sps_commas. apply all_Forall in H. eapply Forall_impl; [|exact H]. cbn beta. intros [[y|] x] [G1 G2]; cbn [fst snd opt maybe tmaybe app] in *; spx.
Qed.
Lemma sps_from w : sps E (from_words w) (from_toks w).
Proof. unfold from_words, from_toks. spx. Qed.
Lemma sps_item m : mproper E m -> sps E (mwords m) (mtoks m).
Proof.
  destruct (@sps_all E Hspace) as (He & Hf & Hs).
  destruct m; cbn [mproper mwords mtoks]; intros H.
  8: { conjs. spx; auto. apply sps_maybe. destruct x; cbn [opt] in *; auto. spx. }
  8: { apply sps_cons; [sp1|]. apply sps_cons; [sp1|]. exact (Hs _ _ H). }
  all: conjs; spx; eauto using sps_group, sps_from.
Qed.
Lemma sps_exports ex : xproper E ex -> sps E (xwords ex) (xtoks ex).
Proof.
  destruct ex as [xs|]; cbn [xproper opt xwords maybe xtoks tmaybe]; intros H; unfold braced; spx.
  apply sps_commas. apply all_Forall in H. eapply Forall_impl; [|exact H]. cbn beta. intros [y [x|]] [G1 G2]; cbn [fst snd opt maybe tmaybe app] in *; spx.
Qed.

(** ** Phrases *)
Definition head_ok (e : exp) : Prop := forall nt, proper E e ->
  fun_first e = false -> is_w (next (toks e) nt) "class" = false /\ is_w (next (toks e) nt) "function" = false.
Lemma head_tok e : head_ok e.
Proof.
  revert e.
  apply (@exp_rec' head_ok (fun _ => True) (fun _ => True)); unfold head_ok, fun_first; intros; cbn [proper] in *; auto; conjs;
    cbn [toks begins]; try (rewrite next_app by apply toks_some); cbn [orb];
    try (match goal with IH : forall nt, proper E ?e -> _ |- context [next (toks ?e) ?nt] => apply (IH nt); assumption end);
    cbn [next hd]; try (split; reflexivity).
  - match goal with H : unary_op _ |- _ => unfold unary_op in H; cbn in H; decompose [or] H; try contradiction; subst k; split; reflexivity end.
Qed.
Lemma listed_phr A B (one : list tok -> B -> Prop) (f : A -> list tok) (g : A -> B) (xs : list A) : Forall (fun x => one (f x) (g x)) xs ->
  listed one (tcommas (map f xs)) (map g xs).
Proof.
  induction 1 as [|x xs H Hl IH]; [apply ls_nil|]. destruct xs as [|y xs]; cbn [map tcommas] in *; [apply ls_last; auto|].
  apply ls_more; auto.
Qed.
Lemma group_phr g : gproper E g -> import_group (gtoks g) (gtree g).
Proof.
  destruct g as [x|xs]; cbn [gproper gtoks gtree]; intros H.
  - apply ig_all. apply H.
  - apply ig_names. apply listed_phr. apply all_Forall in H. eapply Forall_impl; [|exact H]. cbn. intros [[y|] x] [G1 G2]; cbn in *.
    + apply in_as; [apply name_tk_ok|apply G2].
    + apply in_same. apply G2.
Qed.
Definition item_next (nt : tok) : Prop := is_w nt "else" = false /\ is_w nt "finally" = false.
Lemma stm_item c s nt M : quiet M -> sproper E c s -> sfits s -> item_next nt -> gr E M (Item c) (stoks s) nt (stree E s).
Proof. intros Hq H1 H2 [H3 H4]. apply (proj2 (proj2 (@phrases E Hspace))); auto. split; auto. Qed.
Lemma item_phr M m nt : quiet M -> mproper E m -> mfits m -> item_next nt -> module_item E M (mtoks m) nt (mtree E m).
Proof.
  destruct (@phrases E Hspace) as (He & Hf & Hs). intros Hq H1 H2 Hn.
  destruct m; cbn [mproper mfits mtoks mtree] in *.
  - apply mi_item. apply stm_item; auto.
  - apply (@mi_import E M false [Id false x]); [apply ic_default, H1|constructor].
  - apply mi_import; [apply ic_group, group_phr, H1|constructor].
  - apply (@mi_import E M false (Id false x :: P false Comma :: gtoks g)); [|constructor]. destruct H1 as [H1 H1']. apply ic_both; [apply H1|apply group_phr, H1'].
  - apply mi_export_all. constructor.
  - destruct H1 as [H1 H3]. assert (K : exists w l, stoks s = W false w :: l /\ In w ["var"; "const"; "function"; "class"]%string).
    { destruct s; try contradiction; [destruct k; try contradiction|..]; cbn [stoks kind_tok]; do 2 eexists; (split; [reflexivity|cbn; tauto]). }
    destruct K as (w & l & K1 & K2). rewrite K1. apply mi_export_decl; auto. rewrite <- K1. apply stm_item; auto.
  - destruct H2 as [H2 H3]. assert (Ha : next (toks e) nt = next (toks e) (P false Semicolon)) by (pose proof (toks_some e); destruct (toks e); [congruence|reflexivity]).
    destruct (@head_tok e (P false Semicolon) H1 H3) as [G1 G2]. destruct (@first_tok E e (P false Semicolon) H1) as (_ & _ & G3).
    apply mi_default_expr; rewrite ?Ha; auto.
    + intros b2 l0 Hl. rewrite Hl in G3. apply G3. reflexivity.
    + apply to_assign; auto; [discriminate|reflexivity|ns].
    + constructor.
  - destruct H1 as [H1 H3]. rewrite ftoks_split.
    apply (@mi_default_function E M false false false [] false (tmaybe (fun x => [Id false x]) x) (option_map name_tree x)).
    + constructor.
    + destruct x; cbn; constructor. apply H1.
    + apply formals_phr; auto.
    + apply Hf; auto. reflexivity.
  - cbn [sproper sfits stoks stree] in *. conjs.
    apply mi_default_class; [match goal with K : a_name E x |- _ => apply K end|]. destruct sup as [e|]; cbn [tmaybe option_map opt app] in *; conjs.
    + apply g_class_extends; [apply to_left; auto; reflexivity|]. apply methods_phr; auto. apply Forall_forall. auto.
    + apply g_class_tail. apply methods_phr; auto. apply Forall_forall. auto.
Qed.
Lemma item_first m t : mproper E m -> mfits m -> item_next (next (mtoks m) t) /\ (forall b w, next (mtoks m) t <> T b (KStr w)) /\ mtoks m <> [].
Proof.
  intros H1 H2. destruct m; cbn [mproper mfits mtoks] in *; try (split; [split; reflexivity|split; discriminate]).
  destruct (@stm_first E _ s t H1 H2) as (G1 & G2 & G3 & G4). split; [split|]; auto.
Qed.
Lemma items_next ms t : all (mproper E) ms -> all mfits ms -> item_next t -> (forall b w, t <> T b (KStr w)) ->
  item_next (next (flat_map mtoks ms) t) /\ forall b w, next (flat_map mtoks ms) t <> T b (KStr w).
Proof.
  destruct ms as [|m ms]; cbn [all fold_right flat_map]; [auto|]. intros [H1 _] [H2 _] _ _.
  destruct (@item_first m t H1 H2) as (G1 & G3 & G4). rewrite next_app by auto. auto.
Qed.
Lemma exports_phr M ex : xproper E ex -> module_items E M (T false KEof) (xtoks ex) (xtree ex).
Proof.
  destruct ex as [xs|]; cbn [xproper opt xtoks tmaybe xtree]; intros H; [|apply ms_nil].
  match goal with |- module_items _ _ _ ?l _ => rewrite <- (List.app_nil_r l) end. apply ms_cons; [|apply ms_nil].
  apply mi_export_names; auto. apply listed_phr. apply all_Forall in H. eapply Forall_impl; [|exact H]. cbn. intros [y [x|]] [G1 G2]; cbn in *.
  - apply en_as; apply name_tk_ok.
  - apply en_same. apply name_tk_ok.
Qed.
Lemma exports_next ex : item_next (next (xtoks ex) (T false KEof)) /\ forall b w, next (xtoks ex) (T false KEof) <> T b (KStr w).
Proof. destruct ex; cbn; (split; [split; reflexivity|discriminate]). Qed.
Lemma next_both l l' t : next (l ++ l') t = next l (next l' t).
Proof. destruct l; reflexivity. Qed.
Lemma items_phr M ms ex : quiet M -> all (mproper E) ms -> all mfits ms -> xproper E ex ->
  module_items E M (T false KEof) (flat_map mtoks ms ++ xtoks ex) (map (mtree E) ms ++ xtree ex).
Proof.
  intros Hq H1 H2 H3. induction ms as [|m ms IH]; cbn [all fold_right flat_map map app] in *; [apply exports_phr; auto|].
  destruct H1 as [H1 H1'], H2 as [H2 H2']. rewrite <- app_assoc. apply ms_cons; auto. apply item_phr; auto.
  rewrite next_both. destruct (exports_next ex). apply items_next; auto.
Qed.
Lemma module_phr ds ms ex : all (mproper E) ms -> all mfits ms -> xproper E ex ->
  program E true ((dtoks ds ++ flat_map mtoks ms ++ xtoks ex) ++ [T false KEof]) (module_tree E ds ms ex).
Proof.
  intros H1 H2 H3. constructor. unfold module_tree.
  assert (K : forall M, quiet M -> module_body E M (T false KEof) (flat_map mtoks ms ++ xtoks ex) (map (mtree E) ms ++ xtree ex)).
  { intros M HM. apply mb_items; [|apply items_phr; auto]. rewrite next_both. destruct (exports_next ex). apply items_next; auto. }
  assert (Q : quiet (top_mode true)) by reflexivity. revert Q. generalize (top_mode true). induction ds as [|w ds IH]; intros M HM; [apply K; auto|].
  change (module_body E M (T false KEof) (T false (KStr w) :: [P false Semicolon] ++ dtoks ds ++ flat_map mtoks ms ++ xtoks ex) (ExpressionStatement (lit_tree E (VStr w)) nowhere :: map (directive E) ds ++ map (mtree E) ms ++ xtree ex)).
  apply mb_directive; [constructor|]. apply IH. unfold quiet, directive_mode. destruct (str_eqb _ _); auto.
Qed.
Lemma module_sps ds ms ex : all (mproper E) ms -> xproper E ex -> sps E (module_words ds ms ex) (dtoks ds ++ flat_map mtoks ms ++ xtoks ex).
Proof.
  intros H H'. apply sps_app; [apply sps_dirs|]. apply sps_app; [|apply sps_exports; auto]. apply sps_flat. apply all_Forall in H. eapply Forall_impl; [|exact H]. apply sps_item.
Qed.
Lemma words_some m : mproper E m -> mfits m -> mwords m <> [].
Proof. intros H1 H2 G. pose proof (sps_item m H1) as K. rewrite G in K. destruct (@item_first m (T false KEof) H1 H2) as (_ & _ & K2). inversion K. congruence. Qed.
Lemma module_some ds ms ex : all (mproper E) ms -> all mfits ms -> ds <> [] \/ ms <> [] \/ ex <> None -> module_words ds ms ex <> [].
Proof.
  intros H1 H2 Hn G. apply app_eq_nil in G as [G1 G]. apply app_eq_nil in G as [G2 G3].
  destruct ds as [|d ds]; [|discriminate]. destruct ex as [xs|]; [discriminate|]. destruct ms as [|m ms]; [intuition congruence|].
  cbn [flat_map all fold_right] in *. apply app_eq_nil in G2 as [G2 _]. destruct H1, H2. eapply words_some; eauto.
Qed.
Theorem module_round_trip ds ms ex : all (mproper E) ms -> all mfits ms -> xproper E ex -> ds <> [] \/ ms <> [] \/ ex <> None ->
  exists t, parse_module E (print_module ds ms ex) = Ok t /\ bare_node t = Program (module_tree E ds ms ex) "module" nowhere.
Proof.
  intros H1 H2 H3 H4. assert (H5 := @module_some ds ms ex H1 H2 H4).
  eapply module_parses; [auto|apply sps_source; [exact H5|apply module_sps; auto]|apply module_phr; auto|]. intros _. apply spaced_some; auto.
Qed.

(** ** Adding parentheses *)
Lemma item_ok m : mproper E m -> mproper E (mparens m) /\ mfits (mparens m).
Proof.
  destruct m; cbn [mproper mparens mfits]; auto.
  - apply (@parens_all E Hspace).
  - intros [H1 H2]. destruct (proj2 (proj2 (@parens_all E Hspace)) s _ H1) as [G1 G2]. split; auto. split; auto. destruct s; try contradiction; auto.
  - intros H. destruct (@parens_ok E Hspace e H) as [G1 G2]. unfold default_exp. destruct (fun_first _) eqn:G; auto. 
  - intros [H1 H2]. destruct (proj1 (proj2 (@parens_all E Hspace)) f H2). auto.
  - intros H. apply (proj2 (proj2 (@parens_all E Hspace)) (SClass x sup ms) top_place H).
Qed.
Lemma items_ok ms : all (mproper E) ms -> all (mproper E) (map mparens ms) /\ all mfits (map mparens ms).
Proof. intros H. eapply all_maps with (Q := fun _ => True); [|apply Forall_forall; auto|exact H]. intros x _. apply item_ok. Qed.
End Print.
Lemma item_fits m : mfits m -> mparens m = m.
Proof.
  destruct fits_all as (He & Hf & Hs). destruct m; cbn [mfits mparens]; intros H; auto; try (f_equal; auto; fail).
  - destruct H as [H1 H2]. rewrite He by auto. unfold default_exp. rewrite H2. auto.
  - specialize (Hs (SClass x sup ms) H). cbn [sparens] in Hs. injection Hs as H1 H2. rewrite H1, H2. auto.
Qed.
Lemma item_bare m : bare_item (mparens m) = bare_item m.
Proof.
  destruct bare_all as (He & Hf & Hs). destruct m; cbn [mparens bare_item]; try congruence.
  - f_equal. unfold default_exp. destruct (fun_first _); cbn [bare_exp]; auto.
  - specialize (Hs (SClass x sup ms)). cbn [sparens bare_stm] in Hs. injection Hs as H1 H2. rewrite H1, H2. auto.
Qed.
Theorem unambiguous_module E ds ms ex ds' ms' ex' : ucd_sane E -> ucd_continue E 32 = false ->
  all (mproper E) ms -> all mfits ms -> xproper E ex -> all (mproper E) ms' -> all mfits ms' -> xproper E ex' ->
  print_module ds ms ex = print_module ds' ms' ex' -> module_tree E ds ms ex = module_tree E ds' ms' ex'.
Proof.
  intros H1 H2 H3 H4 H5 H6 H7 H8 H.
  assert (D : forall (l : list str) (m : list item) (x : exports), (l <> [] \/ m <> [] \/ x <> None) \/ (l = [] /\ m = [] /\ x = None)).
  { intros [|] [|] [|]; auto; left; try (left; discriminate); right; try (left; discriminate); right; discriminate. }
  destruct (D ds ms ex) as [G|(-> & -> & ->)], (D ds' ms' ex') as [G'|(-> & -> & ->)]; auto.
  - destruct (@module_round_trip E H1 H2 ds ms ex H3 H4 H5 G) as (t & T1 & T2). destruct (@module_round_trip E H1 H2 ds' ms' ex' H6 H7 H8 G') as (t' & T3 & T4).
    rewrite H in T1. rewrite T1 in T3. injection T3 as ->. rewrite T2 in T4. injection T4. auto.
  - exfalso. eapply spaced_some; [eapply module_some; [exact H2|exact H3|exact H4|exact G]|exact H].
  - exfalso. eapply spaced_some; [eapply module_some; [exact H2|exact H6|exact H7|exact G']|symmetry; exact H].
Qed.
