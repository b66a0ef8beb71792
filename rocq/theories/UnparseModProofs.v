(** * UnparseModProofs: source text of modules from the JSON form (proofs). *)
From Verif Require Import Base Punct Token Ast Scanner ParserBase Parser Json.
From Verif Require Import SpecTree SpecLex SpecJson SpecBare SpecLayout SpecGrammar SpecPrint SpecPrintMod SpecUnparse SpecUnparseMod.
From Verif Require Import ParseProofs TreeProofs JsonProofs PrintProofs PrintModProofs UnparseProofs GramTac.
Open Scope list_scope.

Section Words.
Context (E : env).
Hypothesis Hsane : ucd_sane E.
Ltac conjs := repeat match goal with H : _ /\ _ |- _ => destruct H end.

(** ** The first word of an expression *)
Lemma declared_app l l' : l <> [] -> declared (l ++ l') = declared l.
Proof. destruct l; [congruence|reflexivity]. Qed.
Lemma declared_word w : w <> s2l "function" -> w <> s2l "class" -> forall l, declared (w :: l) = false.
Proof. intros H1 H2 l. unfold declared. apply Bool.orb_false_iff. split; apply str_eqb_false; auto. Qed.
Lemma ident_declared x l : ident x -> declared (x :: l) = false.
Proof.
  intros [H _]. apply declared_word; intros ->; apply H; [exists "function"%string|exists "class"%string]; (split; [vm_compute; tauto|reflexivity]).
Qed.
Lemma decimal_declared n l : declared (decimal n :: l) = false.
Proof.
  pose proof (uint_digits (N.to_uint n)) as H. fold (decimal n) in H.
  apply declared_word; intros G; rewrite G in H; inversion H as [|c v (d & Hd & K) _]; vm_compute in Hd; injection Hd as <-; vm_compute in K; discriminate.
Qed.
Definition begun (e : exp) : Prop := words (told_exp e) <> [] /\ (proper E e -> fun_first e = false -> declared (words (told_exp e)) = false).
Lemma begun_all e : begun e.
Proof.
  revert e. apply (@exp_rec' begun (fun _ => True) (fun _ => True)); unfold begun, fun_first; intros; auto; conjs; cbn [told_exp words begins proper];
    (split; [try discriminate; intros G; apply app_eq_nil in G as [G _]; auto|]); intros; conjs; rewrite ?declared_app by assumption; auto.
  all: try (match goal with H : _ || _ = false |- _ => apply Bool.orb_false_iff in H as [_ H]; auto; fail end).
  all: try reflexivity.
  - apply ident_declared. match goal with K : a_name E x |- _ => apply K end.
  - apply decimal_declared.
  - match goal with K : update_op p |- _ => destruct K as [-> | ->]; reflexivity end.
  - match goal with K : unary_op k |- _ => unfold unary_op in K; cbn in K; decompose [or] K; try contradiction; subst k; reflexivity end.
Qed.

(** ** Imports and exports *)
Lemma writable_star x : writable E x -> str_eqb x (s2l "*") = false.
Proof.
  intros [(c & v & -> & H & _) _]. apply str_eqb_false. intros G. assert (c = 42) by (vm_compute in G; congruence). subst c.
  destruct H as [H|[H|[H|H]]]; [discriminate|discriminate| |]; [|apply (@us_ascii E Hsane) in H; [|lia]];
    unfold ascii_letter in H; vm_compute in H; intuition (try discriminate; auto); match goal with K : _ = Gt -> False |- _ => apply K; reflexivity end.
Qed.
Definition group_ok (p : option str * str) : Prop := opt (a_prop E) (fst p) /\ a_name E (snd p).
Definition spec_words (p : option str * str) : list str := maybe (fun y => [y; s2l "as"]) (fst p) ++ [snd p].
Lemma full_star p : group_ok p -> starred (spec_words (full p)) = false.
Proof. destruct p as [[y|] x]; intros [H1 H2]; cbn in H1; apply writable_star; [apply H1|apply H2]. Qed.
Lemma spec_tree_words p : unparse (j_import (ImportSpec (name_id (snd p)) (name_id (match fst p with Some y => y | None => snd p end)))) = spec_words (full p).
Proof. destruct p as [[y|] x]; reflexivity. Qed.
Lemma imported_names xs : Forall group_ok xs -> imported (map spec_words (map full xs)) = listed "{" (map spec_words (map full xs)) "}".
Proof.
  intros H. destruct H as [|p xs Hp H]; [reflexivity|]. destruct H as [|q xs Hq H].
  - cbn [map]. unfold imported. rewrite full_star by assumption. reflexivity.
  - destruct H as [|r xs Hr H]; [|reflexivity]. cbn [map]. unfold imported. rewrite full_star by assumption. reflexivity.
Qed.
Lemma names_items xs : map (fun x => unparse (j_import x)) (gtree (GNames xs)) = map spec_words (map full xs).
Proof. cbn [gtree]. rewrite !map_map. apply map_ext. apply spec_tree_words. Qed.
Lemma source_words w : unparse (j_lit (from_tree w)) = [quoted 0x22 w]. Proof. reflexivity. Qed.
Lemma group_all g : gproper E g -> match g with GNames xs => Forall group_ok xs | _ => True end.
Proof. destruct g; auto. apply all_Forall. Qed.
Lemma items_import l w : unparse (j_node (ImportDeclaration l (from_tree w) nowhere)) =
  s2l "import" :: imported (map (fun x => unparse (j_import x)) l) ++ from_words w.
Proof. cbn [j_node]. rewrite unparse_tagged; cbn [map snd]. rewrite s_ImportDeclaration, items_jarr, text_view, source_words. reflexivity. Qed.
Lemma item_words m : mproper E m -> mfits m -> unparse (j_node (mtree E m)) = mwords (told_item m).
Proof.
  destruct (words_all E) as (He & Hf & Hs). intros H1 H2.
  destruct m; cbn [mproper mfits mtree told_item mwords] in *.
  - apply Hs.
  - rewrite items_import. change (map (fun x => unparse (j_import x)) [ImportSpec (name_id x) (name_id x)]) with (map spec_words (map full [(None, x)])).
    rewrite imported_names by (constructor; [split; cbn; auto|constructor]). reflexivity.
  - rewrite items_import. apply group_all in H1. destruct g as [x|xs]; [reflexivity|]. rewrite names_items, imported_names by exact H1. reflexivity.
  - destruct H1 as [H1 H3]. rewrite items_import. apply group_all in H3. destruct g as [y|xs]; [reflexivity|].
    change (map (fun x => unparse (j_import x)) (ImportSpec (name_id x) (name_id x) :: gtree (GNames xs))) with (map (fun x => unparse (j_import x)) (gtree (GNames ((None, x) :: xs)))).
    rewrite names_items, imported_names by (constructor; [split; cbn; auto|exact H3]). reflexivity.
  - reflexivity.
  - cbn [j_node]. rewrite unparse_tagged; cbn [map snd]. rewrite s_ExportNamedDeclaration. cbn [jopt]. rewrite text_view, Hs.
    destruct (node_object (stree E s)) as (ty & fs & ->). reflexivity.
  - cbn [j_node]. rewrite unparse_tagged; cbn [map snd]. rewrite s_ExportDefaultDeclaration, text_view, He.
    destruct (begun_all e) as [_ G]. rewrite G by tauto. reflexivity.
  - cbn [j_node]. rewrite unparse_tagged; cbn [map snd]. rewrite s_ExportDefaultDeclaration, text_view.
    rewrite unparse_tagged; cbn [map snd]. rewrite s_FunctionDeclaration, !text_view. specialize (Hf f). unfold fn_words in Hf. rewrite <- Hf.
    unfold SpecUnparse.listed. destruct x as [x|]; cbn [option_map jopt maybe]; [unfold name_tree; rewrite unparse_bid|cbn [unparse]];
      cbn [declared]; rewrite ?List.app_nil_r; repeat (cbn [app]; rewrite <- ?app_assoc); rewrite ?List.app_nil_r; reflexivity.
  - cbn [j_node]. rewrite unparse_tagged; cbn [map snd]. rewrite s_ExportDefaultDeclaration, text_view, (Hs (SClass x sup ms)).
    cbn [told swords declared]. rewrite ?List.app_nil_r. reflexivity.
Qed.
Lemma exports_words ex : concat (map (fun x => unparse (j_node x)) (xtree ex)) = xwords (told_exports ex).
Proof.
  destruct ex as [xs|]; [|reflexivity]. cbn [xtree map concat told_exports option_map xwords maybe]. rewrite List.app_nil_r.
  cbn [j_node]. rewrite unparse_tagged; cbn [map snd]. rewrite s_ExportNamedDeclaration. change (given (view (jopt j_node None))) with false. cbv iota.
  unfold SpecUnparse.listed. rewrite items_jarr, !map_map. reflexivity.
Qed.
Lemma module_unparsed ds ms ex t : all (mproper E) ms -> all mfits ms ->
  bare_node t = Program (module_tree E ds ms ex) "module" nowhere ->
  spaced (unparse (j_node t)) = print_module ds (map told_item ms) (told_exports ex).
Proof.
  intros H1 H2 H. rewrite unparse_bare, H. cbn [j_node]. rewrite unparse_tagged; cbn [map snd]. rewrite s_Program, items_jarr.
  unfold module_tree, print_module, module_words. rewrite !map_app, !concat_app, dirs_words, exports_words. f_equal. f_equal. f_equal.
  clear H t. induction ms as [|m ms IH]; [reflexivity|]. cbn [all fold_right map concat flat_map] in *. destruct H1, H2. rewrite item_words, IH by assumption. reflexivity.
Qed.
Lemma told_item_tree m : mtree E (told_item m) = mtree E m.
Proof.
  destruct (told_all E) as (He & Hf & Hs). destruct m as [s|x w|g w|x g w|w|s|e|x f|x sup ms]; cbn [told_item mtree]; rewrite ?He, ?Hs; auto.
  - destruct g as [x|xs]; [reflexivity|]. cbn [told_group gtree]. rewrite map_map. reflexivity.
  - destruct g as [y|xs]; [reflexivity|]. cbn [mtree gtree map]. rewrite map_map. reflexivity.
  - destruct (Hf f). congruence.
  - f_equal. exact (Hs (SClass x sup ms)).
Qed.
Lemma told_exports_tree ex : xtree (told_exports ex) = xtree ex.
Proof. destruct ex as [xs|]; [|reflexivity]. cbn [told_exports option_map xtree]. rewrite map_map. reflexivity. Qed.
End Words.
