(** * ValidTop: validity pass over Parser.v and the entry points (proofs). *)
From Verif Require Import Base Codepoint Punct Token Scanner Ast Convert ParserBase ParserExpr ParserStmt Parser.
From Verif Require Import SpecLex SpecScan SpecTree Hoare LexFacts ParserInv TermTop Valid ValidConv ValidBase ValidExpr ValidStmt.
From Coq Require Import ZifyBool ZifyN ZifyNat.
Set Implicit Arguments.

Section Pass.
Context (E : env) (L LB : N) (n : nat) (h : handler).
Notation vs := (vs L LB).
Notation gd := (gd L LB).
Notation ER := (ER L LB).
Notation er := (er L LB).
Notation At := (At L LB).
Notation XV := (XV LB).
Notation span_ok := (span_ok L LB).
Hypothesis HV : hV L LB h.
#[local] Hint Resolve hV_bindpat hV_lhs hV_new hV_unary hV_exp hV_assign hV_expression hV_statement hV_item HV : vs.

Definition weaker (p q : params) : Prop :=
  (has_return q = true -> has_return p = true) /\ (has_yield q = true -> has_yield p = true) /\ (has_await q = true -> has_await p = true).
Lemma gd_weaker k p q a : weaker p q -> gd k q a -> gd k p a.
Proof. intros (H1 & H2 & H3) H c [A B C D F G I J]. apply H. constructor; auto. Qed.
Lemma weaker_ya p : weaker p (ya false false p).
Proof. split; [auto|split; discriminate]. Qed.
Lemma weaker_module p : weaker p (module_params p).
Proof. split; [|split]; discriminate. Qed.

Ltac fall := cbn; repeat first [apply Forall_nil|apply Forall_cons]; try assumption.
Lemma import_binding_v k p : vs k p (import_binding E) (fun _ i _ => span_ok (id_span i)).
Proof.
  intros s st t HA. unfold import_binding. do 2 vstep. destruct a; try discriminate. unfold wp, lift_c. cbn. eexists. split; [eassumption|].
  match goal with H : gd _ _ (T_Bind _) |- _ => exact (@valid_span _ _ sp (H _ (some_ctx_ok L LB k (ya false false p))) (or_introl eq_refl)) end.
Qed.
#[local] Hint Resolve import_binding_v : vs.
Definition import_ok (i : import_spec) : Prop := Forall span_ok (import_spans i).
Lemma namespace_import_v k p : vs k p (namespace_import_specifiers E) (fun _ l _ => Forall import_ok l).
Proof. vgo namespace_import_specifiers. fall. Qed.
Lemma named_import_v k p : vs k p (named_import_specifier E) (fun _ i _ => import_ok i).
Proof. vgo named_import_specifier; unfold import_ok; fall. Qed.
Lemma named_imports_v k p : vs k p (named_import_specifiers E n) (fun _ l _ => Forall import_ok l).
Proof.
  pose proof (@vs_until L LB _ _ _ _ _ import_ok (@named_import_v k p) ltac:(cbv beta; intros; assumption) n RBrace) as Hl.
  vgo named_import_specifiers. assumption.
Qed.
Definition source_ok (l : literal) : Prop := span_ok (lit_span l) /\ not_punct (lit_value l).
Lemma module_specifier_v k p : vs k p (parse_module_specifier E) (fun _ l _ => source_ok l).
Proof.
  vgo parse_module_specifier. split; [assumption|]. cbn. eapply not_punct_tok; [eassumption|].
  unfold tok_is in *. destruct (ttype t); try discriminate; reflexivity.
Qed.
#[local] Hint Resolve namespace_import_v named_imports_v module_specifier_v : vs.

(** Only meaningful at the top level of a module. *)
Definition gdt (k : pctx) (p : params) (a : node) : Prop := forall c, at_ctx L LB c k p -> v_top c = true -> valid c (T_Node a).
Lemma gdt_gd k p a : gd k p (T_Node a) -> gdt k p a.
Proof. intros H c Hc _. auto. Qed.
Lemma imports_spans l : Forall import_ok l -> Forall span_ok (flat_map import_spans l).
Proof. induction 1; cbn; [constructor|]. apply Forall_app. auto. Qed.
Lemma spans_at c k p l : at_ctx L LB c k p -> Forall span_ok l -> Forall (span_within (v_len c) (v_lines c)) l.
Proof. intros Hc H. eapply Forall_impl; [|exact H]. intros. eapply at_span; eauto. Qed.
Definition item_ok (k : pctx) (p : params) (a : node) : Prop := gdt k p a /\ is_module_item a = true.
Lemma import_from_v l k p : Forall import_ok l -> vs k p (parse_import_from_dclr E l) (fun _ a _ => item_ok k p a).
Proof.
  intros Hl. vgo parse_import_from_dclr. match goal with H : source_ok _ |- _ => destruct H end. split; [|reflexivity]. intros c Hc Ht.
  apply valid_mk; [split|apply FC_nil].
  - eapply spans_at; [eassumption|]. cbn. apply Forall_app. split; [apply imports_spans; auto|]. fall.
  - cbn. auto.
Qed.
Lemma import_spec_ok i : span_ok (id_span i) -> import_ok (ImportSpec i i).
Proof. intros H. unfold import_ok. cbn. fall. Qed.
#[local] Hint Resolve import_spec_ok : vs.
#[local] Hint Extern 1 (Forall _ (_ :: _)) => constructor : vs.
#[local] Hint Extern 1 (Forall _ []) => constructor : vs.
#[local] Hint Resolve import_from_v : vs.
Lemma import_v k p : vs k p (parse_import_dclr E n) (fun _ a _ => item_ok k p a).
Proof. vgo parse_import_dclr; assumption. Qed.
#[local] Hint Resolve import_v : vs.
Definition export_ok (x : export_spec) : Prop := span_ok (id_span (ex_exported x)) /\ span_ok (id_span (ex_local x)).
Lemma named_export_v k p : vs k p (named_export_specifier E) (fun _ x _ => export_ok x).
Proof. vgo named_export_specifier; split; assumption. Qed.
Lemma named_exports_v k p : vs k p (named_export_specifiers E n) (fun _ l _ => Forall export_ok l).
Proof.
  pose proof (@vs_until L LB _ _ _ _ _ export_ok (@named_export_v k p) ltac:(cbv beta; intros; assumption) n RBrace) as Hl.
  vgo named_export_specifiers. assumption.
Qed.
#[local] Hint Resolve named_exports_v : vs.
Lemma exports_spans l : Forall export_ok l -> Forall span_ok (flat_map (fun s => [id_span (ex_exported s); id_span (ex_local s)]) l).
Proof. induction 1 as [|x l [? ?] Hl IH]; cbn; [constructor|]. auto. Qed.
Definition default_ok (k : pctx) (p : params) (d : node) : Prop := gd k p (T_Node d) /\ (is_expr d = true \/ is_function_declaration d = true).
Lemma default_function_v k p : vs k p (with_prm (fun p => set_default true (ya false false p)) (parse_hoistable_dclr E n h)) (fun _ a _ => default_ok k p a).
Proof. apply vs_with_prm. eapply vs_weaken; [apply hoistable_v; exact HV|]. cbv beta. intros ? ? ? (H1 & H2 & _). split; [|auto]. eapply gd_weaker; [|exact H1]. split; [auto|split; discriminate]. Qed.
Lemma default_class_v k p : vs k p (with_prm (fun p => set_default true (ya false false p)) (parse_class_dclr E n h)) (fun _ a _ => default_ok k p a).
Proof. apply vs_with_prm. eapply vs_weaken; [apply class_dclr_v; exact HV|]. cbv beta. intros ? ? ? [H1 H2]. apply andb_prop in H2. split; [|left; tauto]. eapply gd_weaker; [|exact H1]. split; [auto|split; discriminate]. Qed.
Lemma default_expr_v k p : vs k p (with_prm (fun p => set_in true (ya false false p)) (parse_assignment_expr E n h)) (fun _ a _ => default_ok k p a).
Proof. apply vs_with_prm. eapply vs_weaken; [apply assignment_v; exact HV|]. cbv beta. intros ? ? ? [H1 H2 H3 H4]. split; [|auto]. eapply gd_weaker; [|exact H1]. split; [auto|split; discriminate]. Qed.
#[local] Hint Resolve default_function_v default_class_v default_expr_v : vs.
Lemma export_default_v k p : vs k p (export_default E n h) (fun _ a _ => item_ok k p a).
Proof.
  vgo export_default.
  all: match goal with H : default_ok _ _ _ |- _ => destruct H end.
  all: split; [|reflexivity]; intros c Hc Ht; apply valid_mk; [split; [spans|cbn; auto]|fc].
Qed.
Lemma export_var_v k p : vs k p (with_prm (ya false false) (parse_variable_stmt E n h true)) (fun _ a _ => decl_post L LB k p a).
Proof. apply vs_with_prm. eapply vs_weaken; [apply variable_stmt_v; exact HV|]. cbv beta. intros ? ? ? (H1 & H2 & H3). split; [|auto]. eapply gd_weaker; [|exact H1]. apply weaker_ya. Qed.
Lemma export_decl_v k p : vs k p (with_prm (ya false false) (parse_declaration E n h)) (fun _ a _ => decl_post L LB k p a).
Proof. apply vs_with_prm. eapply vs_weaken; [apply declaration_v; exact HV|]. cbv beta. intros ? ? ? [H1 H3]. split; [|auto]. eapply gd_weaker; [|exact H1]. apply weaker_ya. Qed.
#[local] Hint Resolve export_default_v export_var_v export_decl_v : vs.
Lemma export_v k p : vs k p (parse_export_dclr E n h) (fun _ a _ => item_ok k p a).
Proof.
  vgo parse_export_dclr; try assumption.
  all: repeat match goal with H : decl_post _ _ _ _ _ |- _ => destruct H | H : source_ok _ |- _ => destruct H end.
  all: split; [|reflexivity]; intros c Hc Ht; apply valid_mk; [split|fc].
  all: try (cbn [local_other local_node all_opt]; split; [assumption|]; auto; fail).
  all: try (cbn; split; [assumption|]; split; [auto|]; split; [auto|]; auto; fail).
  all: try (cbn; split; [assumption|]; split; [auto|]; split; [congruence|]; auto; fail).
  all: try (eapply spans_at; [eassumption|]; cbn [own_spans opt_span flat_map app]; repeat first [apply Forall_nil|apply Forall_cons; [assumption|]]; try (apply Forall_app; split; [apply exports_spans; assumption|fall]); fail).
Qed.
#[local] Hint Resolve export_v : vs.
Lemma module_stmt_v k p : vs k p (with_prm module_params (parse_stmt_list_item E n h)) (fun t a t' => item_post L LB k p t a t').
Proof. apply vs_with_prm. eapply vs_weaken; [apply stmt_list_item_v; exact HV|]. intros ? ? ? (H1 & H2 & H3). split; [|auto]. eapply gd_weaker; [|exact H1]. apply weaker_module. Qed.
#[local] Hint Resolve module_stmt_v : vs.
Definition mitem_post (k : pctx) (p : params) (t : token) (a : node) : Prop :=
  item_ok k p a /\ match a with ExpressionStatement e _ => litfirst t e | _ => True end.
Lemma module_item_v k p : vs k p (parse_module_item E n h) (fun t a _ => item_ok k p a).
Proof.
  vgo parse_module_item; try assumption.
  match goal with H : ValidExpr.item_post _ _ _ _ _ _ _ |- _ => destruct H as (H1 & H2 & H3) end. split; [apply gdt_gd; assumption|]. unfold is_module_item. rewrite H2. reflexivity.
Qed.
#[local] Hint Resolve module_item_v : vs.

Definition root (c : vctx) : Prop := v_root c = true /\ v_len c = L /\ v_lines c = LB /\ v_strict c = false /\
  v_iter c = false /\ v_switch c = false /\ v_ret c = false /\ v_yield c = false /\ v_await c = false.
Definition k0 : pctx := mkCtx false false false false.
Definition p0 : params := mkParams false false false false false.
Lemma root_child c l ty sp k p : root c -> in_iteration k = false -> in_switch k = false -> has_return p = false -> has_yield p = false -> has_await p = false ->
  at_ctx L LB (unstrict (down c (T_Node (Program l ty sp)) Other)) k p.
Proof. intros (R1 & R2 & R3 & R4 & R5 & R6 & R7 & R8 & R9) H1 H2 H3 H4 H5. constructor; cbn; auto; congruence. Qed.

Lemma script_v s st t : At s k0 p0 st t -> wp XV (script E n h) (fun a _ => forall c, root c -> valid c (T_Node a)) s.
Proof.
  intros HA. unfold script. do 2 vstep. vstep. eapply wp_conseq; [eapply directives_v; eassumption|].
  cbv beta. intros ds s1 (k' & t' & A1 & A2 & A3 & A4 & A5 & A6 & A7).
  pose proof (@vs_until_eof L LB _ _ _ _ _ (fun x => gd k' p0 (T_Node x) /\ is_item x = true) (@stmt_list_item_v E L LB n h HV k' p0) ltac:(unfold item_post; tauto) n) as Hl.
  vstep. vuse ltac:(eapply use_vs; [eassumption|exact Hl]).
  match goal with H : Forall _ ?l, H' : match ?l with _ => _ end |- _ => rename H into HF, H' into Hfirst, l into body end.
  do 3 vstep. intros c Hc. apply valid_mk.
  - split.
    + spans. destruct Hc as (_ & -> & -> & _). assumption.
    + cbn. split; [apply Hc|]. left. split; [reflexivity|]. apply Forall_app. split; [assumption|]. eapply Forall_impl; [|exact HF]. cbv beta; intros ? [? ?]; assumption.
  - assert (Hu : use_strict body = false).
    { destruct body as [|y l]; [reflexivity|]. destruct Hfirst as [t2 Hf]. eapply no_prologue; eauto. }
    cbn [children]. apply FC_on. apply Forall_app. split.
    + eapply A6 with (rest := body); [apply root_child; auto|]. cbn. destruct Hc as (_ & _ & _ & -> & _). 
      destruct (use_strict (ds ++ body)); auto.
    + eapply Forall_gd; [eapply Forall_impl; [|exact HF]; cbv beta; intros ? [? ?]; eassumption|]. apply unstrict_at.
      * rewrite A2. apply at_unstrict. apply root_child; auto.
      * cbn. destruct Hc as (_ & _ & _ & -> & _). destruct (use_strict (ds ++ body)) eqn:Hx; [|discriminate].
        intros _. destruct (A7 _ Hx) as [Hy|Hy]; auto. congruence.
Qed.

Lemma strict_directives_v k p : strict k = true -> vs k p (directive_prologues E h n) (fun _ ds _ =>
  Forall (fun x => is_item x = true) ds /\ Forall (fun x => gd k p (T_Node x)) ds).
Proof.
  intros Hk s st t HA. eapply wp_conseq; [eapply directives_v; eassumption|].
  cbv beta. intros ds s1 (k' & t' & A1 & A2 & A3 & A4 & A5 & A6 & A7).
  assert (k' = k) as ->. { rewrite (A3 Hk) in A2. rewrite A2. clear - Hk. destruct k; cbn in Hk; rewrite Hk; reflexivity. }
  exists t'. split; [assumption|]. split; [assumption|]. rewrite Forall_forall. intros x Hx c Hc.
  assert (Forall (fun x => valid c (T_Node x)) ds) as F; [|rewrite Forall_forall in F; auto].
  eapply A6 with (rest := []); [|auto]. destruct Hc. constructor; auto; discriminate.
Qed.
Lemma module_directives_v k p : strict k = true -> vs k p (with_prm module_params (directive_prologues E h n)) (fun _ ds _ =>
  Forall (fun x => is_item x = true) ds /\ Forall (fun x => gd k p (T_Node x)) ds).
Proof.
  intros Hk. apply vs_with_prm. eapply vs_weaken; [apply strict_directives_v; assumption|]. cbv beta. intros ? ? ? [H1 H2]. split; [assumption|].
  eapply Forall_impl; [|exact H2]. cbv beta. intros x G. eapply gd_weaker; [apply weaker_module|exact G].
Qed.
Lemma module_v s st t : At s k0 p0 st t -> wp XV (module_ E n h) (fun a _ => forall c, root c -> valid c (T_Node a)) s.
Proof.
  intros HA. unfold module_. do 4 vstep. vstep. vuse ltac:(eapply use_vs; [eassumption|eapply module_directives_v; reflexivity]).
  pose proof (@vs_until_eof L LB _ _ _ _ _ (item_ok (ctx_strict true k0) p0) (@module_item_v (ctx_strict true k0) p0) ltac:(cbv beta; intros; assumption) n) as Hl.
  vstep. vuse ltac:(eapply use_vs; [eassumption|exact Hl]).
  do 3 vstep. intros c Hc.
  match goal with H : Forall (item_ok _ _) ?l |- _ => rename H into HF; rename l into body end.
  match goal with H : Forall (fun x => gd _ _ _) ?l |- _ => rename H into HD; rename l into ds end.
  apply valid_mk.
  - split.
    + spans. destruct Hc as (_ & -> & -> & _). assumption.
    + cbn. split; [apply Hc|]. right. split; [reflexivity|]. apply Forall_app. split.
      * match goal with H : Forall (fun x => is_item x = true) ds |- _ => eapply Forall_impl; [|exact H] end. cbv beta. intros ? H'. unfold is_module_item. rewrite H'. reflexivity.
      * eapply Forall_impl; [|exact HF]. intros ? [? ?]. assumption.
  - assert (Ha : forall sp, at_ctx L LB (down c (T_Node (Program (ds ++ body) "module" sp)) Other) (ctx_strict true k0) p0).
    { intros sp. apply unstrict_at; [|auto]. apply root_child; auto. }
    cbn [children]. apply FC_on. apply Forall_app. split.
    + eapply Forall_gd; [exact HD|apply Ha].
    + eapply Forall_impl; [|exact HF]. intros ? [G _]. apply G; [apply Ha|reflexivity].
Qed.
End Pass.

Lemma run_hV E L LB : forall k, hV L LB (run E k).
Proof.
  induction k as [|k IH].
  - constructor; intros; try (intros s st t HA); exact I.
  - constructor; cbn [run step h_bindpat h_lhs h_new h_unary h_exp h_climb h_assign h_expression h_statement h_item].
    1-5,7-10: eauto with vs.
    intros. eapply climbing_v; eauto.
Qed.

Definition root_ctx (src : str) : vctx := mkV false false false false false true false false false (L_of src) (LB_of src).
Lemma init_at E src t sc : s_next E GRegExp (s_new src) = ROk t sc -> At (L_of src) (LB_of src) (init_pst t sc) k0 p0 [] t.
Proof. intros H. destruct (first_token _ _ H). constructor; auto. Qed.
Lemma root_ok src : root (L_of src) (LB_of src) (root_ctx src).
Proof. unfold root. cbn. repeat split. Qed.
Lemma script_valid E src ast : parse_script E src = Ok ast -> valid (root_ctx src) (T_Node ast).
Proof.
  unfold parse_script, parse_with. destruct (s_next E GRegExp (s_new src)) as [t sc|e|p|] eqn:Hn; try discriminate.
  pose proof (@script_v E (L_of src) (LB_of src) (fuel_for src) (run E (fuel_for src)) (run_hV E _ _ _) _ _ _ (init_at _ _ Hn)) as W. unfold wp in W.
  destruct (script _ _ _ _); try discriminate. intros [= <-]. apply W. apply root_ok.
Qed.
Lemma module_valid E src ast : parse_module E src = Ok ast -> valid (root_ctx src) (T_Node ast).
Proof.
  unfold parse_module, parse_with. destruct (s_next E GRegExp (s_new src)) as [t sc|e|p|] eqn:Hn; try discriminate.
  pose proof (@module_v E (L_of src) (LB_of src) (fuel_for src) (run E (fuel_for src)) (run_hV E _ _ _) _ _ _ (init_at _ _ Hn)) as W. unfold wp in W.
  destruct (module_ _ _ _ _); try discriminate. intros [= <-]. apply W. apply root_ok.
Qed.
