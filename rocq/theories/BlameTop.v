(** * BlameTop: errors and spans of modules, programs and the entry points (proofs for C50, C51). *)
From Verif Require Import Base Codepoint Punct Token Scanner Ast Convert ParserBase ParserExpr ParserStmt Parser.
From Verif Require Import SpecLex SpecScan SpecTree SpecSpell SpecBlame SpecParse Hoare ScanTokens2 LexFacts LexProofs ParserInv TermTop ParseProofs.
From Verif Require Import SpellBase SpellStmt SpellTop Rel BlameBase BlameConv BlameExpr BlameStmt.
Set Implicit Arguments.

Section Pass.
Context (E : env) (src : str) (first : token) (L LB : N) (n : nat) (h : handler).
Notation es := (es E src first L LB).
Notation T := (T E src first L LB).
Notation sp_ok := (sp_ok E src).
Notation gn x := (r_node sp_ok eq x x).
Hypothesis HS : hEs E src first L LB h.
#[local] Hint Resolve HS class_dclr_e hoistable_e assignment_e variable_stmt_e declaration_e item_e directives_e id_name_e comma_unless_e : es.

Lemma import_binding_e : es (import_binding E) (fun _ i _ => r_id sp_ok i i).
Proof.
  unfold import_binding. intros s p H. estep. euse ltac:(eapply use_es; [eassumption|apply es_with_prm; apply binding_id_e]).
  euse ltac:(eapply e_sure; [|eassumption]). { instantiate (1 := fun i => r_id sp_ok i i). cbn. match goal with K : r_bind _ _ _ _ |- _ => inversion K; subst end. egood. }
  eexists. split; [eassumption|]. split; [eext|assumption].
Qed.
#[local] Hint Resolve import_binding_e : es.
Notation gi := (Forall (fun x => r_import sp_ok x x)).
Lemma namespace_e : es (namespace_import_specifiers E) (fun _ l _ => gi l).
Proof. ego namespace_import_specifiers. Qed.
Lemma import_item_e : es (named_import_specifier E) (fun _ x _ => r_import sp_ok x x).
Proof.
  ego named_import_specifier. eblame. eapply last_step; [eassumption|]. cbv beta.
  match goal with K : ttype ?t = TIdentifier \/ _ |- _ => destruct K as [K|K]; [exfalso|exact K] end.
  match goal with K : is_keyword _ = true |- _ => apply is_keyword_reserved in K; rename K into HR end.
  match goal with K : tval ?t = VStr _, K' : ttype ?t = TIdentifier |- _ => rename K into Hv; rename K' into Hi end.
  pose proof (Fa_wf (t_fa H)) as W. unfold token_wf in W. rewrite Hi in W. destruct W as (w & W1 & W2). congruence.
Qed.
Lemma named_imports_e : es (named_import_specifiers E n) (fun _ l _ => gi l).
Proof.
  pose proof (@es_until E src first L LB _ _ _ import_item_e n RBrace) as HL. ego named_import_specifiers.
Qed.
Lemma module_name_e : es (parse_module_specifier E) (fun _ l _ => r_lit sp_ok l l).
Proof. ego parse_module_specifier. Qed.
#[local] Hint Resolve namespace_e named_imports_e module_name_e : es.
Lemma import_from_e l : gi l -> es (parse_import_from_dclr E l) (fun _ a _ => gn a).
Proof. intros Hl. ego parse_import_from_dclr. Qed.
#[local] Hint Extern 3 (es (parse_import_from_dclr _ _) _) => apply import_from_e; egood : es.
Lemma import_e : es (parse_import_dclr E n) (fun _ a _ => gn a).
Proof. ego parse_import_dclr. Qed.
Lemma export_item_e : es (named_export_specifier E) (fun _ x _ => r_export sp_ok x x).
Proof. ego named_export_specifier. Qed.
Lemma named_exports_e : es (named_export_specifiers E n) (fun _ l _ => Forall (fun x => r_export sp_ok x x) l).
Proof. pose proof (@es_until E src first L LB _ _ _ export_item_e n RBrace) as HL. ego named_export_specifiers. Qed.
#[local] Hint Resolve import_e named_exports_e : es.
Lemma export_default_e : es (export_default E n h) (fun _ a _ => gn a).
Proof. ego export_default. Qed.
#[local] Hint Resolve export_default_e : es.
Lemma export_e : es (parse_export_dclr E n h) (fun _ a _ => gn a).
Proof.
  unfold parse_export_dclr. intros s p H. do 6 estep. estep; [ewalk|]. estep; [ewalk|]. estep; [ewalk|]. estep.
  - do 4 estep. rewrite no_from by (eapply Fa_wf, t_fa; eassumption). ewalk.
  - ewalk.
Qed.
#[local] Hint Resolve export_e : es.
Lemma module_item_e : es (parse_module_item E n h) (fun _ a _ => gn a).
Proof. ego parse_module_item. Qed.
Lemma script_e : es (script E n h) (fun _ a _ => gn a).
Proof. pose proof (@es_until_eof E src first L LB _ _ _ (@item_e E src first L LB n h HS) n) as HL. ego script. Qed.
Lemma module_e : es (module_ E n h) (fun _ a _ => gn a).
Proof. pose proof (@es_until_eof E src first L LB _ _ _ module_item_e n) as HL. ego module_. Qed.
End Pass.

Lemma run_hEs E src first L LB : forall k, hEs E src first L LB (run E k).
Proof.
  induction k as [|k IH].
  - constructor; intros; try (let s := fresh in let p := fresh in let H := fresh in intros s p H); exact I.
  - constructor; cbn [run step h_bindpat h_lhs h_new h_unary h_exp h_climb h_assign h_expression h_statement h_item].
    + apply bindpat_e; exact IH.
    + apply lhs_e; exact IH.
    + apply new_e; exact IH.
    + apply unary_e; exact IH.
    + apply exp_e; exact IH.
    + intros. apply climbing_e; [exact IH|assumption].
    + apply assignment_e; exact IH.
    + apply expression_e; exact IH.
    + apply statement_e; exact IH.
    + apply item_e; exact IH.
Qed.
Lemma init_T E src t sc : s_next E GRegExp (s_new src) = ROk t sc -> T E src t (L_of src) (LB_of src) (init_pst t sc) (mkPos [] t).
Proof.
  intros H. constructor; [apply init_Fa; exact H| |constructor]. right. split.
  - pose proof (@s_next_fresh E GRegExp (s_new src)) as W. unfold wp in W. rewrite H in W. destruct W as (tr & l & W); [split; reflexivity|reflexivity|]. exact (ScanNext.nt_unscanned W).
  - exists [GRegExp]. cbn [s_nexts]. unfold bind. rewrite H. reflexivity.
Qed.
Lemma script_blames E src e : parse_script E src = Err e -> reported E src e.
Proof.
  unfold parse_script, parse_with. destruct (s_next E GRegExp (s_new src)) as [t0 sc|e0|p|] eqn:Hn; try discriminate.
  pose proof (@script_e E src t0 (L_of src) (LB_of src) (fuel_for src) (run E (fuel_for src)) (run_hEs E _ _ _ _ _) _ _ (init_T _ _ Hn)) as W. unfold wp in W.
  destruct (script _ _ _ _); try discriminate. intros [= <-]. exact W.
Qed.
Lemma module_blames E src e : parse_module E src = Err e -> reported E src e.
Proof.
  unfold parse_module, parse_with. destruct (s_next E GRegExp (s_new src)) as [t0 sc|e0|p|] eqn:Hn; try discriminate.
  pose proof (@module_e E src t0 (L_of src) (LB_of src) (fuel_for src) (run E (fuel_for src)) (run_hEs E _ _ _ _ _) _ _ (init_T _ _ Hn)) as W. unfold wp in W.
  destruct (module_ _ _ _ _); try discriminate. intros [= <-]. exact W.
Qed.
Lemma script_spans E src t : parse_script E src = Ok t -> r_node (sp_ok E src) eq t t.
Proof.
  unfold parse_script, parse_with. destruct (s_next E GRegExp (s_new src)) as [t0 sc|e0|p|] eqn:Hn; try discriminate.
  pose proof (@script_e E src t0 (L_of src) (LB_of src) (fuel_for src) (run E (fuel_for src)) (run_hEs E _ _ _ _ _) _ _ (init_T _ _ Hn)) as W. unfold wp in W.
  destruct (script _ _ _ _); try discriminate. intros [= <-]. destruct W as (q & _ & _ & W). exact W.
Qed.
Lemma module_spans E src t : parse_module E src = Ok t -> r_node (sp_ok E src) eq t t.
Proof.
  unfold parse_module, parse_with. destruct (s_next E GRegExp (s_new src)) as [t0 sc|e0|p|] eqn:Hn; try discriminate.
  pose proof (@module_e E src t0 (L_of src) (LB_of src) (fuel_for src) (run E (fuel_for src)) (run_hEs E _ _ _ _ _) _ _ (init_T _ _ Hn)) as W. unfold wp in W.
  destruct (module_ _ _ _ _); try discriminate. intros [= <-]. destruct W as (q & _ & _ & W). exact W.
Qed.
