(** * SpellTop: modules, programs and the entry points (proofs). *)
From Verif Require Import Base Codepoint Punct Token Scanner Ast Convert ParserBase ParserExpr ParserStmt Parser.
From Verif Require Import SpecLex SpecScan SpecTree SpecSpell SpecParse Witness Hoare ScanTokens2 ScanBase ScanNext ScanCol ScanSim LexFacts LexProofs SpecCol ParserInv TermTop ParseProofs.
From Verif Require Import SpellBase SpellConv SpellExpr SpellStmt.
From Coq Require Import ZifyBool ZifyN ZifyNat.
Set Implicit Arguments.

Section Pass.
Context (E : env) (At : span -> pos -> pos -> Prop) (src : str) (first : token) (L LB : N) (n : nat) (h : handler).
Hypothesis HAt : tell At.
Notation fsx := (fsx E src first L LB).
#[local] Hint Resolve HAt : fs fsx.
Notation fs := (fs E src first L LB).
Notation Fa := (Fa E src first L LB).
Notation spells := (spells E At).
Notation spn := (fun x => spells (T_Node x)).
Hypothesis HS : hSp E At src first L LB h.
#[local] Hint Resolve HS class_dclr_f hoistable_f assignment_f variable_stmt_f declaration_f item_f directives_f : fs.
#[local] Hint Resolve id_name_f comma_unless_f : fsx.

Lemma import_binding_f : fsx (import_binding E) (fun p ms i q ms' => ms' = ms /\ eats (is_ref (id_name i)) p q /\ At (id_span i) p q).
Proof.
  unfold import_binding. intros s p H. fstep. fuse ltac:(eapply use_fsx; [eassumption|apply fsx_with_prm; apply binding_id_f; exact HAt]). subst.
  cbn [binding_to_id]. fstep. match goal with H : COk _ = COk _ |- _ => injection H as <- end. fret. split; assumption.
Qed.
#[local] Hint Resolve import_binding_f : fsx.
Lemma namespace_f : fsx (namespace_import_specifiers E) (fun p ms l q ms' => ms' = ms /\ import_rest At l p q).
Proof. fgo namespace_import_specifiers. eapply ir_namespace; eassumption. Qed.
Lemma import_item_f : fsx (named_import_specifier E) (fun p ms x q ms' => ms' = ms /\ exists q', import_item At x p q' /\ comma_or RBrace q' q).
Proof.
  fgo named_import_specifier.
  - eexists. split; [|eassumption]. eapply ii_as; [eassumption|fat HAt|eauto with sp|eassumption|eassumption].
  - eexists. split; [|eassumption]. eapply ii_name; [eassumption|fat HAt|]. cbn [id_name]. intros KK. apply is_keyword_reserved in KK. congruence.
Qed.
Lemma named_imports_f : fsx (named_import_specifiers E n) (fun p ms l q ms' => ms' = ms /\ import_rest At l p q).
Proof.
  pose proof (@fsx_until E src first L LB _ _ _ n RBrace import_item_f) as HL.
  fgo named_import_specifiers. apply ir_named. econstructor; [eassumption| |eassumption]. eapply many_commas. eassumption.
Qed.
Lemma module_name_f : fsx (parse_module_specifier E) (fun p ms l q ms' => ms' = ms /\ module_name E At l p q).
Proof.
  fgo parse_module_specifier. match goal with |- module_name _ _ ?l ?p ?q => assert (K9 : eats (is_string_tok (lit_value l)) p q) end.
  { split; [assumption|]. split; [reflexivity|]. apply tok_is_eq. assumption. }
  split; [exact K9|]. split; [reflexivity|]. fat HAt.
Qed.
#[local] Hint Resolve namespace_f named_imports_f module_name_f : fsx.
Lemma import_from_f l : fsx (parse_import_from_dclr E l) (fun p ms a q ms' => exists m sp, a = ImportDeclaration l m sp /\ ms = sp_start sp :: ms' /\ ended first sp q /\
  exists p3 p4, eats (is_w "from") p p3 /\ module_name E At m p3 p4 /\ semi p4 q).
Proof.
  fgo parse_import_from_dclr. do 2 eexists. split; [reflexivity|]. split; [congruence|]. split; [eassumption|]. eauto 8.
Qed.
#[local] Hint Resolve import_from_f : fsx.
Lemma import_f : fs (parse_import_dclr E n) (fun p a q => spn a p q).
Proof.
  fgo parse_import_dclr; (eapply S_import; [eassumption| |eassumption|eassumption|eassumption|fat HAt]).
  - apply ic_rest. assumption.
  - apply ic_rest. assumption.
  - eapply ic_both; eauto with sp.
  - eapply ic_both; eauto with sp.
  - apply ic_default; assumption.
Qed.
Lemma export_item_f : fsx (named_export_specifier E) (fun p ms x q ms' => ms' = ms /\ exists q', export_item At x p q' /\ comma_or RBrace q' q).
Proof.
  fgo named_export_specifier.
  - eexists. split; [|eassumption]. eapply ei_as; cbn; [eassumption|fat HAt|eauto with sp|eassumption|fat HAt].
  - eexists. split; [|eassumption]. eapply ei_name; cbn; [eassumption|fat HAt].
Qed.
Lemma named_exports_f : fsx (named_export_specifiers E n) (fun p ms l q ms' => ms' = ms /\ block LBrace RBrace (commas (export_item At) l) p q).
Proof.
  pose proof (@fsx_until E src first L LB _ _ _ n RBrace export_item_f) as HL.
  fgo named_export_specifiers. econstructor; [eassumption| |eassumption]. eapply many_commas. eassumption.
Qed.
#[local] Hint Resolve import_f : fs.
#[local] Hint Resolve named_exports_f : fsx.
Lemma export_default_f : fs (export_default E n h) (fun p a q => forall p0, eats (is_k "export") p0 p -> tok_kw (next p) "default" = true -> spn a p0 q).
Proof.
  fgo export_default; intros.
  - eapply S_export_default; eauto with sp.
  - eapply S_export_default; eauto with sp.
  - eapply S_export_default_expr; eauto with sp.
Qed.
#[local] Hint Resolve export_default_f : fs.
Lemma export_f : fs (parse_export_dclr E n h) (fun p a q => spn a p q).
Proof.
  unfold parse_export_dclr. intros s p H. do 6 fstep. fstep; [fwalk; auto|]. fstep; [fwalk; eapply S_export_declaration; eassumption|].
  fstep; [fwalk; eapply S_export_declaration; eassumption|]. fstep.
  - do 4 fstep. rewrite no_from by (eapply Fa_wf; eassumption). fwalk. eapply S_export_list; [eassumption|eassumption|fat HAt].
  - fwalk. eapply S_export_all; [eassumption|eauto with sp|eassumption|eassumption|eassumption|fat HAt].
Qed.
#[local] Hint Resolve export_f : fs.
Lemma module_item_f : fs (parse_module_item E n h) (fun p a q => spn a p q).
Proof. fgo parse_module_item; assumption. Qed.
Lemma script_f : fs (script E n h) (fun p a q => spn a p q /\ ttype (next q) = TEof).
Proof.
  pose proof (@fs_until_eof E src first L LB _ _ _ n (@item_f E At src first L LB n h HAt HS)) as HL.
  fgo script. split; [|assumption]. constructor; [|assumption]. eapply many_app; eassumption.
Qed.
Lemma module_f : fs (module_ E n h) (fun p a q => spn a p q /\ ttype (next q) = TEof).
Proof.
  pose proof (@fs_until_eof E src first L LB _ _ _ n module_item_f) as HL.
  fgo module_. split; [|assumption]. constructor; [|assumption]. eapply many_app; eassumption.
Qed.
End Pass.

Lemma run_hSp E At src first L LB : tell At -> forall k, hSp E At src first L LB (run E k).
Proof.
  intros HAt.
  induction k as [|k IH].
  - constructor; intros; try (intros s p H); exact I.
  - constructor; cbn [run step h_bindpat h_lhs h_new h_unary h_exp h_climb h_assign h_expression h_statement h_item].
    + apply bindpat_f; [exact HAt|exact IH].
    + apply lhs_f; [exact HAt|exact IH].
    + apply new_f; [exact HAt|exact IH].
    + apply unary_f; [exact HAt|exact IH].
    + apply exp_f; [exact HAt|exact IH].
    + intros. apply climbing_f; [exact HAt|exact IH].
    + apply assignment_f; [exact HAt|exact IH].
    + apply expression_f; [exact HAt|exact IH].
    + apply statement_f; [exact HAt|exact IH].
    + apply item_f; [exact HAt|exact IH].
Qed.

Lemma init_located E src t sc : s_next E GRegExp (s_new src) = ROk t sc -> located E src t (init_pst t sc) (mkPos [] t).
Proof.
  intros H. destruct (next_col E GRegExp (proj1 (si_hist (s_new_sinv src))) eq_refl H) as (tr & l & W & _ & C2).
  assert (Hc : ttype t <> TEof -> 1 <= current sc).
  { intros K. rewrite (nt_current W). destruct l; [destruct K; apply (nt_eof W); reflexivity|]. unfold len. cbn [length]. lia. }
  constructor; cbn [scn init_pst next before]; [exact Hc|auto|rewrite (nt_unscanned W); congruence| | |].
  2:{ right. split; [exact (nt_unscanned W)|]. exists [GRegExp]. cbn [s_nexts app rev]. unfold bind. rewrite H. reflexivity. }
  2:{ intros us u vs K _. cbn in K. destruct us as [|? us]; [|destruct us; discriminate K]. injection K as <- _. exists [GRegExp], sc. cbn [s_nexts app]. unfold bind. rewrite H. reflexivity. }
  exists [], t, []. split; [reflexivity|]. split; [|left; reflexivity]. intros K. specialize (Hc K).
  unfold here, behind. cbn [scn init_pst]. rewrite (nt_line W), (nt_end W), C2 by lia. f_equal. lia.
Qed.
Lemma init_Fa E src t sc : s_next E GRegExp (s_new src) = ROk t sc -> Fa E src t (L_of src) (LB_of src) (init_pst t sc) (mkPos [] t).
Proof.
  intros H. destruct (first_token _ _ H) as [HI _]. constructor; auto; [|eapply init_located; exact H].
  destruct (@next_tiles E src (L_of src) (LB_of src) _ _ _ _ [] (s_new_sinv src) H) as [K1 K2].
  - cbn. constructor.
  - cbn [init_pst before rev app cur scn]. unfold pending. rewrite K2. exact K1.
Qed.
Lemma tiles_split E ts us a c : tiles E (ts ++ us) a c -> exists b, tiles E ts a b /\ tiles E us b c.
Proof.
  revert a. induction ts as [|t ts IH]; cbn; intros a H.
  - exists a. split; [constructor|exact H].
  - inversion H as [|? ? tr l r final Ht Hl Hr]; subst. destruct (IH _ Hr) as (b & H1 & H2). exists b. split; [econstructor; eauto|exact H2].
Qed.
Lemma eof_lexeme E t l : lexeme E t l -> ttype t = TEof -> l = [].
Proof. intros H K. destruct H as [| ? ? ? ? ? ? W | | | | | ]; try congruence. exfalso. inversion W; congruence. Qed.
Lemma Fa_final E src first L LB s p : Fa E src first L LB s p -> ttype (next p) = TEof -> tiles E (rev (before p) ++ [next p]) src [].
Proof.
  intros [A B C D F0 _] He. rewrite <- B in *. destruct (i_eof A He) as [H1 H2]. rewrite H1 in D. unfold pending in D.
  destruct (unscanned (scn s)) as [u|] eqn:Hu; [|exact D].
  apply tiles_split in D. destruct D as (b & D1 & D2). eapply tiles_app; [exact D1|].
  inversion D2 as [|? ? tr l r final Ht Hl Hr]; subst. inversion Hr as [|? ? tr2 l2 r2 final2 Ht2 Hl2 Hr2]; subst.
  inversion Hr2; subst. apply eof_lexeme in Hl2; auto. subst l2. pose proof (eof_lexeme Hl He) as Hl'. subst l. cbn [app] in *. rewrite app_nil_r in *.
  replace (tr ++ tr2) with ((tr ++ tr2) ++ [] ++ []) by (cbn; rewrite app_nil_r; reflexivity).
  econstructor; [|exact Hl|constructor]. cbn [app]. eapply trivia_app; [exact Ht| |exact Ht2]. rewrite app_nil_r. reflexivity.
Qed.
Lemma nexts_placed E src gs us t s' : s_nexts E gs (s_new src) = ROk (us ++ [t]) s' ->
  exists r, laid E [] (us ++ [t]) src r /\ exists l, lexeme E t l /\ tcol t = column 1 l r.
Proof.
  intros H. exists (rest s'). split; [eapply offsets; exact H|]. apply nexts_snoc in H. destruct H as (hs & g & s1 & H1 & H2).
  destruct (nexts_new _ _ _ H1) as ((Q & F & _) & _). destruct (next_col E g Q F H2) as (tr & l & W & C1 & _). exists l. split; [exact (nt_lexeme W)|exact C1].
Qed.
Lemma Fa_placed E src first L LB s p : Fa E src first L LB s p -> placed E src (rev (before p) ++ [next p]).
Proof. intros H us t vs H1 H2. destruct (lo_past (fa_loc H) _ _ H1 H2) as (gs & s' & K). eapply nexts_placed; exact K. Qed.
Lemma final_reads E At src first L LB s p t : Fa E src first L LB s p -> ttype (next p) = TEof -> spells E At (T_Node t) (mkPos [] first) p -> reads_when E At src t.
Proof.
  intros H He Hs. exists (rev (before p)), (next p), first. split; [eapply Fa_final; eauto|]. split; [eapply Fa_placed; eauto|].
  split; [rewrite <- (fa_next H); exact (fa_first H)|]. rewrite rev_involutive. destruct p; exact Hs.
Qed.
Lemma script_when E At src t : tell At -> parse_script E src = Ok t -> reads_when E At src t.
Proof.
  intros HAt. unfold parse_script, parse_with. destruct (s_next E GRegExp (s_new src)) as [t0 sc|e|p|] eqn:Hn; try discriminate.
  pose proof (@script_f E At src t0 (L_of src) (LB_of src) (fuel_for src) (run E (fuel_for src)) HAt (@run_hSp E At _ _ _ _ HAt _) _ _ (init_Fa _ _ Hn)) as W. unfold wp in W.
  destruct (script _ _ _ _); try discriminate. intros [= <-]. destruct W as (q & W1 & W2 & W3). eapply final_reads; eauto.
Qed.
Lemma module_when E At src t : tell At -> parse_module E src = Ok t -> reads_when E At src t.
Proof.
  intros HAt. unfold parse_module, parse_with. destruct (s_next E GRegExp (s_new src)) as [t0 sc|e|p|] eqn:Hn; try discriminate.
  pose proof (@module_f E At src t0 (L_of src) (LB_of src) (fuel_for src) (run E (fuel_for src)) HAt (@run_hSp E At _ _ _ _ HAt _) _ _ (init_Fa _ _ Hn)) as W. unfold wp in W.
  destruct (module_ _ _ _ _); try discriminate. intros [= <-]. destruct W as (q & W1 & W2 & W3). eapply final_reads; eauto.
Qed.
Lemma script_reads E src t : parse_script E src = Ok t -> reads_as E src t.
Proof. apply script_when. intros ? ? ? ?. exact I. Qed.
Lemma module_reads E src t : parse_module E src = Ok t -> reads_as E src t.
Proof. apply module_when. intros ? ? ? ?. exact I. Qed.
Lemma script_reads_at E src t : parse_script E src = Ok t -> reads_at E src t.
Proof. apply script_when. intros ? ? ? H. exact H. Qed.
Lemma module_reads_at E src t : parse_module E src = Ok t -> reads_at E src t.
Proof. apply module_when. intros ? ? ? H. exact H. Qed.

(** ** Trees that are not readings *)
Lemma trivia_ascii tr x r c s : trivia tr x -> tr ++ r = c :: s -> 97 <= c <= 122 -> tr = [] /\ r = c :: s.
Proof.
  intros T H Hc. destruct T as [|d l r0 W _|d l r0 W _| | |]; cbn in H; auto; injection H as Hd H; exfalso; subst.
  - unfold white_space in W. clear -W Hc. lia.
  - unfold line_terminator, LF, CR in W. clear -W Hc. lia.
  - vm_compute in Hc. destruct Hc as [Hc _]. congruence.
  - vm_compute in Hc. destruct Hc as [Hc _]. congruence.
  - vm_compute in Hc. destruct Hc as [Hc _]. congruence.
Qed.
Lemma tiles_inv E t ts src f : tiles E (t :: ts) src f -> exists tr l r, tr ++ l ++ r = src /\ trivia tr (l ++ r) /\ lexeme E t l /\ tiles E ts r f.
Proof. intros H. inversion H; subst. do 3 eexists. split; [reflexivity|]. auto. Qed.
Lemma not_empty ty sp : ~ reads_as E0 (s2l "a;") (Program [] ty sp).
Proof.
  intros (ts & eof & first & H1 & _ & H2 & H3). inversion H3; subst. match goal with H : many _ _ _ _ |- _ => inversion H; subst end.
  assert (ts = []) as -> by (apply (f_equal (@rev token)) in H; rewrite rev_involutive in H; auto). cbn [app] in H1.
  apply tiles_inv in H1. destruct H1 as (tr & l & r & Hsrc & Ht & Hl & Hr). apply eof_lexeme in Hl; [|assumption]. subst l.
  apply (trivia_ascii _ Ht) in Hsrc; [|split; vm_compute; discriminate]. destruct Hsrc as [_ Hx]. inversion Hr; subst. discriminate.
Qed.
Lemma not_swapped a1 a2 a3 s1 s2 s3 s4 ty sp : ~ reads_as E0 (s2l "x-y") (Program [ExpressionStatement
  (BinaryExpression (s2l "-") (Identifier (s2l "y") a1 s1) (Identifier (s2l "x") a2 s2) a3 s3) s4] ty sp).
Proof.
  intros (ts & eof & first & H1 & _ & H2 & H3). inversion H3; subst. match goal with H : many _ _ _ _ |- _ => inversion H; subst end.
  match goal with H : spells _ _ (T_Node (ExpressionStatement _ _)) _ _ |- _ => inversion H; subst end.
  match goal with H : spells _ _ (T_Node (BinaryExpression _ _ _ _ _)) _ _ |- _ => inversion H; subst end.
  match goal with H : spells _ _ (T_Node (Identifier (s2l "y") _ _)) _ _ |- _ => apply inv_identifier in H; destruct H as [[_ [K1 K2]] _] end.
  cbn [next] in *. destruct (ts ++ [eof]) as [|t0 l0]; [discriminate|]. injection H2 as ->.
  apply tiles_inv in H1. destruct H1 as (tr & l & r & Hsrc & Ht & Hl & Hr).
  apply (trivia_ascii _ Ht) in Hsrc; [|split; vm_compute; discriminate]. destruct Hsrc as [_ Hx].
  destruct Hl as [Hk|c l9 v ls Hh _ Hw|p9 Hk|l9 x9 Hk|q9 vs9 ls9 _ Hk|ps9 f9 ls9 Hk|hd9 tl9 vs9 ls9 Hk]; try (destruct K2 as [K2|[K2 _]]; congruence).
  assert (c :: v = s2l "y") as Hc by (inversion Hw; congruence). injection Hc as -> ->.
  inversion Hh as [c9 K5 K6 K7 K8|v9 l8 K5 Hu K6 K7 K8]; subst; [discriminate Hx|]. destruct Hu; discriminate Hx.
Qed.
Lemma not_elsewhere n a sp s1 ty s2 : mk_idx (sp_start sp) <> 0 -> ~ reads_at E0 (s2l "a;") (Program [ExpressionStatement (Identifier n a sp) s1] ty s2).
Proof.
  intros Hi (ts & eof & first & _ & H1 & H2 & H3). inversion H3; subst. match goal with H : many _ _ _ _ |- _ => inversion H; subst end.
  match goal with H : spells _ _ (T_Node (ExpressionStatement _ _)) _ _ |- _ => inversion H; subst end.
  match goal with H : spells _ _ (T_Node (Identifier _ _ _)) _ _ |- _ => apply inv_identifier in H; destruct H as [_ [K _]] end.
  cbn [next] in K. destruct (ts ++ [eof]) as [|t0 l0]; [discriminate|]. injection H2 as ->.
  destruct (H1 [] first l0 eq_refl) as (r & Hl & _); [constructor|]. cbn [app] in Hl. set (src := s2l "a;") in *. inversion Hl as [|b9 t9 ts9 tr l r9 f9 Ht _ Hs _ _ _ E1 E2 Hx E3]; subst.
  subst src. apply (trivia_ascii _ Ht) in Hx; [|split; vm_compute; discriminate]. destruct Hx as [-> _]. apply Hi. rewrite K. cbn. exact Hs.
Qed.
