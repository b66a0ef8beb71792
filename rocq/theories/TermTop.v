(** * TermTop: modules, closing the recursion, entry points (proofs). *)
From Verif Require Import Base Codepoint Punct Token Scanner Ast Convert ParserBase ParserExpr ParserStmt Parser.
From Verif Require Import SpecLex SpecScan SpecParse Hoare ScanBase LexFacts ParserInv TermBase TermExpr TermStmt.
From Coq Require Import ZifyBool ZifyN ZifyNat.
Set Implicit Arguments.

Section Pass.
Context (E : env) (L LB : N) (bnd n : nat) (h : handler).
Notation inv := (inv L LB).
Notation frame := (frame L LB).
Notation ts := (ts E L LB bnd).
Notation XT := (XT E).
Hypothesis Hbnd : (bnd < n)%nat.
Hypothesis HT : hT E L LB bnd h.

Lemma import_binding_t : ts 0 1 (import_binding E) any.
Proof.
  unfold import_binding. intros s ? ?. do 2 tstep. match goal with H : is_bid _ |- _ => destruct H as (? & ? & ->) end.
  unfold wp, lift_c. cbn. fin.
Qed.
#[local] Hint Resolve import_binding_t : ts.
Lemma namespace_import_t : ts 0 1 (namespace_import_specifiers E) any.
Proof. go namespace_import_specifiers. Qed.
Lemma named_import_t : ts 0 1 (named_import_specifier E) any.
Proof. go named_import_specifier. Qed.
#[local] Hint Resolve namespace_import_t named_import_t : ts.
Lemma named_imports_t : ts 0 1 (named_import_specifiers E n) any.
Proof. go named_import_specifiers. Qed.
Lemma module_specifier_t : ts 0 1 (parse_module_specifier E) any.
Proof. go parse_module_specifier. Qed.
#[local] Hint Resolve named_imports_t module_specifier_t : ts.
Lemma import_from_t l : ts 0 1 (parse_import_from_dclr E l) any.
Proof. go parse_import_from_dclr. Qed.
#[local] Hint Resolve import_from_t : ts.
Lemma import_t : ts 0 1 (parse_import_dclr E n) any.
Proof. go parse_import_dclr. Qed.
#[local] Hint Resolve import_t : ts.
Lemma named_export_t : ts 0 1 (named_export_specifier E) any.
Proof. go named_export_specifier. Qed.
#[local] Hint Resolve named_export_t : ts.
Lemma named_exports_t : ts 0 1 (named_export_specifiers E n) any.
Proof. go named_export_specifiers. Qed.
#[local] Hint Resolve named_exports_t : ts.
Lemma export_default_t : ts 0 0 (export_default E n h) any.
Proof. go export_default. Qed.
#[local] Hint Resolve export_default_t : ts.
Lemma export_t : ts 0 1 (parse_export_dclr E n h) any.
Proof. go parse_export_dclr. Qed.
#[local] Hint Resolve export_t : ts.
Lemma module_item_t : ts 0 1 (parse_module_item E n h) any.
Proof. go parse_module_item. Qed.
#[local] Hint Resolve module_item_t : ts.

(** Entry points: all tokens are read on success. *)
Definition top_post (s : pst) (a : node) (s' : pst) : Prop := inv s' /\ ttype (cur s') = TEof.
Lemma script_t s : inv s -> (mu s + 1 <= bnd)%nat -> wp XT (script E n h) (top_post s) s.
Proof.
  intros Hi Hm. unfold script. do 3 tstep.
  eapply wp_conseq; [eapply directives_k; [exact Hbnd|eassumption|eassumption|mlia|mlia]|]. cbv beta. intros a1 s1 (A1 & A2 & A3 & A4 & A5).
  tstep. use_spec ltac:(eapply ts_until_eof; [exact Hbnd|solve [eauto with ts]|eassumption|mlia|mlia]).
  do 3 tstep. split; [assumption|congruence].
Qed.
Lemma module_t s : inv s -> (mu s + 1 <= bnd)%nat -> pstack s = [] -> wp XT (module_ E n h) (top_post s) s.
Proof.
  intros Hi Hm Hp. unfold module_. do 5 tstep. unfold with_prm. tstep.
  apply wp_modify. tstep. apply wp_modify. cbn [prm set_pstack set_prm]. tstep.
  eapply wp_conseq; [eapply directives_k; [exact Hbnd|eassumption|apply inv_prm; assumption|unfold mu in *; cbn in *; mlia|unfold mu in *; cbn in *; mlia]|].
  cbv beta. intros a1 s1 (A1 & A2 & A3 & A4 & A5). cbn [ctx prm pstack set_prm set_pstack] in *.
  tstep. unfold restore_params. unfold wp at 1. rewrite A4. tstep. tstep.
  use_spec ltac:(eapply ts_until_eof; [exact Hbnd|solve [eauto with ts]|apply inv_prm; assumption|unfold mu in *; cbn in *; mlia|unfold mu in *; cbn in *; mlia]).
  do 3 tstep. split; [assumption|congruence].
Qed.
End Pass.

Lemma ts_shift E L LB d b bnd bnd' A (m : PM A) R : ts E L LB bnd d b m R -> (bnd' <= bnd + 1)%nat -> ts E L LB bnd' (S d) b m R.
Proof. intros H Hb s Hi Hm. apply H; auto. lia. Qed.

Lemma run_hT E L LB : forall k bnd, (bnd <= k)%nat -> hT E L LB bnd (run E k).
Proof.
  induction k as [|k IH]; intros bnd Hb.
  - constructor; intros; try (intros s ? ?); lia.
  - assert (Hk : hT E L LB k (run E k)) by (apply IH; lia).
    assert (Hn : (k < S k)%nat) by lia.
    constructor; cbn [run step h_bindpat h_lhs h_new h_unary h_exp h_climb h_assign h_expression h_statement h_item].
    1-5,7-10: eapply ts_shift with (bnd := k); [eauto with ts|lia].
    intros lhs prec s Hi Hm. eapply precedence_climbing_t with (bnd := k); eauto. lia.
Qed.

(** The state after the first token. *)
Definition L_of (src : str) : N := len src.
Definition LB_of (src : str) : N := 1 + breaks src [].
Lemma s_new_sinv src : sinv (L_of src) (LB_of src) (s_new src).
Proof.
  constructor; cbn; unfold L_of, LB_of; try lia.
  - split; [split; reflexivity|cbn; discriminate].
  - discriminate.
Qed.
Lemma first_token E src t sc : s_next E GRegExp (s_new src) = ROk t sc ->
  inv (L_of src) (LB_of src) (init_pst t sc) /\ (mu (init_pst t sc) <= length src)%nat.
Proof.
  intros H. pose proof (@s_next_inv E _ _ GRegExp (s_new src) xAny (s_new_sinv src)) as W. unfold wp in W. rewrite H in W.
  destruct W as (W1 & W2 & W3 & W4 & W5 & W6); cbn; auto. split.
  - constructor; cbn; auto. intros He. split; auto. rewrite W4. discriminate.
  - unfold mu. cbn [init_pst scn cur]. unfold smu in W3 at 2. cbn in W3. lia.
Qed.
Lemma first_panic E src p : s_next E GRegExp (s_new src) = RPanic p -> live_panic E p.
Proof.
  intros H. pose proof (@s_next_inv E _ _ GRegExp (s_new src) (XT E) (s_new_sinv src)) as W. unfold wp in W. rewrite H in W.
  apply W; cbn; auto.
Qed.
Lemma first_fuel E src : s_next E GRegExp (s_new src) <> RFuel.
Proof.
  intros H. pose proof (@s_next_inv E _ _ GRegExp (s_new src) (XT E) (s_new_sinv src)) as W. unfold wp in W. rewrite H in W.
  apply W; cbn; auto.
Qed.

Lemma parse_with_total go E src :
  (forall s, inv (L_of src) (LB_of src) s -> pstack s = [] -> (mu s <= length src)%nat ->
     wp (XT E) (go E (fuel_for src) (run E (fuel_for src))) (fun _ s' => inv (L_of src) (LB_of src) s' /\ ttype (cur s') = TEof) s) ->
  match parse_with go E src with OutOfFuel => False | Panicked p => live_panic E p | _ => True end.
Proof.
  intros H. unfold parse_with. destruct (s_next E GRegExp (s_new src)) as [t sc|e|p|] eqn:Hn; cbn; auto.
  - destruct (first_token _ _ Hn) as [Hi Hm]. specialize (H _ Hi eq_refl Hm). unfold wp in H.
    destruct (go E _ _ _); cbn; auto.
  - eapply first_panic; eauto.
  - eapply first_fuel; eauto.
Qed.
Lemma script_total E src : match parse_script E src with OutOfFuel => False | Panicked p => live_panic E p | _ => True end.
Proof.
  apply parse_with_total. intros s Hi _ Hm. eapply script_t with (bnd := S (length src)); auto; try (unfold fuel_for; lia).
  apply run_hT. unfold fuel_for. lia.
Qed.
Lemma module_total E src : match parse_module E src with OutOfFuel => False | Panicked p => live_panic E p | _ => True end.
Proof.
  apply parse_with_total. intros s Hi Hp Hm. eapply module_t with (bnd := S (length src)); auto; try (unfold fuel_for; lia).
  apply run_hT. unfold fuel_for. lia.
Qed.
