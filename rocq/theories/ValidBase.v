(** * ValidBase: the specification form of the validity pass, and its tactics (proofs). *)
From Verif Require Import Base Codepoint Punct Token Scanner Ast Convert ParserBase ParserExpr ParserStmt Parser.
From Verif Require Import SpecLex SpecScan SpecTree Hoare LexFacts ParserInv Valid ValidConv.
From Coq Require Import ZifyBool ZifyN ZifyNat.
Set Implicit Arguments.

Section Base.
Context (E : env) (L LB : N).
Notation inv := (inv L LB).

Definition XV : exc := mkExc (fun e => 1 <= err_line e <= LB) (fun _ => True) True.

(** What is known about a parser state. *)
Record At (s : pst) (k : pctx) (p : params) (st : list params) (t : token) : Prop := mkAt {
  at_inv : inv s; at_k : ctx s = k; at_p : prm s = p; at_st : pstack s = st; at_t : cur s = t }.
Lemma At_ok s k p st t : At s k p st t -> tok_ok L LB t.
Proof. intros [H _ _ _ <-]. exact (i_tok H). Qed.
Lemma At_wf s k p st t : At s k p st t -> token_wf t.
Proof. intros H. exact (to_wf (At_ok H)). Qed.

Definition vs (k : pctx) (p : params) A (m : PM A) (R : token -> A -> token -> Prop) : Prop :=
  forall s st t, At s k p st t -> wp XV m (fun a s' => exists t', At s' k p st t' /\ R t a t') s.
Lemma use_vs k p A (m : PM A) R s st t : At s k p st t -> vs k p m R ->
  wp XV m (fun a s' => exists t', At s' k p st t' /\ R t a t') s.
Proof. intros H V. apply V. exact H. Qed.
Lemma vs_weaken k p A (m : PM A) (R R' : token -> A -> token -> Prop) : vs k p m R -> (forall t a t', R t a t' -> R' t a t') -> vs k p m R'.
Proof. intros H HR s st t HA. eapply wp_conseq; [apply H; exact HA|]. cbv beta. intros a s' (t' & H1 & H2). eauto. Qed.

Lemma XVE : forall e, 1 <= err_line e <= LB -> xE XV e. Proof. cbn; auto. Qed.

(** ** Primitive operations *)
Lemma v_start k p st t s : At s k p st t -> wp XV start_span (fun _ s' => At s' k p st t) s.
Proof. intros [H <- <- <- <-]. eapply wp_conseq; [eapply start_span_spec; exact H|]. cbv beta. intros _ s' (A1 & A2 & A3 & A4 & A5 & A6 & A7 & A8). constructor; auto. Qed.
Lemma v_end k p st t s : At s k p st t -> wp XV end_span (fun sp s' => At s' k p st t /\ span_ok L LB sp) s.
Proof. intros [H <- <- <- <-]. eapply wp_conseq; [eapply end_span_spec; [exact I|exact H]|]. cbv beta. intros sp s' [(A1 & A2 & A3 & A4 & A5 & A6 & A7 & A8) A9]. split; [constructor; auto|auto]. Qed.
Lemma v_peek k p st t s : At s k p st t -> wp XV peek_span (fun sp s' => At s' k p st t /\ span_ok L LB sp) s.
Proof. intros [H <- <- <- <-]. eapply wp_conseq; [eapply peek_span_spec; [exact I|exact H]|]. cbv beta. intros sp s' [-> A9]. split; [constructor; auto|auto]. Qed.
Lemma v_adv g k p st t s : At s k p st t -> wp XV (advance E g) (fun a s' => a = t /\ exists t', At s' k p st t') s.
Proof.
  intros [H <- <- <- <-]. eapply wp_conseq; [eapply (@advance_spec E L LB XV XVE I (fun _ => I) (fun _ => I)); exact H|].
  cbv beta. intros a s' (-> & (A1 & A2 & A3 & A4) & _). split; auto. exists (cur s'). constructor; auto.
Qed.
Lemma v_eat q g k p st t s : At s k p st t -> wp XV (consume_p E q g) (fun a s' => a = t /\ tval t = VPunc q /\ exists t', At s' k p st t') s.
Proof.
  intros [H <- <- <- <-]. eapply wp_conseq; [eapply (@consume_p_spec E L LB XV XVE I (fun _ => I) (fun _ => I)); exact H|].
  cbv beta. intros a s' (-> & B & (A1 & A2 & A3 & A4) & _). split; auto. split; auto. exists (cur s'). constructor; auto.
Qed.
Lemma v_kw q g k p st t s : At s k p st t -> wp XV (consume_kw E q g) (fun a s' => a = t /\ tok_kw t q = true /\ exists t', At s' k p st t') s.
Proof.
  intros [H <- <- <- <-]. eapply wp_conseq; [eapply (@consume_kw_spec E L LB XV XVE I (fun _ => I) (fun _ => I)); exact H|].
  cbv beta. intros a s' (-> & B & (A1 & A2 & A3 & A4) & _). split; auto. split; auto. exists (cur s'). constructor; auto.
Qed.
Lemma v_id q g k p st t s : At s k p st t -> wp XV (consume_id E q g) (fun a s' => a = t /\ tok_id t q = true /\ exists t', At s' k p st t') s.
Proof.
  intros [H <- <- <- <-]. eapply wp_conseq; [eapply (@consume_id_spec E L LB XV XVE I (fun _ => I) (fun _ => I)); exact H|].
  cbv beta. intros a s' (-> & B & (A1 & A2 & A3 & A4) & _). split; auto. split; auto. exists (cur s'). constructor; auto.
Qed.
Lemma v_semi g k p st t s : At s k p st t -> wp XV (consume_semicolon E g) (fun _ s' => exists t', At s' k p st t') s.
Proof.
  intros [H <- <- <- <-]. eapply wp_conseq; [eapply (@consume_semicolon_spec E L LB XV XVE I (fun _ => I) (fun _ => I)); exact H|].
  cbv beta. intros a s' ((A1 & A2 & A3 & A4) & _). exists (cur s'). constructor; auto.
Qed.
Lemma v_unexp A k p st t s (Q : A -> pst -> Prop) : At s k p st t -> wp XV (unexpected_current E) Q s.
Proof. intros [H _ _ _ _]. eapply (@unexpected_current_spec E L LB XV XVE I (fun _ => I) (fun _ => I)). exact H. Qed.
Lemma v_err A e k p st t s (Q : A -> pst -> Prop) : At s k p st t -> wp XV (error_current E e) Q s.
Proof. intros [H _ _ _ _]. eapply (@error_current_spec E L LB XV XVE I (fun _ => I) (fun _ => I)). exact H. Qed.
Lemma v_err_tok A e k p st t s0 s (Q : A -> pst -> Prop) : At s0 k p st t -> wp XV (error_tok t e) Q s.
Proof. intros H. apply wp_fail. exact (to_line (At_ok H)). Qed.
Lemma v_err_at A e k p st t s0 s c (Q : A -> pst -> Prop) : At s0 k p st t -> wp XV (err_at (tline t) c e) Q s.
Proof. intros H. apply wp_fail. exact (to_line (At_ok H)). Qed.
Lemma v_str g k p st t s : At s k p st t -> wp XV (advance_string E g) (fun w s' => t_to_string t = Some w /\ exists t', At s' k p st t') s.
Proof.
  intros H. unfold advance_string. apply wp_bind. eapply wp_conseq; [eapply v_adv; exact H|]. cbv beta.
  intros a s' (-> & t' & H'). apply wp_unwrap; [|intros; exact I]. intros. split; eauto.
Qed.
Lemma v_look k p st t s : At s k p st t -> wp XV (lookahead E) (fun a s' => tok_ok L LB a /\ At s' k p st t) s.
Proof.
  intros [H <- <- <- <-]. eapply wp_conseq; [eapply (@lookahead_spec E L LB XV XVE I (fun _ => I) (fun _ => I)); exact H|].
  cbv beta. intros a s' ((A1 & A2 & A3 & A4) & A5 & _ & A6 & _). split; auto. constructor; auto.
Qed.
Lemma v_ctx f k p st t s : At s k p st t -> wp XV (upd_ctx f) (fun _ s' => At s' (f k) p st t) s.
Proof. intros [[A B C D] <- <- <- <-]. apply wp_modify. constructor; auto. constructor; auto. Qed.
Lemma v_unwrap A q (o : option A) k p st t s : At s k p st t -> wp XV (unwrap q o) (fun a s' => o = Some a /\ At s' k p st t) s.
Proof. intros H. apply wp_unwrap; [|intros; exact I]. auto. Qed.
Lemma v_reserved k p st t s : At s k p st t -> wp XV strict_reserved (fun _ s' => At s' k p st t) s.
Proof.
  intros H. unfold strict_reserved. apply wp_bind, wp_gets, wp_bind, wp_gets. destruct (strict (ctx s)).
  - apply wp_unwrap; [auto|intros; exact I].
  - apply wp_ret. auto.
Qed.
Lemma v_curset k p st t s (Q : token -> pst -> Prop) : At s k p st t -> Q t s -> wp XV getcur Q s.
Proof. intros H HQ. apply wp_gets. rewrite (at_t H). exact HQ. Qed.
Lemma v_getctx k p st t s (Q : pctx -> pst -> Prop) : At s k p st t -> Q k s -> wp XV (gets ctx) Q s.
Proof. intros H HQ. apply wp_gets. rewrite (at_k H). exact HQ. Qed.
Lemma v_getprm k p st t s (Q : params -> pst -> Prop) : At s k p st t -> Q p s -> wp XV (gets prm) Q s.
Proof. intros H HQ. apply wp_gets. rewrite (at_p H). exact HQ. Qed.

Lemma vs_with_prm k p A f (m : PM A) R : vs k (f p) m R -> vs k p (with_prm f m) R.
Proof.
  intros H s st t [[A1 A2 A3 A4] <- <- <- <-]. unfold with_prm. apply wp_bind, wp_modify, wp_bind, wp_modify. cbn [prm set_pstack set_prm].
  apply wp_bind. eapply wp_conseq.
  { eapply use_vs; [|exact H]. constructor; [|reflexivity..]. constructor; auto. }
  cbv beta. cbn [pstack set_prm set_pstack cur ctx prm]. intros a s' (t' & [[B1 B2 B3 B4] <- B5 B6 <-] & HR).
  apply wp_bind. unfold wp, restore_params. rewrite B6. apply wp_ret. exists (cur s'). split; [|exact HR].
  constructor; auto. constructor; auto.
Qed.
Lemma vs_with_in k p A b (m : PM A) R : vs k (set_in b p) m R -> vs k p (with_in b m) R.
Proof. apply vs_with_prm. Qed.
Lemma vs_with_default k p A b (m : PM A) R : vs k (set_default b p) m R -> vs k p (with_default b m) R.
Proof. apply vs_with_prm. Qed.

(** ** What contexts permit *)
Record at_ctx (c : vctx) (k : pctx) (p : params) : Prop := mkAtc {
  ac_len : v_len c = L; ac_lines : v_lines c = LB;
  ac_strict : v_strict c = true -> strict k = true;
  ac_iter : in_iteration k = true -> v_iter c = true;
  ac_switch : in_switch k = true -> v_switch c = true;
  ac_ret : has_return p = true -> v_ret c = true;
  ac_yield : has_yield p = true -> v_yield c = true;
  ac_await : has_await p = true -> v_await c = true }.
Definition gd (k : pctx) (p : params) (a : part) : Prop := forall c, at_ctx c k p -> valid c a.
(** The same for positions where expressions may stand in patterns. *)
Definition gdw (k : pctx) (p : params) (a : part) : Prop := forall c, at_ctx c k p -> v_bind c = false -> valid c a.
Definition some_ctx (k : pctx) (p : params) : vctx :=
  mkV (has_return p) (in_iteration k) (in_switch k) (strict k) false false (has_yield p) (has_await p) false L LB.
Lemma some_ctx_ok k p : at_ctx (some_ctx k p) k p.
Proof. constructor; auto. Qed.

Lemma at_move c k p a r k' p' : at_ctx c k p ->
  (strict_step a r = true -> strict k' = true) -> (strict k = true -> strict k' = true) ->
  (in_iteration k' = true -> loop_step a r = true \/ in_iteration k = true) ->
  (in_switch k' = true -> switch_step a r = true \/ in_switch k = true) ->
  (has_return p' = true -> body_step a r = true \/ has_return p = true) ->
  (has_yield p' = true -> generator_step a r = true \/ has_yield p = true) ->
  (has_await p' = true -> async_step a r = true \/ has_await p = true) ->
  at_ctx (down c a r) k' p'.
Proof.
  intros [A B C D F G H I] H1 H2 H3 H4 H5 H6 H7. constructor; auto; unfold down; cbn [v_strict v_iter v_switch v_ret v_yield v_await].
  - destruct (strict_step a r); auto.
  - intros Hx. destruct (H3 Hx) as [->|Hy]; auto. destruct (loop_step a r); auto.
  - intros Hx. destruct (H4 Hx) as [->|Hy]; auto. destruct (switch_step a r); auto.
  - intros Hx. destruct (H5 Hx) as [->|Hy]; auto. destruct (body_step a r); auto.
  - intros Hx. destruct (H6 Hx) as [->|Hy]; auto. destruct (generator_step a r); auto.
  - intros Hx. destruct (H7 Hx) as [->|Hy]; auto. destruct (async_step a r); auto.
Qed.
Lemma at_span c k p sp : at_ctx c k p -> span_ok L LB sp -> span_within (v_len c) (v_lines c) sp.
Proof. intros H Hs. rewrite (ac_len H), (ac_lines H). exact Hs. Qed.
Lemma at_line c k p n : at_ctx c k p -> 1 <= n <= v_lines c -> 1 <= n <= LB.
Proof. intros H. rewrite (ac_lines H). auto. Qed.

(** ** Function bodies: the prologue counts. *)
Definition at_body (c : vctx) (k : pctx) (p : params) (l : list node) : Prop :=
  at_ctx (mkV (v_ret c) (v_iter c) (v_switch c) false (v_top c) (v_root c) (v_yield c) (v_await c) (v_bind c) (v_len c) (v_lines c)) k p /\
  (v_strict c = true -> strict k = true \/ use_strict l = true).
Definition gdb (k : pctx) (p : params) (b : node) : Prop :=
  is_block b = true /\ forall c, at_body c k p (statements_of b) -> valid c (T_Node b).
Lemma at_body_move c k p a p' b : at_ctx c k p -> is_class a = false -> is_module_root a = false ->
  code_of a = statements_of b ->
  (has_yield p' = true -> generator_step a Body = true \/ has_yield p = true) ->
  (has_await p' = true -> async_step a Body = true \/ has_await p = true) ->
  at_body (down c a Body) k p' (statements_of b).
Proof.
  intros [A B C D F G H I] H1 H2 H3 H6 H7. split.
  - constructor; auto; unfold down; cbn [v_strict v_iter v_switch v_ret v_yield v_await]; try discriminate.
    + unfold switch_step. intros Hx. destruct (is_switch a); auto.
    + intros Hx. destruct (H6 Hx) as [->|Hy]; auto. destruct (generator_step a Body); auto.
    + intros Hx. destruct (H7 Hx) as [->|Hy]; auto. destruct (async_step a Body); auto.
  - unfold down, strict_step. cbn [v_strict]. rewrite H1, H2, H3. cbn [orb].
    destruct (use_strict (statements_of b)); auto.
Qed.

(** ** Expressions *)
Definition litfirst (t : token) (a : node) : Prop :=
  match a with NLiteral (VStr v) _ _ _ => ttype t = TString \/ v = s2l "true" \/ v = s2l "false" | _ => True end.
Record ER (lv : N) (k : pctx) (p : params) (t : token) (a : node) : Prop := mkER {
  er_gd : gd k p (T_Node a); er_expr : is_expr a = true; er_level : lv <= level a; er_lit : litfirst t a }.
Definition er (lv : N) (k : pctx) (p : params) (t : token) (a : node) (t' : token) : Prop := ER lv k p t a.

(** Lists of children. *)
Lemma Forall_gd k p A (T : A -> part) l c a r : Forall (fun x => gd k p (T x)) l -> at_ctx (down c a r) k p ->
  Forall (fun x => valid (down c a r) (T x)) l.
Proof. intros H Ha. eapply Forall_impl; [|exact H]. cbv beta. intros x G. apply G. exact Ha. Qed.
Lemma Forall_gdo k p A (T : A -> part) l c a r : Forall (opt_all (fun x => gd k p (T x))) l -> at_ctx (down c a r) k p ->
  Forall (opt_all (fun x => valid (down c a r) (T x))) l.
Proof. intros H Ha. eapply Forall_impl; [|exact H]. cbv beta. intros [x|] G; cbn in *; auto. Qed.
Lemma FC_some c a r A (T : A -> part) x : valid (down c a r) (T x) -> FC c a (opt r T (Some x)).
Proof. intros H. apply FC_one. exact H. Qed.
Lemma FC_none c a r A (T : A -> part) : FC c a (opt r T None).
Proof. apply FC_nil. Qed.

(** ** Loops *)
Section Loops.
Context (A : Type) (f : PM A) (k : pctx) (p : params) (R : token -> A -> token -> Prop) (P : A -> Prop).
Hypothesis Hf : vs k p f R.
Hypothesis HP : forall t a t', R t a t' -> P a.
Lemma vs_while n pc : vs k p (parse_while_punc n pc f) (fun t l _ => Forall P l /\ (tok_punc t pc = true -> l <> [])).
Proof.
  induction n as [|n IH]; intros s st t H; [exact I|]. cbn [parse_while_punc]. apply wp_bind. eapply v_curset; [eassumption|].
  destruct (tok_punc t pc).
  - apply wp_bind. eapply wp_conseq; [eapply use_vs; [exact H|exact Hf]|]. cbv beta. intros x s1 (t1 & H1 & R1).
    apply wp_bind. eapply wp_conseq; [eapply use_vs; [exact H1|exact IH]|]. cbv beta. intros xs s2 (t2 & H2 & R2 & _).
    apply wp_ret. exists t2. split; [auto|]. split; [constructor; eauto|discriminate].
  - apply wp_ret. exists t. split; [auto|]. split; [constructor|discriminate].
Qed.
Lemma vs_until n pc : vs k p (parse_until_punc n pc f) (fun t l _ => Forall P l /\ (match l with x :: _ => exists t', R t x t' | [] => True end)).
Proof.
  induction n as [|n IH]; intros s st t H; [exact I|]. cbn [parse_until_punc]. apply wp_bind. eapply v_curset; [eassumption|].
  destruct (tok_punc t pc).
  - apply wp_ret. exists t. split; [auto|]. split; [constructor|exact I].
  - apply wp_bind. eapply wp_conseq; [eapply use_vs; [exact H|exact Hf]|]. cbv beta. intros x s1 (t1 & H1 & R1).
    apply wp_bind. eapply wp_conseq; [eapply use_vs; [exact H1|exact IH]|]. cbv beta. intros xs s2 (t2 & H2 & R2 & _).
    apply wp_ret. exists t2. split; [auto|]. split; [constructor; eauto|eauto].
Qed.
Lemma vs_until_rest (isrest : A -> bool) n pc : (forall t x t', R t x t' -> isrest x = true -> tok_punc t Ellipsis = true) ->
  vs k p (parse_until_punc_or_rest n pc f) (fun _ l _ => Forall P l /\ only_last isrest l).
Proof.
  intros Hr. induction n as [|n IH]; intros s st t H; [exact I|]. cbn [parse_until_punc_or_rest]. apply wp_bind. eapply v_curset; [eassumption|].
  destruct (tok_punc t pc).
  { apply wp_ret. exists t. split; [auto|]. split; [constructor|apply only_last_nil]. }
  destruct (tok_punc t Ellipsis) eqn:He.
  - apply wp_bind. eapply wp_conseq; [eapply use_vs; [exact H|exact Hf]|]. cbv beta. intros x s1 (t1 & H1 & R1).
    apply wp_ret. exists t1. split; [auto|]. split; [constructor; eauto|]. apply only_last_cons; auto. apply only_last_nil.
  - apply wp_bind. eapply wp_conseq; [eapply use_vs; [exact H|exact Hf]|]. cbv beta. intros x s1 (t1 & H1 & R1).
    apply wp_bind. eapply wp_conseq; [eapply use_vs; [exact H1|exact IH]|]. cbv beta. intros xs s2 (t2 & H2 & R2 & R3).
    apply wp_ret. exists t2. split; [auto|]. split; [constructor; eauto|]. apply only_last_cons; auto.
    intros Hx. rewrite (Hr _ _ _ R1 Hx) in He. discriminate He.
Qed.
Lemma vs_until_eof n : vs k p (parse_until_eof n f) (fun t l _ => Forall P l /\ (match l with x :: _ => exists t', R t x t' | [] => True end)).
Proof.
  induction n as [|n IH]; intros s st t H; [exact I|]. cbn [parse_until_eof]. apply wp_bind. eapply v_curset; [eassumption|].
  destruct (tok_is t TEof).
  - apply wp_ret. exists t. split; [auto|]. split; [constructor|exact I].
  - apply wp_bind. eapply wp_conseq; [eapply use_vs; [exact H|exact Hf]|]. cbv beta. intros x s1 (t1 & H1 & R1).
    apply wp_bind. eapply wp_conseq; [eapply use_vs; [exact H1|exact IH]|]. cbv beta. intros xs s2 (t2 & H2 & R2 & _).
    apply wp_ret. exists t2. split; [auto|]. split; [constructor; eauto|eauto].
Qed.
End Loops.

(** ** Conversions *)
Lemma v_conv k p A (m : cres A) (Q : vctx -> A -> Prop) st t s : At s k p st t ->
  (forall c, at_ctx c k p -> v_bind c = false -> cw c m (Q c)) ->
  wp XV (lift_c m) (fun a s' => At s' k p st t /\ forall c, at_ctx c k p -> v_bind c = false -> Q c a) s.
Proof.
  intros H Hm. unfold wp, lift_c. destruct m as [a|e|q]; cbn in *; auto.
  exact (Hm _ (some_ctx_ok k p) eq_refl).
Qed.
End Base.

Create HintDb vs discriminated.
#[export] Hint Constants Opaque : vs.
#[export] Hint Resolve vs_with_prm vs_with_in vs_with_default : vs.

(** ** Tactics *)
Ltac vdest := repeat match goal with
  | H : exists _, _ |- _ => destruct H
  | H : _ /\ _ |- _ => destruct H
  | H : er _ _ _ _ _ _ _ _ |- _ => unfold er in H
  | H : ER _ _ _ _ _ _ _ |- _ => destruct H
  end.
Ltac vuse tac := eapply wp_conseq; [tac|]; cbv beta; intros; vdest; subst.
Ltac vstep := cbv beta;
  lazymatch goal with
  | |- wp _ (bind _ _) _ _ => apply wp_bind
  | |- wp _ (ret _) _ _ => apply wp_ret
  | |- wp _ getcur _ _ => eapply v_curset; [eassumption|]; cbv beta
  | |- wp _ (gets ctx) _ _ => eapply v_getctx; [eassumption|]; cbv beta
  | |- wp _ (gets prm) _ _ => eapply v_getprm; [eassumption|]; cbv beta
  | |- wp _ (gets _) _ _ => apply wp_gets; cbv beta
  | |- wp _ start_span _ _ => vuse ltac:(eapply v_start; eassumption)
  | |- wp _ end_span _ _ => vuse ltac:(eapply v_end; eassumption)
  | |- wp _ peek_span _ _ => vuse ltac:(eapply v_peek; eassumption)
  | |- wp _ (advance _ _) _ _ => vuse ltac:(eapply v_adv; eassumption)
  | |- wp _ (upd_ctx _) _ _ => vuse ltac:(eapply v_ctx; eassumption)
  | |- wp _ (consume_p _ _ _) _ _ => vuse ltac:(eapply v_eat; eassumption)
  | |- wp _ (consume_kw _ _ _) _ _ => vuse ltac:(eapply v_kw; eassumption)
  | |- wp _ (consume_id _ _ _) _ _ => vuse ltac:(eapply v_id; eassumption)
  | |- wp _ (consume_semicolon _ _) _ _ => vuse ltac:(eapply v_semi; eassumption)
  | |- wp _ (unexpected_current _) _ _ => eapply v_unexp; eassumption
  | |- wp _ (error_current _ _) _ _ => eapply v_err; eassumption
  | |- wp _ (error_tok _ _) _ _ => eapply v_err_tok; eassumption
  | |- wp _ (err_at _ _ _) _ _ => eapply v_err_at; eassumption
  | |- wp _ (crash _) _ _ => exact I
  | |- wp _ nofuel _ _ => exact I
  | |- wp _ (unwrap _ _) _ _ => vuse ltac:(eapply v_unwrap; eassumption)
  | |- wp _ strict_reserved _ _ => vuse ltac:(eapply v_reserved; eassumption)
  | |- wp _ (advance_string _ _) _ _ => vuse ltac:(eapply v_str; eassumption)
  | |- wp _ (lookahead _) _ _ => vuse ltac:(eapply v_look; eassumption)
  | |- wp _ (if ?b then _ else _) _ _ => destruct b eqn:?
  | |- wp _ (let (_, _) := ?x in _) _ _ => destruct x
  | |- wp _ (match ?x with _ => _ end) _ _ => destruct x
  | |- wp _ _ _ _ => vuse ltac:(eapply use_vs; [eassumption|solve [eauto with vs]])
  end.
(** Leaves: a state and the relation. *)
Ltac vret := lazymatch goal with |- exists t', At _ _ _ _ _ _ t' /\ _ => eexists; split; [eassumption|] end.
Ltac mv := eapply at_move; [eassumption|
  cbn; intros; try discriminate; auto; try congruence ..].
Ltac vchild :=
  lazymatch goal with
  | |- valid _ ?x => match goal with H : gd _ _ _ _ x |- _ => apply H; mv end
  | |- Forall (fun x => valid _ _) ?l => match goal with H : Forall _ l |- _ => eapply Forall_gd; [exact H|mv] end
  | |- Forall (opt_all _) ?l => match goal with H : Forall _ l |- _ => eapply Forall_gdo; [exact H|mv] end
  end.
Ltac fc1 :=
  match goal with
  | |- FC _ _ [] => apply FC_nil
  | |- FC _ _ (_ ++ _) => apply FC_app
  | |- FC _ _ (one _ _) => apply FC_one
  | |- FC _ _ (on _ _ _) => apply FC_on
  | |- FC _ _ (opts _ _ _) => apply FC_opts
  | |- FC _ _ (opt _ _ (Some _)) => apply FC_some
  | |- FC _ _ (opt _ _ None) => apply FC_none
  end.
Ltac fc := cbn [children]; unfold function_children; repeat fc1; try (vchild; fail).
Ltac spans := cbn [own_spans]; repeat first [apply Forall_nil | apply Forall_cons]; try (eapply at_span; eassumption).
Ltac vgd := let c := fresh "c" in let Hc := fresh "Hc" in intros c Hc; apply valid_mk; [split; [spans|cbn [local_other local_node]]|fc].
Ltac recast H := let c := fresh "c" in let Hc := fresh "Hc" in let V := fresh "V" in
  intros c Hc; pose proof (H c Hc) as V; apply valid_mk;
  [split; [cbn [own_spans]; repeat first [apply Forall_nil | apply Forall_cons]; try (apply (@valid_span _ _ _ V); cbn; auto; fail)|
           try exact (valid_other V)]
  |intros ? ? Hi; exact (@valid_child _ _ _ _ V Hi)].
Ltac vwalk := repeat vstep; try vret.
Ltac vgo f := unfold f; let s := fresh "s" in let st := fresh "st" in let t := fresh "t" in let H := fresh "HA" in intros s st t H; vwalk.
Ltac ver := constructor; [vgd|try reflexivity|cbn [level]; try (intro; discriminate)|cbn [litfirst]; try exact I].
