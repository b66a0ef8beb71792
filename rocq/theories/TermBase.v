(** * TermBase: the specification form of the termination pass, and its tactics (proofs). *)
From Verif Require Import Base Codepoint Punct Token Scanner Ast Convert ParserBase ParserExpr ParserStmt Parser.
From Verif Require Import SpecLex SpecScan SpecParse Hoare ScanBase LexFacts ParserInv.
From Coq Require Import ZifyBool ZifyN ZifyNat.
Set Implicit Arguments.

(** Tokens that are not the end of input. *)
Lemma ne_punc t p : tok_punc t p = true -> ttype t <> TEof.
Proof. rewrite tok_punc_eq. intros []; congruence. Qed.
Lemma ne_kw t k : tok_kw t k = true -> ttype t <> TEof.
Proof. rewrite tok_kw_eq. intros []; congruence. Qed.
Lemma ne_id t k : tok_id t k = true -> ttype t <> TEof.
Proof. rewrite tok_id_eq. intros []; congruence. Qed.
Lemma ne_is t ty : tok_is t ty = true -> ty <> TEof -> ttype t <> TEof.
Proof. rewrite tok_is_eq. congruence. Qed.
Lemma ne_matches t p : token_wf t -> matches_punc t p = true -> ttype t <> TEof.
Proof. intros W. rewrite tok_punc_matches by auto. apply ne_punc. Qed.
Lemma ne_update t : token_wf t -> is_update_op t = true -> ttype t <> TEof.
Proof. intros W H He. unfold is_update_op in H. rewrite (wf_eof _ W He) in H. discriminate. Qed.
Lemma ne_binop t : is_bin_op t = true -> ttype t <> TEof.
Proof. unfold is_bin_op. destruct (ttype t); congruence. Qed.
Lemma ne_unary a t : token_wf t -> is_unary_op a t = Some true -> ttype t <> TEof.
Proof. intros W H He. unfold is_unary_op in H. rewrite (wf_eof _ W He), He in H. discriminate. Qed.
Lemma ne_head t : tok_template_head t = true -> ttype t <> TEof.
Proof. unfold tok_template_head. intros H. apply Bool.andb_true_iff in H. destruct H as [H _]. rewrite tok_is_eq in H. congruence. Qed.

Lemma str_punc t p : tok_punc t p = true -> exists w, t_to_string t = Some w.
Proof. rewrite tok_punc_eq. intros [_ H]. unfold t_to_string. rewrite H. eauto. Qed.
Lemma str_word t : token_wf t -> ttype t = TIdentifier \/ ttype t = TKeyword -> exists w, t_to_string t = Some w.
Proof.
  intros W [H|H].
  - destruct (wf_id _ W H) as [w Hw]. unfold t_to_string. rewrite Hw. eauto.
  - destruct (wf_kw _ W H) as [w Hw]. unfold t_to_string. rewrite Hw. eauto.
Qed.
Lemma str_update t : is_update_op t = true -> exists w, t_to_string t = Some w.
Proof. unfold is_update_op, t_to_string. destruct (tval t) as [| |p|]; try discriminate. eauto. Qed.
Lemma str_unary a t : token_wf t -> is_unary_op a t = Some true -> exists w, t_to_string t = Some w.
Proof.
  intros W H. unfold is_unary_op in H. destruct (ttype t) eqn:Ht;
    try (unfold t_to_string; destruct (tval t) as [| |p|]; try discriminate; eauto; fail).
  apply str_word; auto.
Qed.
Lemma str_binop t : token_wf t -> is_bin_op t = true -> exists w, t_to_string t = Some w.
Proof.
  intros W H. unfold is_bin_op in H. destruct (ttype t) eqn:Ht; try discriminate.
  - apply str_word; auto.
  - destruct (wf_punc _ W Ht) as [p Hp]. unfold t_to_string. rewrite Hp. eauto.
Qed.

Section Base.
Context (E : env) (L LB : N) (bnd : nat).

Definition XT : exc := mkExc (fun _ => True) (live_panic E) False.
Notation inv := (inv L LB).
Notation frame := (frame L LB).

(** [ts d b m R]: from a good state with measure at most [bnd - d], [m] returns
    (or fails, or reaches a live panic), keeps the context, consumes at least
    [b] tokens, and its result satisfies [R]. *)
Definition ts (d b : nat) {A} (m : PM A) (R : A -> Prop) : Prop :=
  forall s, inv s -> (mu s + d <= bnd)%nat ->
    wp XT m (fun a s' => frame s s' /\ (mu s' + b <= mu s)%nat /\ R a) s.
Definition any {A} (a : A) : Prop := True.
Definition noexpr (b : binding) : Prop := match b with B_Expr _ => False | _ => True end.

Lemma XTE : forall e, 1 <= err_line e <= LB -> xE XT e. Proof. cbn; auto. Qed.
Lemma XT1 : xP XT P_UnterminatedTemplate. Proof. exact I. Qed.
Lemma XT2 : checked E = true -> xP XT P_EscapeOverflow. Proof. exact (fun H => H). Qed.
Lemma XT3 : checked E = true -> xP XT P_EofUnderflow. Proof. exact (fun H => H). Qed.
Lemma XT4 : xP XT P_Marker. Proof. exact I. Qed.

Lemma tok_wf_inv s : inv s -> token_wf (cur s).
Proof. intros H. exact (to_wf (i_tok H)). Qed.

Lemma use_ts d b A (m : PM A) R s : ts d b m R -> inv s -> (mu s + d <= bnd)%nat ->
  wp XT m (fun a s' => frame s s' /\ (mu s' + b <= mu s)%nat /\ R a) s.
Proof. intros H. apply H. Qed.

Definition t_start := @start_span_spec L LB XT.
Definition t_end := @end_span_spec L LB XT XT4.
Definition t_peek := @peek_span_spec L LB XT XT4.
Definition t_adv := @advance_spec E L LB XT XTE XT1 XT2 XT3.
Definition t_adv1 := @advance_strict E L LB XT XTE XT1 XT2 XT3.
Definition t_eat := @consume_p_spec E L LB XT XTE XT1 XT2 XT3.
Definition t_kw := @consume_kw_spec E L LB XT XTE XT1 XT2 XT3.
Definition t_id := @consume_id_spec E L LB XT XTE XT1 XT2 XT3.
Definition t_semi := @consume_semicolon_spec E L LB XT XTE XT1 XT2 XT3.
Definition t_unexp := @unexpected_current_spec E L LB XT XTE XT1 XT2 XT3.
Definition t_err := @error_current_spec E L LB XT XTE XT1 XT2 XT3.
Definition t_str := @advance_string_spec E L LB XT XTE XT1 XT2 XT3.
Definition t_look := @lookahead_spec E L LB XT XTE XT1 XT2 XT3.

Lemma t_ctx f s : inv s -> wp XT (upd_ctx f) (fun _ s' => inv s' /\ scn s' = scn s /\ has_lt s' = has_lt s /\ cur s' = cur s /\
  ctx s' = f (ctx s) /\ prm s' = prm s /\ pstack s' = pstack s /\ mu s' = mu s) s.
Proof. intros [A B C D]. apply wp_modify. cbn. splits; auto. constructor; auto. Qed.

End Base.
#[export] Hint Resolve tok_wf_inv : core.

Create HintDb ts.

Ltac curs := repeat match goal with H : cur ?a = cur ?b |- context[cur ?a] => rewrite H end.
Ltac boolh := repeat match goal with
  | H : _ || _ = true |- _ => apply Bool.orb_true_iff in H; destruct H
  | H : _ && _ = true |- _ => apply Bool.andb_true_iff in H; destruct H
  end.
Ltac neof := curs; boolh; solve
  [ eapply ne_punc; eassumption | eapply ne_kw; eassumption | eapply ne_id; eassumption
  | eapply ne_is; [eassumption|discriminate] | eapply ne_matches; [|eassumption]; eauto
  | eapply ne_update; [|eassumption]; eauto | eapply ne_binop; eassumption
  | eapply ne_unary; [|eassumption]; eauto | eapply ne_head; eassumption ].
Ltac tostr := curs; boolh; solve
  [ eapply str_punc; eassumption | apply str_word; [eauto|]; solve [left; apply tok_is_eq; assumption | right; apply tok_is_eq; assumption
      | left; eapply tok_id_eq; eassumption | right; eapply tok_kw_eq; eassumption ]
  | eapply str_update; eassumption | eapply str_unary; [|eassumption]; eauto | eapply str_binop; [|eassumption]; eauto ].
Ltac dest := repeat match goal with
  | H : _ /\ _ |- _ => destruct H
  | H : ParserInv.frame _ _ _ _ |- _ => destruct H as (? & ? & ? & ?)
  | H : same _ _ _ _ |- _ => destruct H as (? & ? & ? & ? & ? & ? & ? & ?)
  end.
Ltac mlia := repeat match goal with H : @eq bool _ _ |- _ => clear H | H : @eq ?T _ _ |- _ => lazymatch T with nat => fail | _ => clear H end end; lia.
Ltac fin := unfold ParserInv.frame, any; splits; try assumption; try congruence; try mlia; try exact I; auto.
Ltac use_spec tac := eapply wp_conseq; [tac|]; cbv beta; intros; dest; subst.
Ltac tstep := cbv beta;
  lazymatch goal with
  | |- wp _ (bind _ _) _ _ => apply wp_bind
  | |- wp _ (ret _) _ _ => apply wp_ret
  | |- wp _ getcur _ _ => apply wp_gets; cbv beta; curs
  | |- wp _ (gets _) _ _ => apply wp_gets; cbv beta
  | |- wp _ start_span _ _ => use_spec ltac:(eapply t_start; eassumption)
  | |- wp _ end_span _ _ => use_spec ltac:(eapply t_end; eassumption)
  | |- wp _ peek_span _ _ => use_spec ltac:(eapply t_peek; eassumption)
  | |- wp _ (advance _ _) _ _ =>
      first [ use_spec ltac:(eapply t_adv1; [eassumption|neof])
            | use_spec ltac:(eapply t_adv; eassumption) ]
  | |- wp _ (upd_ctx _) _ _ => use_spec ltac:(eapply t_ctx; eassumption)
  | |- wp _ (consume_p _ _ _) _ _ => use_spec ltac:(eapply t_eat; eassumption)
  | |- wp _ (consume_kw _ _ _) _ _ => use_spec ltac:(eapply t_kw; eassumption)
  | |- wp _ (consume_id _ _ _) _ _ => use_spec ltac:(eapply t_id; eassumption)
  | |- wp _ (consume_semicolon _ _) _ _ => use_spec ltac:(eapply t_semi; eassumption)
  | |- wp _ (unexpected_current _) _ _ => eapply t_unexp; eassumption
  | |- wp _ (error_current _ _) _ _ => eapply t_err; eassumption
  | |- wp _ (error_tok _ _) _ _ => apply wp_fail; exact I
  | |- wp _ (err_at _ _ _) _ _ => apply wp_fail; exact I
  | |- wp _ (unexpected _ _) _ _ => apply wp_fail; exact I
  | |- wp _ (crash _) _ _ => apply wp_crash; try exact I
  | |- wp _ (advance_string _ _) _ _ => use_spec ltac:(eapply t_str; [eassumption|tostr])
  | |- wp _ (lookahead _) _ _ => use_spec ltac:(eapply t_look; eassumption)
  | |- wp _ (if ?b then _ else _) _ _ => destruct b eqn:?
  | |- wp _ (let (_, _) := ?x in _) _ _ => destruct x eqn:?
  | |- wp _ (match ?x with _ => _ end) _ _ => destruct x eqn:?
  | |- wp _ _ _ _ => use_spec ltac:(eapply use_ts; [solve [eauto with ts]|eassumption|mlia])
  end.
Ltac ctxeq := repeat match goal with H : ctx ?x = _ |- context[ctx ?x] => rewrite H end;
  repeat match goal with H : strict ?x = _ |- _ => clear H end;
  match goal with |- context[ctx ?x] => destruct (ctx x) end; reflexivity.
Ltac walk := repeat tstep; try solve [fin].
Ltac start f := unfold f; intros ? ? ?.


Ltac go f := unfold f; intros s0 ? ?; walk.

Section Comb.
Context (E : env) (L LB : N) (bnd n : nat).
Hypothesis Hbnd : (bnd < n)%nat.
Notation inv := (inv L LB).
Notation frame := (frame L LB).
Notation ts := (ts E L LB bnd).
Notation XT := (XT E).

(** ** Combinators *)

Lemma ts_weaken d b A (m : PM A) R d' b' (R' : A -> Prop) : ts d b m R -> (d <= d')%nat -> (b' <= b)%nat -> (forall a, R a -> R' a) -> ts d' b' m R'.
Proof. intros H H1 H2 H3 s Hi Hm. eapply wp_conseq; [apply H; auto; lia|]. cbv beta. intros a s' (F & M & HR). splits; auto; lia. Qed.

Lemma inv_prm s p st : inv s -> inv (set_prm p (set_pstack st s)).
Proof. intros [A B C D]. constructor; auto. Qed.
Lemma inv_pstack s st : inv s -> inv (set_pstack st s).
Proof. intros [A B C D]. constructor; auto. Qed.
Lemma inv_ctx s c : inv s -> inv (set_ctx c s).
Proof. intros [A B C D]. constructor; auto. Qed.
#[local] Hint Resolve inv_prm inv_pstack inv_ctx : core.

Lemma ts_with_prm d b A f (m : PM A) R : ts d b m R -> ts d b (with_prm f m) R.
Proof.
  intros H s Hi Hm. unfold with_prm. apply wp_bind, wp_modify, wp_bind, wp_modify. cbn [prm set_pstack set_prm].
  apply wp_bind. eapply wp_conseq; [apply H; [apply (@inv_prm s); auto|exact Hm]|]. cbv beta.
  intros a s' ((F1 & F2 & F3 & F4) & M & HR). cbn in F2, F3, F4. apply wp_bind. unfold wp, restore_params. rewrite F4. apply wp_ret.
  splits; auto. unfold ParserInv.frame; cbn; auto.
Qed.
Lemma ts_with_in d b A x (m : PM A) R : ts d b m R -> ts d b (with_in x m) R.
Proof. apply ts_with_prm. Qed.
Lemma ts_with_default d b A x (m : PM A) R : ts d b m R -> ts d b (with_default x m) R.
Proof. apply ts_with_prm. Qed.
#[local] Hint Resolve ts_with_prm ts_with_in ts_with_default : ts.

Lemma ts_while A k p (f : PM A) (R : A -> Prop) : ts 0 1 f R -> forall s, inv s -> (mu s <= bnd)%nat -> (mu s < k)%nat ->
  wp XT (parse_while_punc k p f) (fun a s' => frame s s' /\ (mu s' <= mu s)%nat /\ Forall R a) s.
Proof.
  intros H. induction k as [|k IH]; intros s Hi Hm Hk; [lia|]. cbn [parse_while_punc].
  repeat tstep; [|fin]. use_spec ltac:(apply IH; auto; lia). tstep. fin.
Qed.
Lemma ts_until A k p (f : PM A) (R : A -> Prop) d : ts d 1 f R -> forall s, inv s -> (mu s + d <= bnd)%nat -> (mu s < k)%nat ->
  wp XT (parse_until_punc k p f) (fun a s' => frame s s' /\ (mu s' <= mu s)%nat /\ Forall R a) s.
Proof.
  intros H. induction k as [|k IH]; intros s Hi Hm Hk; [lia|]. cbn [parse_until_punc].
  repeat tstep; [fin|]. use_spec ltac:(apply IH; auto; lia). tstep. fin.
Qed.
Lemma ts_until_rest A k p (f : PM A) (R : A -> Prop) d : ts d 1 f R -> forall s, inv s -> (mu s + d <= bnd)%nat -> (mu s < k)%nat ->
  wp XT (parse_until_punc_or_rest k p f) (fun a s' => frame s s' /\ (mu s' <= mu s)%nat /\ Forall R a) s.
Proof.
  intros H. induction k as [|k IH]; intros s Hi Hm Hk; [lia|]. cbn [parse_until_punc_or_rest].
  repeat tstep; [fin|fin|]. use_spec ltac:(apply IH; auto; lia). tstep. fin.
Qed.
Lemma ts_until_eof A k (f : PM A) (R : A -> Prop) d : ts d 1 f R -> forall s, inv s -> (mu s + d <= bnd)%nat -> (mu s < k)%nat ->
  wp XT (parse_until_eof k f) (fun a s' => frame s s' /\ ttype (cur s') = TEof /\ (mu s' <= mu s)%nat /\ Forall R a) s.
Proof.
  intros H. induction k as [|k IH]; intros s Hi Hm Hk; [lia|]. cbn [parse_until_eof].
  repeat tstep; [fin; apply tok_is_eq; auto|]. use_spec ltac:(apply IH; auto; lia). tstep. fin.
Qed.
Lemma ts_while_n A p (f : PM A) R : ts 0 1 f R -> ts 0 0 (parse_while_punc n p f) (Forall R).
Proof. intros H s Hi Hm. use_spec ltac:(eapply ts_while; eauto; lia). fin. Qed.
Lemma ts_until_n A p (f : PM A) R d : ts d 1 f R -> ts d 0 (parse_until_punc n p f) (Forall R).
Proof. intros H s Hi Hm. use_spec ltac:(eapply ts_until; eauto; lia). fin. Qed.
Lemma ts_until_rest_n A p (f : PM A) R d : ts d 1 f R -> ts d 0 (parse_until_punc_or_rest n p f) (Forall R).
Proof. intros H s Hi Hm. use_spec ltac:(eapply ts_until_rest; eauto; lia). fin. Qed.
#[local] Hint Resolve ts_while_n ts_until_n ts_until_rest_n : ts.


(** ** Names *)
Lemma strict_reserved_t : ts 0 0 strict_reserved any.
Proof.
  unfold strict_reserved. intros s ? ?. repeat tstep; try fin.
  apply wp_unwrap; [|intros; exact I]. intros. fin.
Qed.
#[local] Hint Resolve strict_reserved_t : ts.
(** [strict_reserved] does not move. *)
Lemma strict_reserved_same (Q : bool -> pst -> Prop) s : (forall b, Q b s) -> wp XT strict_reserved Q s.
Proof.
  intros H. unfold strict_reserved. apply wp_bind, wp_gets, wp_bind, wp_gets. destruct (strict (ctx s)).
  - apply wp_unwrap; [auto|intros; exact I].
  - apply wp_ret. auto.
Qed.
Ltac tstep0 := match goal with |- wp _ strict_reserved _ _ => apply strict_reserved_same; intros ? | _ => tstep end.

Definition is_ident (a : node) : Prop := exists name at_ sp, a = Identifier name at_ sp.
Lemma id_reference_t : ts 0 1 (parse_id_reference E) is_ident.
Proof. unfold parse_id_reference. intros s ? ?. repeat tstep0; fin; unfold is_ident; eauto. Qed.
Definition is_bid (b : binding) : Prop := exists name sp, b = B_Id name sp.
Lemma binding_id_t : ts 0 1 (parse_binding_id E) is_bid.
Proof. unfold parse_binding_id. intros s ? ?. repeat tstep0; fin; unfold is_bid; eauto. Qed.
Lemma id_name_t g : ts 0 1 (parse_id_name E g) any.
Proof.
  unfold parse_id_name. intros s ? ?. repeat tstep.
  apply wp_unwrap; [intros; fin|]. intros Hn. exfalso.
  assert (W : exists w, tval (cur s) = VStr w).
  { boolh; rewrite tok_is_eq in *; [eapply wf_id|eapply wf_kw]; eauto. }
  destruct W as [w Hw]. rewrite Hw in Hn. discriminate.
Qed.
#[local] Hint Resolve id_reference_t binding_id_t id_name_t : ts.


End Comb.
#[export] Hint Resolve inv_prm inv_pstack inv_ctx : core.
#[export] Hint Resolve ts_with_prm ts_with_in ts_with_default ts_while_n ts_until_n ts_until_rest_n : ts.
#[export] Hint Resolve id_reference_t binding_id_t id_name_t : ts.
Ltac tstep0 := match goal with |- wp _ strict_reserved _ _ => apply strict_reserved_same; intros ? | _ => tstep end.
