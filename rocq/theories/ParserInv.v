(** * ParserInv: the invariant of parser states and the primitive operations (proofs). *)
From Verif Require Import Base Codepoint Punct Token Scanner Ast Convert ParserBase ParserExpr.
From Verif Require Import SpecLex SpecScan Hoare ScanBase ScanTrivia ScanToken ScanTokens2 ScanNext LexFacts.
From Coq Require Import ZifyBool ZifyN ZifyNat.
Set Implicit Arguments.

(** ** Facts about tokens *)

Lemma wf_punct t p : token_wf t -> tval t = VPunc p -> ttype t = TPunctuator.
Proof.
  unfold token_wf. intros H Hp. destruct (ttype t); auto; exfalso;
    repeat match goal with
           | H : _ \/ _ |- _ => destruct H
           | H : exists _, _ |- _ => destruct H
           | H : _ /\ _ |- _ => destruct H end; congruence.
Qed.
Lemma wf_eof t : token_wf t -> ttype t = TEof -> tval t = VNull.
Proof. unfold token_wf. intros H He. rewrite He in H. auto. Qed.
Lemma wf_kw t : token_wf t -> ttype t = TKeyword -> exists w, tval t = VStr w.
Proof. unfold token_wf. intros H He. rewrite He in H. firstorder. Qed.
Lemma wf_id t : token_wf t -> ttype t = TIdentifier -> exists w, tval t = VStr w.
Proof. unfold token_wf. intros H He. rewrite He in H. firstorder. Qed.
Lemma wf_punc t : token_wf t -> ttype t = TPunctuator -> exists p, tval t = VPunc p.
Proof. unfold token_wf. intros H He. rewrite He in H. firstorder. Qed.

Lemma tt_eqb_eq a b : tt_eqb a b = true <-> a = b.
Proof. destruct a, b; cbn; intuition congruence. Qed.
Lemma tok_is_eq t ty : tok_is t ty = true <-> ttype t = ty.
Proof. apply tt_eqb_eq. Qed.
Lemma punct_eqb_eq a b : punct_eqb a b = true <-> a = b.
Proof. unfold punct_eqb. destruct (punct_eq_dec a b); intuition congruence. Qed.
Lemma matches_punc_eq t p : matches_punc t p = true <-> tval t = VPunc p.
Proof.
  unfold matches_punc. destruct (tval t); try (split; congruence).
  rewrite punct_eqb_eq. split; congruence.
Qed.
Lemma tok_punc_eq t p : tok_punc t p = true <-> ttype t = TPunctuator /\ tval t = VPunc p.
Proof. unfold tok_punc. rewrite Bool.andb_true_iff, tt_eqb_eq, matches_punc_eq. reflexivity. Qed.
Lemma tok_punc_matches t p : token_wf t -> matches_punc t p = tok_punc t p.
Proof.
  intros W. destruct (matches_punc t p) eqn:H.
  - symmetry. apply tok_punc_eq. apply matches_punc_eq in H. split; eauto using wf_punct.
  - unfold tok_punc. rewrite H. symmetry. apply Bool.andb_false_r.
Qed.
Lemma str_eqb_eq a b : str_eqb a b = true <-> a = b.
Proof.
  revert b. induction a as [|x a IH]; intros [|y b]; cbn; try (split; congruence).
  rewrite Bool.andb_true_iff, N.eqb_eq, IH. split; [intros []; congruence|intros [= -> ->]; auto].
Qed.
Lemma matches_str_eq t k : matches_str t k = true <-> tval t = VStr (s2l k).
Proof.
  unfold matches_str. destruct (tval t); try (split; congruence).
  rewrite str_eqb_eq. split; congruence.
Qed.
Lemma tok_kw_eq t k : tok_kw t k = true <-> ttype t = TKeyword /\ tval t = VStr (s2l k).
Proof. unfold tok_kw. rewrite Bool.andb_true_iff, tt_eqb_eq, matches_str_eq. reflexivity. Qed.
Lemma tok_id_eq t k : tok_id t k = true <-> ttype t = TIdentifier /\ tval t = VStr (s2l k).
Proof. unfold tok_id. rewrite Bool.andb_true_iff, tt_eqb_eq, matches_str_eq. reflexivity. Qed.

(** ** The invariant *)
Section Inv.
Context (E : env) (L LB : N).

Record tok_ok (t : token) : Prop := mkTokOk {
  to_wf : token_wf t;
  to_start : tstart t <= L;
  to_line : 1 <= tline t <= LB
}.
Definition mark_ok (m : marker) : Prop := mk_idx m <= L /\ 1 <= mk_line m <= LB.

Record sinv (s : sst) : Prop := mkSinv {
  si_hist : hist s;
  si_cur : current s + len (rest s) <= L;
  si_line1 : 1 <= line s;
  si_lines : line s + breaks (rest s) [] <= LB;
  si_un : forall t, unscanned s = Some t -> tok_ok t /\ (ttype t = TEof -> rest s = [])
}.
Record inv (s : pst) : Prop := mkInv {
  i_scn : sinv (scn s);
  i_tok : tok_ok (cur s);
  i_eof : ttype (cur s) = TEof -> rest (scn s) = [] /\ forall t, unscanned (scn s) = Some t -> ttype t = TEof;
  i_marks : Forall mark_ok (marks s)
}.

Definition noteof (t : token) : nat := match ttype t with TEof => O | _ => 1%nat end.
Definition smu (s : sst) : nat :=
  (length (rest s) + match unscanned s with Some t => noteof t | None => 0 end)%nat.
Definition mu (s : pst) : nat := (smu (scn s) + noteof (cur s))%nat.

Definition xlines (xp : panic -> Prop) (xf : Prop) : exc := mkExc (fun e => 1 <= err_line e <= LB) xp xf.

(** Reading one token. *)
Lemma s_next_inv g s (X : exc) : sinv s ->
  (forall e, 1 <= err_line e <= LB -> xE X e) ->
  xP X P_UnterminatedTemplate -> (checked E = true -> xP X P_EscapeOverflow) -> (checked E = true -> xP X P_EofUnderflow) ->
  wp X (s_next E g) (fun t s' => sinv s' /\ tok_ok t /\ (smu s' + noteof t <= smu s)%nat /\
    unscanned s' = None /\ sstate s' = sstate s /\ (ttype t = TEof -> rest s' = [])) s.
Proof.
  intros [[Hq Hs] H1 H2 H3 H4] XE XP1 XP2 XP3. destruct (unscanned s) as [u|] eqn:Hu.
  - unfold wp, s_next. rewrite Hu. destruct (H4 _ eq_refl) as [A B].
    split; [constructor; cbn; auto; [split; auto|discriminate]|]. split; [auto|]. split; [|auto].
    unfold smu. rewrite Hu. cbn. lia.
  - pose proof (@s_next_fresh E g s Hq Hu) as W. unfold wp in *.
    destruct (s_next E g s) as [t s'|e|p|]; cbn in W.
    + destruct W as (tr & l & Nt).
      assert (Hb : line s' + breaks (rest s') [] = line s + breaks (rest s) []).
      { rewrite (nt_breaks Nt), (nt_rest Nt), app_assoc, (breaks_app (tr ++ l) (rest s')), app_nil_r. lia. }
      assert (Hc : current s' + len (rest s') = current s + len (rest s)).
      { rewrite (nt_current Nt), (nt_rest Nt), !len_app. lia. }
      assert (Ho : ttype t = TEof -> rest s' = []).
      { intros He. apply (nt_eof_rest Nt). apply (nt_eof Nt). exact He. }
      splits.
      * constructor; try lia.
        -- split; [exact (nt_quiet Nt)|]. rewrite (nt_sstate Nt). exact Hs.
        -- rewrite (nt_breaks Nt). lia.
        -- rewrite (nt_unscanned Nt). discriminate.
      * constructor; [exact (nt_wf Nt)| |].
        -- rewrite (nt_start Nt). rewrite (nt_rest Nt), !len_app in H1. lia.
        -- rewrite (nt_line Nt). split; [|lia]. rewrite (nt_breaks Nt). lia.
      * unfold smu. rewrite Hu, (nt_unscanned Nt), (nt_rest Nt), !app_length.
        unfold noteof. pose proof (nt_eof Nt) as He. destruct l; cbn [length].
        -- rewrite (proj2 He eq_refl). lia.
        -- destruct (ttype t); lia.
      * exact (nt_unscanned Nt).
      * exact (nt_sstate Nt).
      * exact Ho.
    + destruct W as (l & r & Hr & He). apply XE. rewrite He. split; [lia|].
      assert (breaks (rest s) [] = breaks l r + breaks r []) by (rewrite Hr, breaks_app, app_nil_r; lia). lia.
    + destruct W as [[-> _]|[(-> & ? & _)|(-> & ? & _)]]; auto.
    + contradiction.
Qed.

(** ** Primitive parser operations *)
Definition frame (s s' : pst) : Prop := inv s' /\ ctx s' = ctx s /\ prm s' = prm s /\ pstack s' = pstack s.

Context (X : exc).
Hypothesis XE : forall e, 1 <= err_line e <= LB -> xE X e.
Hypothesis XP1 : xP X P_UnterminatedTemplate.
Hypothesis XP2 : checked E = true -> xP X P_EscapeOverflow.
Hypothesis XP3 : checked E = true -> xP X P_EofUnderflow.
Hypothesis XP4 : xP X P_Marker.
Hypothesis XP5 : xP X P_ToStr.

Lemma mu_decr (s : pst) : (noteof (cur s) <= mu s)%nat.
Proof. unfold mu. lia. Qed.

Lemma advance_spec g s : inv s ->
  wp X (advance E g) (fun t s' => t = cur s /\ frame s s' /\ marks s' = marks s /\ (mu s' + noteof (cur s) <= mu s)%nat) s.
Proof.
  intros [A B C D]. pose proof (@s_next_inv g (scn s) X A XE XP1 XP2 XP3) as W.
  unfold wp, advance in *. destruct (s_next E g (scn s)) as [t sc|e|p|]; auto.
  destruct W as (W1 & W2 & W3 & W4 & W5 & W6). split; [reflexivity|]. split; [|split; [reflexivity|]].
  - split; [|cbn; auto]. constructor; cbn; auto. intros He. split; auto. rewrite W4. discriminate.
  - unfold mu, set_cur, set_scn. cbn [scn cur]. lia.
Qed.

Lemma error_tok_spec A t e (Q : A -> pst -> Prop) s : tok_ok t -> wp X (error_tok t e) Q s.
Proof. intros [_ _ H]. apply wp_fail. apply XE. exact H. Qed.
Lemma error_current_spec A e (Q : A -> pst -> Prop) s : inv s -> wp X (error_current E e) Q s.
Proof.
  intros H. apply wp_bind. eapply wp_conseq; [apply advance_spec; auto|].
  intros t s' (-> & _). apply error_tok_spec. exact (i_tok H).
Qed.
Lemma unexpected_spec A t (Q : A -> pst -> Prop) s : tok_ok t -> wp X (unexpected E t) Q s.
Proof. apply error_tok_spec. Qed.
Lemma unexpected_current_spec A (Q : A -> pst -> Prop) s : inv s -> wp X (unexpected_current E) Q s.
Proof.
  intros H. apply wp_bind. eapply wp_conseq; [apply advance_spec; auto|].
  intros t s' (-> & _). apply unexpected_spec. exact (i_tok H).
Qed.
Lemma err_at_spec A l c e (Q : A -> pst -> Prop) s : 1 <= l <= LB -> wp X (err_at l c e) Q s.
Proof. intros H. apply wp_fail. apply XE. exact H. Qed.

Lemma noteof_1 t : ttype t <> TEof -> noteof t = 1%nat.
Proof. unfold noteof. destruct (ttype t); congruence. Qed.

Lemma advance_strict g s : inv s -> ttype (cur s) <> TEof ->
  wp X (advance E g) (fun t s' => t = cur s /\ frame s s' /\ marks s' = marks s /\ (mu s' < mu s)%nat) s.
Proof.
  intros H Hn. eapply wp_conseq; [apply advance_spec; auto|].
  intros t s' (-> & F & M & H1). rewrite noteof_1 in H1 by auto. splits; auto; lia.
Qed.

Lemma val_not_eof t p : token_wf t -> tval t = VPunc p -> ttype t <> TEof.
Proof. intros W H He. pose proof (wf_eof _ W He). congruence. Qed.

Lemma consume_p_spec p g s : inv s ->
  wp X (consume_p E p g) (fun t s' => t = cur s /\ tval t = VPunc p /\ frame s s' /\ marks s' = marks s /\ (mu s' < mu s)%nat) s.
Proof.
  intros H. unfold consume_p. apply wp_bind, wp_gets. destruct (matches_punc (cur s) p) eqn:M.
  - apply matches_punc_eq in M. eapply wp_conseq; [apply advance_strict; auto|].
    + eapply val_not_eof; eauto. exact (to_wf (i_tok H)).
    + intros t s' (-> & F). auto.
  - apply unexpected_current_spec; auto.
Qed.
Lemma consume_kw_spec k g s : inv s ->
  wp X (consume_kw E k g) (fun t s' => t = cur s /\ tok_kw t k = true /\ frame s s' /\ marks s' = marks s /\ (mu s' < mu s)%nat) s.
Proof.
  intros H. unfold consume_kw. apply wp_bind, wp_gets. destruct (tok_kw (cur s) k) eqn:M.
  - eapply wp_conseq; [apply advance_strict; auto|].
    + apply tok_kw_eq in M. destruct M. congruence.
    + intros t s' (-> & F). auto.
  - apply unexpected_current_spec; auto.
Qed.
Lemma consume_id_spec k g s : inv s ->
  wp X (consume_id E k g) (fun t s' => t = cur s /\ tok_id t k = true /\ frame s s' /\ marks s' = marks s /\ (mu s' < mu s)%nat) s.
Proof.
  intros H. unfold consume_id. apply wp_bind, wp_gets. destruct (tok_id (cur s) k) eqn:M.
  - eapply wp_conseq; [apply advance_strict; auto|].
    + apply tok_id_eq in M. destruct M. congruence.
    + intros t s' (-> & F). auto.
  - apply unexpected_current_spec; auto.
Qed.
Lemma frame_refl s : inv s -> frame s s.
Proof. unfold frame; auto. Qed.
Lemma frame_trans s1 s2 s3 : frame s1 s2 -> frame s2 s3 -> frame s1 s3.
Proof. intros (A1 & A2 & A3 & A4) (B1 & B2 & B3 & B4). unfold frame; splits; try congruence; auto. Qed.

Lemma consume_semicolon_spec g s : inv s ->
  wp X (consume_semicolon E g) (fun _ s' => frame s s' /\ marks s' = marks s /\ (mu s' <= mu s)%nat) s.
Proof.
  intros H. unfold consume_semicolon. apply wp_bind, wp_gets. apply wp_bind, wp_gets.
  destruct (tok_punc (cur s) Semicolon).
  - apply wp_bind. eapply wp_conseq; [apply advance_spec; auto|]. intros t s' (-> & F & M & H1). apply wp_ret. splits; auto; lia.
  - destruct (has_lt s); cbn [negb]; [apply wp_ret; splits; auto using frame_refl|].
    destruct (tok_punc (cur s) RBrace); [apply wp_ret; splits; auto using frame_refl|].
    destruct (tok_is (cur s) TEof); [apply wp_ret; splits; auto using frame_refl|].
    apply unexpected_current_spec; auto.
Qed.

Lemma here_ok s : inv s -> mark_ok (here s).
Proof using.
  clear XP1 XP2 XP3 XP4 XP5 XE X E.
  intros H. destruct (i_scn H) as [_ A B C _]. unfold mark_ok, here; cbn. split; lia.
Qed.
Lemma inv_start_span s : inv s ->
  inv (set_marks (mkMarker (tline (cur s)) (tcol (cur s)) (tstart (cur s)) :: marks s) s).
Proof.
  intros [A B C D]. constructor; cbn; auto. constructor; auto. destruct B as [_ B1 B2]. split; auto.
Qed.
(** [same s s']: nothing but the markers differs. *)
Definition same (s s' : pst) : Prop :=
  inv s' /\ scn s' = scn s /\ has_lt s' = has_lt s /\ cur s' = cur s /\ ctx s' = ctx s /\ prm s' = prm s /\ pstack s' = pstack s /\ mu s' = mu s.
Lemma start_span_spec s : inv s -> wp X start_span (fun _ s' => same s s') s.
Proof. intros H. apply wp_modify. split; [apply inv_start_span; auto|]. cbn; auto 10. Qed.
Definition span_ok (sp : span) : Prop := mark_ok (sp_start sp) /\ mark_ok (sp_end sp).
Lemma end_span_spec s : inv s -> wp X end_span (fun sp s' => same s s' /\ span_ok sp) s.
Proof using XP4.
  clear XP1 XP2 XP3 XP5 XE E.
  intros H. unfold wp, end_span. destruct (marks s) as [|m ms] eqn:M; auto.
  destruct H as [A B C D]. rewrite M in D. inversion D; subst. unfold same. splits; cbn; auto.
  - constructor; cbn; auto.
  - split; auto. cbn. apply here_ok. constructor; auto. rewrite M; auto.
Qed.
Lemma peek_span_spec s : inv s -> wp X peek_span (fun sp s' => s' = s /\ span_ok sp) s.
Proof using XP4.
  clear XP1 XP2 XP3 XP5 XE E.
  intros H. unfold wp, peek_span. destruct (marks s) as [|m ms] eqn:M; auto.
  pose proof (i_marks H) as D. rewrite M in D. inversion D; subst. splits; auto.
  split; auto. cbn. apply here_ok. auto.
Qed.

Lemma advance_string_spec g s : inv s -> (exists w, t_to_string (cur s) = Some w) ->
  wp X (advance_string E g) (fun w s' => t_to_string (cur s) = Some w /\ frame s s' /\ marks s' = marks s /\ (mu s' < mu s)%nat) s.
Proof.
  intros H (w & Hw). unfold advance_string. apply wp_bind.
  eapply wp_conseq; [apply advance_strict; auto|].
  - intros He. pose proof (wf_eof _ (to_wf (i_tok H)) He) as Hv. unfold t_to_string in Hw. rewrite Hv in Hw. discriminate.
  - intros t s' (-> & F & M & Hm). apply wp_unwrap; [|congruence].
    intros a Ha. splits; auto.
Qed.

Lemma lookahead_spec s : inv s ->
  wp X (lookahead E) (fun t s' => frame s s' /\ cur s' = cur s /\ marks s' = marks s /\ tok_ok t /\ (mu s' <= mu s)%nat) s.
Proof.
  intros [A B C D]. unfold wp, lookahead, bind, lift_s.
  cbv beta iota delta [save_state modify].
  set (sc1 := set_sstate _ (scn s)).
  assert (A1 : sinv sc1).
  { destruct A as [[Hq Hs] H1 H2 H3 H4]. constructor; auto. split; auto.
    cbn. intros v [= <-]. cbn. apply Hq. }
  cbn [scn set_scn].
  pose proof (@s_next_inv GRegExp sc1 X A1 XE XP1 XP2 XP3) as W. unfold wp in W.
  destruct (s_next E GRegExp sc1) as [t sc2|e|p|] eqn:Hn; auto.
  destruct W as (W1 & W2 & W3 & W4 & W5 & W6). cbv beta iota. cbn [scn set_scn].
  unfold restore_state. rewrite W5. cbn [sc1 set_sstate sstate].
  assert (Hbr : len (rest sc2) <= len (rest (scn s)) /\ breaks (rest sc2) [] <= breaks (rest (scn s)) []).
  { clear -Hn A1. change (rest (scn s)) with (rest sc1). destruct (unscanned sc1) eqn:Hu.
    - unfold s_next in Hn. rewrite Hu in Hn. injection Hn as <- <-. cbn. lia.
    - pose proof (@s_next_fresh E GRegExp sc1 (proj1 (si_hist A1)) Hu) as W. unfold wp in W. rewrite Hn in W.
      destruct W as (tr & l & Nt). rewrite (nt_rest Nt), !len_app, !breaks_app. lia. }
  assert (Heof : ttype (cur s) = TEof -> rest sc2 = [] /\ ttype t = TEof).
  { intros He. destruct (C He) as [C1 C2]. assert (rest sc2 = []) as R2.
    { rewrite C1 in Hbr. destruct (rest sc2); auto. destruct Hbr as [Hbr _]. rewrite len_cons, len_nil in Hbr. lia. }
    split; auto. unfold smu in W3. cbn [sc1 set_sstate rest unscanned] in W3. rewrite C1, R2 in W3.
    destruct (unscanned (scn s)) as [u|] eqn:Hu.
    - rewrite W4 in W3. assert (noteof u = O) by (unfold noteof; rewrite C2; auto).
      unfold noteof in W3 at 1. destruct (ttype t); auto; cbn in W3; lia.
    - rewrite W4 in W3. unfold noteof in W3. destruct (ttype t); auto; cbn in W3; lia. }
  assert (HI : inv (set_scn (mkS (start (scn s)) (current (scn s)) (line (scn s)) (col (scn s)) (newline (scn s)) (rest sc2)
    (record_raw sc2) (raw_string (scn s)) (curly (scn s)) (Some t) None) s)).
  { constructor; cbn; auto.
    + destruct W1 as [[Q1 Q2] H1 H2 H3 H4]. destruct A as [[Q3 Q4] G1 G2 G3 G4]. constructor; cbn; try lia.
      * split; [|cbn; intros v Hv; discriminate Hv]. destruct Q1, Q3. split; cbn; auto.
      * intros u [= <-]. split; auto.
    + intros He. destruct (Heof He). split; auto. intros u [= <-]; auto. }
  unfold ret. cbv beta iota. splits; auto.
  - split; [exact HI|cbn; auto].
  - unfold mu, smu in *. cbn [scn cur set_scn rest unscanned sc1 set_sstate] in *.
    destruct (unscanned (scn s)) as [u|] eqn:Hu; rewrite W4 in W3; lia.
Qed.

End Inv.
