(** * SpellBase: parser states and the positions they stand at (proofs). *)
From Verif Require Import Base Codepoint Punct Token Scanner Ast Convert ParserBase ParserExpr ParserStmt Parser.
From Verif Require Import SpecLex SpecScan SpecTree SpecSpell Hoare ScanNext ScanCol LexFacts ParserInv.
From Coq Require Import ZifyBool ZifyN ZifyNat.
Set Implicit Arguments.

Lemma tiles_app E ts us a b c : tiles E ts a b -> tiles E us b c -> tiles E (ts ++ us) a c.
Proof. induction 1; cbn; auto. intros. econstructor; eauto. Qed.
Lemma kw_reserved t k : token_wf t -> tok_kw t k = true -> reserved (s2l k).
Proof. intros W H. apply tok_kw_eq in H. destruct H as [A B]. unfold token_wf in W. rewrite A in W. destruct W as (w & W1 & W2). congruence. Qed.

Lemma nexts_app E gs : forall hs s ts s1, s_nexts E gs s = ROk ts s1 -> s_nexts E (gs ++ hs) s =
  match s_nexts E hs s1 with ROk us s2 => ROk (ts ++ us) s2 | RErr e => RErr e | RPanic p => RPanic p | RFuel => RFuel end.
Proof.
  induction gs as [|g gs IH]; cbn [s_nexts app]; intros hs s ts s1 H.
  - injection H as <- <-. destruct (s_nexts E hs s); reflexivity.
  - unfold bind in H |- *. destruct (s_next E g s) as [t s2| | |]; try discriminate. destruct (s_nexts E gs s2) as [us s3| | |] eqn:Hn; try discriminate.
    injection H as <- <-. rewrite (IH hs _ _ _ Hn). destruct (s_nexts E hs s3); reflexivity.
Qed.
Lemma nexts_snoc E gs t s' : forall ts s, s_nexts E gs s = ROk (ts ++ [t]) s' -> exists hs g s1, s_nexts E hs s = ROk ts s1 /\ s_next E g s1 = ROk t s'.
Proof.
  induction gs as [|g gs IH]; cbn [s_nexts]; intros ts s H.
  - injection H as H _. destruct ts; discriminate.
  - unfold bind in H. destruct (s_next E g s) as [u s2| | |] eqn:Hu; try discriminate. destruct (s_nexts E gs s2) as [us s3| | |] eqn:Hn; try discriminate.
    injection H as H ->. destruct ts as [|v ts].
    + injection H as -> ->. exists [], g, s. split; [reflexivity|]. destruct gs as [|g0 gs]; cbn [s_nexts] in Hn; [injection Hn as <-; exact Hu|].
      unfold bind in Hn. destruct (s_next E g0 s2) as [x s4| | |]; try discriminate. destruct (s_nexts E gs s4); discriminate.
    + injection H as -> ->. destruct (IH _ _ Hn) as (hs & h & s1 & H1 & H2). exists (g :: hs), h, s1. split; [|exact H2]. cbn [s_nexts]. unfold bind. rewrite Hu, H1. reflexivity.
Qed.
Lemma none_exists A (P : A -> Prop) l : Exists P l -> Forall (fun x => ~ P x) l -> False.
Proof. intros H F. apply Exists_exists in H. destruct H as (x & H1 & H2). rewrite Forall_forall in F. exact (F _ H1 H2). Qed.
Lemma snoc_split A (l : list A) x us t vs : l ++ [x] = us ++ t :: vs -> (vs = [] /\ us = l /\ t = x) \/ exists ws, l = us ++ t :: ws.
Proof.
  intros H. destruct (@exists_last _ (t :: vs)) as (ws & w & Hw); [discriminate|]. rewrite Hw, app_assoc in H. apply app_inj_tail in H as [H1 H2]. subst.
  destruct ws as [|y ws]; cbn in Hw; injection Hw as Hw1 Hw2; subst; [left; rewrite app_nil_r; auto|right; eauto].
Qed.

Section Base.
Context (E : env) (src : str) (first : token) (L LB : N).
Notation inv := (inv L LB).

Definition pending (s : sst) : list token := match unscanned s with Some t => [t] | None => [] end.
Definition broken (p : pos) : bool := match before p with u :: _ => tline u <? tline (next p) | [] => false end.
Lemma broken_later p : broken p = true <-> later_line p.
Proof. unfold broken, later_line. destruct (before p); [split; [discriminate|tauto]|apply N.ltb_lt]. Qed.
Lemma broken_not p : broken p = false <-> ~ later_line p.
Proof. rewrite <- broken_later. destruct (broken p); split; intros; try discriminate; auto; exfalso; auto. Qed.

(** Where the scanner stands: behind the current token or, after a look-ahead,
    behind an earlier one. *)
Record located (s : pst) (p : pos) : Prop := mkLoc {
  lo_some : ttype first <> TEof -> 1 <= current (scn s);
  lo_dead : ttype first = TEof -> ttype (next p) = TEof;
  lo_ahead : unscanned (scn s) <> None -> peeked (next p);
  lo_here : exists us u vs, next p :: before p = us ++ u :: vs /\ (ttype first <> TEof -> here s = behind u) /\
    (us = [] \/ Forall peeked (tl us ++ [u]));
  lo_now : Exists peeked (rev (before p) ++ [next p]) \/
    (unscanned (scn s) = None /\ exists gs, s_nexts E gs (s_new src) = ROk (rev (before p) ++ [next p]) (scn s));
  lo_past : forall us t vs, rev (before p) ++ [next p] = us ++ t :: vs -> Forall (fun u => ~ peeked u) us ->
    exists gs s', s_nexts E gs (s_new src) = ROk (us ++ [t]) s' }.
Record Fa (s : pst) (p : pos) : Prop := mkFa {
  fa_inv : inv s;
  fa_next : cur s = next p;
  fa_lt : has_lt s = broken p;
  fa_tiles : tiles E (rev (before p) ++ cur s :: pending (scn s)) src (rest (scn s));
  fa_first : hd_error (rev (before p) ++ [cur s]) = Some first;
  fa_loc : located s p }.
Lemma Fa_wf s p : Fa s p -> token_wf (next p).
Proof. intros H. rewrite <- (fa_next H). exact (to_wf (i_tok (fa_inv H))). Qed.

Definition fsx A (m : PM A) (R : pos -> list marker -> A -> pos -> list marker -> Prop) : Prop :=
  forall s p, Fa s p -> wp xAny m (fun a s' => exists q, Fa s' q /\ R p (marks s) a q (marks s')) s.
Definition fs A (m : PM A) (R : pos -> A -> pos -> Prop) : Prop :=
  forall s p, Fa s p -> wp xAny m (fun a s' => exists q, Fa s' q /\ R p a q) s.
Lemma use_fs A (m : PM A) R s p : Fa s p -> fs m R -> wp xAny m (fun a s' => exists q, Fa s' q /\ R p a q) s.
Proof. intros H F. apply F. exact H. Qed.
Lemma use_fsx A (m : PM A) R s p : Fa s p -> fsx m R -> wp xAny m (fun a s' => exists q, Fa s' q /\ R p (marks s) a q (marks s')) s.
Proof. intros H F. apply F. exact H. Qed.
Lemma fs_weaken A (m : PM A) (R R' : pos -> A -> pos -> Prop) : fs m R -> (forall p a q, R p a q -> R' p a q) -> fs m R'.
Proof. intros H HR s p HA. eapply wp_conseq; [apply H; exact HA|]. cbv beta. intros a s' (q & H1 & H2). eauto. Qed.
Lemma fsx_fs A (m : PM A) R (R' : pos -> A -> pos -> Prop) : fsx m R -> (forall p ms a q ms', R p ms a q ms' -> R' p a q) -> fs m R'.
Proof. intros H HR s p HA. eapply wp_conseq; [apply H; exact HA|]. cbv beta. intros a s' (q & H1 & H2). eauto. Qed.

(** ** Primitive operations *)
Definition step (p q : pos) : Prop := before q = next p :: before p.
Lemma XA : forall e, 1 <= err_line e <= LB -> xE xAny e. Proof. cbn; auto. Qed.

Lemma next_tiles g sc t sc' ts : sinv L LB sc -> s_next E g sc = ROk t sc' -> tiles E (ts ++ pending sc) src (rest sc) ->
  tiles E (ts ++ [t]) src (rest sc') /\ unscanned sc' = None.
Proof.
  intros A Hn Ht. unfold pending in Ht. destruct (unscanned sc) as [u|] eqn:Hu.
  - unfold s_next in Hn. rewrite Hu in Hn. injection Hn as <- <-. split; [exact Ht|reflexivity].
  - rewrite app_nil_r in Ht. pose proof (@s_next_fresh E g sc (proj1 (si_hist A)) Hu) as W. unfold wp in W. rewrite Hn in W.
    destruct W as (tr & l & Nt). split; [|exact (nt_unscanned Nt)]. eapply tiles_app; [exact Ht|]. rewrite (nt_rest Nt).
    econstructor; [exact (nt_trivia Nt)|exact (nt_lexeme Nt)|constructor].
Qed.
Lemma located_next g s p t sc h : inv s -> cur s = next p -> located s p -> s_next E g (scn s) = ROk t sc ->
  located (set_cur t h (set_scn sc s)) (mkPos (next p :: before p) t).
Proof.
  intros A B [L1 L0 L2 (us & u & vs & L3 & L4 & L5) L6 L7] Hn. pose proof (i_eof A) as Ie.
  assert (Nn : Exists peeked (rev (before p) ++ [next p]) \/ exists gs, s_nexts E gs (s_new src) = ROk ((rev (before p) ++ [next p]) ++ [t]) sc).
  { destruct L6 as [L6|(Hu & gs & L6)]; [left; exact L6|right]. exists (gs ++ [g]). rewrite (nexts_app E gs [g] _ L6). cbn [s_nexts]. unfold bind. rewrite Hn. reflexivity. }
  assert (N6 : Exists peeked ((rev (before p) ++ [next p]) ++ [t]) \/ (unscanned sc = None /\ exists gs, s_nexts E gs (s_new src) = ROk ((rev (before p) ++ [next p]) ++ [t]) sc)).
  { destruct Nn as [Nn|Nn]; [left; apply Exists_app; left; exact Nn|]. right. split; [|exact Nn]. unfold s_next in Hn. destruct (unscanned (scn s)) eqn:Hu; [injection Hn as _ <-; reflexivity|].
    pose proof (@s_next_fresh E g (scn s) (proj1 (si_hist (i_scn A))) Hu) as W. unfold wp, s_next in W. rewrite Hu, Hn in W. destruct W as (tr & l & W). exact (nt_unscanned W). }
  assert (N7 : forall us0 t0 vs0, (rev (before p) ++ [next p]) ++ [t] = us0 ++ t0 :: vs0 -> Forall (fun u => ~ peeked u) us0 ->
    exists gs s', s_nexts E gs (s_new src) = ROk (us0 ++ [t0]) s').
  { intros us0 t0 vs0 H0 H1. apply snoc_split in H0. destruct H0 as [(-> & -> & ->)|(ws & H0)]; [|eapply L7; eassumption].
    destruct Nn as [Nn|(gs & Nn)]; [destruct (none_exists Nn H1)|]. exists gs, sc. exact Nn. }
  clear L6 L7 Nn. destruct (unscanned (scn s)) as [w|] eqn:Hu.
  - unfold s_next in Hn. rewrite Hu in Hn. injection Hn as <- <-. assert (L6 : peeked (next p)) by (apply L2; discriminate).
    constructor; cbn [scn set_cur set_scn set_unscanned current unscanned next before]; [exact L1| |congruence| |exact N6|exact N7].
    + intros H0. specialize (L0 H0). exfalso. destruct L6 as [[L6 _]|[[L6 _]|[L6 _]]]; congruence.
    + exists (w :: us), u, vs. split; [cbn; rewrite L3; reflexivity|]. split; [exact L4|]. right. cbn [tl].
      destruct L5 as [->|L5]; [injection L3 as Hx _; rewrite Hx in L6; constructor; [exact L6|constructor]|]. destruct us as [|v us]; [exact L5|]. injection L3 as Hx _. rewrite Hx in L6. constructor; [exact L6|exact L5].
  - destruct (next_col E g (proj1 (si_hist (i_scn A))) Hu Hn) as (tr & l & W & _ & C2).
    assert (Hd : ttype first = TEof -> ttype t = TEof).
    { intros H0. apply (nt_eof W). rewrite B in Ie. destruct (Ie (L0 H0)) as [Ie1 _]. pose proof (nt_rest W) as K. rewrite Ie1 in K. destruct tr, l; try discriminate K. reflexivity. }
    constructor; cbn [scn set_cur set_scn next before]; [| | | |exact N6|exact N7].
    + intros H0. specialize (L1 H0). rewrite (nt_current W). lia.
    + exact Hd.
    + rewrite (nt_unscanned W). congruence.
    + exists [], t, (next p :: before p). split; [reflexivity|]. split; [|left; reflexivity]. intros H0. specialize (L1 H0).
      assert (Hc : 1 <= current sc) by (rewrite (nt_current W); lia).
      unfold here, behind. cbn [scn set_cur set_scn]. rewrite (nt_line W), (nt_end W), C2 by lia. f_equal. lia.
Qed.
Lemma f_adv g s p : Fa s p -> wp xAny (advance E g) (fun t s' => t = next p /\ exists q, Fa s' q /\ step p q /\
   (forall u, unscanned (scn s) = Some u -> next q = u) /\ marks s' = marks s) s.
Proof.
  intros [A B C D F0 Lo]. pose proof (@advance_spec E L LB xAny XA I (fun _ => I) (fun _ => I) g s A) as W.
  unfold wp in *. destruct (advance E g s) as [t s'|e|x|] eqn:Ha; auto. destruct W as (-> & (W1 & _) & _ & _).
  unfold advance in Ha. destruct (s_next E g (scn s)) as [t sc|e|x|] eqn:Hn; try discriminate Ha. injection Ha as <-.
  split; [exact B|]. exists (mkPos (next p :: before p) t). split; [|split; [reflexivity|split; [|reflexivity]]].
  - assert (T : tiles E ((rev (before p) ++ [cur s]) ++ [t]) src (rest sc) /\ unscanned sc = None).
    { eapply next_tiles; [exact (i_scn A)|exact Hn|]. rewrite <- app_assoc. exact D. }
    constructor; [exact W1|reflexivity|cbn; rewrite B; reflexivity| | |].
    + cbn [scn cur set_cur set_scn]. unfold pending. rewrite (proj2 T). cbn [before rev]. rewrite <- B. exact (proj1 T).
    + cbn [scn cur set_cur set_scn before rev]. rewrite <- B. revert F0. destruct (rev (before p)); intros K; exact K.
    + exact (located_next g _ A B Lo Hn).
  - intros u Hu. unfold s_next in Hn. rewrite Hu in Hn. injection Hn as -> _. reflexivity.
Qed.
Lemma located_same s s' p : scn s' = scn s -> located s p -> located s' p.
Proof. intros H [A A' B C C1 C2]. constructor; unfold here in *; rewrite ?H; auto. Qed.
Lemma Fa_same s s' p : inv s' -> scn s' = scn s -> has_lt s' = has_lt s -> cur s' = cur s -> Fa s p -> Fa s' p.
Proof. intros H1 H2 H3 H4 [A B C D F0 Lo]. constructor; [exact H1|congruence|congruence| | |eapply located_same; eassumption]; rewrite ?H2, H4; [exact D|exact F0]. Qed.
Lemma f_start s p : Fa s p -> wp xAny start_span (fun _ s' => (Fa s' p /\ scn s' = scn s) /\ marks s' = place (next p) :: marks s) s.
Proof.
  intros H. assert (W : wp xAny start_span (fun _ s' => Fa s' p /\ scn s' = scn s) s).
  { eapply wp_conseq; [eapply (@start_span_spec L LB xAny); exact (fa_inv H)|]. cbv beta.
    intros _ s' (A1 & A2 & A3 & A4 & _). split; auto. eapply Fa_same; eauto. }
  unfold wp, start_span, modify in *. split; [exact W|]. cbn. rewrite (fa_next H). reflexivity.
Qed.
(** The span ends where the scanner stands. *)
Definition ended (sp : span) (q : pos) : Prop := ttype first <> TEof ->
  exists us u vs, next q :: before q = us ++ u :: vs /\ sp_end sp = behind u /\ (us = [] \/ Forall peeked (tl us ++ [u])).
Lemma located_ended s p m : located s p -> ended (mkSpan m (here s)) p.
Proof. intros [_ _ _ (us & u & vs & L3 & L4 & L5) _ _] T. exists us, u, vs. split; [exact L3|]. split; [apply L4; exact T|exact L5]. Qed.
Lemma exact_intro sp s p q : Fa s p -> ttype (next p) <> TEof -> sp_start sp = place (next p) -> ended sp q -> exact sp p q.
Proof. intros A B C D. split; [exact C|]. apply D. intros K. apply B. exact (lo_dead (fa_loc A) K). Qed.
Lemma f_end s p : Fa s p -> wp xAny end_span (fun sp s' => Fa s' p /\ marks s = sp_start sp :: marks s' /\ ended sp p) s.
Proof.
  intros H. assert (W : wp xAny end_span (fun _ s' => Fa s' p) s).
  { eapply wp_conseq; [eapply (@end_span_spec L LB xAny I); exact (fa_inv H)|]. cbv beta.
    intros sp s' ((A1 & A2 & A3 & A4 & _) & _). eapply Fa_same; eauto. }
  unfold wp, end_span in *. destruct (marks s); [exact I|]. split; [exact W|]. split; [reflexivity|]. apply located_ended. exact (fa_loc H).
Qed.
Lemma f_peek s p : Fa s p -> wp xAny peek_span (fun sp s' => Fa s' p /\ marks s' = marks s /\ marks s = sp_start sp :: tl (marks s) /\ ended sp p) s.
Proof.
  intros H. unfold wp, peek_span. destruct (marks s) eqn:Hm; [exact I|]. split; [exact H|]. split; [exact Hm|]. split; [reflexivity|]. apply located_ended. exact (fa_loc H).
Qed.
Lemma f_eat x g s p : Fa s p -> wp xAny (consume_p E x g) (fun t s' => t = next p /\ exists q, Fa s' q /\ eats (is_p x) p q /\ marks s' = marks s) s.
Proof.
  intros H. unfold consume_p. apply wp_bind, wp_gets. destruct (matches_punc (cur s) x) eqn:M.
  - eapply wp_conseq; [apply f_adv; eassumption|]. cbv beta. intros t s' (-> & q & Hq & Hs & _ & Hm). split; auto. exists q. split; auto. split; [|exact Hm]. split; auto.
    apply matches_punc_eq in M. rewrite (fa_next H) in M. split; auto. eapply wf_punct; eauto using Fa_wf.
  - eapply (@unexpected_current_spec E L LB xAny XA I (fun _ => I) (fun _ => I)). exact (fa_inv H).
Qed.
Lemma f_kw w g s p : Fa s p -> wp xAny (consume_kw E w g) (fun t s' => t = next p /\ exists q, Fa s' q /\ eats (is_k w) p q /\ marks s' = marks s) s.
Proof.
  intros H. unfold consume_kw. apply wp_bind, wp_gets. destruct (tok_kw (cur s) w) eqn:M.
  - eapply wp_conseq; [apply f_adv; eassumption|]. cbv beta. intros t s' (-> & q & Hq & Hs & _ & Hm). split; auto. exists q. split; auto. split; [|exact Hm]. split; auto.
    rewrite (fa_next H) in M. apply tok_kw_eq. exact M.
  - eapply (@unexpected_current_spec E L LB xAny XA I (fun _ => I) (fun _ => I)). exact (fa_inv H).
Qed.
Lemma f_id w g s p : Fa s p -> wp xAny (consume_id E w g) (fun t s' => t = next p /\ exists q, Fa s' q /\ eats (is_w w) p q /\ marks s' = marks s) s.
Proof.
  intros H. unfold consume_id. apply wp_bind, wp_gets. destruct (tok_id (cur s) w) eqn:M.
  - eapply wp_conseq; [apply f_adv; eassumption|]. cbv beta. intros t s' (-> & q & Hq & Hs & _ & Hm). split; auto. exists q. split; auto. split; [|exact Hm]. split; auto.
    rewrite (fa_next H) in M. apply tok_id_eq. exact M.
  - eapply (@unexpected_current_spec E L LB xAny XA I (fun _ => I) (fun _ => I)). exact (fa_inv H).
Qed.
Lemma f_unexp A s p (Q : A -> pst -> Prop) : Fa s p -> wp xAny (unexpected_current E) Q s.
Proof. intros H. eapply (@unexpected_current_spec E L LB xAny XA I (fun _ => I) (fun _ => I)). exact (fa_inv H). Qed.
Lemma f_err A e s p (Q : A -> pst -> Prop) : Fa s p -> wp xAny (error_current E e) Q s.
Proof. intros H. eapply (@error_current_spec E L LB xAny XA I (fun _ => I) (fun _ => I)). exact (fa_inv H). Qed.
Lemma f_semi g s p : Fa s p -> wp xAny (consume_semicolon E g) (fun _ s' => exists q, Fa s' q /\ semi p q /\ marks s' = marks s) s.
Proof.
  intros H. unfold consume_semicolon. apply wp_bind, wp_gets. apply wp_bind, wp_gets. rewrite (fa_next H), (fa_lt H).
  destruct (tok_punc (next p) Semicolon) eqn:M.
  - apply wp_bind. eapply wp_conseq; [apply f_adv; eassumption|]. cbv beta. intros t s' (-> & q & Hq & Hs & _ & Hm). apply wp_ret.
    exists q. split; auto. split; [|exact Hm]. left. split; auto. apply tok_punc_eq. exact M.
  - destruct (broken p) eqn:Hb; cbn [negb].
    { apply wp_ret. exists p. split; auto. split; [|reflexivity]. right; auto. right; right. apply broken_later. exact Hb. }
    destruct (tok_punc (next p) RBrace) eqn:M1.
    { apply wp_ret. exists p. split; auto. split; [|reflexivity]. right; auto. left. apply tok_punc_eq. exact M1. }
    destruct (tok_is (next p) TEof) eqn:M2.
    { apply wp_ret. exists p. split; auto. split; [|reflexivity]. right; auto. right; left. apply tok_is_eq. exact M2. }
    eapply f_unexp; eassumption.
Qed.
Lemma f_str g s p : Fa s p -> wp xAny (advance_string E g) (fun w s' => t_to_string (next p) = Some w /\ exists q, Fa s' q /\ step p q /\ marks s' = marks s) s.
Proof.
  intros H. unfold advance_string. apply wp_bind. eapply wp_conseq; [eapply f_adv; exact H|]. cbv beta.
  intros a s' (-> & q & H' & Hs & _ & Hm). apply wp_unwrap; [|intros; exact I]. intros. split; eauto 6.
Qed.
Lemma f_look s p : Fa s p -> peeked (next p) -> wp xAny (lookahead E) (fun u s' => token_wf u /\ Fa s' p /\ unscanned (scn s') = Some u /\ marks s' = marks s) s.
Proof.
  intros H Pk. pose proof (@lookahead_spec E L LB xAny XA I (fun _ => I) (fun _ => I) s (fa_inv H)) as W. destruct H as [A B C D F0 Lo].
  unfold wp in *. destruct (lookahead E s) as [u s'|e|x|] eqn:Hl; auto. destruct W as ((W1 & _) & W2 & _ & W3 & _).
  split; [exact (to_wf W3)|]. clear W3.
  unfold lookahead, bind, lift_s in Hl. cbv beta iota delta [save_state modify] in Hl. cbn [scn set_scn] in Hl.
  set (sc1 := set_sstate _ (scn s)) in *.
  destruct (s_next E GRegExp sc1) as [t sc2|e|x|] eqn:Hn; try discriminate Hl. cbv beta iota in Hl. cbn [scn set_scn] in Hl.
  unfold restore_state in Hl. destruct (sstate sc2) as [v|] eqn:Hv; [|discriminate Hl]. cbv beta iota in Hl. unfold ret in Hl. injection Hl as -> <-.
  assert (A1 : sinv L LB sc1).
  { destruct (i_scn A) as [[Hq Hs] H1 H2 H3 H4]. constructor; auto. split; auto. cbn. intros w [= <-]. cbn. apply Hq. }
  split; [|split; reflexivity]. constructor; [exact W1|exact B|exact C| |exact F0|].
  - assert (T : tiles E ((rev (before p) ++ [cur s]) ++ [u]) src (rest sc2) /\ unscanned sc2 = None).
    { eapply next_tiles; [exact A1|exact Hn|]. rewrite <- app_assoc. exact D. }
    cbn. rewrite <- app_assoc in T. exact (proj1 T).
  - assert (S2 : sstate sc2 = sstate sc1).
    { destruct (unscanned sc1) as [w|] eqn:Hu.
      - unfold s_next in Hn. rewrite Hu in Hn. injection Hn as _ <-. reflexivity.
      - pose proof (@s_next_fresh E GRegExp sc1 (proj1 (si_hist A1)) Hu) as W. unfold wp in W. rewrite Hn in W. destruct W as (tr & l & W). exact (nt_sstate W). }
    rewrite S2 in Hv. injection Hv as <-. destruct Lo as [L1 L0 L2 L3 L4 L5].
    constructor; cbn [scn set_scn current unscanned sv_current]; [exact L1|exact L0|intros _; exact Pk|exact L3|left; apply Exists_app; right; constructor; exact Pk|exact L5].
Qed.
Lemma f_ctx f s p : Fa s p -> wp xAny (upd_ctx f) (fun _ s' => Fa s' p /\ marks s' = marks s) s.
Proof. intros [[A1 A2 A3 A4] B C D F0 Lo]. apply wp_modify. split; [|reflexivity]. constructor; auto; [constructor; auto|]. eapply located_same; [|exact Lo]. reflexivity. Qed.
Lemma f_unwrap A x (o : option A) s p : Fa s p -> wp xAny (unwrap x o) (fun a s' => o = Some a /\ Fa s' p /\ marks s' = marks s) s.
Proof. intros H. apply wp_unwrap; [|intros; exact I]. auto. Qed.
Lemma f_reserved s p : Fa s p -> wp xAny strict_reserved (fun _ s' => Fa s' p /\ marks s' = marks s) s.
Proof.
  intros H. unfold strict_reserved. apply wp_bind, wp_gets, wp_bind, wp_gets. destruct (strict (ctx s)).
  - apply wp_unwrap; [auto|intros; exact I].
  - apply wp_ret. auto.
Qed.
Lemma f_cur s p (Q : token -> pst -> Prop) : Fa s p -> Q (next p) s -> wp xAny getcur Q s.
Proof. intros H HQ. apply wp_gets. rewrite (fa_next H). exact HQ. Qed.
Lemma f_has_lt s p (Q : bool -> pst -> Prop) : Fa s p -> Q (broken p) s -> wp xAny (gets has_lt) Q s.
Proof. intros H HQ. apply wp_gets. rewrite (fa_lt H). exact HQ. Qed.
Lemma fsx_with_prm A f (m : PM A) R : fsx m R -> fsx (with_prm f m) R.
Proof.
  intros H s p [[A1 A2 A3 A4] B C D F0 Lo]. unfold with_prm. apply wp_bind, wp_modify, wp_bind, wp_modify. cbn [prm set_pstack set_prm].
  apply wp_bind. eapply wp_conseq.
  { eapply use_fsx; [|exact H]. constructor; [constructor; eassumption|exact B|exact C|exact D|exact F0|]. eapply located_same; [|exact Lo]. reflexivity. }
  cbv beta. intros a s' (q & [[B1 B2 B3 B4] B5 B6 B7 B8 B9] & HR).
  apply wp_bind. unfold wp, restore_params. destruct (pstack s'); [exact I|]. apply wp_ret. exists q. split; [|exact HR].
  constructor; auto; [constructor; auto|]. eapply located_same; [|exact B9]. reflexivity.
Qed.
Lemma fs_with_prm A f (m : PM A) R : fs m R -> fs (with_prm f m) R.
Proof. exact (@fsx_with_prm A f m (fun p _ a q _ => R p a q)). Qed.
Lemma f_conv A (m : cres A) s p : Fa s p -> wp xAny (lift_c m) (fun a s' => m = COk a /\ Fa s' p /\ marks s' = marks s) s.
Proof. intros H. unfold wp, lift_c. destruct m; cbn; auto. Qed.

(** ** Loops *)
Section Loops.
Context (A : Type) (f : PM A).
Lemma fs_while R n pc : fs f R -> fs (parse_while_punc n pc f) (fun p l q => many (fun x p q => tok_punc (next p) pc = true /\ R p x q) l p q /\
  tok_punc (next q) pc = false).
Proof.
  intros Hf. induction n as [|n IH]; intros s p H; [exact I|]. cbn [parse_while_punc]. apply wp_bind. eapply f_cur; [eassumption|].
  destruct (tok_punc (next p) pc) eqn:Hp.
  - apply wp_bind. eapply wp_conseq; [eapply use_fs; [exact H|exact Hf]|]. cbv beta. intros x s1 (q & H1 & R1).
    apply wp_bind. eapply wp_conseq; [eapply use_fs; [exact H1|exact IH]|]. cbv beta. intros xs s2 (r & H2 & R2 & R3).
    apply wp_ret. exists r. split; [auto|]. split; [econstructor; eauto|exact R3].
  - apply wp_ret. exists p. split; [auto|]. split; [constructor|exact Hp].
Qed.
Lemma fs_until R n pc : fs f R -> fs (parse_until_punc n pc f) (fun p l q => many (fun x p q => tok_punc (next p) pc = false /\ R p x q) l p q /\
  tok_punc (next q) pc = true).
Proof.
  intros Hf. induction n as [|n IH]; intros s p H; [exact I|]. cbn [parse_until_punc]. apply wp_bind. eapply f_cur; [eassumption|].
  destruct (tok_punc (next p) pc) eqn:Hp.
  - apply wp_ret. exists p. split; [auto|]. split; [constructor|exact Hp].
  - apply wp_bind. eapply wp_conseq; [eapply use_fs; [exact H|exact Hf]|]. cbv beta. intros x s1 (q & H1 & R1).
    apply wp_bind. eapply wp_conseq; [eapply use_fs; [exact H1|exact IH]|]. cbv beta. intros xs s2 (r & H2 & R2 & R3).
    apply wp_ret. exists r. split; [auto|]. split; [econstructor; eauto|exact R3].
Qed.
Lemma fsx_until R n pc : fsx f (fun p ms a q ms' => ms' = ms /\ R p a q) -> fsx (parse_until_punc n pc f) (fun p ms l q ms' => ms' = ms /\
  many (fun x p q => tok_punc (next p) pc = false /\ R p x q) l p q /\ tok_punc (next q) pc = true).
Proof.
  intros Hf. induction n as [|n IH]; intros s p H; [exact I|]. cbn [parse_until_punc]. apply wp_bind. eapply f_cur; [eassumption|].
  destruct (tok_punc (next p) pc) eqn:Hp.
  - apply wp_ret. exists p. split; [auto|]. split; [reflexivity|]. split; [constructor|exact Hp].
  - apply wp_bind. eapply wp_conseq; [eapply use_fsx; [exact H|exact Hf]|]. cbv beta. intros x s1 (q & H1 & M1 & R1).
    apply wp_bind. eapply wp_conseq; [eapply use_fsx; [exact H1|exact IH]|]. cbv beta. intros xs s2 (r & H2 & M2 & R2 & R3).
    apply wp_ret. exists r. split; [auto|]. split; [congruence|]. split; [econstructor; eauto|exact R3].
Qed.
(** The loop that ends at a rest element. *)
Inductive many_rest (pc : punct) (R : pos -> A -> pos -> Prop) : list A -> pos -> pos -> Prop :=
| mr_nil p : tok_punc (next p) pc = true -> many_rest pc R [] p p
| mr_rest x p q : tok_punc (next p) pc = false -> tok_punc (next p) Ellipsis = true -> R p x q -> many_rest pc R [x] p q
| mr_cons x l p q r : tok_punc (next p) pc = false -> tok_punc (next p) Ellipsis = false -> R p x q -> many_rest pc R l q r -> many_rest pc R (x :: l) p r.
Lemma fs_until_rest R n pc : fs f R -> fs (parse_until_punc_or_rest n pc f) (fun p l q => many_rest pc R l p q).
Proof.
  intros Hf. induction n as [|n IH]; intros s p H; [exact I|]. cbn [parse_until_punc_or_rest]. apply wp_bind. eapply f_cur; [eassumption|].
  destruct (tok_punc (next p) pc) eqn:Hp; [|destruct (tok_punc (next p) Ellipsis) eqn:He].
  - apply wp_ret. exists p. split; [auto|constructor; auto].
  - apply wp_bind. eapply wp_conseq; [eapply use_fs; [exact H|exact Hf]|]. cbv beta. intros x s1 (q & H1 & R1).
    apply wp_ret. exists q. split; [auto|apply mr_rest; auto].
  - apply wp_bind. eapply wp_conseq; [eapply use_fs; [exact H|exact Hf]|]. cbv beta. intros x s1 (q & H1 & R1).
    apply wp_bind. eapply wp_conseq; [eapply use_fs; [exact H1|exact IH]|]. cbv beta. intros xs s2 (r & H2 & R2).
    apply wp_ret. exists r. split; [auto|eapply mr_cons; eauto].
Qed.
Lemma fs_until_eof R n : fs f R -> fs (parse_until_eof n f) (fun p l q => many (fun x p q => R p x q) l p q /\ ttype (next q) = TEof).
Proof.
  intros Hf. induction n as [|n IH]; intros s p H; [exact I|]. cbn [parse_until_eof]. apply wp_bind. eapply f_cur; [eassumption|].
  destruct (tok_is (next p) TEof) eqn:Hp.
  - apply wp_ret. exists p. split; [auto|]. split; [constructor|apply tok_is_eq; exact Hp].
  - apply wp_bind. eapply wp_conseq; [eapply use_fs; [exact H|exact Hf]|]. cbv beta. intros x s1 (q & H1 & R1).
    apply wp_bind. eapply wp_conseq; [eapply use_fs; [exact H1|exact IH]|]. cbv beta. intros xs s2 (r & H2 & R2 & R3).
    apply wp_ret. exists r. split; [auto|]. split; [econstructor; eauto|exact R3].
Qed.
End Loops.
End Base.

(** ** Token tests as grammar facts *)
Lemma eats_p p q x : tok_punc (next p) x = true -> step p q -> eats (is_p x) p q.
Proof. intros H S. split; auto. apply tok_punc_eq. exact H. Qed.
Lemma eats_k p q x : tok_kw (next p) x = true -> step p q -> eats (is_k x) p q.
Proof. intros H S. split; auto. apply tok_kw_eq. exact H. Qed.
Lemma eats_w p q x : tok_id (next p) x = true -> step p q -> eats (is_w x) p q.
Proof. intros H S. split; auto. apply tok_id_eq. exact H. Qed.
Lemma eats_step P p q : eats P p q -> step p q.
Proof. intros []; auto. Qed.

(** ** Lists *)
Section ListFacts.
Context {A : Type}.
Lemma many_app (R : A -> pos -> pos -> Prop) l1 l2 p q r : many R l1 p q -> many R l2 q r -> many R (l1 ++ l2) p r.
Proof. induction 1; cbn; auto. intros. econstructor; eauto. Qed.
Lemma many_impl (R R' : A -> pos -> pos -> Prop) l p q : (forall x p q, R x p q -> R' x p q) -> many R l p q -> many R' l p q.
Proof. intros H. induction 1; econstructor; eauto. Qed.
Lemma commas1_commas (R : A -> pos -> pos -> Prop) l p q : commas1 R l p q -> commas R l p q.
Proof. induction 1; [apply commas_last; auto|eapply commas_more; eauto]. Qed.
(** "first {, next}" *)
Lemma many_commas1 (R : A -> pos -> pos -> Prop) x l p q r : R x p q ->
  many (fun x p r => exists q, eats (is_p Comma) p q /\ R x q r) l q r -> commas1 R (x :: l) p r.
Proof.
  intros Hx H. revert x p Hx. induction H as [q|y l q r s (q' & H1 & H2) H3 IH]; intros x p Hx.
  - apply commas1_one. exact Hx.
  - eapply commas1_more; [exact Hx|exact H1|]. apply IH. exact H2.
Qed.
(** An element followed by a comma, or standing before the closing punctuator. *)
Definition comma_or (close : punct) (p q : pos) : Prop := eats (is_p Comma) p q \/ p = q /\ tok_punc (next p) close = true.
Lemma many_commas (R : A -> pos -> pos -> Prop) close l p r :
  many (fun x p q => tok_punc (next p) close = false /\ exists q', R x p q' /\ comma_or close q' q) l p r -> commas R l p r.
Proof.
  induction 1 as [q|x l p q r (H0 & q' & H1 & [H2|[-> H2]]) H3 IH].
  - constructor.
  - eapply commas_more; eauto.
  - inversion H3; subst; [apply commas_last; auto|]. match goal with H : _ /\ _ |- _ => destruct H end. congruence.
Qed.
Lemma many_rest_commas (R : A -> pos -> pos -> Prop) close l p r :
  many_rest close (fun p x q => exists q', R x p q' /\ (comma_or close q' q \/ tok_punc (next p) Ellipsis = true /\ q' = q)) l p r -> commas R l p r.
Proof.
  induction 1 as [p Hp|x p q Hp He (q' & H1 & H2)|x l p q r Hp He (q' & H1 & [[H2|[-> H2]]|[H2 _]]) H3 IH].
  - constructor.
  - destruct H2 as [[H2|[-> H2]]|[_ ->]]; [eapply commas_more; eauto; constructor|apply commas_last; auto..].
  - eapply commas_more; eauto.
  - inversion H3; subst; [apply commas_last; auto|congruence..].
  - congruence.
Qed.
Definition hole_or (R : A -> pos -> pos -> Prop) (close : punct) (x : option A) (p q : pos) : Prop :=
  match x with
  | None => eats (is_p Comma) p q
  | Some x => exists q', R x p q' /\ (comma_or close q' q \/ tok_punc (next p) Ellipsis = true /\ q' = q)
  end.
Definition elem_or (R : A -> pos -> pos -> Prop) (close : punct) (x : option A) (p q : pos) : Prop :=
  match x with
  | None => eats (is_p Comma) p q
  | Some x => exists q', R x p q' /\ comma_or close q' q
  end.
Lemma many_rest_holes (R : A -> pos -> pos -> Prop) close l p r :
  many_rest close (fun p x q => hole_or R close x p q) l p r -> holes R l p r.
Proof.
  induction 1 as [p Hp|[x|] p q Hp He H2|[x|] l p q r Hp He H2 H3 IH]; cbn in *.
  - constructor.
  - destruct H2 as (q' & H1 & [[H2|[-> H2]]|[_ ->]]); [eapply holes_more; eauto; constructor|apply holes_last; auto..].
  - eapply holes_hole; eauto. constructor.
  - destruct H2 as (q' & H1 & [[H2|[-> H2]]|[H2 _]]).
    + eapply holes_more; eauto.
    + inversion H3; subst; [apply holes_last; auto|congruence..].
    + congruence.
  - eapply holes_hole; eauto.
Qed.
Lemma many_holes (R : A -> pos -> pos -> Prop) close l p r :
  many (fun x p q => tok_punc (next p) close = false /\ elem_or R close x p q) l p r -> holes R l p r.
Proof.
  induction 1 as [q|[x|] l p q r (H0 & H1) H3 IH]; cbn in *.
  - constructor.
  - destruct H1 as (q' & H1 & [H2|[-> H2]]).
    + eapply holes_more; eauto.
    + inversion H3; subst; [apply holes_last; auto|]. match goal with H : _ /\ _ |- _ => destruct H end. congruence.
  - eapply holes_hole; eauto.
Qed.
End ListFacts.

Create HintDb fs discriminated.
#[export] Hint Constants Opaque : fs.
#[export] Hint Resolve fs_with_prm : fs.
Create HintDb fsx discriminated.
#[export] Hint Constants Opaque : fsx.
#[export] Hint Resolve fsx_with_prm : fsx.
(** A look-ahead happens at one of three words only. *)
Lemma peeked_w p w : w = "async"%string \/ w = "get"%string \/ w = "set"%string -> tok_id (next p) w = true -> peeked (next p).
Proof. intros H K. apply tok_id_eq in K. unfold peeked, is_w. destruct H as [->|[-> | ->]]; auto. Qed.

(** ** Tokens that are not the end of the input *)
Create HintDb ne discriminated.
Lemma ne_is t ty : tok_is t ty = true -> ty <> TEof -> ttype t <> TEof.
Proof. intros H K. apply tok_is_eq in H. congruence. Qed.
Lemma ne_kw t w : tok_kw t w = true -> ttype t <> TEof.
Proof. intros H. apply tok_kw_eq in H. destruct H. congruence. Qed.
Lemma ne_id t w : tok_id t w = true -> ttype t <> TEof.
Proof. intros H. apply tok_id_eq in H. destruct H. congruence. Qed.
Lemma ne_punc t x : tok_punc t x = true -> ttype t <> TEof.
Proof. intros H. apply tok_punc_eq in H. destruct H. congruence. Qed.
Lemma ne_eats_k w p q : eats (is_k w) p q -> ttype (next p) <> TEof.
Proof. intros [_ [H _]]. congruence. Qed.
Lemma ne_eats_w w p q : eats (is_w w) p q -> ttype (next p) <> TEof.
Proof. intros [_ [H _]]. congruence. Qed.
Lemma ne_eats_p w p q : eats (is_p w) p q -> ttype (next p) <> TEof.
Proof. intros [_ [H _]]. congruence. Qed.
Lemma ne_eats_ref w p q : eats (is_ref w) p q -> ttype (next p) <> TEof.
Proof. intros [_ [_ [H|[H _]]]]; congruence. Qed.
Lemma ne_eats_name w p q : eats (is_name w) p q -> ttype (next p) <> TEof.
Proof. intros [_ [_ [H|H]]]; congruence. Qed.
Lemma ne_eats_key w p q : eats (key_token w) p q -> ttype (next p) <> TEof.
Proof. intros [_ [_ [H|[H|[H|H]]]]]; congruence. Qed.
Lemma ne_eats_str w p q : eats (is_string_tok w) p q -> ttype (next p) <> TEof.
Proof. intros [_ [_ H]]; congruence. Qed.
Lemma ne_or a b t : a || b = true -> (a = true -> ttype t <> TEof) -> (b = true -> ttype t <> TEof) -> ttype t <> TEof.
Proof. intros H. apply orb_true_iff in H. tauto. Qed.
#[export] Hint Resolve ne_kw ne_id ne_punc ne_eats_k ne_eats_w ne_eats_p ne_eats_ref ne_eats_name ne_eats_key ne_eats_str : ne.

(** ** Tactics *)
Definition tell (At : span -> pos -> pos -> Prop) : Prop := forall sp p q, exact sp p q -> At sp p q.
Ltac fne := solve [eauto with ne | repeat (eapply ne_or; [eassumption| |]; clear; intros); (eapply ne_is; [eassumption|discriminate])].
Ltac fat HAt := cbn [id_span lit_span ex_local ex_exported]; apply HAt; eapply exact_intro; [eassumption|fne|congruence|eassumption].
Ltac fdest := repeat match goal with
  | H : exists _, _ |- _ => destruct H
  | H : _ /\ _ |- _ => destruct H
  end.
Ltac fuse tac := eapply wp_conseq; [tac|]; cbv beta; intros; fdest; subst.
Ltac fstep := cbv beta;
  lazymatch goal with
  | |- wp _ (bind _ _) _ _ => apply wp_bind
  | |- wp _ (ret _) _ _ => apply wp_ret
  | |- wp _ getcur _ _ => eapply f_cur; [eassumption|]; cbv beta
  | |- wp _ (gets has_lt) _ _ => eapply f_has_lt; [eassumption|]; cbv beta
  | |- wp _ (gets _) _ _ => apply wp_gets; cbv beta
  | |- wp _ start_span _ _ => fuse ltac:(eapply f_start; eassumption)
  | |- wp _ end_span _ _ => fuse ltac:(eapply f_end; eassumption)
  | |- wp _ peek_span _ _ => fuse ltac:(eapply f_peek; eassumption)
  | |- wp _ (advance _ _) _ _ => fuse ltac:(eapply f_adv; eassumption)
  | |- wp _ (upd_ctx _) _ _ => fuse ltac:(eapply f_ctx; eassumption)
  | |- wp _ (consume_p _ _ _) _ _ => fuse ltac:(eapply f_eat; eassumption)
  | |- wp _ (consume_kw _ _ _) _ _ => fuse ltac:(eapply f_kw; eassumption)
  | |- wp _ (consume_id _ _ _) _ _ => fuse ltac:(eapply f_id; eassumption)
  | |- wp _ (consume_semicolon _ _) _ _ => fuse ltac:(eapply f_semi; eassumption)
  | |- wp _ (unexpected_current _) _ _ => eapply f_unexp; eassumption
  | |- wp _ (error_current _ _) _ _ => eapply f_err; eassumption
  | |- wp _ (error_tok _ _) _ _ => exact I
  | |- wp _ (err_at _ _ _) _ _ => exact I
  | |- wp _ (crash _) _ _ => exact I
  | |- wp _ nofuel _ _ => exact I
  | |- wp _ (unwrap _ _) _ _ => fuse ltac:(eapply f_unwrap; eassumption)
  | |- wp _ (lift_c _) _ _ => fuse ltac:(eapply f_conv; eassumption)
  | |- wp _ strict_reserved _ _ => fuse ltac:(eapply f_reserved; eassumption)
  | |- wp _ (advance_string _ _) _ _ => fuse ltac:(eapply f_str; eassumption)
  | |- wp _ (lookahead _) _ _ => fuse ltac:(eapply f_look; [eassumption|first [eassumption|eapply peeked_w; [|eassumption]; auto]])
  | |- wp _ (if ?b then _ else _) _ _ => destruct b eqn:?
  | |- wp _ (let (_, _) := ?x in _) _ _ => destruct x
  | |- wp _ (match ?x with _ => _ end) _ _ => destruct x
  | |- wp _ (with_in _ _) _ _ => unfold with_in
  | |- wp _ (with_default _ _) _ _ => unfold with_default
  | |- wp _ _ _ _ => first [fuse ltac:(eapply use_fsx; [eassumption|solve [eauto with fsx]])|fuse ltac:(eapply use_fs; [eassumption|solve [eauto with fs]])]
  end.
Ltac fret := lazymatch goal with |- exists q, Fa _ _ _ _ _ _ q /\ _ => eexists; split; [eassumption|cbv beta; try match goal with |- marks _ = marks _ /\ _ => split; [congruence|] end] end.
Ltac fwalk := repeat fstep; try fret.
Ltac fgo f := unfold f; let s := fresh "s" in let p := fresh "p" in let H := fresh "HF" in intros s p H; fwalk.
