(** * BlameBase: errors and the tokens they refer to; primitive operations and tactics (proofs for C50). *)
From Verif Require Import Base Codepoint Punct Token Scanner Ast Convert ParserBase ParserExpr ParserStmt Parser.
From Verif Require Import SpecLex SpecScan SpecTree SpecSpell SpecBlame Hoare ScanBase ScanNext LexFacts LexProofs ParserInv SpellBase ScanErr ScanCol Rel.
From Coq Require Import ZifyBool ZifyN ZifyNat.
Set Implicit Arguments.

Lemma nexts_total E gs : forall s ts s1, s_nexts E gs s = ROk ts s1 -> total s1 = total s.
Proof.
  induction gs as [|g gs IH]; cbn [s_nexts]; intros s ts s1 H.
  - injection H as <- <-. reflexivity.
  - unfold bind in H. pose proof (@ek_next E g s) as K. destruct (s_next E g s) as [t s2| | |]; try discriminate. destruct (s_nexts E gs s2) as [us s3| | |] eqn:Hn; try discriminate.
    injection H as <- <-. rewrite (IH _ _ _ Hn). exact K.
Qed.

(** Results of conversions *)
Definition crok {A} (X : error -> Prop) (G : A -> Prop) (c : cres A) : Prop := match c with COk a => G a | CErr e => X e | CPanic _ => True end.

Section Base.
Context (E : env) (src : str) (first : token) (L LB : N).
Notation Fa := (Fa E src first L LB).
Definition XB : exc := mkExc (reported E src) (fun _ => True) True.
Notation seen := (seen E src).
(** A marker of one of the tokens read so far *)
Definition of_token (p : pos) (m : marker) : Prop := exists ts t us, rev (before p) ++ [next p] = ts ++ t :: us /\ m = place t.
Record T (s : pst) (p : pos) : Prop := mkT {
  t_fa : Fa s p;
  t_exact : Exists peeked (rev (before p) ++ [next p]) \/
    (unscanned (scn s) = None /\ exists gs, s_nexts E gs (s_new src) = ROk (rev (before p) ++ [next p]) (scn s));
  t_marks : Forall (fun m => seen m /\ of_token p m) (marks s) }.
(** [q] is not before [p]. *)
Definition ext (p q : pos) : Prop := q = p \/ exists us, before q = us ++ next p :: before p.
Lemma ext_refl p : ext p p. Proof. left. reflexivity. Qed.
Lemma ext_trans p q r : ext p q -> ext q r -> ext p r.
Proof.
  intros [->|[us H]] [->|[vs G]]; try (left; reflexivity); right; eauto. rewrite H in G. exists (vs ++ next q :: us). rewrite G, <- app_assoc. reflexivity.
Qed.
Lemma ext_step p q : step p q -> ext p q. Proof. intros H. right. exists []. exact H. Qed.
Definition es A (m : PM A) (R : pos -> A -> pos -> Prop) : Prop :=
  forall s p, T s p -> wp XB m (fun a s' => exists q, T s' q /\ ext p q /\ R p a q) s.
Lemma use_es A (m : PM A) R s p : T s p -> es m R -> wp XB m (fun a s' => exists q, T s' q /\ ext p q /\ R p a q) s.
Proof. intros H F. apply F. exact H. Qed.
Lemma es_weaken A (m : PM A) (R R' : pos -> A -> pos -> Prop) : es m R -> (forall p a q, R p a q -> R' p a q) -> es m R'.
Proof. intros H HR s p HA. eapply wp_conseq; [apply H; exact HA|]. cbv beta. intros a s' (q & H1 & H2 & H3). eauto. Qed.

(** Trees all of whose spans begin at tokens *)
Definition sp_ok (a b : span) : Prop := a = b /\ covers E src a.
Notation good_node := (fun x => r_node sp_ok eq x x).

Lemma wp_join A (m : PM A) (P Q : A -> pst -> Prop) s : wp XB m P s -> wp xAny m Q s -> wp XB m (fun a s' => P a s' /\ Q a s') s.
Proof. unfold wp. destruct (m s); cbn; auto. Qed.
Lemma wp_xany A (m : PM A) (Q : A -> pst -> Prop) s : (forall e, m s <> RErr e) -> wp xAny m Q s -> wp XB m Q s.
Proof. unfold wp. destruct (m s) eqn:H; cbn; auto. intros K _. destruct (K e eq_refl). Qed.

(** A token the parser has seen *)
Definition known (p : pos) : Prop := scanned E src (rev (before p) ++ [next p]).
Lemma T_known s p : T s p -> known p.
Proof.
  intros [F X _]. pose proof (fa_tiles F) as Ht. rewrite (fa_next F) in Ht. unfold known, scanned. destruct X as [X|(Hu & gs & X)].
  - assert (K : exists r, tiles E (rev (before p) ++ [next p]) src r).
    { unfold pending in Ht. destruct (unscanned (scn s)) as [u|]; [|eexists; exact Ht].
      replace (rev (before p) ++ next p :: [u]) with ((rev (before p) ++ [next p]) ++ [u]) in Ht by (rewrite <- app_assoc; reflexivity).
      revert Ht. generalize (rev (before p) ++ [next p]) as l. intros l. clear. generalize src. induction l as [|a l IH]; intros sr H; [eexists; constructor|].
      inversion H as [|? ? tr x r fin A1 A2 A3]; subst. destruct (IH _ A3) as [r' Hr]. exists r'. econstructor; eauto. }
    destruct K as [r K]. exists r. auto.
  - unfold pending in Ht. rewrite Hu in Ht. eexists. split; [exact Ht|]. right. eapply offsets. exact X.
Qed.
Lemma T_tiles s p : T s p -> exists r, tiles E (rev (before p) ++ [next p]) src r /\
  (Exists peeked (rev (before p) ++ [next p]) \/ laid E [] (rev (before p) ++ [next p]) src r /\
   here s = mkMarker (tline (next p)) (tcol (next p)) (N.of_nat (length src) - N.of_nat (length r))).
Proof.
  intros H. destruct (T_known H) as (r & K1 & K2). destruct H as [F X _]. destruct X as [X|(Hu & gs & X)]; [exists r; auto|].
  pose proof (fa_tiles F) as Ht. rewrite (fa_next F) in Ht. unfold pending in Ht. rewrite Hu in Ht. exists (rest (scn s)). split; [exact Ht|right].
  split; [eapply offsets; exact X|]. destruct (nexts_new _ _ _ X) as ((_ & _ & pre & N1 & N2 & _) & _ & N3). destruct (N3 _ _ eq_refl) as [N4 N5].
  unfold here. rewrite N4, N5, N2, N1. unfold len. rewrite app_length. f_equal. clear. lia.
Qed.
Lemma T_covers s p m : T s p -> seen m -> of_token p m -> covers E src (mkSpan m (here s)).
Proof.
  intros H Hs (ts & t & us & H1 & H2). split; [exact Hs|]. destruct (T_tiles H) as (r & K1 & K2). rewrite H1 in K1, K2.
  exists ts, t, us, (next p), r. split; [exact K1|]. split; [|split; [exact H2|exact K2]].
  destruct (@exists_last _ (t :: us)) as (vs & v & Hv); [discriminate|]. rewrite Hv. exists vs, v. split; [reflexivity|]. rewrite Hv, app_assoc in H1. apply app_inj_tail in H1 as [_ H1]. exact H1.
Qed.
Lemma of_token_step p q m : step p q -> of_token p m -> of_token q m.
Proof. intros S (ts & t & us & H1 & H2). unfold of_token. unfold step in S. rewrite S. cbn [rev]. rewrite H1. exists ts, t, (us ++ [next q]). rewrite <- app_assoc. auto. Qed.
Lemma blame p k : known p -> explains E (rev (before p)) (next p) [] k -> reported E src (mkError (tline (next p)) (tcol (next p)) k).
Proof. intros H1 H. eapply at_token; [exact H1|reflexivity|reflexivity|exact H]. Qed.
Lemma seen_next s p : T s p -> seen (place (next p)) /\ of_token p (place (next p)).
Proof. intros H. split; [eexists _, _; split; [eapply T_known; exact H|reflexivity]|]. exists (rev (before p)), (next p), []. auto. Qed.

Lemma next_error g s p e : T s p -> s_next E g (scn s) = RErr e -> reported E src e.
Proof.
  intros [F X M] H. pose proof (@ek_next E g (scn s)) as K. rewrite H in K.
  assert (Hu : unscanned (scn s) = None). { destruct (unscanned (scn s)) as [u|] eqn:Hu; auto. unfold s_next in H. rewrite Hu in H. discriminate. }
  pose proof (fa_tiles F) as Ht. rewrite (fa_next F) in Ht. unfold pending in Ht. rewrite Hu in Ht.
  eapply in_scanner; [exact Ht|exact H| |].
  - destruct X as [X|(_ & gs & X)]; [left; exact X|right]. split; [eexists; exact X|].
    intros He. unfold scan_kind in K. rewrite He in K. rewrite K, (nexts_total _ _ _ X). reflexivity.
  - unfold scan_kind in K. cbn. destruct (err_type e); tauto.
Qed.
Lemma Exists_more (P : token -> Prop) l t : Exists P l -> Exists P (l ++ [t]).
Proof. intros H. apply Exists_app. auto. Qed.
Lemma T_step g s p s' q t : T s p -> advance E g s = ROk t s' -> Fa s' q -> step p q -> T s' q.
Proof.
  intros [F X M] Ha F' S. constructor; [exact F'| |].
  2:{ unfold advance in Ha. destruct (s_next E g (scn s)); try discriminate. injection Ha as _ <-. eapply Forall_impl; [|exact M]. cbv beta. intros m [M1 M2]. split; [exact M1|eapply of_token_step; eassumption]. } unfold step in S. rewrite S. cbn [rev].
  destruct X as [X|(Hu & gs & X)]; [left; apply Exists_more; exact X|right].
  unfold advance in Ha. destruct (s_next E g (scn s)) as [u sc| | |] eqn:Hn; try discriminate. injection Ha as <- <-.
  pose proof (fa_next F') as Hq. cbn [cur set_cur set_scn] in Hq. cbn [scn set_cur set_scn]. split.
  - unfold s_next in Hn. pose proof (@s_next_fresh E g (scn s) (proj1 (si_hist (i_scn (fa_inv F)))) Hu) as W. unfold wp, s_next in W. rewrite Hn in W. destruct W as (tr & l & W). exact (nt_unscanned W).
  - exists (gs ++ [g]). rewrite (nexts_app E gs [g] _ X). cbn [s_nexts]. unfold bind. rewrite Hn. cbn. rewrite Hq. reflexivity.
Qed.
Lemma e_adv g s p : T s p -> wp XB (advance E g) (fun t s' => t = next p /\ exists q, T s' q /\ step p q) s.
Proof.
  intros H. pose proof (@f_adv E src first L LB g s p (t_fa H)) as W. unfold wp in *. destruct (advance E g s) as [t s'|e|x|] eqn:Ha; auto.
  - destruct W as (-> & q & W1 & W2 & _). split; [reflexivity|]. exists q. split; [|exact W2]. eapply T_step; eauto.
  - cbn. unfold advance in Ha. destruct (s_next E g (scn s)) eqn:Hn; try discriminate. injection Ha as <-. eapply next_error; eauto.
Qed.
Lemma T_same s s' p : Fa s' p -> scn s' = scn s -> Forall (fun m => seen m /\ of_token p m) (marks s') -> T s p -> T s' p.
Proof. intros F H M [F0 X _]. constructor; [exact F|rewrite H; exact X|exact M]. Qed.
Lemma e_start s p : T s p -> wp XB start_span (fun _ s' => T s' p) s.
Proof.
  intros H. pose proof (@f_start E src first L LB s p (t_fa H)) as W. unfold wp, start_span, modify in *. destruct W as [[W1 _] _].
  eapply (@T_same s); [exact W1|reflexivity| |exact H]. constructor; [|exact (t_marks H)]. rewrite (fa_next (t_fa H)). eapply seen_next; exact H.
Qed.
Lemma e_end s p : T s p -> wp XB end_span (fun sp s' => T s' p /\ sp_ok sp sp) s.
Proof.
  intros H. pose proof (@f_end E src first L LB s p (t_fa H)) as W. pose proof (t_marks H) as M. unfold wp, end_span in *. destruct (marks s) as [|m ms]; [exact I|].
  inversion M as [|? ? [M1 M2] M3]; subst. split; [|split; [reflexivity|eapply T_covers; eassumption]]. exact (@T_same s (set_marks ms s) p (proj1 W) eq_refl M3 H).
Qed.
Lemma e_peek s p : T s p -> wp XB peek_span (fun sp s' => T s' p /\ sp_ok sp sp) s.
Proof. intros H. pose proof (t_marks H) as M. unfold wp, peek_span. destruct (marks s); [exact I|]. inversion M as [|? ? [M1 M2] M3]; subst. split; [exact H|split; [reflexivity|eapply T_covers; eassumption]]. Qed.
Lemma e_cur s p (Q : token -> pst -> Prop) : T s p -> Q (next p) s -> wp XB getcur Q s.
Proof. intros H HQ. apply wp_gets. rewrite (fa_next (t_fa H)). exact HQ. Qed.
Lemma e_has_lt s p (Q : bool -> pst -> Prop) : T s p -> Q (broken p) s -> wp XB (gets has_lt) Q s.
Proof. intros H HQ. apply wp_gets. rewrite (fa_lt (t_fa H)). exact HQ. Qed.
Lemma e_ctx f s p : T s p -> wp XB (upd_ctx f) (fun _ s' => T s' p) s.
Proof.
  intros H. apply wp_xany; [discriminate|]. pose proof (@f_ctx E src first L LB f s p (t_fa H)) as W. unfold wp in *. destruct (upd_ctx f s) as [a s'| | |] eqn:K; auto.
  eapply (@T_same s); [exact (proj1 W)| | |exact H]; injection K as _ <-; [reflexivity|exact (t_marks H)].
Qed.
Lemma e_err A k s p (Q : A -> pst -> Prop) : T s p -> explains E (rev (before p)) (next p) [] k -> wp XB (error_current E k) Q s.
Proof.
  intros H X. unfold error_current. apply wp_bind. eapply wp_conseq; [eapply e_adv; exact H|]. cbv beta. intros t s' (-> & _).
  apply wp_fail. apply blame; [eapply T_known; exact H|exact X].
Qed.
Lemma shown_eq t : value_show E (tval t) = shown E t.
Proof. unfold value_show, shown. destruct (tval t); reflexivity. Qed.
Lemma e_unexp A s p (Q : A -> pst -> Prop) : T s p -> wp XB (unexpected_current E) Q s.
Proof.
  intros H. unfold unexpected_current. apply wp_bind. eapply wp_conseq; [eapply e_adv; exact H|]. cbv beta. intros t s' (-> & _).
  unfold unexpected. apply wp_fail. apply blame; [eapply T_known; exact H|]. cbn. apply shown_eq.
Qed.
Lemma e_eat x g s p : T s p -> wp XB (consume_p E x g) (fun t s' => t = next p /\ exists q, T s' q /\ eats (is_p x) p q) s.
Proof.
  intros H. unfold consume_p. apply wp_bind. eapply e_cur; [exact H|]. destruct (matches_punc (next p) x) eqn:M; [|eapply e_unexp; exact H].
  eapply wp_conseq; [apply e_adv; eassumption|]. cbv beta. intros t s' (-> & q & Hq & Hs). split; auto. exists q. split; auto. split; auto.
  apply matches_punc_eq in M. split; auto. eapply wf_punct; eauto. eapply Fa_wf, t_fa; eauto.
Qed.
Lemma e_kw w g s p : T s p -> wp XB (consume_kw E w g) (fun t s' => t = next p /\ exists q, T s' q /\ eats (is_k w) p q) s.
Proof.
  intros H. unfold consume_kw. apply wp_bind. eapply e_cur; [exact H|]. destruct (tok_kw (next p) w) eqn:M; [|eapply e_unexp; exact H].
  eapply wp_conseq; [apply e_adv; eassumption|]. cbv beta. intros t s' (-> & q & Hq & Hs). split; auto. exists q. split; auto. split; auto. apply tok_kw_eq. exact M.
Qed.
Lemma e_id w g s p : T s p -> wp XB (consume_id E w g) (fun t s' => t = next p /\ exists q, T s' q /\ eats (is_w w) p q) s.
Proof.
  intros H. unfold consume_id. apply wp_bind. eapply e_cur; [exact H|]. destruct (tok_id (next p) w) eqn:M; [|eapply e_unexp; exact H].
  eapply wp_conseq; [apply e_adv; eassumption|]. cbv beta. intros t s' (-> & q & Hq & Hs). split; auto. exists q. split; auto. split; auto. apply tok_id_eq. exact M.
Qed.
Lemma e_semi g s p : T s p -> wp XB (consume_semicolon E g) (fun _ s' => exists q, T s' q /\ ext p q) s.
Proof.
  intros H. unfold consume_semicolon. apply wp_bind. eapply e_cur; [exact H|]. apply wp_bind. eapply e_has_lt; [exact H|].
  destruct (tok_punc (next p) Semicolon).
  - apply wp_bind. eapply wp_conseq; [apply e_adv; eassumption|]. cbv beta. intros t s' (-> & q & Hq & Hs). apply wp_ret. exists q. split; [exact Hq|apply ext_step; exact Hs].
  - destruct (negb _); [|apply wp_ret; eauto using ext_refl]. destruct (tok_punc (next p) RBrace); [apply wp_ret; eauto using ext_refl|]. destruct (tok_is (next p) TEof); [apply wp_ret; eauto using ext_refl|].
    eapply e_unexp. exact H.
Qed.
Lemma e_str g s p : T s p -> wp XB (advance_string E g) (fun w s' => t_to_string (next p) = Some w /\ exists q, T s' q /\ step p q) s.
Proof.
  intros H. unfold advance_string. apply wp_bind. eapply wp_conseq; [eapply e_adv; exact H|]. cbv beta.
  intros a s' (-> & q & H' & Hs). apply wp_unwrap; [|intros; exact I]. intros. split; eauto.
Qed.
Lemma e_look s p : T s p -> peeked (next p) -> wp XB (lookahead E) (fun u s' => T s' p /\ unscanned (scn s') = Some u) s.
Proof.
  intros H Hp. assert (X : Exists peeked (rev (before p) ++ [next p])) by (apply Exists_app; right; constructor; exact Hp).
  pose proof (@f_look E src first L LB s p (t_fa H) Hp) as W. unfold wp in *. destruct (lookahead E s) as [u s'|e|x|] eqn:Hl; auto.
  - destruct W as (_ & W & W' & _). split; [constructor; [exact W|left; exact X|]|exact W']. assert (K : marks s' = marks s); [|rewrite K; exact (t_marks H)].
    unfold lookahead, bind, lift_s in Hl. destruct (save_state _) as [? sc1| | |]; try discriminate Hl. cbv beta iota in Hl. cbn [scn set_scn] in Hl.
    destruct (s_next E GRegExp sc1) as [? sc2| | |]; try discriminate Hl. cbv beta iota in Hl. cbn [scn set_scn] in Hl. destruct (restore_state _ sc2); try discriminate Hl. injection Hl as _ <-. reflexivity.
  - cbn. unfold lookahead, bind, lift_s in Hl. cbv beta iota delta [save_state modify] in Hl. cbn [scn set_scn] in Hl.
    set (sc1 := set_sstate _ (scn s)) in *. destruct (s_next E GRegExp sc1) as [t sc2|e'|x|] eqn:Hn; try discriminate Hl.
    + cbv beta iota in Hl. cbn [scn set_scn] in Hl. unfold restore_state in Hl. destruct (sstate sc2); discriminate Hl.
    + injection Hl as ->. pose proof (@ek_next E GRegExp sc1) as K. rewrite Hn in K. pose proof (fa_tiles (t_fa H)) as Ht. rewrite (fa_next (t_fa H)) in Ht.
      assert (Hu : unscanned (scn s) = None). { destruct (unscanned (scn s)) as [u|] eqn:Hu; auto. unfold s_next in Hn. subst sc1. cbn in Hn. rewrite Hu in Hn. discriminate. }
      unfold pending in Ht. rewrite Hu in Ht. eapply in_scanner with (s := sc1); [exact Ht|exact Hn|left; exact X|]. unfold scan_kind in K. cbn. destruct (err_type e); tauto.
Qed.
Lemma e_unwrap A x (o : option A) s p : T s p -> wp XB (unwrap x o) (fun a s' => o = Some a /\ T s' p) s.
Proof. intros H. apply wp_unwrap; [|intros; exact I]. auto. Qed.
Lemma e_reserved s p : T s p -> wp XB strict_reserved (fun b s' => T s' p /\ (b = true -> explains E (rev (before p)) (next p) [] UnexpectedStrictReserved)) s.
Proof.
  intros H. unfold strict_reserved. apply wp_bind, wp_gets, wp_bind. eapply e_cur; [exact H|]. destruct (strict (ctx s)).
  - apply wp_unwrap; [|intros; exact I]. intros b Hb. split; [exact H|]. intros ->. cbn [explains]. unfold is_strict_reserved_kw, t_to_str in Hb.
    destruct (tval (next p)) as [w| | |] eqn:Hv; try discriminate.
    + set (ws := ["implements"; "interface"; "package"; "private"; "protected"; "public"]%string) in *. clearbody ws. injection Hb as Hb. apply existsb_exists in Hb. destruct Hb as (k & K1 & K2). exists k. split; [|exact K1]. f_equal. apply str_eqb_eq. exact K2.
    + injection Hb as Hb. exfalso. revert Hb. match goal with x : punct |- _ => destruct x end; vm_compute; discriminate.
  - apply wp_ret. split; [exact H|discriminate].
Qed.
(** ** Conversions *)
Definition seen_at (l c : N) : Prop := exists ts t, scanned E src (ts ++ [t]) /\ l = tline t /\ c = tcol t.
Definition conv_error (e : error) : Prop :=
  seen_at (err_line e) (err_col e) /\ In (err_type e) [InvalidOrUnexpectedToken; ParamAfterRest; InvalidLhsInAssignment].
Lemma e_conv A (m : cres A) (G : A -> Prop) s p : crok conv_error G m -> pattern_end (rev (before p) ++ [next p]) -> T s p -> wp XB (lift_c m) (fun a s' => G a /\ T s' p) s.
Proof.
  intros H Hp HT. unfold wp, lift_c. destruct m; cbn in *; auto. destruct H as [(ts & t & H1 & H2 & H3) H4]. eapply in_pattern; [exact H1|exact H2|exact H3|eapply T_known; exact HT|exact Hp|exact H4].
Qed.
Lemma es_with_prm A f (m : PM A) R : es m R -> es (with_prm f m) R.
Proof.
  intros H s p [[[A1 A2 A3 A4] B C D F0 Lo] X M]. unfold with_prm. apply wp_bind, wp_modify, wp_bind, wp_modify. cbn [prm set_pstack set_prm].
  apply wp_bind. eapply wp_conseq.
  { eapply use_es; [|exact H]. constructor; [constructor; [constructor; eassumption|exact B|exact C|exact D|exact F0|eapply located_same; [|exact Lo]; reflexivity]|exact X|exact M]. }
  cbv beta. intros a s' (q & [[[B1 B2 B3 B4] B5 B6 B7 B8 Lo'] B9 B10] & HR).
  apply wp_bind. unfold wp, restore_params. destruct (pstack s'); [exact I|]. apply wp_ret. exists q. split; [|exact HR].
  constructor; auto. constructor; auto; [constructor; auto|]. eapply located_same; [|exact Lo']. reflexivity.
Qed.

(** ** Loops *)
Section Loops.
Context (A : Type) (f : PM A) (R0 : pos -> A -> pos -> Prop) (Hf : es f R0).
Definition some_pos (a : A) : Prop := exists p q, R0 p a q.
Notation P := some_pos.
Ltac loop IH H :=
  first [ apply wp_ret; eexists; split; [exact H|]; split; [apply ext_refl|constructor; fail]
        | apply wp_bind; eapply wp_conseq; [eapply use_es; [exact H|exact Hf]|]; cbv beta;
          let x := fresh "x" in let s1 := fresh "s" in let q := fresh "q" in let H1 := fresh "H" in let H2 := fresh "H" in let H3 := fresh "H" in
          intros x s1 (q & H1 & H2 & H3); apply wp_bind; eapply wp_conseq; [eapply use_es; [exact H1|exact IH]|]; cbv beta;
          let xs := fresh "xs" in let s2 := fresh "s" in let r := fresh "r" in let G1 := fresh "H" in let G2 := fresh "H" in let G3 := fresh "H" in
          intros xs s2 (r & G1 & G2 & G3); apply wp_ret; eexists; split; [exact G1|]; split; [eapply ext_trans; eassumption|constructor; [do 2 eexists; eassumption|assumption]] ].
Lemma es_while n pc : es (parse_while_punc n pc f) (fun _ l _ => Forall P l).
Proof.
  induction n as [|n IH]; intros s p H; [exact I|]. cbn [parse_while_punc]. apply wp_bind. eapply e_cur; [eassumption|].
  destruct (tok_punc (next p) pc); loop IH H.
Qed.
Lemma es_until n pc : es (parse_until_punc n pc f) (fun _ l _ => Forall P l).
Proof.
  induction n as [|n IH]; intros s p H; [exact I|]. cbn [parse_until_punc]. apply wp_bind. eapply e_cur; [eassumption|].
  destruct (tok_punc (next p) pc); loop IH H.
Qed.
Lemma es_until_rest n pc : es (parse_until_punc_or_rest n pc f) (fun _ l _ => Forall P l).
Proof.
  induction n as [|n IH]; intros s p H; [exact I|]. cbn [parse_until_punc_or_rest]. apply wp_bind. eapply e_cur; [eassumption|].
  destruct (tok_punc (next p) pc); [loop IH H|]. destruct (tok_punc (next p) Ellipsis); [|loop IH H].
  apply wp_bind. eapply wp_conseq; [eapply use_es; [exact H|exact Hf]|]. cbv beta. intros x s1 (q & H1 & H2 & H3). apply wp_ret. exists q. split; [exact H1|]. split; [exact H2|]. constructor; [do 2 eexists; eassumption|constructor].
Qed.
Lemma es_until_eof n : es (parse_until_eof n f) (fun _ l _ => Forall P l).
Proof.
  induction n as [|n IH]; intros s p H; [exact I|]. cbn [parse_until_eof]. apply wp_bind. eapply e_cur; [eassumption|].
  destruct (tok_is (next p) TEof); loop IH H.
Qed.
End Loops.
End Base.

Lemma Forall_pos A (P : A -> Prop) l : Forall (some_pos (fun _ x _ => P x)) l -> Forall P l.
Proof. apply Forall_impl. intros a (? & ? & H). exact H. Qed.

Create HintDb es discriminated.
#[export] Hint Constants Opaque : es.
#[export] Hint Resolve es_with_prm es_while es_until es_until_rest es_until_eof : es.

(** ** Tactics *)
Ltac fpos := repeat match goal with H : Forall (some_pos _) _ |- _ => apply Forall_pos in H end.
Ltac euse tac := eapply wp_conseq; [tac|]; cbv beta; intros; fdest; subst; fpos.
Ltac estep := cbv beta;
  lazymatch goal with
  | |- wp _ (bind _ _) _ _ => apply wp_bind
  | |- wp _ (ret _) _ _ => apply wp_ret
  | |- wp _ getcur _ _ => eapply e_cur; [eassumption|]; cbv beta
  | |- wp _ (gets has_lt) _ _ => eapply e_has_lt; [eassumption|]; cbv beta
  | |- wp _ (gets _) _ _ => apply wp_gets; cbv beta
  | |- wp _ start_span _ _ => euse ltac:(eapply e_start; eassumption)
  | |- wp _ end_span _ _ => euse ltac:(eapply e_end; eassumption)
  | |- wp _ peek_span _ _ => euse ltac:(eapply e_peek; eassumption)
  | |- wp _ (advance _ _) _ _ => euse ltac:(eapply e_adv; eassumption)
  | |- wp _ (upd_ctx _) _ _ => euse ltac:(eapply e_ctx; eassumption)
  | |- wp _ (consume_p _ _ _) _ _ => euse ltac:(eapply e_eat; eassumption)
  | |- wp _ (consume_kw _ _ _) _ _ => euse ltac:(eapply e_kw; eassumption)
  | |- wp _ (consume_id _ _ _) _ _ => euse ltac:(eapply e_id; eassumption)
  | |- wp _ (consume_semicolon _ _) _ _ => euse ltac:(eapply e_semi; eassumption)
  | |- wp _ (unexpected_current _) _ _ => eapply e_unexp; eassumption
  | |- wp _ (error_current _ _) _ _ => eapply e_err; [eassumption|cbn [explains]]
  | |- wp _ (crash _) _ _ => exact I
  | |- wp _ nofuel _ _ => exact I
  | |- wp _ (unwrap _ _) _ _ => euse ltac:(eapply e_unwrap; eassumption)
  | |- wp _ strict_reserved _ _ => euse ltac:(eapply e_reserved; eassumption)
  | |- wp _ (advance_string _ _) _ _ => euse ltac:(eapply e_str; eassumption)
  | |- wp _ (if ?b then _ else _) _ _ => destruct b eqn:?
  | |- wp _ (let (_, _) := ?x in _) _ _ => destruct x
  | |- wp _ (match ?x with _ => _ end) _ _ => destruct x
  | |- wp _ (with_in _ _) _ _ => unfold with_in
  | |- wp _ (with_default _ _) _ _ => unfold with_default
  | |- wp _ _ _ _ => euse ltac:(eapply use_es; [eassumption|solve [eauto with es]])
  end.
(** The chain of positions *)
Ltac eext := repeat first [ apply ext_refl | assumption |
  match goal with
  | H : ext ?a ?q |- ext _ ?q => eapply ext_trans; [|exact H]
  | H : step ?a ?q |- ext _ ?q => eapply ext_trans; [|apply ext_step; exact H]
  | H : eats _ ?a ?q |- ext _ ?q => eapply ext_trans; [|apply ext_step; exact (eats_step H)]
  end ].
(** Trees *)
Lemma Forall_diag A (R : A -> A -> Prop) l : Forall (fun x => R x x) l -> Forall2 R l l.
Proof. induction 1; constructor; auto. Qed.
Lemma diag_Forall A (R : A -> A -> Prop) l : Forall2 R l l -> Forall (fun x => R x x) l.
Proof. induction l; inversion 1; subst; constructor; auto. Qed.
Lemma orel_diag A (R : A -> A -> Prop) o : match o with Some x => R x x | None => True end -> orel R o o.
Proof. destruct o; constructor; auto. Qed.
Ltac egood := repeat first [ reflexivity | assumption | exact I
  | match goal with
    | |- sp_ok _ _ _ _ => split; [reflexivity|assumption]
    | |- _ /\ _ => split
    | |- r_id _ _ _ => unfold r_id; cbn [id_name id_span]
    | |- r_lit _ _ _ => unfold r_lit; cbn [lit_value lit_raw lit_span]
    | |- Forall _ (_ :: _) => constructor
    | |- Forall _ [] => constructor
    | |- Forall _ (_ ++ _) => apply Forall_app
    | |- Forall2 _ (_ :: _) (_ :: _) => constructor
    | |- Forall2 _ [] [] => constructor
    | |- Forall2 _ (_ ++ _) (_ ++ _) => apply Forall2_app
    | |- Forall2 _ _ _ => apply Forall_diag
    | |- orel _ (Some _) (Some _) => constructor
    | |- orel _ None None => constructor
    | |- r_node _ _ _ _ => constructor
    | |- r_elem _ _ _ _ => constructor
    | |- r_bind _ _ _ _ => constructor
    | |- r_apat _ _ _ _ => constructor
    | |- r_aapat _ _ _ _ => constructor
    | |- r_key _ _ _ _ => constructor
    | |- r_val _ _ _ _ => constructor
    | |- r_opat _ _ _ _ => constructor
    | |- r_param _ _ _ _ => constructor
    | |- r_arg _ _ _ _ => constructor
    | |- r_prop _ _ _ _ => constructor
    | |- r_meth _ _ _ _ => constructor
    | |- r_fn _ _ _ _ => constructor
    | |- r_case _ _ _ _ => constructor
    | |- r_decl _ _ _ _ => constructor
    | |- r_catch _ _ _ _ => constructor
    | |- r_import _ _ _ => constructor
    | |- r_export _ _ _ => split; cbn [ex_exported ex_local]
    end ].
Ltac eret := lazymatch goal with |- exists q, T _ _ _ _ _ _ q /\ _ => eexists; split; [eassumption|split; [eext|]] end.
Ltac ewalk := repeat estep; try eret; try (cbn [fst snd] in *; egood; fail).
Ltac ego f := unfold f; let s := fresh "s" in let p := fresh "p" in let H := fresh "HT" in intros s p H; ewalk.
