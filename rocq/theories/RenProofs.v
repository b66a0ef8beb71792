(** * RenProofs: programs with other names (proofs, C60). *)
From Verif Require Import Base Codepoint Punct Token Scanner Ast Convert ParserBase ParserExpr ParserStmt Parser FrameFacts
  Hoare ScanBase ScanTrivia ScanToken ScanTokens2 ScanNext ScanSim LexFacts LexProofs ScanForward SpecLex SpecScan SpecLayout GramLex SpecParse Fuel ParserInv TermBase TermTop ParseProofs
  Rel SimBase SpecTree SpecTouch SpecStrict StrictProofs ShiftProofs SpecRelay RelayScan RelayProofs SpecRename RenRel RenBase RenExpr RenStmt RenTop.
From Coq Require Import ZifyBool ZifyN ZifyNat.
Set Implicit Arguments.
Local Open Scope N_scope.

Definition same_line (m m' : marker) : Prop := mk_line m' = mk_line m.
Lemma same_line_rel : line_rel same_line.
Proof. intros a a' b b' H G. rewrite H, G. reflexivity. Qed.

(** ** Identifiers and punctuators have no other attributes. *)
Definition id_plain (t : token) : Prop := ttype t = TIdentifier \/ ttype t = TPunctuator ->
  tpattern t = None /\ tflags t = None /\ toctal t = None /\ tcooked t = None /\ thead t = None /\ ttail t = None.
Definition idp (m : SM token) : Prop := forall s t s', m s = ROk t s' -> id_plain t.
Lemma idp_bind A (m : SM A) k : (forall a, idp (k a)) -> idp (bind m k).
Proof. intros H s t s' G. unfold bind in G. destruct (m s); try discriminate. eapply H; eauto. Qed.
Lemma idp_none m : (forall s a t, m s <> ROk a t) -> idp m.
Proof. intros H s t s' G. destruct (H _ _ _ G). Qed.
Lemma idp_simple E ty v : idp (token_simple E ty v).
Proof. intros s t s' H. unfold token_simple, mk_token in H. destruct (current s =? 0); [destruct (checked E); [discriminate|]|]; injection H as <- <-; intros _; cbn; auto 10. Qed.
Lemma idp_mk E ty v a b c d e f : ty <> TIdentifier -> ty <> TPunctuator -> idp (mk_token E ty v a b c d e f).
Proof. intros N N' s t s' H. unfold mk_token in H. destruct (current s =? 0); [destruct (checked E); [discriminate|]|]; injection H as <- <-; intros [K|K]; cbn in K; congruence. Qed.
Lemma idp_plain m : plain m -> idp m.
Proof. intros H s t s' G _. destruct (H _ _ _ G) as (_ & K). exact K. Qed.
Ltac ip := repeat first [apply idp_simple|apply idp_mk; discriminate|apply idp_plain; first [apply plain_punctuator|apply plain_div]|apply idp_none; discriminate|apply idp_bind; intros| match goal with
  | |- idp (if ?b then _ else _) => destruct b
  | |- idp (match ?b with _ => _ end) => destruct b end].
Lemma idp_identifier E : idp (scan_identifier E). Proof. unfold scan_identifier, identifier_token. ip. Qed.
Lemma idp_string E : idp (scan_string_literal E). Proof. unfold scan_string_literal. ip. Qed.
Lemma idp_numeric E : idp (scan_numeric_literal E). Proof. unfold scan_numeric_literal. ip. Qed.
Lemma idp_template E : idp (scan_template E). Proof. unfold scan_template. ip. Qed.
Lemma idp_tail E : idp (scan_template_substitution_tail E). Proof. unfold scan_template_substitution_tail. ip. Qed.
Lemma idp_regexp E : idp (scan_regexp_literal E). Proof. unfold scan_regexp_literal. ip. Qed.
Lemma scan_token_idp E g : idp (scan_token E g).
Proof.
  intros s. unfold scan_token. destruct (s_peek2 s) as [[c|] o2]; [|apply (@idp_simple E TEof VNull s)].
  assert (R : forall m : SM token, idp m -> forall t s', m s = ROk t s' -> id_plain t) by (intros m Hm; exact (Hm s)).
  destruct (is_identifier_start E c); [apply R, idp_identifier|].
  destruct ((c =? 34) || (c =? 39)); [apply R, idp_string|].
  destruct ((c =? chr ".") && _); [apply R, idp_numeric|].
  destruct (is_decimal_digit c); [apply R, idp_numeric|].
  destruct (c =? chr "`"); [apply R, idp_template|].
  destruct ((c =? chr "}") && _); [apply R, idp_bind; intros; apply idp_tail|].
  destruct (c =? chr "/"); [destruct g; apply R; [apply idp_plain, plain_div|apply idp_regexp]|apply R, idp_plain, plain_punctuator].
Qed.
Lemma next_idp E g s t s' : unscanned s = None -> s_next E g s = ROk t s' -> id_plain t.
Proof.
  intros H G. unfold s_next in G. rewrite H in G. revert G. generalize (set_newline false s). clear. intros s. 
  intros G. assert (X : idp (scan_comments ;;; modify s_start_new_token ;;; scan_token E g)) by (apply idp_bind; intros; apply idp_bind; intros; apply scan_token_idp).
  exact (X _ _ _ G).
Qed.

Section Next.
Context (E : env) (rho : str -> str).
Hypothesis Hsane : ucd_sane E.
Definition ren_kept (t t' : token) (s2 s2' : sst) : Prop :=
  trel rho same_line t t' /\ line s2' = line s2 /\ curly s2' = curly s2 /\ unscanned s2' = None.
Lemma same_ren t t' : same_token t t' -> tline t' = tline t -> ren_value rho (tval t) = tval t -> trel rho same_line t t'.
Proof.
  intros (A1 & A2 & A3 & A4 & A5 & A6 & A7 & A8) B C. exists (tmark t', tend t'). split; [|exact B].
  destruct t, t'. unfold tren, tmark. cbn in *. congruence.
Qed.
Lemma kept_value t : rho (value_show E (tval t)) = value_show E (tval t) -> ren_value rho (tval t) = tval t.
Proof. destruct (tval t); cbn; congruence. Qed.
Lemma id_ascii c : id_start E c -> c <> 47 /\ c <> 42.
Proof.
  intros H. assert (K : forall d, ~ ascii_letter d -> d < 128 -> d <> chr "$" -> d <> chr "_" -> c <> d).
  { intros d D1 D2 D3 D4 ->. destruct H as [H|[H|[H|H]]]; auto. apply D1. apply (us_ascii _ Hsane) in H; auto. }
  split; apply K; unfold ascii_letter; try lia; discriminate.
Qed.
Lemma punct_before_name p r r' : name_first E r' -> longest_match p (s2l (p_spell p) ++ r) ->
  longest_match p (s2l (p_spell p) ++ r') /\ match r' with c :: _ => ~ ascii_digit c | [] => True end.
Proof.
  intros (c & y & -> & Hc) (N1 & _ & _).
  assert (K : forall d, ~ ascii_letter d -> d < 128 -> d <> chr "$" -> d <> chr "_" -> c <> d).
  { intros d D1 D2 D3 D4 ->. destruct Hc as [H|[H|[H|H]]]; auto. apply D1. apply (us_ascii _ Hsane) in H; auto. }
  split.
  - split; [exact N1|]. split; [exists (c :: y); reflexivity|].
    intros q Nq [x Hx]. rewrite !spell_lit_length. rewrite !spell_lit_ok in Hx. destruct (Nat.le_gt_cases (length (spell_lit q)) (length (spell_lit p))) as [Hle|Hlt]; [exact Hle|].
    exfalso. assert (exists y', spell_lit q = spell_lit p ++ c :: y') as (y' & Hq).
    { clear -Hx Hlt. revert Hx Hlt. generalize (spell_lit p) (spell_lit q). intros a. induction a as [|d a IH]; intros b Hx Hlt.
      - destruct b as [|e b]; cbn in *; [lia|]. injection Hx as <- Hx. eauto.
      - destruct b as [|d' b]; cbn in *; [lia|]. injection Hx as <- Hx. destruct (IH b Hx) as (z & A); [lia|]. exists z. rewrite A. auto. }
    pose proof sep_free_all as A. rewrite forallb_forall in A. specialize (A q (all_puncts_ok q)). unfold sep_free in A.
    assert (Hp : spell_lit p <> []) by (destruct p; discriminate).
    assert (Ht : In c (tl (spell_lit q))).
    { rewrite Hq. destruct (spell_lit p) as [|d a]; [congruence|]. cbn. apply in_or_app. right. left. reflexivity. }
    destruct (tl (spell_lit q)) as [|t0 tl0] eqn:Etl; [destruct Ht|].
    assert (Z : forallb (fun c => existsb (N.eqb c) (s2l "=+-&|<>*.?")) (t0 :: tl0) = true).
    { destruct q; try exact A. exfalso. apply Nq. unfold never_scanned. tauto. }
    rewrite forallb_forall in Z. specialize (Z c Ht). apply existsb_exists in Z. destruct Z as (d & K1 & K2). apply N.eqb_eq in K2. subst d.
    let v := eval vm_compute in (s2l "=+-&|<>*.?") in change (s2l "=+-&|<>*.?") with v in K1. cbn [In] in K1.
    repeat (destruct K1 as [K1|K1]; [symmetry in K1; revert K1; apply K; unfold ascii_letter; try lia; discriminate|]). destruct K1.
  - intros Hd. apply (K c); auto; unfold ascii_letter, ascii_digit in *; try lia.
    all: change (chr "$") with 36; change (chr "_") with 95; lia.
Qed.
Lemma regexp_type s t s' : scan_regexp_literal E s = ROk t s' -> ttype t = TRegExp.
Proof.
  assert (X : forall A (m : SM A) (k : A -> SM token), (forall a s t s', k a s = ROk t s' -> ttype t = TRegExp) -> forall s t s', bind m k s = ROk t s' -> ttype t = TRegExp).
  { intros A m k G s0 t0 s1 H. unfold bind in H. destruct (m s0); try discriminate. eapply G; eauto. }
  revert s t s'. unfold scan_regexp_literal. repeat (apply X; intros ?).
  intros s t s' H. unfold mk_token in H. destruct (current s =? 0); [destruct (checked E); [discriminate|]|]; injection H as <- <-; reflexivity.
Qed.
Lemma no_slash s t g p s2 : unscanned s = None -> s_next E GRegExp s = ROk t s2 -> next_token E s t g (s2l (p_spell p)) s2 -> tval t = VPunc p -> p = Slash \/ p = SlashAssign -> False.
Proof.
  intros F H N Hp Hs. destruct (nt_punct N Hp) as [Ty _]. unfold s_next in H. rewrite F in H.
  destruct (scan_comments_spec (set_newline false s)) as (s1 & l1 & B1 & R1 & T1 & N1).
  assert (X : rest s1 = s2l (p_spell p) ++ rest s2).
  { eapply trivia_unique; [exact T1|exact N1|exact (nt_trivia N)|exact (nt_no_trivia N)|]. rewrite <- (rd_rest R1). cbn. exact (nt_rest N). }
  unfold bind at 1 2 in H. rewrite B1 in H. unfold modify at 1 in H.
  assert (Y : exists y, rest s1 = 47 :: y) by (destruct Hs as [-> | ->]; rewrite X; eexists; reflexivity). destruct Y as (y & Y).
  unfold scan_token, s_peek2 in H. cbn [s_start_new_token rest] in H. rewrite Y in H. cbn [hd_error] in H.
  assert (I0 : is_identifier_start E 47 = false).
  { destruct (is_identifier_start E 47) eqn:I0; [|reflexivity]. apply id_start_iff in I0; auto. apply id_ascii in I0. destruct I0. congruence. }
  rewrite I0 in H. cbn in H. apply regexp_type in H. congruence.
Qed.
Lemma next_ren gl s s' t g l g' l' r' s2 : quiet s -> fresh s -> s_next E gl s = ROk t s2 -> next_token E s t g l s2 ->
  quiet s' -> fresh s' -> curly s' = curly s -> line s' = line s -> rest s' = g' ++ l' ++ r' -> trivia g' (l' ++ r') ->
  breaks g' (l' ++ r') = breaks g (l ++ rest s2) -> breaks l' r' = breaks l (rest s2) -> l <> [] -> retold rho E t l l' (rest s2) r' ->
  exists t' s2', s_next E gl s' = ROk t' s2' /\ ren_kept t t' s2 s2' /\ rest s2' = r' /\ current s2' = current s' + len (g' ++ l') /\ l' <> [].
Proof.
  intros Q F H N Q' F' HC HLn R' T' HB1 HB2 Hl HR. destruct HR as [(x & K1 & K2 & K3 & K4 & K6 & K7 & K8)|(K1 & K2 & -> & K4)].
  2:{ destruct K4 as [K4|(K4 & K5 & K6)].
      - destruct (@next_relay E gl s s' t g g' l r' s2) as (t' & s2' & X1 & X2 & X3 & X4); auto; [intros; congruence|].
        exists t', s2'. split; [exact X1|]. split; [|split; [exact X3|split; [exact X4|exact Hl]]].
        split; [apply same_ren; [exact (rl_same X2)|exact (rl_tline X2)|apply kept_value; exact K2]|].
        split; [exact (rl_line X2)|]. split; [exact (rl_curly X2)|exact (rl_fresh X2)].
      - assert (Wf := nt_wf N). unfold token_wf in Wf. rewrite K4 in Wf. destruct Wf as (p & Wp). destruct (nt_punct N Wp) as [_ LM].
        assert (L : l = s2l (p_spell p)).
        { pose proof (nt_lexeme N) as Lx. destruct Lx; try congruence. exfalso. match goal with H : word_kind _ _ _ |- _ => destruct H end; congruence. }
        subst l. destruct (@punct_before_name p (rest s2) r' K6 LM) as [LM' Nd].
        assert (Sp : spelled E (KP p) (s2l (p_spell p)) r').
        { constructor; [exact LM'| | |].
          - pose proof (nt_no_trivia N) as NT. destruct K5 as (d & y & Er & Hd), K6 as (d' & y' & Er' & Hd'). rewrite Er in NT. rewrite Er'. rewrite !spell_lit_ok in *.
            assert (D : d' <> 47 /\ d' <> 42) by (apply (id_ascii Hd')).
            destruct (spell_lit p) as [|a [|b m]] eqn:Ep; [destruct p; discriminate| |exact NT]. cbn in NT |- *. destruct NT as (T1 & T2 & T3). split; [exact T1|]. split; [exact T2|].
            intros Ha. specialize (T3 Ha). exact D.
          - intros ->. exact Nd.
          - destruct K6 as (d & y & -> & _). discriminate. }
        destruct (@tok_next E Hsane gl s' g' (KP p) (s2l (p_spell p)) r' Q' F') as (t' & s2' & X1 & X2).
        + unfold kopen. destruct p; try exact I. rewrite HC. exact (nt_close N Wp).
        + exact R'.
        + exact T'.
        + exact Sp.
        + intros ->. destruct (punct_eq_dec p Slash) as [->|NS]; [exfalso; eapply (@no_slash s); eauto; auto|]. destruct (punct_eq_dec p SlashAssign) as [->|NS']; [exfalso; eapply (@no_slash s); eauto; auto|]. split; congruence.
        + intros _. discriminate.
        + intros _. right. destruct g'; [|discriminate]. destruct p; discriminate.
        + destruct (sp_match X2) as (M1 & M2 & _). cbn in M1, M2.
          destruct (@next_idp E gl _ _ _ F H (or_intror K4)) as (A1 & A2 & A3 & A4 & A5 & A6).
          destruct (@next_idp E gl _ _ _ F' X1 (or_intror M1)) as (B1 & B2 & B3 & B4 & B5 & B6).
          assert (HL2 : line s2' = line s2).
          { rewrite (sp_breaks X2), (nt_breaks N), HLn, !breaks_app, HB1, HB2. reflexivity. }
          exists t', s2'. split; [exact X1|]. split; [|split; [exact (sp_rest X2)|split; [|exact Hl]]].
          2:{ rewrite (sp_current X2), len_app. lia. }
          split; [|split; [exact HL2|split; [|exact (sp_fresh X2)]]].
          * apply same_ren; [|rewrite (sp_line X2), (nt_line N); exact HL2|apply kept_value; exact K2]. repeat split; congruence.
          * rewrite (sp_curly X2), HC, (nt_curly N). unfold curly_after. rewrite K4, Wp. destruct p; reflexivity. }
  destruct (@word_token E Hsane gl s' g' l' r' Q' F' K4 K8 R' T') as (ty & v & W & t' & s2' & X1 & X2 & X3 & X4 & X5 & X6 & X7 & X8).
  assert (Y : ty = TIdentifier /\ v = VStr l').
  { destruct W as [W|[W|W]|W|_ _ _ _]; [| | | |auto]; exfalso; [apply K7; cbn; auto|apply K7; cbn; auto|apply K7; cbn; auto|auto]. }
  destruct Y as [-> ->].
  pose proof (@s_next_fresh E gl _ Q' F') as W0. unfold wp in W0. rewrite X1 in W0. destruct W0 as (tr & l0 & N').
  assert (Hl' : l' <> []) by (destruct K4 as (c & v & -> & _); discriminate).
  assert (HX : tr ++ l0 = g' ++ l').
  { pose proof (nt_rest N') as Z. rewrite R', X5, !app_assoc in Z. apply app_inv_tail in Z. auto. }
  assert (HL2 : line s2' = line s2).
  { rewrite (nt_breaks N'), (nt_breaks N), HX, X5, HLn, !breaks_app, HB1, HB2. reflexivity. }
  destruct (@next_idp E gl _ _ _ F H (or_introl K1)) as (A1 & A2 & A3 & A4 & A5 & A6).
  destruct (@next_idp E gl _ _ _ F' X1 (or_introl X2)) as (B1 & B2 & B3 & B4 & B5 & B6).
  exists t', s2'. split; [exact X1|]. split; [|split; [exact X5|split; [|exact Hl']]].
  2:{ rewrite (nt_current N'), <- HX, len_app. lia. }
  split; [|split; [exact HL2|split; [|exact (nt_unscanned N')]]].
  - exists (tmark t', tend t'). split.
    + destruct t, t'. unfold tren, tmark. cbn in *. subst. cbn. reflexivity.
    + unfold same_line. cbn. rewrite (nt_line N'), (nt_line N). exact HL2.
  - rewrite X6, HC, (nt_curly N). unfold curly_after. rewrite K1. reflexivity.
Qed.
End Next.

Section Ren.
Context (E : env) (Hsane : ucd_sane E).
Variable rho : str -> str.
(** The scanner states of the two runs between two requests *)
Record rpair (s s' : sst) : Prop := mkRPair {
  rr_line : line s' = line s;
  rr_curly : curly s' = curly s;
  rr_hist : hist s';
  rr_unscanned : match unscanned s, unscanned s' with Some t, Some t' => trel rho same_line t t' | None, None => True | _, _ => False end }.
Lemma rpair_mark s s' : rpair s s' -> same_line (smark s) (smark s').
Proof. intros P. exact (rr_line P). Qed.
End Ren.
Section Ren2.
Context (E : env) (Hsane : ucd_sane E).
Lemma ren_run tr : forall s s0, hist s -> ran E tr s s0 -> rest s0 = [] ->
  exists ts ps fin, rest s = text ps fin /\ cut E (trivia fin []) fin ts ps /\
    forall rho ps' fin' s', renamed rho E (same_gap fin fin') fin fin' ts ps ps' -> rest s' = text ps' fin' -> rpair rho s s' -> started E tr s s' -> RenBase.srep E rho same_line tr s s'.
Proof.
  induction tr as [|v tr IH]; cbn [ran]; intros s r Hh Hr H1.
  { subst r. exists [], [], []. cbn [text]. split; [exact H1|]. split; [constructor; constructor|].
    intros rho ps' fin' s' _ _ P _. cbn. split; [apply (rpair_mark P)|exact I]. }
  destruct (pre_facts v s) as (F1 & F2 & F3 & F4 & F5). pose proof (hist_pre v Hh) as Hp.
  destruct Hr as (t & s2 & Hv & Hr).
  pose proof (proj1 (ev_step E v Hh t s2) Hv) as (s3 & Hn & Es2).
  assert (Hh2 : hist s2) by (subst s2; apply hist_post; [exact Hh|eapply hist_next; eauto]).
  destruct (IH s2 r Hh2 Hr H1) as (ts & ps & fin & R2 & C2 & S2). clear IH.
  destruct (unscanned s) as [u|] eqn:Hu.
  - assert (X : t = u /\ s3 = set_unscanned None (pre v s)).
    { unfold s_next in Hn. rewrite F5 in Hn. injection Hn as <- <-. auto. }
    destruct X as [-> ->]. exists ts, ps, fin. split; [rewrite <- R2, Es2; destruct v; reflexivity|]. split; [exact C2|].
    intros rho ps' fin' s' Hrel Rs' P St. cbn [RenBase.srep]. split; [apply (rpair_mark P)|]. split; [|intros e0 Hv0; congruence]. intros t0 s0 Hv0. rewrite Hv in Hv0. injection Hv0 as <- <-.
    pose proof (rr_unscanned P) as U. rewrite Hu in U. destruct (unscanned s') as [u'|] eqn:Hu'; [|destruct U].
    destruct (pre_facts v s') as (G1 & G2 & G3 & G4 & G5).
    exists u', (post v s' u' (set_unscanned None (pre v s'))). split.
    { apply (ev_step E v (rr_hist P)). eexists. split; [|reflexivity]. unfold s_next. rewrite G5, Hu'. reflexivity. }
    split; [exact U|]. apply (S2 rho ps' fin'); [exact Hrel|rewrite <- Rs'; destruct v; reflexivity| |].
    2:{ destruct St as [St|(_ & St & _)]; [left; destruct v; exact St|congruence]. }
    subst s2. destruct P as [P1 P3 P4 P5]. constructor.
    + destruct v; exact P1.
    + destruct v; exact P3.
    + apply hist_post; [exact P4|]. destruct (hist_pre v P4) as [[? ?] ?]. split; [split; cbn; auto|auto].
    + destruct v; cbn; auto.
  - pose proof (@s_next_fresh E (goal_of v) _ (hist_quiet Hp) F5) as W. unfold wp in W. rewrite Hn in W. destruct W as (g & l & N).
    assert (R3 : rest s3 = text ps fin) by (rewrite <- R2, Es2; destruct v; reflexivity).
    pose proof (nt_rest N) as Rn. rewrite F1 in Rn.
    (* one request in the renamed text *)
    assert (Z : exists ts' ps0 fin0, rest s = text ps0 fin0 /\ cut E (trivia fin0 []) fin0 ts' ps0 /\
      forall rho ps' fin' s', renamed rho E (same_gap fin0 fin') fin0 fin' ts' ps0 ps' -> rest s' = text ps' fin' -> rpair rho s s' -> started E (v :: tr) s s' ->
      exists t' s3' ps2' fin2', s_next E (goal_of v) (pre v s') = ROk t' s3' /\ ren_kept rho t t' s3 s3' /\ rest s3' = text ps2' fin2' /\ 0 < current s3' /\
        renamed rho E (same_gap fin fin2') fin fin2' ts ps ps2').
    { destruct (list_eq_dec N.eq_dec l []) as [->|Hl].
      - pose proof (nt_eof_rest N eq_refl) as Y. rewrite Y in *. destruct (text_nil C2 (eq_sym R3)) as (-> & -> & ->).
        exists [], [], g. cbn [app text] in *. rewrite List.app_nil_r in Rn. split; [exact Rn|]. split.
        { constructor. pose proof (nt_trivia N) as T. cbn [app] in T. rewrite Y in T. exact T. }
        intros rho ps' fin' s' Hrel Rs' P St. clear Rn. inversion Hrel as [[T B] E1 E2 E3|]; subst. cbn [text] in Rs'.
        destruct (pre_facts v s') as (G1 & G2 & G3 & G4 & G5).
        pose proof (rr_unscanned P) as U. rewrite Hu in U. destruct (unscanned s') as [u'|] eqn:Hu'; [destruct U|].
        assert (Lpos : 0 < current s' + len fin').
        { destruct St as [St|(St & _)]; [lia|]. rewrite Rs' in St. destruct fin'; [congruence|rewrite len_cons; lia]. }
        destruct (@next_relay E (goal_of v) (pre v s) (pre v s') t g fin' [] [] s3) as (t' & s3' & X1 & X2 & X3 & X4).
        + exact (hist_quiet Hp).
        + exact F5.
        + exact Hn.
        + exact N.
        + exact (hist_quiet (hist_pre v (rr_hist P))).
        + unfold fresh. congruence.
        + rewrite G3, F3. exact (rr_curly P).
        + rewrite G2, F2. exact (rr_line P).
        + rewrite G1, Rs'. cbn [app]. rewrite List.app_nil_r. reflexivity.
        + exact T.
        + cbn [app]. rewrite Y. exact B.
        + rewrite Y. reflexivity.
        + intros K; congruence.
        + intros _. split; [reflexivity|]. rewrite G4. exact Lpos.
        + exists t', s3', [], []. split; [exact X1|]. split; [|split; [exact X3|split]].
          * split; [|split; [exact (rl_line X2)|split; [exact (rl_curly X2)|exact (rl_fresh X2)]]].
            apply same_ren; [exact (rl_same X2)|exact (rl_tline X2)|].
            pose proof (proj2 (nt_eof N) eq_refl) as Ty. pose proof (nt_wf N) as W. unfold token_wf in W. rewrite Ty in W. rewrite W. reflexivity.
          * rewrite X4, G4, List.app_nil_r. exact Lpos.
          * constructor. split; constructor.
      - exists (t :: ts), ((g, l) :: ps), fin. cbn [text]. rewrite <- R3. split; [exact Rn|]. split.
        { constructor; auto; [rewrite <- R3; exact (nt_trivia N)|exact (nt_lexeme N)]. }
        intros rho ps' fin' s' Hrel Rs' P St. inversion Hrel as [|? ? ? g' ? l' ? ps2' T B1 B2 A Hrel2]; subst. cbn [text] in Rs'.
        destruct (pre_facts v s') as (G1 & G2 & G3 & G4 & G5).
        pose proof (rr_unscanned P) as U. rewrite Hu in U. destruct (unscanned s') as [u'|] eqn:Hu'; [destruct U|].
        rewrite <- R3 in *.
        destruct (@next_ren E rho Hsane (goal_of v) (pre v s) (pre v s') t g l g' l' (text ps2' fin') s3) as (t' & s3' & X1 & X2 & X3 & X4 & X5).
        + exact (hist_quiet Hp).
        + exact F5.
        + exact Hn.
        + exact N.
        + exact (hist_quiet (hist_pre v (rr_hist P))).
        + unfold fresh. congruence.
        + rewrite G3, F3. exact (rr_curly P).
        + rewrite G2, F2. exact (rr_line P).
        + rewrite G1, Rs'. reflexivity.
        + exact T.
        + exact B1.
        + exact B2.
        + exact Hl.
        + exact A.
        + exists t', s3', ps2', fin'. split; [exact X1|]. split; [exact X2|]. split; [exact X3|]. split; [|exact Hrel2].
          rewrite X4, len_app. destruct l' as [|c l']; [congruence|rewrite len_cons; lia]. }
    destruct Z as (ts' & ps0 & fin0 & K1 & K2 & K3). exists ts', ps0, fin0. split; [exact K1|]. split; [exact K2|].
    intros rho ps' fin' s' Hrel Rs' P St. cbn [RenBase.srep]. split; [apply (rpair_mark P)|]. split; [|intros e0 Hv0; congruence]. intros t0 s0 Hv0. rewrite Hv in Hv0. injection Hv0 as <- <-.
    destruct (K3 rho _ _ _ Hrel Rs' P St) as (t' & s3' & ps2' & fin2' & X1 & (Y1 & Y2 & Y3 & Y4) & X3 & X4 & X5).
    exists t', (post v s' t' s3'). split; [apply (ev_step E v (rr_hist P)); eauto|]. split; [exact Y1|].
    apply (S2 rho ps2' fin2'); [exact X5|rewrite <- X3; destruct v; reflexivity| |].
    2:{ left. destruct v as [g0|]; cbn; [exact X4|]. destruct St as [St|(_ & _ & g0 & tr0 & t0 & s0 & St & _)]; [exact St|discriminate]. }
    subst s2. assert (Hh3 : hist s3') by (eapply hist_next; [apply hist_pre, (rr_hist P)|exact X1]).
    constructor.
    + destruct v; [exact Y2|exact (rr_line P)].
    + destruct v; [exact Y3|exact (rr_curly P)].
    + apply hist_post; [exact (rr_hist P)|exact Hh3].
    + destruct v; cbn; [rewrite Y4, (nt_unscanned N); exact I|exact Y1].
Qed.
End Ren2.

Lemma ren_sim_run E rho sl RM : line_rel RM -> keeps_special rho E -> forall k, RenExpr.sim_h E rho sl RM (run E k).
Proof.
  intros H K k. induction k as [|k IH]; [|cbn [run]; apply RenTop.sim_step; auto].
  constructor; intros; apply RenBase.sim_fuel.
Qed.
Lemma lines_eq rho x y : r_node rho (RenBase.RS same_line) (RenBase.RA false) x y -> lines_only (ren_node rho x) = lines_only y.
Proof.
  intros H. unfold lines_only. refine (@RenRel.eq_node _ _ _ _ _ _ _ _ _ H).
  - intros a b [H1 G1]. unfold line_only. f_equal; f_equal; symmetry; [exact H1|exact G1].
  - intros a b [->|(K & _)]; [reflexivity|discriminate].
Qed.
Lemma rpair_new rho a b : rpair rho (s_new a) (s_new b).
Proof. constructor; try reflexivity. split; [split; reflexivity|discriminate]. Qed.

Section Go.
Context (go : env -> nat -> handler -> PM node).
Hypothesis go_ren : forall E rho RM n k I, line_rel RM -> keeps_special rho E ->
  RenBase.sim E rho false RM (r_node rho (RenBase.RS RM) (RenBase.RA false)) (go E n (run E k)) (fun _ : I => go E n (run E k)).
Hypothesis go_fuel : forall E n n' s, (n <= n')%nat -> go E n (run E n) s <> RFuel -> go E n' (run E n') s = go E n (run E n) s.
Hypothesis go_ends : forall E src, parse_with go E src <> OutOfFuel.
Hypothesis go_all : forall E src t0 sc x s, s_next E GRegExp (s_new src) = ROk t0 sc -> go E (fuel_for src) (run E (fuel_for src)) (init_pst t0 sc) = ROk x s -> rest (scn s) = [].

Definition renames (E : env) (rho : str -> str) (src : str) (x : node) : Prop :=
  exists ts ps fin, src = text ps fin /\ cut E (trivia fin []) fin ts ps /\ forall ps' fin',
    renamed rho E (same_gap fin fin') fin fin' ts ps ps' -> text ps' fin' <> [] ->
    exists y, parse_with go E (text ps' fin') = Ok y /\ lines_only y = lines_only (ren_node rho x).
Lemma ren_go E rho src x : ucd_sane E -> keeps_special rho E -> parse_with go E src = Ok x -> renames E rho src x.
Proof.
  intros Hsane Hk Hx. unfold parse_with in Hx. destruct (s_next E GRegExp (s_new src)) as [t1 s1| | |] eqn:H1; try discriminate.
  set (N1 := fuel_for src) in *. destruct (go E N1 (run E N1) (init_pst t1 s1)) as [y s| | |] eqn:E1; try discriminate. injection Hx as ->.
  pose proof (@go_all E src _ _ _ _ H1 E1) as Hend.
  destruct (proj1 (@go_ren E rho same_line N1 N1 unit same_line_rel Hk) _ _ _ E1) as [_ [tr [Rn Q]]].
  assert (H0 : hist (s_new src)) by (split; [split; reflexivity|discriminate]).
  destruct (@ren_run E Hsane (EvNext GRegExp :: tr) (s_new src) (scn s) H0) as (ts & ps & fin & R0 & C0 & S0); [cbn [ran s_ev]; eauto|exact Hend|].
  exists ts, ps, fin. split; [exact R0|]. split; [exact C0|]. intros ps' fin' Hrel Hne.
  set (b := text ps' fin') in *.
  destruct (S0 rho ps' fin' (s_new b) Hrel eq_refl (rpair_new rho _ _) (@started_new E tr _ _ _ _ _ H1 Hne)) as [_ [S1 _]].
  destruct (S1 _ _ H1) as (t2 & s2 & H2 & Ht & S2). cbn [s_ev] in H2.
  destruct (Q tt [] (init_pst t2 s2)) as (y & s' & E2 & E3 & _).
  { constructor; cbn; auto; [rewrite List.app_nil_r; exact S2|]. exists false. split; [reflexivity|left; reflexivity]. }
  exists y. split; [|symmetry; apply lines_eq; exact E3]. unfold parse_with. rewrite H2.
  set (N2 := fuel_for b). clearbody N1. destruct (Nat.le_ge_cases N1 N2) as [Hle|Hle].
  - rewrite (@go_fuel E N1 N2 _ Hle); [rewrite E2; reflexivity|rewrite E2; discriminate].
  - rewrite <- (@go_fuel E N2 N1 _ Hle); [rewrite E2; reflexivity|].
    intros K. apply (@go_ends E b). unfold parse_with. rewrite H2. fold N2. rewrite K. reflexivity.
Qed.
End Go.
Lemma script_ren E rho RM n k I : line_rel RM -> keeps_special rho E ->
  RenBase.sim E rho false RM (r_node rho (RenBase.RS RM) (RenBase.RA false)) (script E n (run E k)) (fun _ : I => script E n (run E k)).
Proof. intros H K. apply RenTop.s_script; [exact H|exact K|]. exact (ren_sim_run false H K k). Qed.
Lemma module_ren E rho RM n k I : line_rel RM -> keeps_special rho E ->
  RenBase.sim E rho false RM (r_node rho (RenBase.RS RM) (RenBase.RA false)) (module_ E n (run E k)) (fun _ : I => module_ E n (run E k)).
Proof. intros H K. apply RenTop.s_module_; [exact H|exact K|]. exact (ren_sim_run false H K k). Qed.
Lemma script_renames E rho src x : ucd_sane E -> keeps_special rho E -> parse_script E src = Ok x -> renames script E rho src x.
Proof. apply (@ren_go script); [exact script_ren|exact script_fuel|exact script_ends|exact script_all]. Qed.
Lemma module_renames E rho src x : ucd_sane E -> keeps_special rho E -> parse_module E src = Ok x -> renames module_ E rho src x.
Proof. apply (@ren_go module_); [exact module_ren|exact module_fuel|exact module_ends|exact module_all]. Qed.
