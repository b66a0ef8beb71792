(** * RenErrors: rejected programs with other names (proofs, C60). *)
From Verif Require Import Base Codepoint Punct Token Scanner Ast Convert ParserBase ParserExpr ParserStmt Parser FrameFacts
  Hoare ScanBase ScanTrivia ScanToken ScanTokens2 ScanNext ScanSim LexFacts LexProofs ScanForward SpecLex SpecScan SpecLayout GramLex SpecParse Fuel ParserInv TermBase TermTop ParseProofs
  Rel SimBase SpecTree SpecTouch SpecStrict StrictProofs ShiftProofs SpecRelay RelayScan RelayProofs SpecRename RenRel RenBase RenExpr RenStmt RenTop RenProofs.
From Coq Require Import ZifyBool ZifyN ZifyNat.
Set Implicit Arguments.
Local Open Scope N_scope.

(** ** The scanner's errors *)
Definition lexical (t : errtype) : Prop := match t with InvalidOrUnexpectedToken | UnexpectedEOS | InvalidUnicodeEscapeSequence => True | _ => False end.
Definition lexm {A} (m : SM A) : Prop := forall s e, m s = RErr e -> lexical (err_type e).
Lemma lx_bind A B (m : SM A) (k : A -> SM B) : lexm m -> (forall a, lexm (k a)) -> lexm (bind m k).
Proof. intros H G s e K. unfold bind in K. destruct (m s) eqn:Em; try discriminate; [eapply G; eauto|]. injection K as <-. eapply H; eauto. Qed.
Lemma lx_ret A (a : A) : lexm (@ret sst A a). Proof. discriminate. Qed.
Lemma lx_error A t : lexical t -> lexm (@s_error A t). Proof. intros H s e [= <-]. exact H. Qed.
Lemma lx_crash A p : lexm (@crash sst A p). Proof. discriminate. Qed.
Lemma lx_nofuel A : lexm (@nofuel sst A). Proof. discriminate. Qed.
Lemma lx_gets A (f : sst -> A) : lexm (gets f). Proof. discriminate. Qed.
Lemma lx_modify f : lexm (@modify sst f). Proof. discriminate. Qed.
Lemma lx_unwrap A p (o : option A) : lexm (unwrap p o). Proof. destruct o; discriminate. Qed.
Lemma lx_consume : lexm consume. Proof. discriminate. Qed.
Lemma lx_stop : lexm stop_recording. Proof. discriminate. Qed.
Lemma lx_mk E a b c d e f g h : lexm (mk_token E a b c d e f g h).
Proof. intros s x. unfold mk_token. destruct (current s =? 0); [destruct (checked E)|]; discriminate. Qed.
Lemma lx_len A (m : nat -> SM A) : (forall n, lexm (m n)) -> lexm (fun s => m (S (length (rest s))) s).
Proof. intros H s. apply H. Qed.
Ltac lx := repeat first [apply lx_bind; [|intros]|apply lx_ret|apply lx_error; exact I|apply lx_crash|apply lx_nofuel|apply lx_gets|apply lx_modify|apply lx_unwrap|apply lx_consume|apply lx_stop|apply lx_mk|assumption|match goal with
  | |- lexm (if ?b then _ else _) => destruct b
  | |- lexm (match ?b with _ => _ end) => destruct b
  | |- lexm (match ?b with _ => _ end _) => destruct b end].
Lemma lx_consume_or t : lexical t -> lexm (consume_or t).
Proof. intros H. unfold consume_or. apply lx_bind; [apply lx_consume|]. intros [c|]; [apply lx_ret|apply lx_error, H]. Qed.
Lemma lx_some_or A t (o : option A) : lexical t -> lexm (some_or t o).
Proof. intros H. destruct o; [apply lx_ret|apply lx_error, H]. Qed.
Lemma lx_expect c : lexm (expect_c c). Proof. unfold expect_c. lx. Qed.
Lemma lx_until B p (r : SM B) : lexm r -> lexm (scan_until p r).
Proof. intros H. apply (@lx_len _ (fun n => scan_until_n n p r)). intros n. induction n as [|n IH]; cbn [scan_until_n]; unfold peek; lx. Qed.
Lemma lx_until2 B p (r : SM B) : lexm r -> lexm (scan2_until p r).
Proof. intros H. apply (@lx_len _ (fun n => scan2_until_n n p r)). intros n. induction n as [|n IH]; cbn [scan2_until_n]; unfold peek2; lx. Qed.
Ltac lx' := repeat first [progress lx|apply lx_consume_or; exact I|apply lx_some_or; exact I|apply lx_expect|apply lx_until|apply lx_until2].
Lemma lx_hex k : forall acc t, lexical t -> lexm (scan_hex_k k acc t).
Proof. induction k as [|k IH]; intros acc t H; cbn [scan_hex_k]; [apply lx_ret|]. apply lx_bind; [apply lx_consume|]. intros [c|]; [|apply lx_error, H]. destruct (is_hex_digit c); [apply IH, H|apply lx_error, H]. Qed.
Lemma lx_u32 t v : lexical t -> lexm (from_u32_or t v).
Proof. intros H. unfold from_u32_or. destruct (char_from_u32 v); [apply lx_ret|apply lx_error, H]. Qed.
Section E.
Context (E : env).
Lemma lx_unicode : lexm (scan_unicode_esc_seq E).
Proof. unfold scan_unicode_esc_seq, peek. lx'; first [apply lx_hex; exact I|apply lx_u32; exact I]. Qed.
Lemma lx_hexesc : lexm scan_hex_esc_seq.
Proof. unfold scan_hex_esc_seq. lx'; first [apply lx_hex; exact I|apply lx_u32; exact I]. Qed.
Lemma lx_octal : lexm scan_octal_esc_seq.
Proof. unfold scan_octal_esc_seq. lx'; apply lx_u32; exact I. Qed.
Lemma lx_ident_cp : lexm (scan_identifier_cp E).
Proof. unfold scan_identifier_cp, consume_unwrap. lx'; apply lx_unicode. Qed.
Lemma lx_identifier : lexm (scan_identifier E).
Proof. unfold scan_identifier, scan_identifier_start, identifier_token, token_simple, consume_unwrap, peek. lx'; first [apply lx_unicode|apply lx_ident_cp]. Qed.
Lemma lx_exponent : lexm scan_exponent.
Proof. unfold scan_exponent, consume_unwrap, peek. lx'. Qed.
Lemma lx_fraction v : lexm (scan_fractional_part v).
Proof. unfold scan_fractional_part. lx'; apply lx_exponent. Qed.
Lemma lx_radix r : lexm (scan_radix_literal r).
Proof. unfold scan_radix_literal. lx'. Qed.
Lemma lx_numeric : lexm (scan_numeric_literal E).
Proof. unfold scan_numeric_literal, scan_number, token_simple, peek2, peek. lx'; first [apply lx_exponent|apply lx_fraction|apply lx_radix]. Qed.
Lemma lx_string_cp : lexm (scan_string_literal_cp E).
Proof.
  apply (@lx_len _ (scan_string_cp_n E)). intros n. induction n as [|n IH]; cbn [scan_string_cp_n]; unfold peek2; [apply lx_nofuel|].
  lx'; first [apply lx_hexesc|apply lx_unicode|apply lx_octal].
Qed.
Lemma lx_string : lexm (scan_string_literal E).
Proof. unfold scan_string_literal, consume_unwrap, peek. lx'; apply lx_string_cp. Qed.
Lemma lx_regexp : lexm (scan_regexp_literal E).
Proof.
  unfold scan_regexp_literal, scan_regexp_body, scan_regexp_flags, peek. lx'; try apply lx_ident_cp.
  apply (@lx_len _ scan_regexp_loop). intros n. induction n as [|n IH]; cbn [scan_regexp_loop]; unfold peek; lx'.
Qed.
Lemma lx_template o h : lexm (scan_template_piece E o h).
Proof. unfold scan_template_piece, scan_template_char, start_recording, push_curly, peek2. lx'; first [apply lx_hexesc|apply lx_unicode|apply lx_octal]. Qed.
Lemma lx_punctuator : lexm (scan_punctuator E).
Proof. unfold scan_punctuator, punc0, punc1, punc2, token_simple, push_curly, pop_curly, peek2. lx'. Qed.
Lemma lx_div : lexm (scan_div_punctuator E).
Proof. unfold scan_div_punctuator, punc0, punc1, punc2, token_simple, peek2. lx'. Qed.
Lemma lx_token g : lexm (scan_token E g).
Proof.
  intros s. unfold scan_token. destruct (s_peek2 s) as [[c|] o2]; [|apply (@lx_mk E)].
  destruct (is_identifier_start E c); [apply lx_identifier|].
  destruct ((c =? 34) || (c =? 39)); [apply lx_string|].
  destruct ((c =? chr ".") && _); [apply lx_numeric|].
  destruct (is_decimal_digit c); [apply lx_numeric|].
  destruct (c =? chr "`"); [apply lx_template|].
  destruct ((c =? chr "}") && _); [apply lx_bind; [apply lx_modify|intros; apply lx_template]|].
  destruct (c =? chr "/"); [destruct g; [apply lx_div|apply lx_regexp]|apply lx_punctuator].
Qed.
Lemma lx_next g : lexm (s_next E g).
Proof.
  intros s e H. unfold s_next in H. destruct (unscanned s); [discriminate|]. revert H. generalize (set_newline false s). clear s. intros s H.
  unfold bind at 1 in H. unfold scan_comments in H. destruct (scan_comments_n _ s) as [s1|]; [|discriminate]. unfold bind, modify in H. eapply lx_token; eauto.
Qed.
End E.
Section Ren2.
Context (E : env) (Hsane : ucd_sane E).
Lemma ren_runx k0 e tr : forall s r, hist s -> ranx E tr s r -> kind0 k0 r -> (forall x, r = inr x -> x = e) ->
  exists k ts ps fin, rest s = text ps fin /\ cut E (stops E k e fin) fin ts ps /\
    forall rho ps' fin' s', renamed rho E (restops k fin fin') fin fin' ts ps ps' -> rest s' = text ps' fin' -> rpair rho s s' -> started E tr s s' -> RenBase.srep E rho same_line tr s s'.
Proof.
  induction tr as [|v tr IH]; cbn [ranx]; intros s r Hh Hr H1 He.
  { subst r. exists k0, [], [], (rest s). split; [reflexivity|]. split.
    - constructor. destruct H1 as [->|[-> H1]]; cbn; [exact I|]. rewrite (H1 _ eq_refl). constructor.
    - intros rho ps' fin' s' _ _ P _. cbn. split; [apply (rpair_mark P)|exact I]. }
  destruct (pre_facts v s) as (F1 & F2 & F3 & F4 & F5). pose proof (hist_pre v Hh) as Hp.
  destruct Hr as [(t & s2 & Hv & Hr)|(-> & x & Hv & ->)].
  2:{ specialize (He _ eq_refl). subst x. pose proof (proj1 (ev_err E v e Hh) Hv) as Hn.
    assert (Hu : unscanned s = None).
    { destruct (unscanned s) as [u|] eqn:Hu; [|reflexivity]. unfold s_next in Hn. rewrite F5 in Hn. discriminate. }
    destruct (scan_comments_spec s) as (s3 & g & _ & Rd & Tr & Nt). pose proof (rd_rest Rd) as Rs.
    exists (BadText (rest s3)), [], [], (rest s). split; [reflexivity|]. split.
    - constructor. cbn [stops]. split; [exists g; auto|]. exists (goal_of v), (curly s).
      rewrite <- F3. apply (@next_bad E (goal_of v) (pre v s) e g (rest s3)); auto; [exact (hist_quiet Hp)|exact (eq_trans F5 Hu)|congruence].
    - intros rho ps' fin' s' Hrel Rs' P St. cbn [RenBase.srep]. split; [apply (rpair_mark P)|]. split; [intros t0 s0 Hv0; congruence|].
      intros e0 Hv0. rewrite Hv in Hv0. injection Hv0 as <-.
      inversion Hrel as [(g1 & g' & G1 & G2 & G3 & G4)|]; subst. cbn [text] in Rs'.
      assert (g1 = g) as -> by (rewrite Rs in G1; apply app_inv_tail in G1; auto).
      destruct (pre_facts v s') as (G5 & G6 & G7 & G8 & G9).
      pose proof (rr_unscanned P) as U. rewrite Hu in U. destruct (unscanned s') as [u'|] eqn:Hu'; [destruct U|].
      destruct St as [St|(_ & _ & g0 & tr0 & t0 & s0 & St & Sn)].
      2:{ injection St as Ev _. subst v. cbn in Hn. congruence. }
      destruct (@next_relay_err E (goal_of v) (pre v s) (pre v s') e g g' (rest s3)) as (e' & K1 & K2 & K3 & K4); auto.
      + exact (hist_quiet Hp).
      + exact (eq_trans F5 Hu).
      + congruence.
      + exact (hist_quiet (hist_pre v (rr_hist P))).
      + rewrite G7, F3. exact (rr_curly P).
      + congruence.
      + rewrite G8. lia.
      + exists e'. split; [apply (ev_err E v e' (rr_hist P)); exact K1|]. split.
        * rewrite K2. pose proof (@lx_next E _ _ _ Hn) as Lx. destruct (err_type e); cbn in Lx; try contradiction; reflexivity.
        * exists 0, 0. unfold same_line. cbn. apply K4. rewrite G6, F2, G4, (rr_line P). reflexivity. }
  pose proof (proj1 (ev_step E v Hh t s2) Hv) as (s3 & Hn & Es2).
  assert (Hh2 : hist s2) by (subst s2; apply hist_post; [exact Hh|eapply hist_next; eauto]).
  destruct (IH s2 r Hh2 Hr H1 He) as (k & ts & ps & fin & R2 & C2 & S2). clear IH.
  destruct (unscanned s) as [u|] eqn:Hu.
  - assert (X : t = u /\ s3 = set_unscanned None (pre v s)).
    { unfold s_next in Hn. rewrite F5 in Hn. injection Hn as <- <-. auto. }
    destruct X as [-> ->]. exists k, ts, ps, fin. split; [rewrite <- R2, Es2; destruct v; reflexivity|]. split; [exact C2|].
    intros rho ps' fin' s' Hrel Rs' P St. cbn [RenBase.srep]. split; [apply (rpair_mark P)|]. split; [|intros e0 Hv0; congruence]. intros t0 s0 Hv0. rewrite Hv in Hv0. injection Hv0 as <- <-.
    pose proof (rr_unscanned P) as U. rewrite Hu in U. destruct (unscanned s') as [u'|] eqn:Hu'; [|destruct U].
    destruct (pre_facts v s') as (G1 & G2 & G3 & G4 & G5).
    exists u', (post v s' u' (set_unscanned None (pre v s'))). split.
    { apply (ev_step E v (rr_hist P)). eexists. split; [|reflexivity]. unfold s_next. rewrite G5, Hu'. reflexivity. }
    split; [exact U|]. apply (S2 rho ps' fin'); [exact Hrel|rewrite <- Rs'; destruct v; reflexivity| |].
    2:{ destruct St as [St|(_ & St & _)]; [left; destruct v; exact St|congruence]. }
    subst s2. destruct P as [P1 P3 P4 P5]. constructor.
    + destruct v; exact P1.
    + destruct v; exact P3.
    + apply hist_post; [exact P4|]. destruct (hist_pre v P4) as [[? ?] ?]. split; [split; cbn; auto|auto].
    + destruct v; cbn; auto.
  - pose proof (@s_next_fresh E (goal_of v) _ (hist_quiet Hp) F5) as W. unfold wp in W. rewrite Hn in W. destruct W as (g & l & N).
    assert (R3 : rest s3 = text ps fin) by (rewrite <- R2, Es2; destruct v; reflexivity).
    pose proof (nt_rest N) as Rn. rewrite F1 in Rn.
    (* one request in the renamed text *)
    assert (Z : exists k1 ts' ps0 fin0, rest s = text ps0 fin0 /\ cut E (stops E k1 e fin0) fin0 ts' ps0 /\
      forall rho ps' fin' s', renamed rho E (restops k1 fin0 fin') fin0 fin' ts' ps0 ps' -> rest s' = text ps' fin' -> rpair rho s s' -> started E (v :: tr) s s' ->
      exists t' s3' ps2' fin2', s_next E (goal_of v) (pre v s') = ROk t' s3' /\ ren_kept rho t t' s3 s3' /\ rest s3' = text ps2' fin2' /\ 0 < current s3' /\
        renamed rho E (restops k fin fin2') fin fin2' ts ps ps2').
    { destruct (list_eq_dec N.eq_dec l []) as [->|Hl].
      - pose proof (nt_eof_rest N eq_refl) as Y. rewrite Y in *. destruct (text_nil C2 (eq_sym R3)) as (-> & -> & ->).
        exists AtEnd, [], [], g. cbn [app text] in *. rewrite List.app_nil_r in Rn. split; [exact Rn|]. split.
        { constructor. cbn [stops]. pose proof (nt_trivia N) as T. cbn [app] in T. rewrite Y in T. exact T. }
        intros rho ps' fin' s' Hrel Rs' P St. clear Rn. inversion Hrel as [[T B] E1 E2 E3|]; subst. cbn [text] in Rs'.
        destruct (pre_facts v s') as (G1 & G2 & G3 & G4 & G5).
        pose proof (rr_unscanned P) as U. rewrite Hu in U. destruct (unscanned s') as [u'|] eqn:Hu'; [destruct U|].
        assert (Lpos : 0 < current s' + len fin').
        { destruct St as [St|(St & _)]; [lia|]. rewrite Rs' in St. destruct fin'; [congruence|rewrite len_cons; lia]. }
        destruct (@next_relay E (goal_of v) (pre v s) (pre v s') t g fin' [] [] s3) as (t' & s3' & X1 & X2 & X3 & X4).
        + exact (hist_quiet Hp).
        + exact F5.
        + exact Hn.
        + exact N.
        + exact (hist_quiet (hist_pre v (rr_hist P))).
        + unfold fresh. congruence.
        + rewrite G3, F3. exact (rr_curly P).
        + rewrite G2, F2. exact (rr_line P).
        + rewrite G1, Rs'. cbn [app]. rewrite List.app_nil_r. reflexivity.
        + exact T.
        + cbn [app]. rewrite Y. exact B.
        + rewrite Y. reflexivity.
        + intros K; congruence.
        + intros _. split; [reflexivity|]. rewrite G4. exact Lpos.
        + exists t', s3', [], []. split; [exact X1|]. split; [|split; [exact X3|split]].
          * split; [|split; [exact (rl_line X2)|split; [exact (rl_curly X2)|exact (rl_fresh X2)]]].
            apply same_ren; [exact (rl_same X2)|exact (rl_tline X2)|].
            pose proof (proj2 (nt_eof N) eq_refl) as Ty. pose proof (nt_wf N) as W. unfold token_wf in W. rewrite Ty in W. rewrite W. reflexivity.
          * rewrite X4, G4, List.app_nil_r. exact Lpos.
          * constructor. destruct k as [| |bad]; cbn; [split; constructor|exact I|]. inversion C2 as [[(g0 & G6 & G7) _]|]; subst. symmetry in G6. apply app_eq_nil in G6. destruct G6 as [-> ->].
            exists [], []. repeat split; constructor.
      - exists k, (t :: ts), ((g, l) :: ps), fin. cbn [text]. rewrite <- R3. split; [exact Rn|]. split.
        { constructor; auto; [rewrite <- R3; exact (nt_trivia N)|exact (nt_lexeme N)]. }
        intros rho ps' fin' s' Hrel Rs' P St. inversion Hrel as [|? ? ? g' ? l' ? ps2' T B1 B2 A Hrel2]; subst. cbn [text] in Rs'.
        destruct (pre_facts v s') as (G1 & G2 & G3 & G4 & G5).
        pose proof (rr_unscanned P) as U. rewrite Hu in U. destruct (unscanned s') as [u'|] eqn:Hu'; [destruct U|].
        rewrite <- R3 in *.
        destruct (@next_ren E rho Hsane (goal_of v) (pre v s) (pre v s') t g l g' l' (text ps2' fin') s3) as (t' & s3' & X1 & X2 & X3 & X4 & X5).
        + exact (hist_quiet Hp).
        + exact F5.
        + exact Hn.
        + exact N.
        + exact (hist_quiet (hist_pre v (rr_hist P))).
        + unfold fresh. congruence.
        + rewrite G3, F3. exact (rr_curly P).
        + rewrite G2, F2. exact (rr_line P).
        + rewrite G1, Rs'. reflexivity.
        + exact T.
        + exact B1.
        + exact B2.
        + exact Hl.
        + exact A.
        + exists t', s3', ps2', fin'. split; [exact X1|]. split; [exact X2|]. split; [exact X3|]. split; [|exact Hrel2].
          rewrite X4, len_app. destruct l' as [|c l']; [congruence|rewrite len_cons; lia]. }
    destruct Z as (k1 & ts' & ps0 & fin0 & K1 & K2 & K3). exists k1, ts', ps0, fin0. split; [exact K1|]. split; [exact K2|].
    intros rho ps' fin' s' Hrel Rs' P St. cbn [RenBase.srep]. split; [apply (rpair_mark P)|]. split; [|intros e0 Hv0; congruence]. intros t0 s0 Hv0. rewrite Hv in Hv0. injection Hv0 as <- <-.
    destruct (K3 rho _ _ _ Hrel Rs' P St) as (t' & s3' & ps2' & fin2' & X1 & (Y1 & Y2 & Y3 & Y4) & X3 & X4 & X5).
    exists t', (post v s' t' s3'). split; [apply (ev_step E v (rr_hist P)); eauto|]. split; [exact Y1|].
    apply (S2 rho ps2' fin2'); [exact X5|rewrite <- X3; destruct v; reflexivity| |].
    2:{ left. destruct v as [g0|]; cbn; [exact X4|]. destruct St as [St|(_ & _ & g0 & tr0 & t0 & s0 & St & _)]; [exact St|discriminate]. }
    subst s2. assert (Hh3 : hist s3') by (eapply hist_next; [apply hist_pre, (rr_hist P)|exact X1]).
    constructor.
    + destruct v; [exact Y2|exact (rr_line P)].
    + destruct v; [exact Y3|exact (rr_curly P)].
    + apply hist_post; [exact (rr_hist P)|exact Hh3].
    + destruct v; cbn; [rewrite Y4, (nt_unscanned N); exact I|exact Y1].
Qed.
End Ren2.

Section Go.
Context (go : env -> nat -> handler -> PM node).
Hypothesis go_ren : forall E rho RM n k I, line_rel RM -> keeps_special rho E ->
  RenBase.sim E rho false RM (r_node rho (RenBase.RS RM) (RenBase.RA false)) (go E n (run E k)) (fun _ : I => go E n (run E k)).
Hypothesis go_fuel : forall E n n' s, (n <= n')%nat -> go E n (run E n) s <> RFuel -> go E n' (run E n') s = go E n (run E n) s.
Hypothesis go_ends : forall E src, parse_with go E src <> OutOfFuel.

Definition renames_err (E : env) (rho : str -> str) (src : str) (e : error) : Prop :=
  exists k ts ps fin, src = text ps fin /\ cut E (stops E k e fin) fin ts ps /\ forall ps' fin',
    renamed rho E (restops k fin fin') fin fin' ts ps ps' -> text ps' fin' <> [] ->
    exists e', parse_with go E (text ps' fin') = Err e' /\ err_type e' = ren_error rho (err_type e) /\ err_line e' = err_line e.
Lemma ren_err E rho src e : ucd_sane E -> keeps_special rho E -> parse_with go E src = Err e -> renames_err E rho src e.
Proof.
  intros Hsane Hk Hx. unfold parse_with in Hx. destruct (s_next E GRegExp (s_new src)) as [t1 s1| | |] eqn:H1; try discriminate.
  set (N1 := fuel_for src) in *. destruct (go E N1 (run E N1) (init_pst t1 s1)) as [y s|e0| |] eqn:E1; try discriminate. injection Hx as ->.
  destruct (proj2 (@go_ren E rho same_line N1 N1 unit same_line_rel Hk) eq_refl _ _ E1) as (tr & r & Rn & He & Q).
  assert (H0 : hist (s_new src)) by (split; [split; reflexivity|discriminate]).
  destruct (@ren_runx E Hsane AtToken e (EvNext GRegExp :: tr) (s_new src) r H0) as (k & ts & ps & fin & R0 & C0 & S0).
  { left. exists t1, s1. split; [exact H1|exact Rn]. }
  { left. reflexivity. }
  { exact He. }
  exists k, ts, ps, fin. split; [exact R0|]. split; [exact C0|]. intros ps' fin' Hrel Hne.
  set (b := text ps' fin') in *.
  destruct (S0 rho ps' fin' (s_new b) Hrel eq_refl (rpair_new rho _ _) (@started_new E tr _ _ _ _ _ H1 Hne)) as [_ [S1 _]].
  destruct (S1 _ _ H1) as (t2 & s2 & H2 & Ht & S2). cbn [s_ev] in H2.
  destruct (Q tt [] (init_pst t2 s2)) as (e' & E2 & E3 & i & i' & E4).
  { constructor; cbn; auto; [rewrite List.app_nil_r; exact S2|]. exists false. split; [reflexivity|left; reflexivity]. }
  exists e'. split; [|split; [exact E3|exact E4]]. unfold parse_with. rewrite H2.
  set (N2 := fuel_for b). clearbody N1. destruct (Nat.le_ge_cases N1 N2) as [Hle|Hle].
  - rewrite (@go_fuel E N1 N2 _ Hle); [rewrite E2; reflexivity|rewrite E2; discriminate].
  - rewrite <- (@go_fuel E N2 N1 _ Hle); [rewrite E2; reflexivity|].
    intros K. apply (@go_ends E b). unfold parse_with. rewrite H2. fold N2. rewrite K. reflexivity.
Qed.
End Go.
Lemma script_ren_err E rho src e : ucd_sane E -> keeps_special rho E -> parse_script E src = Err e -> renames_err script E rho src e.
Proof. apply (@ren_err script); [exact script_ren|exact script_fuel|exact script_ends]. Qed.
Lemma module_ren_err E rho src e : ucd_sane E -> keeps_special rho E -> parse_module E src = Err e -> renames_err module_ E rho src e.
Proof. apply (@ren_err module_); [exact module_ren|exact module_fuel|exact module_ends]. Qed.
