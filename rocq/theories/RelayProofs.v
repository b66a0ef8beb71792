(** * RelayProofs: programs laid out differently (proofs, C49, C55). *)
From Verif Require Import Base Codepoint Punct Token Scanner Ast Convert ParserBase ParserExpr ParserStmt Parser FrameFacts
  Hoare ScanBase ScanTrivia ScanTokens2 ScanNext LexFacts LexProofs SpecLex SpecScan SpecParse Fuel ParserInv TermBase TermTop ParseProofs
  Rel SimBase SimTac SimExpr SimStmt SimTop SpecTree SpecTouch SpecStrict StrictProofs TouchProofs ShiftProofs SpellBase SpellTop SpecRelay RelayScan.
From Coq Require Import ZifyBool ZifyN ZifyNat.
Set Implicit Arguments.
Local Open Scope N_scope.

Definition same_spot (m m' : marker) : Prop := mk_line m' = mk_line m /\ mk_col m' = mk_col m.
Lemma same_spot_rel : line_rel same_spot.
Proof. intros a a' b b' [H _] [G _]. rewrite H, G. reflexivity. Qed.

Section Relay.
Context (E : env).
(** The scanner states of the two runs between two requests *)
Record pair (s s' : sst) : Prop := mkPair {
  pr_line : line s' = line s;
  pr_col : col s' = col s;
  pr_curly : curly s' = curly s;
  pr_hist : hist s';
  pr_unscanned : match unscanned s, unscanned s' with Some t, Some t' => trel same_spot t t' | None, None => True | _, _ => False end }.
Lemma relayed_trel t t' s2 s2' : relayed t t' s2 s2' -> trel same_spot t t'.
Proof.
  intros [(A1 & A2 & A3 & A4 & A5 & A6 & A7 & A8) B _ C _ _ _ _]. exists (tmark t', tend t'). split; [|split; [exact B|exact C]].
  destruct t, t'. unfold repos, tmark. cbn in *. congruence.
Qed.
Lemma text_nil Z ts ps fin : cut E Z fin ts ps -> text ps fin = [] -> ts = [] /\ ps = [] /\ fin = [].
Proof.
  intros H G. destruct H as [Ht|t ts g l ps Ht Hx Hn H]; cbn in G; [auto|]. apply app_eq_nil in G. destruct G as [_ G]. apply app_eq_nil in G. destruct G as [G _]. congruence.
Qed.
(** The requests of a run up to the end of the text, and what they read *)
Lemma hist_quiet s : hist s -> quiet s. Proof. intros [H _]. exact H. Qed.
Lemma hist_look s t s1 : hist s -> s_look E s = ROk t s1 -> hist s1.
Proof.
  intros H G. unfold s_look, bind in G. cbn [save_state modify] in G. unfold save_state, modify in G.
  match type of G with match s_next E GRegExp ?a with _ => _ end = _ => set (s0 := a) in *; assert (H0 : hist s0) end.
  { destruct H as [[Q1 Q2] Hs]. split; [split; cbn; auto|]. cbn. intros v [= <-]. exact Q2. }
  destruct (s_next E GRegExp s0) as [u s2| | |] eqn:En; try discriminate. pose proof (hist_next _ _ H0 En) as [[Q1 Q2] Hs].
  unfold restore_state in G. destruct (sstate s2) as [v|] eqn:Ev; [|discriminate]. injection G as <- <-. split; [split; cbn; auto|discriminate].
Qed.
Definition goal_of (v : ev) : lexgoal := match v with EvNext g => g | EvPeek => GRegExp end.
Definition saved (s : sst) : sst :=
  set_sstate (Some (mkSaved (start s) (current s) (line s) (col s) (newline s) (raw_string s) (curly s))) s.
Definition pre (v : ev) (s : sst) : sst := match v with EvNext _ => s | EvPeek => saved s end.
Definition post (v : ev) (s : sst) (t : token) (s2 : sst) : sst := match v with
  | EvNext _ => s2
  | EvPeek => mkS (start s) (current s) (line s) (col s) (newline s) (rest s2) (record_raw s2) (raw_string s) (curly s) (Some t) None
  end.
Lemma hist_pre v s : hist s -> hist (pre v s).
Proof. intros [[Q1 Q2] Hs]. destruct v; [split; [split|]; auto|]. split; [split; cbn; auto|]. cbn. intros w [= <-]. exact Q2. Qed.
Lemma hist_post v s t s2 : hist s -> hist s2 -> hist (post v s t s2).
Proof. intros [[P1 P2] Ps] [[Q1 Q2] Hs]. destruct v; cbn; split; try split; cbn; auto. discriminate. Qed.
Lemma next_sstate g s t s2 : hist s -> s_next E g s = ROk t s2 -> sstate s2 = sstate s.
Proof.
  intros [Hq _] H. destruct (unscanned s) as [u|] eqn:Hu.
  - unfold s_next in H. rewrite Hu in H. injection H as <- <-. reflexivity.
  - pose proof (@s_next_fresh E g _ Hq Hu) as W; unfold wp in W; rewrite H in W; destruct W as (tr & l & N). exact (nt_sstate N).
Qed.
Lemma ev_step v s : hist s -> forall t s1, s_ev E v s = ROk t s1 <-> exists s2, s_next E (goal_of v) (pre v s) = ROk t s2 /\ s1 = post v s t s2.
Proof.
  intros H t s1. destruct v as [g|]; cbn [s_ev goal_of pre post].
  - split; [eauto|]. intros (s2 & A & ->). exact A.
  - unfold s_look, save_state, bind, modify. fold (saved s). split.
    + destruct (s_next E GRegExp (saved s)) as [u s2| | |] eqn:En; try discriminate. pose proof (next_sstate _ (hist_pre EvPeek H) En) as Hs. unfold restore_state. rewrite Hs. cbn.
      intros [= <- <-]. eauto.
    + intros (s2 & En & ->). rewrite En. pose proof (next_sstate _ (hist_pre EvPeek H) En) as Hs. unfold restore_state. rewrite Hs. reflexivity.
Qed.
Lemma pre_facts v s : rest (pre v s) = rest s /\ line (pre v s) = line s /\ curly (pre v s) = curly s /\ current (pre v s) = current s /\ unscanned (pre v s) = unscanned s.
Proof. destruct v; cbn; auto. Qed.

Lemma ev_err v s e : hist s -> s_ev E v s = RErr e <-> s_next E (goal_of v) (pre v s) = RErr e.
Proof.
  intros H. destruct v as [g|]; cbn [s_ev goal_of pre]; [tauto|].
  unfold s_look, save_state, bind, modify. fold (saved s).
  destruct (s_next E GRegExp (saved s)) as [u s2| | |] eqn:En; [|tauto|split; discriminate|split; discriminate].
  pose proof (next_sstate _ (hist_pre EvPeek H) En) as Hs. unfold restore_state. rewrite Hs. cbn. split; discriminate.
Qed.
Lemma pair_mark s s' : pair s s' -> same_spot (smark s) (smark s').
Proof. intros P. split; [exact (pr_line P)|exact (pr_col P)]. Qed.

(** Something was read, or will be. *)
Definition started (tr : list ev) (s s' : sst) : Prop :=
  0 < current s' \/ (rest s' <> [] /\ unscanned s = None /\ exists g tr' t s2, tr = EvNext g :: tr' /\ s_next E g s = ROk t s2).
(** How a run that does not end with a scanner error may stop *)
Definition kind0 (k0 : stop) (r : sst + error) : Prop := k0 = AtToken \/ (k0 = AtEnd /\ forall s1, r = inl s1 -> rest s1 = []).
Lemma relay k0 e tr : forall s r, hist s -> ranx E tr s r -> kind0 k0 r -> (forall x, r = inr x -> x = e) ->
  exists k ts ps fin, rest s = text ps fin /\ cut E (stops E k e fin) fin ts ps /\ (forall s1, r = inl s1 -> k = k0 \/ k = AtEnd) /\
    forall ps' fin' s', relaid E (restops k fin fin') fin fin' ps ps' -> rest s' = text ps' fin' -> pair s s' -> started tr s s' -> srep E same_spot tr s s'.
Proof.
  induction tr as [|v tr IH]; cbn [ranx]; intros s r Hh Hr H1 He.
  { subst r. exists k0, [], [], (rest s). split; [reflexivity|]. split.
    - constructor. destruct H1 as [->|[-> H1]]; cbn; [exact I|]. rewrite (H1 _ eq_refl). constructor.
    - split; [auto|]. intros ps' fin' s' _ _ P _. cbn. split; [apply pair_mark, P|exact I]. }
  destruct (pre_facts v s) as (F1 & F2 & F3 & F4 & F5). pose proof (hist_pre v Hh) as Hp.
  destruct Hr as [(t & s2 & Hv & Hr)|(-> & x & Hv & ->)].
  2:{ specialize (He _ eq_refl). subst x. pose proof (proj1 (ev_err v e Hh) Hv) as Hn.
    assert (Hu : unscanned s = None).
    { destruct (unscanned s) as [u|] eqn:Hu; [|reflexivity]. unfold s_next in Hn. rewrite F5 in Hn. discriminate. }
    destruct (scan_comments_spec s) as (s3 & g & _ & Rd & Tr & Nt). pose proof (rd_rest Rd) as Rs.
    exists (BadText (rest s3)), [], [], (rest s). split; [reflexivity|]. split; [|split; [discriminate|]].
    - constructor. cbn [stops]. split; [exists g; auto|]. exists (goal_of v), (curly s).
      rewrite <- F3. apply (@next_bad E (goal_of v) (pre v s) e g (rest s3)); auto; [exact (hist_quiet Hp)|exact (eq_trans F5 Hu)|congruence].
    - intros ps' fin' s' Hrel Rs' P St. cbn [srep]. split; [apply pair_mark, P|]. split; [intros t0 s0 Hv0; congruence|].
      intros e0 Hv0. rewrite Hv in Hv0. injection Hv0 as <-.
      inversion Hrel as [(g1 & g' & G1 & G2 & G3 & G4)|]; subst. cbn [text] in Rs'.
      assert (g1 = g) as -> by (rewrite Rs in G1; apply app_inv_tail in G1; auto).
      destruct (pre_facts v s') as (G5 & G6 & G7 & G8 & G9).
      pose proof (pr_unscanned P) as U. rewrite Hu in U. destruct (unscanned s') as [u'|] eqn:Hu'; [destruct U|].
      destruct St as [St|(_ & _ & g0 & tr0 & t0 & s0 & St & Sn)].
      2:{ injection St as Ev _. subst v. cbn in Hn. congruence. }
      destruct (@next_relay_err E (goal_of v) (pre v s) (pre v s') e g g' (rest s3)) as (e' & K1 & K2 & K3 & K4); auto.
      + exact (hist_quiet Hp).
      + exact (eq_trans F5 Hu).
      + congruence.
      + exact (hist_quiet (hist_pre v (pr_hist P))).
      + rewrite G7, F3. exact (pr_curly P).
      + congruence.
      + rewrite G8. lia.
      + exists e'. split; [apply (ev_err v e' (pr_hist P)); exact K1|]. split; [exact K2|]. exists 0, 0. split; cbn; [|exact K3].
        apply K4. rewrite G6, F2, G4, (pr_line P). reflexivity. }
  pose proof (proj1 (ev_step v Hh t s2) Hv) as (s3 & Hn & Es2).
  assert (Hh2 : hist s2) by (subst s2; apply hist_post; [exact Hh|eapply hist_next; eauto]).
  destruct (IH s2 r Hh2 Hr H1 He) as (k & ts & ps & fin & R2 & C2 & M2 & S2). clear IH.
  destruct (unscanned s) as [u|] eqn:Hu.
  - assert (X : t = u /\ s3 = set_unscanned None (pre v s)).
    { unfold s_next in Hn. rewrite F5 in Hn. injection Hn as <- <-. auto. }
    destruct X as [-> ->]. exists k, ts, ps, fin. split; [rewrite <- R2, Es2; destruct v; reflexivity|]. split; [exact C2|]. split; [exact M2|].
    intros ps' fin' s' Hrel Rs' P St. cbn [srep]. split; [apply pair_mark, P|]. split; [|intros e0 Hv0; congruence]. intros t0 s0 Hv0. rewrite Hv in Hv0. injection Hv0 as <- <-.
    pose proof (pr_unscanned P) as U. rewrite Hu in U. destruct (unscanned s') as [u'|] eqn:Hu'; [|destruct U].
    destruct (pre_facts v s') as (G1 & G2 & G3 & G4 & G5).
    exists u', (post v s' u' (set_unscanned None (pre v s'))). split.
    { apply (ev_step v (pr_hist P)). eexists. split; [|reflexivity]. unfold s_next. rewrite G5, Hu'. reflexivity. }
    split; [exact U|]. apply (S2 ps' fin'); [exact Hrel|rewrite <- Rs'; destruct v; reflexivity| |].
    2:{ destruct St as [St|(_ & St & _)]; [left; destruct v; exact St|congruence]. }
    subst s2. destruct P as [P1 P2 P3 P4 P5]. constructor.
    + destruct v; exact P1.
    + destruct v; exact P2.
    + destruct v; exact P3.
    + apply hist_post; [exact P4|]. destruct (hist_pre v P4) as [[? ?] ?]. split; [split; cbn; auto|auto].
    + destruct v; cbn; auto.
  - pose proof (@s_next_fresh E (goal_of v) _ (hist_quiet Hp) F5) as W. unfold wp in W. rewrite Hn in W. destruct W as (g & l & N).
    assert (R3 : rest s3 = text ps fin) by (rewrite <- R2, Es2; destruct v; reflexivity).
    assert (K : exists k1 ts' ps0 fin0, rest s = text ps0 fin0 /\ cut E (stops E k1 e fin0) fin0 ts' ps0 /\ (forall s1, r = inl s1 -> k1 = k0 \/ k1 = AtEnd) /\
      forall ps' fin', relaid E (restops k1 fin0 fin') fin0 fin' ps0 ps' ->
      exists g' ps2' fin2', text ps' fin' = g' ++ l ++ text ps2' fin2' /\ trivia g' (l ++ text ps2' fin2') /\
        breaks g' (l ++ text ps2' fin2') = breaks g (l ++ rest s3) /\ breaks l (text ps2' fin2') = breaks l (rest s3) /\
        (l <> [] -> after E l (rest s3) (text ps2' fin2')) /\ (l = [] -> text ps2' fin2' = []) /\ relaid E (restops k fin fin2') fin fin2' ps ps2').
    { pose proof (nt_rest N) as Rn. rewrite F1 in Rn. destruct (list_eq_dec N.eq_dec l []) as [->|Hl].
      - pose proof (nt_eof_rest N eq_refl) as Y. rewrite Y in *. destruct (text_nil C2 (eq_sym R3)) as (-> & -> & ->).
        exists AtEnd, [], [], g. cbn [app text] in *. rewrite List.app_nil_r in Rn. split; [exact Rn|]. split; [|split; [auto|]].
        { constructor. pose proof (nt_trivia N) as T. cbn [app] in T. rewrite Y in T. exact T. }
        intros ps' fin' Hrel. inversion Hrel as [[T B] E1 E2|]; subst. exists fin', [], []. cbn [text app]. rewrite !List.app_nil_r.
        split; [reflexivity|]. split; [exact T|]. split; [exact B|]. split; [reflexivity|]. split; [congruence|]. split; [reflexivity|]. constructor.
        destruct k as [| |bad]; cbn; [split; constructor|exact I|]. inversion C2 as [[(g0 & G1 & G2) _]|]; subst. symmetry in G1. apply app_eq_nil in G1. destruct G1 as [-> ->].
        exists [], []. repeat split; constructor.
      - exists k, (t :: ts), ((g, l) :: ps), fin. cbn [text]. rewrite <- R3. split; [exact Rn|]. split; [|split; [exact M2|]].
        { constructor; auto; [rewrite <- R3; exact (nt_trivia N)|exact (nt_lexeme N)]. }
        intros ps' fin' Hrel. inversion Hrel as [|? g' ? ? ps2' T B1 B2 A Hrel2]; subst. exists g', ps2', fin'. cbn [text].
        split; [reflexivity|]. split; [exact T|]. rewrite R3. split; [exact B1|]. split; [exact B2|]. split; [intros _; exact A|]. split; [congruence|exact Hrel2]. }
    destruct K as (k1 & ts' & ps0 & fin0 & K1 & K2 & K4 & K3). exists k1, ts', ps0, fin0. split; [exact K1|]. split; [exact K2|]. split; [exact K4|].
    intros ps' fin' s' Hrel Rs' P St. cbn [srep]. split; [apply pair_mark, P|]. split; [|intros e0 Hv0; congruence]. intros t0 s0 Hv0. rewrite Hv in Hv0. injection Hv0 as <- <-.
    destruct (K3 _ _ Hrel) as (g' & ps2' & fin2' & L1 & L2 & L3 & L3' & L4 & L5 & L6).
    assert (Lpos : l = [] -> 0 < current s' + len g').
    { intros ->. destruct St as [St|(St & _)]; [lia|]. rewrite Rs', L1, (L5 eq_refl) in St. cbn [app] in St. rewrite List.app_nil_r in St. destruct g'; [congruence|rewrite len_cons; lia]. }
    pose proof (pr_unscanned P) as U. rewrite Hu in U. destruct (unscanned s') as [u'|] eqn:Hu'; [destruct U|].
    destruct (pre_facts v s') as (G1 & G2 & G3 & G4 & G5).
    destruct (@next_relay E (goal_of v) (pre v s) (pre v s') t g g' l (text ps2' fin2') s3) as (t' & s3' & X1 & X2 & X3 & X4).
    + exact (hist_quiet Hp).
    + exact F5.
    + exact Hn.
    + exact N.
    + exact (hist_quiet (hist_pre v (pr_hist P))).
    + unfold fresh. congruence.
    + rewrite G3, F3. exact (pr_curly P).
    + rewrite G2, F2. exact (pr_line P).
    + rewrite G1, Rs'. exact L1.
    + exact L2.
    + exact L3.
    + exact L3'.
    + exact L4.
    + intros Hl. split; [exact (L5 Hl)|]. rewrite G4. specialize (Lpos Hl). lia.
    + exists t', (post v s' t' s3'). split; [apply (ev_step v (pr_hist P)); eauto|]. split; [eapply relayed_trel; exact X2|].
      apply (S2 ps2' fin2'); [exact L6|rewrite <- X3; destruct v; reflexivity| |].
      2:{ left. destruct v as [g0|]; cbn.
          - rewrite X4, G4, len_app. destruct l as [|c l]; [specialize (Lpos eq_refl); lia|rewrite len_cons; lia].
          - destruct St as [St|(_ & _ & g0 & tr0 & t0 & s0 & St & _)]; [exact St|discriminate]. }
      subst s2.
      assert (Hh3 : hist s3') by (eapply hist_next; [apply hist_pre, (pr_hist P)|exact X1]).
      constructor.
      * destruct v; [exact (rl_line X2)|exact (pr_line P)].
      * destruct v; [exact (rl_col X2)|exact (pr_col P)].
      * destruct v; [exact (rl_curly X2)|exact (pr_curly P)].
      * apply hist_post; [exact (pr_hist P)|exact Hh3].
      * destruct v; cbn; [rewrite (rl_fresh X2), (nt_unscanned N); exact I|eapply relayed_trel; exact X2].
Qed.
End Relay.

Lemma spots_eq x y : r_node (RS same_spot) (RA false) x y -> spots_only y = spots_only x.
Proof.
  intros H. symmetry. unfold spots_only. refine (@eq_node _ _ _ _ _ _ _ _ _ _ H).
  - intros a b [[H1 H2] [G1 G2]]. unfold spot. f_equal; f_equal; auto.
  - intros a b [->|(K & _)]; [reflexivity|discriminate].
Qed.
Lemma spot_err e e' : erel same_spot e e' -> e' = e.
Proof. intros (A & i & i' & B & C). destruct e, e'. cbn in *. congruence. Qed.
Section Go.
Context (go : env -> nat -> handler -> PM node).
Hypothesis go_sim : forall E RM n k I, line_rel RM -> sim E false RM (r_node (RS RM) (RA false)) (go E n (run E k)) (fun _ : I => go E n (run E k)).
Hypothesis go_fuel : forall E n n' s, (n <= n')%nat -> go E n (run E n) s <> RFuel -> go E n' (run E n') s = go E n (run E n) s.
Hypothesis go_ends : forall E src, parse_with go E src <> OutOfFuel.
Hypothesis go_all : forall E src t0 sc x s, s_next E GRegExp (s_new src) = ROk t0 sc -> go E (fuel_for src) (run E (fuel_for src)) (init_pst t0 sc) = ROk x s -> rest (scn s) = [].

Definition relays (E : env) (src : str) (x : node) : Prop :=
  exists ts ps fin, src = text ps fin /\ cut E (trivia fin []) fin ts ps /\ forall ps' fin', relaid E (same_gap fin fin') fin fin' ps ps' -> text ps' fin' <> [] ->
    exists y, parse_with go E (text ps' fin') = Ok y /\ spots_only y = spots_only x.
Definition relays_err (E : env) (src : str) (e : error) : Prop :=
  exists k ts ps fin, src = text ps fin /\ cut E (stops E k e fin) fin ts ps /\ forall ps' fin', relaid E (restops k fin fin') fin fin' ps ps' -> text ps' fin' <> [] ->
    parse_with go E (text ps' fin') = Err e.
Lemma started_new E tr g src b t s : s_next E g (s_new src) = ROk t s -> b <> [] -> started E (EvNext g :: tr) (s_new src) (s_new b).
Proof. intros H Hb. right. split; [exact Hb|]. split; [reflexivity|]. eexists _, _, _, _. split; [reflexivity|exact H]. Qed.
Lemma pair_new a b : pair (s_new a) (s_new b).
Proof. constructor; try reflexivity. split; [split; reflexivity|discriminate]. Qed.
Lemma relay_go E src x : parse_with go E src = Ok x -> relays E src x.
Proof.
  intros Hx. unfold parse_with in Hx. destruct (s_next E GRegExp (s_new src)) as [t1 s1| | |] eqn:H1; try discriminate.
  set (N1 := fuel_for src) in *. destruct (go E N1 (run E N1) (init_pst t1 s1)) as [y s| | |] eqn:E1; try discriminate. injection Hx as ->.
  pose proof (@go_all E src _ _ _ _ H1 E1) as Hend.
  destruct (proj1 (@go_sim E same_spot N1 N1 unit same_spot_rel) _ _ _ E1) as [_ [tr [Rn Q]]].
  assert (H0 : hist (s_new src)) by (split; [split; reflexivity|discriminate]).
  destruct (@relay E AtEnd (mkError 0 0 InvalidOrUnexpectedToken) (EvNext GRegExp :: tr) (s_new src) (inl (scn s)) H0) as (k & ts & ps & fin & R0 & C0 & M0 & S0).
  { left. exists t1, s1. split; [exact H1|apply ran_ranx; exact Rn]. }
  { right. split; [reflexivity|]. intros s2 [= <-]. exact Hend. }
  { discriminate. }
  assert (k = AtEnd) as -> by (destruct (M0 _ eq_refl); assumption).
  exists ts, ps, fin. split; [exact R0|]. split; [exact C0|]. intros ps' fin' Hrel Hne.
  set (b := text ps' fin') in *.
  destruct (S0 ps' fin' (s_new b) Hrel eq_refl (pair_new _ _) (@started_new E tr _ _ _ _ _ H1 Hne)) as [_ [S1 _]].
  destruct (S1 _ _ H1) as (t2 & s2 & H2 & Ht & S2). cbn [s_ev] in H2.
  destruct (Q tt [] (init_pst t2 s2)) as (y & s' & E2 & E3 & _).
  { constructor; cbn; auto; [rewrite List.app_nil_r; exact S2|]. exists false. split; [reflexivity|left; reflexivity]. }
  exists y. split; [|apply spots_eq; exact E3]. unfold parse_with. rewrite H2.
  set (N2 := fuel_for b). clearbody N1. destruct (Nat.le_ge_cases N1 N2) as [Hle|Hle].
  - rewrite (@go_fuel E N1 N2 _ Hle); [rewrite E2; reflexivity|rewrite E2; discriminate].
  - rewrite <- (@go_fuel E N2 N1 _ Hle); [rewrite E2; reflexivity|].
    intros K. apply (@go_ends E b). unfold parse_with. rewrite H2. fold N2. rewrite K. reflexivity.
Qed.
Lemma relay_err E src e : parse_with go E src = Err e -> relays_err E src e.
Proof.
  intros Hx. unfold parse_with in Hx. destruct (s_next E GRegExp (s_new src)) as [t1 s1| | |] eqn:H1; try discriminate.
  set (N1 := fuel_for src) in *. destruct (go E N1 (run E N1) (init_pst t1 s1)) as [y s|e0| |] eqn:E1; try discriminate. injection Hx as ->.
  destruct (proj2 (@go_sim E same_spot N1 N1 unit same_spot_rel) eq_refl _ _ E1) as (tr & r & Rn & He & Q).
  assert (H0 : hist (s_new src)) by (split; [split; reflexivity|discriminate]).
  destruct (@relay E AtToken e (EvNext GRegExp :: tr) (s_new src) r H0) as (k & ts & ps & fin & R0 & C0 & M0 & S0).
  { left. exists t1, s1. split; [exact H1|exact Rn]. }
  { left. reflexivity. }
  { exact He. }
  exists k, ts, ps, fin. split; [exact R0|]. split; [exact C0|]. intros ps' fin' Hrel Hne.
  set (b := text ps' fin') in *.
  destruct (S0 ps' fin' (s_new b) Hrel eq_refl (pair_new _ _) (@started_new E tr _ _ _ _ _ H1 Hne)) as [_ [S1 _]].
  destruct (S1 _ _ H1) as (t2 & s2 & H2 & Ht & S2). cbn [s_ev] in H2.
  destruct (Q tt [] (init_pst t2 s2)) as (e' & E2 & E3).
  { constructor; cbn; auto; [rewrite List.app_nil_r; exact S2|]. exists false. split; [reflexivity|left; reflexivity]. }
  apply spot_err in E3. subst e'. unfold parse_with. rewrite H2.
  set (N2 := fuel_for b). clearbody N1. destruct (Nat.le_ge_cases N1 N2) as [Hle|Hle].
  - rewrite (@go_fuel E N1 N2 _ Hle); [rewrite E2; reflexivity|rewrite E2; discriminate].
  - rewrite <- (@go_fuel E N2 N1 _ Hle); [rewrite E2; reflexivity|].
    intros K. apply (@go_ends E b). unfold parse_with. rewrite H2. fold N2. rewrite K. reflexivity.
Qed.
End Go.

Lemma script_all E src t0 sc x s : s_next E GRegExp (s_new src) = ROk t0 sc -> script E (fuel_for src) (run E (fuel_for src)) (init_pst t0 sc) = ROk x s -> rest (scn s) = [].
Proof.
  intros Hn H. pose proof (@script_f E (fun _ _ _ => True) src t0 (L_of src) (LB_of src) (fuel_for src) (run E (fuel_for src)) (fun _ _ _ _ => I) (@run_hSp E (fun _ _ _ => True) _ _ _ _ (fun _ _ _ _ => I) _) _ _ (init_Fa _ _ Hn)) as W.
  unfold wp in W. rewrite H in W. destruct W as (q & W1 & _ & W3). rewrite <- (fa_next W1) in W3. exact (proj1 (i_eof (fa_inv W1) W3)).
Qed.
Lemma module_all E src t0 sc x s : s_next E GRegExp (s_new src) = ROk t0 sc -> module_ E (fuel_for src) (run E (fuel_for src)) (init_pst t0 sc) = ROk x s -> rest (scn s) = [].
Proof.
  intros Hn H. pose proof (@module_f E (fun _ _ _ => True) src t0 (L_of src) (LB_of src) (fuel_for src) (run E (fuel_for src)) (fun _ _ _ _ => I) (@run_hSp E (fun _ _ _ => True) _ _ _ _ (fun _ _ _ _ => I) _) _ _ (init_Fa _ _ Hn)) as W.
  unfold wp in W. rewrite H in W. destruct W as (q & W1 & _ & W3). rewrite <- (fa_next W1) in W3. exact (proj1 (i_eof (fa_inv W1) W3)).
Qed.
Lemma script_relay E src x : parse_script E src = Ok x -> relays script E src x.
Proof. apply (@relay_go script); [exact script_sim|exact script_fuel|exact script_ends|exact script_all]. Qed.
Lemma module_relay E src x : parse_module E src = Ok x -> relays module_ E src x.
Proof. apply (@relay_go module_); [exact module_sim|exact module_fuel|exact module_ends|exact module_all]. Qed.
Lemma script_relay_err E src e : parse_script E src = Err e -> relays_err script E src e.
Proof. apply (@relay_err script); [exact script_sim|exact script_fuel|exact script_ends]. Qed.
Lemma module_relay_err E src e : parse_module E src = Err e -> relays_err module_ E src e.
Proof. apply (@relay_err module_); [exact module_sim|exact module_fuel|exact module_ends]. Qed.
