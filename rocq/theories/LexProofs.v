(** * LexProofs: the lexical properties, in the form stated in PropsLex (proofs). *)
From Verif Require Import Base Codepoint Punct Token Reader Scanner SpecReader SpecLex SpecScan Hoare ScanBase ScanTrivia ScanToken ScanTokens2 ScanNext ScanSim LexFacts ScanForward ReaderFacts Witness.
From Coq Require Import ZifyBool ZifyN ZifyNat.

Lemma reader_answers : forall src ops i o, nth_error ops i = Some o ->
  nth_error (fst (r_run ops (r_new src))) i = Some (expected src (firstn i ops) o).
Proof. intros src ops i o H. rewrite (r_run_spec ops (r_new src) i H). reflexivity. Qed.
Lemma reader_hands_out : forall src ops, handed ops (fst (r_run ops (r_new src))) = firstn (nexts ops) src.
Proof. intros. apply r_run_handed. Qed.

Lemma reach_quiet E src s : reach E src s -> quiet s.
Proof. intros H. apply hist_reach in H. apply H. Qed.
Lemma reach_next_token E src s g t s' : reach E src s -> fresh s -> s_next E g s = ROk t s' -> exists tr l, next_token E s t tr l s'.
Proof.
  intros R F H. pose proof (s_next_fresh E g (reach_quiet _ _ _ R) F) as W. unfold wp in W. rewrite H in W. exact W.
Qed.
Lemma next_terminates : forall E src s g, reach E src s -> s_next E g s <> RFuel.
Proof.
  intros E src s g R H. destruct (unscanned s) eqn:Hu; [unfold s_next in H; rewrite Hu in H; discriminate|].
  pose proof (s_next_fresh E g (reach_quiet _ _ _ R) Hu) as W. unfold wp in W. rewrite H in W. exact W.
Qed.
Lemma next_progress : forall E src s g t s', reach E src s -> fresh s -> s_next E g s = ROk t s' ->
  (ttype t <> TEof -> (length (rest s') < length (rest s))%nat) /\
  (ttype t = TEof -> rest s' = [] /\ trivia (rest s) []).
Proof.
  intros E src s g t s' R F H. destruct (reach_next_token _ _ _ _ _ _ R F H) as (tr & l & N). split; intros Ht.
  - rewrite (nt_rest N), !app_length. destruct l as [|c l]; [|cbn; lia]. exfalso. apply Ht. apply (nt_eof N). reflexivity.
  - apply (nt_eof N) in Ht. subst l. pose proof (nt_eof_rest N eq_refl) as Hr. split; auto.
    pose proof (nt_trivia N) as T. rewrite (nt_rest N), Hr in *. cbn in *. rewrite app_nil_r. exact T.
Qed.
Lemma eof_nonzero E g s t s' : quiet s -> fresh s -> s_next E g s = ROk t s' -> checked E = true -> current s' <> 0.
Proof.
  intros Q F H Hc H0.
  pose proof (s_next_fresh E g Q F) as W. unfold wp in W. rewrite H in W. destruct W as (tr & l & N).
  rewrite (nt_current N) in H0.
  assert (tr = []) as -> by (destruct tr; auto; rewrite len_cons in H0; lia).
  assert (l = []) as -> by (destruct l; auto; rewrite len_cons in H0; lia).
  pose proof (nt_rest N) as Hr. rewrite (nt_eof_rest N eq_refl) in Hr. cbn in Hr.
  unfold s_next, fresh in *. rewrite F in H.
  assert (Hs : scan_comments (set_newline false s) = ROk tt (set_newline false s)).
  { unfold scan_comments. cbn [set_newline rest]. rewrite Hr. cbn. unfold s_peek2; cbn. rewrite Hr. reflexivity. }
  unfold bind in H. rewrite Hs in H. unfold modify at 1 in H. unfold scan_token, s_peek2 in H. cbn [s_start_new_token set_newline rest] in H. rewrite Hr in H. cbn [hd_error tl] in H.
  unfold token_simple, mk_token in H. cbn [s_start_new_token set_newline current] in H.
  rewrite Hc in H. replace (current s =? 0) with true in H by (cbn in H0; lia). discriminate.
Qed.
Lemma eof_run E : forall gs s, quiet s -> fresh s -> rest s = [] -> (checked E = true -> current s <> 0) ->
  exists ts s', s_nexts E gs s = ROk ts s' /\ length ts = length gs /\ Forall (fun t => ttype t = TEof) ts.
Proof.
  induction gs as [|g gs IH]; intros s Q F Hr Hc; cbn [s_nexts].
  - exists [], s. auto.
  - destruct (eof_again E g Q F Hr Hc) as (t & s1 & H1).
    destruct (next_at_end E g Q F Hr H1) as (Ht & Hr1 & F1 & Hc1).
    pose proof (s_next_fresh E g Q F) as W. unfold wp in W. rewrite H1 in W. destruct W as (tr & l & N).
    destruct (IH s1 (nt_quiet N) F1 Hr1) as (ts & s2 & H2 & Hl & Hf); [rewrite Hc1; auto|].
    exists (t :: ts), s2. unfold bind. rewrite H1, H2. cbn. auto.
Qed.
Lemma eof_final : forall E src s g t s', reach E src s -> fresh s -> s_next E g s = ROk t s' -> ttype t = TEof ->
  forall gs, exists ts s'', s_nexts E gs s' = ROk ts s'' /\ length ts = length gs /\ Forall (fun t => ttype t = TEof) ts.
Proof.
  intros E src s g t s' R F H Ht gs. destruct (reach_next_token _ _ _ _ _ _ R F H) as (tr & l & N).
  destruct (next_progress _ _ _ _ _ _ R F H) as [_ HE]. destruct (HE Ht) as [Hr _].
  apply eof_run; auto; [exact (nt_quiet N)|exact (nt_unscanned N)|].
  intros Hc. eapply eof_nonzero; eauto. eapply reach_quiet; eauto.
Qed.

Lemma new_quiet src : quiet (s_new src).
Proof. split; reflexivity. Qed.
Lemma offsets : forall E src gs ts s', s_nexts E gs (s_new src) = ROk ts s' -> laid E [] ts src (rest s').
Proof. intros E src gs ts s' H. apply (nexts_laid E gs) with (before := []) in H; auto using new_quiet. reflexivity. Qed.

Lemma laid_nth E before ts text final i t : laid E before ts text final -> nth_error ts i = Some t ->
  exists pre tr l r, before ++ text = pre ++ tr ++ l ++ r /\ lexeme E t l /\ tstart t = N.of_nat (length (pre ++ tr)) /\
    (pre ++ tr ++ l <> [] -> tend t = N.of_nat (length (pre ++ tr ++ l)) - 1) /\ tline t = 1 + breaks (pre ++ tr ++ l) r /\
    (length before <= length pre)%nat.
Proof.
  intros H. revert i t. induction H as [before text|before t0 ts tr l r final T L S0 En Ln H IH]; intros i t Hi; [destruct i; discriminate|].
  destruct i as [|i]; cbn [nth_error] in Hi.
  - injection Hi as <-. exists before, tr, l, r. splits; auto.
  - destruct (IH i t Hi) as (pre & tr' & l' & r' & H1 & H2 & H3 & H4 & H5 & H6). exists pre, tr', l', r'. splits; auto.
    + rewrite <- H1, <- !app_assoc. reflexivity.
    + rewrite !app_length in H6. lia.
Qed.
Lemma lexeme_nonnil E t l : lexeme E t l -> ttype t <> TEof -> l <> [].
Proof.
  intros Hx Ht. destruct Hx; try congruence; try discriminate.
  - apply ident_head_nonnil in H. destruct l; [congruence|discriminate].
  - rewrite spell_lit_ok. destruct p; discriminate.
  - eapply number_lit_nonnil; eauto.
Qed.
Lemma slice : forall E src gs ts s' i t, s_nexts E gs (s_new src) = ROk ts s' -> nth_error ts i = Some t ->
  ttype t <> TEof ->
  lexeme E t (firstn (N.to_nat (tend t + 1 - tstart t)) (skipn (N.to_nat (tstart t)) src)) /\
  tstart t <= tend t < N.of_nat (length src).
Proof.
  intros E src gs ts s' i t H Hi Ht. apply offsets in H. destruct (laid_nth _ _ _ _ _ _ _ H Hi) as (pre & tr & l & r & H1 & H2 & H3 & H4 & H5 & H6).
  cbn [app] in H1. pose proof (lexeme_nonnil _ _ _ H2 Ht) as Hl.
  rewrite H4 by (intros Hx; apply app_eq_nil in Hx as [_ Hx]; apply app_eq_nil in Hx as [_ Hx]; congruence).
  rewrite H3. subst src. rewrite !app_length. assert (0 < length l)%nat by (destruct l; [congruence|cbn; lia]). split; [|lia].
  replace (N.to_nat (N.of_nat (length pre + length tr))) with (length (pre ++ tr)) by (rewrite app_length; lia).
  rewrite (app_assoc pre tr), skipn_app, skipn_all, Nat.sub_diag. cbn [skipn app].
  replace (N.to_nat _) with (length l) by lia.
  rewrite firstn_app, firstn_all, Nat.sub_diag. cbn [firstn]. rewrite app_nil_r. exact H2.
Qed.
Lemma laid_order E before ts text final i t j u : laid E before ts text final ->
  (i < j)%nat -> nth_error ts i = Some t -> nth_error ts j = Some u -> ttype t <> TEof -> tend t < tstart u.
Proof.
  intros H. revert i j t u. induction H as [before text|before t0 ts tr l r final T L S0 En Ln H IH]; intros i j t u Hij Hi Hj Ht; [destruct i; discriminate|].
  destruct i as [|i].
  - injection Hi as <-. destruct j as [|j]; [lia|]. cbn [nth_error] in Hj.
    destruct (laid_nth _ _ _ _ _ _ _ H Hj) as (pre & tr' & l' & r' & H1 & H2 & H3 & H4 & H5 & H6).
    pose proof (lexeme_nonnil _ _ _ L Ht) as Hl. assert (0 < length l)%nat by (destruct l; [congruence|cbn; lia]).
    rewrite H3. rewrite En by (intros Hx; apply app_eq_nil in Hx as [_ Hx]; apply app_eq_nil in Hx as [_ Hx]; congruence).
    rewrite !app_length in *. lia.
  - destruct j as [|j]; [lia|]. cbn [nth_error] in *. apply (IH i j t u); auto. lia.
Qed.
Lemma token_order : forall E src gs ts s' i j t u, s_nexts E gs (s_new src) = ROk ts s' ->
  (i < j)%nat -> nth_error ts i = Some t -> nth_error ts j = Some u -> ttype t <> TEof -> tend t < tstart u.
Proof. intros E src gs ts s' i j t u H. apply offsets in H. eapply laid_order; eauto. Qed.
Lemma token_lines : forall E src gs ts s' i t, s_nexts E gs (s_new src) = ROk ts s' -> nth_error ts i = Some t ->
  exists before r, src = before ++ r /\ tline t = 1 + breaks before r /\
    (before <> [] -> N.of_nat (length before) = tend t + 1).
Proof.
  intros E src gs ts s' i t H Hi. apply offsets in H. destruct (laid_nth _ _ _ _ _ _ _ H Hi) as (pre & tr & l & r & H1 & H2 & H3 & H4 & H5 & H6).
  cbn [app] in H1. exists (pre ++ tr ++ l), r. splits; auto; [rewrite H1, <- !app_assoc; reflexivity|].
  intros Hne. rewrite (H4 Hne). destruct (pre ++ tr ++ l); [congruence|]. cbn [length]. lia.
Qed.
Lemma nexts_state E gs : forall s ts s' before, quiet s -> fresh s -> line s = 1 + breaks before (rest s) ->
  s_nexts E gs s = ROk ts s' -> quiet s' /\ fresh s' /\ exists b, before ++ rest s = b ++ rest s' /\ line s' = 1 + breaks b (rest s').
Proof.
  induction gs as [|g gs IH]; intros s ts s' before Q F Hl H; cbn [s_nexts] in H.
  - injection H as <- <-. splits; auto. exists before; auto.
  - unfold bind in H. pose proof (s_next_fresh E g Q F) as W. unfold wp in W.
    destruct (s_next E g s) as [t s1| | |] eqn:H1; try discriminate. destruct W as (tr & l & N).
    destruct (s_nexts E gs s1) as [ts1 s2| | |] eqn:H2; try discriminate. cbv in H. injection H as <- <-.
    destruct (IH s1 ts1 s2 (before ++ tr ++ l) (nt_quiet N) (nt_unscanned N)) as (Q2 & F2 & b & Hb & Hl2); auto.
    { rewrite (nt_breaks N), Hl, (breaks_app before), (nt_rest N), app_assoc. lia. }
    splits; auto. exists b. split; auto. rewrite <- Hb, (nt_rest N), <- !app_assoc. reflexivity.
Qed.
Lemma error_lines : forall E src gs g ts s e, s_nexts E gs (s_new src) = ROk ts s -> s_next E g s = RErr e ->
  exists before l r, src = before ++ l ++ r /\ rest s = l ++ r /\ err_line e = 1 + breaks (before ++ l) r.
Proof.
  intros E src gs g ts s e H He.
  destruct (nexts_state E gs (s_new src) ts s [] (new_quiet src) eq_refl eq_refl H) as (Q & F & b & Hb & Hl).
  pose proof (s_next_fresh E g Q F) as W. unfold wp in W. rewrite He in W. cbn in W. destruct W as (l & r & Hr & He').
  exists b, l, r. cbn in Hb. splits; auto.
  - rewrite Hb, Hr. reflexivity.
  - rewrite He', Hl, breaks_app, Hr. lia.
Qed.

Lemma trivia_irrelevant : forall E src s g tr, reach E src s -> fresh s -> trivia tr (rest s) ->
  (checked E = true -> ~ at_empty s) ->
  same_scan (s_next E g s) (s_next E g (with_input (tr ++ rest s) s)).
Proof.
  intros E src s g tr R F T Hne. pose proof (reach_quiet _ _ _ R) as Q.
  pose proof (@next_trivia E g s (with_input (tr ++ rest s) s) tr Q F F eq_refl T eq_refl eq_refl eq_refl (N.le_refl _)) as H.
  pose proof (s_next_fresh E g Q F) as W. unfold wp in W. unfold res_rel in H. unfold same_scan.
  destruct (s_next E g s) as [t1 s1|e1|p1|], (s_next E g (with_input (tr ++ rest s) s)) as [t2 s2|e2|p2|]; auto;
    try contradiction.
  - destruct H as [H1 H2]. split; auto. apply (sm_rest H2).
  - cbn in W. destruct p1; auto; try contradiction. exfalso.
    destruct W as [[W _]|[[W _]|(_ & Hc & W1 & W2)]]; try discriminate. apply (Hne Hc). split; auto.
  - cbn in W. destruct p1; auto; try contradiction. exfalso.
    destruct W as [[W _]|[[W _]|(_ & Hc & W1 & W2)]]; try discriminate. apply (Hne Hc). split; auto.
  - cbn in W. destruct p1; auto; try discriminate.
    destruct W as [[W _]|[[W _]|(_ & Hc & W1 & W2)]]; try discriminate. exfalso. apply (Hne Hc). split; auto.
  - cbn in W. destruct p1; auto; try contradiction. exfalso.
    destruct W as [[W _]|[[W _]|(_ & Hc & W1 & W2)]]; try discriminate. apply (Hne Hc). split; auto.
Qed.
Lemma trivia_example : trivia (s2l " /* x */" ++ [10] ++ s2l "// y" ++ [10]) (s2l "/r/").
Proof.
  apply tv_space; [unfold white_space; cbn; tauto|].
  apply (tv_block (s2l " x ") ([10] ++ s2l "// y" ++ [10])); [reflexivity|].
  apply tv_line; [unfold line_terminator, LF; auto|].
  apply (tv_comment (s2l " y") [10]).
  - repeat constructor; unfold line_terminator, LF, CR; cbn; intros [|[|[|]]]; discriminate.
  - cbn. unfold line_terminator, LF; auto.
  - apply tv_line; [unfold line_terminator, LF; auto|]. constructor.
Qed.

Lemma punct_longest : forall E src s g t s' p, reach E src s -> fresh s -> s_next E g s = ROk t s' -> tval t = VPunc p ->
  exists tr, rest s = tr ++ s2l (p_spell p) ++ rest s' /\ trivia tr (s2l (p_spell p) ++ rest s') /\
    longest_match p (s2l (p_spell p) ++ rest s').
Proof.
  intros E src s g t s' p R F H Hp. destruct (reach_next_token _ _ _ _ _ _ R F H) as (tr & l & N).
  destruct (nt_punct N Hp) as [Ht Hl].
  assert (l = s2l (p_spell p)) as ->.
  { pose proof (nt_lexeme N) as Hx. destruct Hx; try congruence. inversion H2; congruence. }
  exists tr. splits; [exact (nt_rest N)|exact (nt_trivia N)|exact Hl].
Qed.

Lemma p_lookup_spell t w p : p_lookup w t = Some p -> exists k, In (k, p) t /\ w = s2l k.
Proof.
  induction t as [|[k q] t IH]; cbn; [discriminate|]. destruct (str_eqb w (s2l k)) eqn:Hw.
  - intros [= ->]. apply str_eqb_eq in Hw. eauto.
  - intros H. destruct (IH H) as (k' & H1 & H2). eauto.
Qed.
Lemma punct_round_trip : forall p, p_from (p_to_str p) = Some p /\ p_to_string p = p_to_str p.
Proof. intros []; split; vm_compute; reflexivity. Qed.
Lemma punct_from : forall w p, p_from w = Some p <-> p_to_str p = w.
Proof.
  intros w p. split.
  - intros H. apply p_lookup_spell in H as (k & Hin & ->).
    assert (G : forall kp, In kp p_table -> p_to_str (snd kp) = s2l (fst kp)).
    { apply Forall_forall. unfold p_table. repeat constructor. }
    apply (G (k, p) Hin).
  - intros <-. apply punct_round_trip.
Qed.
Lemma punct_failure : forall w, p_from w = None <-> forall p, p_to_str p <> w.
Proof.
  intros w. split.
  - intros H p Hp. apply punct_from in Hp. congruence.
  - intros H. destruct (p_from w) as [p|] eqn:Hp; auto. apply punct_from in Hp. destruct (H p Hp).
Qed.

Lemma scans_scans_to E s g l r ty v oc : scans E s g l r ty v oc -> scans_to E g s ty v r.
Proof. intros (t & s' & H1 & H2 & H3 & _ & H4 & _). exists t, s'. auto. Qed.
Lemma words : forall E src s g tr w r, ucd_sane E -> reach E src s -> fresh s ->
  plain_word E w -> word_ends E r -> rest s = tr ++ w ++ r -> trivia tr (w ++ r) ->
  exists ty v, word_kind w ty v /\ scans_to E g s ty v r.
Proof.
  intros E src s g tr w r Hs R F Hw He Hr Ht.
  destruct (@word_token E Hs g s tr w r (reach_quiet _ _ _ R) F Hw He Hr Ht) as (ty & v & K & S). eauto using scans_scans_to.
Qed.
Lemma word_kinds : forall E src s g t s' w, reach E src s -> fresh s -> s_next E g s = ROk t s' -> tval t = VStr w ->
  (ttype t = TKeyword -> reserved w) /\ (ttype t = TIdentifier -> ~ reserved w).
Proof.
  intros E src s g t s' w R F H Hv. destruct (reach_next_token _ _ _ _ _ _ R F H) as (tr & l & N).
  pose proof (nt_wf N) as W. unfold token_wf in W. split; intros Ht; rewrite Ht in W; destruct W as (w' & Hw & W); congruence.
Qed.
Lemma words_example : ucd_sane E0 /\ plain_word E0 (s2l "yield") /\ word_ends E0 (s2l "(") /\
  kinds (tokens GDiv 5 "yield( nullx null true") =
  [(TKeyword, VStr (s2l "yield")); (TPunctuator, VPunc LParen); (TIdentifier, VStr (s2l "nullx")); (TNull, VNull);
   (TBoolean, VStr (s2l "true"))].
Proof.
  splits.
  - exact E0_sane.
  - exists (chr "y"), (s2l "ield"). splits; [reflexivity| | |].
    + unfold id_start, ascii_letter. cbn. lia.
    + repeat constructor; unfold id_continue, ascii_letter; cbn; lia.
    + repeat constructor; unfold backslash; cbn; lia.
  - cbn. split; [|unfold backslash; lia]. unfold id_continue, ascii_letter, ascii_digit. cbn. lia.
  - vm_compute. reflexivity.
Qed.
Lemma quoted_text : forall E src s g tr q w r, ucd_sane E -> reach E src s -> fresh s ->
  q = 0x27 \/ q = 0x22 -> rest s = tr ++ quoted q w ++ r -> trivia tr (quoted q w ++ r) ->
  scans_to E g s TString (VStr w) r.
Proof. intros E src s g tr q w r Hs R F Hq Hr Ht. eapply scans_scans_to, quoted_token; eauto. eapply reach_quiet; eauto. Qed.
Lemma verbatim_text : forall E src s g tr q w r, ucd_sane E -> reach E src s -> fresh s ->
  q = 0x27 \/ q = 0x22 -> Forall (fun c => c <> q /\ c <> backslash /\ ~ line_terminator c) w ->
  rest s = tr ++ q :: w ++ q :: r -> trivia tr (q :: w ++ q :: r) ->
  scans_to E g s TString (VStr w) r.
Proof.
  intros E src s g tr q w r Hs R F Hq Hw Hr Ht.
  assert (Hx : flat_map (quote_char q) w = w).
  { clear -Hw. induction Hw as [|c w (H1 & H2 & H3) Hw IH]; cbn [flat_map]; auto. rewrite IH.
    unfold quote_char. unfold line_terminator, LF, CR in *.
    replace ((c =? q) || (c =? backslash)) with false by lia. replace (c =? 10) with false by lia. replace (c =? 13) with false by lia.
    replace (c =? 0x2028) with false by lia. replace (c =? 0x2029) with false by lia. reflexivity. }
  eapply (quoted_text E src s g tr q w r); eauto; unfold quoted; rewrite Hx; cbn [app]; rewrite <- app_assoc; auto.
Qed.
Lemma decimals : forall E src s g tr ip fl fp el z r, ucd_sane E -> reach E src s -> fresh s ->
  Forall (digit_of 10) ip -> fraction_part fl fp -> exponent_part el z -> ip ++ fp <> [] ->
  no_leading_zero ip -> (ip = [chr "0"] -> fl = [] -> el = []) -> decimal_ends fl el r ->
  rest s = tr ++ (ip ++ fl ++ el) ++ r -> trivia tr ((ip ++ fl ++ el) ++ r) ->
  scans_to E g s TNumeric (VNum (mkNum (positional 10 (ip ++ fp)) (z - Z.of_nat (length fp)))) r.
Proof. intros E src s g tr ip fl fp el z r Hs R F. intros. eapply scans_scans_to, decimal_token; eauto. eapply reach_quiet; eauto. Qed.
Lemma radixes : forall E src s g tr p b ds r, ucd_sane E -> reach E src s -> fresh s ->
  In (p, b) [(chr "b", 2); (chr "B", 2); (chr "o", 8); (chr "O", 8); (chr "x", 16); (chr "X", 16)] ->
  ds <> [] -> Forall (digit_of b) ds -> positional b ds < 2 ^ 63 -> radix_ends r ->
  rest s = tr ++ (chr "0" :: p :: ds) ++ r -> trivia tr ((chr "0" :: p :: ds) ++ r) ->
  scans_to E g s TNumeric (VNum (mkNum (positional b ds) 0)) r.
Proof. intros E src s g tr p b ds r Hs R F. intros. eapply scans_scans_to, radix_token; eauto. eapply reach_quiet; eauto. Qed.
Lemma numbers_sound : forall E src s g t s', reach E src s -> fresh s -> s_next E g s = ROk t s' -> ttype t = TNumeric ->
  exists tr l x, rest s = tr ++ l ++ rest s' /\ trivia tr (l ++ rest s') /\ tval t = VNum x /\ number_lit l x.
Proof.
  intros E src s g t s' R F H Ht. destruct (reach_next_token _ _ _ _ _ _ R F H) as (tr & l & N).
  pose proof (nt_lexeme N) as Hx. destruct Hx; try congruence.
  - inversion H2; congruence.
  - exists tr, l, x. splits; auto; [exact (nt_rest N)|exact (nt_trivia N)].
Qed.
Lemma template_pieces : forall E src s g t s', reach E src s -> fresh s -> s_next E g s = ROk t s' -> ttype t = TTemplate ->
  exists tr raw cooked parts (head tail : bool),
    rest s = tr ++ ((if head then chr "`" else chr "}") :: raw ++ (if tail then [chr "`"] else [chr "$"; chr "{"])) ++ rest s' /\
    trivia tr ((if head then chr "`" else chr "}") :: raw ++ (if tail then [chr "`"] else [chr "$"; chr "{"]) ++ rest s') /\
    tval t = VStr raw /\ thead t = Some head /\ ttail t = Some tail /\ tcooked t = Some cooked /\
    raw = concat parts /\ template_body E cooked parts (if tail then [chr "`"] else [chr "$"; chr "{"]).
Proof.
  intros E src s g t s' R F H Ht. destruct (reach_next_token _ _ _ _ _ _ R F H) as (tr & l & N).
  pose proof (nt_lexeme N) as Hx. pose proof (nt_rest N) as Hr. pose proof (nt_trivia N) as Htr. clear N. destruct Hx; try congruence.
  - inversion H2; congruence.
  - exists tr, (concat ls), vs, ls, head, tail. splits; auto.
    cbn [app] in Htr. rewrite <- app_assoc in Htr. exact Htr.
Qed.
Lemma matching_brace : forall E src gs ts s' i t, s_nexts E gs (s_new src) = ROk ts s' -> nth_error ts i = Some t ->
  (ttype t = TTemplate -> thead t = Some false -> hd_error (open_after [] (firstn i ts)) = Some Substitution) /\
  (tval t = VPunc RBrace -> hd_error (open_after [] (firstn i ts)) <> Some Substitution).
Proof. intros E src gs ts s' i t H Hi. exact (nexts_braces E gs (new_quiet src) eq_refl H i Hi). Qed.
Lemma regexps : forall E src s g t s', reach E src s -> fresh s -> s_next E g s = ROk t s' -> ttype t = TRegExp ->
  exists tr parts flags fls, rest s = tr ++ (chr "/" :: concat parts ++ chr "/" :: concat fls) ++ rest s' /\
    trivia tr ((chr "/" :: concat parts ++ chr "/" :: concat fls) ++ rest s') /\
    Forall regexp_part parts /\ tpattern t = Some (concat parts) /\
    tflags t = Some flags /\ Forall2 (ident_piece E) flags fls.
Proof.
  intros E src s g t s' R F H Ht. destruct (reach_next_token _ _ _ _ _ _ R F H) as (tr & l & N).
  pose proof (nt_lexeme N) as Hx. pose proof (nt_rest N) as Hr. pose proof (nt_trivia N) as Htr. clear N. destruct Hx; try congruence.
  - inversion H2; congruence.
  - exists tr, ps, f, ls. splits; auto.
Qed.
Lemma panics_confined : forall E src s g p, reach E src s -> s_next E g s = RPanic p ->
  (p = P_UnterminatedTemplate /\ unterminated_template E (rest s)) \/
  (p = P_EscapeOverflow /\ checked E = true /\ overlong_escape (rest s)) \/
  (p = P_EofUnderflow /\ checked E = true /\ at_empty s).
Proof.
  intros E src s g p R H. destruct (unscanned s) eqn:Hu; [unfold s_next in H; rewrite Hu in H; discriminate|].
  pose proof (s_next_fresh E g (reach_quiet _ _ _ R) Hu) as W. unfold wp in W. rewrite H in W. cbn in W.
  unfold at_empty. intuition.
Qed.
Lemma token_attributes : forall E src s g t s', reach E src s -> fresh s -> s_next E g s = ROk t s' -> token_wf t.
Proof. intros E src s g t s' R F H. destruct (reach_next_token _ _ _ _ _ _ R F H) as (tr & l & N). exact (nt_wf N). Qed.
