(** * ScanForward: given texts scan to the tokens they denote (proofs). *)
From Verif Require Import Base Codepoint Punct Token Scanner SpecLex SpecScan Hoare ScanBase ScanTrivia ScanToken ScanTokens2 ScanNext ScanSim.
From Coq Require Import ZifyBool ZifyN ZifyNat.
Set Implicit Arguments.

Definition yields {A} (m : SM A) (s : sst) (a : A) (l : str) : Prop :=
  exists s', m s = ROk a s' /\ reads s l s'.

Lemma y_ret A (a : A) s : yields (ret a) s a [].
Proof. exists s. split; [reflexivity|apply reads_refl]. Qed.
Lemma y_bind A B (m : SM A) (k : A -> SM B) s a b l1 l2 l : l = l1 ++ l2 ->
  yields m s a l1 -> (forall s', reads s l1 s' -> yields (k a) s' b l2) -> yields (bind m k) s b l.
Proof.
  intros -> (s1 & H1 & R1) Hk. destruct (Hk s1 R1) as (s2 & H2 & R2). exists s2. unfold bind. rewrite H1.
  split; eauto using reads_trans.
Qed.
Lemma y_bind0 A B (m : SM A) (k : A -> SM B) s a b l :
  m s = ROk a s -> yields (k a) s b l -> yields (bind m k) s b l.
Proof. intros H1 (s2 & H2 & R2). exists s2. unfold bind. rewrite H1. auto. Qed.
Lemma y_consume_or t s c r : rest s = c :: r -> yields (consume_or t) s c [c].
Proof. intros H. exists (s_consume s). split; [|eapply s_consume_reads; eauto]. unfold consume_or, bind, consume. rewrite H. reflexivity. Qed.
Lemma y_consume s c r : rest s = c :: r -> yields consume s (Some c) [c].
Proof. intros H. exists (s_consume s). split; [|eapply s_consume_reads; eauto]. unfold consume. rewrite H. reflexivity. Qed.
Lemma y_consume_unwrap s c r : rest s = c :: r -> yields consume_unwrap s c [c].
Proof. intros H. exists (s_consume s). split; [|eapply s_consume_reads; eauto]. unfold consume_unwrap, bind, consume. rewrite H. reflexivity. Qed.
Lemma y_expect s c r : rest s = c :: r -> yields (expect_c c) s tt [c].
Proof. intros H. exists (s_consume s). split; [|eapply s_consume_reads; eauto]. unfold expect_c, bind, consume. rewrite H. cbn. rewrite N.eqb_refl. reflexivity. Qed.

(** Loops. *)
Inductive fpieces {B} (P : B -> str -> Prop) (pred : N -> bool) : list B -> list str -> Prop :=
| fp_nil : fpieces P pred [] []
| fp_cons b c l bs ls : P b (c :: l) -> pred c = false -> fpieces P pred bs ls -> fpieces P pred (b :: bs) ((c :: l) :: ls).
Lemma y_until_n B (P : B -> str -> Prop) pred read bs ls : fpieces P pred bs ls ->
  (forall s b l r, P b l -> rest s = l ++ r -> yields read s b l) ->
  forall n s r, (length (rest s) < n)%nat -> rest s = concat ls ++ r -> stops pred r -> yields (scan_until_n n pred read) s bs (concat ls).
Proof.
  intros F Hread. induction F as [|b c l bs ls HP Hc F IH]; intros [|n] s r Hn Hr Hst; try lia; cbn [scan_until_n].
  - eapply y_bind0; [reflexivity|]. unfold s_peek. rewrite Hr. cbn [concat app]. destruct r as [|d r]; cbn [hd_error].
    + apply y_ret.
    + cbn in Hst. rewrite Hst. apply y_ret.
  - eapply y_bind0; [reflexivity|]. unfold s_peek. rewrite Hr. cbn [concat app hd_error]. rewrite Hc.
    change (c :: l ++ concat ls) with ((c :: l) ++ concat ls).
    eapply y_bind; [reflexivity| |].
    + eapply Hread; eauto. rewrite Hr. cbn [concat]. rewrite <- app_assoc. reflexivity.
    + intros s' R. eapply y_bind; [symmetry; apply app_nil_r| |intros; apply y_ret].
      pose proof (rd_rest R) as Hx. rewrite Hr in Hx. cbn [concat] in Hx. rewrite <- app_assoc in Hx. apply app_inv_head in Hx.
      eapply IH; eauto. rewrite Hr in Hn. cbn [concat] in Hn. rewrite <- app_assoc, app_length in Hn.
      cbn [length] in Hn. rewrite <- Hx. lia.
Qed.
Lemma y_until B (P : B -> str -> Prop) pred read bs ls s r : fpieces P pred bs ls ->
  (forall s b l r, P b l -> rest s = l ++ r -> yields read s b l) ->
  rest s = concat ls ++ r -> stops pred r -> yields (scan_until pred read) s bs (concat ls).
Proof. intros F Hread Hr Hst. unfold scan_until, yields. eapply (y_until_n F Hread); eauto. Qed.
Lemma y_chars pred t s l r : Forall (fun c => pred c = false) l -> rest s = l ++ r -> stops pred r ->
  yields (scan_until pred (consume_or t)) s l l.
Proof.
  intros F Hr Hst.
  assert (Hc : concat (map (fun c => [c]) l) = l) by (clear; induction l; cbn; congruence).
  rewrite <- Hc at 2. eapply y_until with (P := fun b l => l = [b]) (r := r); auto.
  - clear -F. induction F; cbn; constructor; auto.
  - intros s1 b l1 r1 -> Hr1. eapply y_consume_or; eauto.
  - rewrite Hc; auto.
Qed.

Section Fwd.
Context (E : env).
Hypothesis Hsane : ucd_sane E.

Definition scans (s : sst) (g : lexgoal) (l r : str) (ty : tokentype) (v : value) (oc : option bool) : Prop :=
  exists t s', s_next E g s = ROk t s' /\ ttype t = ty /\ tval t = v /\ toctal t = oc /\ rest s' = r /\
    curly s' = curly s /\ fresh s' /\ quiet s'.

(** After the trivia, [scan_token] does it. *)
Lemma scans_intro s g tr l r ty v oc : quiet s -> fresh s -> rest s = tr ++ l ++ r -> trivia tr (l ++ r) -> no_trivia (l ++ r) ->
  l <> [] ->
  (forall s1, rest s1 = l ++ r -> exists m, scan_token E g s1 = bind m (fun _ => mk_token E ty v None None oc None None None) s1 /\ yields m s1 tt l) ->
  scans s g l r ty v oc.
Proof.
  intros [Q1 Q2] Hf Hr Ht Hn Hl Hm. unfold scans, s_next. unfold fresh in Hf. rewrite Hf.
  destruct (scan_comments_spec (set_newline false s)) as (s1 & l1 & B1 & R1 & T1 & N1).
  assert (Hx : rest s1 = l ++ r).
  { eapply trivia_unique; eauto. rewrite <- (rd_rest R1). cbn. auto. }
  destruct (Hm (s_start_new_token s1)) as (m & Hm1 & s2 & Hm2 & R2); [exact Hx|].
  unfold bind at 1 2. rewrite B1. unfold modify at 1.
  unfold bind in Hm1. rewrite Hm2 in Hm1. unfold mk_token in Hm1.
  assert (Hnz : current s2 <> 0) by (eapply reads_nonzero; eauto).
  assert (Hnz' : (current s2 =? 0) = false) by lia. rewrite Hnz' in Hm1. rewrite Hm1.
  destruct R1 as [A1 A2 A3 A4 A5 A6 A7 A8 A9], R2 as [C1 C2 C3 C4 C5 C6 C7 C8 C9].
  cbn [set_newline s_start_new_token rest current line start curly unscanned sstate record_raw raw_string] in *.
  eexists _, s2. splits; try reflexivity.
  - rewrite Hx in C1. symmetry in C1. apply app_inv_head in C1. auto.
  - congruence.
  - unfold fresh. congruence.
  - rewrite Q1 in A9. rewrite A8, Q1 in C9. split; congruence.
Qed.

(** ** Words *)
Lemma word_token g s tr w r : quiet s -> fresh s -> plain_word E w -> word_ends E r ->
  rest s = tr ++ w ++ r -> trivia tr (w ++ r) ->
  exists ty v, word_kind w ty v /\ scans s g w r ty v None.
Proof.
  intros Hq Hf (c & v & -> & Hc & Hv & Hb) He Hr Ht.
  inversion Hb as [|? ? Hcb Hvb]; subst. pose proof Hc as Hc'. apply id_start_iff in Hc'.
  assert (Hnt : no_trivia ((c :: v) ++ r)).
  { cbn. assert (Hd : ~ white_space c /\ ~ line_terminator c /\ c <> chr "/").
    { destruct Hc as [->|[->|[Hc|Hc]]].
      - unfold white_space, line_terminator, LF, CR; lia.
      - unfold white_space, line_terminator, LF, CR; lia.
      - unfold ascii_letter in Hc. unfold white_space, line_terminator, LF, CR; lia.
      - destruct (us_space _ Hsane _ Hc). splits; auto. intros ->. apply (us_ascii _ Hsane) in Hc; [|lia]. unfold ascii_letter in Hc; lia. }
    intuition. }
  assert (G : forall ty v', (forall s, identifier_token E (c :: v) s = token_simple E ty v' s) -> scans s g (c :: v) r ty v' None).
  { intros ty v' Hty. eapply scans_intro; eauto; [discriminate|]. intros s1 Hs1.
    exists (bind (scan_identifier_start E) (fun _ => scan_until (ident_stop E) (scan_identifier_cp E) ;;; ret tt)).
    assert (Y1 : yields (scan_identifier_start E) s1 c [c]).
    { unfold scan_identifier_start. eapply y_bind0; [reflexivity|]. unfold s_peek. rewrite Hs1. cbn [hd_error app].
      replace (c =? 92) with false by (unfold backslash in Hcb; lia).
      eapply y_bind; [symmetry; apply app_nil_r|eapply y_consume_unwrap; exact Hs1|]. intros s' _. rewrite Hc'. apply y_ret. }
    assert (Y2 : forall s', reads s1 [c] s' -> yields (scan_until (ident_stop E) (scan_identifier_cp E)) s' v v).
    { intros s' R. pose proof (rd_rest R) as Hx. rewrite Hs1 in Hx. cbn [app] in Hx. injection Hx as Hx. symmetry in Hx.
      assert (Hcc : concat (map (fun c => [c]) v) = v) by (clear; induction v; cbn; congruence).
      rewrite <- Hcc at 2. eapply y_until with (P := fun b l => l = [b] /\ b <> backslash) (r := r).
      - clear -Hv Hvb. induction Hv as [|d v Hd Hv IH]; cbn; constructor; inversion Hvb; subst; auto.
        unfold ident_stop. replace (d =? 92) with false by (unfold backslash in *; lia). apply id_continue_iff in Hd; auto. rewrite Hd. reflexivity.
      - intros s2 b l r2 [-> Hbb] Hr2. unfold scan_identifier_cp. eapply y_bind; [symmetry; apply app_nil_r|eapply y_consume_unwrap; exact Hr2|].
        intros s3 _. replace (b =? 92) with false by (unfold backslash in *; lia). apply y_ret.
      - rewrite Hcc. exact Hx.
      - destruct r as [|d r']; [exact I|]. cbn in He |- *. destruct He as [He1 He2]. unfold ident_stop.
        replace (d =? 92) with false by (unfold backslash in *; lia). cbn [negb andb].
        destruct (is_identifier_continue E d) eqn:Hi; auto. exfalso. apply He1. apply id_continue_iff; auto. }
    split.
    - unfold scan_token, s_peek2. rewrite Hs1. cbn [hd_error app]. rewrite Hc'. unfold scan_identifier, bind.
      destruct Y1 as (s2 & E1 & R1). rewrite E1. destruct (Y2 s2 R1) as (s3 & E2 & R2). rewrite E2. apply Hty.
    - eapply y_bind with (l1 := [c]) (l2 := v); [reflexivity|exact Y1|]. intros s' R.
      eapply y_bind; [symmetry; apply app_nil_r|apply Y2; auto|]. intros; apply y_ret. }
  unfold identifier_token in G.
  destruct (str_eqb (c :: v) (s2l "null")) eqn:H1.
  { exists TNull, VNull. split; [apply wk_null; apply str_eqb_eq; auto|apply G; reflexivity]. }
  destruct (str_eqb (c :: v) (s2l "true") || str_eqb (c :: v) (s2l "false")) eqn:H2.
  { exists TBoolean, (VStr (c :: v)). split; [|apply G; reflexivity]. apply wk_bool. apply Bool.orb_true_iff in H2. destruct H2 as [H2|H2]; apply str_eqb_eq in H2; auto. }
  apply Bool.orb_false_iff in H2 as [H2 H3]. apply str_eqb_neq in H1, H2, H3.
  destruct (is_keyword (c :: v)) eqn:H4.
  { exists TKeyword, (VStr (c :: v)). split; [|apply G; reflexivity]. apply wk_keyword. apply is_keyword_reserved; auto. }
  exists TIdentifier, (VStr (c :: v)). split; [|apply G; reflexivity]. apply wk_ident; auto. rewrite <- is_keyword_reserved. congruence.
Qed.

(** ** Strings *)
Lemma y_hex_k k t : forall acc s ds r, length ds = k -> Forall (digit_of 16) ds -> rest s = ds ++ r ->
  yields (scan_hex_k k acc t) s (positional_acc 16 acc ds) ds.
Proof.
  induction k as [|k IH]; intros acc s [|d ds] r Hl Hd Hr; try discriminate; cbn [scan_hex_k positional_acc].
  - apply y_ret.
  - inversion Hd as [|? ? Hd1 Hd2]; subst. eapply y_bind with (l1 := [d]) (l2 := ds); [reflexivity|eapply y_consume; exact Hr|].
    intros s' R. pose proof Hd1 as Hd1'. apply digit_of_16 in Hd1'. cbv beta iota. rewrite Hd1'. rewrite to_digit_value. eapply IH; eauto.
    pose proof (rd_rest R) as Hx. rewrite Hr in Hx. injection Hx as Hx. symmetry. exact Hx.
Qed.
Lemma y_unicode4 s ds r : length ds = 4%nat -> Forall (digit_of 16) ds -> scalar (positional 16 ds) ->
  rest s = backslash :: chr "u" :: ds ++ r -> yields (scan_unicode_esc_seq E) s (positional 16 ds) (backslash :: chr "u" :: ds).
Proof.
  intros Hl Hd Hs Hr. unfold scan_unicode_esc_seq.
  eapply y_bind with (l1 := [backslash]) (l2 := chr "u" :: ds); [reflexivity|eapply y_expect; exact Hr|]. intros s1 R1.
  pose proof (rd_rest R1) as Hx. rewrite Hr in Hx. injection Hx as Hx. symmetry in Hx.
  eapply y_bind with (l1 := [chr "u"]) (l2 := ds); [reflexivity|eapply y_expect; exact Hx|]. intros s2 R2.
  pose proof (rd_rest R2) as Hx2. rewrite Hx in Hx2. injection Hx2 as Hx2. symmetry in Hx2.
  eapply y_bind0; [reflexivity|]. unfold s_peek. rewrite Hx2.
  assert (is_c 123 (hd_error (ds ++ r)) = false) as ->.
  { destruct ds as [|d ds]; [discriminate|]. cbn. inversion Hd; subst. apply digit_of_16 in H1. unfold is_hex_digit, in_range in H1. lia. }
  eapply y_bind; [symmetry; apply app_nil_r|eapply y_hex_k; eauto|]. intros s3 R3.
  unfold from_u32_or, char_from_u32. fold (positional 16 ds).
  replace ((positional 16 ds <? 1114112) && negb (in_range 55296 57343 (positional 16 ds))) with true.
  - apply y_ret.
  - unfold scalar in Hs. unfold in_range. lia.
Qed.
Lemma y_quote_char q c s r : q = 0x27 \/ q = 0x22 -> rest s = quote_char q c ++ r -> yields (scan_string_literal_cp E) s (c, false) (quote_char q c).
Proof.
  intros Hq Hr. unfold scan_string_literal_cp, yields. cbn [scan_string_cp_n].
  match goal with |- exists s', ?m s = _ /\ _ => change (yields m s (c, false) (quote_char q c)) end.
  eapply y_bind0; [reflexivity|]. unfold s_peek2. rewrite Hr. unfold quote_char in *.
  assert (Esc : forall d, rest s = [backslash; d] ++ r -> is_single_escape_char d = true -> unescape d = c ->
    yields (consume;;; c0 <- consume_or UnexpectedEOS;; ret (unescape c0, false)) s (c, false) [backslash; d]).
  { intros d Hd H1 H2. eapply y_bind with (l1 := [backslash]) (l2 := [d]); [reflexivity|eapply y_consume; exact Hd|].
    intros s1 R1. pose proof (rd_rest R1) as Hx. rewrite Hd in Hx. injection Hx as Hx. symmetry in Hx.
    eapply y_bind; [symmetry; apply app_nil_r|eapply y_consume_or; exact Hx|]. intros. rewrite H2. apply y_ret. }
  assert (Uni : forall ds, length ds = 4%nat -> Forall (digit_of 16) ds -> positional 16 ds = c -> scalar c ->
    rest s = (backslash :: chr "u" :: ds) ++ r ->
    yields (c <- scan_unicode_esc_seq E;; ret (c, false)) s (c, false) (backslash :: chr "u" :: ds)).
  { intros ds H1 H2 H3 H4 H5. clear Esc Hr. subst c. eapply y_bind; [symmetry; apply app_nil_r|eapply y_unicode4; eauto; exact H5|]. intros. apply y_ret. }
  destruct ((c =? q) || (c =? backslash)) eqn:H1.
  { cbn [app hd_error tl]. change (backslash =? 92) with true. cbv iota.
    replace (is_single_escape_char c) with true.
    - apply Esc; auto. + unfold is_single_escape_char. unfold backslash in *. lia.
      + unfold unescape. unfold backslash in *.
        destruct (c =? 98) eqn:?; [lia|]. destruct (c =? 102) eqn:?; [lia|]. destruct (c =? 110) eqn:?; [lia|].
        destruct (c =? 114) eqn:?; [lia|]. destruct (c =? 116) eqn:?; [lia|]. destruct (c =? 118) eqn:?; [lia|]. reflexivity.
    - unfold is_single_escape_char. unfold backslash in *. lia. }
  destruct (c =? LF) eqn:H2.
  { cbn [app hd_error tl]. apply (Esc (chr "n")); auto. change (unescape (chr "n")) with 10. unfold LF in *. lia. }
  destruct (c =? CR) eqn:H3.
  { cbn [app hd_error tl]. apply (Esc (chr "r")); auto. change (unescape (chr "r")) with 13. unfold CR in *. lia. }
  destruct (c =? 8232) eqn:H4.
  { change (s2l "u2028") with (chr "u" :: [50; 48; 50; 56]) in *. cbn [app hd_error tl].
    apply (Uni [50;48;50;56]); auto.
    - repeat constructor; try (apply digit_of_16; reflexivity).
    - change (positional 16 [50; 48; 50; 56]) with 8232. lia.
    - unfold scalar. lia. }
  destruct (c =? 8233) eqn:H5.
  { change (s2l "u2029") with (chr "u" :: [50; 48; 50; 57]) in *. cbn [app hd_error tl].
    apply (Uni [50;48;50;57]); auto.
    - repeat constructor; try (apply digit_of_16; reflexivity).
    - change (positional 16 [50; 48; 50; 57]) with 8233. lia.
    - unfold scalar. lia. }
  cbn [app hd_error tl]. apply Bool.orb_false_iff in H1 as [H0 H1]. unfold backslash in H1. rewrite H1.
  replace (is_line_terminator c) with false by (unfold is_line_terminator; unfold LF, CR in *; lia).
  eapply y_bind; [symmetry; apply app_nil_r|eapply y_consume_or; exact Hr|]. intros. apply y_ret.
Qed.
Lemma quote_char_start q c : q = 0x27 \/ q = 0x22 -> exists d l, quote_char q c = d :: l /\ d <> q.
Proof.
  intros Hq. unfold quote_char, backslash, LF, CR.
  repeat match goal with |- context [if ?b then _ else _] => destruct b eqn:? end; eexists _, _; (split; [reflexivity|lia]).
Qed.
Lemma y_quoted q w s r : q = 0x27 \/ q = 0x22 -> rest s = concat (map (quote_char q) w) ++ q :: r ->
  yields (scan_until (fun c => c =? q) (scan_string_literal_cp E)) s (map (fun c => (c, false)) w) (concat (map (quote_char q) w)).
Proof.
  intros Hqq Hr. eapply y_until with (P := fun b l => snd b = false /\ l = quote_char q (fst b)) (r := q :: r); auto.
  - clear -Hqq. induction w as [|c w IH]; cbn [map]; [constructor|].
    destruct (quote_char_start c Hqq) as (d & l & Hd & Hne). rewrite Hd. constructor; auto. lia.
  - intros s3 [b b2] l r2 [Hb ->] Hr2. cbn in *. subst b2. eapply y_quote_char; eauto.
  - cbn. lia.
Qed.
Lemma quoted_token g s tr q w r : quiet s -> fresh s -> q = 0x27 \/ q = 0x22 ->
  rest s = tr ++ quoted q w ++ r -> trivia tr (quoted q w ++ r) ->
  scans s g (quoted q w) r TString (VStr w) (Some false).
Proof.
  intros Hq Hf Hqq Hr Ht. 
  assert (Hnt : no_trivia (quoted q w ++ r)).
  { cbn. unfold white_space, line_terminator, LF, CR. lia. }
  eapply scans_intro; eauto; [discriminate|]. intros s1 Hs1.
  set (body := map (quote_char q) w). assert (Hb : flat_map (quote_char q) w = concat body) by (apply flat_map_concat_map).
  unfold quoted in *. rewrite Hb in *. clear Hb.
  cbn [app] in Hs1. rewrite <- app_assoc in Hs1. cbn [app] in Hs1.
  set (vs := map (fun c => (c, false)) w).
  assert (Hv1 : map fst vs = w) by (unfold vs; rewrite map_map; cbn; apply map_id).
  assert (Hv2 : existsb snd vs = false) by (unfold vs; clear; induction w; cbn; auto).
  assert (Y : yields (scan_until (fun c => c =? q) (scan_string_literal_cp E)) (s_consume s1) vs (concat body)).
  { assert (Hs2 : rest (s_consume s1) = concat body ++ q :: r).
    { erewrite s_consume_rest; [|exact Hs1]. reflexivity. }
    eapply y_quoted; eauto. }
  exists (consume ;;; scan_until (fun c => c =? q) (scan_string_literal_cp E) ;;; expect_c q).
  split.
  - unfold scan_token, s_peek2. rewrite Hs1. cbn [hd_error app].
    assert (is_identifier_start E q = false) as ->.
    { destruct (is_identifier_start E q) eqn:Hi; auto. apply id_start_iff in Hi.
      exfalso. unfold id_start, ascii_letter in Hi. destruct Hi as [|[|[|Hi]]]; [lia..|].
      apply (us_ascii _ Hsane) in Hi; [unfold ascii_letter in Hi|]; lia. }
    replace ((q =? 34) || (q =? 39)) with true by lia.
    unfold scan_string_literal, bind, peek, gets, s_peek, consume_unwrap, consume, bind. rewrite Hs1. cbn [hd_error app is_c unwrap].
    replace ((q =? 39) || (q =? 34)) with true by lia. cbv beta iota. rewrite ?Hs1. cbn [hd_error unwrap]. unfold ret.
    destruct Y as (s2 & E2 & R2). rewrite E2. destruct (expect_c q s2); auto. rewrite Hv1, Hv2. reflexivity.
  - change (q :: concat body ++ [q]) with ([q] ++ concat body ++ [q]).
    eapply y_bind; [reflexivity|eapply y_consume; exact Hs1|]. intros s2 R2.
    assert (Hx : rest s2 = concat body ++ q :: r).
    { pose proof (rd_rest R2) as Hx. rewrite Hs1 in Hx. injection Hx as Hx. rewrite <- Hx. reflexivity. }
    eapply y_bind with (l1 := concat body) (l2 := [q]); [reflexivity| |].
    + eapply y_quoted; eauto.
    + intros s3 R3. eapply y_expect. pose proof (rd_rest R3) as Hy. rewrite Hx in Hy. apply app_inv_head in Hy. symmetry; exact Hy.
Qed.

(** ** Numbers *)
Definition nodigit (r : str) : Prop := stops not_digit r.
Lemma digit_shape c : digit_of 10 c <-> ascii_digit c.
Proof. rewrite <- digit_of_10. unfold is_decimal_digit, in_range, ascii_digit. lia. Qed.
Lemma nodigit_intro c r : ~ ascii_digit c -> nodigit (c :: r).
Proof. intros H. cbn. unfold not_digit. destruct (is_decimal_digit c) eqn:Hd; auto. exfalso. apply H. apply digit_shape, digit_of_10. auto. Qed.
Lemma y_digits t s l r : Forall (digit_of 10) l -> rest s = l ++ r -> nodigit r ->
  yields (scan_until not_digit (consume_or t)) s l l.
Proof. intros F Hr Hn. eapply y_chars; eauto. apply digits_10; auto. Qed.
Lemma y_exponent s el z r : exponent_part el z -> rest s = el ++ r -> nodigit r ->
  (el = [] -> match r with c :: _ => c <> chr "e" /\ c <> chr "E" | [] => True end) -> yields scan_exponent s el el.
Proof.
  intros He Hr Hn Hel. unfold scan_exponent. eapply y_bind0; [reflexivity|]. unfold s_peek. rewrite Hr.
  assert (G : forall e sg ds, e = chr "e" \/ e = chr "E" -> sg = [] \/ sg = [chr "+"] \/ sg = [chr "-"] ->
     ds <> [] -> Forall (digit_of 10) ds -> rest s = (e :: sg ++ ds) ++ r ->
     yields (e <- consume_unwrap ;; o' <- peek ;;
       sg <- (if is_c (chr "+") o' || is_c (chr "-") o' then c <- consume_unwrap ;; ret [c] else ret []) ;;
       ds <- scan_until not_digit (consume_or InvalidOrUnexpectedToken) ;; ret (e :: sg ++ ds)) s (e :: sg ++ ds) (e :: sg ++ ds)).
  { clear el He Hr Hel. intros e sg ds He Hsg Hne F Hr. cbn [app] in Hr.
    eapply y_bind with (l1 := [e]) (l2 := sg ++ ds); [reflexivity|eapply y_consume_unwrap; exact Hr|]. intros s1 R1.
    assert (Hr1 : rest s1 = sg ++ ds ++ r).
    { pose proof (rd_rest R1) as Hx. rewrite Hr in Hx. injection Hx as Hx. rewrite app_assoc. symmetry; exact Hx. }
    eapply y_bind0; [reflexivity|]. unfold s_peek. rewrite Hr1.
    eapply y_bind with (a := sg) (l1 := sg) (l2 := ds); [reflexivity| |].
    - destruct Hsg as [->|[->| ->]]; cbn [app hd_error].
      + destruct ds as [|d ds]; [congruence|]. cbn [app hd_error is_c]. inversion F; subst. apply digit_shape in H1. unfold ascii_digit in H1.
        replace ((d =? 43) || (d =? 45)) with false by lia. apply y_ret.
      + cbn [is_c]. change ((43 =? 43) || (43 =? 45)) with true. eapply y_bind; [symmetry; apply app_nil_r|eapply y_consume_unwrap; exact Hr1|]. intros; apply y_ret.
      + cbn [is_c]. change ((45 =? 43) || (45 =? 45)) with true. eapply y_bind; [symmetry; apply app_nil_r|eapply y_consume_unwrap; exact Hr1|]. intros; apply y_ret.
    - intros s2 R2. eapply y_bind; [symmetry; apply app_nil_r| |intros; apply y_ret].
      eapply y_digits; eauto. pose proof (rd_rest R2) as Hx. rewrite Hr1 in Hx. apply app_inv_head in Hx. symmetry; exact Hx. }
  destruct He as [|e ds H1 H2 H3|e ds H1 H2 H3|e ds H1 H2 H3].
  - specialize (Hel eq_refl). cbn [app]. destruct r as [|c r]; cbn [hd_error is_c orb]; [apply y_ret|].
    replace ((c =? 101) || (c =? 69)) with false by lia. apply y_ret.
  - cbn [app hd_error is_c]. replace ((e =? 101) || (e =? 69)) with true by lia. apply (G e [] ds); auto.
  - cbn [app hd_error is_c]. replace ((e =? 101) || (e =? 69)) with true by lia. apply (G e [chr "+"] ds); auto.
  - cbn [app hd_error is_c]. replace ((e =? 101) || (e =? 69)) with true by lia. apply (G e [chr "-"] ds); auto.
Qed.
Lemma f64_parse_fwd ip fl fp el z : Forall (digit_of 10) ip -> fraction_part fl fp -> exponent_part el z -> ip ++ fp <> [] ->
  f64_parse (ip ++ fl ++ el) = Some (mkNum (positional 10 (ip ++ fp)) (z - Z.of_nat (length fp))).
Proof.
  intros Hip Hf Hex Hne. unfold f64_parse.
  assert (Hnd : match fl ++ el with [] => True | c :: _ => is_decimal_digit c = false end).
  { destruct Hf; [|reflexivity]. destruct Hex as [|e ds [->| ->]|e ds [->| ->]|e ds [->| ->]]; cbn; auto. }
  rewrite (take_digits_app _ Hip Hnd). cbv beta iota zeta.
  assert (Hfd : Forall (digit_of 10) fp) by (destruct Hf; auto).
  assert (H2 : match fl ++ el with
                | [] => ([], [])
                | c :: r => if c =? 46 then take_digits r else ([], fl ++ el) end = (fp, el)).
  { destruct Hf as [|ds F].
    - cbn [app]. destruct Hex as [|e ds [->| ->]|e ds [->| ->]|e ds [->| ->]]; reflexivity.
    - cbn [app]. change (46 =? 46) with true. apply take_digits_app; auto.
      destruct Hex as [|e ds' [->| ->]|e ds' [->| ->]|e ds' [->| ->]]; cbn; auto. }
  unfold str in *. rewrite H2. clear H2 Hnd. cbv beta iota zeta.
  assert (HF : Forall (digit_of 10) (ip ++ fp)) by (apply Forall_app; auto).
  destruct (ip ++ fp) as [|d m] eqn:Hm; [congruence|]. rewrite (dec_value_positional HF). clear Hm Hne.
  assert (Tk : forall ds, Forall (digit_of 10) ds -> take_digits ds = (ds, [])).
  { intros ds F. rewrite <- (app_nil_r ds) at 1. apply take_digits_app; auto. }
  destruct Hex as [|e ds He Hn Hds|e ds He Hn Hds|e ds He Hn Hds].
  - f_equal.
  - replace ((e =? 101) || (e =? 69)) with true by lia. destruct ds as [|c ds]; [congruence|].
    inversion Hds as [|? ? Hc Hd2]; subst. apply digit_shape in Hc. unfold ascii_digit in Hc.
    replace (c =? 43) with false by lia. replace (c =? 45) with false by lia. rewrite (Tk _ Hds), (dec_value_positional Hds). solve [reflexivity | repeat f_equal; lia].
  - replace ((e =? 101) || (e =? 69)) with true by lia. cbv iota. change (43 =? 43) with true. cbv iota.
    rewrite (Tk _ Hds), (dec_value_positional Hds). destruct ds; [congruence|]. solve [reflexivity | repeat f_equal; lia].
  - replace ((e =? 101) || (e =? 69)) with true by lia. cbv iota. change (45 =? 43) with false. change (45 =? 45) with true. cbv iota.
    rewrite (Tk _ Hds), (dec_value_positional Hds). destruct ds; [congruence|]. solve [reflexivity | repeat f_equal; lia].
Qed.
Lemma y_fraction s ip fp el z r : Forall (digit_of 10) ip -> Forall (digit_of 10) fp -> exponent_part el z -> ip ++ fp <> [] ->
  rest s = chr "." :: fp ++ el ++ r -> nodigit r ->
  (el = [] -> match r with c :: _ => c <> chr "e" /\ c <> chr "E" | [] => True end) ->
  yields (scan_fractional_part ip) s (mkNum (positional 10 (ip ++ fp)) (z - Z.of_nat (length fp))) (chr "." :: fp ++ el).
Proof.
  intros Hip Hfp Hel Hne Hr Hn Hs. unfold scan_fractional_part.
  eapply y_bind with (l1 := [chr "."]) (l2 := fp ++ el); [reflexivity|eapply y_expect; exact Hr|]. intros s1 R1.
  assert (Hr1 : rest s1 = fp ++ el ++ r).
  { pose proof (rd_rest R1) as Hx. rewrite Hr in Hx. injection Hx as Hx. symmetry; exact Hx. }
  assert (Hnel : nodigit (el ++ r)).
  { destruct Hel as [|e ds [->| ->]|e ds [->| ->]|e ds [->| ->]]; cbn; auto. }
  eapply y_bind; [reflexivity|eapply y_digits; eauto|]. intros s2 R2.
  assert (Hr2 : rest s2 = el ++ r).
  { pose proof (rd_rest R2) as Hx. rewrite Hr1 in Hx. apply app_inv_head in Hx. symmetry; exact Hx. }
  eapply y_bind; [symmetry; apply app_nil_r|eapply y_exponent; eauto|]. intros s3 R3. cbv beta.
  pose proof (f64_parse_fwd Hip (fp_dot fp Hfp) Hel Hne) as Hp. cbn [app] in Hp. unfold str in *. rewrite Hp. apply y_ret.
Qed.
Lemma y_number s ip fl fp el z r : Forall (digit_of 10) ip -> fraction_part fl fp -> exponent_part el z -> ip ++ fp <> [] ->
  no_leading_zero ip -> (ip = [chr "0"] -> fl = [] -> el = []) -> decimal_ends fl el r ->
  rest s = (ip ++ fl ++ el) ++ r ->
  yields scan_number s (mkNum (positional 10 (ip ++ fp)) (z - Z.of_nat (length fp))) (ip ++ fl ++ el).
Proof.
  intros Hip Hf Hel Hne Hz Hze Hend Hr.
  assert (Hn : nodigit r). { destruct r as [|c r]; [exact I|]. apply nodigit_intro. cbn in Hend. tauto. }
  assert (Hs : el = [] -> match r with c :: _ => c <> chr "e" /\ c <> chr "E" | [] => True end).
  { intros _. destruct r as [|c r]; auto. cbn in Hend. unfold ascii_letter in Hend. lia. }
  assert (Hnel : nodigit (el ++ r)).
  { destruct Hel as [|e ds [->| ->]|e ds [->| ->]|e ds [->| ->]]; cbn; auto. }
  assert (Hnfl : nodigit (fl ++ el ++ r)).
  { destruct Hf; [exact Hnel|]. reflexivity. }
  rewrite <- !app_assoc in Hr.
  unfold scan_number. eapply y_bind0; [reflexivity|]. unfold s_peek2. rewrite Hr.
  destruct ip as [|c ip].
  { destruct Hf as [|ds Hds]; [cbn in Hne; congruence|]. cbn [app hd_error tl is_c andb].
    change (46 =? 48) with false. cbn [andb]. change (is_decimal_digit 46) with false. cbv iota. change (46 =? 46) with true. cbv iota.
    eapply (@y_fraction s [] ds el z r); auto. }
  inversion Hip as [|? ? Hc Hip']; subst. pose proof Hc as Hcd. apply digit_of_10 in Hcd.
  cbn [app hd_error tl is_c andb].
  (* the general decimal branch *)
  assert (Gen : yields (v <- scan_until not_digit (consume_or UnexpectedEOS) ;;
      o <- peek ;;
      if is_c (chr ".") o then scan_fractional_part v
      else ex <- scan_exponent ;;
           some_or InvalidOrUnexpectedToken (f64_parse (v ++ ex))) s
      (mkNum (positional 10 ((c :: ip) ++ fp)) (z - Z.of_nat (length fp))) ((c :: ip) ++ fl ++ el)).
  { eapply y_bind; [reflexivity|eapply y_digits; eauto|]. intros s1 R1.
    assert (Hr1 : rest s1 = fl ++ el ++ r).
    { pose proof (rd_rest R1) as Hx. rewrite Hr in Hx. apply app_inv_head in Hx. symmetry; exact Hx. }
    eapply y_bind0; [reflexivity|]. unfold s_peek. rewrite Hr1.
    destruct Hf as [|ds Hds].
    - cbn [app] in *.
      assert (is_c 46 (hd_error (el ++ r)) = false) as ->.
      { destruct Hel as [|e ds [->| ->]|e ds [->| ->]|e ds [->| ->]]; try reflexivity. cbn [app]. destruct r as [|d r]; [reflexivity|]. cbn in Hend |- *.
        destruct (d =? 46) eqn:Hd; auto. exfalso. destruct Hend as (_ & _ & Hend). apply Hend; auto. lia. }
      eapply y_bind; [symmetry; apply app_nil_r|eapply y_exponent; eauto|]. intros s2 R2.
      pose proof (f64_parse_fwd Hip fp_none Hel Hne) as Hp. cbn [app] in Hp. unfold str in *. rewrite Hp. apply y_ret.
    - cbn [app hd_error is_c]. change (46 =? 46) with true. cbv iota. exact (@y_fraction s1 (c :: ip) ds el z r Hip Hds Hel Hne Hr1 Hn Hs). }
  destruct (c =? 48) eqn:H0; cbn [andb].
  2:{ rewrite Hcd. exact Gen. }
  assert (c = 48) as -> by lia. assert (ip = []) as -> by (destruct ip; auto; cbn in Hz; congruence).
  cbn [app] in *.
  destruct Hf as [|ds Hds].
  - specialize (Hze eq_refl eq_refl). subst el. cbn [app] in *. inversion Hel; subst.
    destruct r as [|d r]; cbn [hd_error is_c orb].
    + rewrite Hcd. exact Gen.
    + cbn in Hend. unfold ascii_letter in Hend.
      replace ((d =? 98) || (d =? 66)) with false by lia. replace ((d =? 111) || (d =? 79)) with false by lia. replace ((d =? 120) || (d =? 88)) with false by lia.
      assert (d <> 46) by (intros ->; destruct Hend as (_ & _ & Hend); apply Hend; auto).
      replace (negb (d =? 46)) with true by lia.
      eapply y_bind; [symmetry; apply app_nil_r|eapply (@y_digits _ s [48] (d :: r)); eauto|intros s1 R1; apply y_ret].
  - cbn [app hd_error is_c orb]. change (46 =? 98) with false. change (46 =? 66) with false. change (46 =? 111) with false. change (46 =? 79) with false.
    change (46 =? 120) with false. change (46 =? 88) with false. change (46 =? 46) with true. cbn [orb negb]. rewrite Hcd. exact Gen.
Qed.
Lemma number_scans g s tr l r x : quiet s -> fresh s -> l <> [] ->
  (exists c l', l ++ r = c :: l' /\ (ascii_digit c \/ c = chr "." /\ exists d l'', l' = d :: l'' /\ ascii_digit d)) ->
  rest s = tr ++ l ++ r -> trivia tr (l ++ r) ->
  (forall s1, rest s1 = l ++ r -> yields scan_number s1 x l) -> scans s g l r TNumeric (VNum x) None.
Proof.
  intros Hq Hf Hl (c & l' & Hc & Hd) Hr Ht Hy.
  eapply scans_intro; eauto.
  - rewrite Hc. cbn. unfold ascii_digit in Hd. unfold white_space, line_terminator, LF, CR. lia.
  - intros s1 Hs1. exists (scan_number ;;; ret tt). destruct (Hy s1 Hs1) as (s2 & E2 & R2). split.
    + unfold scan_token, s_peek2. rewrite Hs1, Hc. cbn [hd_error tl].
      assert (is_identifier_start E c = false) as ->.
      { destruct (is_identifier_start E c) eqn:Hi; auto. apply id_start_iff in Hi.
        exfalso. unfold id_start, ascii_letter, ascii_digit in *. destruct Hi as [|[|[|Hi]]]; [lia..|].
        apply (us_ascii _ Hsane) in Hi; [unfold ascii_letter in Hi|]; lia. }
      replace ((c =? 34) || (c =? 39)) with false by (unfold ascii_digit in Hd; lia).
      assert (G : scan_numeric_literal E s1 = (scan_number;;; ret tt;;; mk_token E TNumeric (VNum x) None None None None None None) s1).
      { unfold scan_numeric_literal, bind, ret. rewrite E2. reflexivity. }
      destruct Hd as [Hd|[-> (d & l'' & -> & Hd)]].
      * replace (c =? 46) with false by (unfold ascii_digit in Hd; lia). cbn [andb].
        apply digit_shape, digit_of_10 in Hd. rewrite Hd. unfold bind in *. rewrite E2 in *. exact G.
      * apply digit_shape, digit_of_10 in Hd. cbn [hd_error]. rewrite Hd. change (46 =? 46) with true. cbn [andb].
        unfold bind in *. rewrite E2 in *. exact G.
    + exists s2. unfold bind, ret. rewrite E2. auto.
Qed.
Lemma decimal_token g s tr ip fl fp el z r : quiet s -> fresh s ->
  Forall (digit_of 10) ip -> fraction_part fl fp -> exponent_part el z -> ip ++ fp <> [] ->
  no_leading_zero ip -> (ip = [chr "0"] -> fl = [] -> el = []) -> decimal_ends fl el r ->
  rest s = tr ++ (ip ++ fl ++ el) ++ r -> trivia tr ((ip ++ fl ++ el) ++ r) ->
  scans s g (ip ++ fl ++ el) r TNumeric (VNum (mkNum (positional 10 (ip ++ fp)) (z - Z.of_nat (length fp)))) None.
Proof.
  intros Hq Hf Hip Hfl Hel Hne Hz Hze Hend Hr Ht. eapply number_scans; eauto.
  - destruct ip; [|discriminate]. destruct Hfl; [cbn in Hne; congruence|discriminate].
  - destruct ip as [|c ip].
    + destruct Hfl as [|[|d ds] Hds]; [cbn in Hne; congruence|cbn in Hne; congruence|]. cbn [app].
      eexists _, _. split; [reflexivity|]. right. split; auto. eexists _, _. split; [reflexivity|]. inversion Hds; subst. apply digit_shape; auto.
    + cbn [app]. eexists _, _. split; [reflexivity|]. left. inversion Hip; subst. apply digit_shape; auto.
  - intros s1 Hs1. eapply y_number; eauto.
Qed.
Lemma radix_token g s tr p b ds r : quiet s -> fresh s ->
  In (p, b) [(chr "b", 2); (chr "B", 2); (chr "o", 8); (chr "O", 8); (chr "x", 16); (chr "X", 16)] ->
  ds <> [] -> Forall (digit_of b) ds -> positional b ds < 2 ^ 63 -> radix_ends r ->
  rest s = tr ++ (chr "0" :: p :: ds) ++ r -> trivia tr ((chr "0" :: p :: ds) ++ r) ->
  scans s g (chr "0" :: p :: ds) r TNumeric (VNum (mkNum (positional b ds) 0)) None.
Proof.
  intros Hq Hf Hin Hne Hds Hb Hend Hr Ht. eapply number_scans; eauto; [discriminate| |].
  - cbn [app]. eexists _, _. split; [reflexivity|]. left. unfold ascii_digit; lia.
  - intros s1 Hs1. unfold scan_number. eapply y_bind0; [reflexivity|]. unfold s_peek2. rewrite Hs1. cbn [app hd_error tl is_c].
    change (48 =? 48) with true. cbn [andb].
    assert (G : yields (scan_radix_literal b) s1 (mkNum (positional b ds) 0) (chr "0" :: p :: ds)).
    { unfold scan_radix_literal. eapply y_bind with (l1 := [chr "0"]) (l2 := p :: ds); [reflexivity|eapply y_expect; exact Hs1|]. intros s2 R2.
      assert (Hr2 : rest s2 = p :: ds ++ r).
      { pose proof (rd_rest R2) as Hx. rewrite Hs1 in Hx. injection Hx as Hx. symmetry; exact Hx. }
      eapply y_bind with (l1 := [p]) (l2 := ds); [reflexivity|eapply y_consume; exact Hr2|]. intros s3 R3.
      assert (Hr3 : rest s3 = ds ++ r).
      { pose proof (rd_rest R3) as Hx. rewrite Hr2 in Hx. injection Hx as Hx. symmetry; exact Hx. }
      assert (H16 : b = 2 \/ b = 8 \/ b = 16).
      { cbn in Hin. intuition congruence. }
      eapply y_bind; [symmetry; apply app_nil_r|eapply y_chars with (r := r); eauto|].
      - eapply Forall_impl; [|exact Hds]. intros c (v & Hv & Hlt). cbn beta.
        assert (digit_of 16 c) as Hc by (exists v; split; auto; lia). apply digit_of_16 in Hc. rewrite Hc. reflexivity.
      - destruct r as [|c r]; [exact I|]. cbn in Hend |- *. destruct (is_hex_digit c) eqn:Hh; auto. exfalso. apply Hend. apply digit_of_16; auto.
      - intros s4 R4. cbv beta. unfold i64_from_str_radix. destruct ds as [|d ds]; [congruence|].
        rewrite i64_digits_total; auto; [apply y_ret|lia|]. unfold positional in Hb. unfold i64_max. change (2 ^ 63) with 0x8000000000000000 in Hb. lia. }
    cbn in Hin. destruct Hin as [H|[H|[H|[H|[H|[H|[]]]]]]]; injection H as <- <-; exact G.
Qed.
End Fwd.
