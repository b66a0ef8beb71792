(** * GramTempl: regular expressions and templates scan to the tokens they denote (proofs). *)
From Verif Require Import Base Codepoint Punct Token Scanner SpecLex SpecScan Hoare ScanBase ScanTrivia ScanToken ScanTokens2 ScanNext.
From Verif Require Import ScanSim LexFacts ScanForward SpecLayout.
From Coq Require Import ZifyBool ZifyN ZifyNat.
Set Implicit Arguments.

Section Templ.
Context (E : env).
Hypothesis Hsane : ucd_sane E.

(** The token is scanned after the trivia. *)
Lemma after_trivia g s tr l r : quiet s -> fresh s -> rest s = tr ++ l ++ r -> trivia tr (l ++ r) -> no_trivia (l ++ r) ->
  exists s1, s_next E g s = scan_token E g s1 /\ rest s1 = l ++ r /\ curly s1 = curly s /\ record_raw s1 = false /\ raw_string s1 = [].
Proof.
  intros [Q1 Q2] Hf Hr Ht Hn. unfold s_next. unfold fresh in Hf. rewrite Hf.
  destruct (scan_comments_spec (set_newline false s)) as (s1 & l1 & B1 & R1 & T1 & N1).
  assert (Hx : rest s1 = l ++ r).
  { eapply trivia_unique; eauto. rewrite <- (rd_rest R1). cbn. auto. }
  unfold bind at 1 2. rewrite B1. unfold modify at 1. exists (s_start_new_token s1). cbn.
  destruct R1 as [A1 A2 A3 A4 A5 A6 A7 A8 A9]. cbn in *. splits; auto; try congruence. rewrite A9, Q1. auto.
Qed.

(** ** Regular expressions *)
Lemma reads_after s l r s' : reads s l s' -> rest s = l ++ r -> rest s' = r.
Proof. intros R H. pose proof (rd_rest R) as Hx. rewrite H in Hx. apply app_inv_head in Hx. auto. Qed.
Lemma regexp_one n s c x v l : c <> chr "[" -> c <> backslash -> c <> chr "/" -> rest s = c :: x ->
  (forall s', rest s' = x -> yields (scan_regexp_loop n) s' v l) -> yields (scan_regexp_loop (S n)) s (c :: v) (c :: l).
Proof.
  intros H1 H2 H3 Hr K. cbn [scan_regexp_loop]. eapply y_bind0; [reflexivity|]. unfold s_peek. rewrite Hr. cbn [hd_error].
  replace (c =? chr "[") with false by lia. replace (c =? 92) with false by (unfold backslash in *; lia). replace (c =? chr "/") with false by lia.
  eapply y_bind with (l1 := [c]) (l2 := l); [reflexivity|eapply y_consume_or; exact Hr|]. intros s1 R1.
  pose proof (@reads_after _ [c] x _ R1 Hr) as Hx.
  eapply y_bind; [symmetry; apply app_nil_r| |intros; apply y_ret]. apply K; auto.
Qed.
Lemma y_regexp_loop ps : Forall regexp_text ps -> forall n s r, (length (rest s) < n)%nat -> rest s = concat ps ++ chr "/" :: r ->
  yields (scan_regexp_loop n) s (concat ps) (concat ps).
Proof.
  induction 1 as [|p ps Hp Hps IH]; intros [|n] s r Hn Hr; try lia.
  { cbn [scan_regexp_loop]. eapply y_bind0; [reflexivity|]. unfold s_peek. rewrite Hr. cbn [concat app hd_error]. apply y_ret. }
  destruct Hp as [c H1 H2 H3 H4|c H4|cs Hcs].
  - cbn [concat app] in *. eapply regexp_one; eauto. intros s' Hs'. eapply IH; eauto. rewrite Hs'. rewrite Hr in Hn. cbn in Hn. lia.
  - cbn [concat app] in *. cbn [scan_regexp_loop]. eapply y_bind0; [reflexivity|]. unfold s_peek. rewrite Hr. cbn [hd_error].
    change (backslash =? chr "[") with false. change (backslash =? 92) with true. cbv iota.
    eapply y_bind with (l1 := [backslash]) (l2 := c :: concat ps); [reflexivity|eapply y_consume_or; exact Hr|]. intros s1 R1.
    pose proof (@reads_after s [backslash] _ _ R1 Hr) as Hx.
    eapply y_bind with (l1 := [c]) (l2 := concat ps); [reflexivity|eapply y_consume_or; exact Hx|]. intros s2 R2.
    pose proof (@reads_after s1 [c] _ _ R2 Hx) as Hx2.
    eapply y_bind; [symmetry; apply app_nil_r| |intros; apply y_ret]. eapply IH; eauto. rewrite Hx2. rewrite Hr in Hn. cbn in Hn |- *. lia.
  - cbn [concat] in *. rewrite <- !app_assoc in *. cbn [app] in *. rewrite <- app_assoc in *. cbn [app] in *.
    cbn [scan_regexp_loop]. eapply y_bind0; [reflexivity|]. unfold s_peek. rewrite Hr. cbn [hd_error]. change (chr "[" =? chr "[") with true. cbv iota.
    change (chr "[" :: cs ++ chr "]" :: concat ps) with ((chr "[" :: cs) ++ chr "]" :: concat ps).
    eapply y_bind; [reflexivity| |].
    + eapply y_chars with (r := chr "]" :: concat ps ++ chr "/" :: r); [|exact Hr|reflexivity].
      constructor; [reflexivity|]. eapply Forall_impl; [|exact Hcs]. cbn. intros c (H & _). lia.
    + intros s1 R1. pose proof (@reads_after s (chr "[" :: cs) _ _ R1 Hr) as Hx.
      eapply y_bind; [symmetry; apply app_nil_r| |intros; apply y_ret].
      rewrite Hr in Hn. cbn [length] in Hn. rewrite app_length in Hn. cbn [length] in Hn.
      destruct n as [|n]; [lia|]. eapply regexp_one; [discriminate|discriminate|discriminate|exact Hx|].
      intros s' Hs'. eapply IH; eauto. rewrite Hs'. lia.
Qed.
Lemma regexp_first ps : Forall regexp_text ps -> ps <> [] -> exists c x, concat ps = c :: x /\ c <> chr "/".
Proof.
  intros H Hne. destruct H as [|p ps Hp Hps]; [congruence|]. destruct Hp as [c H1 H2 H3 H4|c H4|cs Hcs]; cbn.
  - eauto. - eexists _, _. split; [reflexivity|discriminate]. - eexists _, _. split; [reflexivity|discriminate].
Qed.
Lemma regexp_no_trivia ps x : Forall regexp_text ps -> ps <> [] -> hd_error (concat ps) <> Some (chr "*") -> no_trivia (chr "/" :: concat ps ++ x).
Proof.
  intros H Hne Hst. destruct (regexp_first H Hne) as (c & y & Hc & Hs). rewrite Hc in *. cbn in Hst. cbn.
  unfold white_space, line_terminator, LF, CR. splits; try lia. intros _. split; congruence.
Qed.
Definition runs_to (s : sst) (g : lexgoal) (r : str) (P : token -> Prop) : Prop :=
  exists t s', s_next E g s = ROk t s' /\ rest s' = r /\ P t.
Lemma regexp_token s tr ps f r : quiet s -> fresh s -> Forall regexp_text ps -> ps <> [] -> hd_error (concat ps) <> Some (chr "*") ->
  Forall (fun c => id_continue E c /\ c <> backslash /\ ~ line_terminator c) f -> word_ends E r ->
  rest s = tr ++ (chr "/" :: concat ps ++ chr "/" :: f) ++ r -> trivia tr ((chr "/" :: concat ps ++ chr "/" :: f) ++ r) ->
  runs_to s GRegExp r (fun t => ttype t = TRegExp /\ tval t = VStr [] /\ tpattern t = Some (concat ps) /\ tflags t = Some f).
Proof.
  intros Hq Hf Hps Hne Hst Hfl He Hr Ht.
  destruct (@after_trivia GRegExp s tr (chr "/" :: concat ps ++ chr "/" :: f) r) as (s1 & Hn & Hs1 & _); auto.
  { cbn [app]. rewrite <- app_assoc. apply regexp_no_trivia; auto. }
  unfold runs_to. rewrite Hn. clear Hn Hr Ht Hq Hf s. cbn [app] in Hs1. rewrite <- app_assoc in Hs1. cbn [app] in Hs1.
  assert (Ht : scan_token E GRegExp s1 = scan_regexp_literal E s1).
  { unfold scan_token, s_peek2. rewrite Hs1. cbn [hd_error]. 
    assert (is_identifier_start E (chr "/") = false) as ->.
    { destruct (is_identifier_start E (chr "/")) eqn:Hi; auto. apply id_start_iff in Hi. unfold id_start, ascii_letter in Hi.
      destruct Hi as [Hi|[Hi|[Hi|Hi]]]; [lia..|]. apply (us_ascii _ Hsane) in Hi; [unfold ascii_letter in Hi|]; lia. }
    change ((47 =? 34) || (47 =? 39)) with false. change (is_decimal_digit 47) with false. change (47 =? chr ".") with false. cbn [andb orb].
    reflexivity. }
  rewrite Ht. clear Ht.
  set (m := (p <- scan_regexp_body ;; f <- scan_regexp_flags E ;; ret (p, f))).
  assert (Y : yields m s1 (concat ps, f) (chr "/" :: concat ps ++ chr "/" :: f)).
  { unfold m. change (chr "/" :: concat ps ++ chr "/" :: f) with ((chr "/" :: concat ps) ++ [chr "/"] ++ f). rewrite app_assoc.
    eapply y_bind; [reflexivity| |].
    - unfold scan_regexp_body. change ((chr "/" :: concat ps) ++ [chr "/"]) with ([chr "/"] ++ concat ps ++ [chr "/"]).
      eapply y_bind; [reflexivity|eapply y_expect; exact Hs1|]. intros s2 R2. pose proof (@reads_after s1 [chr "/"] _ _ R2 Hs1) as Hs2.
      eapply y_bind0; [reflexivity|]. unfold s_peek. rewrite Hs2. destruct (regexp_first Hps Hne) as (c & y & Hc & Hs).
      assert (is_c (chr "*") (hd_error (concat ps ++ chr "/" :: f ++ r)) = false) as ->.
      { rewrite Hc in *. cbn in Hst |- *. destruct (c =? 42) eqn:K; auto. exfalso. apply Hst. f_equal. lia. }
      eapply y_bind; [reflexivity| |].
      + destruct (@y_regexp_loop ps Hps (S (length (rest s2))) s2 (f ++ r)) as (s3 & X1 & X2); auto. exists s3. split; eauto.
      + intros s3 R3. pose proof (@reads_after s2 (concat ps) _ _ R3 Hs2) as Hs3.
        eapply y_bind; [symmetry; apply app_nil_r|eapply y_expect; exact Hs3|]. intros. apply y_ret.
    - intros s4 R4. assert (Hs4 : rest s4 = f ++ r).
      { eapply (@reads_after s1); [exact R4|]. rewrite Hs1. cbn [app]. rewrite <- app_assoc. reflexivity. }
      eapply y_bind; [symmetry; apply app_nil_r| |intros; apply y_ret]. unfold scan_regexp_flags.
      assert (Hcc : concat (map (fun c => [c]) f) = f) by (clear; induction f; cbn; congruence).
      rewrite <- Hcc at 2. eapply y_until with (P := fun b l => l = [b] /\ b <> backslash) (r := r).
      + clear -Hfl. induction Hfl as [|d v (Hd & Hb & _) Hv IH]; cbn; constructor; auto.
        unfold ident_stop. replace (d =? 92) with false by (unfold backslash in *; lia). apply id_continue_iff in Hd; auto. rewrite Hd. reflexivity.
      + intros s2 b l r2 [-> Hbb] Hr2. unfold scan_identifier_cp. eapply y_bind; [symmetry; apply app_nil_r|eapply y_consume_unwrap; exact Hr2|].
        intros s3 _. replace (b =? 92) with false by (unfold backslash in *; lia). apply y_ret.
      + rewrite Hcc. exact Hs4.
      + destruct r as [|d r']; [exact I|]. cbn in He |- *. destruct He as [He1 He2]. unfold ident_stop.
        replace (d =? 92) with false by (unfold backslash in *; lia). cbn [negb andb].
        destruct (is_identifier_continue E d) eqn:Hi; auto. exfalso. apply He1. apply id_continue_iff; auto. }
  destruct Y as (s2 & X1 & X2).
  assert (Hnz : current s2 <> 0) by (eapply reads_nonzero; eauto; discriminate).
  assert (Hs2 : rest s2 = r). { eapply (@reads_after s1); [exact X2|]. rewrite Hs1. cbn [app]. rewrite <- app_assoc. reflexivity. }
  unfold scan_regexp_literal. unfold m in X1. unfold bind in X1 |- *.
  destruct (scan_regexp_body s1) as [p s3| | |]; try discriminate. destruct (scan_regexp_flags E s3) as [f' s4| | |]; try discriminate.
  unfold ret in X1. injection X1 as -> -> ->. unfold mk_token. replace (current s2 =? 0) with false by lia.
  eexists _, _. split; [reflexivity|]. cbn. auto.
Qed.

(** ** Templates *)
Lemma template_first v w r : template_text v w r -> w <> [] -> exists c x, w = c :: x /\ template_stop c (hd_error (x ++ r)) = false.
Proof.
  intros H Hne. destruct H as [|c v w r H1 H2 H3 H4 H|c v w r H1 H2 H|e x v w r He H]; [congruence|..]; eexists _, _; (split; [reflexivity|]);
    unfold template_stop; [|reflexivity|reflexivity].
  replace (c =? chr "`") with false by lia. cbn [orb]. destruct (c =? chr "$") eqn:K; auto. cbn [andb].
  assert (Hc : c = chr "$") by lia. specialize (H4 Hc). destruct (hd_error (w ++ r)) as [d|]; auto. cbn. destruct (d =? 123) eqn:Kd; [exfalso; apply H4; f_equal; lia|reflexivity].
Qed.
Lemma y_template v w q : template_text v w q -> forall n s r, (length (rest s) < n)%nat -> rest s = w ++ q ++ r -> q <> [] ->
  match q ++ r with c :: x => template_stop c (hd_error x) = true | [] => False end ->
  yields (scan2_until_n n template_stop (scan_template_char E)) s v w.
Proof.
  induction 1 as [q|c v w q H1 H2 H3 H4 H IH|c v w q H1 H2 H IH|e x v w q He H IH]; intros [|n] s r Hn Hr Hq Hst; try lia; cbn [scan2_until_n].
  - eapply y_bind0; [reflexivity|]. unfold s_peek2. rewrite Hr. cbn [app]. destruct (q ++ r) as [|c x]; [contradiction|]. cbn [hd_error tl].
    cbv beta iota. rewrite Hst. apply y_ret.
  - eapply y_bind0; [reflexivity|]. unfold s_peek2. rewrite Hr. cbn [app hd_error tl]. cbv beta iota.
    assert (template_stop c (hd_error (w ++ q ++ r)) = false) as ->.
    { unfold template_stop. replace (c =? chr "`") with false by lia. cbn [orb]. destruct (c =? chr "$") eqn:K; auto. cbn [andb].
      assert (Hc : c = chr "$") by lia. specialize (H4 Hc). rewrite app_assoc. destruct (w ++ q) as [|d z] eqn:Hwq; [apply app_eq_nil in Hwq as [_ ->]; congruence|].
      cbn in H4 |- *. destruct (d =? 123) eqn:Kd; [exfalso; apply H4; f_equal; lia|reflexivity]. }
    eapply y_bind with (l1 := [c]) (l2 := w); [reflexivity| |].
    + unfold scan_template_char. eapply y_bind0; [reflexivity|]. unfold s_peek2. rewrite Hr. cbn [app hd_error tl]. cbv beta iota.
      replace (c =? 92) with false by (unfold backslash in *; lia). cbn [In] in H3. unfold CR in *.
      destruct (is_line_terminator c) eqn:Hl.
      * assert (c = 10) as -> by (unfold is_line_terminator in Hl; lia).
        eapply y_bind; [symmetry; apply app_nil_r|eapply y_consume; exact Hr|]. intros. apply y_ret.
      * eapply y_consume_or; exact Hr.
    + intros s1 R1. pose proof (@reads_after s [c] _ _ R1 Hr) as Hs1. eapply y_bind; [symmetry; apply app_nil_r| |intros; apply y_ret].
      eapply IH; eauto. rewrite Hs1. rewrite Hr in Hn. cbn [app length] in Hn. clear - Hn. change (length (w ++ q ++ r) < n)%nat. lia.
  - eapply y_bind0; [reflexivity|]. unfold s_peek2. rewrite Hr. cbn [app hd_error tl]. cbv beta iota.
    change (template_stop backslash (Some c)) with false. cbv iota.
    eapply y_bind with (l1 := [backslash; c]) (l2 := w); [reflexivity| |].
    + unfold scan_template_char. eapply y_bind0; [reflexivity|]. unfold s_peek2. rewrite Hr. cbn [app hd_error tl]. cbv beta iota.
      change (backslash =? 92) with true. cbv iota. replace (is_line_terminator c) with false by (unfold is_line_terminator; unfold line_terminator, LF, CR in H2; lia).
      let v := eval vm_compute in (s2l "bfnrtvxu0123456789") in change (s2l "bfnrtvxu0123456789") with v in H1. cbn [In] in H1.
      replace ((c =? chr "b") || (c =? chr "f") || (c =? chr "v") || (c =? chr "n") || (c =? chr "r") || (c =? chr "t")) with false by lia.
      replace (c =? chr "x") with false by lia. replace (c =? chr "u") with false by lia.
      eapply y_bind with (l1 := [backslash]) (l2 := [c]); [reflexivity|eapply y_consume; exact Hr|]. intros s1 R1.
      pose proof (@reads_after s [backslash] _ _ R1 Hr) as Hs1. eapply y_consume_or; exact Hs1.
    + intros s1 R1. pose proof (@reads_after s [backslash; c] _ _ R1 Hr) as Hs1. eapply y_bind; [symmetry; apply app_nil_r| |intros; apply y_ret].
      eapply IH; eauto. rewrite Hs1. rewrite Hr in Hn. cbn [app length] in Hn. clear - Hn. change (length (w ++ q ++ r) < n)%nat. lia.
  - eapply y_bind0; [reflexivity|]. unfold s_peek2. rewrite Hr. cbn [app hd_error tl]. cbv beta iota.
    change (template_stop backslash (Some e)) with false. cbv iota.
    eapply y_bind with (l1 := [backslash; e]) (l2 := w); [reflexivity| |].
    + unfold scan_template_char. eapply y_bind0; [reflexivity|]. unfold s_peek2. rewrite Hr. cbn [app hd_error tl]. cbv beta iota.
      change (backslash =? 92) with true. cbv iota.
      assert (Y : yields (consume;;; c <- consume_or UnexpectedEOS;; ret (unescape c)) s x [backslash; e]).
      { eapply y_bind with (l1 := [backslash]) (l2 := [e]); [reflexivity|eapply y_consume; exact Hr|]. intros s1 R1.
        pose proof (@reads_after s [backslash] _ _ R1 Hr) as Hs1. eapply y_bind; [symmetry; apply app_nil_r|eapply y_consume_or; exact Hs1|].
        intros s2 R2. destruct He; apply y_ret. }
      destruct He; exact Y.
    + intros s1 R1. pose proof (@reads_after s [backslash; e] _ _ R1 Hr) as Hs1. eapply y_bind; [symmetry; apply app_nil_r| |intros; apply y_ret].
      eapply IH; eauto. rewrite Hs1. rewrite Hr in Hn. cbn [app length] in Hn. clear - Hn. change (length (w ++ q ++ r) < n)%nat. lia.
Qed.
Definition template_open (head : bool) : N := if head then chr "`" else chr "}".
Lemma template_piece_token s (head tail : bool) v w r : record_raw s = false -> raw_string s = [] -> template_text v w (template_close tail) ->
  rest s = (template_open head :: w ++ template_close tail) ++ r ->
  exists t s', scan_template_piece E (template_open head) head s = ROk t s' /\ rest s' = r /\
    ttype t = TTemplate /\ tval t = VStr w /\ tcooked t = Some v /\ thead t = Some head /\ ttail t = Some tail.
Proof.
  intros Q1 Q2 Ht Hr. cbn [app] in Hr. rewrite <- app_assoc in Hr.
  unfold scan_template_piece, bind at 1. destruct (@y_expect s (template_open head) _ Hr) as (s1 & X1 & R1). rewrite X1.
  pose proof (@reads_after s [template_open head] _ _ R1 Hr) as Hs1.
  unfold bind at 1, start_recording, modify. set (s2 := set_raw true (raw_string s1) s1).
  assert (Hs2 : rest s2 = w ++ template_close tail ++ r) by exact Hs1.
  destruct (@y_template v w _ Ht (S (length (rest s2))) s2 r) as (s3 & X3 & R3); auto; [destruct tail; discriminate|destruct tail; reflexivity|].
  unfold bind at 1, scan2_until. rewrite X3. unfold bind at 1, stop_recording.
  assert (Hraw : raw_string s3 = w).
  { rewrite (rd_raw R3). cbn [s2 record_raw set_raw raw_string]. rewrite (rd_raw R1), Q1, Q2. reflexivity. }
  rewrite Hraw. set (s4 := set_raw false [] s3).
  assert (Hs4 : rest s4 = template_close tail ++ r) by exact (@reads_after s2 w _ s3 R3 Hs2).
  unfold bind at 1, peek2, gets, s_peek2. rewrite Hs4.
  assert (C : forall z, current (s_consume z) <> 0) by (intros z; unfold s_consume; destruct (counts_line _ _); cbn; lia).
  destruct tail; cbn [template_close app hd_error tl].
  - change (is_c (chr "$") (Some (chr "`"))) with false. cbn [andb]. change (is_c (chr "`") (Some (chr "`"))) with true. cbv iota.
    unfold bind, consume, ret, mk_token. specialize (C s4). replace (current (s_consume s4) =? 0) with false by lia.
    eexists _, _. split; [reflexivity|]. splits; auto. erewrite s_consume_rest; [|exact Hs4]. reflexivity.
  - change (is_c (chr "$") (Some (chr "$"))) with true. change (is_c (chr "{") (Some (chr "{"))) with true. cbn [andb].
    unfold bind, consume, ret, push_curly, modify, mk_token. cbn [set_curly current].
    specialize (C (s_consume s4)). replace (current (s_consume (s_consume s4)) =? 0) with false by lia.
    eexists _, _. split; [reflexivity|]. splits; auto. cbn [set_curly rest].
    erewrite s_consume_rest; [|erewrite s_consume_rest; [|exact Hs4]; reflexivity]. reflexivity.
Qed.
Lemma template_token g s tr (head tail : bool) v w r : quiet s -> fresh s -> template_text v w (template_close tail) ->
  (head = false -> hd_error (curly s) = Some BTemplate) ->
  rest s = tr ++ (template_open head :: w ++ template_close tail) ++ r -> trivia tr ((template_open head :: w ++ template_close tail) ++ r) ->
  runs_to s g r (fun t => ttype t = TTemplate /\ tval t = VStr w /\ tcooked t = Some v /\ thead t = Some head /\ ttail t = Some tail).
Proof.
  intros Hq Hf Htt Hcu Hr Ht.
  destruct (@after_trivia g s tr (template_open head :: w ++ template_close tail) r) as (s1 & Hn & Hs1 & Hc1 & Q1 & Q2); auto.
  { cbn. unfold white_space, line_terminator, LF, CR. destruct head; cbn; lia. }
  unfold runs_to. rewrite Hn. clear Hn Hr Ht Hq Hf.
  assert (Hid : is_identifier_start E (template_open head) = false).
  { destruct (is_identifier_start E (template_open head)) eqn:Hi; auto. apply id_start_iff in Hi. unfold id_start, ascii_letter in Hi.
    destruct Hi as [Hi|[Hi|[Hi|Hi]]]; [destruct head; cbn in Hi; lia..|]. apply (us_ascii _ Hsane) in Hi; [unfold ascii_letter in Hi|]; destruct head; cbn in Hi |- *; lia. }
  unfold scan_token, s_peek2. rewrite Hs1. cbn [app hd_error tl]. rewrite Hid. destruct head; cbn [template_open].
  - change ((96 =? 34) || (96 =? 39)) with false. change (is_decimal_digit 96) with false. change (96 =? chr ".") with false. cbn [andb orb].
    change (96 =? chr "`") with true. cbv iota. eapply (@template_piece_token s1 true); eauto.
  - change ((125 =? 34) || (125 =? 39)) with false. change (is_decimal_digit 125) with false. change (125 =? chr ".") with false. cbn [andb orb].
    change (125 =? chr "`") with false. change (125 =? chr "}") with true. cbv iota. rewrite Hc1. specialize (Hcu eq_refl).
    destruct (curly s) as [|[] cu]; try discriminate. cbn [andb].
    unfold bind, pop_curly, modify. eapply (@template_piece_token (set_curly (tl (curly s1)) s1) false); eauto.
Qed.
End Templ.
