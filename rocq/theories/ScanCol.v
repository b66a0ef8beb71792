(** * ScanCol: how the scanner counts columns (proofs for C52). *)
From Verif Require Import Base Codepoint Punct Token Scanner SpecLex SpecScan SpecCol Hoare ScanBase ScanTrivia ScanTokens2 ScanNext LexFacts.
From Coq Require Import ZifyBool ZifyN ZifyNat.
Set Implicit Arguments.
Local Open Scope N_scope.

Lemma breaks_app l1 : forall l2 r, breaks (l1 ++ l2) r = breaks l1 (l2 ++ r) + breaks l2 r.
Proof. induction l1 as [|c l1 IH]; intros l2 r; cbn [app breaks]; [reflexivity|]. rewrite IH, <- app_assoc. lia. Qed.
Lemma column_app l1 : forall c l2 r, column c (l1 ++ l2) r = column (column c l1 (l2 ++ r)) l2 r.
Proof. induction l1 as [|x l1 IH]; intros c l2 r; cbn [app column]; [reflexivity|]. rewrite IH, <- app_assoc. reflexivity. Qed.

Record moved (s s' : sst) (l : str) (k : N) : Prop := mkMoved {
  mv_rest : rest s = l ++ rest s'; mv_col : col s' = column (col s) l (rest s') + k; mv_line : line s' = line s + breaks l (rest s');
  mv_current : current s' = current s + N.of_nat (length l) + k; mv_start : start s' = start s; mv_eof : k <> 0 -> rest s' = [] }.
Definition R (s s' : sst) : Prop := exists l k, moved s s' l k.
Lemma R_refl s : R s s.
Proof. exists [], 0. constructor; cbn; try lia; auto. Qed.
Lemma R_trans a b c : R a b -> R b c -> R a c.
Proof.
  intros (l1 & k1 & [A1 A2 A3 A4 A5 A6]) (l2 & k2 & [B1 B2 B3 B4 B5 B6]). exists (l1 ++ l2), (k1 + k2).
  rewrite B1 in A1, A2, A3, A6. constructor.
  - rewrite A1, app_assoc. reflexivity.
  - rewrite column_app. destruct (N.eq_dec k1 0) as [->|Hk].
    + rewrite N.add_0_r in A2. rewrite <- A2, B2. lia.
    + specialize (A6 Hk). destruct l2; [|discriminate A6]. cbn in *. lia.
  - rewrite breaks_app. lia.
  - rewrite app_length. lia.
  - congruence.
  - intros Hk. destruct (N.eq_dec k2 0); [|auto]. destruct (N.eq_dec k1 0); [lia|]. specialize (A6 n). destruct l2; [exact A6|discriminate A6].
Qed.
Lemma R_consume s : R s (s_consume s).
Proof.
  unfold s_consume, counts_line. destruct (rest s) as [|c r] eqn:Hr; cbn [hd_error tl].
  - exists [], 1. constructor; cbn; try lia; auto.
  - assert (K : (if (c =? 0xD) && is_c 0xA (hd_error r) then false else is_line_terminator c) = line_terminatorb c && negb ((c =? CR) && match r with d :: _ => d =? LF | [] => false end)).
    { unfold is_c, CR, LF. destruct (hd_error r) as [d|] eqn:Hd; destruct r; try discriminate Hd.
      - cbn in Hd. injection Hd as ->. destruct (c =? 13) eqn:C; cbn [andb]; [destruct (d =? 10); cbn [negb]; rewrite ?Bool.andb_true_r, ?Bool.andb_false_r|cbn; rewrite Bool.andb_true_r]; try reflexivity.
      - rewrite Bool.andb_false_r. cbn. rewrite Bool.andb_true_r. reflexivity. }
    rewrite K. exists [c], 0. destruct (line_terminatorb c && _) eqn:Hb; constructor; cbn [rest col line current start column breaks app length]; rewrite ?Hb, ?Hr; cbn; try lia; auto.
Qed.
Definition ckG {A} (G : A -> sst -> Prop) (m : SM A) : Prop := forall s,
  match m s with ROk a s' => R s s' /\ G a s' | RErr e => exists s1, R s s1 /\ err_line e = line s1 /\ err_col e = col s1 | _ => True end.
Notation ck := (ckG (fun _ _ => True)).
Notation ckt := (ckG (fun t s' => tcol t = col s' /\ tstart t = start s')).
Create HintDb ck.
Lemma ck_ret A (a : A) : ck (ret a). Proof. intros s. split; [apply R_refl|exact I]. Qed.
Lemma ck_bind A B G (m : SM A) (k : A -> SM B) : ck m -> (forall a, ckG G (k a)) -> ckG G (bind m k).
Proof.
  intros H K s. unfold bind. specialize (H s). destruct (m s) as [a s1|e|p|]; auto. destruct H as [H _]. specialize (K a s1).
  destruct (k a s1) as [b s2|e|p|]; auto.
  - destruct K as [K1 K2]. split; [eapply R_trans; eassumption|exact K2].
  - destruct K as (s2 & K1 & K2). exists s2. split; [eapply R_trans; eassumption|exact K2].
Qed.
Lemma ck_consume : ck consume. Proof. intros s. cbn. split; [apply R_consume|exact I]. Qed.
Lemma ck_gets A (f : sst -> A) : ck (gets f). Proof. intros s. split; [apply R_refl|exact I]. Qed.
Lemma ck_modify f : (forall s, R s (f s)) -> ck (modify f).
Proof. intros H s. split; [apply H|exact I]. Qed.
Lemma ck_stop : ck stop_recording. Proof. intros s. split; [|exact I]. exists [], 0. constructor; cbn; try lia; auto. Qed.
Lemma ck_mk E ty v p f o c h t : ckt (mk_token E ty v p f o c h t).
Proof. intros s. unfold mk_token. destruct (current s =? 0); [destruct (checked E)|]; cbn; auto using R_refl. Qed.
Lemma ck_unwrap A p (o : option A) : ck (unwrap p o). Proof. intros s. destruct o; cbn; auto using R_refl. Qed.
Lemma ck_error A G t : ckG (A := A) G (s_error t).
Proof. intros s. exists s. cbn. auto using R_refl. Qed.
#[local] Hint Resolve ck_ret ck_consume ck_gets ck_stop ck_mk ck_unwrap ck_error : ck.
Ltac ck1 :=
  match goal with
  | |- ckG _ (crash _) => exact (fun _ => I)
  | |- ckG _ nofuel => exact (fun _ => I)
  | |- ckG _ (bind _ _) => apply ck_bind; [|intro]
  | |- ckG _ peek => apply ck_gets
  | |- ckG _ peek2 => apply ck_gets
  | |- ckG _ (if ?b then _ else _) => destruct b
  | |- ckG _ (match ?x with _ => _ end) => destruct x
  end
with ck := repeat first [solve [eauto with ck] | ck1 | progress cbn beta iota].
Lemma ck_consume_or t : ck (consume_or t). Proof. unfold consume_or. ck. Qed.
#[local] Hint Resolve ck_consume_or : ck.
Ltac same := intros s; exists [], 0; constructor; cbn; try lia; auto.
Lemma ck_consume_unwrap : ck consume_unwrap. Proof. unfold consume_unwrap. ck. Qed.
Lemma ck_expect c : ck (expect_c c). Proof. unfold expect_c. ck. Qed.
Lemma ck_until_n B n pred (read : SM B) : ck read -> ck (scan_until_n n pred read).
Proof. intros H. induction n as [|n IH]; cbn [scan_until_n]; ck. Qed.
Lemma ck_until B pred (read : SM B) : ck read -> ck (scan_until pred read).
Proof. intros H s. exact (ck_until_n _ pred H s). Qed.
Lemma ck_until2_n B n pred (read : SM B) : ck read -> ck (scan2_until_n n pred read).
Proof. intros H. induction n as [|n IH]; cbn [scan2_until_n]; ck. Qed.
Lemma ck_until2 B pred (read : SM B) : ck read -> ck (scan2_until pred read).
Proof. intros H s. exact (ck_until2_n _ pred H s). Qed.
Lemma ck_hex k : forall acc t, ck (scan_hex_k k acc t).
Proof. induction k as [|k IH]; intros acc t; cbn [scan_hex_k]; ck. Qed.
Lemma ck_from t v : ck (from_u32_or t v).
Proof. unfold from_u32_or. ck. Qed.
Lemma ck_some A t (o : option A) : ck (some_or t o).
Proof. unfold some_or. ck. Qed.
#[local] Hint Resolve ck_consume_unwrap ck_expect ck_until ck_until2 ck_hex ck_from ck_some : ck.
Section E.
Context (E : env).
Lemma ck_uni : ck (scan_unicode_esc_seq E). Proof. unfold scan_unicode_esc_seq. ck. Qed.
Lemma ck_hexesc : ck scan_hex_esc_seq. Proof. unfold scan_hex_esc_seq. ck. Qed.
#[local] Hint Resolve ck_uni ck_hexesc : ck.
Lemma ck_idstart : ck (scan_identifier_start E). Proof. unfold scan_identifier_start. ck. Qed.
Lemma ck_idcp : ck (scan_identifier_cp E). Proof. unfold scan_identifier_cp. ck. Qed.
Lemma ck_simple ty v : ckt (token_simple E ty v). Proof. apply ck_mk. Qed.
#[local] Hint Resolve ck_idstart ck_idcp ck_simple : ck.
Lemma ck_ident : ckt (scan_identifier E). Proof. unfold scan_identifier, identifier_token. ck. Qed.
Lemma ck_exp : ck scan_exponent. Proof. unfold scan_exponent. ck. Qed.
#[local] Hint Resolve ck_ident ck_exp : ck.
Lemma ck_frac v : ck (scan_fractional_part v). Proof. unfold scan_fractional_part. ck. Qed.
Lemma ck_radix r : ck (scan_radix_literal r). Proof. unfold scan_radix_literal. ck. Qed.
#[local] Hint Resolve ck_frac ck_radix : ck.
Lemma ck_num : ckt (scan_numeric_literal E). Proof. unfold scan_numeric_literal, scan_number. ck. Qed.
Lemma ck_oct : ck scan_octal_esc_seq. Proof. unfold scan_octal_esc_seq. ck. Qed.
#[local] Hint Resolve ck_num ck_oct : ck.
Lemma ck_strcp_n n : ck (scan_string_cp_n E n). Proof. induction n as [|n IH]; cbn [scan_string_cp_n]; ck. Qed.
Lemma ck_strcp : ck (scan_string_literal_cp E). Proof. intros s. exact (ck_strcp_n _ s). Qed.
#[local] Hint Resolve ck_strcp : ck.
Lemma ck_str : ckt (scan_string_literal E). Proof. unfold scan_string_literal. ck. Qed.
Lemma ck_reloop n : ck (scan_regexp_loop n). Proof. induction n as [|n IH]; cbn [scan_regexp_loop]; ck. Qed.
Lemma ck_rebody : ck scan_regexp_body.
Proof. unfold scan_regexp_body. ck. exact (fun s => ck_reloop _ s). Qed.
#[local] Hint Resolve ck_str ck_rebody : ck.
Lemma ck_re : ckt (scan_regexp_literal E). Proof. unfold scan_regexp_literal, scan_regexp_flags. ck. Qed.
Lemma ck_tchar : ck (scan_template_char E). Proof. unfold scan_template_char. ck. Qed.
Lemma ck_start : ck start_recording. Proof. apply ck_modify. same. Qed.
Lemma ck_push b : ck (push_curly b). Proof. apply ck_modify. same. Qed.
Lemma ck_pop : ck pop_curly. Proof. apply ck_modify. same. Qed.
#[local] Hint Resolve ck_re ck_tchar ck_start ck_push ck_pop : ck.
Lemma ck_piece c b : ckt (scan_template_piece E c b). Proof. unfold scan_template_piece. ck. Qed.
Lemma ck_p0 v : ckt (punc0 E v). Proof. unfold punc0. ck. Qed.
Lemma ck_p1 v : ckt (punc1 E v). Proof. unfold punc1. ck. Qed.
Lemma ck_p2 v : ckt (punc2 E v). Proof. unfold punc2. ck. Qed.
#[local] Hint Resolve ck_piece ck_p0 ck_p1 ck_p2 : ck.
Lemma ck_punct : ckt (scan_punctuator E). Proof. unfold scan_punctuator. ck. Qed.
Lemma ck_div : ckt (scan_div_punctuator E). Proof. unfold scan_div_punctuator. ck. Qed.
#[local] Hint Resolve ck_punct ck_div : ck.
Lemma ck_token g : ckt (scan_token E g).
Proof.
  intros s. unfold scan_token. match goal with |- match ?m s with _ => _ end => assert (K : ckt m) by (unfold scan_template, scan_template_substitution_tail; ck); exact (K s) end.
Qed.
Lemma R_line n : forall s s', skip_line_n n s = Some s' -> R s s'.
Proof.
  induction n as [|n IH]; cbn; intros s s' H; [discriminate|]. destruct (s_peek s) as [c|]; [destruct (is_line_terminator c)|]; try (injection H as <-; apply R_refl).
  apply IH in H. eapply R_trans; [apply R_consume|exact H].
Qed.
Lemma R_block n : forall s s', skip_block_n n s = Some s' -> R s s'.
Proof.
  induction n as [|n IH]; cbn [skip_block_n]; intros s s' H; [discriminate|]. destruct (s_peek2 s) as [[c|] o]; cbv iota beta in H; [|injection H as <-; apply R_refl].
  destruct (_ && _); [injection H as <-; eapply R_trans; apply R_consume|]. apply IH in H. eapply R_trans; [apply R_consume|exact H].
Qed.
Lemma R_comments n : forall s s', scan_comments_n n s = Some s' -> R s s'.
Proof.
  induction n as [|n IH]; cbn [scan_comments_n]; intros s s' H; [discriminate|]. destruct (s_peek2 s) as [[c|] o]; cbv iota beta in H; [|injection H as <-; apply R_refl].
  cbv zeta in H. destruct (is_whitespace c); [apply IH in H; eapply R_trans; [apply R_consume|exact H]|].
  destruct ((c =? 13) && _); [apply IH in H; eapply R_trans; [apply R_consume|eapply R_trans; [apply R_consume|exact H]]|].
  destruct (is_line_terminator c); [apply IH in H; eapply R_trans; [apply R_consume|exact H]|].
  destruct (_ && is_c _ o).
  { match type of H with match ?x with _ => _ end = _ => destruct x as [s3|] eqn:K; [|discriminate] end.
    apply R_line in K. apply IH in H. eapply R_trans; [apply R_consume|eapply R_trans; [apply R_consume|]]. eapply R_trans; [exact K|exact H]. }
  destruct (_ && is_c _ o).
  { match type of H with match ?x with _ => _ end = _ => destruct x as [s3|] eqn:K; [|discriminate] end.
    apply R_block in K. apply IH in H. eapply R_trans; [apply R_consume|eapply R_trans; [apply R_consume|]]. eapply R_trans; [exact K|exact H]. }
  injection H as <-. apply R_refl.
Qed.
End E.

Lemma next_col E g s t s' : quiet s -> unscanned s = None -> s_next E g s = ROk t s' ->
  exists tr l, next_token E s t tr l s' /\ tcol t = column 1 l (rest s') /\ col s' = tcol t.
Proof.
  intros Q F H. pose proof (@s_next_fresh E g s Q F) as W. unfold wp in W. rewrite H in W. destruct W as (tr & l & N). exists tr, l. split; [exact N|].
  unfold s_next in H. rewrite F in H. destruct (scan_comments_spec (set_newline false s)) as (s1 & tr1 & Hs1 & R1 & Tr & _).
  unfold bind in H. rewrite Hs1 in H. cbv beta iota in H. unfold modify in H at 1. cbv beta iota in H.
  pose proof (ck_token E g (s_start_new_token s1)) as K. rewrite H in K. destruct K as [(l2 & k & [M1 M2 M3 M4 M5 M6]) [K1 K2]].
  cbn [rest col line current start s_start_new_token] in *. destruct R1 as [A1 A2 A3 A4 _ _ _ _ _]. cbn [rest col line current start set_newline] in *.
  pose proof (nt_rest N) as B1. pose proof (nt_start N) as B2. pose proof (nt_current N) as B3.
  assert (HL : length tr = length tr1) by (unfold len in *; lia). rewrite A1, M1 in B1.
  assert (HT : tr1 ++ l2 = tr ++ l) by (apply (app_inv_tail (rest s')); rewrite <- !app_assoc; exact B1).
  assert (l2 = l /\ tr1 = tr) as [-> ->].
  { clear -HT HL. revert tr1 HT HL. induction tr as [|x tr IH]; intros [|y tr1] HT HL; try discriminate HL; cbn in *; auto. injection HT as -> HT. injection HL as HL. destruct (IH _ HT HL). subst; auto. }
  assert (k = 0) by (unfold len in *; lia). subst k. rewrite N.add_0_r in M2. split; congruence.
Qed.
(** An error while reading a token is reported at the place the scanner has reached. *)
Lemma next_error_col E g s e : quiet s -> unscanned s = None -> s_next E g s = RErr e ->
  exists tr l r k, rest s = tr ++ l ++ r /\ trivia tr (l ++ r) /\ err_line e = line s + breaks (tr ++ l) r /\ err_col e = column 1 l r + k /\ (r <> [] -> k = 0).
Proof.
  intros Q F H. unfold s_next in H. rewrite F in H. destruct (scan_comments_spec (set_newline false s)) as (s1 & tr & Hs1 & R1 & Tr & _).
  unfold bind in H. rewrite Hs1 in H. cbv beta iota in H. unfold modify in H at 1. cbv beta iota in H.
  pose proof (ck_token E g (s_start_new_token s1)) as K. rewrite H in K. destruct K as (s2 & (l & k & [M1 M2 M3 M4 M5 M6]) & K1 & K2).
  cbn [rest col line current start s_start_new_token] in *. destruct R1 as [A1 A2 A3 A4 _ _ _ _ _]. cbn [rest col line current start set_newline] in *.
  exists tr, l, (rest s2), k. rewrite M1 in *. splits; auto.
  - rewrite K1, M3, A3, breaks_app. lia.
  - congruence.
  - intros Hr. destruct (N.eq_dec k 0); auto. destruct (Hr (M6 n)).
Qed.

Lemma nexts_col E gs : forall s ts s' pre src, quiet s -> unscanned s = None -> s_nexts E gs s = ROk ts s' -> src = pre ++ rest s -> current s = len pre -> line s = 1 + breaks pre (rest s) ->
  (quiet s' /\ unscanned s' = None /\ exists pre', src = pre' ++ rest s' /\ current s' = len pre' /\ line s' = 1 + breaks pre' (rest s')) /\
  (forall t, In t ts -> exists pr l post, src = pr ++ l ++ post /\ lexeme E t l /\ tstart t = len pr /\ tline t = 1 + breaks (pr ++ l) post /\ tcol t = column 1 l post) /\
  (forall us u, ts = us ++ [u] -> line s' = tline u /\ col s' = tcol u).
Proof.
  induction gs as [|g gs IH]; cbn [s_nexts]; intros s ts s' pre src Q F H Hs Hc Hl.
  - injection H as <- <-. split; [eauto 6|]. split; [intros ? []|]. intros [|? ?] ? K; discriminate K.
  - unfold bind in H. destruct (s_next E g s) as [t s1| | |] eqn:Hn; try discriminate. destruct (s_nexts E gs s1) as [us s2| | |] eqn:Hm; try discriminate.
    cbn in H. injection H as <- <-. destruct (next_col _ _ Q F Hn) as (tr & l & N & C1 & C2).
    destruct (IH s1 us s2 (pre ++ tr ++ l) src (nt_quiet N) (nt_unscanned N) Hm) as (I1 & I2 & I3).
    + rewrite Hs, (nt_rest N), <- !app_assoc. reflexivity.
    + rewrite (nt_current N), Hc. unfold len. rewrite !app_length. lia.
    + rewrite (nt_breaks N), Hl, (breaks_app pre), (nt_rest N), <- app_assoc. lia.
    + split; [exact I1|]. split.
      * intros u [<-|Hu]; [|auto]. exists (pre ++ tr), l, (rest s1). splits; auto.
        -- rewrite Hs, (nt_rest N), <- !app_assoc. reflexivity.
        -- exact (nt_lexeme N).
        -- rewrite (nt_start N), Hc. unfold len. rewrite app_length. lia.
        -- rewrite (nt_line N), (nt_breaks N), Hl, <- (app_assoc pre), (breaks_app pre), (nt_rest N), <- ?app_assoc. reflexivity || lia.
      * intros vs v Hv. destruct vs as [|v0 vs]; cbn in Hv; injection Hv as -> Hv; [|eauto].
        destruct us; [|discriminate Hv]. destruct gs as [|g1 gs]; cbn [s_nexts] in Hm.
        { injection Hm as <-. rewrite C2. split; [symmetry; exact (nt_line N)|reflexivity]. }
        unfold bind in Hm. destruct (s_next E g1 s1); try discriminate. destruct (s_nexts E gs s0); try discriminate.
Qed.
Lemma nexts_new E gs src ts s' : s_nexts E gs (s_new src) = ROk ts s' ->
  (quiet s' /\ unscanned s' = None /\ exists pre', src = pre' ++ rest s' /\ current s' = len pre' /\ line s' = 1 + breaks pre' (rest s')) /\
  (forall t, In t ts -> exists pr l post, src = pr ++ l ++ post /\ lexeme E t l /\ tstart t = len pr /\ tline t = 1 + breaks (pr ++ l) post /\ tcol t = column 1 l post) /\
  (forall us u, ts = us ++ [u] -> line s' = tline u /\ col s' = tcol u).
Proof. intros H. eapply nexts_col with (pre := []); [| |exact H| | |]; auto. split; reflexivity. Qed.
