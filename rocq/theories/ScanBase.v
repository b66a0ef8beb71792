(** * ScanBase: how scanner states relate to the text that was read (proofs). *)
From Verif Require Import Base Codepoint Punct Token Scanner SpecLex Hoare.
From Coq Require Import ZifyBool ZifyN ZifyNat.
Set Implicit Arguments.

Lemma line_terminatorb_ok c : line_terminatorb c = is_line_terminator c.
Proof. reflexivity. Qed.
Lemma is_line_terminator_iff c : is_line_terminator c = true <-> line_terminator c.
Proof. unfold is_line_terminator, line_terminator, LF, CR; lia. Qed.
Lemma is_line_terminator_false c : is_line_terminator c = false <-> ~ line_terminator c.
Proof. unfold is_line_terminator, line_terminator, LF, CR; lia. Qed.
Lemma is_whitespace_iff c : is_whitespace c = true <-> white_space c.
Proof.
  unfold is_whitespace, white_space, whitespace_list; cbn [existsb]; lia.
Qed.
Lemma is_whitespace_false c : is_whitespace c = false <-> ~ white_space c.
Proof. rewrite <- is_whitespace_iff; destruct (is_whitespace c); intuition congruence. Qed.

Lemma counts_line_breaks c l r :
  breaks (c :: l) r = (if counts_line (Some c) (hd_error (l ++ r)) then 1 else 0) + breaks l r.
Proof.
  cbn [breaks]; f_equal. rewrite line_terminatorb_ok. unfold counts_line, CR, LF, is_c.
  destruct (l ++ r) as [|d t]; cbn [hd_error].
  - rewrite Bool.andb_false_r; cbn. rewrite Bool.andb_true_r. reflexivity.
  - destruct (c =? 0xD) eqn:H1; destruct (d =? 0xA) eqn:H2; cbn;
      destruct (is_line_terminator c); reflexivity.
Qed.

Lemma breaks_app l1 l2 r : breaks (l1 ++ l2) r = breaks l1 (l2 ++ r) + breaks l2 r.
Proof.
  induction l1 as [|c l IH]; [reflexivity|].
  rewrite <- app_comm_cons, !counts_line_breaks, IH, <- app_assoc. lia.
Qed.

Definition len (l : str) : N := N.of_nat (length l).
Lemma len_nil : len [] = 0. Proof. reflexivity. Qed.
Lemma len_cons c l : len (c :: l) = 1 + len l.
Proof. unfold len; cbn [length]; lia. Qed.
Lemma len_app l1 l2 : len (l1 ++ l2) = len l1 + len l2.
Proof. unfold len; rewrite app_length; lia. Qed.

(** [reads s l s']: going from [s] to [s'] the scanner read exactly the text [l]. *)
Record reads (s : sst) (l : str) (s' : sst) : Prop := mkReads {
  rd_rest : rest s = l ++ rest s';
  rd_current : current s' = current s + len l;
  rd_line : line s' = line s + breaks l (rest s');
  rd_start : start s' = start s;
  rd_curly : curly s' = curly s;
  rd_unscanned : unscanned s' = unscanned s;
  rd_sstate : sstate s' = sstate s;
  rd_recording : record_raw s' = record_raw s;
  rd_raw : raw_string s' = if record_raw s then raw_string s ++ l else raw_string s
}.

Lemma reads_refl s : reads s [] s.
Proof. constructor; auto; cbn [breaks]; rewrite ?len_nil; try lia. destruct (record_raw s); rewrite ?app_nil_r; auto. Qed.

Lemma reads_trans s1 l1 s2 l2 s3 : reads s1 l1 s2 -> reads s2 l2 s3 -> reads s1 (l1 ++ l2) s3.
Proof.
  intros [A1 A2 A3 A4 A5 A6 A7 A8 A9] [B1 B2 B3 B4 B5 B6 B7 B8 B9]; constructor; try congruence.
  - rewrite <- app_assoc; congruence.
  - rewrite len_app; lia.
  - rewrite breaks_app, <- B1. lia.
  - rewrite B9, A8, A9. destruct (record_raw s1); rewrite ?app_assoc; reflexivity.
Qed.

Lemma s_consume_reads s c r : rest s = c :: r -> reads s [c] (s_consume s).
Proof.
  intros H. unfold s_consume; rewrite H; cbn [hd_error tl].
  assert (B : breaks [c] r = if counts_line (Some c) (hd_error r) then 1 else 0).
  { rewrite counts_line_breaks; cbn [app breaks]; lia. }
  destruct (counts_line (Some c) (hd_error r)); constructor; cbn -[breaks len]; auto;
    rewrite ?H, ?B, ?len_cons, ?len_nil; auto; lia.
Qed.
Lemma s_consume_rest s c r : rest s = c :: r -> rest (s_consume s) = r.
Proof. intros H; unfold s_consume; rewrite H; cbn [hd_error tl]; destruct (counts_line (Some c) (hd_error r)); reflexivity. Qed.

Lemma reads_cons s c r l s' : rest s = c :: r -> reads (s_consume s) l s' -> reads s (c :: l) s'.
Proof. intros H1 H2. change (c :: l) with ([c] ++ l). eapply reads_trans; eauto using s_consume_reads. Qed.
Lemma reads_snoc s l s' c r : reads s l s' -> rest s' = c :: r -> reads s (l ++ [c]) (s_consume s').
Proof. intros H1 H2. eapply reads_trans; eauto using s_consume_reads. Qed.

(** Line numbers that errors may carry, and the panics a scan may cause. *)
Record okX (E : env) (X : exc) (s : sst) : Prop := mkOkX {
  okX_err : forall l r c t, rest s = l ++ r -> xE X (mkError (line s + breaks l r) c t);
  okX_templ : unterminated_template E (rest s) -> xP X P_UnterminatedTemplate;
  okX_esc : checked E = true -> overlong_escape (rest s) -> xP X P_EscapeOverflow
}.
Lemma okX_reads E X s l s' : okX E X s -> reads s l s' -> okX E X s'.
Proof.
  intros [H1 H2 H3] [A1 A2 A3 A4 A5 A6 A7 A8 A9]; constructor.
  2:{ intros (pre & op & vs & ls & Ht & H). apply H2. exists (l ++ pre), op, vs, ls. rewrite A1, Ht, app_assoc. auto. }
  2:{ intros Hc (pre & ds & post & Ht & H). apply H3; auto. exists (l ++ pre), ds, post. rewrite A1, Ht, app_assoc. auto. }
  intros l' r c t Hr. rewrite A3.
  replace (line s + breaks l (rest s') + breaks l' r) with (line s + breaks (l ++ l') r).
  - apply H1. rewrite <- app_assoc, <- Hr; exact A1.
  - rewrite breaks_app, Hr. lia.
Qed.
Lemma okX_here E X s c t : okX E X s -> xE X (mkError (line s) c t).
Proof.
  intros [H _ _]. specialize (H [] (rest s) c t eq_refl). cbn [breaks] in H.
  replace (line s + 0) with (line s) in H by lia. exact H.
Qed.
(** Consuming at the end of input changes no line number. *)
Lemma s_consume_eof_line s : rest s = [] -> line (s_consume s) = line s.
Proof. intros H; unfold s_consume; rewrite H; reflexivity. Qed.
