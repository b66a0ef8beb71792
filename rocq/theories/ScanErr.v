(** * ScanErr: the errors of the scanner (proofs for C50). *)
From Verif Require Import Base Codepoint Punct Token Scanner SpecLex SpecScan Hoare ScanBase LexFacts.
From Coq Require Import ZifyBool ZifyN ZifyNat.
Set Implicit Arguments.
Local Open Scope N_scope.

(** The line on which the text ends *)
Definition total (s : sst) : N := line s + breaks (rest s) [].
Definition scan_kind (s : sst) (e : error) : Prop :=
  match err_type e with
  | InvalidOrUnexpectedToken | InvalidUnicodeEscapeSequence => True
  | UnexpectedEOS => err_line e = total s
  | _ => False
  end.
Definition ek {A} (m : SM A) : Prop := forall s, match m s with ROk _ s' => total s' = total s | RErr e => scan_kind s e | _ => True end.
Create HintDb ek.
Lemma ek_ret A (a : A) : ek (ret a). Proof. intros s. reflexivity. Qed.
Lemma ek_bind A B (m : SM A) (k : A -> SM B) : ek m -> (forall a, ek (k a)) -> ek (bind m k).
Proof.
  intros H G s. unfold bind. specialize (H s). destruct (m s) as [a s1|e|p|]; auto. specialize (G a s1).
  unfold scan_kind in *. destruct (k a s1) as [b s2|e|p|]; auto; [congruence|]. destruct (err_type e); auto. congruence.
Qed.
Lemma total_consume s : total (s_consume s) = total s.
Proof.
  unfold total, s_consume, counts_line. destruct (rest s) as [|c r]; cbn [hd_error tl breaks]; [cbn; lia|].
  rewrite List.app_nil_r.
  assert (K : (if (c =? 0xD) && is_c 0xA (hd_error r) then false else is_line_terminator c) = line_terminatorb c && negb ((c =? CR) && match r with d :: _ => d =? LF | [] => false end)).
  { unfold is_c, CR, LF. destruct (hd_error r) as [d|] eqn:Hd; destruct r; try discriminate Hd.
    - cbn in Hd. injection Hd as ->. destruct (c =? 13) eqn:C; cbn [andb]; [destruct (d =? 10); cbn [negb]; rewrite ?Bool.andb_true_r, ?Bool.andb_false_r|cbn; rewrite Bool.andb_true_r]; try reflexivity.
    - rewrite Bool.andb_false_r. cbn. rewrite Bool.andb_true_r. reflexivity. }
  rewrite K. destruct (line_terminatorb c && _); cbn [line rest]; lia.
Qed.
Lemma ek_consume : ek consume. Proof. intros s. cbn. apply total_consume. Qed.
Lemma ek_gets A (f : sst -> A) : ek (gets f). Proof. intros s. reflexivity. Qed.
Lemma ek_modify f : (forall s, line (f s) = line s /\ rest (f s) = rest s) -> ek (modify f).
Proof. intros H s. cbn. unfold total. destruct (H s) as [-> ->]. reflexivity. Qed.
Lemma ek_stop : ek stop_recording. Proof. intros s. reflexivity. Qed.
Lemma ek_mk E ty v p f o c h t : ek (mk_token E ty v p f o c h t).
Proof. intros s. unfold mk_token. destruct (current s =? 0); [destruct (checked E)|]; cbn; auto. Qed.
Lemma ek_unwrap A p (o : option A) : ek (unwrap p o). Proof. intros s. destruct o; cbn; auto. Qed.
Lemma ek_error A t : t = InvalidOrUnexpectedToken \/ t = InvalidUnicodeEscapeSequence -> ek (A := A) (s_error t).
Proof. intros [->| ->] s; exact I. Qed.
Lemma ek_consume_or t : t = InvalidOrUnexpectedToken \/ t = UnexpectedEOS -> ek (consume_or t).
Proof.
  intros Ht s. unfold consume_or, bind, consume. destruct (hd_error (rest s)) as [c|] eqn:Hc; cbn; [apply total_consume|].
  destruct Ht as [->| ->]; [exact I|]. cbn. unfold scan_kind. cbn [err_type err_line]. rewrite <- total_consume. unfold total.
  destruct (rest s) eqn:Hr; [|discriminate Hc]. unfold s_consume at 3. rewrite Hr. cbn. lia.
Qed.
#[local] Hint Resolve ek_ret ek_consume ek_gets ek_stop ek_mk ek_unwrap ek_consume_or ek_error : ek.
#[local] Hint Extern 1 (_ \/ _) => (left; reflexivity) : ek.
#[local] Hint Extern 1 (_ \/ _) => (right; reflexivity) : ek.
Ltac ek1 :=
  match goal with
  | |- ek (crash _) => exact (fun _ => I)
  | |- ek nofuel => exact (fun _ => I)
  | |- ek (bind _ _) => apply ek_bind; [|intro]
  | |- ek peek => apply ek_gets
  | |- ek peek2 => apply ek_gets
  | |- ek (if ?b then _ else _) => destruct b
  | |- ek (match ?x with _ => _ end) => destruct x
  end
with ek := repeat first [solve [eauto with ek] | ek1 | progress cbn beta iota].
Lemma ek_consume_unwrap : ek consume_unwrap. Proof. unfold consume_unwrap. ek. Qed.
Lemma ek_expect c : ek (expect_c c). Proof. unfold expect_c. ek. Qed.
Lemma ek_until_n B n pred (read : SM B) : ek read -> ek (scan_until_n n pred read).
Proof. intros H. induction n as [|n IH]; cbn [scan_until_n]; ek. Qed.
Lemma ek_until B pred (read : SM B) : ek read -> ek (scan_until pred read).
Proof. intros H s. exact (ek_until_n _ pred H s). Qed.
Lemma ek_until2_n B n pred (read : SM B) : ek read -> ek (scan2_until_n n pred read).
Proof. intros H. induction n as [|n IH]; cbn [scan2_until_n]; ek. Qed.
Lemma ek_until2 B pred (read : SM B) : ek read -> ek (scan2_until pred read).
Proof. intros H s. exact (ek_until2_n _ pred H s). Qed.
Lemma ek_hex k : forall acc t, t = InvalidOrUnexpectedToken \/ t = InvalidUnicodeEscapeSequence -> ek (scan_hex_k k acc t).
Proof. induction k as [|k IH]; intros acc t Ht; cbn [scan_hex_k]; ek. Qed.
Lemma ek_from t v : t = InvalidOrUnexpectedToken \/ t = InvalidUnicodeEscapeSequence -> ek (from_u32_or t v).
Proof. intros Ht. unfold from_u32_or. ek. Qed.
Lemma ek_some A t (o : option A) : t = InvalidOrUnexpectedToken \/ t = InvalidUnicodeEscapeSequence -> ek (some_or t o).
Proof. intros Ht. unfold some_or. ek. Qed.
#[local] Hint Resolve ek_consume_unwrap ek_expect ek_until ek_until2 ek_hex ek_from ek_some : ek.
Section E.
Context (E : env).
Lemma ek_uni : ek (scan_unicode_esc_seq E). Proof. unfold scan_unicode_esc_seq. ek. Qed.
Lemma ek_hexesc : ek scan_hex_esc_seq. Proof. unfold scan_hex_esc_seq. ek. Qed.
#[local] Hint Resolve ek_uni ek_hexesc : ek.
Lemma ek_idstart : ek (scan_identifier_start E).
Proof.
  intros s. unfold scan_identifier_start, peek, gets, bind at 1. destruct (s_peek s) as [c|] eqn:Hc.
  - match goal with |- match ?m s with _ => _ end => assert (K : ek m) by ek; exact (K s) end.
  - cbn. unfold scan_kind. cbn. unfold total. unfold s_peek in Hc. destruct (rest s); [cbn; lia|discriminate].
Qed.
Lemma ek_idcp : ek (scan_identifier_cp E). Proof. unfold scan_identifier_cp. ek. Qed.
Lemma ek_simple ty v : ek (token_simple E ty v). Proof. apply ek_mk. Qed.
#[local] Hint Resolve ek_idstart ek_idcp ek_simple : ek.
Lemma ek_ident : ek (scan_identifier E). Proof. unfold scan_identifier, identifier_token. ek. Qed.
Lemma ek_exp : ek scan_exponent. Proof. unfold scan_exponent. ek. Qed.
#[local] Hint Resolve ek_ident ek_exp : ek.
Lemma ek_frac v : ek (scan_fractional_part v). Proof. unfold scan_fractional_part. ek. Qed.
Lemma ek_radix r : ek (scan_radix_literal r). Proof. unfold scan_radix_literal. ek. Qed.
#[local] Hint Resolve ek_frac ek_radix : ek.
Lemma ek_num : ek (scan_numeric_literal E). Proof. unfold scan_numeric_literal, scan_number. ek. Qed.
Lemma ek_oct : ek scan_octal_esc_seq. Proof. unfold scan_octal_esc_seq. ek. Qed.
#[local] Hint Resolve ek_num ek_oct : ek.
Lemma ek_strcp_n n : ek (scan_string_cp_n E n). Proof. induction n as [|n IH]; cbn [scan_string_cp_n]; ek. Qed.
Lemma ek_strcp : ek (scan_string_literal_cp E). Proof. intros s. exact (ek_strcp_n _ s). Qed.
#[local] Hint Resolve ek_strcp : ek.
Lemma ek_str : ek (scan_string_literal E). Proof. unfold scan_string_literal. ek. Qed.
Lemma ek_reloop n : ek (scan_regexp_loop n). Proof. induction n as [|n IH]; cbn [scan_regexp_loop]; ek. Qed.
Lemma ek_rebody : ek scan_regexp_body.
Proof. unfold scan_regexp_body. ek. exact (fun s => ek_reloop _ s). Qed.
#[local] Hint Resolve ek_str ek_rebody : ek.
Lemma ek_re : ek (scan_regexp_literal E). Proof. unfold scan_regexp_literal, scan_regexp_flags. ek. Qed.
Lemma ek_tchar : ek (scan_template_char E). Proof. unfold scan_template_char. ek. Qed.
Lemma ek_start : ek start_recording. Proof. apply ek_modify. auto. Qed.
Lemma ek_push b : ek (push_curly b). Proof. apply ek_modify. auto. Qed.
Lemma ek_pop : ek pop_curly. Proof. apply ek_modify. auto. Qed.
#[local] Hint Resolve ek_re ek_tchar ek_start ek_push ek_pop : ek.
Lemma ek_piece c b : ek (scan_template_piece E c b). Proof. unfold scan_template_piece. ek. Qed.
Lemma ek_p0 v : ek (punc0 E v). Proof. unfold punc0. ek. Qed.
Lemma ek_p1 v : ek (punc1 E v). Proof. unfold punc1. ek. Qed.
Lemma ek_p2 v : ek (punc2 E v). Proof. unfold punc2. ek. Qed.
#[local] Hint Resolve ek_piece ek_p0 ek_p1 ek_p2 : ek.
Lemma ek_punct : ek (scan_punctuator E). Proof. unfold scan_punctuator. ek. Qed.
Lemma ek_div : ek (scan_div_punctuator E). Proof. unfold scan_div_punctuator. ek. Qed.
#[local] Hint Resolve ek_punct ek_div : ek.
Lemma ek_token g : ek (scan_token E g).
Proof.
  intros s. unfold scan_token. match goal with |- match ?m s with _ => _ end => assert (K : ek m) by (unfold scan_template, scan_template_substitution_tail; ek); exact (K s) end.
Qed.
Lemma total_line n : forall s s', skip_line_n n s = Some s' -> total s' = total s.
Proof.
  induction n as [|n IH]; cbn; intros s s' H; [discriminate|]. destruct (s_peek s) as [c|]; [destruct (is_line_terminator c)|]; try (injection H as <-; reflexivity).
  apply IH in H. rewrite H. apply total_consume.
Qed.
Lemma total_block n : forall s s', skip_block_n n s = Some s' -> total s' = total s.
Proof.
  induction n as [|n IH]; cbn [skip_block_n]; intros s s' H; [discriminate|]. destruct (s_peek2 s) as [[c|] o]; cbv iota beta in H; [|injection H as <-; reflexivity].
  destruct (_ && _); [injection H as <-; rewrite !total_consume; reflexivity|]. apply IH in H. rewrite H. apply total_consume.
Qed.
Lemma total_comments n : forall s s', scan_comments_n n s = Some s' -> total s' = total s.
Proof.
  induction n as [|n IH]; cbn [scan_comments_n]; intros s s' H; [discriminate|]. destruct (s_peek2 s) as [[c|] o]; cbv iota beta in H; [|injection H as <-; reflexivity].
  repeat match type of H with (if ?b then _ else _) = _ => destruct b end; cbv zeta in H;
    try (apply IH in H; rewrite H, ?total_consume; reflexivity); try (injection H as <-; reflexivity);
    match type of H with match ?x with _ => _ end = _ => destruct x as [s3|] eqn:K; [|discriminate] end;
    first [apply total_line in K | apply total_block in K]; apply IH in H; rewrite H, K, !total_consume; reflexivity.
Qed.
Lemma ek_next g : ek (s_next E g).
Proof.
  intros s. unfold s_next. destruct (unscanned s) as [u|]; [reflexivity|].
  assert (K : ek (scan_comments ;;; modify s_start_new_token ;;; scan_token E g)).
  { apply ek_bind; [|intro; apply ek_bind; [apply ek_modify; auto|intro; apply ek_token]].
    intros s0. unfold scan_comments. destruct (scan_comments_n _ s0) as [s1|] eqn:H; auto. exact (total_comments _ _ H). }
  exact (K (set_newline false s)).
Qed.
End E.
