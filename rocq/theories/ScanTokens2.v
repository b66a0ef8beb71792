(** * ScanTokens2: the token scanners (proofs). *)
From Verif Require Import Base Codepoint Punct Token Scanner SpecLex Hoare ScanBase ScanTrivia ScanToken.
From Coq Require Import ZifyBool ZifyN ZifyNat.
Set Implicit Arguments.

Lemma str_eqb_eq a : forall b, str_eqb a b = true <-> a = b.
Proof.
  induction a as [|x a IH]; intros [|y b]; cbn; try (intuition congruence).
  rewrite Bool.andb_true_iff, IH, N.eqb_eq. intuition congruence.
Qed.
Lemma str_eqb_neq a b : str_eqb a b = false <-> a <> b.
Proof. rewrite <- str_eqb_eq. destruct (str_eqb a b); intuition congruence. Qed.

Lemma is_keyword_reserved w : is_keyword w = true <-> reserved w.
Proof.
  unfold is_keyword, reserved. rewrite existsb_exists. split.
  - intros (k & Hk & H). apply str_eqb_eq in H. exists k. split; auto.
    revert Hk. unfold keywords, reserved_words. cbn [In]. tauto.
  - intros (k & Hk & ->). exists k. split; [|apply str_eqb_eq; auto].
    revert Hk. unfold keywords, reserved_words. cbn [In]. tauto.
Qed.

(** The effect of a token on the stack of open braces. *)
Definition curly_after (t : token) (c : list brace) : list brace :=
  match ttype t, tval t with
  | TPunctuator, VPunc LBrace => BLBrace :: c
  | TPunctuator, VPunc RBrace => tl c
  | TTemplate, _ =>
    let c1 := match thead t with Some true => c | _ => tl c end in
    match ttail t with Some false => BTemplate :: c1 | _ => c1 end
  | _, _ => c
  end.

(** Between tokens nothing is being recorded. *)
Definition quiet (s : sst) : Prop := record_raw s = false /\ raw_string s = [].

(** [treads s l s']: like [reads], for a whole token. *)
Record treads (s : sst) (l : str) (s' : sst) : Prop := mkTreads {
  td_rest : rest s = l ++ rest s';
  td_current : current s' = current s + len l;
  td_line : line s' = line s + breaks l (rest s');
  td_start : start s' = start s;
  td_unscanned : unscanned s' = unscanned s;
  td_sstate : sstate s' = sstate s;
  td_quiet : quiet s -> quiet s'
}.
Lemma reads_treads s l s' : reads s l s' -> treads s l s'.
Proof.
  intros [A1 A2 A3 A4 A5 A6 A7 A8 A9]; constructor; auto.
  intros [Q1 Q2]. rewrite Q1 in A9. split; congruence.
Qed.

Record token_from (E : env) (s : sst) (t : token) (l : str) (s' : sst) : Prop := mkFrom {
  tf_reads : treads s l s';
  tf_lexeme : lexeme E t l;
  tf_wf : token_wf t;
  tf_start : tstart t = start s;
  tf_line : tline t = line s';
  tf_end : current s' <> 0 -> tend t = current s' - 1;
  tf_curly : curly s' = curly_after t (curly s)
}.

Section Specs.
Context (E : env) (X : exc).
Notation ok := (okX E X).

Ltac use L := apply wp_bind; eapply wp_conseq; [eapply L; eauto using okX_consume, okX_reads|].

Lemma mk_token_spec ty v pt fl oc ck hd tl s (Q : token -> sst -> Prop) :
  current s <> 0 ->
  Q (mkToken ty v pt fl oc ck hd tl (line s) (col s) (start s) (current s - 1)) s ->
  wp X (mk_token E ty v pt fl oc ck hd tl) Q s.
Proof. intros H HQ. unfold wp, mk_token. destruct (current s =? 0) eqn:Hc; [lia|exact HQ]. Qed.

(** Assemble [token_from] for a token whose scan is a plain [reads]. *)
Lemma token_from_reads s l s' t : reads s l s' -> l <> [] -> lexeme E t l -> token_wf t ->
  tstart t = start s' -> tline t = line s' -> tend t = current s' - 1 ->
  (forall c, curly_after t c = c) -> token_from E s t l s'.
Proof.
  intros R Hl Hx Hw H1 H2 H3 H4. constructor; auto using reads_treads.
  - rewrite H1. apply (rd_start R).
  - rewrite H4. apply (rd_curly R).
Qed.
Lemma reads_nonzero s l s' : reads s l s' -> l <> [] -> current s' <> 0.
Proof. intros R Hl. rewrite (rd_current R). destruct l; [congruence|]. rewrite len_cons. lia. Qed.

(** ** Identifiers *)
Lemma ident_piece_spec s c r : ok s -> rest s = c :: r -> ident_stop E c = false ->
  wp X (scan_identifier_cp E) (fun b s' => exists l, l <> [] /\ reads s l s' /\ ident_piece E b l) s.
Proof.
  intros Hok Hr Hs. unfold scan_identifier_cp. apply wp_bind. eapply consume_unwrap_spec; eauto.
  destruct (c =? 92) eqn:Hc.
  - eapply wp_conseq; [eapply scan_unicode_esc_seq_spec, okX_consume, Hok|].
    cbn. intros v s' (l & R & U). exists (c :: l). splits; [discriminate|eauto using reads_cons|].
    replace c with backslash by (unfold backslash; lia). apply ip_escape; auto.
  - apply wp_ret. exists [c]. splits; [discriminate|eauto using s_consume_reads|].
    unfold ident_stop in Hs.
    assert (c <> backslash) by (unfold backslash; lia).
    apply ip_char; auto. apply id_continue_iff; auto. destruct (is_identifier_continue E c); auto. lia.
Qed.

Lemma word_kind_token_wf w ty v t : word_kind w ty v -> ttype t = ty -> tval t = v -> token_wf t.
Proof.
  intros K Ht Hv. unfold token_wf. destruct K; rewrite Ht, Hv; eauto.
  destruct H; subst; auto.
Qed.
Lemma ident_head_nonnil c l : ident_head E c l -> l <> [].
Proof. intros [c' _ _|v l' _ [] _]; discriminate. Qed.
Lemma identifier_token_spec s0 s c l v ls : reads s0 (l ++ concat ls) s -> ident_head E c l ->
  Forall2 (ident_piece E) v ls ->
  wp X (identifier_token E (c :: v)) (fun t s' => token_from E s0 t (l ++ concat ls) s') s.
Proof.
  intros R Hc F.
  assert (Hl : l ++ concat ls <> []).
  { apply ident_head_nonnil in Hc. destruct l; [congruence|discriminate]. }
  assert (Hnz : current s <> 0) by (eapply reads_nonzero; eauto).
  assert (G : forall ty v', word_kind (c :: v) ty v' ->
            (ty = TNull \/ ty = TBoolean \/ ty = TKeyword \/ ty = TIdentifier) ->
            wp X (token_simple E ty v') (fun t s' => token_from E s0 t (l ++ concat ls) s') s).
  { intros ty v' K Ht. apply mk_token_spec; auto. apply token_from_reads; auto; try discriminate.
    - eapply lx_word; eauto.
    - eapply word_kind_token_wf; eauto.
    - intros c'. unfold curly_after; cbn. intuition subst; reflexivity. }
  unfold identifier_token.
  destruct (str_eqb (c :: v) (s2l "null")) eqn:H1.
  { apply str_eqb_eq in H1. apply G; auto. constructor; auto. }
  destruct (str_eqb (c :: v) (s2l "true") || str_eqb (c :: v) (s2l "false")) eqn:H2.
  { apply G; auto. constructor. apply Bool.orb_true_iff in H2. destruct H2 as [H2|H2]; apply str_eqb_eq in H2; auto. }
  apply Bool.orb_false_iff in H2 as [H2 H3].
  apply str_eqb_neq in H1, H2, H3.
  destruct (is_keyword (c :: v)) eqn:H4.
  { apply G; auto. constructor. apply is_keyword_reserved; auto. }
  apply G; auto. constructor; auto. rewrite <- is_keyword_reserved. congruence.
Qed.

Lemma scan_identifier_spec s c r : ok s -> rest s = c :: r -> is_identifier_start E c = true ->
  wp X (scan_identifier E) (fun t s' => exists l, l <> [] /\ token_from E s t l s') s.
Proof.
  intros Hok Hr Hc. unfold scan_identifier. apply wp_bind.
  eapply wp_conseq with (P := fun a s' => exists l, reads s l s' /\ ident_head E a l).
  - unfold scan_identifier_start.
    apply wp_bind, wp_gets. unfold s_peek; rewrite Hr; cbn [hd_error].
    destruct (c =? 92) eqn:Hc'.
    + use scan_unicode_esc_seq_spec. cbn. intros v s' (l & R & H).
      destruct (is_identifier_start E v) eqn:Hv; [|apply s_error_spec with (E := E); eauto using okX_reads].
      apply wp_ret. exists l. split; auto. apply ih_escape; auto; [|apply id_start_iff; auto].
      unfold is_identifier_start, in_range in Hc. replace c with backslash in Hc by (unfold backslash; lia).
      exact Hc.
    + apply wp_bind. eapply consume_unwrap_spec; eauto. rewrite Hc. apply wp_ret.
      exists [c]. split; [eapply s_consume_reads; eauto|]. apply ih_char; [apply id_start_iff; auto|unfold backslash; lia].
  - cbn. intros a s0 (l & R0 & Hh). apply wp_bind. eapply wp_conseq.
    + eapply scan_until_spec with (P := ident_piece E); [eapply okX_reads; eauto|].
      intros; eapply ident_piece_spec; eauto.
    + cbn. intros v s1 (ls & F & _ & R & _).
      eapply wp_conseq; [eapply identifier_token_spec with (s0 := s); eauto using reads_trans|].
      cbn. intros t s' H. eexists. split; [|exact H]. apply ident_head_nonnil in Hh. destruct l; [congruence|discriminate].
Qed.

(** ** Numbers *)
Lemma i64_digits_spec radix ds : forall acc v, i64_digits radix acc ds = Some v -> acc <= i64_max ->
  Forall (digit_of radix) ds /\ v = positional_acc radix acc ds /\ v < 2 ^ 63.
Proof.
  induction ds as [|d ds IH]; intros acc v; cbn [i64_digits positional_acc].
  - intros [= <-] H. unfold i64_max in H. change (2 ^ 63) with 0x8000000000000000. splits; auto. lia.
  - change (to_digit d) with (digit_value d). destruct (digit_value d) as [x|] eqn:Hd; [|discriminate].
    destruct (x <? radix) eqn:Hx; [|discriminate].
    destruct (i64_max <? _) eqn:Hm; [discriminate|]. intros H Ha.
    destruct (IH _ _ H) as (F & Hv & Hb); [lia|]. splits; auto. constructor; auto. exists x; split; auto. lia.
Qed.
Lemma i64_from_str_radix_spec radix ds v : i64_from_str_radix radix ds = Some v ->
  ds <> [] /\ Forall (digit_of radix) ds /\ v = positional radix ds /\ v < 2 ^ 63.
Proof.
  unfold i64_from_str_radix. destruct ds as [|d ds]; [discriminate|]. intros H.
  apply i64_digits_spec in H as (H1 & H2 & H3); [|unfold i64_max; lia]. splits; auto. discriminate.
Qed.


Lemma digit_of_10 c : is_decimal_digit c = true <-> digit_of 10 c.
Proof.
  unfold is_decimal_digit, digit_of, digit_value, in_range.
  destruct ((48 <=? c) && (c <=? 57)) eqn:H1.
  - split; [intros; exists (c - 48); split; [auto|lia]|intros (d & [= <-] & H); lia].
  - split; [lia|]. destruct ((97 <=? c) && (c <=? 102)) eqn:H2; [intros (d & [= <-] & H); lia|].
    destruct ((65 <=? c) && (c <=? 70)) eqn:H3; [intros (d & [= <-] & H); lia|].
    intros (d & H & _); discriminate.
Qed.
Lemma digits_10 ds : Forall (fun c => not_digit c = false) ds <-> Forall (digit_of 10) ds.
Proof.
  split; intros F; (eapply Forall_impl; [|exact F]); intros c H.
  - apply digit_of_10. unfold not_digit in H. destruct (is_decimal_digit c); auto; discriminate.
  - unfold not_digit. apply digit_of_10 in H. rewrite H. reflexivity.
Qed.
Lemma take_digits_app ds r : Forall (digit_of 10) ds ->
  match r with [] => True | c :: _ => is_decimal_digit c = false end ->
  take_digits (ds ++ r) = (ds, r).
Proof.
  intros F Hr. induction F as [|d ds Hd F IH]; cbn [app take_digits].
  - destruct r as [|c r]; [reflexivity|]. cbn [take_digits]. rewrite Hr. reflexivity.
  - apply digit_of_10 in Hd. rewrite Hd, IH. reflexivity.
Qed.
Lemma dec_value_positional ds : Forall (digit_of 10) ds -> dec_value ds = positional 10 ds.
Proof.
  unfold dec_value, positional. intros F. generalize 0. induction F as [|d ds Hd F IH]; intros acc; cbn [fold_left positional_acc]; auto.
  rewrite IH. f_equal. apply digit_of_10 in Hd. unfold is_decimal_digit, in_range in Hd. unfold digit_value.
  replace ((48 <=? d) && (d <=? 57)) with true. reflexivity.
Qed.
(** The exponent text [scan_exponent] returns. *)
Inductive exp_text : str -> Prop :=
| et_none : exp_text []
| et_exp e sg ds : e = chr "e" \/ e = chr "E" -> sg = [] \/ sg = [chr "+"] \/ sg = [chr "-"] ->
    Forall (digit_of 10) ds -> exp_text (e :: sg ++ ds).
Lemma f64_parse_spec ip fl fp ex x : Forall (digit_of 10) ip -> fraction_part fl fp -> exp_text ex ->
  f64_parse (ip ++ fl ++ ex) = Some x -> number_lit (ip ++ fl ++ ex) x.
Proof.
  intros Hip Hf Hex. unfold f64_parse.
  assert (Hnd : match fl ++ ex with [] => True | c :: _ => is_decimal_digit c = false end).
  { destruct Hf; [|reflexivity]. destruct Hex as [|e sg ds [->| ->]]; cbn; auto. }
  rewrite (take_digits_app _ Hip Hnd). cbv beta iota zeta.
  assert (Hfd : Forall (digit_of 10) fp) by (destruct Hf; auto).
  assert (H2 : match fl ++ ex with
                | [] => ([], [])
                | c :: r => if c =? 46 then take_digits r else ([], fl ++ ex) end = (fp, ex)).
  { destruct Hf as [|ds F].
    - cbn [app]. destruct Hex as [|e sg ds [->| ->]]; reflexivity.
    - cbn [app]. change (46 =? 46) with true. apply take_digits_app; auto.
      destruct Hex as [|e sg ds' [->| ->]]; cbn; auto. }
  unfold str in *. rewrite H2. clear H2 Hnd. cbv beta iota zeta.
  assert (HF : Forall (digit_of 10) (ip ++ fp)) by (apply Forall_app; auto).
  destruct (ip ++ fp) as [|d m] eqn:Hm; [discriminate|]. rewrite (dec_value_positional HF). rewrite <- Hm in *.
  assert (Hne : ip ++ fp <> []) by (rewrite Hm; discriminate). clear Hm d m.
  destruct Hex as [|e sg ds He Hsg Hds].
  - intros [= <-]. replace (- Z.of_nat (length fp))%Z with (0 - Z.of_nat (length fp))%Z by lia.
    apply nl_decimal; auto. constructor.
  - replace ((e =? 101) || (e =? 69)) with true by lia.
    assert (Hs : exists z, (match sg ++ ds with
       | [] => (1%Z, []) | c' :: r => if c' =? 43 then (1%Z, r) else if c' =? 45 then ((-1)%Z, r) else (1%Z, sg ++ ds) end
       = (z, ds)) /\ (ds <> [] -> exponent_part (e :: sg ++ ds) (z * Z.of_N (positional 10 ds)))).
    { destruct Hsg as [->|[->| ->]].
      - exists 1%Z. cbn [app]. split; [|intros; rewrite Z.mul_1_l; apply ep_plain; auto].
        destruct Hds as [|c ds Hc Hds]; [reflexivity|]. apply digit_of_10 in Hc.
        unfold is_decimal_digit, in_range in Hc. replace (c =? 43) with false by lia. replace (c =? 45) with false by lia. reflexivity.
      - exists 1%Z. cbn [app]. split; [reflexivity|intros; rewrite Z.mul_1_l; apply ep_plus; auto].
      - exists (-1)%Z. cbn [app]. split; [reflexivity|intros].
        replace (-1 * Z.of_N (positional 10 ds))%Z with (- Z.of_N (positional 10 ds))%Z by lia. apply ep_minus; auto. }
    destruct Hs as (z & -> & Hz). rewrite <- (app_nil_r ds) at 1. rewrite (take_digits_app _ Hds); [|exact I].
    destruct ds as [|d ds]; [discriminate|]. rewrite (dec_value_positional Hds). intros [= <-].
    apply nl_decimal; auto. apply Hz. discriminate.
Qed.
Lemma positional_8_10 ds : Forall (digit_of 8) ds -> positional 8 ds <= positional 10 ds.
Proof.
  unfold positional. intros _. assert (H : forall a b, a <= b -> positional_acc 8 a ds <= positional_acc 10 b ds).
  { induction ds as [|d ds IH]; intros a b Hab; cbn [positional_acc]; auto. apply IH. lia. }
  apply H; lia.
Qed.
Lemma i64_digits_total radix ds : forall acc, Forall (digit_of radix) ds -> 1 <= radix ->
  positional_acc radix acc ds <= i64_max -> i64_digits radix acc ds = Some (positional_acc radix acc ds).
Proof.
  intros acc F Hr. revert acc. induction F as [|d ds (v & Hv & Hlt) F IH]; intros acc Hb; cbn [i64_digits positional_acc] in *; auto.
  change (to_digit d) with (digit_value d). rewrite Hv in *. replace (v <? radix) with true by lia.
  assert (Hle : forall l a, a <= positional_acc radix a l).
  { induction l as [|e l IHl]; intros a; cbn [positional_acc]; [lia|].
    etransitivity; [|apply IHl]. nia. }
  pose proof (Hle ds (acc * radix + v)). replace (i64_max <? acc * radix + v) with false by lia. auto.
Qed.
Lemma legacy_spec ds i : Forall (digit_of 10) ds -> ds <> [] ->
  match i64_from_str_radix 8 ds with Some i => Some i | None => i64_from_str_radix 10 ds end = Some i ->
  (Forall (digit_of 8) ds /\ i = positional 8 ds \/ ~ Forall (digit_of 8) ds /\ i = positional 10 ds) /\ i < 2 ^ 63.
Proof.
  intros F Hne. destruct (i64_from_str_radix 8 ds) as [j|] eqn:H8.
  - intros [= <-]. apply i64_from_str_radix_spec in H8 as (_ & H1 & H2 & H3). auto.
  - intros H10. apply i64_from_str_radix_spec in H10 as (_ & H1 & H2 & H3). split; auto. right. split; auto.
    intros F8. unfold i64_from_str_radix in H8. destruct ds as [|d ds]; [congruence|].
    rewrite i64_digits_total in H8; auto; [discriminate|lia|].
    pose proof (positional_8_10 F8) as Hle. unfold positional in *. unfold i64_max.
    change (2 ^ 63) with 0x8000000000000000 in *. lia.
Qed.

Lemma scan_exponent_spec s : ok s ->
  wp X scan_exponent (fun l s' => reads s l s' /\ exp_text l) s.
Proof.
  intros Hok. unfold scan_exponent. apply wp_bind, wp_gets. unfold s_peek.
  assert (Hnone : wp X (ret []) (fun l s' => reads s l s' /\ exp_text l) s).
  { apply wp_ret. split; [apply reads_refl|constructor]. }
  destruct (rest s) as [|c r] eqn:Hr; cbn [hd_error is_c orb]; [exact Hnone|].
  destruct ((c =? 101) || (c =? 69)) eqn:Hc; [clear Hnone|exact Hnone].
  apply wp_bind. eapply consume_unwrap_spec; eauto.
  apply wp_bind, wp_gets. unfold s_peek. apply wp_bind.
  assert (Hok1 : ok (s_consume s)) by (eapply okX_consume; eauto).
  eapply wp_conseq with (P := fun sg s' => reads (s_consume s) sg s' /\ (sg = [] \/ sg = [chr "+"] \/ sg = [chr "-"])).
  - destruct (rest (s_consume s)) as [|d r'] eqn:Hr'; cbn [hd_error is_c orb]; [apply wp_ret; auto using reads_refl|].
    destruct ((d =? 43) || (d =? 45)) eqn:Hd; [|apply wp_ret; auto using reads_refl].
    apply wp_bind. eapply consume_unwrap_spec; eauto. apply wp_ret. split; [eapply s_consume_reads; eauto|].
    right. destruct (d =? 43) eqn:H43; [left|right]; f_equal; lia.
  - cbn. intros sg s1 [R1 Hsg]. use scan_chars_spec. cbn. intros ds s2 (F & R2 & _).
    split; [eauto using reads_cons, reads_trans|].
    apply et_exp; auto. lia. apply digits_10; auto.
Qed.
Lemma scan_fractional_part_spec s0 v s : reads s0 v s -> Forall (digit_of 10) v -> ok s ->
  wp X (scan_fractional_part v) (fun x s' => exists l, number_lit l x /\ reads s0 l s') s.
Proof.
  intros R0 Hv Hok. unfold scan_fractional_part. use expect_c_spec. intros _ s1 (r & Hr & ->).
  use scan_chars_spec. cbn. intros fr s2 (F & R2 & _). apply digits_10 in F.
  apply wp_bind. eapply wp_conseq; [eapply scan_exponent_spec; eauto using okX_reads, okX_consume|].
  cbn. intros ex s3 [R3 Hex]. eapply wp_conseq; [eapply some_or_spec; eauto 6 using okX_reads, okX_consume|].
  cbn. intros x s' [Hx ->].
  exists (v ++ chr "." :: fr ++ ex). split.
  - change (chr "." :: fr ++ ex) with ((chr "." :: fr) ++ ex) in *. eapply f64_parse_spec; eauto. constructor; auto.
  - eauto using reads_cons, reads_trans.
Qed.
Lemma scan_radix_literal_spec radix s c d r : ok s -> rest s = c :: d :: r ->
  In (d, radix) [(chr "b", 2); (chr "B", 2); (chr "o", 8); (chr "O", 8); (chr "x", 16); (chr "X", 16)] ->
  wp X (scan_radix_literal radix) (fun x s' => exists l, number_lit l x /\ reads s l s') s.
Proof.
  intros Hok Hr Hin. unfold scan_radix_literal. use expect_c_spec. intros _ s1 (r' & Hr' & ->).
  rewrite Hr in Hr'. injection Hr' as -> <-.
  assert (Hr2 : rest (s_consume s) = d :: r) by (eapply s_consume_rest; eauto).
  apply wp_bind. unfold wp at 1, consume.
  use scan_chars_spec. cbn. intros v s2 (_ & R2 & _).
  assert (Hok2 : ok s2) by eauto using okX_reads, okX_consume.
  use some_or_spec. intros i s3 [Hi ->]. apply wp_ret.
  apply i64_from_str_radix_spec in Hi as (H1 & H2 & H3 & H4). subst i.
  exists (chr "0" :: d :: v). split; [apply nl_radix; auto|]. eauto using reads_cons.
Qed.
Lemma is_c_true c o : is_c c o = true -> o = Some c.
Proof. destruct o as [d|]; cbn; [|discriminate]. intros; f_equal; lia. Qed.

Lemma scan_number_spec s c r : ok s -> rest s = c :: r ->
  (is_decimal_digit c = true \/ c = chr ".") ->
  wp X scan_number (fun x s' => exists l, number_lit l x /\ reads s l s') s.
Proof.
  intros Hok Hr Hc. unfold scan_number. apply wp_bind, wp_gets. unfold s_peek2; rewrite Hr; cbn [hd_error tl].
  assert (Hrad : forall b1 b2 k, is_c (chr "0") (Some c) && (is_c b1 (hd_error r) || is_c b2 (hd_error r)) = true ->
            (In (b1, k) [(chr "b", 2); (chr "B", 2); (chr "o", 8); (chr "O", 8); (chr "x", 16); (chr "X", 16)]) ->
            (In (b2, k) [(chr "b", 2); (chr "B", 2); (chr "o", 8); (chr "O", 8); (chr "x", 16); (chr "X", 16)]) ->
            wp X (scan_radix_literal k) (fun x s' => exists l, number_lit l x /\ reads s l s') s).
  { intros b1 b2 k Hb I1 I2. destruct r as [|d r']; [cbn in Hb; lia|]. cbn [hd_error is_c] in Hb.
    eapply scan_radix_literal_spec; eauto.
    destruct (d =? b1) eqn:Hb1; [replace d with b1 by lia; auto|replace d with b2 by lia; auto]. }
  destruct (is_c 48 (Some c) && (is_c (chr "b") (hd_error r) || is_c (chr "B") (hd_error r))) eqn:H1; [eapply Hrad; eauto; cbn; tauto|].
  destruct (is_c 48 (Some c) && (is_c (chr "o") (hd_error r) || is_c (chr "O") (hd_error r))) eqn:H2; [eapply Hrad; eauto; cbn; tauto|].
  destruct (is_c 48 (Some c) && (is_c (chr "x") (hd_error r) || is_c (chr "X") (hd_error r))) eqn:H3; [eapply Hrad; eauto; cbn; tauto|].
  clear H1 H2 H3 Hrad.
  assert (Hdig : forall t, is_decimal_digit c = true ->
            wp X (scan_until not_digit (consume_or t)) (fun l s' => (exists l', l = c :: l') /\ Forall (digit_of 10) l /\ reads s l s') s).
  { intros t Hd. eapply wp_conseq; [eapply scan_chars_spec; eauto|].
    cbn. intros l s' (F & R & St). apply digits_10 in F. splits; auto.
    pose proof (rd_rest R) as Hx. destruct l as [|c' l].
    - cbn in Hx. rewrite <- Hx, Hr in St. cbn in St. unfold not_digit in St. rewrite Hd in St. discriminate.
    - rewrite Hr in Hx. injection Hx as <- _. eauto. }
  destruct (is_c 48 (Some c) && _) eqn:H4.
  - cbn [is_c] in H4. assert (c = chr "0") as -> by lia. apply wp_bind. eapply wp_conseq; [apply Hdig; reflexivity|].
    cbn. intros v s1 ((v' & ->) & F & R). use some_or_spec. intros i s' [Hi ->]. apply wp_ret.
    exists (chr "0" :: v'). split; auto.
    apply legacy_spec in Hi; auto; [|discriminate].
    inversion F as [|? ? _ F']; subst.
    assert (P0 : forall b, positional b (chr "0" :: v') = positional b v') by reflexivity.
    rewrite !P0 in Hi.
    destruct Hi as [[[F8 ->]|[F8 ->]] Hb].
    + apply nl_octal; auto. inversion F8; auto.
    + apply nl_leading_zero; auto. intros F8'. apply F8. constructor; auto. exists 0. split; [reflexivity|lia].
  - destruct (is_decimal_digit c) eqn:Hd.
    + apply wp_bind. eapply wp_conseq; [apply Hdig; auto|].
      cbn. intros v s1 (Hv & F & R). apply wp_bind, wp_gets.
      destruct (is_c _ (s_peek s1)).
      * eapply scan_fractional_part_spec; eauto using okX_reads.
      * apply wp_bind. eapply wp_conseq; [eapply scan_exponent_spec; eauto using okX_reads|].
        cbn. intros ex s2 [R2 Hex]. eapply wp_conseq; [eapply some_or_spec; eauto using okX_reads|].
        cbn. intros x s' [Hx ->]. exists (v ++ ex). split; [|eauto using reads_trans].
        change (v ++ ex) with (v ++ [] ++ ex) in *. eapply f64_parse_spec; eauto. constructor.
    + destruct Hc as [Hc|Hc]; [discriminate|]. subst c. eapply scan_fractional_part_spec; auto using reads_refl.
Qed.
Lemma number_lit_nonnil l x : number_lit l x -> l <> [].
Proof.
  destruct 1 as [| | |ip fl fp el z _ Hf _ Hne]; try discriminate.
  intros H. apply app_eq_nil in H as [-> H]. apply app_eq_nil in H as [-> _]. inversion Hf; subst; auto.
Qed.
Lemma scan_numeric_literal_spec s c r : ok s -> rest s = c :: r ->
  (is_decimal_digit c = true \/ c = chr ".") ->
  wp X (scan_numeric_literal E) (fun t s' => exists l, l <> [] /\ token_from E s t l s') s.
Proof.
  intros Hok Hr Hc. unfold scan_numeric_literal. apply wp_bind. eapply wp_conseq; [eapply scan_number_spec; eauto|].
  cbn. intros x s1 (l & Hl & R). pose proof (number_lit_nonnil Hl) as Hne.
  apply mk_token_spec; [eauto using reads_nonzero|].
  exists l. split; auto. apply token_from_reads; auto.
  - eapply lx_number; cbn; eauto.
  - unfold token_wf; cbn; eauto.
Qed.

(** ** Strings *)
Lemma single_escape_spec c : is_single_escape_char c = true ->
  letter_escape c (unescape c) \/ ((c = 0x27 \/ c = 0x22 \/ c = backslash) /\ unescape c = c).
Proof.
  unfold is_single_escape_char, unescape, backslash. intros H.
  destruct (c =? 98) eqn:H1; [replace c with 98 by lia; left; constructor|].
  destruct (c =? 102) eqn:H2; [replace c with 102 by lia; left; constructor|].
  destruct (c =? 110) eqn:H3; [replace c with 110 by lia; left; constructor|].
  destruct (c =? 114) eqn:H4; [replace c with 114 by lia; left; constructor|].
  destruct (c =? 116) eqn:H5; [replace c with 116 by lia; left; constructor|].
  destruct (c =? 118) eqn:H6; [replace c with 118 by lia; left; constructor|].
  right. split; auto. lia.
Qed.

Lemma scan_octal_esc_seq_spec s d r : ok s -> rest s = backslash :: d :: r -> is_octal_digit d = true ->
  wp X scan_octal_esc_seq (fun v s' => exists l, reads s l s' /\ string_piece E (v, true) l) s.
Proof.
  intros Hok Hr Hd. unfold scan_octal_esc_seq. apply wp_bind. unfold wp at 1, consume.
  use scan_chars_spec. cbn. intros ds s1 (F & R & St).
  assert (Hok1 : ok s1) by eauto using okX_reads, okX_consume.
  use some_or_spec. intros i s2 [Hi ->].
  eapply wp_conseq; [eapply from_u32_or_spec; eauto|].
  cbn. intros v s' (-> & Hs & ->).
  apply i64_from_str_radix_spec in Hi as (H1 & H2 & H3 & H4). subst i.
  exists (backslash :: ds). split; [eauto using reads_cons|]. eapply sp_octal; eauto.
Qed.

Lemma crlf_step s c r : ok s -> rest s = c :: r -> line_terminator c ->
  exists n s', n = [CR; LF] /\ s' = s_consume (s_consume s) /\ reads s n s' /\ is_c 0xD (Some c) && is_c 0xA (hd_error r) = true
  \/ n = [c] /\ s' = s_consume s /\ reads s n s' /\ is_c 0xD (Some c) && is_c 0xA (hd_error r) = false.
Proof.
  intros Hok Hr Hc. destruct (is_c 0xD (Some c) && is_c 0xA (hd_error r)) eqn:H.
  - apply Bool.andb_true_iff in H as [H1 H2]. apply is_c_true in H1, H2. injection H1 as ->.
    destruct r as [|d r]; [discriminate|]. injection H2 as ->.
    exists [CR; LF], (s_consume (s_consume s)). left. splits; auto. eapply reads_cons; eauto.
    eapply s_consume_reads. eapply s_consume_rest; eauto.
  - exists [c], (s_consume s). right. splits; auto. eapply s_consume_reads; eauto.
Qed.

Lemma scan_string_cp_n_spec n : forall s c r, ok s -> rest s = c :: r -> (length (rest s) < n)%nat ->
  wp X (scan_string_cp_n E n) (fun b s' => exists l, l <> [] /\ reads s l s' /\ string_piece E b l) s.
Proof.
  induction n as [|n IH]; intros s c r Hok Hr Hn; [lia|].
  cbn [scan_string_cp_n]. apply wp_bind, wp_gets. unfold s_peek2; rewrite Hr; cbn [hd_error tl].
  assert (Hplain : c <> backslash \/ True -> 
     wp X (if is_line_terminator c then s_error InvalidOrUnexpectedToken
        else c <- consume_or UnexpectedEOS;; ret (c, false)) (fun b s' => exists l, l <> [] /\ reads s l s' /\ string_piece E b l) s).
  { intros _. destruct (is_line_terminator c) eqn:Hl; [apply s_error_spec with (E := E); auto|].
    use consume_or_spec. cbn. intros a s' (r' & Ha & ->). apply wp_ret. rewrite Hr in Ha. injection Ha as <- <-.
    exists [c]. splits; [discriminate|eauto using s_consume_reads|].
    destruct (N.eq_dec c backslash) as [->|Hb]; [apply sp_kept|apply sp_char; auto].
    apply is_line_terminator_false; auto. }
  destruct (c =? 92) eqn:Hc; [|apply Hplain; auto].
  destruct r as [|c2 r2]; cbn [hd_error]; [apply Hplain; auto|].
  assert (c = backslash) as -> by (unfold backslash; lia). clear Hplain.
  assert (Hr2 : rest (s_consume s) = c2 :: r2) by (eapply s_consume_rest; eauto).
  assert (R1 : reads s [backslash] (s_consume s)) by (eapply s_consume_reads; eauto).
  assert (Hok1 : ok (s_consume s)) by (eapply okX_consume; eauto).
  destruct (is_single_escape_char c2) eqn:He.
  { apply wp_bind. unfold wp at 1, consume.
    use consume_or_spec. cbn. intros a s' (r' & Ha & ->). apply wp_ret. rewrite Hr2 in Ha. injection Ha as <- <-.
    exists [backslash; c2]. splits; [discriminate|eauto using reads_cons, s_consume_reads|].
    destruct (single_escape_spec _ He) as [H|[H ->]]; [apply sp_letter|apply sp_self]; auto. }
  destruct (is_line_terminator c2) eqn:Hl.
  { apply is_line_terminator_iff in Hl.
    apply wp_bind. unfold wp at 1, consume.
    apply wp_bind, wp_gets. unfold s_peek2; rewrite Hr2; cbn [hd_error tl].
    destruct (@crlf_step (s_consume s) c2 r2 Hok1 Hr2 Hl) as (nl & s3 & H3).
    assert (HR : reads (s_consume s) nl s3 /\ (nl = [CR; LF] \/ (exists c, nl = [c] /\ line_terminator c)) /\ nl <> []).
    { destruct H3 as [(-> & -> & R & _)|(-> & -> & R & _)]; splits; eauto; discriminate. }
    assert (Hgoal : wp X (scan_string_cp_n E n) (fun b s' => exists l, l <> [] /\ reads s l s' /\ string_piece E b l) s3).
    { destruct HR as (R & Hnl & Hne). destruct (rest s3) as [|c3 r3] eqn:Hr3.
      - destruct n as [|n']; cbn [scan_string_cp_n]; [exfalso; rewrite Hr in Hn; cbn in Hn; lia|].
        apply wp_bind, wp_gets. unfold s_peek2; rewrite Hr3; cbn [hd_error].
        apply s_error_spec with (E := E). eauto using okX_reads.
      - eapply wp_conseq; [eapply IH; eauto using okX_reads|].
        + pose proof (rd_rest R) as Hx. rewrite Hr2 in Hx.
          rewrite Hr in Hn. cbn [length] in Hn.
          assert (Hy : length (c2 :: r2) = length (nl ++ rest s3)) by congruence.
          rewrite app_length in Hy. cbn [length] in Hy. rewrite Hr3 in *. cbn [length] in *. destruct nl; [congruence|]. cbn in *; lia.
        + cbn. intros b s' (l & Hne' & R' & P). exists (backslash :: nl ++ l).
          splits; [discriminate| |apply sp_cont; auto]. eauto using reads_cons, reads_trans. }
    apply wp_bind. destruct H3 as [(-> & -> & _ & Hcond)|(-> & -> & _ & Hcond)]; rewrite Hcond.
    - apply wp_bind. unfold wp at 1, consume. apply wp_ret. apply wp_bind. unfold wp at 1, consume. exact Hgoal.
    - apply wp_ret. apply wp_bind. unfold wp at 1, consume. exact Hgoal. }
  destruct (c2 =? 120) eqn:Hx.
  { use scan_hex_esc_seq_spec. cbn. intros v s' (l & R & H). exists l. splits; auto using sp_hex.
    destruct H; discriminate. }
  destruct (c2 =? 117) eqn:Hu.
  { use scan_unicode_esc_seq_spec. cbn. intros v s' (l & R & H). exists l. splits; auto using sp_unicode.
    destruct H; discriminate. }
  destruct (is_octal_digit c2) eqn:Ho.
  { use scan_octal_esc_seq_spec. cbn. intros v s' (l & R & H). exists l. splits; auto.
    intros ->. inversion H. }
  use consume_or_spec. cbn. intros a s' (r' & Ha & ->). apply wp_ret. rewrite Hr in Ha. injection Ha as <- <-.
  exists [backslash]. splits; [discriminate|auto|apply sp_kept].
Qed.

Lemma concat_nil_app A (l : list (list A)) x : concat l ++ x <> [] \/ x = [].
Proof. destruct x; auto. left. intros H; apply app_eq_nil in H as [_ H]; discriminate. Qed.

Lemma scan_string_literal_spec s c r : ok s -> rest s = c :: r -> c = 0x22 \/ c = 0x27 ->
  wp X (scan_string_literal E) (fun t s' => exists l, l <> [] /\ token_from E s t l s') s.
Proof.
  intros Hok Hr Hc. unfold scan_string_literal. apply wp_bind, wp_gets. unfold s_peek; rewrite Hr; cbn [hd_error is_c].
  replace ((c =? 39) || (c =? 34)) with true by lia.
  apply wp_bind. eapply consume_unwrap_spec; eauto.
  apply wp_bind. eapply wp_conseq.
  { eapply scan_until_spec with (P := string_piece E); [eapply okX_consume; eauto|].
    intros. unfold scan_string_literal_cp, wp. eapply scan_string_cp_n_spec; eauto. }
  cbn. intros vs s1 (ls & F & G & R & _).
  use expect_c_spec. intros _ s2 (r2 & Hr2 & ->).
  assert (R2 : reads s (c :: concat ls ++ [c]) (s_consume s1)) by eauto using reads_cons, reads_snoc.
  apply mk_token_spec; [eapply reads_nonzero; eauto; discriminate|].
  exists (c :: concat ls ++ [c]). split; [discriminate|].
  apply token_from_reads; auto; try discriminate.
  - eapply lx_string; cbn; eauto; [tauto|]. eapply Forall_impl; [|exact G].
    cbn. intros l (d & l' & -> & Hd). cbn. intros [= ->]. lia.
  - unfold token_wf; cbn; eauto.
Qed.

(** ** Regular expressions *)
Definition starts_slash (r : str) : Prop := match r with [] => True | c :: _ => c = chr "/" end.
Lemma scan_regexp_loop_spec n : forall s, ok s -> (length (rest s) < n)%nat ->
  wp X (scan_regexp_loop n) (fun l s' => reads s l s' /\ starts_slash (rest s') /\
     (rest s' = [] \/ exists ps, l = concat ps /\ Forall regexp_part ps)) s.
Proof.
  induction n as [|n IH]; intros s Hok Hn; [lia|].
  cbn [scan_regexp_loop]. apply wp_bind, wp_gets. unfold s_peek.
  destruct (rest s) as [|c r] eqn:Hr; cbn [hd_error];
    [apply wp_ret; rewrite Hr; splits; cbn; auto using reads_refl|].
  assert (Hnext : forall l s1, reads s l s1 -> l <> [] ->
     (regexp_part l \/ stops (fun c => c =? chr "]") (rest s1) /\ exists cs, l = chr "[" :: cs /\ Forall (fun c => c <> chr "]") cs) ->
     wp X (r <- scan_regexp_loop n;; ret (l ++ r)) (fun l s' => reads s l s' /\ starts_slash (rest s') /\
       (rest s' = [] \/ exists ps, l = concat ps /\ Forall regexp_part ps)) s1).
  { intros l s1 R Hl P. apply wp_bind. eapply wp_conseq; [apply IH; eauto using okX_reads|].
    - pose proof (rd_rest R) as Hx. rewrite Hr in Hx. assert (Hy : length (c :: r) = length (l ++ rest s1)) by congruence.
      rewrite app_length in Hy. destruct l; [congruence|]. cbn in *; lia.
    - cbn. intros l' s' (R' & Sl & H). apply wp_ret. splits; [eauto using reads_trans|auto|].
      destruct H as [H|(ps & -> & F)]; [auto|].
      destruct P as [P|(St & cs & -> & Fc)].
      { right. exists (l :: ps). splits; auto. }
      destruct ps as [|p ps].
      { pose proof (rd_rest R') as Hx. cbn in Hx. rewrite Hx in St. destruct (rest s') as [|d r']; [auto|].
        cbn in St, Sl. lia. }
      right. inversion F as [|? ? Hp F']; subst.
      assert (Hd : exists p', p = chr "]" :: p').
      { pose proof (rd_rest R') as Hx. cbn [concat] in Hx.
        destruct p as [|d p']; [inversion Hp|]. rewrite Hx in St. cbn in St. exists p'. f_equal. lia. }
      destruct Hd as (p' & ->).
      assert (p' = []) as -> by (inversion Hp; subst; auto; discriminate).
      exists ((chr "[" :: cs ++ [chr "]"]) :: ps). split.
      + cbn. rewrite <- app_assoc. reflexivity.
      + constructor; auto. apply rp_class; auto. }
  destruct (c =? 91) eqn:H1.
  { use scan_chars_spec. intros g s1 (F & R & St).
    assert (Hg : exists g', g = chr "[" :: g').
    { pose proof (rd_rest R) as Hx. destruct g as [|c' g].
      - cbn in Hx. rewrite <- Hx, Hr in St. cbn in St. lia.
      - rewrite Hr in Hx. injection Hx as <- _. exists g. f_equal. lia. }
    destruct Hg as (g' & ->).
    apply (Hnext (chr "[" :: g') s1); auto; [discriminate|]. right. split; auto. exists g'. split; auto.
    inversion F; subst. eapply Forall_impl; [|eassumption]. cbn; intros; lia. }
  destruct (c =? 92) eqn:H2.
  { use consume_or_spec. intros a s1 (r1 & Ha & ->). use consume_or_spec. intros b s2 (r2 & Hb & ->).
    rewrite Hr in Ha. injection Ha as <- <-.
    apply (Hnext [c; b]); auto; [eauto using reads_cons, s_consume_reads|discriminate|left].
    replace c with backslash by (unfold backslash; lia). apply rp_escape. }
  destruct (c =? 47) eqn:H3.
  { apply wp_ret; rewrite Hr; splits; auto using reads_refl; [cbn; lia|]. right; exists []; auto. }
  use consume_or_spec. intros a s1 (r1 & Ha & ->). rewrite Hr in Ha. injection Ha as <- <-.
  apply (Hnext [c]); auto; [eauto using s_consume_reads|discriminate|left].
  apply rp_char; unfold backslash; lia.
Qed.

Lemma scan_regexp_literal_spec s : ok s ->
  wp X (scan_regexp_literal E) (fun t s' => exists l, l <> [] /\ token_from E s t l s') s.
Proof.
  intros Hok. unfold scan_regexp_literal, scan_regexp_body, scan_regexp_flags.
  apply wp_bind. use expect_c_spec. intros _ s1 (r1 & Hr1 & ->).
  assert (Hok1 : ok (s_consume s)) by (eapply okX_consume; eauto).
  apply wp_bind, wp_gets. destruct (is_c _ _); [apply s_error_spec with (E := E); auto|].
  apply wp_bind. eapply wp_conseq; [apply (@scan_regexp_loop_spec _ (s_consume s)); auto|].
  cbn. intros p s2 (R2 & _ & Hp).
  assert (Hok2 : ok s2) by eauto using okX_reads.
  use expect_c_spec. intros _ s3 (r3 & Hr3 & ->). apply wp_ret.
  destruct Hp as [Hp|(ps & -> & Fp)]; [congruence|].
  apply wp_bind. eapply wp_conseq.
  { eapply scan_until_spec with (P := ident_piece E); [eapply okX_consume; eauto|].
    intros; eapply ident_piece_spec; eauto. }
  cbn. intros f s4 (ls & F & _ & R4 & _).
  assert (R : reads s (chr "/" :: concat ps ++ chr "/" :: concat ls) s4).
  { eapply reads_cons; eauto. eapply reads_trans; eauto. eapply reads_cons; eauto. }
  apply mk_token_spec; [eapply reads_nonzero; eauto; discriminate|].
  exists (chr "/" :: concat ps ++ chr "/" :: concat ls). split; [discriminate|].
  apply token_from_reads; auto; try discriminate.
  - eapply lx_regexp; cbn; eauto.
  - unfold token_wf; cbn; eauto 6.
Qed.

(** ** Templates *)
Lemma letter_escape_template c : (c =? chr "b") || (c =? chr "f") || (c =? chr "v") || (c =? chr "n")
              || (c =? chr "r") || (c =? chr "t") = true -> letter_escape c (unescape c).
Proof.
  intros H. unfold unescape.
  destruct (c =? 98) eqn:H1; [replace c with 98 by lia; constructor|].
  destruct (c =? 102) eqn:H2; [replace c with 102 by lia; constructor|].
  destruct (c =? 110) eqn:H3; [replace c with 110 by lia; constructor|].
  destruct (c =? 114) eqn:H4; [replace c with 114 by lia; constructor|].
  destruct (c =? 116) eqn:H5; [replace c with 116 by lia; constructor|].
  destruct (c =? 118) eqn:H6; [replace c with 118 by lia; constructor|]. lia.
Qed.

Lemma scan_template_char_spec s c r : ok s -> rest s = c :: r -> template_stop c (hd_error r) = false ->
  wp X (scan_template_char E) (fun b s' => exists l, l <> [] /\ reads s l s' /\ template_piece_of E b l) s.
Proof.
  intros Hok Hr Hst. unfold scan_template_char. apply wp_bind, wp_gets. unfold s_peek2; rewrite Hr; cbn [hd_error tl].
  assert (Hbt : c <> chr "`") by (unfold template_stop in Hst; lia).
  assert (Hplain : wp X (if is_line_terminator c then consume;;; ret 10 else consume_or UnexpectedEOS)
             (fun b s' => exists l, l <> [] /\ reads s l s' /\ template_piece_of E b l) s).
  { destruct (is_line_terminator c) eqn:Hl.
    - apply wp_bind. unfold wp at 1, consume. apply wp_ret. exists [c].
      splits; [discriminate|eauto using s_consume_reads|]. apply tp_line. apply is_line_terminator_iff; auto.
    - eapply wp_conseq; [eapply consume_or_spec; eauto|].
      cbn. intros a s' (r' & Ha & ->). rewrite Hr in Ha. injection Ha as <- <-.
      exists [c]. splits; [discriminate|eauto using s_consume_reads|].
      destruct (N.eq_dec c backslash) as [->|Hb]; [apply tp_last|apply tp_char; auto].
      apply is_line_terminator_false; auto. }
  destruct (c =? 92) eqn:Hc; [|apply Hplain; auto].
  destruct r as [|c2 r2]; cbn [hd_error]; [apply Hplain; auto|]. clear Hplain.
  assert (c = backslash) as -> by (unfold backslash; lia).
  assert (Hr2 : rest (s_consume s) = c2 :: r2) by (eapply s_consume_rest; eauto).
  assert (R1 : reads s [backslash] (s_consume s)) by (eapply s_consume_reads; eauto).
  assert (Hok1 : ok (s_consume s)) by (eapply okX_consume; eauto).
  destruct (is_line_terminator c2) eqn:Hl.
  { apply is_line_terminator_iff in Hl.
    apply wp_bind. unfold wp at 1, consume.
    apply wp_bind, wp_gets. unfold s_peek2; rewrite Hr2; cbn [hd_error tl].
    destruct (@crlf_step (s_consume s) c2 r2 Hok1 Hr2 Hl) as (nl & s3 & [(-> & -> & R & Hcond)|(-> & -> & R & Hcond)]); rewrite Hcond.
    - apply wp_bind. unfold wp at 1, consume. apply wp_bind. unfold wp at 1, consume. apply wp_ret.
      exists (backslash :: [CR; LF]). splits; [discriminate|eauto using reads_cons|apply tp_cont; auto].
    - apply wp_bind. unfold wp at 1, consume. apply wp_ret.
      exists (backslash :: [c2]). splits; [discriminate|eauto using reads_cons|apply tp_cont; eauto]. }
  destruct (_ || _) eqn:He.
  { apply wp_bind. unfold wp at 1, consume.
    use consume_or_spec. cbn. intros a s' (r' & Ha & ->). apply wp_ret. rewrite Hr2 in Ha. injection Ha as <- <-.
    exists [backslash; c2]. splits; [discriminate|eauto using reads_cons, s_consume_reads|].
    apply tp_letter, letter_escape_template; auto. }
  destruct (c2 =? 120) eqn:Hx.
  { eapply wp_conseq; [eapply scan_hex_esc_seq_spec; eauto|].
    cbn. intros v s' (l & R & H). exists l. splits; auto using tp_hex. destruct H; discriminate. }
  destruct (c2 =? 117) eqn:Hu.
  { eapply wp_conseq; [eapply scan_unicode_esc_seq_spec; eauto|].
    cbn. intros v s' (l & R & H). exists l. splits; auto using tp_unicode. destruct H; discriminate. }
  apply wp_bind. unfold wp at 1, consume.
  eapply wp_conseq; [eapply consume_or_spec; eauto|].
  cbn. intros a s' (r' & Ha & ->). rewrite Hr2 in Ha. injection Ha as <- <-.
  exists [backslash; c2]. splits; [discriminate|eauto using reads_cons, s_consume_reads|apply tp_other].
Qed.
End Specs.
