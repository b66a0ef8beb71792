(** * ScanToken: every token is made from the text that was read (proofs). *)
From Verif Require Import Base Codepoint Punct Token Scanner SpecLex Hoare ScanBase ScanTrivia.
From Coq Require Import ZifyBool ZifyN ZifyNat.
Set Implicit Arguments.

(** ** Bridges between the code's character classes and the specification *)
Lemma to_digit_value c : to_digit c = digit_value c.
Proof. reflexivity. Qed.
Lemma digit_of_16 c : is_hex_digit c = true <-> digit_of 16 c.
Proof.
  unfold is_hex_digit, digit_of, digit_value, in_range.
  destruct ((48 <=? c) && (c <=? 57)) eqn:H1; [split; [exists (c - 48); split; [auto|lia]|reflexivity]|].
  destruct ((97 <=? c) && (c <=? 102)) eqn:H2; [split; [exists (c - 97 + 10); split; [auto|lia]|reflexivity]|].
  destruct ((65 <=? c) && (c <=? 70)) eqn:H3; [split; [exists (c - 65 + 10); split; [auto|lia]|reflexivity]|].
  cbn. split; [discriminate|]. intros (d & H & _); discriminate.
Qed.
Lemma digit_of_8 c : is_octal_digit c = true <-> digit_of 8 c.
Proof.
  unfold is_octal_digit, digit_of, digit_value, in_range.
  destruct ((48 <=? c) && (c <=? 57)) eqn:H1.
  - split; [intros; exists (c - 48); split; [auto|lia]|intros (d & [= <-] & H); lia].
  - split; [lia|]. destruct ((97 <=? c) && (c <=? 102)) eqn:H2; [intros (d & [= <-] & H); lia|].
    destruct ((65 <=? c) && (c <=? 70)) eqn:H3; [intros (d & [= <-] & H); lia|].
    intros (d & H & _); discriminate.
Qed.
Lemma id_start_iff E c : is_identifier_start E c = true <-> id_start E c.
Proof.
  unfold is_identifier_start, id_start, ascii_letter, in_range.
  destruct (ucd_start E c); destruct (_ || _ || _ || _) eqn:H; lia.
Qed.
Lemma id_continue_iff E c : c <> backslash -> is_identifier_continue E c = true <-> id_continue E c.
Proof.
  unfold is_identifier_continue, id_continue, ascii_letter, ascii_digit, in_range, backslash.
  destruct (ucd_continue E c); destruct (_ || _ || _ || _ || _ || _) eqn:H; lia.
Qed.
Lemma char_from_u32_scalar v c : char_from_u32 v = Some c -> c = v /\ scalar v.
Proof.
  unfold char_from_u32, scalar, in_range. destruct (_ && _) eqn:H; [|discriminate].
  intros [= <-]. lia.
Qed.

Lemma positional_acc_snoc b ds acc d :
  positional_acc b acc (ds ++ [d]) = positional_acc b acc ds * b + match digit_value d with Some v => v | None => 0 end.
Proof. revert acc; induction ds as [|e ds IH]; intros acc; cbn [app positional_acc]; auto. Qed.

(** ** Elementary reads *)
Section Specs.
Context (E : env) (X : exc).
Notation ok := (okX E X).

Lemma consume_unwrap_spec s c r (Q : N -> sst -> Prop) :
  rest s = c :: r -> Q c (s_consume s) -> wp X consume_unwrap Q s.
Proof. intros H HQ. unfold wp, consume_unwrap, bind, consume. rewrite H. exact HQ. Qed.
Lemma s_error_spec A t s (Q : A -> sst -> Prop) : ok s -> wp X (s_error t) Q s.
Proof. intros H. unfold wp, s_error. eapply okX_here; eauto. Qed.
Lemma okX_consume s : ok s -> ok (s_consume s).
Proof.
  intros H. destruct (rest s) as [|c r] eqn:Hr.
  - destruct H as [H1 H2 H3].
    assert (Hx : rest (s_consume s) = rest s) by (unfold s_consume; rewrite Hr; reflexivity).
    constructor; rewrite ?Hx; auto. intros l t c t' Hl. rewrite s_consume_eof_line; auto.
  - eapply okX_reads; eauto using s_consume_reads.
Qed.
Lemma expect_c_spec c s : ok s ->
  wp X (expect_c c) (fun _ s' => exists r, rest s = c :: r /\ s' = s_consume s) s.
Proof.
  intros H. unfold expect_c. apply wp_bind. unfold wp at 1, consume.
  destruct (rest s) as [|d r] eqn:Hr; cbn [hd_error is_c].
  - apply s_error_spec, okX_consume, H.
  - destruct (d =? c) eqn:Hd.
    + apply wp_ret. exists r. split; auto. f_equal. lia.
    + apply s_error_spec, okX_consume, H.
Qed.
Lemma consume_or_spec t s : ok s ->
  wp X (consume_or t) (fun a s' => exists r, rest s = a :: r /\ s' = s_consume s) s.
Proof.
  intros H. unfold consume_or. apply wp_bind. unfold wp at 1, consume.
  destruct (rest s) as [|d r] eqn:Hr; cbn [hd_error].
  - apply s_error_spec, okX_consume, H.
  - apply wp_ret. exists r. auto.
Qed.
Lemma some_or_spec A t (o : option A) s : ok s ->
  wp X (some_or t o) (fun a s' => o = Some a /\ s' = s) s.
Proof. intros H. destruct o; [split; auto|apply s_error_spec; auto]. Qed.
Lemma from_u32_or_spec t v s : ok s ->
  wp X (from_u32_or t v) (fun a s' => a = v /\ scalar v /\ s' = s) s.
Proof.
  intros H. unfold from_u32_or. destruct (char_from_u32 v) eqn:Hv.
  - apply char_from_u32_scalar in Hv as [-> Hv]. split; auto.
  - apply s_error_spec; auto.
Qed.

Definition stops (pred : N -> bool) (r : str) : Prop :=
  match r with [] => True | c :: _ => pred c = true end.
Definition begins (pred : N -> bool) (l : str) : Prop :=
  exists c l', l = c :: l' /\ pred c = false.

Lemma scan_until_n_spec B pred (read : SM B) (P : B -> str -> Prop) n : forall s,
  ok s -> (length (rest s) < n)%nat ->
  (forall s c r, ok s -> rest s = c :: r -> pred c = false ->
     wp X read (fun b s' => exists l, l <> [] /\ reads s l s' /\ P b l) s) ->
  wp X (scan_until_n n pred read) (fun bs s' => exists ls,
     Forall2 P bs ls /\ Forall (begins pred) ls /\ reads s (concat ls) s' /\ stops pred (rest s')) s.
Proof.
  induction n as [|n IH]; intros s Hok Hn Hread; [lia|].
  cbn [scan_until_n]. apply wp_bind, wp_gets. unfold s_peek.
  destruct (rest s) as [|c r] eqn:Hr; cbn [hd_error].
  - apply wp_ret. exists []. splits; auto using reads_refl. rewrite Hr; exact I.
  - destruct (pred c) eqn:Hc.
    + apply wp_ret. exists []. splits; auto using reads_refl. rewrite Hr; exact Hc.
    + apply wp_bind. eapply wp_conseq; [eapply Hread; eauto|].
      intros b s1 (l & Hl & R1 & HP). apply wp_bind.
      assert (Hlen : (length (rest s1) < n)%nat).
      { pose proof (rd_rest R1) as Hx. rewrite Hr in Hx. assert (Hy : length (c :: r) = length (l ++ rest s1)) by congruence.
        rewrite app_length in Hy. destruct l; [congruence|]. cbn in *; lia. }
      eapply wp_conseq; [apply IH; eauto using okX_reads|].
      cbn. intros bs s2 (ls & F & G & R2 & St). exists (l :: ls). splits; auto.
      * constructor; auto. destruct l as [|c' l']; [congruence|].
        pose proof (rd_rest R1) as Hx. rewrite Hr in Hx. injection Hx as -> _. exists c', l'; auto.
      * cbn [concat]. eauto using reads_trans.
Qed.
Lemma scan_until_spec B pred (read : SM B) (P : B -> str -> Prop) s :
  ok s ->
  (forall s c r, ok s -> rest s = c :: r -> pred c = false ->
     wp X read (fun b s' => exists l, l <> [] /\ reads s l s' /\ P b l) s) ->
  wp X (scan_until pred read) (fun bs s' => exists ls,
     Forall2 P bs ls /\ Forall (begins pred) ls /\ reads s (concat ls) s' /\ stops pred (rest s')) s.
Proof. intros. unfold scan_until. apply scan_until_n_spec; auto. Qed.

(** The common case: [read] takes one character. *)
Lemma scan_chars_spec pred t s : ok s ->
  wp X (scan_until pred (consume_or t)) (fun l s' =>
     Forall (fun c => pred c = false) l /\ reads s l s' /\ stops pred (rest s')) s.
Proof.
  intros H. eapply wp_conseq.
  - apply scan_until_spec with (P := fun b l => l = [b]); auto.
    intros s1 c r Hok Hr _. eapply wp_conseq; [apply consume_or_spec; auto|].
    cbn. intros a s' (r' & Ha & ->). exists [a]. splits; auto; [discriminate|]. eapply s_consume_reads; eauto.
  - cbn. intros bs s' (ls & F & G & R & St).
    assert (HH : concat ls = bs /\ Forall (fun c => pred c = false) bs).
    { clear R St. induction F as [|b l bs ls Hb F IH]; cbn; auto. inversion G as [|? ? Hg G']; subst.
      destruct (IH G') as [-> IH2]. split; auto. constructor; auto. destruct Hg as (c & l' & [= -> _] & Hc); auto. }
    destruct HH as [<- HF]; auto.
Qed.

Inductive pieces2 (B : Type) (P : B -> str -> Prop) (pred : N -> option N -> bool) : list B -> list str -> str -> Prop :=
| p2_nil r : pieces2 P pred [] [] r
| p2_cons b l bs ls r c x : l ++ concat ls ++ r = c :: x -> pred c (hd_error x) = false -> P b l ->
    pieces2 P pred bs ls r -> pieces2 P pred (b :: bs) (l :: ls) r.
Lemma scan2_until_n_spec B pred (read : SM B) (P : B -> str -> Prop) n : forall s,
  ok s -> (length (rest s) < n)%nat ->
  (forall s c r, ok s -> rest s = c :: r -> pred c (hd_error r) = false ->
     wp X read (fun b s' => exists l, l <> [] /\ reads s l s' /\ P b l) s) ->
  wp X (scan2_until_n n pred read) (fun bs s' => exists ls,
     pieces2 P pred bs ls (rest s') /\ reads s (concat ls) s' /\
     match rest s' with [] => True | c :: r => pred c (hd_error r) = true end) s.
Proof.
  induction n as [|n IH]; intros s Hok Hn Hread; [lia|].
  cbn [scan2_until_n]. apply wp_bind, wp_gets. unfold s_peek2.
  destruct (rest s) as [|c r] eqn:Hr; cbn [hd_error tl].
  - apply wp_ret. exists []. splits; auto using reads_refl, p2_nil. rewrite Hr; exact I.
  - destruct (pred c (hd_error r)) eqn:Hc.
    + apply wp_ret. exists []. splits; auto using reads_refl, p2_nil. rewrite Hr; exact Hc.
    + apply wp_bind. eapply wp_conseq; [eapply Hread; eauto|].
      intros b s1 (l & Hl & R1 & HP). apply wp_bind.
      pose proof (rd_rest R1) as Hx. rewrite Hr in Hx.
      assert (Hlen : (length (rest s1) < n)%nat).
      { assert (Hy : length (c :: r) = length (l ++ rest s1)) by congruence.
        rewrite app_length in Hy. destruct l; [congruence|]. cbn in *; lia. }
      eapply wp_conseq; [apply IH; eauto using okX_reads|].
      cbn. intros bs s2 (ls & F & R2 & St). exists (l :: ls). splits; auto.
      * econstructor; eauto. rewrite <- (rd_rest R2). auto.
      * cbn [concat]. eauto using reads_trans.
Qed.

(** ** Escapes *)
Lemma fold_hex_u32_spec ds : forall acc, acc <= u32_max ->
  match fold_hex_u32 E acc ds with
  | Some v => v = positional_acc 16 acc ds mod 2 ^ 32 /\ (checked E = true -> positional_acc 16 acc ds < 2 ^ 32)
  | None => checked E = true /\ 2 ^ 32 <= positional_acc 16 acc ds
  end.
Proof.
  induction ds as [|d ds IH]; intros acc Hacc; cbn [fold_hex_u32 positional_acc].
  - unfold u32_max in *. change (2 ^ 32) with 0x100000000. split; [rewrite N.mod_small; lia|lia].
  - change (to_digit d) with (digit_value d).
    set (v := acc * 16 + match digit_value d with Some x => x | None => 0 end).
    assert (Hm : forall a b, a mod 2 ^ 32 = b mod 2 ^ 32 ->
               positional_acc 16 a ds mod 2 ^ 32 = positional_acc 16 b ds mod 2 ^ 32).
    { clear. induction ds as [|d ds IH]; intros a b H; cbn [positional_acc]; auto.
      apply IH. rewrite (N.add_mod (a * 16)), (N.add_mod (b * 16)), (N.mul_mod a), (N.mul_mod b), H by discriminate. reflexivity. }
    destruct (u32_max <? v) eqn:Hv.
    + destruct (checked E) eqn:HE.
      { split; auto.
        assert (Hle : forall l a, a <= positional_acc 16 a l).
        { induction l as [|e l IHl]; intros a; cbn [positional_acc]; [lia|]. etransitivity; [|apply IHl]. lia. }
        etransitivity; [|apply Hle]. unfold u32_max in *. change (2 ^ 32) with 4294967296. lia. }
      specialize (IH (v mod 0x100000000)). unfold u32_max in *.
      assert (Hb : v mod 4294967296 <= 4294967295) by (pose proof (N.mod_upper_bound v 4294967296); lia).
      specialize (IH Hb). destruct (fold_hex_u32 E (v mod 4294967296) ds); [|destruct IH; discriminate].
      destruct IH as [-> _]. split; [|discriminate]. apply Hm. change 4294967296 with (2 ^ 32).
      rewrite N.mod_mod by discriminate. reflexivity.
    + apply IH. lia.
Qed.

Lemma scan_hex_k_spec k t : forall acc s, ok s ->
  wp X (scan_hex_k k acc t) (fun v s' => exists ds, length ds = k /\ Forall (digit_of 16) ds /\
     v = positional_acc 16 acc ds /\ reads s ds s') s.
Proof.
  induction k as [|k IH]; intros acc s Hok; cbn [scan_hex_k].
  - apply wp_ret. exists []. splits; auto using reads_refl.
  - apply wp_bind. unfold wp at 1, consume. destruct (rest s) as [|c r] eqn:Hr; cbn [hd_error].
    + apply s_error_spec, okX_consume; auto.
    + destruct (is_hex_digit c) eqn:Hc; [|apply s_error_spec, okX_consume; auto].
      eapply wp_conseq; [apply IH, okX_consume; auto|].
      cbn. intros v s' (ds & H1 & H2 & H3 & H4). exists (c :: ds). splits; eauto using reads_cons.
      * cbn; lia.
      * constructor; auto. apply digit_of_16; auto.
Qed.

Ltac use L := apply wp_bind; eapply wp_conseq; [eapply L; eauto using okX_consume, okX_reads|].

Lemma scan_unicode_esc_seq_spec s : ok s ->
  wp X (scan_unicode_esc_seq E) (fun v s' => exists l, reads s l s' /\ unicode_escape E l v) s.
Proof.
  intros Hok. unfold scan_unicode_esc_seq.
  use expect_c_spec. intros _ s1 (r1 & Hr1 & ->).
  use expect_c_spec. intros _ s2 (r2 & Hr2 & ->).
  apply wp_bind, wp_gets. unfold s_peek.
  set (s2 := s_consume (s_consume s)).
  assert (R2 : reads s [backslash; chr "u"] s2).
  { eapply reads_cons; eauto. eapply s_consume_reads; eauto. }
  assert (Hok2 : ok s2) by eauto using okX_reads.
  destruct (is_c (chr "{") (hd_error (rest s2))) eqn:Hb.
  - destruct (rest s2) as [|c r3] eqn:Hr3; cbn [hd_error is_c] in Hb; [discriminate|].
    apply wp_bind. unfold wp at 1, consume.
    assert (R3 : reads s ([backslash; chr "u"] ++ [chr "{"]) (s_consume s2)).
    { eapply reads_trans; eauto. replace (chr "{") with c by lia. eapply s_consume_reads; eauto. }
    use scan_chars_spec. intros ds s4 (F & R4 & _).
    assert (Hok4 : ok s4) by eauto using okX_reads.
    pose proof (fold_hex_u32_spec ds (acc := 0)) as HH.
    destruct (fold_hex_u32 E 0 ds) as [v|].
    + destruct HH as [Hv1 Hv2]; [unfold u32_max; lia|].
      use expect_c_spec. intros _ s5 (r5 & Hr5 & ->).
      eapply wp_conseq; [apply from_u32_or_spec, okX_consume, Hok4|].
      cbn. intros a s' (-> & Hs & ->).
      exists (backslash :: chr "u" :: chr "{" :: ds ++ [chr "}"]). split.
      * change (backslash :: chr "u" :: chr "{" :: ds ++ [chr "}"])
          with (([backslash; chr "u"] ++ [chr "{"]) ++ (ds ++ [chr "}"])).
        eapply reads_trans; eauto. eapply reads_snoc; eauto.
      * eapply ue_braced; [|exact Hv1|exact Hv2|exact Hs]. eapply Forall_impl; [|exact F].
        cbn. intros c' Hc'. apply digit_of_16. destruct (is_hex_digit c'); auto; discriminate.
    + destruct HH as [HE HH]; [unfold u32_max; lia|]. apply wp_crash. apply (okX_esc Hok); auto.
      exists [], ds, (rest s4). splits; auto.
      * rewrite (rd_rest R3), (rd_rest R4). reflexivity.
      * eapply Forall_impl; [|exact F]. cbn. intros c' Hc'. apply digit_of_16. destruct (is_hex_digit c'); auto; discriminate.
  - use scan_hex_k_spec. intros v s3 (ds & H1 & H2 & H3 & R3).
    assert (Hok3 : ok s3) by eauto using okX_reads.
    eapply wp_conseq; [apply from_u32_or_spec; auto|].
    cbn. intros a s' (-> & Hs & ->). subst v.
    exists ([backslash; chr "u"] ++ ds). split; eauto using reads_trans. apply ue_four; auto.
Qed.

Lemma positional_acc_bound b ds acc : 0 < b -> Forall (digit_of b) ds ->
  positional_acc b acc ds < (acc + 1) * b ^ len ds.
Proof.
  intros Hb F. revert acc. induction F as [|d ds (v & Hv & Hlt) F IH]; intros acc; cbn [positional_acc].
  - rewrite len_nil. cbn. lia.
  - rewrite Hv, len_cons, N.pow_add_r, N.pow_1_r. eapply N.lt_le_trans; [apply IH|].
    rewrite N.mul_assoc. apply N.mul_le_mono_r. nia.
Qed.

Lemma scan_hex_esc_seq_spec s : ok s ->
  wp X scan_hex_esc_seq (fun v s' => exists l, reads s l s' /\ hex_escape l v) s.
Proof.
  intros Hok. unfold scan_hex_esc_seq.
  use expect_c_spec. intros _ s1 (r1 & Hr1 & ->).
  use expect_c_spec. intros _ s2 (r2 & Hr2 & ->).
  set (s2 := s_consume (s_consume s)).
  assert (R2 : reads s [backslash; chr "x"] s2).
  { eapply reads_cons; eauto. eapply s_consume_reads; eauto. }
  assert (Hok2 : ok s2) by eauto using okX_reads.
  use scan_hex_k_spec. intros v s3 (ds & H1 & H2 & H3 & R3).
  assert (Hok3 : ok s3) by eauto using okX_reads.
  eapply wp_conseq; [apply from_u32_or_spec; auto|].
  cbn. intros a s' (-> & Hs & ->). subst v.
  exists ([backslash; chr "x"] ++ ds). split; eauto using reads_trans. apply he_two; auto.
Qed.
End Specs.
