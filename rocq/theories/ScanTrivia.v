(** * ScanTrivia: white space and comments (proofs). *)
From Verif Require Import Base Codepoint Punct Token Scanner SpecLex Hoare ScanBase.
From Coq Require Import ZifyBool ZifyN ZifyNat.
Set Implicit Arguments.

Lemma skip_line_spec n : forall s, (length (rest s) < n)%nat ->
  exists s' b, skip_line_n n s = Some s' /\ reads s b s' /\ Forall (fun c => ~ line_terminator c) b /\ starts_line (rest s').
Proof.
  induction n as [|n IH]; intros s Hn; [lia|].
  cbn [skip_line_n]. unfold s_peek. destruct (rest s) as [|c r] eqn:Hr; cbn [hd_error].
  - exists s, []. splits; auto using reads_refl. rewrite Hr; exact I.
  - destruct (is_line_terminator c) eqn:Hc.
    + exists s, []. splits; auto using reads_refl. rewrite Hr. cbn. apply is_line_terminator_iff; auto.
    + destruct (IH (s_consume s)) as (s' & b & H1 & H2 & H3 & H4).
      { rewrite (s_consume_rest _ Hr). cbn in Hn; lia. }
      exists s', (c :: b). splits; eauto using reads_cons.
      constructor; auto. apply is_line_terminator_false; auto.
Qed.

Lemma has_close_cons c b :
  has_close (c :: b) = ((c =? chr "*") && match b with d :: _ => d =? chr "/" | [] => false end) || has_close b.
Proof. reflexivity. Qed.

Lemma skip_block_spec n : forall s, (length (rest s) < n)%nat ->
  exists s', skip_block_n n s = Some s' /\
    ((exists b, reads s (b ++ [chr "*"; chr "/"]) s' /\ has_close (b ++ [chr "*"]) = false) \/
     (exists b, reads s b s' /\ has_close b = false /\ rest s' = [])).
Proof.
  induction n as [|n IH]; intros s Hn; [lia|].
  cbn [skip_block_n]. unfold s_peek2. destruct (rest s) as [|c r] eqn:Hr; cbn [hd_error tl].
  - exists s. split; auto. right. exists []. auto using reads_refl.
  - destruct ((c =? chr "*") && is_c (chr "/") (hd_error r)) eqn:Hc.
    + eexists; split; [reflexivity|]. left. exists []. cbn [app has_close].
      destruct r as [|d r']; cbn [hd_error is_c] in Hc; [lia|].
      assert (c = chr "*" /\ d = chr "/") as [-> ->] by lia.
      split; [|reflexivity].
      eapply reads_cons; eauto. eapply s_consume_reads. rewrite (s_consume_rest _ Hr). reflexivity.
    + destruct (IH (s_consume s)) as (s' & H1 & H2).
      { rewrite (s_consume_rest _ Hr). cbn in Hn; lia. }
      exists s'. split; auto.
      assert (Hd : forall b t, r = b ++ t -> 
                 (c =? chr "*") && match b ++ t with d :: _ => d =? chr "/" | [] => false end = false).
      { intros b t ->. destruct (b ++ t); cbn [hd_error is_c] in Hc; auto. }
      destruct H2 as [(b & H2 & H3)|(b & H2 & H3 & H4)].
      * left. exists (c :: b). split; [eauto using reads_cons|].
        rewrite <- app_comm_cons, has_close_cons, H3.
        specialize (Hd (b ++ [chr "*"]) (chr "/" :: rest s')).
        rewrite <- (s_consume_rest _ Hr), (rd_rest H2), <- !app_assoc in Hd. specialize (Hd eq_refl).
        destruct b as [|d b]; cbn in *; lia.
      * right. exists (c :: b). split; [eauto using reads_cons|split; auto].
        rewrite has_close_cons, H3.
        specialize (Hd b []). rewrite <- (s_consume_rest _ Hr), (rd_rest H2), H4 in Hd. specialize (Hd eq_refl).
        rewrite app_nil_r in Hd. lia.
Qed.

Lemma scan_comments_n_spec n : forall s, (length (rest s) < n)%nat ->
  exists s' l, scan_comments_n n s = Some s' /\ reads s l s' /\ trivia l (rest s') /\ no_trivia (rest s').
Proof.
  induction n as [|n IH]; intros s Hn; [lia|].
  cbn [scan_comments_n]. unfold s_peek2. destruct (rest s) as [|c r] eqn:Hr; cbn [hd_error tl].
  { exists s, []. rewrite Hr. splits; auto using reads_refl, tv_nil; try exact I. }
  assert (Hlen : (length (rest (s_consume s)) < n)%nat).
  { rewrite (s_consume_rest _ Hr). cbn in Hn; lia. }
  destruct (is_whitespace c) eqn:Hws.
  { destruct (IH (s_consume s) Hlen) as (s' & l & H1 & H2 & H3 & H4).
    exists s', (c :: l). splits; eauto using reads_cons. apply tv_space; auto. apply is_whitespace_iff; auto. }
  destruct ((c =? 0xD) && is_c 0xA (hd_error r)) eqn:Hcr.
  { destruct r as [|d r']; cbn [hd_error is_c] in Hcr; [lia|].
    assert (Hr2 : rest (s_consume s) = d :: r') by (apply (s_consume_rest _ Hr)).
    destruct (IH (s_consume (s_consume s))) as (s' & l & H1 & H2 & H3 & H4).
    { rewrite (s_consume_rest _ Hr2). cbn in Hn; lia. }
    exists s', (c :: d :: l). splits; eauto using reads_cons.
    apply tv_line; [|apply tv_line; auto]; unfold line_terminator, CR, LF; lia. }
  destruct (is_line_terminator c) eqn:Hlt.
  { destruct (IH (s_consume s) Hlen) as (s' & l & H1 & H2 & H3 & H4).
    exists s', (c :: l). splits; eauto using reads_cons. apply tv_line; auto. apply is_line_terminator_iff; auto. }
  destruct ((c =? chr "/") && is_c (chr "/") (hd_error r)) eqn:Hsl.
  { destruct r as [|d r']; cbn [hd_error is_c] in Hsl; [lia|].
    assert (c = chr "/" /\ d = chr "/") as [-> ->] by lia.
    assert (Hr2 : rest (s_consume s) = chr "/" :: r') by (apply (s_consume_rest _ Hr)).
    assert (Hr3 : rest (s_consume (s_consume s)) = r') by (apply (s_consume_rest _ Hr2)).
    destruct (@skip_line_spec (S (length (rest (s_consume (s_consume s))))) (s_consume (s_consume s)))
      as (s3 & b & B1 & B2 & B3 & B4); [lia|].
    rewrite B1.
    destruct (IH s3) as (s' & l & H1 & H2 & H3 & H4).
    { pose proof (rd_rest B2) as Hl. rewrite Hr3 in Hl. cbn in Hn. rewrite Hl, app_length in Hn. lia. }
    exists s', (chr "/" :: chr "/" :: b ++ l). splits; eauto using reads_cons, reads_trans.
    apply tv_comment; auto. rewrite <- (rd_rest H2); auto. }
  destruct ((c =? chr "/") && is_c (chr "*") (hd_error r)) eqn:Hst.
  { destruct r as [|d r']; cbn [hd_error is_c] in Hst; [lia|].
    assert (c = chr "/" /\ d = chr "*") as [-> ->] by lia.
    assert (Hr2 : rest (s_consume s) = chr "*" :: r') by (apply (s_consume_rest _ Hr)).
    assert (Hr3 : rest (s_consume (s_consume s)) = r') by (apply (s_consume_rest _ Hr2)).
    destruct (@skip_block_spec (S (length (rest (s_consume (s_consume s))))) (s_consume (s_consume s)))
      as (s3 & B1 & B2); [lia|].
    rewrite B1.
    destruct (IH s3) as (s' & l & H1 & H2 & H3 & H4).
    { destruct B2 as [(b & B2 & _)|(b & B2 & _)]; pose proof (rd_rest B2) as Hl;
      rewrite Hr3 in Hl; cbn in Hn; rewrite Hl, !app_length in Hn; lia. }
    destruct B2 as [(b & B2 & B3)|(b & B2 & B3 & B4)].
    - exists s', (chr "/" :: chr "*" :: b ++ chr "*" :: chr "/" :: l). splits; auto.
      + eapply reads_cons; eauto. eapply reads_cons; eauto.
        replace (b ++ chr "*" :: chr "/" :: l) with ((b ++ [chr "*"; chr "/"]) ++ l)
          by (rewrite <- app_assoc; reflexivity).
        eauto using reads_trans.
      + apply tv_block; auto.
    - assert (l = [] /\ rest s' = []) as [-> Hn'].
      { pose proof (rd_rest H2) as Hl. rewrite B4 in Hl. symmetry in Hl. apply app_eq_nil in Hl. auto. }
      exists s', (chr "/" :: chr "*" :: b). splits; auto.
      + eapply reads_cons; eauto. eapply reads_cons; eauto.
        rewrite <- (app_nil_r b). eauto using reads_trans.
      + rewrite Hn'. apply tv_open; auto. }
  exists s, []. rewrite Hr. split; [reflexivity|]. split; [apply reads_refl|]. split; [apply tv_nil|].
  cbn. repeat split.
  - apply is_whitespace_false; auto.
  - apply is_line_terminator_false; auto.
  - intros ->. destruct r as [|d r']; auto. cbn [hd_error is_c] in *. lia.
Qed.

Lemma scan_comments_spec s :
  exists s' l, scan_comments s = ROk tt s' /\ reads s l s' /\ trivia l (rest s') /\ no_trivia (rest s').
Proof.
  destruct (@scan_comments_n_spec (S (length (rest s))) s) as (s' & l & H1 & H2); [lia|].
  exists s', l. unfold scan_comments. rewrite H1. auto.
Qed.
