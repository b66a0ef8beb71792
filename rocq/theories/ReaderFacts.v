(** * ReaderFacts: the buffered reader (proofs). *)
From Verif Require Import Base Reader SpecReader.
From Coq Require Import ZifyNat.
Set Implicit Arguments.

Definition pending (r : reader) : str := r_buf r ++ r_source r.

Lemma r_fill_pending k : forall r, pending (snd (r_fill k r)) = pending r.
Proof.
  induction k as [|k IH]; intros [src b]; [reflexivity|]. cbn [r_fill r_source r_buf].
  destruct src as [|c src]; [reflexivity|]. rewrite IH. unfold pending; cbn. rewrite <- app_assoc. reflexivity.
Qed.
Lemma r_fill_true k : forall r r', r_fill k r = (true, r') -> length (r_buf r') = (length (r_buf r) + k)%nat.
Proof.
  induction k as [|k IH]; intros [src b] r' H; cbn [r_fill r_source r_buf] in *.
  - injection H as <-. cbn. lia.
  - destruct src as [|c src]; [discriminate|]. apply IH in H. rewrite H. cbn. rewrite app_length. cbn. lia.
Qed.
Lemma r_fill_false k : forall r r', r_fill k r = (false, r') -> (k <> 0)%nat /\ r_source r' = [] /\ (length (r_buf r') < length (r_buf r) + k)%nat.
Proof.
  induction k as [|k IH]; intros [src b] r' H; cbn [r_fill r_source r_buf] in *; [discriminate|].
  destruct src as [|c src].
  - injection H as <-. cbn. repeat split; auto; lia.
  - apply IH in H. cbn in H. rewrite app_length in H. cbn in H. repeat split; [lia|tauto|lia].
Qed.
Lemma r_lookahead_spec n r : fst (r_lookahead n r) = nth_error (pending r) n /\ pending (snd (r_lookahead n r)) = pending r.
Proof.
  unfold r_lookahead. pose proof (r_fill_pending (S n - length (r_buf r)) r) as Hp.
  destruct (r_fill (S n - length (r_buf r)) r) as [[] r'] eqn:H; cbn [fst snd] in *; split; auto; rewrite <- Hp; unfold pending.
  - apply r_fill_true in H. rewrite nth_error_app1; auto. lia.
  - apply r_fill_false in H as (H0 & H1 & H2). rewrite H1, app_nil_r. symmetry. apply nth_error_None. lia.
Qed.
Lemma r_next_spec r : fst (r_next r) = hd_error (pending r) /\ pending (snd (r_next r)) = tl (pending r).
Proof. destruct r as [src [|c b]]; cbn; auto. destruct src; cbn; auto. Qed.

Lemma nth_error_tl A n (l : list A) : nth_error (tl l) n = nth_error l (S n).
Proof. destruct l; auto. destruct n; reflexivity. Qed.

Lemma r_run_spec ops : forall r i o, nth_error ops i = Some o ->
  nth_error (fst (r_run ops r)) i = Some (match o with
    | Next => nth_error (pending r) (nexts (firstn i ops))
    | Look n => nth_error (pending r) (nexts (firstn i ops) + n) end).
Proof.
  induction ops as [|o ops IH]; intros r i o' Hi; [destruct i; discriminate|].
  cbn [r_run]. destruct (r_step o r) as [x r1] eqn:H1. destruct (r_run ops r1) as [xs r2] eqn:H2. cbn [fst].
  destruct i as [|i]; cbn [nth_error firstn] in *.
  - injection Hi as <-. cbn [nexts]. f_equal. destruct o as [n|]; cbn [r_step] in H1.
    + pose proof (r_lookahead_spec n r) as [Hl _]. rewrite H1 in Hl. cbn in *. auto.
    + pose proof (r_next_spec r) as [Hl _]. rewrite H1 in Hl. cbn in *. rewrite Hl. destruct (pending r); reflexivity.
  - specialize (IH r1 i o' Hi). rewrite H2 in IH. cbn [fst] in IH. rewrite IH. f_equal.
    destruct o as [n|]; cbn [nexts r_step] in *.
    + pose proof (r_lookahead_spec n r) as [_ Hl]. rewrite H1 in Hl. cbn in Hl. rewrite Hl. reflexivity.
    + pose proof (r_next_spec r) as [_ Hl]. rewrite H1 in Hl. cbn in Hl. rewrite Hl.
      destruct o'; rewrite nth_error_tl; reflexivity.
Qed.
Lemma r_run_length ops : forall r, length (fst (r_run ops r)) = length ops.
Proof.
  induction ops as [|o ops IH]; intros r; auto. cbn [r_run]. destruct (r_step o r) as [x r1]. specialize (IH r1).
  destruct (r_run ops r1). cbn in *. lia.
Qed.
Lemma r_run_handed ops : forall r, handed ops (fst (r_run ops r)) = firstn (nexts ops) (pending r).
Proof.
  induction ops as [|o ops IH]; intros r; [reflexivity|]. cbn [r_run].
  destruct (r_step o r) as [x r1] eqn:H1. specialize (IH r1). destruct (r_run ops r1) as [xs r2]. cbn [fst handed] in *.
  destruct o as [n|]; cbn [r_step] in H1.
  - pose proof (r_lookahead_spec n r) as [_ Hl]. rewrite H1 in Hl. cbn in Hl. rewrite IH, Hl. reflexivity.
  - pose proof (r_next_spec r) as [Hx Hl]. rewrite H1 in Hl, Hx. cbn in Hl, Hx. rewrite Hx.
    destruct (pending r) as [|c p]; cbn [hd_error tl nexts firstn] in *.
    + rewrite IH, Hl. destruct (nexts ops); reflexivity.
    + rewrite IH, Hl. reflexivity.
Qed.
