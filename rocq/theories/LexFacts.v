(** * LexFacts: histories of tokens (proofs). *)
From Verif Require Import Base Codepoint Punct Token Scanner SpecLex SpecScan Hoare ScanBase ScanTrivia ScanToken ScanTokens2 ScanNext.
From Coq Require Import ZifyBool ZifyN ZifyNat.
Set Implicit Arguments.

Section Facts.
Context (E : env).

Definition hist (s : sst) : Prop :=
  quiet s /\ (forall v, sstate s = Some v -> sv_raw v = []).

(** Exceptions: what a failing scan from [s] may be. *)
Definition xScan (s : sst) : exc := mkExc
  (fun e => exists l r, rest s = l ++ r /\ err_line e = line s + breaks l r)
  (fun p => (p = P_UnterminatedTemplate /\ unterminated_template E (rest s)) \/
            (p = P_EscapeOverflow /\ checked E = true /\ overlong_escape (rest s)) \/
            (p = P_EofUnderflow /\ checked E = true /\ rest s = [] /\ current s = 0))
  False.
Lemma okX_xScan s : okX E (xScan s) s.
Proof. constructor; cbn; eauto 10. Qed.

Lemma s_next_fresh g s : quiet s -> fresh s ->
  wp (xScan s) (s_next E g) (fun t s' => exists tr l, next_token E s t tr l s') s.
Proof. intros Hq Hf. apply s_next_spec; auto using okX_xScan. cbn; auto 10. Qed.

Lemma hist_next g s t s' : hist s -> s_next E g s = ROk t s' -> hist s'.
Proof.
  intros [Hq Hs] H. destruct (unscanned s) as [u|] eqn:Hu.
  - unfold s_next in H. rewrite Hu in H. injection H as <- <-. split; auto.
  - pose proof (s_next_fresh g Hq Hu) as W; unfold wp in W; rewrite H in W; destruct W as (tr & l & N). split; [exact (nt_quiet N)|].
    intros v. rewrite (nt_sstate N). auto.
Qed.
Lemma hist_reach src s : reach E src s -> hist s.
Proof.
  induction 1 as [|s g t s' R IH H|s u s' R IH H|s t u s' R IH H].
  - split; [split; reflexivity|discriminate].
  - eapply hist_next; eauto.
  - injection H as <- <-. destruct IH as [[Q1 Q2] Hs]. split; [split; auto|]. cbn. intros v [= <-]. exact Q2.
  - unfold restore_state in H. destruct (sstate s) as [v|] eqn:Hv; [|discriminate]. injection H as <- <-.
    destruct IH as [[Q1 Q2] Hs]. split; [split; cbn; auto|discriminate].
Qed.

(** ** Layout *)
Lemma nexts_laid gs : forall s ts s' before, quiet s -> fresh s ->
  current s = len before -> line s = 1 + breaks before (rest s) ->
  s_nexts E gs s = ROk ts s' ->
  laid E before ts (rest s) (rest s').
Proof.
  induction gs as [|g gs IH]; intros s ts s' before Hq Hf Hc Hl H; cbn [s_nexts] in H.
  - injection H as <- <-. constructor.
  - unfold bind in H. pose proof (s_next_fresh g Hq Hf) as W. unfold wp in W.
    destruct (s_next E g s) as [t s1| | |] eqn:Hs1; try discriminate.
    destruct W as (tr & l & N).
    destruct (s_nexts E gs s1) as [ts1 s2| | |] eqn:Hs2; try discriminate. cbv in H. injection H as <- <-.
    rewrite (nt_rest N).
    assert (Hc1 : current s1 = len (before ++ tr ++ l)).
    { rewrite (nt_current N), !len_app. lia. }
    assert (Hl1 : line s1 = 1 + breaks (before ++ tr ++ l) (rest s1)).
    { rewrite (nt_breaks N), Hl, (breaks_app before), (nt_rest N), app_assoc. lia. }
    econstructor; eauto.
    + exact (nt_trivia N).
    + exact (nt_lexeme N).
    + rewrite (nt_start N), Hc. fold (len (before ++ tr)). rewrite len_app. lia.
    + intros Hne. fold (len (before ++ tr ++ l)). rewrite <- Hc1. apply (nt_end N).
      rewrite Hc1. destruct (before ++ tr ++ l); [congruence|]. rewrite len_cons. lia.
    + rewrite (nt_line N). exact Hl1.
    + eapply IH; eauto; [exact (nt_quiet N)|exact (nt_unscanned N)].
Qed.

Lemma nexts_error gs : forall s e before, quiet s -> fresh s ->
  line s = 1 + breaks before (rest s) -> s_nexts E gs s = RErr e ->
  exists l r, before ++ rest s = l ++ r /\ err_line e = 1 + breaks l r.
Proof.
  induction gs as [|g gs IH]; intros s e before Hq Hf Hl H; cbn [s_nexts] in H; [discriminate|].
  unfold bind in H. pose proof (s_next_fresh g Hq Hf) as W. unfold wp in W.
  destruct (s_next E g s) as [t s1|e1| |] eqn:Hs1; try discriminate.
  - destruct W as (tr & l & N). destruct (s_nexts E gs s1) as [| | |] eqn:Hs2; try discriminate. injection H as ->.
    assert (Hl1 : line s1 = 1 + breaks (before ++ tr ++ l) (rest s1)).
    { rewrite (nt_breaks N), Hl, (breaks_app before), (nt_rest N), app_assoc. lia. }
    specialize (IH s1 e (before ++ tr ++ l) (nt_quiet N) (nt_unscanned N) Hl1 Hs2).
    destruct IH as (l' & r & Hx & He). exists l', r. split; auto. rewrite <- Hx, (nt_rest N), <- !app_assoc. reflexivity.
  - injection H as ->. cbn in W. destruct W as (l & r & Hr & He). exists (before ++ l), r.
    split; [rewrite Hr, app_assoc; reflexivity|]. rewrite He, Hl, breaks_app, Hr. lia.
Qed.

Lemma nexts_panic gs : forall s p, quiet s -> fresh s -> s_nexts E gs s = RPanic p ->
  (p = P_UnterminatedTemplate /\ unterminated_template E (rest s)) \/
  (p = P_EscapeOverflow /\ checked E = true /\ overlong_escape (rest s)) \/
  (p = P_EofUnderflow /\ checked E = true /\ rest s = [] /\ current s = 0).
Proof.
  induction gs as [|g gs IH]; intros s p Hq Hf H; cbn [s_nexts] in H; [discriminate|].
  unfold bind in H. pose proof (s_next_fresh g Hq Hf) as W. unfold wp in W.
  destruct (s_next E g s) as [t s1|e1|p1|] eqn:Hs1; try discriminate.
  - destruct W as (tr & l & N). destruct (s_nexts E gs s1) as [| | |] eqn:Hs2; try discriminate. injection H as ->.
    destruct (IH s1 p (nt_quiet N) (nt_unscanned N) Hs2) as [[-> H]|[[-> [HE H]]|[-> [HE [H0 H1]]]]].
    + left. split; auto. destruct H as (pre & op & vs & ls & Ht & H). exists (tr ++ l ++ pre), op, vs, ls.
      rewrite (nt_rest N), Ht, <- !app_assoc. auto.
    + right; left. splits; auto. destruct H as (pre & ds & post & Ht & H). exists (tr ++ l ++ pre), ds, post.
      rewrite (nt_rest N), Ht, <- !app_assoc. auto.
    + right; right. rewrite (nt_current N) in H1.
      assert (tr = []) by (destruct tr; auto; rewrite len_cons in H1; lia).
      assert (l = []) by (destruct l; auto; rewrite len_cons in H1; lia). subst.
      splits; auto; [|lia]. rewrite (nt_rest N), H0. reflexivity.
  - injection H as ->. exact W.
Qed.
Lemma nexts_fuel gs : forall s, quiet s -> fresh s -> s_nexts E gs s <> RFuel.
Proof.
  induction gs as [|g gs IH]; intros s Hq Hf H; cbn [s_nexts] in H; [discriminate|].
  unfold bind in H. pose proof (s_next_fresh g Hq Hf) as W. unfold wp in W.
  destruct (s_next E g s) as [t s1|e1|p1|] eqn:Hs1; try discriminate; [|exact W].
  destruct W as (tr & l & N). destruct (s_nexts E gs s1) as [| | |] eqn:Hs2; try discriminate.
  exact (IH s1 (nt_quiet N) (nt_unscanned N) Hs2).
Qed.

(** ** Braces *)
Definition to_opener (b : brace) : opener := match b with BTemplate => Substitution | BLBrace => Plain end.
Lemma curly_opens t c : map to_opener (curly_after t c) = opens t (map to_opener c).
Proof.
  assert (Ht : forall c, map to_opener (tl c) = tl (map to_opener c)) by (destruct c0; reflexivity).
  unfold curly_after, opens. destruct (ttype t); auto.
  - destruct (tval t) as [|? |p|]; auto. destruct p; auto.
  - destruct (thead t) as [[]|]; destruct (ttail t) as [[]|]; cbn; rewrite ?Ht; auto.
Qed.
Definition resume_ok (st : list opener) (t : token) : Prop :=
  (ttype t = TTemplate -> thead t = Some false -> hd_error st = Some Substitution) /\
  (tval t = VPunc RBrace -> hd_error st <> Some Substitution).
Lemma nexts_braces gs : forall s ts s', quiet s -> fresh s -> s_nexts E gs s = ROk ts s' ->
  forall i t, nth_error ts i = Some t ->
    resume_ok (open_after (map to_opener (curly s)) (firstn i ts)) t.
Proof.
  induction gs as [|g gs IH]; intros s ts s' Hq Hf H i t Hi; cbn [s_nexts] in H.
  - injection H as <- <-. destruct i; discriminate.
  - unfold bind in H. pose proof (s_next_fresh g Hq Hf) as W. unfold wp in W.
    destruct (s_next E g s) as [t1 s1| | |] eqn:Hs1; try discriminate.
    destruct W as (tr & l & N).
    destruct (s_nexts E gs s1) as [ts1 s2| | |] eqn:Hs2; try discriminate. cbv in H. injection H as <- <-.
    destruct i as [|i]; cbn in Hi.
    + injection Hi as ->. cbn. split.
      * intros H1 H2. pose proof (nt_resume N H1 H2) as Hr. destruct (curly s) as [|[]]; cbn in *; congruence.
      * intros H1. pose proof (nt_close N H1) as Hr. destruct (curly s) as [|[]]; cbn in *; congruence.
    + cbn [firstn open_after]. rewrite <- curly_opens, <- (nt_curly N).
      eapply IH; eauto; [exact (nt_quiet N)|exact (nt_unscanned N)].
Qed.

(** ** After the end of input *)
Lemma next_at_end g s t s' : quiet s -> fresh s -> rest s = [] -> s_next E g s = ROk t s' ->
  ttype t = TEof /\ rest s' = [] /\ fresh s' /\ current s' = current s.
Proof.
  intros Hq Hf Hr H. pose proof (s_next_fresh g Hq Hf) as W; unfold wp in W; rewrite H in W; destruct W as (tr & l & N).
  pose proof (nt_rest N) as Hx. rewrite Hr in Hx. symmetry in Hx. apply app_eq_nil in Hx as [-> Hx]. apply app_eq_nil in Hx as [-> Hx].
  splits; auto. apply (nt_eof N); auto. exact (nt_unscanned N). rewrite (nt_current N). cbn. lia.
Qed.
Lemma eof_again g s : quiet s -> fresh s -> rest s = [] -> (checked E = true -> current s <> 0) ->
  exists t s', s_next E g s = ROk t s'.
Proof.
  intros Hq Hf Hr Hc. unfold s_next, fresh in *. rewrite Hf.
  assert (Hs : scan_comments (set_newline false s) = ROk tt (set_newline false s)).
  { unfold scan_comments. cbn [set_newline rest]. rewrite Hr. cbn. unfold s_peek2; cbn. rewrite Hr. reflexivity. }
  unfold bind. rewrite Hs. unfold modify at 1. unfold scan_token, s_peek2. cbn [s_start_new_token set_newline rest]. rewrite Hr. cbn [hd_error tl].
  unfold token_simple, mk_token. cbn [s_start_new_token set_newline current]. destruct (current s =? 0) eqn:H0; [|eauto].
  destruct (checked E); [|eauto]. exfalso. apply Hc; auto. lia.
Qed.
End Facts.
