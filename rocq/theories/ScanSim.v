(** * ScanSim: what a token is does not depend on positions (proofs). *)
From Verif Require Import Base Codepoint Punct Token Scanner SpecLex SpecScan Hoare ScanBase ScanTrivia ScanToken ScanTokens2 ScanNext.
From Coq Require Import ZifyBool ZifyN ZifyNat.
Set Implicit Arguments.

Record sim (s1 s2 : sst) : Prop := mkSim {
  sm_rest : rest s1 = rest s2;
  sm_rec : record_raw s1 = record_raw s2;
  sm_raw : raw_string s1 = raw_string s2;
  sm_curly : curly s1 = curly s2;
  sm_unscanned : unscanned s1 = unscanned s2;
  sm_current : current s1 <= current s2
}.

Definition res_rel {A} (R : A -> A -> Prop) (r1 r2 : res sst A) : Prop :=
  match r1, r2 with
  | ROk a1 s1, ROk a2 s2 => R a1 a2 /\ sim s1 s2
  | RErr e1, RErr e2 => err_type e1 = err_type e2
  | RPanic P_EofUnderflow, _ => True
  | RPanic p1, RPanic p2 => p1 = p2
  | RFuel, RFuel => True
  | _, _ => False
  end.
Definition simM {A} (R : A -> A -> Prop) (m1 m2 : SM A) : Prop :=
  forall s1 s2, sim s1 s2 -> res_rel R (m1 s1) (m2 s2).
Notation sime m := (simM eq m m).

Lemma sim_bind A B (R : A -> A -> Prop) (R' : B -> B -> Prop) m1 m2 k1 k2 :
  simM R m1 m2 -> (forall a1 a2, R a1 a2 -> simM R' (k1 a1) (k2 a2)) -> simM R' (bind m1 k1) (bind m2 k2).
Proof.
  intros Hm Hk s1 s2 S. specialize (Hm s1 s2 S). unfold bind, res_rel in *.
  destruct (m1 s1) as [a1 t1|e1|p1|], (m2 s2) as [a2 t2|e2|p2|]; auto; try contradiction;
    try (destruct p1; auto; contradiction).
  destruct Hm as [HR S']. apply Hk; auto.
Qed.
Lemma sim_bind_eq A B (R' : B -> B -> Prop) (m : SM A) k1 k2 :
  sime m -> (forall a, simM R' (k1 a) (k2 a)) -> simM R' (bind m k1) (bind m k2).
Proof. intros Hm Hk. eapply sim_bind; eauto. intros a1 a2 <-. auto. Qed.
Lemma sim_ret A (R : A -> A -> Prop) a1 a2 : R a1 a2 -> simM R (ret a1) (ret a2).
Proof. intros H s1 s2 S. split; auto. Qed.
Lemma sim_gets A (f : sst -> A) : (forall s1 s2, sim s1 s2 -> f s1 = f s2) -> sime (gets f).
Proof. intros H s1 s2 S. split; auto. Qed.
Lemma sim_peek : sime peek.
Proof. apply sim_gets. intros s1 s2 S. unfold s_peek. rewrite (sm_rest S). reflexivity. Qed.
Lemma sim_peek2 : sime peek2.
Proof. apply sim_gets. intros s1 s2 S. unfold s_peek2. rewrite (sm_rest S). reflexivity. Qed.
Lemma sim_s_consume s1 s2 : sim s1 s2 -> sim (s_consume s1) (s_consume s2).
Proof.
  intros [H1 H2 H3 H4 H5 H6]. unfold s_consume. rewrite H1, H2, H3.
  destruct (counts_line _ _); constructor; cbn; auto; lia.
Qed.
Lemma sim_consume : sime consume.
Proof. intros s1 s2 S. split; [rewrite (sm_rest S); reflexivity|apply sim_s_consume; auto]. Qed.
Lemma sim_error A (R : A -> A -> Prop) t : simM R (s_error t) (s_error t).
Proof. intros s1 s2 S. reflexivity. Qed.
Lemma sim_crash A (R : A -> A -> Prop) p : simM R (crash p) (crash p).
Proof. intros s1 s2 S. cbn. destruct p; auto. Qed.
Lemma sim_nofuel A (R : A -> A -> Prop) : simM R nofuel nofuel.
Proof. intros s1 s2 S. exact I. Qed.
Lemma sim_modify f : (forall s1 s2, sim s1 s2 -> sim (f s1) (f s2)) -> sime (modify f).
Proof. intros H s1 s2 S. split; auto. Qed.
Lemma sim_with A (R : A -> A -> Prop) (f : sst -> SM A) : (forall s1 s2, sim s1 s2 -> f s1 = f s2) ->
  (forall s, simM R (f s) (f s)) -> simM R (fun s => f s s) (fun s => f s s).
Proof. intros H1 H2 s1 s2 S. rewrite (H1 _ _ S). apply H2; auto. Qed.
Lemma sim_eq_in A (R : A -> A -> Prop) (m : SM A) : sime m -> (forall a, R a a) -> simM R m m.
Proof.
  intros Hm HR s1 s2 S. specialize (Hm s1 s2 S). unfold res_rel in *.
  destruct (m s1) as [? ?|?|p|], (m s2); auto. destruct Hm as [-> ?]; auto.
Qed.

Ltac step :=
  match goal with
  | |- simM _ (s_error _) _ => apply sim_error
  | |- simM _ (crash _) _ => apply sim_crash
  | |- simM _ nofuel _ => apply sim_nofuel
  | |- simM _ (ret _) _ => apply sim_ret; reflexivity
  | |- simM _ (bind _ _) _ => apply sim_bind_eq; [|intro]
  | |- simM _ peek _ => apply sim_peek
  | |- simM _ peek2 _ => apply sim_peek2
  | |- simM _ consume _ => apply sim_consume
  end.
Ltac sims := repeat first [ step | progress cbn beta iota
   | match goal with
     | |- simM _ (if ?b then _ else _) _ => destruct b
     | |- simM _ (match ?x with _ => _ end) _ => destruct x
     | |- simM _ (let _ := ?x in _) _ => destruct x
     end | solve [eauto] ].

Section WithEnv.
Context (E : env).

Lemma sim_consume_unwrap : sime consume_unwrap.
Proof. unfold consume_unwrap, unwrap. sims. Qed.
Lemma sim_consume_or t : sime (consume_or t).
Proof. unfold consume_or. sims. Qed.
Lemma sim_expect c : sime (expect_c c).
Proof. unfold expect_c. sims. Qed.
Lemma sim_until_n B pred (read : SM B) n : sime read -> sime (scan_until_n n pred read).
Proof. intros H. induction n as [|n IH]; cbn [scan_until_n]; sims. Qed.
Lemma sim_until B pred (read : SM B) : sime read -> sime (scan_until pred read).
Proof.
  intros H. unfold scan_until. apply sim_with with (f := fun s => scan_until_n (S (length (rest s))) pred read).
  - intros s1 s2 S. rewrite (sm_rest S). reflexivity.
  - intros. apply sim_until_n; auto.
Qed.
Lemma sim_2until_n B pred (read : SM B) n : sime read -> sime (scan2_until_n n pred read).
Proof. intros H. induction n as [|n IH]; cbn [scan2_until_n]; sims. Qed.
Lemma sim_2until B pred (read : SM B) : sime read -> sime (scan2_until pred read).
Proof.
  intros H. unfold scan2_until. apply sim_with with (f := fun s => scan2_until_n (S (length (rest s))) pred read).
  - intros s1 s2 S. rewrite (sm_rest S). reflexivity.
  - intros. apply sim_2until_n; auto.
Qed.
Lemma sim_from_u32 t v : sime (from_u32_or t v).
Proof. unfold from_u32_or. sims. Qed.
Lemma sim_some_or A t (o : option A) : sime (some_or t o).
Proof. unfold some_or. sims. Qed.
Lemma sim_hex_k k t : forall acc, sime (scan_hex_k k acc t).
Proof. induction k as [|k IH]; intros acc; cbn [scan_hex_k]; sims. Qed.
Hint Resolve sim_consume_unwrap sim_consume_or sim_expect sim_until sim_2until sim_from_u32 sim_some_or sim_hex_k : sim.
Ltac sims' := repeat first [ solve [eauto with sim] | step | progress cbn beta iota
   | match goal with
     | |- simM _ (if ?b then _ else _) _ => destruct b
     | |- simM _ (match ?x with _ => _ end) _ => destruct x
     end ].
Lemma sim_unicode_esc : sime (scan_unicode_esc_seq E).
Proof. unfold scan_unicode_esc_seq. sims'. Qed.
Lemma sim_hex_esc : sime scan_hex_esc_seq.
Proof. unfold scan_hex_esc_seq. sims'. Qed.
Hint Resolve sim_unicode_esc sim_hex_esc : sim.
Lemma sim_identifier_cp : sime (scan_identifier_cp E).
Proof. unfold scan_identifier_cp. sims'. Qed.
Lemma sim_octal : sime scan_octal_esc_seq.
Proof. unfold scan_octal_esc_seq. sims'. Qed.
Hint Resolve sim_identifier_cp sim_octal : sim.

Lemma sim_mk_token ty v pt fl oc ck hd tl :
  simM same_token (mk_token E ty v pt fl oc ck hd tl) (mk_token E ty v pt fl oc ck hd tl).
Proof.
  intros s1 s2 S. unfold mk_token. pose proof (sm_current S).
  destruct (current s1 =? 0) eqn:H1, (current s2 =? 0) eqn:H2; destruct (checked E); cbn; unfold same_token; cbn; auto 20; lia.
Qed.
Hint Resolve sim_mk_token : sim.
Lemma sim_token_simple ty v : simM same_token (token_simple E ty v) (token_simple E ty v).
Proof. apply sim_mk_token. Qed.
Hint Resolve sim_token_simple : sim.

Lemma sim_identifier : simM same_token (scan_identifier E) (scan_identifier E).
Proof. unfold scan_identifier, scan_identifier_start, identifier_token. sims'. Qed.
Lemma sim_exponent : sime scan_exponent.
Proof. unfold scan_exponent. sims'. Qed.
Hint Resolve sim_exponent : sim.
Lemma sim_fractional v : sime (scan_fractional_part v).
Proof. unfold scan_fractional_part. sims'. Qed.
Lemma sim_radix k : sime (scan_radix_literal k).
Proof. unfold scan_radix_literal. sims'. Qed.
Hint Resolve sim_fractional sim_radix : sim.
Lemma sim_number : sime scan_number.
Proof. unfold scan_number. sims'. Qed.
Hint Resolve sim_number : sim.
Lemma sim_numeric : simM same_token (scan_numeric_literal E) (scan_numeric_literal E).
Proof. unfold scan_numeric_literal. sims'. Qed.
Lemma sim_string_cp_n n : sime (scan_string_cp_n E n).
Proof. induction n as [|n IH]; cbn [scan_string_cp_n]; sims'. Qed.
Lemma sim_string_cp : sime (scan_string_literal_cp E).
Proof.
  unfold scan_string_literal_cp. apply sim_with with (f := fun s => scan_string_cp_n E (S (length (rest s)))).
  - intros s1 s2 S. rewrite (sm_rest S). reflexivity.
  - intros. apply sim_string_cp_n.
Qed.
Hint Resolve sim_string_cp : sim.
Lemma sim_string : simM same_token (scan_string_literal E) (scan_string_literal E).
Proof. unfold scan_string_literal. sims'. Qed.
Lemma sim_regexp_loop n : sime (scan_regexp_loop n).
Proof. induction n as [|n IH]; cbn [scan_regexp_loop]; sims'. Qed.
Lemma sim_regexp_body : sime scan_regexp_body.
Proof.
  unfold scan_regexp_body. sims'.
  apply sim_with with (f := fun s => scan_regexp_loop (S (length (rest s)))).
  - intros s1 s2 S. rewrite (sm_rest S). reflexivity.
  - intros. apply sim_regexp_loop.
Qed.
Hint Resolve sim_regexp_body : sim.
Lemma sim_regexp : simM same_token (scan_regexp_literal E) (scan_regexp_literal E).
Proof. unfold scan_regexp_literal, scan_regexp_flags. sims'. Qed.
Lemma sim_template_char : sime (scan_template_char E).
Proof. unfold scan_template_char. sims'. Qed.
Lemma sim_start_rec : sime start_recording.
Proof. apply sim_modify. intros s1 s2 [H1 H2 H3 H4 H5 H6]. constructor; cbn; auto. Qed.
Lemma sim_stop_rec : sime stop_recording.
Proof. intros s1 s2 [H1 H2 H3 H4 H5 H6]. cbn. split; auto. constructor; cbn; auto. Qed.
Lemma sim_push b : sime (push_curly b).
Proof. apply sim_modify. intros s1 s2 [H1 H2 H3 H4 H5 H6]. constructor; cbn; congruence. Qed.
Lemma sim_pop : sime pop_curly.
Proof. apply sim_modify. intros s1 s2 [H1 H2 H3 H4 H5 H6]. constructor; cbn; congruence. Qed.
Hint Resolve sim_template_char sim_start_rec sim_stop_rec sim_push sim_pop : sim.
Lemma sim_template op h : simM same_token (scan_template_piece E op h) (scan_template_piece E op h).
Proof. unfold scan_template_piece. sims'. Qed.
Lemma sim_punc0 v : simM same_token (punc0 E v) (punc0 E v).
Proof. unfold punc0, unwrap. sims'. Qed.
Lemma sim_punc1 v : simM same_token (punc1 E v) (punc1 E v).
Proof. unfold punc1, unwrap. sims'. Qed.
Lemma sim_punc2 v : simM same_token (punc2 E v) (punc2 E v).
Proof. unfold punc2, unwrap. sims'. Qed.
Hint Resolve sim_punc0 sim_punc1 sim_punc2 : sim.
Lemma sim_punctuator : simM same_token (scan_punctuator E) (scan_punctuator E).
Proof. unfold scan_punctuator. sims'. Qed.
Lemma sim_div : simM same_token (scan_div_punctuator E) (scan_div_punctuator E).
Proof. unfold scan_div_punctuator. sims'. Qed.
Hint Resolve sim_punctuator sim_div sim_template sim_regexp sim_string sim_numeric sim_identifier : sim.
Lemma sim_scan_token g : simM same_token (scan_token E g) (scan_token E g).
Proof.
  intros s1 s2 S. unfold scan_token, s_peek2. rewrite <- (sm_rest S), <- (sm_curly S).
  revert s1 s2 S. 
  assert (G : forall o1 o2 c, simM same_token
     (match o1 with
      | Some c0 =>
        if is_identifier_start E c0 then scan_identifier E
        else if (c0 =? 34) || (c0 =? 39) then scan_string_literal E
        else if (c0 =? 46) && match o2 with Some d => is_decimal_digit d | None => false end then scan_numeric_literal E
        else if is_decimal_digit c0 then scan_numeric_literal E
        else if c0 =? 96 then scan_template E
        else if (c0 =? 125) && match c with BTemplate :: _ => true | _ => false end
        then pop_curly;;; scan_template_substitution_tail E
        else if c0 =? 47 then match g with GDiv => scan_div_punctuator E | GRegExp => scan_regexp_literal E end
        else scan_punctuator E
      | None => token_simple E TEof VNull end)
     (match o1 with
      | Some c0 =>
        if is_identifier_start E c0 then scan_identifier E
        else if (c0 =? 34) || (c0 =? 39) then scan_string_literal E
        else if (c0 =? 46) && match o2 with Some d => is_decimal_digit d | None => false end then scan_numeric_literal E
        else if is_decimal_digit c0 then scan_numeric_literal E
        else if c0 =? 96 then scan_template E
        else if (c0 =? 125) && match c with BTemplate :: _ => true | _ => false end
        then pop_curly;;; scan_template_substitution_tail E
        else if c0 =? 47 then match g with GDiv => scan_div_punctuator E | GRegExp => scan_regexp_literal E end
        else scan_punctuator E
      | None => token_simple E TEof VNull end)).
  { intros o1 o2 c. unfold scan_template, scan_template_substitution_tail. sims'. }
  intros s1 s2 S. exact (G (hd_error (rest s1)) (hd_error (tl (rest s1))) (curly s1) s1 s2 S).
Qed.
End WithEnv.

(** ** Trivia is unique *)
Lemma trivia_app a : forall x b y, trivia a x -> x = b ++ y -> trivia b y -> trivia (a ++ b) y.
Proof.
  intros x b y H. revert b y. induction H as [r|c l r Hw H IH|c l r Hw H IH|b0 l r Hb Hs H IH|b0 l r Hb H IH|b0 Hb]; intros b y Hx Hy; cbn [app]; [subst r|subst r|subst r|subst r|subst r|].
  - exact Hy.
  - apply tv_space; auto.
  - apply tv_line; auto.
  - rewrite <- app_assoc. apply tv_comment; auto. rewrite <- app_assoc. exact Hs.
  - rewrite <- app_assoc. cbn [app]. apply tv_block; auto.
  - symmetry in Hx; apply app_eq_nil in Hx as [-> ->]. rewrite app_nil_r. apply tv_open; auto.
Qed.
Lemma has_close_app b r : has_close (b ++ chr "*" :: chr "/" :: r) = true.
Proof. induction b as [|c b IH]; cbn [app has_close]; [reflexivity|]. rewrite IH. apply Bool.orb_true_r. Qed.
Lemma close_unique b1 : forall b2 r1 r2, has_close (b1 ++ [chr "*"]) = false -> has_close (b2 ++ [chr "*"]) = false ->
  b1 ++ chr "*" :: chr "/" :: r1 = b2 ++ chr "*" :: chr "/" :: r2 -> b1 = b2 /\ r1 = r2.
Proof.
  assert (K : forall c b r r2, has_close ((c :: b) ++ [chr "*"]) = false -> chr "*" :: chr "/" :: r = (c :: b) ++ chr "*" :: chr "/" :: r2 -> False).
  { intros c b r r2 H1 H2. cbn [app] in H2. injection H2 as <- H2. destruct b as [|d b]; cbn [app] in H2; [discriminate|].
    injection H2 as <- _. cbn in H1. discriminate. }
  induction b1 as [|c b1 IH]; intros [|d b2] r1 r2 H1 H2 He.
  - cbn in He. injection He as ->. auto.
  - destruct (K d b2 r1 r2 H2 He).
  - symmetry in He. destruct (K c b1 r2 r1 H1 He).
  - cbn [app] in He. injection He as -> He. cbn [app] in H1, H2. rewrite has_close_cons in H1, H2.
    apply Bool.orb_false_iff in H1 as [_ H1]. apply Bool.orb_false_iff in H2 as [_ H2].
    destruct (IH b2 r1 r2 H1 H2 He) as [-> ->]. auto.
Qed.
Lemma line_unique b1 : forall b2 r1 r2, Forall (fun c => ~ line_terminator c) b1 -> Forall (fun c => ~ line_terminator c) b2 ->
  starts_line r1 -> starts_line r2 -> b1 ++ r1 = b2 ++ r2 -> b1 = b2 /\ r1 = r2.
Proof.
  induction b1 as [|c b1 IH]; intros [|d b2] r1 r2 H1 H2 S1 S2 He; cbn [app] in He; auto.
  - subst r1. cbn in S1. inversion H2; subst; contradiction.
  - subst r2. cbn in S2. inversion H1; subst; contradiction.
  - injection He as -> He. inversion H1; inversion H2; subst. destruct (IH b2 r1 r2) as [-> ->]; auto.
Qed.
Lemma trivia_unique a : forall x, trivia a x -> no_trivia x -> forall b y, trivia b y -> no_trivia y -> a ++ x = b ++ y -> x = y.
Proof.
  assert (Sl : ~ white_space (chr "/")) by (unfold white_space; lia).
  assert (Sl2 : ~ line_terminator (chr "/")) by (unfold line_terminator, LF, CR; lia).
  assert (WL : forall c, white_space c -> line_terminator c -> False) by (unfold white_space, line_terminator, LF, CR; intros; lia).
  intros x H. induction H as [r|c l r Hw H IH|c l r Hw H IH|b0 l r Hb Hs H IH|b0 l r Hb H IH|b0 Hb]; intros Nx b y Hy Ny He.
  - cbn [app] in He. subst r. destruct Hy as [r|c l r Hw H|c l r Hw H|b0 l r Hb Hs H|b0 l r Hb H|b0 Hb]; auto; exfalso; cbn in Nx; intuition.
  - destruct Hy as [r'|c' l' r' Hw' H'|c' l' r' Hw' H'|b0 l' r' Hb Hs H'|b0 l' r' Hb H'|b0 Hb]; cbn [app] in He.
    + subst r'. cbn in Ny. exfalso; intuition.
    + injection He as _ He. eauto.
    + injection He as -> He. exfalso; eauto.
    + injection He as -> He. contradiction.
    + injection He as -> He. contradiction.
    + injection He as -> He. contradiction.
  - destruct Hy as [r'|c' l' r' Hw' H'|c' l' r' Hw' H'|b0 l' r' Hb Hs H'|b0 l' r' Hb H'|b0 Hb]; cbn [app] in He.
    + subst r'. cbn in Ny. exfalso; intuition.
    + injection He as -> He. exfalso; eauto.
    + injection He as _ He. eauto.
    + injection He as -> He. contradiction.
    + injection He as -> He. contradiction.
    + injection He as -> He. contradiction.
  - destruct Hy as [r'|c' l' r' Hw' H'|c' l' r' Hw' H'|b1 l' r' Hb' Hs' H'|b1 l' r' Hb' H'|b1 Hb']; cbn [app] in He.
    + subst r'. cbn in Ny. exfalso. destruct Ny as (_ & _ & Ny). specialize (Ny eq_refl). tauto.
    + injection He as <- He. contradiction.
    + injection He as <- He. contradiction.
    + injection He as He. rewrite <- !app_assoc in He. apply line_unique in He as [_ He]; auto. eauto.
    + discriminate.
    + discriminate.
  - destruct Hy as [r'|c' l' r' Hw' H'|c' l' r' Hw' H'|b1 l' r' Hb' Hs' H'|b1 l' r' Hb' H'|b1 Hb']; cbn [app] in He.
    + subst r'. cbn in Ny. exfalso. destruct Ny as (_ & _ & Ny). specialize (Ny eq_refl). tauto.
    + injection He as <- He. contradiction.
    + injection He as <- He. contradiction.
    + discriminate.
    + injection He as He. rewrite <- !app_assoc in He. cbn [app] in He. apply close_unique in He as [_ He]; auto. eauto.
    + injection He as He. rewrite app_nil_r, <- app_assoc in He. cbn [app] in He. exfalso. rewrite <- He, has_close_app in Hb'. discriminate.
  - destruct Hy as [r'|c' l' r' Hw' H'|c' l' r' Hw' H'|b1 l' r' Hb' Hs' H'|b1 l' r' Hb' H'|b1 Hb']; cbn [app] in He; auto.
    + subst r'. cbn in Ny. exfalso. destruct Ny as (_ & _ & Ny). specialize (Ny eq_refl). tauto.
    + injection He as <- He. contradiction.
    + injection He as <- He. contradiction.
    + discriminate.
    + injection He as He. rewrite app_nil_r, <- app_assoc in He. cbn [app] in He. exfalso. rewrite He, has_close_app in Hb. discriminate.
Qed.

(** Prefixing trivia changes no token. *)
Lemma next_trivia E g s1 s2 tr : quiet s1 -> fresh s1 -> fresh s2 -> rest s2 = tr ++ rest s1 -> trivia tr (rest s1) ->
  record_raw s2 = record_raw s1 -> raw_string s2 = raw_string s1 -> curly s2 = curly s1 -> current s1 <= current s2 ->
  res_rel same_token (s_next E g s1) (s_next E g s2).
Proof.
  intros [Q1 Q2] F1 F2 Hr Ht Hrec Hraw Hcu Hc. unfold s_next. unfold fresh in *. rewrite F1, F2.
  destruct (scan_comments_spec (set_newline false s1)) as (t1 & l1 & B1 & R1 & T1 & N1).
  destruct (scan_comments_spec (set_newline false s2)) as (t2 & l2 & B2 & R2 & T2 & N2).
  unfold bind. rewrite B1, B2. unfold modify. apply sim_scan_token.
  destruct R1 as [A1 A2 A3 A4 A5 A6 A7 A8 A9], R2 as [C1 C2 C3 C4 C5 C6 C7 C8 C9].
  cbn [set_newline rest current line start curly unscanned sstate record_raw raw_string] in *.
  assert (Hx : rest t1 = rest t2).
  { apply (@trivia_unique (tr ++ l1) (rest t1)) with (b := l2); auto.
    - rewrite A1 in Ht. eapply trivia_app; eauto.
    - rewrite <- app_assoc, <- A1, <- C1, Hr. reflexivity. }
  rewrite Hrec, Q1 in C9. rewrite Q1 in A9.
  constructor; cbn; auto; try congruence.
  assert (len (rest s2) = len tr + len (rest s1)) by (rewrite Hr, len_app; reflexivity).
  assert (len (rest s1) = len l1 + len (rest t1)) by (rewrite A1, len_app; reflexivity).
  assert (len (rest s2) = len l2 + len (rest t2)) by (rewrite C1, len_app; reflexivity).
  rewrite Hx in *. lia.
Qed.
