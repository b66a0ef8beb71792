(** * ScanShift: scanning the same text at another place (proofs for C48). *)
From Verif Require Import Base Codepoint Punct Token Scanner SpecLex SpecScan Hoare ScanBase ScanTrivia Ast ParserBase SimBase.
From Verif Require ScanSim.
From Coq Require Import ZifyBool ZifyN ZifyNat.
Set Implicit Arguments.
Local Open Scope N_scope.

Section Shift.
(** [full] is false where the saved state does not matter. *)
Context (E : env) (dl dk : Z) (full : bool).
(** Markers [dl] lines and [dk] characters apart *)
Definition RMz (m m' : marker) : Prop :=
  Z.of_N (mk_line m') = (Z.of_N (mk_line m) + dl)%Z /\ mk_col m' = mk_col m /\ Z.of_N (mk_idx m') = (Z.of_N (mk_idx m) + dk)%Z.
Definition tk_rel : token -> token -> Prop := trel RMz.
Definition opt_rel {A} (R : A -> A -> Prop) (a b : option A) : Prop :=
  match a, b with Some x, Some y => R x y | None, None => True | _, _ => False end.
(** No arithmetic overflow *)
Definition some_read (n : N) : Prop := checked E = true -> 0 < n.
Record sv_rel (s1 s2 : saved) : Prop := mkSvRel {
  vr_mark : RMz (mkMarker (sv_line s1) (sv_col s1) (sv_current s1)) (mkMarker (sv_line s2) (sv_col s2) (sv_current s2));
  vr_start : Z.of_N (sv_start s2) = (Z.of_N (sv_start s1) + dk)%Z;
  vr_raw : sv_raw s1 = sv_raw s2;
  vr_curly : sv_curly s1 = sv_curly s2;
  vr_read : some_read (sv_current s2) }.
Record shf (s1 s2 : sst) : Prop := mkShf {
  sm_rest : rest s1 = rest s2;
  sm_rec : record_raw s1 = record_raw s2;
  sm_raw : raw_string s1 = raw_string s2;
  sm_curly : curly s1 = curly s2;
  sm_mark : RMz (smark s1) (smark s2);
  sm_start : Z.of_N (start s2) = (Z.of_N (start s1) + dk)%Z;
  sm_unscanned : opt_rel tk_rel (unscanned s1) (unscanned s2);
  sm_sstate : full = true -> opt_rel sv_rel (sstate s1) (sstate s2);
  sm_read : some_read (current s2) }.
Definition simM {A} (R : A -> A -> Prop) (m1 m2 : SM A) : Prop :=
  forall s1 s2, shf s1 s2 -> (forall a1 t1, m1 s1 = ROk a1 t1 -> exists a2 t2, m2 s2 = ROk a2 t2 /\ R a1 a2 /\ shf t1 t2) /\
    (forall e, m1 s1 = RErr e -> exists e', m2 s2 = RErr e' /\ erel RMz e e').
Notation sime m := (simM eq m m).

Lemma sim_bind A B (R : A -> A -> Prop) (R' : B -> B -> Prop) m1 m2 k1 k2 :
  simM R m1 m2 -> (forall a1 a2, R a1 a2 -> simM R' (k1 a1) (k2 a2)) -> simM R' (bind m1 k1) (bind m2 k2).
Proof.
  intros Hm Hk s1 s2 S. destruct (Hm _ _ S) as [Hm1 Hm2]. unfold bind in *. destruct (m1 s1) as [a1 t1|e1| |] eqn:E1; try (split; discriminate).
  - destruct (Hm1 _ _ eq_refl) as (a2 & t2 & -> & HR & S'). exact (Hk _ _ HR _ _ S').
  - split; [discriminate|]. intros e [= <-]. destruct (Hm2 _ eq_refl) as (e2 & -> & Q). eauto.
Qed.
Lemma sim_bind_eq A B (R' : B -> B -> Prop) (m : SM A) k1 k2 :
  sime m -> (forall a, simM R' (k1 a) (k2 a)) -> simM R' (bind m k1) (bind m k2).
Proof. intros Hm Hk. eapply sim_bind; eauto. intros a1 a2 <-. auto. Qed.
Lemma sim_ret A (R : A -> A -> Prop) a1 a2 : R a1 a2 -> simM R (ret a1) (ret a2).
Proof. intros H s1 s2 S. split; [|discriminate]. intros a t [= <- <-]. eexists _, _. split; [reflexivity|]. auto. Qed.
Lemma sim_gets A (f : sst -> A) : (forall s1 s2, shf s1 s2 -> f s1 = f s2) -> sime (gets f).
Proof. intros H s1 s2 S. split; [|discriminate]. intros a t [= <- <-]. eexists _, _. split; [reflexivity|]. auto. Qed.
Lemma sim_peek : sime peek.
Proof. apply sim_gets. intros s1 s2 S. unfold s_peek. rewrite (sm_rest S). reflexivity. Qed.
Lemma sim_peek2 : sime peek2.
Proof. apply sim_gets. intros s1 s2 S. unfold s_peek2. rewrite (sm_rest S). reflexivity. Qed.
Lemma sim_s_consume s1 s2 : shf s1 s2 -> shf (s_consume s1) (s_consume s2).
Proof.
  intros [H1 H2 H3 H4 [H5 [H6 H7]] H8 H9 H10 H11]. unfold s_consume. rewrite H1, H2, H3.
  unfold smark, RMz, some_read in *. cbn in *.
  destruct (counts_line _ _); constructor; unfold RMz, some_read; cbn; auto; try (split; [lia|split; lia]); lia.
Qed.
Lemma sim_consume : sime consume.
Proof. intros s1 s2 S. split; [|discriminate]. intros a t [= <- <-]. eexists _, _. split; [reflexivity|]. split; [rewrite (sm_rest S); reflexivity|apply sim_s_consume; auto]. Qed.
Lemma sim_error A (R : A -> A -> Prop) t : simM R (s_error t) (s_error t).
Proof.
  intros s1 s2 S. split; [discriminate|]. intros e [= <-]. eexists. split; [reflexivity|]. split; [reflexivity|].
  exists (current s1), (current s2). exact (sm_mark S).
Qed.
Lemma sim_crash A (R : A -> A -> Prop) p : simM R (crash p) (crash p).
Proof. intros s1 s2 S. split; discriminate. Qed.
Lemma sim_nofuel A (R : A -> A -> Prop) : simM R nofuel nofuel.
Proof. intros s1 s2 S. split; discriminate. Qed.
Lemma sim_modify f : (forall s1 s2, shf s1 s2 -> shf (f s1) (f s2)) -> sime (modify f).
Proof. intros H s1 s2 S. split; [|discriminate]. intros a t [= <- <-]. eexists _, _. split; [reflexivity|]. auto. Qed.
Lemma sim_with A (R : A -> A -> Prop) (f : sst -> SM A) : (forall s1 s2, shf s1 s2 -> f s1 = f s2) ->
  (forall s, simM R (f s) (f s)) -> simM R (fun s => f s s) (fun s => f s s).
Proof. intros H1 H2 s1 s2 S. rewrite <- (H1 _ _ S). apply H2. exact S. Qed.

Ltac step :=
  match goal with
  | |- simM _ (s_error _) _ => apply sim_error
  | |- simM _ (crash _) _ => apply sim_crash
  | |- simM _ nofuel _ => apply sim_nofuel
  | |- simM _ (ret _) _ => apply sim_ret; reflexivity
  | |- simM _ (bind _ _) _ => apply sim_bind_eq; [|intro]
  | |- simM _ peek _ => apply sim_peek
  | |- simM _ peek2 _ => apply sim_peek2
  | |- simM _ consume _ => apply sim_consume
  end.
Ltac sims := repeat first [ step | progress cbn beta iota
   | match goal with
     | |- simM _ (if ?b then _ else _) _ => destruct b
     | |- simM _ (match ?x with _ => _ end) _ => destruct x
     | |- simM _ (let _ := ?x in _) _ => destruct x
     end | solve [eauto] ].


Lemma sim_consume_unwrap : sime consume_unwrap.
Proof. unfold consume_unwrap, unwrap. sims. Qed.
Lemma sim_consume_or t : sime (consume_or t).
Proof. unfold consume_or. sims. Qed.
Lemma sim_expect c : sime (expect_c c).
Proof. unfold expect_c. sims. Qed.
Lemma sim_until_n B pred (read : SM B) n : sime read -> sime (scan_until_n n pred read).
Proof. intros H. induction n as [|n IH]; cbn [scan_until_n]; sims. Qed.
Lemma sim_until B pred (read : SM B) : sime read -> sime (scan_until pred read).
Proof.
  intros H. unfold scan_until. apply sim_with with (f := fun s => scan_until_n (S (length (rest s))) pred read).
  - intros s1 s2 S. rewrite (sm_rest S). reflexivity.
  - intros. apply sim_until_n; auto.
Qed.
Lemma sim_2until_n B pred (read : SM B) n : sime read -> sime (scan2_until_n n pred read).
Proof. intros H. induction n as [|n IH]; cbn [scan2_until_n]; sims. Qed.
Lemma sim_2until B pred (read : SM B) : sime read -> sime (scan2_until pred read).
Proof.
  intros H. unfold scan2_until. apply sim_with with (f := fun s => scan2_until_n (S (length (rest s))) pred read).
  - intros s1 s2 S. rewrite (sm_rest S). reflexivity.
  - intros. apply sim_2until_n; auto.
Qed.
Lemma sim_from_u32 t v : sime (from_u32_or t v).
Proof. unfold from_u32_or. sims. Qed.
Lemma sim_some_or A t (o : option A) : sime (some_or t o).
Proof. unfold some_or. sims. Qed.
Lemma sim_hex_k k t : forall acc, sime (scan_hex_k k acc t).
Proof. induction k as [|k IH]; intros acc; cbn [scan_hex_k]; sims. Qed.
Hint Resolve sim_consume_unwrap sim_consume_or sim_expect sim_until sim_2until sim_from_u32 sim_some_or sim_hex_k : sim.
Ltac sims' := repeat first [ solve [eauto with sim] | step | progress cbn beta iota
   | match goal with
     | |- simM _ (if ?b then _ else _) _ => destruct b
     | |- simM _ (match ?x with _ => _ end) _ => destruct x
     end ].
Lemma sim_unicode_esc : sime (scan_unicode_esc_seq E).
Proof. unfold scan_unicode_esc_seq. sims'. Qed.
Lemma sim_hex_esc : sime scan_hex_esc_seq.
Proof. unfold scan_hex_esc_seq. sims'. Qed.
Hint Resolve sim_unicode_esc sim_hex_esc : sim.
Lemma sim_identifier_cp : sime (scan_identifier_cp E).
Proof. unfold scan_identifier_cp. sims'. Qed.
Lemma sim_octal : sime scan_octal_esc_seq.
Proof. unfold scan_octal_esc_seq. sims'. Qed.
Hint Resolve sim_identifier_cp sim_octal : sim.

Lemma sim_mk_token ty v pt fl oc ck hd tl :
  simM tk_rel (mk_token E ty v pt fl oc ck hd tl) (mk_token E ty v pt fl oc ck hd tl).
Proof.
  intros s1 s2 S. split; [|unfold mk_token; destruct (current s1 =? 0); [destruct (checked E)|]; discriminate]. intros a1 t1 H. pose proof (sm_mark S) as [M1 [M2 M3]]. pose proof (sm_start S) as M4. pose proof (sm_read S) as M5. unfold mk_token in *.
  assert (K : forall e1 e2, tk_rel (mkToken ty v pt fl oc ck hd tl (line s1) (col s1) (start s1) e1) (mkToken ty v pt fl oc ck hd tl (line s2) (col s2) (start s2) e2)).
  { intros e1 e2. exists (mkMarker (line s2) (col s2) (start s2), e2). split; [reflexivity|]. split; [exact M1|split; [exact M2|exact M4]]. }
  assert (A : exists e1, a1 = mkToken ty v pt fl oc ck hd tl (line s1) (col s1) (start s1) e1 /\ t1 = s1).
  { destruct (current s1 =? 0); [destruct (checked E); try discriminate|]; injection H as <- <-; eauto. }
  destruct A as (e1 & -> & ->). destruct (current s2 =? 0) eqn:C2.
  - unfold some_read in M5. destruct (checked E); [specialize (M5 eq_refl); lia|]. eexists _, _. split; [reflexivity|]. auto.
  - eexists _, _. split; [reflexivity|]. auto.
Qed.
Hint Resolve sim_mk_token : sim.
Lemma sim_token_simple ty v : simM tk_rel (token_simple E ty v) (token_simple E ty v).
Proof. apply sim_mk_token. Qed.
Hint Resolve sim_token_simple : sim.

Lemma sim_identifier : simM tk_rel (scan_identifier E) (scan_identifier E).
Proof. unfold scan_identifier, scan_identifier_start, identifier_token. sims'. Qed.
Lemma sim_exponent : sime scan_exponent.
Proof. unfold scan_exponent. sims'. Qed.
Hint Resolve sim_exponent : sim.
Lemma sim_fractional v : sime (scan_fractional_part v).
Proof. unfold scan_fractional_part. sims'. Qed.
Lemma sim_radix k : sime (scan_radix_literal k).
Proof. unfold scan_radix_literal. sims'. Qed.
Hint Resolve sim_fractional sim_radix : sim.
Lemma sim_number : sime scan_number.
Proof. unfold scan_number. sims'. Qed.
Hint Resolve sim_number : sim.
Lemma sim_numeric : simM tk_rel (scan_numeric_literal E) (scan_numeric_literal E).
Proof. unfold scan_numeric_literal. sims'. Qed.
Lemma sim_string_cp_n n : sime (scan_string_cp_n E n).
Proof. induction n as [|n IH]; cbn [scan_string_cp_n]; sims'. Qed.
Lemma sim_string_cp : sime (scan_string_literal_cp E).
Proof.
  unfold scan_string_literal_cp. apply sim_with with (f := fun s => scan_string_cp_n E (S (length (rest s)))).
  - intros s1 s2 S. rewrite (sm_rest S). reflexivity.
  - intros. apply sim_string_cp_n.
Qed.
Hint Resolve sim_string_cp : sim.
Lemma sim_string : simM tk_rel (scan_string_literal E) (scan_string_literal E).
Proof. unfold scan_string_literal. sims'. Qed.
Lemma sim_regexp_loop n : sime (scan_regexp_loop n).
Proof. induction n as [|n IH]; cbn [scan_regexp_loop]; sims'. Qed.
Lemma sim_regexp_body : sime scan_regexp_body.
Proof.
  unfold scan_regexp_body. sims'.
  apply sim_with with (f := fun s => scan_regexp_loop (S (length (rest s)))).
  - intros s1 s2 S. rewrite (sm_rest S). reflexivity.
  - intros. apply sim_regexp_loop.
Qed.
Hint Resolve sim_regexp_body : sim.
Lemma sim_regexp : simM tk_rel (scan_regexp_literal E) (scan_regexp_literal E).
Proof. unfold scan_regexp_literal, scan_regexp_flags. sims'. Qed.
Lemma sim_template_char : sime (scan_template_char E).
Proof. unfold scan_template_char. sims'. Qed.
Lemma sim_start_rec : sime start_recording.
Proof. apply sim_modify. intros s1 s2 [H1 H2 H3 H4 H5 H6]. constructor; cbn; auto. Qed.
Lemma sim_stop_rec : sime stop_recording.
Proof. intros s1 s2 [H1 H2 H3 H4 H5 H6]. split; [|discriminate]. intros a t [= <- <-]. eexists _, _. split; [reflexivity|]. split; [exact H3|]. constructor; cbn; auto. Qed.
Lemma sim_push b : sime (push_curly b).
Proof. apply sim_modify. intros s1 s2 [H1 H2 H3 H4 H5 H6]. constructor; cbn; auto; congruence. Qed.
Lemma sim_pop : sime pop_curly.
Proof. apply sim_modify. intros s1 s2 [H1 H2 H3 H4 H5 H6]. constructor; cbn; auto; congruence. Qed.
Hint Resolve sim_template_char sim_start_rec sim_stop_rec sim_push sim_pop : sim.
Lemma sim_template op h : simM tk_rel (scan_template_piece E op h) (scan_template_piece E op h).
Proof. unfold scan_template_piece. sims'. Qed.
Lemma sim_punc0 v : simM tk_rel (punc0 E v) (punc0 E v).
Proof. unfold punc0, unwrap. sims'. Qed.
Lemma sim_punc1 v : simM tk_rel (punc1 E v) (punc1 E v).
Proof. unfold punc1, unwrap. sims'. Qed.
Lemma sim_punc2 v : simM tk_rel (punc2 E v) (punc2 E v).
Proof. unfold punc2, unwrap. sims'. Qed.
Hint Resolve sim_punc0 sim_punc1 sim_punc2 : sim.
Lemma sim_punctuator : simM tk_rel (scan_punctuator E) (scan_punctuator E).
Proof. unfold scan_punctuator. sims'. Qed.
Lemma sim_div : simM tk_rel (scan_div_punctuator E) (scan_div_punctuator E).
Proof. unfold scan_div_punctuator. sims'. Qed.
Hint Resolve sim_punctuator sim_div sim_template sim_regexp sim_string sim_numeric sim_identifier : sim.
Lemma sim_scan_token g : simM tk_rel (scan_token E g) (scan_token E g).
Proof.
  intros s1 s2 S. unfold scan_token, s_peek2. rewrite <- (sm_rest S), <- (sm_curly S).
  revert s1 s2 S. 
  assert (G : forall o1 o2 c, simM tk_rel
     (match o1 with
      | Some c0 =>
        if is_identifier_start E c0 then scan_identifier E
        else if (c0 =? 34) || (c0 =? 39) then scan_string_literal E
        else if (c0 =? 46) && match o2 with Some d => is_decimal_digit d | None => false end then scan_numeric_literal E
        else if is_decimal_digit c0 then scan_numeric_literal E
        else if c0 =? 96 then scan_template E
        else if (c0 =? 125) && match c with BTemplate :: _ => true | _ => false end
        then pop_curly;;; scan_template_substitution_tail E
        else if c0 =? 47 then match g with GDiv => scan_div_punctuator E | GRegExp => scan_regexp_literal E end
        else scan_punctuator E
      | None => token_simple E TEof VNull end)
     (match o1 with
      | Some c0 =>
        if is_identifier_start E c0 then scan_identifier E
        else if (c0 =? 34) || (c0 =? 39) then scan_string_literal E
        else if (c0 =? 46) && match o2 with Some d => is_decimal_digit d | None => false end then scan_numeric_literal E
        else if is_decimal_digit c0 then scan_numeric_literal E
        else if c0 =? 96 then scan_template E
        else if (c0 =? 125) && match c with BTemplate :: _ => true | _ => false end
        then pop_curly;;; scan_template_substitution_tail E
        else if c0 =? 47 then match g with GDiv => scan_div_punctuator E | GRegExp => scan_regexp_literal E end
        else scan_punctuator E
      | None => token_simple E TEof VNull end)).
  { intros o1 o2 c. unfold scan_template, scan_template_substitution_tail. sims'. }
  intros s1 s2 S. exact (G (hd_error (rest s1)) (hd_error (tl (rest s1))) (curly s1) s1 s2 S).
Qed.

(** ** The public operations *)
Lemma shf_comments s1 s2 : shf s1 s2 -> exists t1 t2, scan_comments s1 = ROk tt t1 /\ scan_comments s2 = ROk tt t2 /\ shf (s_start_new_token t1) (s_start_new_token t2).
Proof.
  intros S. destruct (scan_comments_spec s1) as (t1 & l1 & B1 & R1 & T1 & N1).
  destruct (scan_comments_spec s2) as (t2 & l2 & B2 & R2 & T2 & N2).
  exists t1, t2. split; [exact B1|]. split; [exact B2|].
  destruct R1 as [A1 A2 A3 A4 A5 A6 A7 A8 A9], R2 as [C1 C2 C3 C4 C5 C6 C7 C8 C9]. destruct S as [H1 H2 H3 H4 [H5 [H6 H7]] H8 H9 H10 H11].
  assert (Hx : rest t1 = rest t2).
  { apply (@ScanSim.trivia_unique l1 (rest t1)) with (b := l2); auto. congruence. }
  assert (Hl : l1 = l2) by (apply app_inv_tail with (l := rest t1); congruence). subst l2. rewrite <- Hx in C3.
  unfold smark in *. cbn in H5, H6, H7.
  constructor; unfold RMz, some_read in *; cbn; try congruence; try lia.
  - rewrite A9, C9, H2, H3. reflexivity.
  - intros Hf. rewrite A7, C7. exact (H10 Hf).
Qed.
Lemma sim_next g : simM tk_rel (s_next E g) (s_next E g).
Proof.
  intros s1 s2 S. unfold s_next in *. pose proof (sm_unscanned S) as U.
  destruct (unscanned s1) as [u1|], (unscanned s2) as [u2|]; cbn in U; try contradiction.
  - split; [|discriminate]. intros a1 t1 [= <- <-]. eexists _, _. split; [reflexivity|]. split; [exact U|]. destruct S. constructor; cbn; auto.
  - assert (S' : shf (set_newline false s1) (set_newline false s2)) by (destruct S; constructor; cbn; auto).
    destruct (shf_comments S') as (v1 & v2 & E1 & E2 & S2). unfold bind in *. rewrite E1, E2. unfold modify in *.
    exact (@sim_scan_token g _ _ S2).
Qed.
Lemma sim_save : sime save_state.
Proof.
  apply sim_modify. intros s1 s2 S. destruct S as [H1 H2 H3 H4 H5 H6 H7 H8 H9]. constructor; cbn; auto. constructor; cbn; auto.
Qed.
Lemma sim_restore t1 t2 : full = true -> tk_rel t1 t2 -> simM eq (restore_state t1) (restore_state t2).
Proof.
  intros Hf Ht s1 s2 S. unfold restore_state in *. pose proof (sm_sstate S Hf) as U.
  destruct (sstate s1) as [u1|], (sstate s2) as [u2|]; cbn in U; try contradiction; try (split; discriminate). split; [|discriminate]. intros a v [= <- <-].
  eexists _, _. split; [reflexivity|]. split; [reflexivity|]. destruct S, U. constructor; cbn; auto.
Qed.
Lemma sim_ev v : full = true -> simM tk_rel (s_ev E v) (s_ev E v).
Proof.
  intros Hf. destruct v as [g|]; cbn [s_ev]; [apply sim_next|]. unfold s_look.
  apply sim_bind_eq; [apply sim_save|]. intros _. eapply sim_bind; [apply sim_next|]. intros t1 t2 Ht.
  eapply sim_bind; [apply sim_restore; auto|]. intros _ _ _. apply sim_ret. exact Ht.
Qed.
Lemma shf_srep tr : full = true -> forall s1 s2, shf s1 s2 -> srep E RMz tr s1 s2.
Proof.
  intros Hf. induction tr as [|v tr IH]; intros s1 s2 S; cbn [srep]; (split; [exact (sm_mark S)|]); [exact I|].
  destruct (sim_ev v Hf S) as [S1 S2]. split; [|exact S2]. intros t s H. destruct (S1 _ _ H) as (t' & s' & E1 & Ht & S'). exists t', s'. auto.
Qed.
Lemma RMz_line : line_rel RMz.
Proof. intros a a' b b' [H _] [G _]. apply eq_true_iff_eq. rewrite !N.ltb_lt. lia. Qed.
End Shift.

Lemma shf_sym E dl dk s1 s2 : shf E dl dk true s1 s2 -> unscanned s1 = None -> sstate s1 = None -> some_read E (current s1) -> shf E (- dl) (- dk) true s2 s1.
Proof.
  intros [H1 H2 H3 H4 [H5 [H6 H7]] H8 H9 H10 H11] U V R.
  rewrite U in H9. specialize (H10 eq_refl). rewrite V in H10. constructor; auto.
  - split; [lia|split; [auto|lia]].
  - lia.
  - rewrite U. destruct (unscanned s2); cbn in *; auto.
  - intros _. rewrite V. destruct (sstate s2); cbn in *; auto.
Qed.
(** The first token *)
Lemma first_shift2 E w src : trivia w src -> w <> [] ->
  (forall t1 s1, s_next E GRegExp (s_new src) = ROk t1 s1 ->
    exists t2 s2, s_next E GRegExp (s_new (w ++ src)) = ROk t2 s2 /\ tk_rel (Z.of_N (breaks w src)) (Z.of_N (len w)) t1 t2 /\ shf E (Z.of_N (breaks w src)) (Z.of_N (len w)) true s1 s2) /\
  (forall e, s_next E GRegExp (s_new src) = RErr e -> exists e', s_next E GRegExp (s_new (w ++ src)) = RErr e' /\ erel (RMz (Z.of_N (breaks w src)) (Z.of_N (len w))) e e').
Proof.
  intros Hw Hn. unfold s_next in *. cbn [unscanned s_new] in *.
  destruct (scan_comments_spec (set_newline false (s_new src))) as (v1 & l1 & B1 & R1 & T1 & N1).
  destruct (scan_comments_spec (set_newline false (s_new (w ++ src)))) as (v2 & l2 & B2 & R2 & T2 & N2).
  unfold bind in *. rewrite B1, B2. unfold modify in *.
  apply sim_scan_token.
  destruct R1 as [A1 A2 A3 A4 A5 A6 A7 A8 A9], R2 as [C1 C2 C3 C4 C5 C6 C7 C8 C9].
  cbn [set_newline s_new rest current line start curly unscanned sstate record_raw raw_string] in *.
  assert (Hx : rest v1 = rest v2).
  { apply (@ScanSim.trivia_unique (w ++ l1) (rest v1)) with (b := l2); auto.
    - rewrite A1 in Hw. eapply ScanSim.trivia_app; eauto.
    - rewrite <- app_assoc, <- A1, <- C1. reflexivity. }
  assert (Hl : l2 = w ++ l1) by (apply app_inv_tail with (l := rest v1); rewrite <- app_assoc, <- A1, Hx; auto). subst l2.
  rewrite <- Hx, breaks_app, <- A1 in C3. rewrite len_app in C2.
  assert (0 < len w) by (unfold len; destruct w; [congruence|cbn; lia]).
  constructor; unfold RMz, some_read; cbn; auto; try congruence; try lia.
  - rewrite A6, C6. exact I.
  - intros _. rewrite A7, C7. exact I.
Qed.

Lemma first_shift E w src t1 s1 : trivia w src -> w <> [] -> s_next E GRegExp (s_new src) = ROk t1 s1 ->
  exists t2 s2, s_next E GRegExp (s_new (w ++ src)) = ROk t2 s2 /\ tk_rel (Z.of_N (breaks w src)) (Z.of_N (len w)) t1 t2 /\ shf E (Z.of_N (breaks w src)) (Z.of_N (len w)) true s1 s2.
Proof. intros Hw Hn. exact (proj1 (first_shift2 E Hw Hn) t1 s1). Qed.
