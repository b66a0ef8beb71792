(** * ScanLocal: scanning a token does not depend on what follows it (proofs for C49). *)
From Verif Require Import Base Codepoint Punct Token Scanner SpecLex SpecScan Hoare ScanBase ScanTrivia ScanToken ScanTokens2 ScanNext LexFacts SpecRelay.
From Coq Require Import ZifyBool ZifyN ZifyNat.
Set Implicit Arguments.
Local Open Scope N_scope.

(** ** Progress *)
Create HintDb gl.
Definition grows {A} (d : N) (m : SM A) : Prop := forall s a t, m s = ROk a t -> current s + d <= current t.
Lemma grows_ret A (a : A) : grows 0 (ret a). Proof. intros s b t [= <- <-]. lia. Qed.
Lemma grows_weaken A d d' (m : SM A) : grows d m -> d' <= d -> grows d' m.
Proof. intros H Hd s a t G. apply H in G. lia. Qed.
Lemma grows_bind A B d1 d2 (m : SM A) (k : A -> SM B) : grows d1 m -> (forall a, grows d2 (k a)) -> grows (d1 + d2) (bind m k).
Proof. intros H G s b t K. unfold bind in K. destruct (m s) as [a s1| | |] eqn:Em; try discriminate. apply H in Em. apply G in K. lia. Qed.
Lemma grows_bind0 A B (m : SM A) (k : A -> SM B) : grows 0 m -> (forall a, grows 0 (k a)) -> grows 0 (bind m k).
Proof. intros H G. exact (grows_bind k H G). Qed.
Lemma grows_first A B (m : SM A) (k : A -> SM B) : grows 1 m -> (forall a, grows 0 (k a)) -> grows 1 (bind m k).
Proof. intros H G. eapply grows_weaken; [exact (grows_bind k H G)|lia]. Qed.
Lemma grows_then A B (m : SM A) (k : A -> SM B) : grows 0 m -> (forall a, grows 1 (k a)) -> grows 1 (bind m k).
Proof. intros H G. eapply grows_weaken; [exact (grows_bind k H G)|lia]. Qed.
Lemma consume_current s : current (s_consume s) = current s + 1.
Proof. unfold s_consume. destruct (counts_line _ _); reflexivity. Qed.
Lemma grows_consume : grows 1 consume.
Proof. intros s a t [= <- <-]. rewrite consume_current. lia. Qed.
Lemma grows_consume0 : grows 0 consume. Proof. eapply grows_weaken; [exact grows_consume|lia]. Qed.
Lemma grows_none A d (m : SM A) : (forall s a t, m s <> ROk a t) -> grows d m.
Proof. intros H s a t G. destruct (H _ _ _ G). Qed.
Lemma grows_gets A (f : sst -> A) : grows 0 (gets f). Proof. intros s a t [= <- <-]. lia. Qed.
Lemma grows_modify f : (forall s, current (f s) = current s) -> grows 0 (modify f).
Proof. intros H s a t [= <- <-]. rewrite H. lia. Qed.
Lemma grows_stop : grows 0 stop_recording. Proof. intros s a t [= <- <-]. cbn. lia. Qed.
Lemma grows_mk E ty v p f o c h t : grows 0 (mk_token E ty v p f o c h t).
Proof. intros s a u H. unfold mk_token in H. destruct (current s =? 0); [destruct (checked E); [discriminate|]|]; injection H as <- <-; lia. Qed.
Lemma grows_unwrap A p (o : option A) : grows 0 (unwrap p o).
Proof. destruct o; [apply grows_ret|apply grows_none; discriminate]. Qed.
#[local] Hint Resolve grows_ret grows_consume grows_consume0 grows_gets grows_stop grows_mk grows_unwrap : gr.
Ltac gr1 :=
  match goal with
  | |- grows _ (s_error _) => apply grows_none; discriminate
  | |- grows _ (crash _) => apply grows_none; discriminate
  | |- grows _ nofuel => apply grows_none; discriminate
  | |- grows 1 (bind consume _) => apply grows_first; [apply grows_consume|intro]
  | |- grows 1 (bind ?m _) => first [apply grows_first; [solve [gr]|intro] | apply grows_then; [|intro]]
  | |- grows 0 (bind _ _) => apply grows_bind0; [|intro]
  | |- grows _ peek => apply grows_gets
  | |- grows _ peek2 => apply grows_gets
  | |- grows _ (if ?b then _ else _) => destruct b
  | |- grows _ (match ?x with _ => _ end) => destruct x
  end
with gr := repeat first [solve [eauto with gr] | gr1 | progress cbn beta iota].
Lemma grows_consume_or t : grows 1 (consume_or t). Proof. unfold consume_or. gr. Qed.
Lemma grows_consume_unwrap : grows 1 consume_unwrap. Proof. unfold consume_unwrap. gr. Qed.
Lemma grows_expect c : grows 1 (expect_c c). Proof. unfold expect_c. gr. Qed.
Lemma grows0 A (m : SM A) : grows 1 m -> grows 0 m. Proof. intros H. eapply grows_weaken; [exact H|lia]. Qed.
#[local] Hint Resolve grows0 | 5 : gr.
#[local] Hint Resolve grows_consume_or grows_consume_unwrap grows_expect : gr.
Lemma grows_until_n B n pred (read : SM B) : grows 0 read -> grows 0 (scan_until_n n pred read).
Proof. intros H. induction n as [|n IH]; cbn [scan_until_n]; gr. Qed.
Lemma grows_until B pred (read : SM B) : grows 0 read -> grows 0 (scan_until pred read).
Proof. intros H s a t G. exact (grows_until_n _ pred H _ G). Qed.
Lemma grows_2until_n B n pred (read : SM B) : grows 0 read -> grows 0 (scan2_until_n n pred read).
Proof. intros H. induction n as [|n IH]; cbn [scan2_until_n]; gr. Qed.
Lemma grows_2until B pred (read : SM B) : grows 0 read -> grows 0 (scan2_until pred read).
Proof. intros H s a t G. exact (grows_2until_n _ pred H _ G). Qed.
Lemma grows_some_or A t (o : option A) : grows 0 (some_or t o). Proof. unfold some_or. gr. Qed.
Lemma grows_from t v : grows 0 (from_u32_or t v). Proof. unfold from_u32_or. gr. Qed.
Lemma grows_hex k t : forall acc, grows 0 (scan_hex_k k acc t). Proof. induction k as [|k IH]; intros; cbn [scan_hex_k]; gr. Qed.
Lemma grows_hex1 k t acc : grows 1 (scan_hex_k (S k) acc t). Proof. cbn [scan_hex_k]. pose proof (grows_hex k t). gr. Qed.
#[local] Hint Resolve grows_hex1 grows_until grows_2until grows_some_or grows_from grows_hex : gr.
Lemma grows_unicode E : grows 1 (scan_unicode_esc_seq E). Proof. unfold scan_unicode_esc_seq. gr. Qed.
Lemma grows_hexesc : grows 1 scan_hex_esc_seq. Proof. unfold scan_hex_esc_seq. gr. Qed.
#[local] Hint Resolve grows_unicode grows_hexesc : gr.
Lemma grows_idcp E : grows 1 (scan_identifier_cp E). Proof. unfold scan_identifier_cp. gr. Qed.
Lemma grows_idstart E : grows 1 (scan_identifier_start E). Proof. unfold scan_identifier_start. gr. Qed.
Lemma grows_octal : grows 1 scan_octal_esc_seq. Proof. unfold scan_octal_esc_seq. gr. Qed.
#[local] Hint Resolve grows_idcp grows_idstart grows_octal : gr.
Lemma grows_exponent : grows 0 scan_exponent. Proof. unfold scan_exponent. gr. Qed.
#[local] Hint Resolve grows_exponent : gr.
Lemma grows_frac v : grows 1 (scan_fractional_part v). Proof. unfold scan_fractional_part. gr. Qed.
Lemma grows_radix v : grows 1 (scan_radix_literal v). Proof. unfold scan_radix_literal. gr. Qed.
Lemma grows_radix2 v : grows 2 (scan_radix_literal v).
Proof.
  unfold scan_radix_literal. change 2 with (1 + 1). apply grows_bind; [apply grows_expect|intros _]. gr.
Qed.
#[local] Hint Resolve grows_frac grows_radix : gr.
Lemma grows_number : grows 0 scan_number. Proof. unfold scan_number. gr. Qed.
Lemma grows_string_cp_n E n : grows 1 (scan_string_cp_n E n).
Proof.
  induction n as [|n IH]; cbn [scan_string_cp_n]; [apply grows_none; discriminate|]. pose proof (grows0 IH). gr.
Qed.
Lemma grows_string_cp E : grows 1 (scan_string_literal_cp E).
Proof. intros s a t H. exact (grows_string_cp_n _ _ _ H). Qed.
Lemma grows_template_char E : grows 1 (scan_template_char E).
Proof. unfold scan_template_char. gr. Qed.
Lemma grows_regexp_loop n : grows 0 (scan_regexp_loop n).
Proof. induction n as [|n IH]; cbn [scan_regexp_loop]; gr. Qed.
Lemma grows_regexp_loop' : grows 0 (fun s => scan_regexp_loop (S (length (rest s))) s).
Proof. intros s a t H. exact (@grows_regexp_loop _ _ _ _ H). Qed.
#[local] Hint Resolve grows_number grows_string_cp grows_template_char grows_regexp_loop' : gr.
Lemma grows_punc0 E v : grows 0 (punc0 E v). Proof. unfold punc0, token_simple. gr. Qed.
Lemma grows_punc1 E v : grows 1 (punc1 E v). Proof. unfold punc1, token_simple. gr. Qed.
Lemma grows_punc2 E v : grows 1 (punc2 E v). Proof. unfold punc2, token_simple. gr. Qed.

(** ** Runs on the same token text *)
Section Local.
Context (E : env) (L r r' : str).
Hypothesis HF : after E L r r'.

Record lrel (x : str) (s1 s2 : sst) : Prop := mkLrel {
  lr_rest1 : rest s1 = x ++ r;
  lr_rest2 : rest s2 = x ++ r';
  lr_rec : record_raw s1 = record_raw s2;
  lr_raw : raw_string s1 = raw_string s2;
  lr_pos : (length x < length L)%nat -> 0 < current s2;
  lr_le : (length x <= length L)%nat }.
(** [loc Q R m]: when the first run of [m] reads [z] of [z ++ y], so does the second. *)
Definition loc {A} (Q : str -> Prop) (R : A -> A -> Prop) (m1 m2 : SM A) : Prop :=
  forall z y s1 s2 a t1, lrel (z ++ y) s1 s2 -> m1 s1 = ROk a t1 -> current t1 = current s1 + len z -> Q y ->
    exists a' t2, m2 s2 = ROk a' t2 /\ R a a' /\ lrel y t1 t2.
Definition gl {A} (Q : str -> Prop) (R : A -> A -> Prop) (m : SM A) : Prop := grows 0 m /\ loc Q R m m.
Definition T (y : str) : Prop := True.
Definition Q1 (y : str) : Prop := y <> [].
Definition Qe (y : str) : Prop := y = [].

Lemma len_zero (z : str) n : n = n + len z -> z = [].
Proof. intros H. destruct z; auto. rewrite len_cons in H. lia. Qed.
Lemma len_split (z : str) n m : n <= len z -> len z = n + m -> exists z1 z2, z = z1 ++ z2 /\ len z1 = n /\ len z2 = m.
Proof.
  intros H G. exists (firstn (N.to_nat n) z), (skipn (N.to_nat n) z). unfold len in *. rewrite firstn_skipn, firstn_length, skipn_length.
  split; [reflexivity|]. lia.
Qed.
Lemma loc_bind (Q0 Q : str -> Prop) A B (R : B -> B -> Prop) (m : SM A) (k : A -> SM B) :
  (forall z y, Q y -> Q0 (z ++ y)) -> gl Q0 eq m -> (forall a, gl Q R (k a)) -> gl Q R (bind m k).
Proof.
  intros HQ [Gm Lm] Hk. split; [apply grows_bind0; [exact Gm|intros a; apply (Hk a)]|].
  intros z y s1 s2 b t1 S H C Hy. unfold bind in *. destruct (m s1) as [a u1| | |] eqn:Em; try discriminate.
  pose proof (Gm _ _ _ Em) as G1. pose proof (proj1 (Hk a) _ _ _ H) as G2.
  destruct (@len_split z (current u1 - current s1) (current t1 - current u1)) as (z1 & z2 & -> & L1 & L2); [lia..|].
  rewrite <- app_assoc in S. destruct (Lm _ _ _ _ _ _ S Em) as (a' & u2 & -> & <- & S'); [lia|apply HQ; exact Hy|].
  apply (proj2 (Hk a) _ _ _ _ _ _ S' H); [lia|exact Hy].
Qed.
Lemma gl_bind A B (R : B -> B -> Prop) Q (m : SM A) (k : A -> SM B) : gl T eq m -> (forall a, gl Q R (k a)) -> gl Q R (bind m k).
Proof. apply loc_bind. intros; exact I. Qed.
Lemma gl_bind1 A B (R : B -> B -> Prop) (m : SM A) (k : A -> SM B) : gl Q1 eq m -> (forall a, gl Q1 R (k a)) -> gl Q1 R (bind m k).
Proof. apply loc_bind. intros z y H K. apply app_eq_nil in K. apply H. tauto. Qed.
(** The continuation reads on. *)
Lemma gl_bind_then A B (R : B -> B -> Prop) Q (m : SM A) (k : A -> SM B) :
  gl Q1 eq m -> (forall a, grows 1 (k a)) -> (forall a, gl Q R (k a)) -> gl Q R (bind m k).
Proof.
  intros [Gm Lm] Hg Hk. split; [apply grows_bind0; [exact Gm|intros a; apply (Hk a)]|].
  intros z y s1 s2 b t1 S H C Hy. unfold bind in *. destruct (m s1) as [a u1| | |] eqn:Em; try discriminate.
  pose proof (Gm _ _ _ Em) as G1. pose proof (Hg a _ _ _ H) as G2.
  destruct (@len_split z (current u1 - current s1) (current t1 - current u1)) as (z1 & z2 & -> & L1 & L2); [lia..|].
  rewrite <- app_assoc in S. destruct (Lm _ _ _ _ _ _ S Em) as (a' & u2 & -> & <- & S'); [lia| |].
  { intros K. apply app_eq_nil in K. destruct K as [-> _]. rewrite len_nil in L2. lia. }
  apply (proj2 (Hk a) _ _ _ _ _ _ S' H); [lia|exact Hy].
Qed.
Lemma gl_weaken A (R : A -> A -> Prop) (Q Q' : str -> Prop) (m : SM A) : (forall y, Q' y -> Q y) -> gl Q R m -> gl Q' R m.
Proof. intros H [G K]. split; [exact G|]. intros z y s1 s2 a t1 S Hm C Hy. eapply K; eauto. Qed.
Lemma gl_T A (R : A -> A -> Prop) Q (m : SM A) : gl T R m -> gl Q R m.
Proof. apply gl_weaken. intros; exact I. Qed.
Lemma gl_ret A Q (R : A -> A -> Prop) a : R a a -> gl Q R (ret a).
Proof.
  intros H. split; [apply grows_ret|]. intros z y s1 s2 b t1 S [= <- <-] C _. apply len_zero in C. subst z. eexists _, _. split; [reflexivity|]. auto.
Qed.
Lemma gl_none A Q (R : A -> A -> Prop) (m : SM A) : (forall s a t, m s <> ROk a t) -> gl Q R m.
Proof. intros H. split; [apply grows_none; exact H|]. intros z y s1 s2 b t1 S G. destruct (H _ _ _ G). Qed.
Lemma s_consume_raw s : record_raw (s_consume s) = record_raw s /\ raw_string (s_consume s) = if record_raw s then match hd_error (rest s) with Some c => raw_string s ++ [c] | None => raw_string s end else raw_string s.
Proof. unfold s_consume. destruct (counts_line _ _); split; reflexivity. Qed.
Lemma lrel_consume c y s1 s2 : lrel (c :: y) s1 s2 -> lrel y (s_consume s1) (s_consume s2).
Proof.
  intros [H1 H2 H3 H4 H5 H6]. cbn [app] in *. destruct (s_consume_raw s1) as [A1 A2], (s_consume_raw s2) as [B1 B2]. constructor.
  - exact (s_consume_rest _ H1).
  - exact (s_consume_rest _ H2).
  - congruence.
  - rewrite A2, B2, H1, H2, H3, H4. reflexivity.
  - intros _. rewrite consume_current. lia.
  - cbn in H6. lia.
Qed.
Lemma gl_consume Q : gl Q eq consume.
Proof.
  split; [apply grows_consume0|]. intros z y s1 s2 b t1 S [= <- <-] C _. rewrite consume_current in C.
  assert (exists c, z = [c]) as [c ->]. { destruct z as [|c [|d z]]; rewrite ?len_cons, ?len_nil in C; try lia. eauto. }
  exists (hd_error (rest s2)), (s_consume s2). split; [reflexivity|]. split; [rewrite (lr_rest1 S), (lr_rest2 S); reflexivity|].
  eapply lrel_consume. exact S.
Qed.
Lemma gl_peek : gl Q1 eq peek.
Proof.
  split; [apply grows_gets|]. intros z y s1 s2 b t1 S [= <- <-] C Hy. apply len_zero in C. subst z. eexists _, _. split; [reflexivity|].
  split; [|exact S]. unfold s_peek. rewrite (lr_rest1 S), (lr_rest2 S). destruct y; [destruct (Hy eq_refl)|reflexivity].
Qed.
(** A look at the next character, which may be the one after the token *)
Lemma gl_peek_bind A Q (R : A -> A -> Prop) (k : option N -> SM A) : (forall o, gl Q R (k o)) ->
  (forall o c s1 s2 a t1, separator E c -> lrel [] s1 s2 -> k o s1 = ROk a t1 -> current t1 = current s1 -> Q [] ->
     exists a' t2, k (Some c) s2 = ROk a' t2 /\ R a a' /\ lrel [] t1 t2) ->
  gl Q R (bind peek k).
Proof.
  intros H G. split; [apply grows_bind0; [apply grows_gets|intros o; apply (H o)]|].
  intros z y s1 s2 a t1 S Hm C Hy. unfold bind, peek, gets in *. unfold s_peek in *.
  assert (K : hd_error (rest s2) = hd_error (rest s1) -> exists a' t2, k (hd_error (rest s2)) s2 = ROk a' t2 /\ R a a' /\ lrel y t1 t2).
  { intros ->. exact (proj2 (H _) _ _ _ _ _ _ S Hm C Hy). }
  destruct (z ++ y) as [|c x] eqn:Hz.
  - apply app_eq_nil in Hz. destruct Hz as [-> ->]. rewrite len_nil in C.
    destruct HF as [(c & x & Hc & Hsep)|[Hh _]].
    + rewrite (lr_rest2 S). rewrite Hc. cbn [app hd_error]. eapply G; eauto. lia.
    + apply K. rewrite (lr_rest1 S), (lr_rest2 S). exact Hh.
  - apply K. rewrite (lr_rest1 S), (lr_rest2 S). reflexivity.
Qed.
(** ... when the rest reads on anyway *)
Lemma gl_peek_on A Q (R : A -> A -> Prop) (k : option N -> SM A) : (forall o, gl Q R (k o)) -> (forall o, grows 1 (k o)) -> gl Q R (bind peek k).
Proof. intros H G. apply gl_peek_bind; [exact H|]. intros o c s1 s2 a t1 _ _ Hm C _. apply G in Hm. lia. Qed.
Lemma gl_peek2_on A (R : A -> A -> Prop) (k : option N * option N -> SM A) :
  (forall o, gl Q1 R (k o)) -> (forall o, grows 1 (k o)) -> gl Q1 R (bind peek2 k).
Proof.
  intros H G. split; [apply grows_bind0; [apply grows_gets|intros o; apply (H o)]|].
  intros z y s1 s2 a t1 S Hm C Hy. unfold bind, peek2, gets in *. unfold s_peek2 in *.
  pose proof (G _ _ _ _ Hm) as G1.
  replace (hd_error (rest s2), hd_error (tl (rest s2))) with (hd_error (rest s1), hd_error (tl (rest s1))).
  - exact (proj2 (H _) _ _ _ _ _ _ S Hm C Hy).
  - rewrite (lr_rest1 S), (lr_rest2 S). destruct z as [|c z]; [rewrite len_nil in C; lia|]. destruct y as [|d y]; [destruct (Hy eq_refl)|].
    destruct z; reflexivity.
Qed.
Lemma gl_modify Q f : (forall s, current (f s) = current s) -> (forall x s1 s2, lrel x s1 s2 -> lrel x (f s1) (f s2)) -> gl Q eq (modify f).
Proof.
  intros H G. split; [apply grows_modify; exact H|]. intros z y s1 s2 b t1 S [= <- <-] C _. rewrite H in C. apply len_zero in C. subst z.
  eexists _, _. split; [reflexivity|]. auto.
Qed.
Lemma gl_push Q b : gl Q eq (push_curly b).
Proof. apply gl_modify; [reflexivity|]. intros x s1 s2 []. constructor; auto. Qed.
Lemma gl_pop Q : gl Q eq pop_curly.
Proof. apply gl_modify; [reflexivity|]. intros x s1 s2 []. constructor; auto. Qed.
Lemma gl_start Q : gl Q eq start_recording.
Proof. apply gl_modify; [reflexivity|]. intros x s1 s2 []. constructor; auto. Qed.
Lemma gl_stop Q : gl Q eq stop_recording.
Proof.
  split; [apply grows_stop|]. intros z y s1 s2 b t1 S [= <- <-] C _. cbn in C. apply len_zero in C. subst z. eexists _, _. split; [reflexivity|].
  split; [exact (lr_raw S)|]. destruct S. constructor; auto.
Qed.
(** The token is made when its text has been read. *)
Lemma gl_mk ty v p f o c h tl : L <> [] -> gl Qe same_token (mk_token E ty v p f o c h tl).
Proof.
  intros HL. split; [apply grows_mk|]. intros z y s1 s2 a t1 S H C Hy. unfold Qe in Hy. subst y.
  assert (A : exists e, a = mkToken ty v p f o c h tl (line s1) (col s1) (start s1) e /\ t1 = s1).
  { unfold mk_token in H. destruct (current s1 =? 0); [destruct (checked E); try discriminate|]; injection H as <- <-; eauto. }
  destruct A as (e & -> & ->). apply len_zero in C. subst z. cbn [app] in S.
  assert (0 < current s2). { apply (lr_pos S). destruct L; [congruence|cbn; lia]. }
  unfold mk_token. replace (current s2 =? 0) with false by lia. eexists _, _. split; [reflexivity|].
  split; [repeat split|exact S].
Qed.

(** ** Loops *)
Lemma until_n (Q : str -> Prop) B pred (read : SM B) : (forall z y, Q y -> Q (z ++ y)) -> (Q [] -> forall c, separator E c -> pred c = true) ->
  grows 1 read -> gl Q eq read -> forall n1 n2 z y s1 s2 a t1, lrel (z ++ y) s1 s2 -> scan_until_n n1 pred read s1 = ROk a t1 ->
  current t1 = current s1 + len z -> Q y -> (length z < n2)%nat -> exists t2, scan_until_n n2 pred read s2 = ROk a t2 /\ lrel y t1 t2.
Proof.
  intros HQ Hp Hg [_ Hr]. induction n1 as [|n1 IH]; intros n2 z y s1 s2 a t1 S H C Hy Hn; [discriminate|]. destruct n2 as [|n2]; [lia|].
  cbn [scan_until_n] in *. unfold bind at 1, peek, gets, s_peek in H. unfold bind at 1, peek, gets, s_peek.
  destruct (z ++ y) as [|c x] eqn:Hz.
  - apply app_eq_nil in Hz. destruct Hz as [-> ->]. rewrite len_nil in C.
    assert (Ha : a = [] /\ t1 = s1 /\ (forall d, hd_error r = Some d -> pred d = true)).
    { rewrite (lr_rest1 S) in H. cbn [app] in H. destruct (hd_error r) as [d|]; [|injection H as <- <-; split; [auto|split; [auto|discriminate]]].
      destruct (pred d) eqn:Pd; [injection H as <- <-; split; [auto|split; [auto|intros ? [= <-]; exact Pd]]|].
      exfalso. assert (G : grows 1 (x <- read ;; xs <- scan_until_n n1 pred read ;; ret (x :: xs))).
      { apply grows_first; [exact Hg|]. intros. apply grows_bind0; [apply grows_until_n, grows0, Hg|]. intros. apply grows_ret. }
      apply G in H. lia. }
    destruct Ha as (-> & -> & Hd). rewrite (lr_rest2 S). cbn [app].
    destruct HF as [(c & x & Hc & Hsep)|[Hh _]].
    + rewrite Hc. cbn [hd_error]. rewrite (Hp Hy _ Hsep). eexists. split; [reflexivity|exact S].
    + rewrite Hh. destruct (hd_error r) as [d|]; [rewrite (Hd _ eq_refl)|]; eexists; (split; [reflexivity|exact S]).
  - rewrite (lr_rest1 S) in H. rewrite (lr_rest2 S). cbn [app hd_error] in *. destruct (pred c) eqn:Pc.
    + injection H as <- <-. apply len_zero in C. subst z. cbn [app] in Hz. subst y. eexists. split; [reflexivity|exact S].
    + rewrite <- Hz in S. clear Hz c x Pc. unfold bind in *. destruct (read s1) as [b u1| | |] eqn:Er; try discriminate.
      destruct (scan_until_n n1 pred read u1) as [bs u2| | |] eqn:Eu; try discriminate. injection H as <- <-.
      pose proof (Hg _ _ _ Er) as G1. pose proof (grows_until_n n1 pred (grows0 Hg) _ Eu) as G2.
      destruct (@len_split z (current u1 - current s1) (current u2 - current u1)) as (z1 & z2 & -> & L1 & L2); [lia..|].
      rewrite <- app_assoc in S. destruct (Hr _ _ _ _ _ _ S Er) as (b' & v1 & -> & <- & S'); [lia|auto|].
      destruct (IH n2 _ _ _ _ _ _ S' Eu) as (v2 & -> & S2); [lia|exact Hy| |eexists; split; [reflexivity|exact S2]].
      rewrite app_length in Hn. unfold len in L1. lia.
Qed.
Lemma gl_until (Q : str -> Prop) B pred (read : SM B) : (forall z y, Q y -> Q (z ++ y)) -> (Q [] -> forall c, separator E c -> pred c = true) ->
  grows 1 read -> gl Q eq read -> gl Q eq (scan_until pred read).
Proof.
  intros HQ Hp Hg Hr. split; [apply grows_until, grows0, Hg|]. intros z y s1 s2 a t1 S H C Hy. unfold scan_until in *.
  destruct (@until_n _ _ _ _ HQ Hp Hg Hr _ (Datatypes.S (length (rest s2))) _ _ _ _ _ _ S H C Hy) as (t2 & -> & S2); [|eauto].
  rewrite (lr_rest2 S), !app_length. lia.
Qed.
Lemma T_app z y : T y -> T (z ++ y). Proof. auto. Qed.
Lemma Q1_app z y : Q1 y -> Q1 (z ++ y). Proof. intros H K. apply app_eq_nil in K. destruct K. auto. Qed.

Lemma gl_if A Q (R : A -> A -> Prop) (b : bool) m1 m2 : (b = true -> gl Q R m1) -> (b = false -> gl Q R m2) -> gl Q R (if b then m1 else m2).
Proof. destruct b; auto. Qed.
Ltac gl1 :=
  match goal with
  | |- gl _ _ (s_error _) => apply gl_none; discriminate
  | |- gl _ _ (crash _) => apply gl_none; discriminate
  | |- gl _ _ nofuel => apply gl_none; discriminate
  | |- gl _ _ (ret _) => apply gl_ret; reflexivity
  | |- gl _ _ consume => apply gl_consume
  | |- gl _ _ (unwrap _ ?o) => destruct o; unfold unwrap
  | |- gl T _ (bind _ _) => apply gl_bind; [|intro]
  | |- gl Q1 _ (bind _ _) => apply gl_bind1; [|intro]
  | |- gl _ _ (if _ then _ else _) => apply gl_if; intro
  | |- gl _ _ (match ?x with _ => _ end) => destruct x
  end.
Ltac gl := repeat first [solve [eauto with gl] | gl1 | progress cbn beta iota].
Lemma gl_consume_or Q t : gl Q eq (consume_or t). Proof. apply gl_T. unfold consume_or. gl. Qed.
Lemma gl_consume_unwrap Q : gl Q eq consume_unwrap. Proof. apply gl_T. unfold consume_unwrap. gl. Qed.
Lemma gl_expect Q c : gl Q eq (expect_c c). Proof. apply gl_T. unfold expect_c. gl. Qed.
Lemma gl_some_or Q A t (o : option A) : gl Q eq (some_or t o). Proof. apply gl_T. unfold some_or. gl. Qed.
Lemma gl_from Q t v : gl Q eq (from_u32_or t v). Proof. apply gl_T. unfold from_u32_or. gl. Qed.
Lemma gl_hex Q k t acc : gl Q eq (scan_hex_k k acc t).
Proof. apply gl_T. revert acc. induction k as [|k IH]; intros; cbn [scan_hex_k]; gl. Qed.
Hint Resolve gl_consume_or gl_consume_unwrap gl_expect gl_some_or gl_from gl_hex gl_peek gl_push gl_pop gl_start gl_stop : gl.
(** Separators stop the scan of digits and names. *)
Lemma sep_facts c : separator E c -> is_decimal_digit c = false /\ is_hex_digit c = false /\ ident_stop E c = true /\
  (forall d, In d (s2l "eE+-.xXbBoO=&|<>*?!%^/0") -> c <> d).
Proof.
  intros [H N]. assert (~ ascii_digit c /\ ~ ascii_letter c) as [D A] by (unfold id_continue in N; tauto).
  assert (K : forall d, In d (0x5C :: s2l "+-.=&|<>*?!%^/") -> c <> d).
  { assert (B : forallb (fun d => negb (is_whitespace d || is_line_terminator d || existsb (N.eqb d) (s2l "()[]{};,:~`'" ++ [0x22]))) (0x5C :: s2l "+-.=&|<>*?!%^/") = true) by (vm_compute; reflexivity).
    rewrite forallb_forall in B. intros d Hd <-. apply B in Hd. apply negb_true_iff in Hd. apply orb_false_iff in Hd. destruct Hd as [Hd H3]. apply orb_false_iff in Hd. destruct Hd as [H1 H2].
    apply is_whitespace_false in H1. apply is_line_terminator_false in H2. destruct H as [H|[H|H]]; [tauto|tauto|].
    assert (X : existsb (N.eqb c) (s2l "()[]{};,:~`'" ++ [0x22]) = true) by (apply existsb_exists; exists c; split; [exact H|apply N.eqb_refl]). congruence. }
  assert (K1 : c <> 0x5C) by (apply K; left; reflexivity).
  assert (K2 : forall d, In d (s2l "+-.=&|<>*?!%^/") -> c <> d) by (intros; apply K; right; assumption).
  split; [|split; [|split]].
  - unfold is_decimal_digit, in_range. unfold ascii_digit in D. lia.
  - destruct (is_hex_digit c) eqn:Hx; auto. exfalso. unfold is_hex_digit, in_range in Hx. unfold ascii_digit, ascii_letter in *. lia.
  - unfold ident_stop. replace (c =? 0x5C) with false by lia. cbn [negb andb].
    destruct (is_identifier_continue E c) eqn:Hi; auto. exfalso. apply id_continue_iff in Hi; [tauto|exact K1].
  - intros d Hd. unfold ascii_digit, ascii_letter in *.
    intros ->. vm_compute in Hd. repeat (destruct Hd as [<-|Hd]; [first [lia|eapply K2; [|reflexivity]; vm_compute; tauto]|]). tauto.
Qed.
Lemma gl_chars Q t pred : (forall c, separator E c -> pred c = true) -> gl Q eq (scan_until pred (consume_or t)).
Proof. intros H. apply gl_T. apply gl_until; auto using T_app, gl_consume_or, grows_consume_or. Qed.
Lemma sep_hex c : separator E c -> negb (is_hex_digit c) = true.
Proof. intros H. destruct (sep_facts H) as (_ & -> & _). reflexivity. Qed.
Lemma sep_digit c : separator E c -> not_digit c = true.
Proof. intros H. unfold not_digit. destruct (sep_facts H) as (-> & _). reflexivity. Qed.
Lemma sep_octal c : separator E c -> negb (is_octal_digit c) = true.
Proof. intros H. destruct (sep_facts H) as (K & _). unfold is_decimal_digit, is_octal_digit, in_range in *. lia. Qed.
Lemma sep_ident c : separator E c -> ident_stop E c = true.
Proof. intros H. apply (sep_facts H). Qed.
Lemma sep_is c d : separator E c -> In d (s2l "eE+-.xXbBoO=&|<>*?!%^/0") -> is_c d (Some c) = false.
Proof. intros H G. cbn. apply N.eqb_neq. intros ->. destruct (sep_facts H) as (_ & _ & _ & K). exact (K _ G eq_refl). Qed.
Hint Resolve gl_chars sep_hex sep_digit sep_octal sep_ident : gl.
Lemma gl_unicode Q : gl Q eq (scan_unicode_esc_seq E).
Proof.
  apply gl_T. unfold scan_unicode_esc_seq. do 2 (apply gl_bind; [apply gl_expect|intros _]).
  apply gl_peek_on; intros o; [gl|gr].
Qed.
Lemma gl_hexesc Q : gl Q eq scan_hex_esc_seq.
Proof. apply gl_T. unfold scan_hex_esc_seq. gl. Qed.
Hint Resolve gl_unicode gl_hexesc : gl.
Lemma gl_idcp Q : gl Q eq (scan_identifier_cp E).
Proof. apply gl_T. unfold scan_identifier_cp. gl. Qed.
Lemma gl_octal Q : gl Q eq scan_octal_esc_seq.
Proof. apply gl_T. unfold scan_octal_esc_seq. gl. Qed.
Hint Resolve gl_idcp gl_octal : gl.
Lemma gl_idparts Q : gl Q eq (scan_until (ident_stop E) (scan_identifier_cp E)).
Proof. apply gl_T. apply gl_until; auto using T_app, gl_idcp, grows_idcp, sep_ident. Qed.
Lemma gl_idstart Q : gl Q eq (scan_identifier_start E).
Proof.
  apply gl_T. unfold scan_identifier_start. apply gl_peek_on; intros [c|]; try gr; gl.
Qed.
Hint Resolve gl_idparts gl_idstart : gl.
Hypothesis HL : L <> [].
Lemma gl_simple ty v : gl Qe same_token (token_simple E ty v).
Proof. apply gl_mk; exact HL. Qed.
Lemma gl_identifier : gl Qe same_token (scan_identifier E).
Proof.
  unfold scan_identifier. apply gl_bind; [apply gl_idstart|intros c]. apply gl_bind; [apply gl_idparts|intros p].
  unfold identifier_token. repeat (apply gl_if; intros _; [apply gl_simple|]). apply gl_simple.
Qed.
(** Numbers *)
Lemma gl_exponent Q : gl Q eq scan_exponent.
Proof.
  apply gl_T. unfold scan_exponent. apply gl_peek_bind.
  - intros o. apply gl_if; intros _; [|gl]. apply gl_bind; [apply gl_consume_unwrap|intros e]. apply gl_peek_bind.
    + intros o'. gl.
    + intros o' c s1 s2 a t1 Hc S H C _.
      rewrite !(@sep_is c) by (auto; vm_compute; tauto). cbn [orb].
      destruct (is_c (chr "+") o' || is_c (chr "-") o') eqn:Eo.
      * exfalso. revert H. match goal with |- ?m s1 = _ -> _ => assert (G : grows 1 m) by gr end. intros H. apply G in H. lia.
      * assert (X : gl T eq (sg <- ret [] ;; ds <- scan_until not_digit (consume_or InvalidOrUnexpectedToken) ;; ret (e :: sg ++ ds))) by gl.
        refine (proj2 X [] [] s1 s2 a t1 S H _ I). rewrite len_nil. lia.
  - intros o c s1 s2 a t1 Hc S H C _. rewrite !(@sep_is c) by (auto; vm_compute; tauto). cbn [orb].
    destruct (is_c (chr "e") o || is_c (chr "E") o).
    + exfalso. revert H. match goal with |- ?m s1 = _ -> _ => assert (G : grows 1 m) by gr end. intros H. apply G in H. lia.
    + injection H as <- <-. eexists _, _. split; [reflexivity|]. auto.
Qed.
Hint Resolve gl_exponent : gl.
Lemma gl_frac Q v : gl Q eq (scan_fractional_part v).
Proof. apply gl_T. unfold scan_fractional_part. gl. Qed.
Lemma gl_radix Q v : gl Q eq (scan_radix_literal v).
Proof. apply gl_T. unfold scan_radix_literal. gl. Qed.
Hint Resolve gl_frac gl_radix : gl.
Lemma until_zero t s v t1 x : rest s = chr "0" :: x -> scan_until not_digit (consume_or t) s = ROk v t1 ->
  current s + 2 <= current t1 \/ (v = [chr "0"] /\ t1 = s_consume s /\ (forall d, hd_error x = Some d -> not_digit d = true)).
Proof.
  intros H G. unfold scan_until in G. rewrite H in G. cbn [length scan_until_n] in G. unfold bind at 1, peek, gets, s_peek in G. rewrite H in G. cbn [hd_error] in G.
  change (not_digit (chr "0")) with false in G. cbn iota in G. unfold consume_or at 1 in G. unfold bind at 1 2, consume in G. rewrite H in G. cbn [hd_error ret] in G.
  cbn iota beta in G. unfold bind at 1 in G.
  set (n := length x) in G. change (match scan_until_n (S n) not_digit (consume_or t) (s_consume s) with ROk a s' => ROk (chr "0" :: a) s' | RErr e => RErr e | RPanic p => RPanic p | RFuel => RFuel end = ROk v t1) in G.
  destruct (scan_until_n (S n) not_digit (consume_or t) (s_consume s)) as [w u| | |] eqn:Eu; try discriminate. injection G as <- <-.
  cbn [scan_until_n] in Eu. unfold bind at 1, peek, gets, s_peek in Eu. rewrite (s_consume_rest _ H) in Eu.
  destruct (hd_error x) as [d|].
  - destruct (not_digit d) eqn:Ed.
    + injection Eu as <- <-. right. repeat split; auto. intros ? [= <-]. exact Ed.
    + left. assert (K : grows 1 (y <- consume_or t ;; ys <- scan_until_n n not_digit (consume_or t) ;; ret (y :: ys))).
      { apply grows_first; [apply grows_consume_or|]. intros. apply grows_bind0; [apply grows_until_n; gr|]. intros. apply grows_ret. }
      apply K in Eu. rewrite consume_current in Eu. lia.
  - injection Eu as <- <-. right. repeat split; auto. discriminate.
Qed.
Lemma until_zero_runs t s x : rest s = chr "0" :: x -> (forall d, hd_error x = Some d -> not_digit d = true) ->
  scan_until not_digit (consume_or t) s = ROk [chr "0"] (s_consume s).
Proof.
  intros H G. unfold scan_until. rewrite H. cbn [length scan_until_n]. unfold bind at 1, peek, gets, s_peek. rewrite H. cbn [hd_error].
  change (not_digit (chr "0")) with false. cbn iota. unfold consume_or at 1. unfold bind at 1 2, consume. rewrite H. cbn [hd_error ret].
  cbn iota beta. unfold bind at 1. unfold ret at 1. cbn iota.
  unfold bind at 1, peek, gets, s_peek. unfold bind. rewrite (s_consume_rest _ H). destruct (hd_error x) as [d|]; [rewrite (G _ eq_refl)|]; reflexivity.
Qed.
(** The continuation of [scan_number] *)
Definition num_k (o : option N * option N) : SM num :=
  let '(o1, o2) := o in
  if is_c (chr "0") o1 && (is_c (chr "b") o2 || is_c (chr "B") o2) then scan_radix_literal 2
  else if is_c (chr "0") o1 && (is_c (chr "o") o2 || is_c (chr "O") o2) then scan_radix_literal 8
  else if is_c (chr "0") o1 && (is_c (chr "x") o2 || is_c (chr "X") o2) then scan_radix_literal 16
  else if is_c (chr "0") o1 && match o2 with Some c => negb (c =? chr ".") | None => false end then
    v <- scan_until not_digit (consume_or UnexpectedEOS) ;;
    i <- some_or InvalidOrUnexpectedToken
           (match i64_from_str_radix 8 v with Some i => Some i | None => i64_from_str_radix 10 v end) ;;
    ret (mkNum i 0)
  else match o1 with
  | Some c =>
    if is_decimal_digit c then
      v <- scan_until not_digit (consume_or UnexpectedEOS) ;;
      o <- peek ;;
      if is_c (chr ".") o then scan_fractional_part v
      else ex <- scan_exponent ;;
           some_or InvalidOrUnexpectedToken (f64_parse (v ++ ex))
    else if c =? chr "." then scan_fractional_part []
    else s_error InvalidOrUnexpectedToken
  | None => s_error InvalidOrUnexpectedToken
  end.
Lemma scan_number_k s : scan_number s = num_k (s_peek2 s) s.
Proof. reflexivity. Qed.
Lemma gl_decimal v : gl T eq (o <- peek ;; if is_c (chr ".") o then scan_fractional_part v
      else ex <- scan_exponent ;; some_or InvalidOrUnexpectedToken (f64_parse (v ++ ex))).
Proof.
  apply gl_peek_bind; [intros o; gl|]. intros o c s1 s2 a t1 Hc S H C _. rewrite (@sep_is c) by (auto; vm_compute; tauto).
  destruct (is_c (chr ".") o); [apply grows_frac in H; lia|].
  assert (X : gl T eq (ex <- scan_exponent ;; some_or InvalidOrUnexpectedToken (f64_parse (v ++ ex)))) by gl.
  refine (proj2 X [] [] s1 s2 a t1 S H _ I). rewrite len_nil. lia.
Qed.
Hint Resolve gl_decimal : gl.
Lemma gl_num_k o : gl T eq (num_k o).
Proof. destruct o as [o1 o2]. unfold num_k. gl. Qed.
Lemma num_tail c o o' : c <> chr "0" -> num_k (Some c, o) = num_k (Some c, o').
Proof. intros H. unfold num_k. cbn [is_c]. replace (c =? chr "0") with false by lia. reflexivity. Qed.
Lemma num_zero s x a t1 : rest s = chr "0" :: x -> num_k (Some (chr "0"), hd_error x) s = ROk a t1 -> current t1 = current s + 1 ->
  a = mkNum 0 0 /\ t1 = s_consume s.
Proof.
  intros Hr H C. unfold num_k in H. change (is_c (chr "0") (Some (chr "0"))) with true in H. cbn [andb] in H.
  repeat match type of H with (if ?b then _ else _) _ = _ => destruct b; [apply grows_radix2 in H; lia|] end.
  match type of H with (if ?b then _ else _) _ = _ => destruct b end.
  - unfold bind at 1 in H. destruct (scan_until not_digit (consume_or UnexpectedEOS) s) as [v u| | |] eqn:Eu; try discriminate.
    apply (@until_zero _ _ _ _ _ Hr) in Eu. destruct Eu as [Eu|(-> & -> & _)].
    + exfalso. revert H. match goal with |- ?m u = _ -> _ => assert (G : grows 0 m) by gr end. intros H. apply G in H. lia.
    + injection H as <- <-. auto.
  - change (is_decimal_digit (chr "0")) with true in H. cbn iota in H.
    unfold bind at 1 in H. destruct (scan_until not_digit (consume_or UnexpectedEOS) s) as [v u| | |] eqn:Eu; try discriminate.
    apply (@until_zero _ _ _ _ _ Hr) in Eu. destruct Eu as [Eu|(-> & -> & _)].
    + exfalso. revert H. match goal with |- ?m u = _ -> _ => assert (G : grows 0 m) by gr end. intros H. apply G in H. lia.
    + unfold bind at 1, peek, gets in H. destruct (is_c (chr ".") (s_peek (s_consume s))).
      { apply grows_frac in H. rewrite consume_current in H. lia. }
      unfold bind at 1, scan_exponent in H. unfold bind at 1, peek, gets in H.
      destruct (is_c (chr "e") _ || is_c (chr "E") _).
      * exfalso. change (fun s : sst => ROk (s_peek s) s) with peek in H. revert H. match goal with |- match ?m ?u with _ => _ end = _ -> _ => assert (G : grows 1 m) by gr; destruct (m u) as [ex w| | |] eqn:Ew; try discriminate; apply G in Ew end.
        intros H. apply grows_some_or in H. rewrite consume_current in Ew. lia.
      * injection H as <- <-. auto.
Qed.
Lemma loc_number z s1 s2 a t1 : z <> [] -> lrel z s1 s2 -> scan_number s1 = ROk a t1 -> current t1 = current s1 + len z ->
  exists t2, scan_number s2 = ROk a t2 /\ lrel [] t1 t2.
Proof.
  intros Hz S H C. rewrite scan_number_k in *.
  assert (K : num_k (s_peek2 s2) = num_k (s_peek2 s1) -> exists t2, num_k (s_peek2 s2) s2 = ROk a t2 /\ lrel [] t1 t2).
  { intros ->. destruct (proj2 (gl_num_k (s_peek2 s1)) z [] s1 s2 a t1) as (a' & t2 & E1 & <- & S2); auto.
    - rewrite List.app_nil_r. exact S.
    - exact I.
    - eauto. }
  unfold s_peek2 in *. rewrite (lr_rest1 S), (lr_rest2 S) in *. destruct z as [|c [|d z]]; [congruence| |].
  - cbn [app hd_error tl] in *. destruct HF as [(d & x & Hd & Hsep)|[Hh _]].
    + destruct (N.eq_dec c (chr "0")) as [->|Hc]; [|apply K, num_tail, Hc].
      pose proof (lr_rest1 S) as R1. cbn [app] in R1. destruct (@num_zero _ _ _ _ R1 H C) as [-> ->].
      exists (s_consume s2). split; [|eapply lrel_consume; exact S]. clear K. pose proof (lr_rest2 S) as R2. cbn [app] in R2.
      rewrite Hd in *. cbn [hd_error]. unfold num_k. change (is_c (chr "0") (Some (chr "0"))) with true. cbn [andb].
      rewrite !(@sep_is d) by (auto; vm_compute; tauto). cbn [orb].
      replace (negb (d =? chr ".")) with true.
      2:{ pose proof (@sep_is d (chr ".") Hsep) as X. cbn [is_c] in X. rewrite X by (vm_compute; tauto). reflexivity. }
      unfold bind at 1. rewrite (@until_zero_runs _ _ _ R2); [reflexivity|]. cbn. intros ? [= <-]. apply sep_digit, Hsep.
    + apply K. rewrite Hh. reflexivity.
  - apply K. reflexivity.
Qed.
Lemma loc_numeric s1 s2 a t1 : lrel L s1 s2 -> scan_numeric_literal E s1 = ROk a t1 -> current t1 = current s1 + len L ->
  exists a' t2, scan_numeric_literal E s2 = ROk a' t2 /\ same_token a a' /\ lrel [] t1 t2.
Proof.
  intros S H C. unfold scan_numeric_literal, bind in *. destruct (scan_number s1) as [v u| | |] eqn:En; try discriminate.
  assert (u = t1) as ->.
  { unfold token_simple, mk_token in H. destruct (current u =? 0); [destruct (checked E); [discriminate|]|]; injection H as _ <-; reflexivity. }
  destruct (loc_number HL S En C) as (u2 & -> & S2).
  apply (proj2 (gl_simple TNumeric (VNum v)) [] [] t1 u2 a t1 S2 H); [rewrite len_nil; lia|reflexivity].
Qed.
(** Strings *)
Lemma gl_string_cp_n n : gl Q1 eq (scan_string_cp_n E n).
Proof.
  induction n as [|n IH]; cbn [scan_string_cp_n]; [gl|]. apply gl_peek2_on.
  - intros [o1 o2]. destruct o1 as [c1|]; [|gl]. destruct (if c1 =? 92 then o2 else None) as [c2|]; [|gl].
    apply gl_if; intros _; [gl|]. apply gl_if; intros _; [|gl].
    apply gl_bind1; [gl|intros _]. apply gl_peek2_on.
    + intros [p1 p2]. gl.
    + intros [p1 p2]. pose proof (grows0 (grows_string_cp_n E n)). gr.
  - intros [o1 o2]. pose proof (grows_string_cp_n E n). pose proof (grows0 (grows_string_cp_n E n)). gr.
Qed.
Lemma bpeek2 A (k : _ -> SM A) s : bind peek2 k s = k (s_peek2 s) s. Proof. reflexivity. Qed.
Lemma bpeek A (k : _ -> SM A) s : bind peek k s = k (s_peek s) s. Proof. reflexivity. Qed.
Lemma bconsume A (k : _ -> SM A) s : bind consume k s = k (hd_error (rest s)) (s_consume s). Proof. reflexivity. Qed.
Lemma mono_string_cp n s x : scan_string_cp_n E n s = x -> x <> RFuel -> forall m, (n <= m)%nat -> scan_string_cp_n E m s = x.
Proof.
  intros <-. revert s. induction n as [|n IH]; intros s H m Hm; [destruct (H eq_refl)|]. destruct m as [|m]; [lia|]. cbn [scan_string_cp_n] in *.
  rewrite !bpeek2 in *. destruct (s_peek2 s) as [[c1|] o2]; [|reflexivity].
  destruct (if c1 =? 92 then o2 else None) as [c2|]; [|reflexivity]. destruct (is_single_escape_char c2); [reflexivity|]. destruct (is_line_terminator c2); [|reflexivity].
  rewrite !bconsume, !bpeek2 in *. destruct (s_peek2 (s_consume s)) as [p1 p2]. destruct (is_c 13 p1 && is_c 10 p2); unfold bind, consume in *; unfold ret in *; cbn iota in *; (apply IH; [exact H|lia]).
Qed.
Lemma gl_string_cp : gl Q1 eq (scan_string_literal_cp E).
Proof.
  split; [apply grows0, grows_string_cp|]. intros z y s1 s2 a t1 S H C Hy. unfold scan_string_literal_cp in *.
  set (n1 := Datatypes.S (length (rest s1))) in *. set (n2 := Datatypes.S (length (rest s2))).
  pose proof (@mono_string_cp _ _ _ H) as H1. specialize (H1 ltac:(discriminate) (n1 + n2)%nat ltac:(lia)).
  destruct (proj2 (gl_string_cp_n (n1 + n2)) z y s1 s2 a t1 S H1 C Hy) as (a' & t2 & E2 & <- & S2).
  assert (exists c x, rest s2 = c :: x) as (c & x & Hr).
  { rewrite (lr_rest2 S). destruct (z ++ y) eqn:Ez; [|cbn; eauto]. apply app_eq_nil in Ez. destruct Ez as [_ Ez]. destruct (Hy Ez). }
  pose proof (@scan_string_cp_n_spec E _ n2 s2 c x (okX_xScan E s2) Hr) as W. specialize (W ltac:(unfold n2; lia)). unfold wp in W.
  destruct (scan_string_cp_n E n2 s2) eqn:E3; [| | |destruct W]; (pose proof (@mono_string_cp _ _ _ E3) as M; specialize (M ltac:(discriminate) (n1 + n2)%nat ltac:(lia)); rewrite E2 in M; try discriminate).
  injection M as <- <-. eauto.
Qed.
Hint Resolve gl_string_cp : gl.
Lemma gl_string : gl Qe same_token (scan_string_literal E).
Proof.
  unfold scan_string_literal. apply gl_peek_on; intros o; [|gr].
  apply gl_if; intros _; [|gl]. apply gl_bind; [apply gl_consume_unwrap|intros q].
  apply gl_bind_then; [|intros; gr|].
  - apply gl_until; auto using Q1_app, gl_string_cp, grows_string_cp. all: intros H; destruct (H eq_refl).
  - intros v. apply gl_bind; [apply gl_expect|intros _]. apply gl_mk; exact HL.
Qed.
(** Regular expressions *)
Lemma gl_regexp_loop n : gl Q1 eq (scan_regexp_loop n).
Proof.
  induction n as [|n IH]; cbn [scan_regexp_loop]; [gl|]. apply gl_bind1; [apply gl_peek|intros [c|]]; [|gl].
  apply gl_if; intros _; [|gl]. apply gl_bind1; [|intros; gl].
  apply gl_until; auto using Q1_app, gl_consume_or, grows_consume_or. all: intros H; destruct (H eq_refl).
Qed.
Lemma mono_regexp_loop n s x : scan_regexp_loop n s = x -> x <> RFuel -> forall m, (n <= m)%nat -> scan_regexp_loop m s = x.
Proof.
  intros <-. revert s. induction n as [|n IH]; intros s H m Hm; [destruct (H eq_refl)|]. destruct m as [|m]; [lia|]. cbn [scan_regexp_loop] in *.
  rewrite !bpeek in *. destruct (s_peek s) as [c|]; [|reflexivity].
  destruct (c =? chr "["); [|destruct (c =? 92); [|destruct (c =? chr "/"); [reflexivity|]]]; unfold bind in *.
  - destruct (scan_until _ _ s); auto. rewrite (IH s0) with (m := m); auto; [|lia]. intros K. apply H. rewrite K. reflexivity.
  - destruct (consume_or _ s); auto. destruct (consume_or _ s0); auto. rewrite (IH s1) with (m := m); auto; [|lia]. intros K. apply H. rewrite K. reflexivity.
  - destruct (consume_or _ s); auto. rewrite (IH s0) with (m := m); auto; [|lia]. intros K. apply H. rewrite K. reflexivity.
Qed.
Lemma gl_regexp_loop' : gl Q1 eq (fun s => scan_regexp_loop (Datatypes.S (length (rest s))) s).
Proof.
  split; [apply grows_regexp_loop'|]. intros z y s1 s2 a t1 S H C Hy.
  set (n1 := Datatypes.S (length (rest s1))) in *. set (n2 := Datatypes.S (length (rest s2))).
  pose proof (@mono_regexp_loop _ _ _ H) as H1. specialize (H1 ltac:(discriminate) (n1 + n2)%nat ltac:(lia)).
  destruct (proj2 (gl_regexp_loop (n1 + n2)) z y s1 s2 a t1 S H1 C Hy) as (a' & t2 & E2 & <- & S2).
  pose proof (@scan_regexp_loop_spec E _ n2 s2 (okX_xScan E s2)) as W. specialize (W ltac:(unfold n2; lia)). unfold wp in W.
  destruct (scan_regexp_loop n2 s2) eqn:E3; [| | |destruct W]; (pose proof (@mono_regexp_loop _ _ _ E3) as M; specialize (M ltac:(discriminate) (n1 + n2)%nat ltac:(lia)); rewrite E2 in M; try discriminate).
  injection M as <- <-. eauto.
Qed.
Lemma gl_regexp_body Q : gl Q eq scan_regexp_body.
Proof.
  apply gl_T. unfold scan_regexp_body. apply gl_bind; [apply gl_expect|intros _]. apply gl_peek_on.
  - intros o. apply gl_if; intros _; [gl|]. apply gl_bind_then; [apply gl_regexp_loop'|intros; gr|intros; gl].
  - intros o. gr.
Qed.
Lemma gl_regexp : gl Qe same_token (scan_regexp_literal E).
Proof.
  unfold scan_regexp_literal, scan_regexp_flags. apply gl_bind; [apply gl_regexp_body|intros p]. apply gl_bind; [apply gl_idparts|intros f]. apply gl_mk; exact HL.
Qed.
(** Templates *)
Lemma gl_template_char : gl Q1 eq (scan_template_char E).
Proof.
  unfold scan_template_char. apply gl_peek2_on; [|intros [o1 o2]; gr].
  intros [o1 o2]. destruct o1 as [c1|]; [|gl]. destruct (if c1 =? 92 then o2 else None) as [c2|]; [|gl].
  apply gl_if; intros _; [|gl]. apply gl_bind1; [gl|intros _]. apply gl_peek2_on; intros [p1 p2]; [gl|gr].
Qed.
Definition Qt (y : str) : Prop := exists x, y = chr "`" :: x \/ y = chr "$" :: chr "{" :: x.
Lemma template_until_n : forall n1 n2 z y s1 s2 a t1, lrel (z ++ y) s1 s2 -> scan2_until_n n1 template_stop (scan_template_char E) s1 = ROk a t1 ->
  current t1 = current s1 + len z -> Qt y -> (length z < n2)%nat -> exists t2, scan2_until_n n2 template_stop (scan_template_char E) s2 = ROk a t2 /\ lrel y t1 t2.
Proof.
  induction n1 as [|n1 IH]; intros n2 z y s1 s2 a t1 S H C Hy Hn; [discriminate|]. destruct n2 as [|n2]; [lia|].
  cbn [scan2_until_n] in *. unfold bind at 1, peek2, gets, s_peek2 in H. unfold bind at 1, peek2, gets, s_peek2.
  rewrite (lr_rest1 S) in H. rewrite (lr_rest2 S).
  assert (exists c x, z ++ y = c :: x /\ template_stop c (hd_error (x ++ r')) = template_stop c (hd_error (x ++ r))) as (c & x & Hz & Hs).
  { destruct Hy as (w & [-> | ->]); destruct z as [|c [|d z]]; eexists _, _; (split; [reflexivity|]); reflexivity. }
  rewrite Hz in H |- *. cbn [app hd_error tl] in *. rewrite Hs. destruct (template_stop c (hd_error (x ++ r))).
  - injection H as <- <-. apply len_zero in C. subst z. eexists. split; [reflexivity|exact S].
  - clear Hz Hs c x. unfold bind in *. destruct (scan_template_char E s1) as [b u1| | |] eqn:Er; try discriminate.
    destruct (scan2_until_n n1 _ _ u1) as [bs u2| | |] eqn:Eu; try discriminate. injection H as <- <-.
    pose proof (grows_template_char E _ Er) as G1. pose proof (grows_2until_n n1 template_stop (grows0 (grows_template_char E)) _ Eu) as G2.
    destruct (@len_split z (current u1 - current s1) (current u2 - current u1)) as (z1 & z2 & -> & L1 & L2); [lia..|].
    rewrite <- app_assoc in S. destruct (proj2 gl_template_char _ _ _ _ _ _ S Er) as (b' & v1 & -> & <- & S'); [lia| |].
    { apply Q1_app. destruct Hy as (w & [-> | ->]); discriminate. }
    destruct (IH n2 _ _ _ _ _ _ S' Eu) as (v2 & -> & S2); [lia|exact Hy| |eexists; split; [reflexivity|exact S2]].
    rewrite app_length in Hn. unfold len in L1. lia.
Qed.
Lemma loc_template_until : loc Qt eq (scan2_until template_stop (scan_template_char E)) (scan2_until template_stop (scan_template_char E)).
Proof.
  intros z y s1 s2 a t1 S H C Hy. unfold scan2_until in *.
  destruct (template_until_n _ (n2 := Datatypes.S (length (rest s2))) _ S H C Hy) as (t2 & -> & S2); [|eauto].
  rewrite (lr_rest2 S), !app_length. lia.
Qed.
Lemma split_run A B (m : SM A) (k : A -> SM B) z s1 s2 b t1 : gl T eq m -> (forall a, grows 0 (k a)) ->
  lrel z s1 s2 -> bind m k s1 = ROk b t1 -> current t1 = current s1 + len z ->
  exists a u1 u2 z1 z2, z = z1 ++ z2 /\ m s1 = ROk a u1 /\ m s2 = ROk a u2 /\ lrel z2 u1 u2 /\ k a u1 = ROk b t1 /\ current t1 = current u1 + len z2.
Proof.
  intros [Gm Lm] Gk S H C. unfold bind in H. destruct (m s1) as [a u1| | |] eqn:Em; try discriminate.
  pose proof (Gm _ _ _ Em) as G1. pose proof (Gk a _ _ _ H) as G2.
  destruct (@len_split z (current u1 - current s1) (current t1 - current u1)) as (z1 & z2 & -> & L1 & L2); [lia..|].
  destruct (Lm _ _ _ _ _ _ S Em) as (a' & u2 & E2 & <- & S'); [lia|exact I|].
  exists a, u1, u2, z1, z2. repeat split; auto; try apply S'. lia.
Qed.
Definition template_end (raw cooked : str) (h : bool) : SM token :=
  '(o1, o2) <- peek2 ;;
  tail <- (if is_c (chr "$") o1 && is_c (chr "{") o2 then
             consume ;;; consume ;;; push_curly BTemplate ;;; ret false
           else if is_c (chr "`") o1 then consume ;;; ret true
           else crash P_UnterminatedTemplate) ;;
  mk_token E TTemplate (VStr raw) None None (Some false) (Some cooked) (Some h) (Some tail).
Lemma grows_push b : grows 0 (push_curly b). Proof. apply grows_modify. reflexivity. Qed.
Lemma grows_pop : grows 0 pop_curly. Proof. apply grows_modify. reflexivity. Qed.
Lemma grows_start : grows 0 start_recording. Proof. apply grows_modify. reflexivity. Qed.
Hint Resolve grows_push grows_pop grows_start grows_stop : gr.
Lemma grows_template_end raw cooked h : grows 1 (template_end raw cooked h).
Proof.
  unfold template_end. apply grows_then; [apply grows_gets|intros [o1 o2]]. apply grows_first; [|intros; apply grows_mk]. gr.
Qed.
Lemma loc_template_end raw cooked h z s1 s2 a t1 : lrel z s1 s2 -> template_end raw cooked h s1 = ROk a t1 -> current t1 = current s1 + len z -> Qt z ->
  exists a' t2, template_end raw cooked h s2 = ROk a' t2 /\ same_token a a' /\ lrel [] t1 t2.
Proof.
  intros S H C Hz. unfold template_end in *. rewrite bpeek2 in *. unfold s_peek2 in *. rewrite (lr_rest1 S) in H. rewrite (lr_rest2 S).
  assert (X : forall b, gl Qe same_token (mk_token E TTemplate (VStr raw) None None (Some false) (Some cooked) (Some h) (Some b))) by (intros; apply gl_mk; exact HL).
  assert (Y : forall m : SM bool, gl T eq m -> (b <- m ;; mk_token E TTemplate (VStr raw) None None (Some false) (Some cooked) (Some h) (Some b)) s1 = ROk a t1 ->
    exists a' t2, (b <- m ;; mk_token E TTemplate (VStr raw) None None (Some false) (Some cooked) (Some h) (Some b)) s2 = ROk a' t2 /\ same_token a a' /\ lrel [] t1 t2).
  { intros m Hm Hr. refine (proj2 (@gl_bind _ _ _ _ _ _ Hm X) z [] s1 s2 a t1 _ Hr C eq_refl). rewrite List.app_nil_r. exact S. }
  destruct Hz as (w & [-> | ->]).
  - cbn [app hd_error tl] in *. change (is_c (chr "$") (Some (chr "`"))) with false in *. cbn [andb] in *. change (is_c (chr "`") (Some (chr "`"))) with true in *. cbn iota in *.
    apply Y; [gl|exact H].
  - cbn [app hd_error tl] in *. change (is_c (chr "$") (Some (chr "$"))) with true in *. change (is_c (chr "{") (Some (chr "{"))) with true in *. cbn [andb] in *. cbn iota in *.
    apply Y; [gl|exact H].
Qed.
Lemma Qt_end raw cooked h z s a t : rest s = z ++ r -> template_end raw cooked h s = ROk a t -> current t = current s + len z -> Qt z.
Proof.
  intros Hr H C. unfold template_end in H. rewrite bpeek2 in H. unfold s_peek2 in H.
  assert (Z : forall b (u v : sst) x, mk_token E TTemplate (VStr raw) None None (Some false) (Some cooked) (Some h) (Some b) u = ROk x v -> u = v).
  { intros b u v x G. unfold mk_token in G. destruct (current u =? 0); [destruct (checked E); [discriminate|]|]; injection G as _ <-; reflexivity. }
  destruct (is_c (chr "$") (hd_error (rest s)) && is_c (chr "{") (hd_error (tl (rest s)))) eqn:E1.
  - apply andb_true_iff in E1. destruct E1 as [E1 E2]. unfold bind, consume, push_curly, modify, ret in H. cbn iota in H. apply Z in H. subst t.
    cbn [current set_curly] in C. rewrite !consume_current in C. rewrite Hr in *.
    destruct z as [|c [|d z]]; rewrite ?len_nil, ?len_cons, ?len_nil in C; try lia. cbn [app hd_error tl] in *. apply is_c_true in E1, E2. injection E1 as ->. injection E2 as ->.
    exists z. right. reflexivity.
  - destruct (is_c (chr "`") (hd_error (rest s))) eqn:E2; [|discriminate]. unfold bind, consume, ret in H. cbn iota in H. apply Z in H. subst t.
    rewrite !consume_current in C. rewrite Hr in *. destruct z as [|c z]; rewrite ?len_nil in C; try lia. cbn [app hd_error tl] in *. apply is_c_true in E2. injection E2 as ->.
    exists z. left. reflexivity.
Qed.
Lemma loc_template o h z s1 s2 a t1 : lrel z s1 s2 -> scan_template_piece E o h s1 = ROk a t1 -> current t1 = current s1 + len z ->
  exists a' t2, scan_template_piece E o h s2 = ROk a' t2 /\ same_token a a' /\ lrel [] t1 t2.
Proof.
  intros S H C.
  set (k3 := fun cooked => raw <- stop_recording ;; template_end raw cooked h).
  change (scan_template_piece E o h) with (expect_c o ;;; start_recording ;;; cooked <- scan2_until template_stop (scan_template_char E) ;; k3 cooked) in *.
  assert (G3 : forall c, grows 0 (k3 c)).
  { intros c. unfold k3. apply grows_bind0; [apply grows_stop|intros]. apply grows0, grows_template_end. }
  assert (G2 : grows 0 (cooked <- scan2_until template_stop (scan_template_char E) ;; k3 cooked)) by (apply grows_bind0; [gr|exact G3]).
  eapply split_run in H; [|apply gl_expect|intros; apply grows_bind0; [apply grows_start|intros; exact G2]|exact S|exact C].
  destruct H as (a0 & u1 & u2 & z1 & z2 & -> & H1 & H2 & S1 & H & C1). unfold bind at 1. rewrite H2. clear z1 H1 H2 S C.
  eapply split_run in H; [|apply gl_start|intros; exact G2|exact S1|exact C1].
  destruct H as (a1 & v1 & v2 & z1 & z & -> & H1 & H2 & S & H & C). unfold bind at 1. rewrite H2. clear z1 H1 H2 S1 C1 u1 u2 s1 s2 a0 a1.
  unfold bind at 1 in H. destruct (scan2_until template_stop (scan_template_char E) v1) as [cooked w1| | |] eqn:Es; try discriminate.
  assert (W : exists z1, rest v1 = z1 ++ rest w1 /\ current w1 = current v1 + len z1).
  { pose proof (@scan2_until_n_spec E (xScan E v1) N template_stop (scan_template_char E) (fun b l => template_piece_of E b l) (Datatypes.S (length (rest v1))) v1 (okX_xScan E v1)) as W.
    specialize (W ltac:(lia)). unfold scan2_until in Es. unfold wp in W. rewrite Es in W. destruct W as (ls & _ & R & _).
    - intros s c x Hok Hc Hp. eapply scan_template_char_spec; eauto.
    - exists (concat ls). split; [exact (rd_rest R)|exact (rd_current R)]. }
  destruct W as (z1 & W1 & W2). pose proof (G3 cooked _ _ _ H) as G4.
  assert (exists z2, z = z1 ++ z2 /\ rest w1 = z2 ++ r) as (z2 & -> & W3).
  { rewrite (lr_rest1 S) in W1. assert (Hl : len z1 <= len z) by lia. clear -W1 Hl. exists (skipn (length z1) z). unfold len in Hl.
    assert (length z1 <= length z)%nat by lia. pose proof (f_equal (firstn (length z1)) W1) as A. pose proof (f_equal (skipn (length z1)) W1) as B.
    rewrite firstn_app, skipn_app in *. rewrite firstn_app, skipn_app in *. replace (length z1 - length z)%nat with 0%nat in * by lia. rewrite firstn_all, skipn_all, Nat.sub_diag in *.
    cbn [firstn skipn app] in *. rewrite !List.app_nil_r in A. split; [|auto]. rewrite <- A at 1. symmetry. apply firstn_skipn. }
  rewrite len_app in C.
  assert (Hk : exists raw w1', stop_recording w1 = ROk raw w1' /\ template_end raw cooked h w1' = ROk a t1 /\ rest w1' = rest w1 /\ current w1' = current w1).
  { unfold k3, bind at 1, stop_recording in H. eexists _, _. split; [reflexivity|]. split; [exact H|]. split; reflexivity. }
  destruct Hk as (raw & w1' & K1 & K2 & K3 & K4).
  assert (Q : Qt z2) by (refine (@Qt_end raw cooked h z2 w1' a t1 _ K2 _); [rewrite K3; exact W3|lia]).
  destruct (loc_template_until z1 S Es) as (cooked' & w2 & E2 & <- & S2); [lia|exact Q|]. unfold bind at 1. rewrite E2.
  destruct (proj2 (gl_stop T) [] z2 w1 w2 raw w1' S2 K1) as (raw' & w2' & K1' & <- & S3); [rewrite len_nil; lia|exact I|].
  unfold k3, bind at 1. rewrite K1'. eapply loc_template_end; eauto. lia.
Qed.
End Local.
