(** * RelayScan: the next token of a text laid out differently (proofs for C49). *)
From Verif Require Import Base Codepoint Punct Token Scanner SpecLex SpecScan Hoare ScanBase ScanTrivia ScanToken ScanTokens2 ScanNext ScanSim LexFacts ScanForward GramLex SpecRelay ScanLocal SpecCol ScanCol.
From Verif Require SimBase ScanShift.
From Coq Require Import ZifyBool ZifyN ZifyNat.
Set Implicit Arguments.
Local Open Scope N_scope.

(** ** Punctuators have no other attributes. *)
Definition plain_token (t : token) : Prop :=
  ttype t = TPunctuator /\ tpattern t = None /\ tflags t = None /\ toctal t = None /\ tcooked t = None /\ thead t = None /\ ttail t = None.
Definition plain (m : SM token) : Prop := forall s t s', m s = ROk t s' -> plain_token t.
Lemma plain_bind A (m : SM A) k : (forall a, plain (k a)) -> plain (bind m k).
Proof. intros H s t s' G. unfold bind in G. destruct (m s); try discriminate. eapply H; eauto. Qed.
Lemma plain_none m : (forall s a t, m s <> ROk a t) -> plain m.
Proof. intros H s t s' G. destruct (H _ _ _ G). Qed.
Lemma plain_mk E v : plain (token_simple E TPunctuator v).
Proof. intros s t s' H. unfold token_simple, mk_token in H. destruct (current s =? 0); [destruct (checked E); [discriminate|]|]; injection H as <- <-; repeat split. Qed.
Lemma plain0 E v : plain (punc0 E v). Proof. apply plain_bind. intros. apply plain_mk. Qed.
Lemma plain1 E v : plain (punc1 E v). Proof. apply plain_bind. intros. apply plain0. Qed.
Lemma plain2 E v : plain (punc2 E v). Proof. apply plain_bind. intros. apply plain1. Qed.
Ltac pl := repeat first [apply plain0|apply plain1|apply plain2|apply plain_none; discriminate|apply plain_bind; intros| match goal with
  | |- plain (if ?b then _ else _) => destruct b
  | |- plain (match ?b with _ => _ end) => destruct b end].
Lemma plain_punctuator E : plain (scan_punctuator E). Proof. unfold scan_punctuator. pl. Qed.
Lemma plain_div E : plain (scan_div_punctuator E). Proof. unfold scan_div_punctuator. pl. Qed.

(** ** The longest punctuator *)
Definition grows_by (p : punct) (c : N) : bool :=
  existsb (fun q => negb (match q with QMarkDot | DoubleQMark | RShiftAssign | Instanceof => true | _ => false end) &&
                    str_eqb (spell_lit q) (spell_lit p ++ [c])) all_puncts.
Definition extends_by (p q : punct) : bool :=
  match skipn (length (spell_lit p)) (spell_lit q) with
  | c :: _ => negb (str_eqb (firstn (length (spell_lit p)) (spell_lit q)) (spell_lit p)) || grows_by p c || match p with Dot => true | _ => false end
              || match q with QMarkDot | DoubleQMark | RShiftAssign | Instanceof => true | _ => false end
              || match p with QMarkDot | DoubleQMark | RShiftAssign | Instanceof => true | _ => false end
  | [] => true
  end.
Lemma extends_all : forallb (fun p => forallb (extends_by p) all_puncts) all_puncts = true.
Proof. vm_compute. reflexivity. Qed.
Lemma never_dec p : (match p with QMarkDot | DoubleQMark | RShiftAssign | Instanceof => true | _ => false end) = true <-> never_scanned p.
Proof. unfold never_scanned. destruct p; intuition (try discriminate; auto 6). Qed.
Lemma extension p q c x : ~ never_scanned p -> ~ never_scanned q -> p <> Dot -> spell_lit q = spell_lit p ++ c :: x ->
  exists q', ~ never_scanned q' /\ spell_lit q' = spell_lit p ++ [c].
Proof.
  intros Np Nq Hd H. pose proof extends_all as A. rewrite forallb_forall in A. specialize (A p (all_puncts_ok p)). rewrite forallb_forall in A. specialize (A q (all_puncts_ok q)).
  unfold extends_by in A. rewrite H, skipn_app, skipn_all, Nat.sub_diag, firstn_app, firstn_all, Nat.sub_diag in A. cbn [firstn skipn app] in A.
  rewrite List.app_nil_r in A. assert (str_eqb (spell_lit p) (spell_lit p) = true) as B by (apply str_eqb_eq; reflexivity). rewrite B in A. cbn [negb orb] in A.
  rewrite <- !never_dec in *. destruct (match p with QMarkDot | DoubleQMark | RShiftAssign | Instanceof => true | _ => false end) eqn:E1; [congruence|].
  destruct (match q with QMarkDot | DoubleQMark | RShiftAssign | Instanceof => true | _ => false end) eqn:E2; [congruence|].
  destruct (match p with Dot => true | _ => false end) eqn:E3; [destruct p; congruence|]. rewrite !orb_false_r in A.
  unfold grows_by in A. apply existsb_exists in A. destruct A as (q' & _ & A). apply andb_true_iff in A. destruct A as [A1 A2]. apply str_eqb_eq in A2.
  exists q'. split; [|exact A2]. intros K. apply never_dec in K. rewrite K in A1. discriminate.
Qed.
Definition dots (q : punct) : bool := match spell_lit q with c :: d :: _ => negb (c =? chr ".") || (d =? chr ".") | _ => true end.
Lemma dots_all : forallb dots all_puncts = true. Proof. vm_compute. reflexivity. Qed.
Definition sep_free (q : punct) : bool :=
  match tl (spell_lit q) with [] => true | x => match q with Instanceof => true | _ => forallb (fun c => existsb (N.eqb c) (s2l "=+-&|<>*.?")) x end end.
Lemma sep_free_all : forallb sep_free all_puncts = true. Proof. vm_compute. reflexivity. Qed.
Lemma longest_after E p r r' : after E (spell_lit p) r r' -> longest_match p (spell_lit p ++ r) -> longest_match p (spell_lit p ++ r').
Proof.
  intros HF (N1 & _ & N3). split; [exact N1|]. split; [exists r'; rewrite spell_lit_ok; reflexivity|].
  intros q Nq [x Hx]. rewrite !spell_lit_length. rewrite spell_lit_ok in Hx. destruct (Nat.le_gt_cases (length (spell_lit q)) (length (spell_lit p))) as [Hle|Hlt]; [exact Hle|].
  exfalso. assert (exists c y w, spell_lit q = spell_lit p ++ c :: y /\ r' = c :: w) as (c & y & w & Hq & Hr).
  { clear -Hx Hlt. revert Hx Hlt. generalize (spell_lit p) (spell_lit q). intros a. induction a as [|d a IH]; intros b Hx Hlt.
    - destruct b as [|c b]; cbn in *; [lia|]. exists c, b, (b ++ x). auto.
    - destruct b as [|d' b]; cbn in *; [lia|]. injection Hx as <- Hx. destruct (IH b Hx) as (c & y & w & A & B); [lia|]. exists c, y, w. rewrite A. auto. }
  assert (Hs : ~ separator E c).
  { intros Hs. pose proof sep_free_all as A. rewrite forallb_forall in A. specialize (A q (all_puncts_ok q)). unfold sep_free in A.
    assert (Hp : spell_lit p <> []) by (destruct p; discriminate).
    assert (Ht : In c (tl (spell_lit q))).
    { rewrite Hq. destruct (spell_lit p) as [|d a]; [congruence|]. cbn. apply in_or_app. right. left. reflexivity. }
    destruct (tl (spell_lit q)) as [|t0 tl0] eqn:Etl; [destruct Ht|].
    assert (K : forallb (fun c => existsb (N.eqb c) (s2l "=+-&|<>*.?")) (t0 :: tl0) = true).
    { destruct q; try exact A. exfalso. apply Nq. unfold never_scanned. tauto. }
    rewrite forallb_forall in K. specialize (K c Ht). apply existsb_exists in K. destruct K as (d & K1 & K2). apply N.eqb_eq in K2. subst d.
    destruct (sep_facts Hs) as (_ & _ & _ & F). apply (F c); [|reflexivity]. vm_compute in K1 |- *. tauto. }
  destruct HF as [(d & v & -> & Hsep)|[Hh Hd]]; [injection Hr as -> _; tauto|]. rewrite Hr in Hh. cbn in Hh.
  destruct r as [|c' v]; [discriminate|]. injection Hh as <-.
  destruct (punct_eq_dec p Dot) as [->|Hdot].
  - apply Hd. split; [reflexivity|]. cbn. f_equal. pose proof dots_all as A. rewrite forallb_forall in A. specialize (A q (all_puncts_ok q)). unfold dots in A. rewrite Hq in A. cbn in A. lia.
  - destruct (@extension _ _ _ _ N1 Nq Hdot Hq) as (q' & N' & Hq'). specialize (N3 q' N'). rewrite spell_lit_ok, !spell_lit_length, Hq', app_length in N3.
    cbn [length] in N3. assert (length (spell_lit p) + 1 <= length (spell_lit p))%nat; [|lia]. apply N3. exists v. rewrite <- app_assoc. reflexivity.
Qed.

Lemma app_split (a : str) : forall b x y, a ++ x = b ++ y -> length a = length b -> a = b /\ x = y.
Proof.
  induction a as [|c a IH]; intros [|d b] x y H Hl; cbn in *; try lia; auto. injection H as <- H. destruct (IH b x y H) as [-> ->]; auto.
Qed.
Section Step.
Context (E : env).

Lemma loc_punct (m : SM token) L r r' s1 s2 t t1 : after E L r r' -> rest s1 = L ++ r -> rest s2 = L ++ r' -> L <> [] ->
  wp (xScan E s1) m (ptok E s1) s1 -> wp (xScan E s2) m (ptok E s2) s2 -> plain m -> yields_punct m s2 ->
  m s1 = ROk t t1 -> current t1 = current s1 + len L ->
  exists t' t2, m s2 = ROk t' t2 /\ same_token t t' /\ rest t2 = r'.
Proof.
  intros HF R1 R2 HL W1 W2 Hpl (t' & t2 & q & Y & Yq) H C.
  unfold wp in W1, W2. rewrite H in W1. rewrite Y in W2.
  destruct W1 as (p & P1 & P2 & P3 & P4), W2 as (p' & Q1 & Q2 & Q3 & Q4). rewrite spell_lit_ok in *.
  assert (HLp : L = spell_lit p /\ rest t1 = r).
  { pose proof (td_rest (tf_reads P3)) as A. pose proof (td_current (tf_reads P3)) as B. rewrite R1 in A. apply app_split in A; [destruct A; auto|]. unfold len in *. lia. }
  destruct HLp as [-> _]. rewrite R1 in P4. rewrite R2 in Q4. assert (p' = p) as -> by (eapply longest_unique; [exact Q4|eapply longest_after; eauto]).
  exists t', t2. split; [exact Y|]. split.
  - destruct (Hpl _ _ _ H) as (A1 & A2 & A3 & A4 & A5 & A6 & A7), (Hpl _ _ _ Y) as (B1 & B2 & B3 & B4 & B5 & B6 & B7). repeat split; congruence.
  - pose proof (td_rest (tf_reads Q3)) as A. rewrite R2 in A. apply app_inv_head in A. auto.
Qed.
Lemma punctuator_starts s c x t t1 : rest s = c :: x -> scan_punctuator E s = ROk t t1 -> c <> chr "/" -> punct_start c = true /\ (needs_next c = true -> x <> []).
Proof.
  intros R H Hc. pose proof (@scan_punctuator_spec E (xScan E s) s c x (okX_xScan E s) R) as W. unfold wp in W. rewrite H in W. destruct W as (p & P1 & P2 & P3 & P4).
  destruct (@punct_first p (proj1 P4)) as (d & l & F1 & F2 & _). pose proof (td_rest (tf_reads P3)) as A. rewrite R, F1 in A. injection A as <- A.
  split; [destruct F2; [assumption|congruence]|]. intros Hn ->. 
  unfold needs_next in Hn. apply existsb_exists in Hn. destruct Hn as (e & He & Hce). apply N.eqb_eq in Hce. subst e.
  unfold scan_punctuator in H. unfold bind at 1, peek2, gets, s_peek2 in H. rewrite R in H. cbn [hd_error tl] in H. clear -H He.
  let v := eval vm_compute in (s2l "+-&|%^") in change (s2l "+-&|%^") with v in He. cbn [In] in He.
  repeat (destruct He as [<-|He]); [..|destruct He]; discriminate.
Qed.
Lemma scan_token_local g L r r' s1 s2 t t1 : after E L r r' -> L <> [] -> rest s1 = L ++ r -> rest s2 = L ++ r' -> quiet s1 -> quiet s2 ->
  curly s1 = curly s2 -> scan_token E g s1 = ROk t t1 -> current t1 = current s1 + len L ->
  exists t' t2, scan_token E g s2 = ROk t' t2 /\ same_token t t' /\ rest t2 = r'.
Proof.
  intros HF HL R1 R2 Q1 Q2 HC H C.
  assert (S : lrel L r r' L s1 s2).
  { destruct Q1, Q2. constructor; auto; try congruence. intros. lia. }
  assert (G : forall m : SM token, gl L r r' Qe same_token m -> m s1 = ROk t t1 -> exists t' t2, m s2 = ROk t' t2 /\ same_token t t' /\ rest t2 = r').
  { intros m [_ Hm] H1. destruct (Hm L [] s1 s2 t t1) as (t' & t2 & A & B & D); auto.
    - rewrite List.app_nil_r. exact S.
    - reflexivity.
    - exists t', t2. split; [exact A|]. split; [exact B|]. exact (lr_rest2 D). }
  unfold scan_token in *. unfold s_peek2 in *. destruct L as [|c L]; [congruence|]. rewrite R1 in H. rewrite R2. cbn [app hd_error tl] in *.
  destruct (is_identifier_start E c); [apply G; [apply gl_identifier; auto|exact H]|].
  destruct ((c =? 34) || (c =? 39)); [apply G; [apply gl_string; auto|exact H]|].
  assert (Hn : scan_numeric_literal E s1 = ROk t t1 -> exists t' t2, scan_numeric_literal E s2 = ROk t' t2 /\ same_token t t' /\ rest t2 = r').
  { intros H1. destruct (loc_numeric HF HL S H1 C) as (t' & t2 & A & B & D). exists t', t2. split; [exact A|]. split; [exact B|]. exact (lr_rest2 D). }
  assert (Hdig : (c =? chr ".") = true -> match hd_error (L ++ r) with Some d => is_decimal_digit d | None => false end =
                 match hd_error (L ++ r') with Some d => is_decimal_digit d | None => false end).
  { intros Hc. destruct L as [|d L]; [|reflexivity]. cbn [app]. destruct HF as [(d & x & -> & Hs)|[Hh _]]; [|rewrite Hh; reflexivity].
    cbn. destruct (sep_facts Hs) as (-> & _). destruct (hd_error r) as [e|] eqn:Er; [|reflexivity]. destruct (is_decimal_digit e) eqn:Ed; [|reflexivity].
    exfalso. rewrite Hc in H. cbn [andb] in H. cbn [app] in H. rewrite Er, Ed in H.
    assert (c = chr ".") as -> by lia. unfold scan_numeric_literal, bind in H. destruct (scan_number s1) as [v u| | |] eqn:En; try discriminate.
    unfold scan_number in En. rewrite bpeek2 in En. unfold s_peek2 in En. rewrite R1 in En. cbn [app hd_error tl] in En.
    change (is_c (chr "0") (Some (chr "."))) with false in En. cbn [andb] in En. change (is_decimal_digit (chr ".")) with false in En. change (chr "." =? chr ".") with true in En. cbn iota in En.
    assert (u = t1) as ->.
    { unfold token_simple, mk_token in H. destruct (current u =? 0); [destruct (checked E); [discriminate|]|]; injection H as _ <-; reflexivity. }
    unfold scan_fractional_part, bind at 1, expect_c in En. rewrite bconsume in En. rewrite R1 in En. cbn [app hd_error] in En. change (is_c (chr ".") (Some (chr "."))) with true in En. unfold ret at 1 in En. cbn iota in En.
    unfold bind at 1 in En. destruct (scan_until not_digit (consume_or InvalidOrUnexpectedToken) (s_consume s1)) as [fr w| | |] eqn:Eu; try discriminate.
    assert (K : grows 0 (ex <- scan_exponent;; some_or InvalidOrUnexpectedToken (f64_parse ([] ++ chr "." :: fr ++ ex)))).
    { apply grows_bind0; [apply grows_exponent|intros; apply grows_some_or]. }
    apply K in En. unfold scan_until in Eu. cbn [scan_until_n] in Eu. rewrite bpeek in Eu. unfold s_peek in Eu. rewrite (s_consume_rest _ R1) in Eu. cbn [app] in Eu. rewrite Er in Eu.
    unfold not_digit at 1 in Eu. rewrite Ed in Eu. cbn [negb] in Eu.
    match type of Eu with ?m ?s = _ => assert (K' : grows 1 m) end.
    { apply grows_first; [apply grows_consume_or|intros]. apply grows_bind0; [apply grows_until_n, grows0, grows_consume_or|intros; apply grows_ret]. }
    apply K' in Eu. rewrite consume_current in Eu. rewrite len_cons, len_nil in C. lia. }
  destruct ((c =? chr ".") && match hd_error (L ++ r) with Some d => is_decimal_digit d | None => false end) eqn:E1.
  { apply andb_true_iff in E1. destruct E1 as [E1 E2]. rewrite <- Hdig by exact E1. rewrite E1, E2. cbn [andb]. apply Hn, H. }
  replace ((c =? chr ".") && match hd_error (L ++ r') with Some d => is_decimal_digit d | None => false end) with false.
  2:{ destruct (c =? chr "."); [|reflexivity]. rewrite <- Hdig by reflexivity. symmetry. exact E1. }
  destruct (is_decimal_digit c); [apply Hn, H|].
  destruct (c =? chr "`").
  { destruct (@loc_template E (c :: L) r r' HF HL (chr "`") true _ _ _ _ _ S H C) as (t' & t2 & A & B & D). exists t', t2. split; [exact A|]. split; [exact B|]. exact (lr_rest2 D). }
  rewrite <- HC. destruct ((c =? chr "}") && match curly s1 with BTemplate :: _ => true | _ => false end).
  { unfold bind, pop_curly, modify in *. cbn iota in *.
    destruct (@loc_template E (c :: L) r r' HF HL (chr "}") false (c :: L) (set_curly (tl (curly s1)) s1) (set_curly (tl (curly s2)) s2) t t1) as (t' & t2 & A & B & D).
    - destruct S. constructor; auto.
    - exact H.
    - exact C.
    - exists t', t2. split; [exact A|]. split; [exact B|]. exact (lr_rest2 D). }
  destruct (c =? chr "/") eqn:Es.
  - destruct g; [|apply G; [apply gl_regexp; auto|exact H]]. assert (c = chr "/") as -> by lia.
    eapply loc_punct; [exact HF|exact R1|exact R2|exact HL| | |apply plain_div| |exact H|exact C].
    + eapply scan_div_punctuator_spec; [apply okX_xScan|exact R1|reflexivity].
    + eapply scan_div_punctuator_spec; [apply okX_xScan|exact R2|reflexivity].
    + eapply scan_div_runs. exact R2.
  - eapply loc_punct; [exact HF|exact R1|exact R2|exact HL| | |apply plain_punctuator| |exact H|exact C].
    + eapply scan_punctuator_spec; [apply okX_xScan|exact R1].
    + eapply scan_punctuator_spec; [apply okX_xScan|exact R2].
    + destruct (@punctuator_starts s1 c (L ++ r) t t1 R1 H) as [P1 P2]; [lia|]. eapply scan_punctuator_runs; [exact R2|exact P1|].
      intros Hn' Hx. apply P2 in Hn'. apply app_eq_nil in Hx. destruct Hx as [-> ->]. cbn [app] in Hn'.
      destruct HF as [(d & x & K & _)|[Hh _]]; [discriminate|]. destruct r; [congruence|discriminate].
Qed.
Lemma column_breaks l : forall c r r', breaks l r' = breaks l r -> column c l r' = column c l r.
Proof.
  induction l as [|x l IH]; intros c r r' H; cbn [column breaks] in *; [reflexivity|]. destruct l as [|y l].
  - cbn [app column breaks] in *. destruct (line_terminatorb x && negb ((x =? CR) && match r' with [] => false | d :: _ => d =? LF end)), (line_terminatorb x && negb ((x =? CR) && match r with [] => false | d :: _ => d =? LF end)); auto; discriminate.
  - cbn [app] in *. apply IH. lia.
Qed.
(** The gap and the text of a token are where the scanner says. *)
Lemma next_parts g1 l1 g2 l2 s t s2 : next_token E s t g1 l1 s2 -> next_token E s t g2 l2 s2 -> l1 = l2.
Proof.
  intros A B. pose proof (nt_rest A) as R1. pose proof (nt_rest B) as R2. rewrite R1, !app_assoc in R2. apply app_inv_tail in R2.
  pose proof (nt_start A) as S1. pose proof (nt_start B) as S2. assert (L : length g1 = length g2) by (unfold len in *; lia).
  clear -R2 L. revert g2 R2 L. induction g1 as [|x g1 IH]; intros [|y g2] R2 L; cbn in *; try discriminate; auto. injection R2 as _ R2. injection L as L. eauto.
Qed.
Lemma no_trivia_after l r r' : after E l r r' -> l <> [] -> no_trivia (l ++ r) -> no_trivia (l ++ r').
Proof.
  intros HF Hl H. destruct l as [|c [|d l]]; [congruence| |exact H]. cbn in *. destruct H as (H1 & H2 & H3). split; [exact H1|]. split; [exact H2|]. intros Hc. specialize (H3 Hc).
  destruct HF as [(d & x & -> & Hs)|[Hh _]].
  - destruct (sep_facts Hs) as (_ & _ & _ & F). split; apply F; vm_compute; tauto.
  - destruct r' as [|d x]; [exact I|]. destruct r as [|d' y]; [discriminate|]. injection Hh as <-. exact H3.
Qed.
Record relayed (t t' : token) (s2 s2' : sst) : Prop := mkRelayed {
  rl_same : same_token t t';
  rl_tline : tline t' = tline t;
  rl_line : line s2' = line s2;
  rl_tcol : tcol t' = tcol t;
  rl_col : col s2' = col s2;
  rl_curly : curly s2' = curly s2;
  rl_quiet : quiet s2';
  rl_fresh : unscanned s2' = None }.
Lemma curly_same t t' c : same_token t t' -> curly_after t c = curly_after t' c.
Proof. intros (A & B & _ & _ & _ & _ & C & D). unfold curly_after. rewrite A, B, C, D. reflexivity. Qed.
Lemma next_relay gl s s' t g g' l r' s2 : quiet s -> fresh s -> s_next E gl s = ROk t s2 -> next_token E s t g l s2 ->
  quiet s' -> fresh s' -> curly s' = curly s -> line s' = line s -> rest s' = g' ++ l ++ r' -> trivia g' (l ++ r') ->
  breaks g' (l ++ r') = breaks g (l ++ rest s2) -> breaks l r' = breaks l (rest s2) -> (l <> [] -> after E l (rest s2) r') -> (l = [] -> r' = [] /\ 0 < current s' + len g') ->
  exists t' s2', s_next E gl s' = ROk t' s2' /\ relayed t t' s2 s2' /\ rest s2' = r' /\ current s2' = current s' + len (g' ++ l).
Proof.
  intros Q F H N Q' F' HC HLn R' T' HB1 HB2 HA HE.
  assert (HB : breaks (g' ++ l) r' = breaks (g ++ l) (rest s2)) by (rewrite !breaks_app, HB1, HB2; reflexivity).
  assert (NT : no_trivia (l ++ r')).
  { destruct (list_eq_dec N.eq_dec l []) as [->|Hl]; [destruct (HE eq_refl) as [-> _]; exact I|]. eapply no_trivia_after; [exact (HA Hl)|exact Hl|exact (nt_no_trivia N)]. }
  assert (K : exists t' s2', s_next E gl s' = ROk t' s2' /\ same_token t t' /\ rest s2' = r').
  { unfold s_next in *. unfold fresh in F, F'. rewrite F in H. rewrite F'.
    destruct (scan_comments_spec (set_newline false s)) as (s1 & l1 & B1 & R1 & T1 & N1).
    destruct (scan_comments_spec (set_newline false s')) as (s1' & l1' & B1' & R1' & T1' & N1').
    assert (X : rest s1 = l ++ rest s2).
    { eapply trivia_unique; [exact T1|exact N1|exact (nt_trivia N)|exact (nt_no_trivia N)|]. rewrite <- (rd_rest R1). cbn. exact (nt_rest N). }
    assert (X' : rest s1' = l ++ r').
    { eapply trivia_unique; [exact T1'|exact N1'|exact T'|exact NT|]. rewrite <- (rd_rest R1'). cbn. exact R'. }
    unfold bind at 1 2 in H. unfold bind at 1 2. rewrite B1 in H. rewrite B1'. unfold modify at 1 in H. unfold modify at 1.
    assert (Qx : forall a b z, quiet a -> reads (set_newline false a) z b -> quiet (s_start_new_token b)).
    { intros a b z [A1 A2] Rd. pose proof (rd_recording Rd) as X1. pose proof (rd_raw Rd) as X2. cbn in X1, X2. rewrite A1 in X2. split; cbn; congruence. }
    destruct (list_eq_dec N.eq_dec l []) as [->|Hl].
    - destruct (HE eq_refl) as [-> Hp]. pose proof (nt_eof_rest N eq_refl) as Y. rewrite Y in X. cbn [app] in X, X'.
      unfold scan_token, s_peek2 in H |- *. cbn [s_start_new_token rest] in *. rewrite X in H. rewrite X'. cbn [hd_error tl] in *.
      unfold token_simple, mk_token in H |- *. cbn [s_start_new_token current] in *.
      replace (current s1' =? 0) with false. 2:{ pose proof (rd_current R1') as Z. cbn in Z. pose proof (rd_rest R1') as Z2. cbn in Z2. rewrite X', R' in Z2. cbn [app] in Z2. rewrite !List.app_nil_r in Z2. subst l1'. lia. }
      eexists _, _. split; [reflexivity|]. split; [|exact X'].
      destruct (current s1 =? 0); [destruct (checked E); [discriminate|]|]; injection H as <- _; repeat split.
    - eapply (@scan_token_local gl l _ _ (s_start_new_token s1) (s_start_new_token s1')); [exact (HA Hl)|exact Hl|exact X|exact X'|eapply Qx; [exact Q|exact R1]|eapply Qx; [exact Q'|exact R1']| |exact H|].
      + cbn. rewrite (rd_curly R1), (rd_curly R1'). cbn. auto.
      + cbn. pose proof (nt_current N) as Z. pose proof (rd_current R1) as Z1. cbn in Z1. pose proof (rd_rest R1) as Z2. cbn in Z2. rewrite X in Z2. rewrite (nt_rest N) in Z2.
        apply app_inv_tail in Z2. subst l1. lia. }
  destruct K as (t' & s2' & K1 & K2 & K3). exists t', s2'. split; [exact K1|].
  pose proof (@s_next_fresh E gl _ Q' F') as W. unfold wp in W. rewrite K1 in W. destruct W as (tr & l0 & N').
  assert (HX : tr ++ l0 = g' ++ l).
  { pose proof (nt_rest N') as Z. rewrite R', K3, !app_assoc in Z. apply app_inv_tail in Z. auto. }
  assert (HL2 : line s2' = line s2).
  { rewrite (nt_breaks N'), (nt_breaks N), HX, K3, HB, HLn. reflexivity. }
  split; [|split; [exact K3|rewrite <- HX, len_app, (nt_current N'); lia]].
  assert (HL : l0 = l).
  { assert (Z : l0 ++ rest s2' = l ++ r').
    { eapply trivia_unique; [exact (nt_trivia N')|exact (nt_no_trivia N')|exact T'|exact NT|]. rewrite <- (nt_rest N'). exact R'. }
    rewrite K3 in Z. apply app_inv_tail in Z. exact Z. }
  destruct (@next_col E gl s t s2 Q F H) as (g1 & l1 & N1 & C1 & C2). destruct (@next_col E gl s' t' s2' Q' F' K1) as (g2 & l2 & N2 & C3 & C4).
  assert (l1 = l) as -> by (eapply next_parts; [exact N1|exact N]). assert (l2 = l) as ->.
  { rewrite <- HL. eapply next_parts; [exact N2|exact N']. }
  rewrite K3 in C3. pose proof (@column_breaks l 1 (rest s2) r' HB2) as CB.
  constructor; auto.
  - rewrite (nt_line N'), (nt_line N). exact HL2.
  - congruence.
  - congruence.
  - rewrite (nt_curly N'), (nt_curly N), HC. symmetry. apply curly_same, K2.
  - exact (nt_quiet N').
  - exact (nt_unscanned N').
Qed.
(** The same text that is not a token, at another place *)
Lemma next_relay_err gl s s' e g g' bad : quiet s -> fresh s -> s_next E gl s = RErr e -> rest s = g ++ bad -> trivia g bad -> no_trivia bad ->
  quiet s' -> fresh s' -> curly s' = curly s -> rest s' = g' ++ bad -> trivia g' bad -> 0 < current s' + len g' ->
  exists e', s_next E gl s' = RErr e' /\ err_type e' = err_type e /\ err_col e' = err_col e /\
    (line s' + breaks g' bad = line s + breaks g bad -> err_line e' = err_line e).
Proof.
  intros Q F H R T NT Q' F' HC R' T' Hp. unfold s_next in *. unfold fresh in F, F'. rewrite F in H. rewrite F'.
  destruct (scan_comments_spec (set_newline false s)) as (s1 & l1 & B1 & R1 & T1 & N1).
  destruct (scan_comments_spec (set_newline false s')) as (s1' & l1' & B1' & R1' & T1' & N1').
  assert (X : rest s1 = bad).
  { eapply trivia_unique; [exact T1|exact N1|exact T|exact NT|]. rewrite <- (rd_rest R1). exact R. }
  assert (X' : rest s1' = bad).
  { eapply trivia_unique; [exact T1'|exact N1'|exact T'|exact NT|]. rewrite <- (rd_rest R1'). exact R'. }
  assert (L1 : l1 = g) by (pose proof (rd_rest R1) as Z; cbn in Z; rewrite X, R in Z; apply app_inv_tail in Z; auto).
  assert (L1' : l1' = g') by (pose proof (rd_rest R1') as Z; cbn in Z; rewrite X', R' in Z; apply app_inv_tail in Z; auto). subst l1 l1'.
  unfold bind at 1 2 in H. unfold bind at 1 2. rewrite B1 in H. rewrite B1'. unfold modify at 1 in H. unfold modify at 1.
  set (dl := (Z.of_N (line s1') - Z.of_N (line s1))%Z). set (dk := (Z.of_N (current s1') - Z.of_N (current s1))%Z).
  destruct Q as [Q1 Q2], Q' as [Q1' Q2'].
  assert (S : ScanShift.shf E dl dk false (s_start_new_token s1) (s_start_new_token s1')).
  { destruct R1 as [A1 A2 A3 A4 A5 A6 A7 A8 A9], R1' as [C1 C2 C3 C4 C5 C6 C7 C8 C9]. cbn [set_newline rest current line start curly unscanned sstate record_raw raw_string] in *.
    constructor; unfold ScanShift.RMz, ScanShift.some_read, SimBase.smark; cbn; try congruence; try (subst dl dk; lia).
    - rewrite A9, C9, Q1, Q1'. congruence.
    - rewrite A6, C6, F, F'. exact I. }
  destruct (proj2 (@ScanShift.sim_scan_token E dl dk false gl _ _ S) e H) as (e' & K1 & K2 & i & i' & K3 & K4 & K5). cbn in K3, K4.
  exists e'. split; [exact K1|]. split; [exact K2|]. split; [exact K4|].
  intros Hl. pose proof (rd_line R1) as Y. pose proof (rd_line R1') as Y'. cbn in Y, Y'. rewrite X in Y. rewrite X' in Y'. subst dl. lia.
Qed.
Lemma next_bad gl s e g bad : quiet s -> fresh s -> s_next E gl s = RErr e -> rest s = g ++ bad -> trivia g bad -> no_trivia bad ->
  exists e', s_next E gl (set_curly (curly s) (s_new (32 :: bad))) = RErr e' /\ err_type e' = err_type e /\ err_col e' = err_col e.
Proof.
  intros Q F H R T NT.
  destruct (@next_relay_err gl s (set_curly (curly s) (s_new (32 :: bad))) e g [32] bad) as (e' & A & B & C & _); auto.
  - split; reflexivity.
  - reflexivity.
  - apply tv_space; [unfold white_space; cbn; tauto|constructor].
  - reflexivity.
  - eauto.
Qed.
End Step.
