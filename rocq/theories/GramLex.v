(** * GramLex: texts laid out as token sequences scan to these tokens (proofs). *)
From Verif Require Import Base Codepoint Punct Token Scanner SpecLex SpecScan Hoare ScanBase ScanTrivia ScanToken ScanTokens2 ScanNext.
From Verif Require Import ScanSim LexFacts ScanForward SpecLayout GramTempl.
From Coq Require Import ZifyBool ZifyN ZifyNat.
Set Implicit Arguments.

(** What a token says. *)
Definition ktype (k : tk) : tokentype :=
  match k with
  | KP _ => TPunctuator | KW _ => TKeyword | KI _ => TIdentifier | KNum _ => TNumeric | KStr _ => TString
  | KNull => TNull | KBool _ => TBoolean | KRegex _ _ => TRegExp | KTempl _ _ _ _ => TTemplate | KEof => TEof
  end.
Definition kval (k : tk) : value :=
  match k with
  | KP p => VPunc p | KW w => VStr (s2l w) | KI x => VStr x | KNum x => VNum x | KStr w => VStr w
  | KNull => VNull | KBool b => VStr (s2l (if b then "true" else "false")) | KEof => VNull
  | KRegex _ _ => VStr [] | KTempl _ _ w _ => VStr w
  end.
Definition kextra (k : tk) (t : token) : Prop :=
  match k with
  | KRegex p f => tpattern t = Some p /\ tflags t = Some f
  | KTempl h tl _ v => tcooked t = Some v /\ thead t = Some h /\ ttail t = Some tl
  | _ => True
  end.
Definition kmatch (t : token) (k : tk) : Prop := ttype t = ktype k /\ tval t = kval k /\ kextra k t.
(** Words are spelled right. *)
Definition kwf (k : tk) : Prop :=
  match k with KW w => In w reserved_words | KP p => ~ never_scanned p | _ => True end.

(** The open braces: allowed before a token, and after it. *)
Definition kopen (k : tk) (c : list brace) : Prop :=
  match k with
  | KP RBrace => hd_error c <> Some BTemplate
  | KTempl false _ _ _ => hd_error c = Some BTemplate
  | _ => True
  end.
Definition kcurly (k : tk) (c : list brace) : list brace :=
  match k with
  | KP LBrace => BLBrace :: c
  | KP RBrace => tl c
  | KTempl h t _ _ => let c1 := if h then c else tl c in if t then c1 else BTemplate :: c1
  | _ => c
  end.

Section Lex.
Context (E : env).
Hypothesis Hsane : ucd_sane E.

(** ** Punctuators *)
Definition yields_punct (m : SM token) (s : sst) : Prop :=
  exists t s' q, m s = ROk t s' /\ tval t = VPunc q.

Lemma consume_pos s : current (s_consume s) <> 0.
Proof. unfold s_consume. destruct (counts_line _ _); cbn; lia. Qed.
Lemma yp_mk s p : current s <> 0 -> yields_punct (token_simple E TPunctuator (VPunc p)) s.
Proof.
  intros H. unfold yields_punct, token_simple, mk_token. destruct (current s =? 0) eqn:H0; [lia|]. eexists _, _, _. split; reflexivity.
Qed.
Lemma yp0 v s : is_some (p_from v) = true -> current s <> 0 -> yields_punct (punc0 E v) s.
Proof.
  intros Hv Hs. unfold punc0. destruct (p_from v) as [p|]; [|discriminate]. unfold yields_punct, bind, unwrap, ret. apply yp_mk; auto.
Qed.
Lemma yp1 v s : is_some (p_from v) = true -> yields_punct (punc1 E v) s.
Proof.
  intros Hv. unfold punc1, yields_punct, bind, consume. apply yp0; auto using consume_pos.
Qed.
Lemma yp2 v s : is_some (p_from v) = true -> yields_punct (punc2 E v) s.
Proof.
  intros Hv. unfold punc2, yields_punct, bind at 1, consume. apply yp1; auto.
Qed.
Lemma yp_consume (k : option N -> SM token) s : yields_punct (k (hd_error (rest s))) (s_consume s) -> yields_punct (bind consume k) s.
Proof. intros H. exact H. Qed.
Lemma yp_peek2 (k : option N * option N -> SM token) s : yields_punct (k (s_peek2 s)) s -> yields_punct (bind peek2 k) s.
Proof. intros H. exact H. Qed.
Lemma yp_mod f (k : unit -> SM token) s : yields_punct (k tt) (f s) -> yields_punct (bind (modify f) k) s.
Proof. intros H. exact H. Qed.

Definition punct_start (c : N) : bool :=
  existsb (fun d => c =? d) (s2l "{}()[];,~:?+-&|%^.<!*=>").
Definition needs_next (c : N) : bool := existsb (fun d => c =? d) (s2l "+-&|%^").

Ltac dec_if := match goal with |- context [if ?b then _ else _] =>
  let v := eval vm_compute in b in
  match v with true => change b with true | false => change b with false end; cbv iota end.
Lemma scan_punctuator_runs s c r : rest s = c :: r -> punct_start c = true -> (needs_next c = true -> r <> []) ->
  yields_punct (scan_punctuator E) s.
Proof.
  intros Hr Hc Hn.
  unfold scan_punctuator. apply yp_peek2. unfold s_peek2. rewrite Hr. cbn [hd_error tl].
  unfold punct_start in Hc. apply existsb_exists in Hc as (d & Hd & Hcd). apply N.eqb_eq in Hcd. subst d.
  let v := eval vm_compute in (s2l "{}()[];,~:?+-&|%^.<!*=>") in change (s2l "{}()[];,~:?+-&|%^.<!*=>") with v in Hd.
  assert (Hne : needs_next c = true -> is_some (hd_error r) = true).
  { intros H. destruct r as [|x r]; [|reflexivity]. exfalso. apply Hn; auto. }
  cbn [In] in Hd.
  repeat (destruct Hd as [<-|Hd]); [..|destruct Hd].
  all: repeat first [dec_if
  | match goal with
  | |- context [(?c =? ?d) && is_some ?x] => 
      let v := eval vm_compute in (c =? d) in
      match v with true => change (c =? d) with true | false => change (c =? d) with false end; cbn [andb]
  | H : _ -> is_some ?x = true |- context [is_some ?x] => rewrite H by reflexivity
  | |- context [true && _] => cbn [andb]
  | |- yields_punct (bind consume _) _ => apply yp_consume
  | |- yields_punct (bind peek2 _) _ => apply yp_peek2; unfold s_peek2
  | |- yields_punct (bind (push_curly _) _) _ => unfold push_curly; apply yp_mod
  | |- yields_punct (bind pop_curly _) _ => unfold pop_curly; apply yp_mod
  | |- context [if is_c ?a ?b then _ else _] => destruct (is_c a b) eqn:?
  | |- context [if is_c ?a ?b && is_c ?a' ?b' then _ else _] => destruct (is_c a b && is_c a' b')
  | |- yields_punct (punc0 E _) _ => apply yp0; [reflexivity|apply consume_pos]
  | |- yields_punct (punc1 E _) _ => apply yp1; reflexivity
  | |- yields_punct (punc2 E _) _ => apply yp2; reflexivity
  end].
Qed.

Lemma scan_div_runs s r : rest s = chr "/" :: r -> yields_punct (scan_div_punctuator E) s.
Proof.
  intros Hr. unfold scan_div_punctuator. apply yp_peek2. unfold s_peek2. rewrite Hr. cbn [hd_error tl].
  change (is_c (chr "/") (Some (chr "/"))) with true. cbn [andb]. destruct (is_c (chr "=") (hd_error r)); apply yp2 || apply yp1; reflexivity.
Qed.

Lemma spell_from p : p_from (s2l (p_spell p)) = Some p.
Proof. destruct p; reflexivity. Qed.
Lemma s2l_length a : length (s2l a) = String.length a.
Proof. induction a; cbn; auto. Qed.
Lemma longest_unique p q x : longest_match p x -> longest_match q x -> p = q.
Proof.
  intros (P1 & [a Pa] & P3) (Q1 & [b Qb] & Q3).
  assert (Hl : length (s2l (p_spell p)) = length (s2l (p_spell q))).
  { rewrite !s2l_length. apply Nat.le_antisymm; [apply Q3|apply P3]; auto; unfold is_prefix; eauto. }
  assert (s2l (p_spell p) = s2l (p_spell q)).
  { apply app_inv_both in Hl || idtac. rewrite Pa in Qb. revert Hl Qb. generalize (s2l (p_spell p)) (s2l (p_spell q)).
    intros u v. revert v. induction u as [|c u IH]; intros [|d v] Hl Hx; cbn in *; try lia; auto.
    injection Hx as -> Hx. f_equal. eapply IH; eauto. }
  pose proof (spell_from p) as H1. rewrite H, spell_from in H1. congruence.
Qed.

(** The first character of a punctuator. *)
Lemma punct_first p : ~ never_scanned p -> exists c l, s2l (p_spell p) = c :: l /\ (punct_start c = true \/ c = chr "/") /\
  c < 0x80 /\ ~ ascii_letter c /\ ~ ascii_digit c /\ c <> chr "$" /\ c <> chr "_" /\ c <> 0x22 /\ c <> 0x27 /\ c <> chr "`" /\
  (c = chr "/" -> p = Slash \/ p = SlashAssign) /\ (c = chr "." -> p = Dot \/ p = Ellipsis) /\ (c = chr "}" -> p = RBrace).
Proof.
  intros H. unfold ascii_letter, ascii_digit.
  destruct p; try (exfalso; apply H; unfold never_scanned; tauto);
    eexists _, _; (split; [reflexivity|]); (split; [first [left; reflexivity|right; reflexivity]|]);
    repeat (split; [vm_compute; intuition discriminate|]); vm_compute; intuition discriminate.
Qed.
Lemma needs_next_dec p c l : s2l (p_spell p) = c :: l -> needs_next c = true -> l = [] -> In p [RBrace; RParen; RBracket; Semicolon; Inc; Dec] -> False.
Proof.
  intros H1 H2 -> H3. cbn in H3. repeat (destruct H3 as [<-|H3]); try tauto; injection H1 as <-; vm_compute in H2; discriminate.
Qed.

Lemma not_id_start c : c < 0x80 -> ~ ascii_letter c -> c <> chr "$" -> c <> chr "_" -> is_identifier_start E c = false.
Proof.
  intros H1 H2 H3 H4. destruct (is_identifier_start E c) eqn:Hi; auto. exfalso. apply id_start_iff in Hi.
  destruct Hi as [|[|[|Hi]]]; auto. apply (us_ascii _ Hsane) in Hi; auto.
Qed.
Lemma scan_token_punct g s p r : kopen (KP p) (curly s) -> rest s = s2l (p_spell p) ++ r -> ~ never_scanned p ->
  (p = Dot -> match r with c :: _ => ~ ascii_digit c | [] => True end) ->
  (r = [] -> In p [RBrace; RParen; RBracket; Semicolon; Inc; Dec]) ->
  (g = GRegExp -> p <> Slash /\ p <> SlashAssign) ->
  yields_punct (scan_token E g) s.
Proof.
  intros Hpl Hr Hns Hdot Hend Hg.
  destruct (punct_first Hns) as (c & l & Hp & Hst & H1 & H2 & H3 & H4 & H5 & H6 & H7 & H8 & H9 & H10 & H11).
  unfold yields_punct, scan_token, s_peek2. rewrite Hr, Hp. cbn [app hd_error tl].
  rewrite not_id_start; auto. replace ((c =? 34) || (c =? 39)) with false by lia.
  destruct (c =? chr ".") eqn:Hd.
  { cbn [andb]. apply N.eqb_eq in Hd. rewrite Hd in *.
    assert (match hd_error (l ++ r) with Some d => is_decimal_digit d | None => false end = false) as ->.
    { destruct (H10 eq_refl) as [-> | ->]; injection Hp as <-; cbn [app hd_error]; [|reflexivity].
      specialize (Hdot eq_refl). destruct r as [|d r]; [reflexivity|]. cbn. destruct (is_decimal_digit d) eqn:Hx; auto.
      exfalso. apply Hdot. apply digit_shape, digit_of_10. exact Hx. }
    change (is_decimal_digit (chr ".")) with false. change (chr "." =? chr "`") with false. change (chr "." =? chr "}") with false.
    change (chr "." =? chr "/") with false. cbn [andb].
    eapply scan_punctuator_runs; [rewrite Hr, Hp; reflexivity|reflexivity|discriminate]. }
  cbn [andb].
  assert (is_decimal_digit c = false) as ->.
  { destruct (is_decimal_digit c) eqn:Hx; auto. exfalso. apply H3. apply digit_shape, digit_of_10. exact Hx. }
  replace (c =? chr "`") with false by lia.
  assert ((c =? chr "}") && match curly s with BTemplate :: _ => true | _ => false end = false) as ->.
  { destruct (c =? chr "}") eqn:Hcb; auto. assert (Hx : c = chr "}") by lia. rewrite (H11 Hx) in Hpl. cbn in Hpl.
    destruct (curly s) as [|[] cu]; auto. exfalso. apply Hpl. reflexivity. }
  destruct (c =? chr "/") eqn:Hs.
  { apply N.eqb_eq in Hs. rewrite Hs in *. destruct g.
    - eapply scan_div_runs; rewrite Hr, Hp; reflexivity.
    - destruct (H9 eq_refl) as [-> | ->]; destruct (Hg eq_refl); congruence. }
  destruct Hst as [Hst | ->]; [|lia].
  eapply scan_punctuator_runs; [rewrite Hr, Hp; reflexivity|auto|].
  intros Hn Hx. apply app_eq_nil in Hx as [-> ->]. eapply needs_next_dec; eauto.
Qed.

(** ** Spellings *)
Lemma no_trivia_start c r : id_start E c -> no_trivia (c :: r).
Proof.
  intros Hc. cbn. assert (Hd : ~ white_space c /\ ~ line_terminator c /\ c <> chr "/").
  { destruct Hc as [->|[->|[Hc|Hc]]].
    - unfold white_space, line_terminator, LF, CR; lia.
    - unfold white_space, line_terminator, LF, CR; lia.
    - unfold ascii_letter in Hc. unfold white_space, line_terminator, LF, CR; lia.
    - destruct (us_space _ Hsane _ Hc). splits; auto. intros ->. apply (us_ascii _ Hsane) in Hc; [|lia]. unfold ascii_letter in Hc; lia. }
  intuition.
Qed.
Lemma word_no_trivia w r : plain_word E w -> no_trivia (w ++ r).
Proof. intros (c & v & -> & Hc & _). apply no_trivia_start; auto. Qed.
Lemma letter_not_lt c : ascii_letter c -> ~ line_terminator c.
Proof. unfold ascii_letter, line_terminator, LF, CR. lia. Qed.
Lemma digit_not_lt b c : digit_of b c -> ~ line_terminator c.
Proof. intros (v & Hv & _) Hl. unfold digit_value, line_terminator, LF, CR in *. destruct Hl as [->|[->|[->| ->]]]; vm_compute in Hv; discriminate. Qed.
Lemma letters_word w : w <> [] -> forallb (fun c => (97 <=? c) && (c <=? 122)) w = true -> plain_word E w /\ Forall (fun c => ~ line_terminator c) w.
Proof.
  intros Hne H. rewrite forallb_forall in H. assert (Hl : Forall ascii_letter w).
  { apply Forall_forall. intros c Hc. apply H in Hc. unfold ascii_letter. lia. }
  split; [|eapply Forall_impl; [|exact Hl]; apply letter_not_lt].
  destruct w as [|c v]; [congruence|]. exists c, v. inversion Hl as [|? ? Hc Hv]; subst. splits; auto.
  - right; right; left; auto.
  - eapply Forall_impl; [|exact Hv]. intros d Hd. right; right; left; auto.
  - eapply Forall_impl; [|exact Hl]. intros d Hd. unfold ascii_letter, backslash in *. lia.
Qed.
Lemma reserved_letters w : In w reserved_words -> s2l w <> [] /\ forallb (fun c => (97 <=? c) && (c <=? 122)) (s2l w) = true.
Proof.
  intros H. assert (G : forallb (fun w => match s2l w with [] => false | _ => forallb (fun c => (97 <=? c) && (c <=? 122)) (s2l w) end) reserved_words = true) by (vm_compute; reflexivity).
  rewrite forallb_forall in G. apply G in H. destruct (s2l w) eqn:Hw; [discriminate|]. split; auto. discriminate.
Qed.

Lemma number_text_lt ip fl fp el z : Forall (digit_of 10) ip -> fraction_part fl fp -> exponent_part el z ->
  Forall (fun c => ~ line_terminator c) (ip ++ fl ++ el).
Proof.
  intros H1 H2 H3. assert (D : forall b l, Forall (digit_of b) l -> Forall (fun c => ~ line_terminator c) l).
  { intros b l H. eapply Forall_impl; [|exact H]. apply digit_not_lt. }
  apply Forall_app. split; [eauto|]. apply Forall_app. split.
  - destruct H2; constructor; eauto. unfold line_terminator, LF, CR; lia.
  - destruct H3 as [|e ds [-> | ->]|e ds [-> | ->]|e ds [-> | ->]]; repeat constructor; eauto; unfold line_terminator, LF, CR; lia.
Qed.
Lemma quote_char_lt q c : q = 0x27 \/ q = 0x22 -> Forall (fun c => ~ line_terminator c) (quote_char q c).
Proof.
  intros Hq. unfold quote_char.
  assert (Hb : ~ line_terminator backslash) by (unfold backslash, line_terminator, LF, CR; lia).
  destruct ((c =? q) || (c =? backslash)) eqn:H1; [repeat constructor; auto; unfold backslash, line_terminator, LF, CR in *; lia|].
  destruct (c =? LF) eqn:H2; [repeat constructor; auto; unfold line_terminator, LF, CR; lia|].
  destruct (c =? CR) eqn:H3; [repeat constructor; auto; unfold line_terminator, LF, CR; lia|].
  destruct (c =? 0x2028) eqn:H4; [apply Forall_cons; auto; repeat constructor; unfold line_terminator, LF, CR; vm_compute; intuition discriminate|].
  destruct (c =? 0x2029) eqn:H5; [apply Forall_cons; auto; repeat constructor; unfold line_terminator, LF, CR; vm_compute; intuition discriminate|].
  repeat constructor. unfold line_terminator. lia.
Qed.
Lemma quoted_lt q w : q = 0x27 \/ q = 0x22 -> Forall (fun c => ~ line_terminator c) (quoted q w).
Proof.
  intros Hq. assert (~ line_terminator q) by (unfold line_terminator, LF, CR; lia).
  constructor; auto. apply Forall_app. split; [|repeat constructor; auto].
  induction w; cbn; [constructor|]. apply Forall_app. split; auto using quote_char_lt.
Qed.
Lemma spelled_lt k l r : spelled E k l r -> ktype k <> TTemplate -> Forall (fun c => ~ line_terminator c) l.
Proof.
  destruct 1 as [p r H _ _ _|w r H _|x r H1 H2 _ _ _|r _|r _|r _|ip fl fp el z r H1 H2 H3|p b ds r Hin _ Hds _ _|q w r Hq|ps f r H1 H2 H3 H4 _|h t v w r H|]; intros Hnt.
  - destruct H as [Hn _]. clear -Hn. destruct p; try (exfalso; apply Hn; unfold never_scanned; tauto); repeat constructor; unfold line_terminator, LF, CR; vm_compute; intuition discriminate.
  - apply reserved_letters in H as [H1 H2]. apply letters_word; auto.
  - auto.
  - apply letters_word; [discriminate|reflexivity].
  - apply letters_word; [discriminate|reflexivity].
  - apply letters_word; [discriminate|reflexivity].
  - eapply number_text_lt; eauto.
  - constructor; [unfold line_terminator, LF, CR; lia|]. constructor.
    + cbn in Hin. unfold line_terminator, LF, CR. intros Hx. intuition (try congruence); match goal with H : (_, _) = (_, _) |- _ => injection H as <- <- end; lia.
    + eapply Forall_impl; [|exact Hds]. apply digit_not_lt.
  - apply quoted_lt; auto.
  - assert (Hs : ~ line_terminator (chr "/")) by (unfold line_terminator, LF, CR; lia).
    constructor; auto. apply Forall_app. split.
    + clear -H1. induction H1 as [|p ps Hp _ IH]; cbn; [constructor|]. apply Forall_app. split; auto.
      destruct Hp as [c _ _ _ H|c H|cs H]; repeat constructor; auto; [unfold line_terminator, backslash, LF, CR; lia|unfold line_terminator, LF, CR; lia|].
      apply Forall_app. split; [|repeat constructor; unfold line_terminator, LF, CR; lia]. eapply Forall_impl; [|exact H]. cbn. tauto.
    + constructor; auto. eapply Forall_impl; [|exact H4]. cbn. tauto.
  - contradiction Hnt. reflexivity.
  - constructor.
Qed.
Lemma spelled_no_trivia k l r : spelled E k l r -> no_trivia (l ++ r).
Proof.
  destruct 1 as [p r _ H _ _|w r H _|x r H1 _ _ _ _|r _|r _|r _|ip fl fp el z r H1 H2 H3 H4|p b ds r Hin _ Hds _ _|q w r Hq|ps f r H1 H2 H3 H4 _|h t v w r H|].
  - auto.
  - apply word_no_trivia. apply reserved_letters in H as [H1 H2]. apply letters_word; auto.
  - apply word_no_trivia; auto.
  - apply word_no_trivia. apply letters_word; [discriminate|reflexivity].
  - apply word_no_trivia. apply letters_word; [discriminate|reflexivity].
  - apply word_no_trivia. apply letters_word; [discriminate|reflexivity].
  - assert (Hc : exists c l, (ip ++ fl ++ el) ++ r = c :: l /\ (ascii_digit c \/ c = chr ".")).
    { destruct ip as [|c ip]; cbn [app].
      - destruct H2; [cbn in H4; congruence|]. eexists _, _. split; [reflexivity|auto].
      - eexists _, _. split; [reflexivity|]. left. inversion H1; subst. apply digit_shape; auto. }
    destruct Hc as (c & l & -> & Hc). cbn. unfold ascii_digit, white_space, line_terminator, LF, CR in *. lia.
  - cbn. unfold white_space, line_terminator, LF, CR in *. lia.
  - cbn. unfold white_space, line_terminator, LF, CR in *. lia.
  - cbn [app]. rewrite <- app_assoc. apply regexp_no_trivia; auto.
  - cbn. unfold white_space, line_terminator, LF, CR. destruct h; cbn; lia.
  - exact I.
Qed.

Lemma word_kind_fun w ty v ty' v' : word_kind w ty v -> word_kind w ty' v' -> ~ (reserved w /\ In w [s2l "null"; s2l "true"; s2l "false"]) -> ty = ty' /\ v = v'.
Proof.
  intros H1 H2 Hx. cbn [In] in Hx.
  destruct H1 as [->|[-> | ->]|H1|A B C D], H2 as [H2|[H2|H2]|H2|A' B' C' D']; try (vm_compute in H2; discriminate H2); auto; exfalso; intuition.
  all: try congruence.
Qed.
Lemma reserved_not_lit w : reserved w -> ~ In w [s2l "null"; s2l "true"; s2l "false"].
Proof.
  intros (k & Hk & ->) H. assert (G : forallb (fun w => negb (existsb (str_eqb (s2l w)) [s2l "null"; s2l "true"; s2l "false"])) reserved_words = true) by (vm_compute; reflexivity).
  rewrite forallb_forall in G. apply G in Hk. apply negb_true_iff in Hk. 
  assert (existsb (str_eqb (s2l k)) [s2l "null"; s2l "true"; s2l "false"] = true); [|congruence].
  apply existsb_exists. exists (s2l k). split; auto. apply str_eqb_eq. reflexivity.
Qed.

(** The token is produced. *)
Lemma kind_runs g s tr k l r : quiet s -> fresh s -> kopen k (curly s) -> rest s = tr ++ l ++ r -> trivia tr (l ++ r) -> spelled E k l r ->
  (g = GRegExp -> k <> KP Slash /\ k <> KP SlashAssign) -> (g = GDiv -> ktype k <> TRegExp) -> (checked E = true -> current s <> 0 \/ tr ++ l <> []) ->
  exists t s', s_next E g s = ROk t s' /\ match k with KP _ => exists q, tval t = VPunc q | KEof => True | _ => kmatch t k /\ rest s' = r end.
Proof.
  intros Hq Hf Hpl Hr Ht Hsp Hg Hgd Hc.
  assert (Word : forall w ty v, plain_word E w -> word_ends E r -> rest s = tr ++ w ++ r -> trivia tr (w ++ r) -> word_kind w ty v ->
    exists t s', s_next E g s = ROk t s' /\ ttype t = ty /\ tval t = v /\ rest s' = r).
  { intros w ty v H1 H2 H3 H4 H5. destruct (@word_token E Hsane g s tr w r Hq Hf H1 H2 H3 H4) as (ty' & v' & H6 & t & s' & A & B & C & D & F & _).
    exists t, s'. destruct (word_kind_fun H5 H6) as [-> ->]; auto. intros [X Y]. eapply reserved_not_lit; eauto. }
  destruct Hsp as [p r L N Hdot Hend|w r H He|x r H1 H2 H3 H4 He|r He|r He|r He|ip fl fp el z r H1 H2 H3 H4 H5 H6 H7|p b ds r Hin Hne Hds Hb Hend|q w r Hqq|ps f r P1 P2 P3 P4 P5|h tl v w r Htt|].
  - unfold s_next. unfold fresh in Hf. rewrite Hf.
    destruct (scan_comments_spec (set_newline false s)) as (s1 & l1 & B1 & R1 & T1 & N1).
    assert (Hx : rest s1 = s2l (p_spell p) ++ r).
    { eapply trivia_unique; eauto. rewrite <- (rd_rest R1). cbn. auto. }
    unfold bind at 1 2. rewrite B1. unfold modify at 1.
    destruct (@scan_token_punct g (s_start_new_token s1) p r) as (t & s' & q & A & B); auto.
    + cbn. rewrite (rd_curly R1). exact Hpl.
    + apply L.
    + intros Hg'. destruct (Hg Hg'). split; congruence.
    + exists t, s'. split; eauto.
  - destruct (@reserved_letters w H) as [H1 H2]. destruct (@letters_word _ H1 H2) as [H3 _].
    destruct (Word (s2l w) TKeyword (VStr (s2l w))) as (t & s' & A & B & C & D); auto.
    { apply wk_keyword. exists w. auto. }
    exists t, s'. split; auto. split; auto. repeat split; auto.
  - destruct (Word x TIdentifier (VStr x)) as (t & s' & A & B & C & D); auto.
    { cbn [In] in H4. apply wk_ident; try tauto; intros ->; tauto. }
    exists t, s'. split; auto. split; auto. repeat split; auto.
  - destruct (@letters_word (s2l "null")) as [H3 _]; [discriminate|reflexivity|].
    destruct (Word (s2l "null") TNull VNull) as (t & s' & A & B & C & D); auto.
    { apply wk_null. auto. }
    exists t, s'. split; auto. split; auto. repeat split; auto.
  - destruct (@letters_word (s2l "true")) as [H3 _]; [discriminate|reflexivity|].
    destruct (Word (s2l "true") TBoolean (VStr (s2l "true"))) as (t & s' & A & B & C & D); auto.
    { apply wk_bool. auto. }
    exists t, s'. split; auto. split; auto. repeat split; auto.
  - destruct (@letters_word (s2l "false")) as [H3 _]; [discriminate|reflexivity|].
    destruct (Word (s2l "false") TBoolean (VStr (s2l "false"))) as (t & s' & A & B & C & D); auto.
    { apply wk_bool. auto. }
    exists t, s'. split; auto. split; auto. repeat split; auto.
  - destruct (@decimal_token E Hsane g s tr ip fl fp el z r) as (t & s' & A & B & C & _ & D & _); auto.
    exists t, s'. split; auto. split; auto. repeat split; auto.
  - destruct (@radix_token E Hsane g s tr p b ds r) as (t & s' & A & B & C & _ & D & _); auto.
    exists t, s'. split; auto. split; auto. repeat split; auto.
  - destruct (@quoted_token E Hsane g s tr q w r) as (t & s' & A & B & C & _ & D & _); auto.
    exists t, s'. split; auto. split; auto. repeat split; auto.
  - assert (g = GRegExp) as -> by (destruct g; auto; destruct (Hgd eq_refl); reflexivity).
    destruct (@regexp_token E Hsane s tr ps f r) as (t & s' & A & D & B & C & F & G); auto.
    exists t, s'. split; auto. split; auto. repeat split; auto.
  - destruct (@template_token E Hsane g s tr h tl v w r) as (t & s' & A & D & B & C & F & G & H); auto.
    { intros ->. exact Hpl. }
    exists t, s'. split; auto. split; auto. repeat split; auto.
  - cbn [app] in *. unfold s_next. unfold fresh in Hf. rewrite Hf.
    destruct (scan_comments_spec (set_newline false s)) as (s1 & l1 & B1 & R1 & T1 & N1).
    rewrite app_nil_r in *.
    assert (Hx : rest s1 = []).
    { symmetry. eapply trivia_unique; [exact Ht|exact I|exact T1|exact N1|]. rewrite app_nil_r. rewrite <- (rd_rest R1). cbn. auto. }
    unfold bind at 1 2. rewrite B1. unfold modify at 1.
    unfold scan_token, s_peek2. cbn [s_start_new_token rest]. rewrite Hx. cbn [hd_error tl].
    unfold token_simple, mk_token. cbn [s_start_new_token current]. destruct (current s1 =? 0) eqn:H0; [|eauto].
    destruct (checked E) eqn:Hck; [|eauto]. exfalso. pose proof (rd_current R1) as Hcu. cbn in Hcu.
    pose proof (rd_rest R1) as Hrr. cbn in Hrr. rewrite Hx, app_nil_r, Hr in Hrr. subst l1.
    destruct (Hc eq_refl) as [Hz|Hz]; [lia|]. destruct tr; [congruence|]. rewrite len_cons in Hcu. lia.
Qed.

Lemma breaks_none l : forall r, Forall (fun c => ~ line_terminator c) l -> breaks l r = 0.
Proof.
  induction l as [|c l IH]; intros r H; [reflexivity|]. inversion H; subst. cbn. rewrite IH; auto.
  assert (line_terminatorb c = false) as ->; [|reflexivity]. unfold line_terminatorb, line_terminator in *. lia.
Qed.
Lemma breaks_exists l : forall r, (match r with c :: _ => c <> LF | [] => True end) -> (0 <? breaks l r) = true <-> Exists line_terminator l.
Proof.
  induction l as [|c l IH]; intros r Hr.
  - split; [discriminate|inversion 1].
  - cbn [breaks]. assert (Hlt : line_terminatorb c = true <-> line_terminator c) by (unfold line_terminatorb, line_terminator; lia).
    rewrite Exists_cons, <- (IH r Hr), <- Hlt.
    destruct (line_terminatorb c); cbn [andb]; [|rewrite N.add_0_l; intuition discriminate].
    destruct ((c =? CR) && match l ++ r with d :: _ => d =? LF | [] => false end) eqn:H; cbn [negb].
    + split; auto. intros _. apply andb_prop in H as [_ H]. destruct l as [|d l]; [destruct r; [discriminate|]; cbn in H; lia|].
      cbn in H. cbn [breaks]. assert (line_terminatorb d = true) as -> by (unfold line_terminatorb; lia).
      replace (d =? CR) with false by (unfold LF, CR in *; lia). cbn. lia.
    + split; auto. intros _. lia.
Qed.
Lemma no_trivia_lf x : no_trivia x -> match x with c :: _ => c <> LF | [] => True end.
Proof. destruct x as [|c x]; cbn; auto. intros (_ & H & _) ->. apply H. left. reflexivity. Qed.

Lemma lay_breaks k tr l r : spelled E k l r -> (0 <? breaks (tr ++ l) r) = true <-> Exists line_terminator (tr ++ l).
Proof.
  intros H. destruct (ktype k) eqn:Hk.
  9: { inversion H; subst; try discriminate Hk. rewrite app_comm_cons, app_assoc. set (x := tr ++ _). 
    rewrite breaks_app, Exists_app. assert (G : forall z, breaks (template_close tail) z = 0 /\ ~ Exists line_terminator (template_close tail)).
    { intros z. assert (F : Forall (fun c => ~ line_terminator c) (template_close tail)) by (destruct tail; repeat constructor; unfold line_terminator, LF, CR; lia).
      split; [apply breaks_none; auto|]. rewrite Exists_exists. rewrite Forall_forall in F. intros (c & H1 & H2). exact (F c H1 H2). }
    destruct (G r) as [-> G2]. rewrite N.add_0_r. rewrite breaks_exists; [tauto|]. destruct tail; discriminate. }
  all: assert (F : Forall (fun c => ~ line_terminator c) l) by (eapply spelled_lt; eauto; congruence).
  all: rewrite breaks_app, (breaks_none r F), N.add_0_r, Exists_app, breaks_exists by (apply no_trivia_lf; eapply spelled_no_trivia; eauto).
  all: rewrite Forall_forall in F; rewrite (Exists_exists _ l); split; [auto|]; intros [K|(c & H1 & H2)]; [auto|destruct (F c H1 H2)].
Qed.
Record stepped (s : sst) (tr l r : str) (k : tk) (t : token) (s' : sst) : Prop := mkStepped {
  sp_match : kmatch t k;
  sp_rest : rest s' = r;
  sp_quiet : quiet s';
  sp_fresh : fresh s';
  sp_curly : curly s' = kcurly k (curly s);
  sp_line : tline t = line s';
  sp_breaks : line s' = line s + breaks (tr ++ l) r;
  sp_current : current s' = current s + len tr + len l;
  sp_sstate : sstate s' = sstate s
}.
Lemma tok_next g s tr k l r : quiet s -> fresh s -> kopen k (curly s) -> rest s = tr ++ l ++ r -> trivia tr (l ++ r) -> spelled E k l r ->
  (g = GRegExp -> k <> KP Slash /\ k <> KP SlashAssign) -> (g = GDiv -> ktype k <> TRegExp) -> (checked E = true -> current s <> 0 \/ tr ++ l <> []) ->
  exists t s', s_next E g s = ROk t s' /\ stepped s tr l r k t s'.
Proof.
  intros Hq Hf Hpl Hr Ht Hsp Hg Hgd Hc.
  destruct (@kind_runs g s tr k l r Hq Hf Hpl Hr Ht Hsp Hg Hgd Hc) as (t & s' & Hn & Hk). exists t, s'. split; auto.
  pose proof (@s_next_fresh E g s Hq Hf) as W; unfold wp in W; rewrite Hn in W; destruct W as (tr0 & l0 & N).
  pose proof (spelled_no_trivia Hsp) as Hnt.
  assert (Hx : l ++ r = l0 ++ rest s').
  { eapply trivia_unique; [exact Ht|exact Hnt|exact (nt_trivia N)|exact (nt_no_trivia N)|]. rewrite <- (nt_rest N). auto. }
  assert (Htr : tr = tr0).
  { pose proof (nt_rest N) as Hy. rewrite Hr, <- Hx in Hy. apply app_inv_tail in Hy. exact Hy. }
  subst tr0.
  assert (G : kmatch t k /\ rest s' = r).
  { destruct k; auto.
    - destruct Hk as [q Hk]. destruct (nt_punct N Hk) as [Hty Hlm]. inversion Hsp as [p0 r0 L _ _ _| | | | | | | | | | |]; subst.
      rewrite <- Hx in Hlm. assert (q = p) by (eapply longest_unique; eauto). subst q.
      split; [repeat split; auto|]. pose proof (nt_lexeme N) as Lx.
      assert (l0 = s2l (p_spell p)).
      { destruct Lx; try congruence. - exfalso. match goal with H : word_kind _ _ _ |- _ => destruct H end; congruence. }
      subst l0. apply app_inv_head in Hx. congruence.
    - inversion Hsp; subst. cbn in Hx. symmetry in Hx. apply app_eq_nil in Hx as [-> Hx]. split; auto.
      assert (ttype t = TEof) by (apply (nt_eof N); auto). repeat split; auto.
      pose proof (nt_wf N) as Hw. unfold token_wf in Hw. rewrite H in Hw. auto. }
  destruct G as [Hm Hrest].
  assert (l = l0) by (rewrite <- Hrest in Hx; apply app_inv_tail in Hx; auto). subst l0.
  constructor; auto.
  - exact (nt_quiet N).
  - exact (nt_unscanned N).
  - rewrite (nt_curly N). unfold curly_after. destruct Hm as (M1 & M2 & M3). rewrite M1, M2.
    destruct k as [p| | | | | | | |h tl ? ?|]; auto. destruct M3 as (_ & -> & ->). destruct h, tl; reflexivity.
  - exact (nt_line N).
  - rewrite (nt_breaks N), Hrest. reflexivity.
  - exact (nt_current N).
  - exact (nt_sstate N).
Qed.
End Lex.
