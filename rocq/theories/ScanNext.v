(** * ScanNext: templates, punctuators and the next token (proofs). *)
From Verif Require Import Base Codepoint Punct Token Scanner SpecLex Hoare ScanBase ScanTrivia ScanToken ScanTokens2.
From Coq Require Import ZifyBool ZifyN ZifyNat.
Set Implicit Arguments.

(** ** Spellings as literal lists *)
Definition spell_lit (p : punct) : str :=
  match p with
  | LBrace => [123] | LParen => [40] | RParen => [41] | LBracket => [91] | RBracket => [93]
  | Dot => [46] | Ellipsis => [46;46;46] | Semicolon => [59] | Comma => [44]
  | LAngle => [60] | RAngle => [62] | LEqual => [60;61] | GEqual => [62;61] | Equal => [61;61]
  | NEqual => [33;61] | StrictEqual => [61;61;61] | StrictNEqual => [33;61;61]
  | Plus => [43] | Minus => [45] | Star => [42] | Mod => [37] | Pow => [42;42] | Inc => [43;43] | Dec => [45;45]
  | LShift => [60;60] | RShift => [62;62] | ZRShift => [62;62;62]
  | BitAnd => [38] | BitOr => [124] | BitXor => [94] | Bang => [33] | Tilde => [126]
  | LogicalAnd => [38;38] | LogicalOr => [124;124] | Question => [63] | Colon => [58]
  | Assign => [61] | PlusAssign => [43;61] | MinusAssign => [45;61] | StarAssign => [42;61] | ModAssign => [37;61]
  | PowAssign => [42;42;61] | LShiftAssign => [60;60;61] | RShiftAssign => [62;62;61] | ZRShiftAssign => [62;62;62;61]
  | BitAndAssign => [38;61] | BitOrAssign => [124;61] | BitXorAssign => [94;61]
  | FatArrow => [61;62] | Slash => [47] | SlashAssign => [47;61] | RBrace => [125]
  | Instanceof => [105;110;115;116;97;110;99;101;111;102] | QMarkDot => [63;46] | DoubleQMark => [63;63]
  end.
Lemma spell_lit_ok p : s2l (p_spell p) = spell_lit p.
Proof. destruct p; reflexivity. Qed.
Lemma spell_lit_length p : String.length (p_spell p) = length (spell_lit p).
Proof. destruct p; reflexivity. Qed.
Lemma p_from_spell p : p_from (spell_lit p) = Some p.
Proof. destruct p; reflexivity. Qed.
Definition all_puncts : list punct :=
  [ LBrace; LParen; RParen; LBracket; RBracket; Dot; Ellipsis; Semicolon; Comma; LAngle; RAngle; LEqual; GEqual; Equal;
    NEqual; StrictEqual; StrictNEqual; Plus; Minus; Star; Mod; Pow; Inc; Dec; LShift; RShift; ZRShift; BitAnd; BitOr;
    BitXor; Bang; Tilde; LogicalAnd; LogicalOr; Question; Colon; Assign; PlusAssign; MinusAssign; StarAssign; ModAssign;
    PowAssign; LShiftAssign; RShiftAssign; ZRShiftAssign; BitAndAssign; BitOrAssign; BitXorAssign; FatArrow; Slash;
    SlashAssign; RBrace; Instanceof; QMarkDot; DoubleQMark ].
Lemma all_puncts_ok p : In p all_puncts.
Proof. destruct p; cbn; tauto. Qed.
Definition with_first (c : N) : list punct :=
  filter (fun q => match spell_lit q with d :: _ => d =? c | [] => false end) all_puncts.
Lemma starters q c r : is_prefix (s2l (p_spell q)) (c :: r) -> In q (with_first c).
Proof.
  rewrite spell_lit_ok. intros (x & H). apply filter_In. split; [apply all_puncts_ok|].
  destruct (spell_lit q) as [|d l] eqn:Hq; [destruct q; discriminate|]. injection H as -> _. lia.
Qed.

(** ** Templates *)
Section Specs.
Context (E : env) (X : exc).
Notation ok := (okX E X).
Ltac use L := apply wp_bind; eapply wp_conseq; [eapply L; eauto using okX_consume, okX_reads|].

Lemma okX_same s s' : rest s' = rest s -> line s' = line s -> ok s -> ok s'.
Proof. intros H1 H2 [A B C]. constructor; rewrite ?H1, ?H2; auto. Qed.

Lemma pieces2_body vs ls r r' : pieces2 (template_piece_of E) template_stop vs ls r ->
  firstn 1 r = firstn 1 r' -> template_body E vs ls r'.
Proof.
  intros H Hf. induction H as [|b l bs ls r c x Hl Hp HP H IH]; [constructor|].
  constructor; auto. intros (y & Hy).
  assert (Hx : exists x', l ++ concat ls ++ r' = c :: x' /\ hd_error x' = hd_error x).
  { clear -Hf Hl HP. destruct l as [|d l]; [inversion HP; subst; match goal with H : hex_escape _ _ |- _ => inversion H | H : unicode_escape _ _ _ |- _ => inversion H | _ => idtac end|].
    injection Hl as -> <-. cbn. eexists; split; [reflexivity|].
    destruct l as [|d' l]; [|reflexivity]. cbn. destruct (concat ls) as [|d' l']; [|reflexivity]. cbn.
    destruct r, r'; cbn in Hf |- *; congruence. }
  destruct Hx as (x' & Hx' & Hh). rewrite Hx' in Hy. rewrite <- Hh in Hp. unfold template_stop in Hp.
  destruct Hy as [Hy|Hy]; injection Hy; intros; subst; cbn in Hp; lia.
Qed.

Lemma scan_template_piece_spec opening (head : bool) s : ok s -> quiet s -> opening = (if head then chr "`" else chr "}") ->
  wp X (scan_template_piece E opening head) (fun t s' => exists l, l <> [] /\
     treads s l s' /\ lexeme E t l /\ token_wf t /\ ttype t = TTemplate /\ tstart t = start s /\ tline t = line s' /\
     (current s' <> 0 -> tend t = current s' - 1) /\ thead t = Some head /\
     curly s' = match ttail t with Some false => BTemplate :: curly s | _ => curly s end) s.
Proof.
  intros Hok [Q1 Q2] Hop. unfold scan_template_piece.
  use expect_c_spec. intros _ s1 (r1 & Hr1 & ->).
  assert (R1 : reads s [opening] (s_consume s)) by (eapply s_consume_reads; eauto).
  apply wp_bind. apply wp_modify. set (s2 := set_raw _ _ _).
  assert (Hok2 : ok s2) by (eapply okX_same with (s := s_consume s); auto; apply okX_consume; auto).
  apply wp_bind. unfold scan2_until. eapply wp_conseq.
  { unfold wp. eapply scan2_until_n_spec with (P := template_piece_of E); eauto.
    intros; eapply scan_template_char_spec; eauto. }
  cbn beta. intros cooked s3 (ls & F & R3 & St).
  apply wp_bind. unfold wp at 1, stop_recording.
  pose proof (rd_raw R3) as Hraw. cbn [s2 record_raw set_raw raw_string] in Hraw.
  rewrite (rd_raw R1), Q1, Q2 in Hraw. cbn [app] in Hraw. rewrite Hraw.
  set (s4 := set_raw false [] s3).
  assert (Hok4 : ok s4) by (eapply okX_same with (s := s3); auto; eapply okX_reads; eauto).
  apply wp_bind, wp_gets.
  (* the text read so far *)
  assert (T4 : rest s = (opening :: concat ls) ++ rest s4 /\ current s4 = current s + len (opening :: concat ls)
      /\ line s4 = line s + breaks (opening :: concat ls) (rest s4) /\ start s4 = start s
      /\ unscanned s4 = unscanned s /\ sstate s4 = sstate s /\ curly s4 = curly s).
  { destruct R1 as [A1 A2 A3 A4 A5 A6 A7 A8 A9]. destruct R3 as [B1 B2 B3 B4 B5 B6 B7 B8 B9].
    cbn [s2 s4 set_raw rest current line start unscanned sstate curly] in *. splits; try congruence.
    - rewrite A1, B1. reflexivity.
    - rewrite B2, A2. change (opening :: concat ls) with ([opening] ++ concat ls). rewrite len_app. lia.
    - rewrite B3, A3. change (opening :: concat ls) with ([opening] ++ concat ls). rewrite breaks_app, <- B1. lia. }
  assert (QR4 : record_raw s4 = false /\ raw_string s4 = []) by (split; reflexivity).
  assert (Hst : match rest s4 with [] => True | c :: r => template_stop c (hd_error r) = true end) by exact St.
  change (rest s3) with (rest s4) in F.
  clearbody s4. clear R3 St Hraw R1 Hok2 s2 s3.
  assert (Finish : forall (tail : bool) s5 s6, reads s4 (if tail then [chr "`"] else [chr "$"; chr "{"]) s5 ->
     s6 = (if tail then s5 else set_curly (BTemplate :: curly s5) s5) ->
     wp X (mk_token E TTemplate (VStr (concat ls)) None None (Some false) (Some cooked) (Some head) (Some tail))
      (fun t s' => exists l, l <> [] /\
     treads s l s' /\ lexeme E t l /\ token_wf t /\ ttype t = TTemplate /\ tstart t = start s /\ tline t = line s' /\
     (current s' <> 0 -> tend t = current s' - 1) /\ thead t = Some head /\
     curly s' = match ttail t with Some false => BTemplate :: curly s | _ => curly s end) s6).
  { intros tail s5 s6 R5 ->.
    assert (Hcl : exists cl, cl = (if tail then [chr "`"] else [chr "$"; chr "{"])) by eauto.
    destruct Hcl as (cl & Hcl). assert (R5' : reads s4 cl s5) by (rewrite Hcl; exact R5). clear R5. rename R5' into R5.
    destruct T4 as (T1 & T2 & T3 & T4 & T5 & T6 & T7). destruct R5 as [A1 A2 A3 A4 A5 A6 A7 A8 A9].
    assert (TR : treads s ((opening :: concat ls) ++ cl) s5).
    { constructor; try congruence.
      - rewrite T1, A1, app_assoc. reflexivity.
      - rewrite A2, T2, len_app. lia.
      - rewrite A3, T3, breaks_app, <- A1. lia.
      - intros _. destruct QR4 as [QA QB]. rewrite QA in A9. split; congruence. }
    assert (Hcur : current s5 <> 0).
    { rewrite (td_current TR), len_app, len_cons. lia. }
    assert (F' : template_body E cooked ls (if tail then [chr "`"] else [chr "$"; chr "{"])).
    { eapply pieces2_body; eauto. rewrite A1, Hcl. destruct tail; reflexivity. }
    apply mk_token_spec; [destruct tail; exact Hcur|].
    exists ((opening :: concat ls) ++ cl). splits; auto; cbn; try discriminate.
    - destruct tail; auto. destruct TR as [D1 D2 D3 D4 D5 D6 D7]. constructor; auto.
    - rewrite Hop, Hcl. eapply lx_template; cbn; eauto.
    - unfold token_wf; cbn; eauto 10.
    - destruct tail; cbn; congruence.
    - destruct tail; cbn; congruence. }
  unfold s_peek2. destruct (rest s4) as [|c r] eqn:Hr4; cbn [hd_error tl is_c andb].
  { apply wp_bind, wp_crash, (okX_templ Hok). destruct T4 as (T1 & _). exists [], opening, cooked, ls.
    rewrite app_nil_r in T1. splits; auto; [subst opening; destruct head; auto|].
    eapply pieces2_body; eauto. }
  unfold template_stop in Hst.
  destruct ((c =? 36) && is_c 123 (hd_error r)) eqn:H1.
  - destruct r as [|d r]; [cbn in H1; lia|]. cbn [hd_error is_c] in H1.
    apply wp_bind. apply wp_bind. unfold wp at 1, consume. apply wp_bind. unfold wp at 1, consume.
    apply wp_bind. apply wp_modify. apply wp_ret.
    eapply Finish with (tail := false) (s5 := s_consume (s_consume s4)); auto.
    eapply reads_cons; [rewrite Hr4; f_equal; lia|]. replace [chr "{"] with [d] by (f_equal; lia).
    eapply s_consume_reads, s_consume_rest. eauto.
  - assert (c = chr "`") as -> by lia. change (96 =? 96) with true.
    apply wp_bind. apply wp_bind. unfold wp at 1, consume. apply wp_ret.
    eapply Finish with (tail := true) (s5 := s_consume s4); auto. eapply s_consume_reads; eauto.
Qed.

(** ** Punctuators *)
Definition ptok (s : sst) (t : token) (s' : sst) : Prop :=
  exists p, ttype t = TPunctuator /\ tval t = VPunc p /\ token_from E s t (s2l (p_spell p)) s' /\ longest_match p (rest s).

Definition curly_punct (p : punct) (c : list brace) : list brace :=
  match p with LBrace => BLBrace :: c | RBrace => tl c | _ => c end.

Lemma punc_final s c p s1 : reads (set_curly c s) (spell_lit p) s1 ->
  c = curly_punct p (curly s) -> longest_match p (rest s) ->
  wp X (token_simple E TPunctuator (VPunc p)) (ptok s) s1.
Proof.
  intros R Hc Hl. assert (Hne : spell_lit p <> []) by (destruct p; discriminate).
  apply mk_token_spec; [eapply reads_nonzero; eauto|].
  exists p. splits; auto.
  destruct R as [A1 A2 A3 A4 A5 A6 A7 A8 A9]. cbn [set_curly rest current line start curly unscanned sstate record_raw raw_string] in *.
  constructor; cbn; auto.
  - rewrite spell_lit_ok. constructor; auto. intros [Q1 Q2]. rewrite Q1 in A9. split; congruence.
  - eapply lx_punct; reflexivity.
  - unfold token_wf; cbn; eauto.
  - rewrite A5, Hc. unfold curly_after; cbn. destruct p; reflexivity.
Qed.
Lemma longest_intro p c r : ~ never_scanned p -> is_prefix (spell_lit p) (c :: r) ->
  (forall q, In q (with_first c) -> ~ never_scanned q -> is_prefix (spell_lit q) (c :: r) ->
     (length (spell_lit q) <= length (spell_lit p))%nat) -> longest_match p (c :: r).
Proof.
  intros H1 H2 H3. unfold longest_match. splits; auto; [rewrite spell_lit_ok; auto|].
  intros q Hq Hp. rewrite !spell_lit_length. apply H3; auto.
  - eapply starters; eauto.
  - rewrite spell_lit_ok in Hp. auto.
Qed.

Lemma set_curly_id s : set_curly (curly s) s = s.
Proof. destruct s; reflexivity. Qed.

Ltac longest :=
  apply longest_intro;
  [ unfold never_scanned; intuition discriminate
  | eexists; cbn [spell_lit app]; reflexivity
  | let q := fresh "q" in let Hq := fresh "Hq" in let Hn := fresh "Hn" in let Hp := fresh "Hp" in
    intros q Hq Hn Hp; vm_compute in Hq;
    repeat (destruct Hq as [Hq|Hq]; [subst q|]); [..|destruct Hq];
    cbn [spell_lit length]; try lia; exfalso;
    first [ apply Hn; unfold never_scanned; tauto
          | let x := fresh "x" in let Hx := fresh "Hx" in
            destruct Hp as (x & Hx); cbn [spell_lit app] in Hx; injection Hx; intros; subst; lia
          | let x := fresh "x" in let Hx := fresh "Hx" in
            destruct Hp as (x & Hx); cbn [spell_lit app] in Hx; discriminate Hx ] ].


Lemma punc0_spec s s1 p v : reads s (spell_lit p) s1 -> v = spell_lit p ->
  curly_punct p (curly s) = curly s -> longest_match p (rest s) -> wp X (punc0 E v) (ptok s) s1.
Proof.
  intros R -> Hc Hl. unfold punc0. rewrite p_from_spell. cbn [unwrap]. apply wp_bind, wp_ret.
  eapply punc_final; eauto. rewrite Hc, set_curly_id. exact R.
Qed.
Lemma punc1_spec s l s1 d r p v : reads s l s1 -> rest s1 = d :: r -> spell_lit p = l ++ [d] -> v = spell_lit p ->
  curly_punct p (curly s) = curly s -> longest_match p (rest s) -> wp X (punc1 E v) (ptok s) s1.
Proof.
  intros R Hr Hs -> Hc Hl. unfold punc1. rewrite p_from_spell. cbn [unwrap]. apply wp_bind. unfold wp at 1, consume.
  apply wp_bind, wp_ret. eapply punc_final; eauto. rewrite Hc, set_curly_id, Hs. eauto using reads_snoc.
Qed.
Lemma punc2_spec s l s1 d e r p v : reads s l s1 -> rest s1 = d :: e :: r -> spell_lit p = l ++ [d; e] -> v = spell_lit p ->
  curly_punct p (curly s) = curly s -> longest_match p (rest s) -> wp X (punc2 E v) (ptok s) s1.
Proof.
  intros R Hr Hs -> Hc Hl. unfold punc2. rewrite p_from_spell. cbn [unwrap]. apply wp_bind. unfold wp at 1, consume.
  apply wp_bind. unfold wp at 1, consume.
  apply wp_bind, wp_ret. eapply punc_final; eauto. rewrite Hc, set_curly_id, Hs.
  eapply reads_trans; eauto. eapply reads_cons; eauto. eapply s_consume_reads, s_consume_rest; eauto.
Qed.

Ltac testc c k :=
  let H := fresh "Hc" in
  destruct (c =? k) eqn:H; [assert (c = k) by lia; subst c; clear H |].
Ltac leaf lem pp :=
  eapply lem with (p := pp);
  [ eauto using reads_refl, reads_cons, s_consume_reads | try eassumption .. | reflexivity | reflexivity | reflexivity |
    match goal with H : rest _ = _ |- longest_match _ _ => rewrite H; longest end ].

Ltac leaf0 pp :=
  eapply punc0_spec with (p := pp);
  [ eauto using reads_refl, reads_cons, s_consume_reads | reflexivity | reflexivity |
    match goal with H : rest _ = _ |- longest_match _ _ => rewrite H; longest end ].

Lemma scan_punctuator_spec s c r : ok s -> rest s = c :: r ->
  wp X (scan_punctuator E) (ptok s) s.
Proof.
  intros Hok Hr. unfold scan_punctuator. apply wp_bind, wp_gets. unfold s_peek2; rewrite Hr; cbn [hd_error tl].
  destruct (c =? 123) eqn:H123.
  { assert (c = 123) as -> by lia. apply wp_bind. apply wp_modify.
    unfold punc1. apply wp_bind. unfold wp at 1, consume. change (p_from (s2l "{")) with (Some LBrace). cbn [unwrap].
    apply wp_bind, wp_ret. eapply punc_final with (c := BLBrace :: curly s); [|reflexivity|rewrite Hr; longest].
    eapply s_consume_reads. exact Hr. }
  destruct (c =? 125) eqn:H125.
  { assert (c = 125) as -> by lia. apply wp_bind. apply wp_modify.
    unfold punc1. apply wp_bind. unfold wp at 1, consume. change (p_from (s2l "}")) with (Some RBrace). cbn [unwrap].
    apply wp_bind, wp_ret. eapply punc_final with (c := tl (curly s)); [|reflexivity|rewrite Hr; longest].
    eapply s_consume_reads. exact Hr. }
  destruct (is_single_char_punctuator c) eqn:H1.
  { unfold is_single_char_punctuator in H1.
    testc c 40; [leaf punc1_spec LParen|].
    testc c 91; [leaf punc1_spec LBracket|].
    testc c 59; [leaf punc1_spec Semicolon|].
    testc c 44; [leaf punc1_spec Comma|].
    testc c 93; [leaf punc1_spec RBracket|].
    testc c 58; [leaf punc1_spec Colon|].
    testc c 63; [leaf punc1_spec Question|].
    testc c 126; [leaf punc1_spec Tilde|].
    testc c 41; [leaf punc1_spec RParen|]. lia. }
  testc c 63; [discriminate H1|].
  assert (Hr1 : rest (s_consume s) = r) by (eapply s_consume_rest; eauto).
  assert (R1 : reads s [c] (s_consume s)) by (eapply s_consume_reads; eauto).
  (* + - & | : one character, doubled, or with = *)
  destruct ((c =? 43) && is_some (hd_error r)) eqn:H43.
  { assert (c = 43) by lia; subst c. destruct r as [|d r]; [discriminate|]. cbn [hd_error is_c]. clear H43 H1 H123 H125 Hc.
    testc d 61; [leaf punc2_spec PlusAssign|]. testc d 43; [leaf punc2_spec Inc|leaf punc1_spec Plus]. }
  destruct ((c =? 45) && is_some (hd_error r)) eqn:H45.
  { assert (c = 45) by lia; subst c. destruct r as [|d r]; [discriminate|]. cbn [hd_error is_c]. clear H45 H43 H1 H123 H125 Hc.
    testc d 61; [leaf punc2_spec MinusAssign|]. testc d 45; [leaf punc2_spec Dec|leaf punc1_spec Minus]. }
  destruct ((c =? 38) && is_some (hd_error r)) eqn:H38.
  { assert (c = 38) by lia; subst c. destruct r as [|d r]; [discriminate|]. cbn [hd_error is_c]. clear H45 H43 H38 H1 H123 H125 Hc.
    testc d 61; [leaf punc2_spec BitAndAssign|]. testc d 38; [leaf punc2_spec LogicalAnd|leaf punc1_spec BitAnd]. }
  destruct ((c =? 124) && is_some (hd_error r)) eqn:H124.
  { assert (c = 124) by lia; subst c. destruct r as [|d r]; [discriminate|]. cbn [hd_error is_c]. clear H45 H43 H38 H124 H1 H123 H125 Hc.
    testc d 61; [leaf punc2_spec BitOrAssign|]. testc d 124; [leaf punc2_spec LogicalOr|leaf punc1_spec BitOr]. }
  destruct ((c =? 37) && is_some (hd_error r)) eqn:H37.
  { assert (c = 37) by lia; subst c. destruct r as [|d r]; [discriminate|]. cbn [hd_error is_c]. clear H45 H43 H38 H124 H37 H1 H123 H125 Hc.
    testc d 61; [leaf punc2_spec ModAssign|leaf punc1_spec Mod]. }
  destruct ((c =? 94) && is_some (hd_error r)) eqn:H94.
  { assert (c = 94) by lia; subst c. destruct r as [|d r]; [discriminate|]. cbn [hd_error is_c]. clear H45 H43 H38 H124 H37 H94 H1 H123 H125 Hc.
    testc d 61; [leaf punc2_spec BitXorAssign|leaf punc1_spec BitXor]. }
  clear H1 H123 H125 Hc H43 H45 H38 H124 H37 H94.
  testc c 46.
  { apply wp_bind. unfold wp at 1, consume. apply wp_bind, wp_gets. unfold s_peek2; rewrite Hr1.
    destruct r as [|d [|e r]]; cbn [hd_error tl is_c andb]; [leaf0 Dot| |].
    - rewrite Bool.andb_false_r. leaf0 Dot.
    - destruct ((d =? 46) && (e =? 46)) eqn:H; [|leaf0 Dot].
      assert (d = 46) by lia; assert (e = 46) by lia; subst d e. leaf punc2_spec Ellipsis. }
  testc c 60.
  { apply wp_bind. unfold wp at 1, consume. apply wp_bind, wp_gets. unfold s_peek2; rewrite Hr1.
    destruct r as [|d [|e r]]; cbn [hd_error tl is_c andb]; [leaf0 LAngle| |].
    - rewrite Bool.andb_false_r. testc d 60; [leaf punc1_spec LShift|]. testc d 61; [leaf punc1_spec LEqual|leaf0 LAngle].
    - testc d 60; cbn [andb].
      + testc e 61; [leaf punc2_spec LShiftAssign|leaf punc1_spec LShift].
      + testc d 61; [leaf punc1_spec LEqual|leaf0 LAngle]. }
  testc c 33.
  { apply wp_bind. unfold wp at 1, consume. apply wp_bind, wp_gets. unfold s_peek2; rewrite Hr1.
    destruct r as [|d [|e r]]; cbn [hd_error tl is_c andb]; [leaf0 Bang| |].
    - rewrite Bool.andb_false_r. testc d 61; [leaf punc1_spec NEqual|leaf0 Bang].
    - testc d 61; cbn [andb]; [|leaf0 Bang].
      testc e 61; [leaf punc2_spec StrictNEqual|leaf punc1_spec NEqual]. }
  testc c 42.
  { apply wp_bind. unfold wp at 1, consume. apply wp_bind, wp_gets. unfold s_peek2; rewrite Hr1.
    destruct r as [|d [|e r]]; cbn [hd_error tl is_c andb]; [leaf0 Star| |].
    - rewrite Bool.andb_false_r. testc d 42; [leaf punc1_spec Pow|]. testc d 61; [leaf punc1_spec StarAssign|leaf0 Star].
    - testc d 42; cbn [andb].
      + testc e 61; [leaf punc2_spec PowAssign|leaf punc1_spec Pow].
      + testc d 61; [leaf punc1_spec StarAssign|leaf0 Star]. }
  testc c 61.
  { apply wp_bind. unfold wp at 1, consume. apply wp_bind, wp_gets. unfold s_peek2; rewrite Hr1.
    destruct r as [|d [|e r]]; cbn [hd_error tl is_c andb]; [leaf0 Assign| |].
    - rewrite Bool.andb_false_r. testc d 61; [leaf punc1_spec Equal|]. testc d 62; [leaf punc1_spec FatArrow|leaf0 Assign].
    - testc d 61; cbn [andb].
      + testc e 61; [leaf punc2_spec StrictEqual|leaf punc1_spec Equal].
      + testc d 62; [leaf punc1_spec FatArrow|leaf0 Assign]. }
  testc c 62.
  { apply wp_bind. unfold wp at 1, consume. apply wp_bind, wp_gets. unfold s_peek2; rewrite Hr1.
    destruct r as [|d [|e r]]; cbn [hd_error tl is_c andb]; [leaf0 RAngle| |].
    - testc d 61; [leaf punc1_spec GEqual|]. rewrite Bool.andb_false_r. testc d 62; [leaf punc1_spec RShift|leaf0 RAngle].
    - testc d 61; [leaf punc1_spec GEqual|]. testc d 62; cbn [andb]; [|leaf0 RAngle].
      testc e 62; [|leaf punc1_spec RShift].
      assert (Hr2 : rest (s_consume (s_consume s)) = 62 :: r) by (eapply s_consume_rest; eauto).
      assert (R2 : reads s [62; 62] (s_consume (s_consume s))) by (eapply reads_cons; eauto; eapply s_consume_reads; eauto).
      apply wp_bind. unfold wp at 1, consume. apply wp_bind, wp_gets. unfold s_peek2; rewrite Hr2.
      destruct r as [|f r]; cbn [hd_error tl is_c andb]; change (62 =? 62) with true; cbn [andb]; [leaf punc1_spec ZRShift|].
      testc f 61; [leaf punc2_spec ZRShiftAssign|leaf punc1_spec ZRShift]. }
  apply s_error_spec with (E := E); auto.
Qed.

Lemma scan_div_punctuator_spec s c r : ok s -> rest s = c :: r -> c = chr "/" ->
  wp X (scan_div_punctuator E) (ptok s) s.
Proof.
  intros Hok Hr ->. unfold scan_div_punctuator. apply wp_bind, wp_gets. unfold s_peek2; rewrite Hr; cbn [hd_error tl is_c].
  change (47 =? 47) with true; cbn [andb]. destruct r as [|d r]; cbn [hd_error is_c]; [leaf punc1_spec Slash|].
  testc d 61; [leaf punc2_spec SlashAssign|leaf punc1_spec Slash].
Qed.

(** ** One token *)
Lemma wp_any A (m : SM A) s : wp xAny m (fun _ _ => True) s.
Proof. unfold wp. destruct (m s); cbn; auto. Qed.
Lemma mk_token_type ty v pt fl oc ck hd tl s : wp xAny (mk_token E ty v pt fl oc ck hd tl) (fun t _ => ttype t = ty) s.
Proof. unfold wp, mk_token. destruct (current s =? 0); [destruct (checked E)|]; cbn; auto. Qed.
Ltac anytype := repeat (apply wp_bind; eapply wp_conseq; [apply wp_any|intros ? ? _]).
Lemma type_of ty m s : ty <> TPunctuator -> ty <> TTemplate -> wp xAny m (fun t _ => ttype t = ty) s ->
  forall (t : token) (s' : sst), m s = ROk t s' -> ttype t <> TPunctuator /\ ttype t <> TTemplate.
Proof. intros Hn Hn2 H t s' Hm. unfold wp in H. rewrite Hm in H. split; congruence. Qed.
Lemma numeric_type s t s' : scan_numeric_literal E s = ROk t s' -> ttype t <> TPunctuator /\ ttype t <> TTemplate.
Proof. apply type_of with (ty := TNumeric); [discriminate|discriminate|]. unfold scan_numeric_literal. anytype. apply mk_token_type. Qed.
Lemma regexp_type s t s' : scan_regexp_literal E s = ROk t s' -> ttype t <> TPunctuator /\ ttype t <> TTemplate.
Proof. apply type_of with (ty := TRegExp); [discriminate|discriminate|]. unfold scan_regexp_literal. anytype. apply mk_token_type. Qed.
Lemma string_type s t s' : scan_string_literal E s = ROk t s' -> ttype t <> TPunctuator /\ ttype t <> TTemplate.
Proof.
  apply type_of with (ty := TString); [discriminate|discriminate|]. unfold scan_string_literal. anytype.
  destruct (_ || _); [anytype; apply mk_token_type|exact I].
Qed.
Lemma ident_type s t s' : scan_identifier E s = ROk t s' -> ttype t <> TPunctuator /\ ttype t <> TTemplate.
Proof.
  intros H. assert (G : wp xAny (scan_identifier E) (fun t _ => ttype t <> TPunctuator /\ ttype t <> TTemplate) s).
  { unfold scan_identifier. anytype. unfold identifier_token.
    repeat match goal with |- context [if ?b then _ else _] => destruct b end;
      (eapply wp_conseq; [apply mk_token_type|cbn; intros ? ? ->; split; discriminate]). }
  unfold wp in G. rewrite H in G. exact G.
Qed.
Lemma curly_after_of_template t c : ttype t = TTemplate -> forall b, thead t = Some b ->
  curly_after t c = match ttail t with Some false => BTemplate :: (if b then c else tl c) | _ => if b then c else tl c end.
Proof. intros Ht b Hb. unfold curly_after. rewrite Ht, Hb. destruct (tval t); destruct b; reflexivity. Qed.

Definition one_token (s : sst) (t : token) (l : str) (s' : sst) : Prop :=
  token_from E s t l s' /\ (l = [] -> rest s = []) /\ (ttype t = TEof <-> l = []) /\
  (forall p, tval t = VPunc p -> ttype t = TPunctuator /\ longest_match p (rest s)) /\
  (ttype t = TTemplate -> thead t = Some false -> hd_error (curly s) = Some BTemplate) /\
  (tval t = VPunc RBrace -> hd_error (curly s) <> Some BTemplate).

Lemma one_token_intro s t l s' : token_from E s t l s' -> l <> [] ->
  (forall p, tval t = VPunc p -> ttype t = TPunctuator /\ longest_match p (rest s)) ->
  (ttype t = TTemplate -> thead t = Some false -> hd_error (curly s) = Some BTemplate) ->
  (tval t = VPunc RBrace -> hd_error (curly s) <> Some BTemplate) -> one_token s t l s'.
Proof.
  intros H Hl Hp Hr1 Hr2. unfold one_token. splits; auto; [congruence|].
  split; [|congruence]. intros Ht. pose proof (tf_lexeme H) as Hx. destruct Hx; try congruence.
  inversion H2; congruence.
Qed.
Lemma no_punct_value t l : lexeme E t l -> (exists ty, ttype t = ty /\ ty <> TPunctuator) -> forall p, tval t <> VPunc p.
Proof.
  intros Hx (ty & Ht & Hn) p Hp. destruct Hx; try congruence.
  inversion H1; congruence.
Qed.

Lemma scan_token_spec goal s : ok s -> quiet s ->
  (checked E = true -> rest s = [] -> current s = 0 -> xP X P_EofUnderflow) ->
  wp X (scan_token E goal) (fun t s' => exists l, one_token s t l s') s.
Proof.
  intros Hok Hq Heof. unfold scan_token, wp. unfold s_peek2.
  destruct (rest s) as [|c r] eqn:Hr; cbn [hd_error tl].
  { unfold token_simple, mk_token.
    assert (G : forall e, (current s <> 0 -> e = current s - 1) ->
       exists l, one_token s (mkToken TEof VNull None None None None None None (line s) (col s) (start s) e) l s).
    { intros e He. exists []. unfold one_token. splits; auto.
      - constructor; cbn [ttype tval tstart tline tend]; auto.
        + apply reads_treads, reads_refl.
        + apply lx_eof; reflexivity.
        + reflexivity.
      - cbn. tauto.
      - cbn. discriminate.
      - cbn. discriminate.
      - cbn. discriminate. }
    destruct (current s =? 0) eqn:Hc.
    - destruct (checked E) eqn:HE; [apply Heof; auto; lia|]. apply G. lia.
    - apply G. auto. }
  match goal with |- match ?m s with _ => _ end => change (wp X m (fun t s' => exists l, one_token s t l s') s) end.
  assert (Lift : forall m, wp X m (fun t s' => exists l, l <> [] /\ token_from E s t l s') s ->
            (forall t s', m s = ROk t s' -> ttype t <> TPunctuator /\ ttype t <> TTemplate) ->
            wp X m (fun t s' => exists l, one_token s t l s') s).
  { intros m Hm Hnp. unfold wp in *. destruct (m s) as [t s'| | |] eqn:Hms; auto.
    destruct Hm as (l & Hl & Ht). destruct (Hnp t s' eq_refl) as [N1 N2].
    assert (Np : forall p, tval t <> VPunc p) by (eapply no_punct_value; eauto; exact (tf_lexeme Ht)).
    exists l. apply one_token_intro; auto.
    - intros p Hp. destruct (Np p Hp).
    - intros; congruence.
    - intros Hp. destruct (Np _ Hp). }
  assert (LiftP : forall m, wp X m (ptok s) s -> (hd_error (curly s) = Some BTemplate -> c <> chr "}") -> wp X m (fun t s' => exists l, one_token s t l s') s).
  { intros m Hm Hcu. eapply wp_conseq; [exact Hm|]. intros t s' (p & Ht & Hv & Hf & Hl).
    exists (s2l (p_spell p)). apply one_token_intro; auto.
    - rewrite spell_lit_ok. destruct p; discriminate.
    - intros q Hq'. rewrite Hv in Hq'. injection Hq' as <-. auto.
    - intros; congruence.
    - intros Hp Hb. apply (Hcu Hb). rewrite Hv in Hp. injection Hp as ->.
      pose proof (td_rest (tf_reads Hf)) as Hx. rewrite Hr in Hx. injection Hx as -> _. reflexivity. }
  destruct (is_identifier_start E c) eqn:H1.
  { apply Lift; [eapply scan_identifier_spec; eauto|apply ident_type]. }
  destruct ((c =? 34) || (c =? 39)) eqn:H2.
  { apply Lift; [eapply scan_string_literal_spec; eauto; lia|apply string_type]. }
  destruct ((c =? 46) && _) eqn:H3.
  { apply Lift; [eapply scan_numeric_literal_spec; eauto; right; lia|apply numeric_type]. }
  destruct (is_decimal_digit c) eqn:H4.
  { apply Lift; [eapply scan_numeric_literal_spec; eauto|apply numeric_type]. }
  destruct (c =? 96) eqn:H5.
  { unfold scan_template. eapply wp_conseq; [eapply scan_template_piece_spec; eauto|].
    cbn beta. intros t s' (l & Hl & T & Hx & Hw & Hty & Hs & Hln & He & Hh & Hc). exists l.
    apply one_token_intro; auto.
    - constructor; auto. rewrite (curly_after_of_template t (curly s) Hty Hh). exact Hc.
    - intros p Hp. exfalso. eapply no_punct_value; eauto. exists TTemplate; split; auto; discriminate.
    - congruence.
    - intros Hp. exfalso. eapply no_punct_value; eauto. exists TTemplate; split; auto; discriminate. }
  destruct ((c =? 125) && _) eqn:H6.
  { apply wp_bind. apply wp_modify. set (s1 := set_curly (tl (curly s)) s).
    eapply wp_conseq; [eapply (@scan_template_piece_spec _ false s1); auto|].
    { eapply okX_same; [| |exact Hok]; reflexivity. }
    cbn beta. intros t s' (l & Hl & T & Hx & Hw & Hty & Hs & Hln & He & Hh & Hc). exists l.
    assert (T' : treads s l s').
    { destruct T as [A1 A2 A3 A4 A5 A6 A7]. constructor; auto. }
    apply one_token_intro; auto.
    - constructor; auto. rewrite (curly_after_of_template t (curly s) Hty Hh). exact Hc.
    - intros p Hp. exfalso. eapply no_punct_value; eauto. exists TTemplate; split; auto; discriminate.
    - intros _ _. destruct (curly s) as [|[] cu]; [lia|reflexivity|lia].
    - intros Hp. exfalso. eapply no_punct_value; eauto. exists TTemplate; split; auto; discriminate. }
  destruct (c =? 47) eqn:H7.
  { destruct goal; [apply LiftP; [eapply scan_div_punctuator_spec; eauto; lia|lia]|].
    apply Lift; [eapply scan_regexp_literal_spec; eauto|apply regexp_type]. }
  apply LiftP; [eapply scan_punctuator_spec; eauto|].
  intros Hb Hc. destruct (curly s) as [|[] cu]; cbn in Hb; try discriminate. lia.
Qed.

(** ** The next token *)
Record next_token (s : sst) (t : token) (tr l : str) (s' : sst) : Prop := mkNext {
  nt_rest : rest s = tr ++ l ++ rest s';
  nt_trivia : trivia tr (l ++ rest s');
  nt_no_trivia : no_trivia (l ++ rest s');
  nt_lexeme : lexeme E t l;
  nt_wf : token_wf t;
  nt_eof : ttype t = TEof <-> l = [];
  nt_eof_rest : l = [] -> rest s' = [];
  nt_punct : forall p, tval t = VPunc p -> ttype t = TPunctuator /\ longest_match p (l ++ rest s');
  nt_resume : ttype t = TTemplate -> thead t = Some false -> hd_error (curly s) = Some BTemplate;
  nt_close : tval t = VPunc RBrace -> hd_error (curly s) <> Some BTemplate;
  nt_start : tstart t = current s + len tr;
  nt_current : current s' = current s + len tr + len l;
  nt_end : current s' <> 0 -> tend t = current s' - 1;
  nt_line : tline t = line s';
  nt_breaks : line s' = line s + breaks (tr ++ l) (rest s');
  nt_curly : curly s' = curly_after t (curly s);
  nt_unscanned : unscanned s' = None;
  nt_sstate : sstate s' = sstate s;
  nt_quiet : quiet s'
}.

Lemma s_next_spec goal s : ok s -> quiet s -> unscanned s = None ->
  (checked E = true -> current s = 0 -> trivia (rest s) [] -> rest s = [] -> xP X P_EofUnderflow) ->
  wp X (s_next E goal) (fun t s' => exists tr l, next_token s t tr l s') s.
Proof.
  intros Hok Hq Hu Heof. unfold wp, s_next. rewrite Hu.
  destruct (scan_comments_spec (set_newline false s)) as (s1 & tr & Hs1 & R1 & Tr & Nt).
  unfold bind. rewrite Hs1. cbv beta iota. unfold modify at 1. cbv beta iota.
  set (s2 := s_start_new_token s1).
  destruct R1 as [A1 A2 A3 A4 A5 A6 A7 A8 A9].
  cbn [set_newline rest current line start curly unscanned sstate record_raw raw_string] in *.
  assert (Hok2 : ok s2).
  { destruct Hok as [B1 B2 B3]. constructor.
    2:{ intros (pre & op & vs & ls & Ht & H). apply B2. exists (tr ++ pre), op, vs, ls. rewrite A1, <- app_assoc, <- Ht. auto. }
    2:{ intros Hc (pre & ds & post & Ht & H). apply B3; auto. exists (tr ++ pre), ds, post. rewrite A1, <- app_assoc, <- Ht. auto. }
    intros l r c t Hl. cbn [s2 s_start_new_token rest line] in *.
    rewrite A3. replace (line s + breaks tr (rest s1) + breaks l r) with (line s + breaks (tr ++ l) r).
    - apply B1. rewrite A1, Hl, app_assoc. reflexivity.
    - rewrite breaks_app, Hl. lia. }
  assert (Hq2 : quiet s2).
  { destruct Hq as [Q1 Q2]. rewrite Q1 in A9. split; cbn; congruence. }
  pose proof (@scan_token_spec goal s2 Hok2 Hq2) as H. unfold wp in H.
  assert (He2 : checked E = true -> rest s2 = [] -> current s2 = 0 -> xP X P_EofUnderflow).
  { cbn. intros Hc Hr Hcur. rewrite A2 in Hcur. assert (tr = []) as -> by (destruct tr; auto; rewrite len_cons in Hcur; lia).
    cbn in A1. apply Heof; auto; [lia|rewrite A1, Hr; constructor|congruence]. }
  specialize (H He2). destruct (scan_token E goal s2) as [t s'|e|p|] eqn:Ht; auto.
  destruct H as (l & [[T1 T2 T3 T4 T5 T6 T7] [P2 [P3 [P4 [P5 P6]]]]]).
  destruct T1 as [D1 D2 D3 D4 D5 D6 D7].
  cbn [s2 s_start_new_token rest current line start curly unscanned sstate record_raw raw_string] in *.
  exists tr, l. constructor; auto; try congruence.
  - intros ->. cbn in D1. rewrite <- D1. auto.
  - intros p Hp. rewrite <- D1. auto.
  - rewrite <- A5. auto.
  - rewrite <- A5. auto.
  - rewrite D3, A3, breaks_app, <- D1. lia.
Qed.

End Specs.
