(** * GramWitness: a checker for layouts, for the witnesses of C45 (proofs). *)
From Verif Require Import Base Punct Token Scanner Ast Convert ParserBase.
From Verif Require Import SpecLex SpecJson SpecLayout SpecGrammar SpecPrint Witness GramTac GramTop PrintProofs ScanTokens2.

Definition all_puncts : list punct :=
  [LBrace; LParen; RParen; LBracket; RBracket; Dot; Ellipsis; Semicolon; Comma; LAngle; RAngle; LEqual; GEqual; Equal; NEqual; StrictEqual;
   StrictNEqual; Plus; Minus; Star; Mod; Pow; Inc; Dec; LShift; RShift; ZRShift; BitAnd; BitOr; BitXor; Bang; Tilde; LogicalAnd; LogicalOr;
   Question; Colon; Assign; PlusAssign; MinusAssign; StarAssign; ModAssign; PowAssign; LShiftAssign; RShiftAssign; ZRShiftAssign;
   BitAndAssign; BitOrAssign; BitXorAssign; FatArrow; Slash; SlashAssign; RBrace; Instanceof; QMarkDot; DoubleQMark].
Lemma all_puncts_in p : In p all_puncts.
Proof. destruct p; cbn; tauto. Qed.
Fixpoint prefixb (a b : str) : bool :=
  match a, b with
  | [], _ => true
  | x :: a', y :: b' => (x =? y) && prefixb a' b'
  | _, _ => false
  end.
Lemma prefixb_ok a b : prefixb a b = true <-> is_prefix a b.
Proof.
  split.
  - revert b. induction a as [|x a IH]; intros [|y b]; cbn; intros H; try discriminate; [exists []; auto|exists (y :: b); auto|].
    apply andb_prop in H as [H1 H2]. apply N.eqb_eq in H1. subst. destruct (IH _ H2) as [r ->]. exists r. reflexivity.
  - intros [r ->]. induction a; cbn; auto. rewrite N.eqb_refl. auto.
Qed.
Definition neverb (p : punct) : bool := match p with QMarkDot | DoubleQMark | RShiftAssign | Instanceof => true | _ => false end.
Lemma neverb_ok p : neverb p = true <-> never_scanned p.
Proof. unfold never_scanned. destruct p; cbn; intuition (auto; discriminate). Qed.
Definition longestb (p : punct) (s : str) : bool :=
  negb (neverb p) && prefixb (s2l (p_spell p)) s &&
  forallb (fun q => neverb q || negb (prefixb (s2l (p_spell q)) s) || (String.length (p_spell q) <=? String.length (p_spell p))%nat) all_puncts.
Lemma longestb_ok p s : longestb p s = true -> longest_match p s.
Proof.
  unfold longestb. intros H. apply andb_prop in H as [H H3]. apply andb_prop in H as [H1 H2]. split; [|split].
  - rewrite <- neverb_ok. destruct (neverb p); discriminate.
  - apply prefixb_ok; auto.
  - intros q Hq Hp. rewrite forallb_forall in H3. specialize (H3 q (all_puncts_in q)). rewrite <- neverb_ok in Hq. apply prefixb_ok in Hp.
    rewrite Hp in H3. destruct (neverb q); [contradiction Hq; auto|]. cbn in H3. apply Nat.leb_le in H3. auto.
Qed.
Definition letterb (c : N) : bool := (97 <=? c) && (c <=? 122) || (65 <=? c) && (c <=? 90).
Definition digitb (c : N) : bool := (48 <=? c) && (c <=? 57).
Definition wordb (c : N) : bool := (c =? 36) || (c =? 95) || letterb c || digitb c || (c =? 92).
Definition endsb (r : str) : bool := match r with [] => true | c :: _ => negb (wordb c) end.
Lemma endsb_ok r : endsb r = true -> word_ends E0 r.
Proof.
  destruct r as [|c r]; cbn; auto. unfold wordb, letterb, digitb, id_continue, ascii_letter, ascii_digit, backslash. cbn. intros H.
  split; [|intros ->; discriminate H]. intros K. decompose [or] K; try discriminate; lia.
Qed.
Definition gapb (c : N) : bool := (c =? 32) || (c =? 10).
Definition plain_charb (c : N) : bool := (33 <=? c) && (c <=? 126).
Lemma plain_char_ok c : plain_charb c = true -> ~ white_space c /\ ~ line_terminator c.
Proof. unfold plain_charb, white_space, line_terminator, LF, CR. lia. Qed.
Definition templb (c : N) : bool := letterb c || gapb c.
Lemma concat_chars {A} (p : list A) : concat (map (fun c => [c]) p) = p.
Proof. induction p; cbn; congruence. Qed.
Lemma templ_text w r : forallb templb w = true -> template_text w w r.
Proof.
  induction w as [|c w IH]; cbn [forallb]; intros H; [constructor|]. apply andb_prop in H as [H1 H2]. unfold templb, letterb, gapb in H1.
  constructor; auto.
  - intros ->. discriminate.
  - intros ->. discriminate.
  - cbn [In]. unfold CR. lia.
  - intros ->. discriminate.
Qed.
Definition spelledb (k : tk) (l r : str) : bool :=
  match k with
  | KP p => str_eqb l (s2l (p_spell p)) && longestb p (l ++ r) && (negb (punct_eqb p Slash) || match r with c :: _ => negb ((c =? 47) || (c =? 42)) | [] => false end) &&
      (negb (punct_eqb p Dot) || match r with c :: _ => negb (digitb c) | [] => true end) &&
      (match r with [] => punct_eqb p RBrace || punct_eqb p RParen || punct_eqb p RBracket || punct_eqb p Semicolon | _ => true end)
  | KW w => str_eqb l (s2l w) && existsb (String.eqb w) reserved_words && endsb r
  | KI x => str_eqb l x && negb (str_eqb x []) && forallb letterb x && negb (existsb (fun w => str_eqb x (s2l w)) (reserved_words ++ ["null"; "true"; "false"]%string)) && endsb r
  | KNum (mkNum n 0) => str_eqb l (decimal n) && match r with [] => true | c :: _ => negb (letterb c || digitb c || (c =? 46)) end
  | KStr w => str_eqb l (quoted 0x22 w) || str_eqb l (quoted 0x27 w)
  | KEof => match l, r with [], [] => true | _, _ => false end
  | KRegex p f => str_eqb l (chr "/" :: p ++ chr "/" :: f) && negb (str_eqb p []) && forallb letterb p && forallb letterb f && endsb r
  | KTempl h t w v => str_eqb l ((if h then chr "`" else chr "}") :: w ++ template_close t) && str_eqb v w && forallb templb w
  | _ => false
  end.
Ltac bools := repeat match goal with H : (_ && _)%bool = true |- _ => apply andb_prop in H as [? ?] end.
Lemma punct_eqb_eq p q : punct_eqb p q = true -> p = q.
Proof. unfold punct_eqb. destruct (punct_eq_dec p q); congruence. Qed.
Lemma spelledb_ok k l r : spelledb k l r = true -> spelled E0 k l r.
Proof.
  destruct k; cbn [spelledb]; intros H; bools; try discriminate.
  - repeat match goal with K : str_eqb _ _ = true |- _ => apply str_eqb_eq in K end. subst l. constructor.
    + apply longestb_ok; auto.
    + match goal with K : (negb (punct_eqb p Slash) || _)%bool = true |- _ => revert K end. clear. intros K. destruct p.
      all: try (cbn in K; destruct r as [|c r]; [discriminate K|]; split; [unfold white_space|split]; [cbn; lia|unfold line_terminator, LF, CR; cbn; lia|]; intros _; cbn in *; lia).
      all: match goal with |- no_trivia (s2l ?w ++ _) => let c := eval vm_compute in (hd 0 (s2l w)) in destruct (plain_char_ok c eq_refl) as [G1 G2] end;
        split; [exact G1|]; split; [exact G2|]; try (intros G; discriminate G); intros _; cbn; split; discriminate.
    + intros ->. cbn in *. destruct r; auto. unfold ascii_digit. match goal with K : negb (digitb _) = true |- _ => unfold digitb in K end. cbn in *. lia.
    + intros ->. match goal with K : (_ || _)%bool = true |- _ => idtac | _ => idtac end.
      destruct p; try discriminate; cbn; auto; tauto.
  - repeat match goal with K : str_eqb _ _ = true |- _ => apply str_eqb_eq in K end. subst l. constructor; [|apply endsb_ok; auto].
    match goal with K : existsb _ _ = true |- _ => apply existsb_exists in K as (v & Hv & K); apply String.eqb_eq in K; subst; auto end.
  - repeat match goal with K : str_eqb _ _ = true |- _ => apply str_eqb_eq in K end. subst l.
    match goal with K : forallb letterb x = true |- _ => rewrite forallb_forall in K; rename K into Hl end.
    match goal with K : negb (existsb _ _) = true |- _ => apply Bool.negb_true_iff in K; rename K into Hr end.
    assert (Hr' : forall w, In w (reserved_words ++ ["null"; "true"; "false"]%string) -> x <> s2l w).
    { intros w Hw ->. assert (existsb (fun v => str_eqb (s2l w) (s2l v)) (reserved_words ++ ["null"; "true"; "false"]%string) = true); [|congruence].
      apply existsb_exists. exists w. split; auto. apply str_eqb_eq. auto. }
    constructor; auto using endsb_ok.
    + destruct x as [|c x]; [discriminate|]. exists c, x. split; auto. assert (Hc := Hl c (or_introl eq_refl)). unfold letterb in Hc.
      split; [right; right; left; unfold ascii_letter; cbn; lia|]. split; apply Forall_forall; intros d Hd.
      * specialize (Hl d (or_intror Hd)). unfold letterb in Hl. right; right; left; unfold ascii_letter; cbn; lia.
      * specialize (Hl d Hd). unfold letterb in Hl. unfold backslash. lia.
    + apply Forall_forall. intros d Hd. specialize (Hl d Hd). unfold letterb in Hl. unfold line_terminator, LF, CR. lia.
    + intros (w & Hw & Hx). apply (Hr' w); auto. apply in_or_app. auto.
    + cbn [In]. intros Hx. decompose [or] Hx; try contradiction; subst x.
      * apply (Hr' "null"%string); auto. apply in_or_app. right. cbn; auto.
      * apply (Hr' "true"%string); auto. apply in_or_app. right. cbn; auto.
      * apply (Hr' "false"%string); auto. apply in_or_app. right. cbn; auto.
  - destruct x as [n z]. destruct z; try discriminate. bools. repeat match goal with K : str_eqb _ _ = true |- _ => apply str_eqb_eq in K end. subst l.
    destruct (decimal_plain n) as [G1 G2]. pose proof (@sl_decimal E0 (decimal n) [] [] [] 0%Z r) as K. rewrite !List.app_nil_r, decimal_value in K. cbn in K.
    apply K; auto; [apply uint_digits|constructor|constructor|].
    destruct r as [|c r]; cbn in *; auto. match goal with K : negb _ = true |- _ => rename K into Hc end. unfold letterb, digitb in Hc. unfold ascii_letter, ascii_digit. cbn. split; [lia|]. split; [lia|]. intros ->. discriminate.
  - apply Bool.orb_true_iff in H. destruct H as [H|H]; apply str_eqb_eq in H; subst l; apply sl_string; auto.
  - repeat match goal with K : str_eqb _ _ = true |- _ => apply str_eqb_eq in K end. subst l.
    match goal with K : forallb letterb p = true |- _ => rewrite forallb_forall in K; rename K into Hp end.
    match goal with K : forallb letterb f = true |- _ => rewrite forallb_forall in K; rename K into Hf end.
    rewrite <- (concat_chars p). constructor; auto using endsb_ok.
    + apply Forall_forall. intros d Hd. apply in_map_iff in Hd as (c & <- & Hc). specialize (Hp c Hc). unfold letterb in Hp.
      constructor; unfold line_terminator, LF, CR, backslash; cbn; lia.
    + destruct p; discriminate.
    + rewrite concat_chars. destruct p as [|c p]; [discriminate|]. cbn. specialize (Hp c (or_introl eq_refl)). intros [= ->]. discriminate.
    + apply Forall_forall. intros d Hd. specialize (Hf d Hd). unfold letterb in Hf. split; [right; right; left; unfold ascii_letter; cbn; lia|].
      unfold line_terminator, LF, CR, backslash. lia.
  - repeat match goal with K : str_eqb _ _ = true |- _ => apply str_eqb_eq in K end. subst. constructor. apply templ_text; auto.
  - destruct l; [|discriminate]. destruct r; [|discriminate]. constructor.
Qed.

(** A source: gaps (spaces and line feeds) and spellings of the tokens. *)
Definition no_oddb (c : N) : bool := negb ((c =? 13) || (c =? 0x2028) || (c =? 0x2029)).
Definition regexpb (k : tk) (ts : list tok) : bool := match ts with t :: _ => negb (is_regexp t) || before_regexp k | [] => true end.
Lemma regexpb_ok k ts : regexpb k ts = true -> regexp_ok k ts.
Proof. destruct ts; cbn; auto. intros H K. rewrite K in H. auto. Qed.
Fixpoint layb (first : bool) (ts : list tok) (gs : list (str * str)) : bool :=
  match ts, gs with
  | [], [] => true
  | T b k :: ts', (g, l) :: gs' =>
    forallb gapb g && forallb no_oddb l && Bool.eqb b (negb first && existsb (N.eqb 10) (g ++ l)) && spelledb k l (flat_map (fun p => fst p ++ snd p) gs') &&
    regexpb k ts' && layb false ts' gs'
  | _, _ => false
  end.
Definition text_of (gs : list (str * str)) : str := flat_map (fun p => fst p ++ snd p) gs.
Lemma gap_trivia g r : forallb gapb g = true -> trivia g r.
Proof.
  induction g as [|c g IH]; cbn; [constructor|]. intros H. apply andb_prop in H as [H1 H2]. unfold gapb in H1. apply Bool.orb_true_iff in H1 as [H1|H1]; apply N.eqb_eq in H1; subst c.
  - apply tv_space; auto. unfold white_space. tauto.
  - apply tv_line; auto. left. reflexivity.
Qed.
Lemma gap_line g : forallb no_oddb g = true -> (existsb (N.eqb 10) g = true <-> Exists line_terminator g).
Proof.
  intros Hg. rewrite existsb_exists, Exists_exists. split.
  - intros (c & Hc & H). apply N.eqb_eq in H. subst. exists 10. split; auto. left. reflexivity.
  - intros (c & Hc & H). exists c. split; auto. rewrite forallb_forall in Hg. specialize (Hg c Hc). unfold no_oddb in Hg. unfold line_terminator, LF, CR in H. apply N.eqb_eq. lia.
Qed.
Lemma gap_no_odd g : forallb gapb g = true -> forallb no_oddb g = true.
Proof. rewrite !forallb_forall. intros H c Hc. specialize (H c Hc). unfold gapb in H. unfold no_oddb. lia. Qed.
Lemma layb_ok ts : forall gs, layb false ts gs = true -> lay E0 ts (text_of gs).
Proof.
  induction ts as [|[b k] ts IH]; intros [|[g l] gs]; cbn [layb]; intros H; try discriminate; [constructor|]. bools.
  change (text_of ((g, l) :: gs)) with ((g ++ l) ++ text_of gs). rewrite <- app_assoc. constructor; auto using gap_trivia, spelledb_ok, regexpb_ok.
  match goal with K : Bool.eqb _ _ = true |- _ => apply Bool.eqb_prop in K; subst b end. cbn [negb andb]. apply gap_line; auto.
  rewrite forallb_app. apply andb_true_intro. split; auto using gap_no_odd.
Qed.
Lemma sourceb_ok ts gs : layb true ts gs = true -> ts <> [] -> source_of E0 ts (text_of gs).
Proof.
  destruct ts as [|[b k] ts]; [contradiction|]. intros H _. destruct gs as [|[g l] gs]; [discriminate|]. cbn [layb] in H. bools.
  change (text_of ((g, l) :: gs)) with ((g ++ l) ++ text_of gs). rewrite <- app_assoc.
  match goal with K : Bool.eqb _ _ = true |- _ => apply Bool.eqb_prop in K; subst b end. constructor; auto using gap_trivia, spelledb_ok, layb_ok, regexpb_ok.
Qed.

(** ** Derivations of concrete phrases: the token list is cut into [k] single
    tokens followed by a segment of [n] tokens, repeatedly. *)
Fixpoint capp (a b : list tok) : list tok := match a with [] => b | x :: a' => x :: capp a' b end.
Fixpoint cutl (s : list (nat * nat)) (l : list tok) : list tok :=
  match s with
  | [] => l
  | (k, n) :: s' => capp (firstn k l) (firstn n (skipn k l) ++ cutl s' (skipn n (skipn k l)))
  end.
Ltac cut spec :=
  match goal with
  | |- gr ?E ?M ?c ?l ?nt ?e => let l' := eval cbv -[app s2l] in (cutl spec l) in change (gr E M c l' nt e)
  | |- module_items ?E ?M ?nt ?l ?e => let l' := eval cbv -[app s2l] in (cutl spec l) in change (module_items E M nt l' e)
  | |- module_item ?E ?M ?l ?nt ?e => let l' := eval cbv -[app s2l] in (cutl spec l) in change (module_item E M l' nt e)
  | |- listed ?o ?l ?e => let l' := eval cbv -[app s2l] in (cutl spec l) in change (listed o l' e)
  | |- import_group ?l ?e => let l' := eval cbv -[app s2l] in (cutl spec l) in change (import_group l' e)
  end.
Lemma ident_dec x : negb (existsb (fun w => str_eqb x (s2l w)) (reserved_words ++ ["async"; "let"; "implements"; "interface"; "package"; "private"; "protected"; "public"; "static"]%string)) = true -> ident x.
Proof.
  intros H. apply Bool.negb_true_iff in H.
  assert (Hr : forall w, In w (reserved_words ++ ["async"; "let"; "implements"; "interface"; "package"; "private"; "protected"; "public"; "static"]%string) -> x <> s2l w).
  { intros w Hw ->. assert (K : existsb (fun v => str_eqb (s2l w) (s2l v)) (reserved_words ++ ["async"; "let"; "implements"; "interface"; "package"; "private"; "protected"; "public"; "static"]%string) = true); [|congruence].
    apply existsb_exists. exists w. split; auto. apply str_eqb_eq. auto. }
  split.
  - intros (w & Hw & Hx). apply (Hr w); auto. apply in_or_app; auto.
  - intros Hx. apply in_map_iff in Hx as (w & Hw & Hi). apply (Hr w); auto. apply in_or_app; auto.
Qed.
Ltac idt := apply ident_dec; vm_compute; reflexivity.
(** An operand: everything between a member expression and an operand of level 12. *)
Lemma member_exp E M l nt e : gr E M Member l nt e -> gr E M (Exp false) l nt e.
Proof. intros. apply g_exp_unary, g_unary_update, g_update_left, g_left_member. auto. Qed.
Lemma call_exp E M l nt e : gr E M (Call false) l nt e -> gr E M (Exp false) l nt e.
Proof. intros. apply g_exp_unary, g_unary_update, g_update_left, g_left_call. auto. Qed.
Lemma exp_bin E M inn q l nt e : (q <= 11)%nat -> gr E M (Exp false) l nt e -> gr E M (Bin inn (12 - N.of_nat q) false) l nt e.
Proof.
  intros Hq H. induction q as [|q IH]; [apply g_bin_exp; auto|]. apply g_bin_up; [lia|].
  replace (12 - N.of_nat (S q) + 1) with (12 - N.of_nat q) by lia. apply IH. lia.
Qed.
Lemma bin_down E M inn n : forall q l nt e, 1 <= q -> gr E M (Bin inn (q + N.of_nat n) false) l nt e -> gr E M (Bin inn q false) l nt e.
Proof.
  induction n as [|n IH]; intros q l nt e Hq H; [rewrite N.add_0_r in H; auto|]. apply g_bin_up; auto. apply IH; [lia|].
  replace (q + 1 + N.of_nat n) with (q + N.of_nat (S n)) by lia. auto.
Qed.
Lemma exp_assign E M inn l nt e : in_generator M = false -> gr E M (Exp false) l nt e -> gr E M (Assignment inn) l nt e.
Proof. intros Hm H. apply g_assign_cond; [unfold not_yield; congruence|]. eapply g_cond_bin. apply (exp_bin E M inn 11); auto. Qed.
Lemma assign_expr E M inn l nt e : gr E M (Assignment inn) l nt e -> gr E M (Expr inn) l nt e.
Proof. intros. apply g_expr_one, g_exprs_one. auto. Qed.
Lemma letters_writable x : forallb letterb x = true -> x <> [] -> writable E0 x.
Proof.
  intros H Hx. rewrite forallb_forall in H. split.
  - destruct x as [|c x]; [contradiction|]. exists c, x. split; auto. assert (Hc := H c (or_introl eq_refl)). unfold letterb in Hc.
    split; [right; right; left; unfold ascii_letter; cbn; lia|]. split; apply Forall_forall; intros d Hd.
    * specialize (H d (or_intror Hd)). unfold letterb in H. right; right; left; unfold ascii_letter; cbn; lia.
    * specialize (H d Hd). unfold letterb in H. unfold backslash. lia.
  - apply Forall_forall. intros d Hd. specialize (H d Hd). unfold letterb in H. unfold line_terminator, LF, CR. lia.
Qed.
