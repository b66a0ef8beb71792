(** * PrintProofs: printed expressions are phrases of the grammar (proofs). *)
From Verif Require Import Base Punct Token Ast Scanner Parser.
From Verif Require Import SpecLex SpecJson SpecBare SpecLayout SpecGrammar SpecPrint GramLex GramTac GramTop GramMod ScanTokens2.
From Coq Require Import DecimalN DecimalFacts.
Set Implicit Arguments.

Definition opt_list {A} (o : option (list A)) : list A := match o with Some l => l | None => [] end.
Section XInd.
Context (Q : exp -> Prop) (F : fn -> Prop) (R : stm -> Prop).
Context (q_id : forall x, Q (XId x)) (q_num : forall n, Q (XNum n)) (q_str : forall w, Q (XStr w)) (q_null : Q XNull)
  (q_bool : forall b, Q (XBool b)) (q_this : Q XThis) (q_par : forall e, Q e -> Q (XPar e))
  (q_arr : forall es, Forall Q es -> Q (XArr es)) (q_dot : forall e x, Q e -> Q (XDot e x))
  (q_index : forall e i, Q e -> Q i -> Q (XIndex e i)) (q_call : forall e a, Q e -> Forall Q a -> Q (XCall e a))
  (q_pre : forall p e, Q e -> Q (XPre p e)) (q_un : forall k e, Q e -> Q (XUn k e))
  (q_pow : forall e e', Q e -> Q e' -> Q (XPow e e')) (q_bin : forall k e e', Q e -> Q e' -> Q (XBin k e e'))
  (q_cond : forall e e1 e2, Q e -> Q e1 -> Q e2 -> Q (XCond e e1 e2)) (q_assign : forall p e e', Q e -> Q e' -> Q (XAssign p e e'))
  (q_seq : forall e es, Q e -> Forall Q es -> Q (XSeq e es)) (q_obj : forall ps, Forall (fun p => Q (snd p)) ps -> Q (XObj ps))
  (q_new : forall e a, Q e -> Forall Q a -> Q (XNew e a)) (q_post : forall e p, Q e -> Q (XPost e p))
  (q_arrow : forall xs e, Q e -> Q (XArrow xs e)) (q_fun : forall x f, F f -> Q (XFun x f))
  (q_lam : forall xs ds ss, Forall R ss -> Q (XLam xs ds ss))
  (q_class : forall x sup ms, opt Q sup -> Forall (fun m => F (snd m)) ms -> Q (XClass x sup ms))
  (f_fn : forall xs ds ss, Forall R ss -> F (Fn xs ds ss))
  (r_exp : forall e, Q e -> R (SExp e)) (r_decl : forall k ds, Forall (fun d => opt Q (snd d)) ds -> R (SDecl k ds)) (r_empty : R SEmpty)
  (r_block : forall ss, Forall R ss -> R (SBlock ss)) (r_if : forall e s s', Q e -> R s -> opt R s' -> R (SIf e s s'))
  (r_while : forall e s, Q e -> R s -> R (SWhile e s)) (r_do : forall s e, R s -> Q e -> R (SDo s e))
  (r_for : forall i t u s, opt Q i -> opt Q t -> opt Q u -> R s -> R (SFor i t u s))
  (r_fordecl : forall k x i t u s, opt Q i -> opt Q t -> opt Q u -> R s -> R (SForDecl k x i t u s))
  (r_forin : forall k x e s, Q e -> R s -> R (SForIn k x e s)) (r_forof : forall k x e s, Q e -> R s -> R (SForOf k x e s))
  (r_continue : forall x, R (SContinue x)) (r_break : forall x, R (SBreak x)) (r_return : forall e, opt Q e -> R (SReturn e))
  (r_throw : forall e, Q e -> R (SThrow e)) (r_debugger : R SDebugger)
  (r_try : forall ss x ss1 ss2, Forall R ss -> Forall R ss1 -> Forall R (opt_list ss2) -> R (STry ss x ss1 ss2))
  (r_finally : forall ss ss2, Forall R ss -> Forall R ss2 -> R (STryFinally ss ss2))
  (r_switch : forall e cs, Q e -> Forall (fun a => opt Q (fst a) /\ Forall R (snd a)) cs -> R (SSwitch e cs))
  (r_label : forall x s, R s -> R (SLabel x s)) (r_fun : forall x f, F f -> R (SFun x f))
  (r_class : forall x sup ms, opt Q sup -> Forall (fun m => F (snd m)) ms -> R (SClass x sup ms)).
Fixpoint exp_rec' (e : exp) : Q e :=
  let fix all (l : list exp) : Forall Q l := match l with [] => Forall_nil _ | x :: l' => Forall_cons x (exp_rec' x) (all l') end in
  let fix allp (l : list (str * exp)) : Forall (fun p => Q (snd p)) l :=
    match l with [] => Forall_nil _ | x :: l' => @Forall_cons _ (fun p => Q (snd p)) x l' (match x return Q (snd x) with (_, e) => exp_rec' e end) (allp l') end in
  match e with
  | XId x => q_id x | XNum n => q_num n | XStr w => q_str w | XNull => q_null | XBool b => q_bool b | XThis => q_this
  | XPar e => q_par (exp_rec' e) | XArr es => q_arr (all es) | XDot e x => q_dot x (exp_rec' e)
  | XIndex e i => q_index (exp_rec' e) (exp_rec' i) | XCall e a => q_call (exp_rec' e) (all a)
  | XPre p e => q_pre p (exp_rec' e) | XUn k e => q_un k (exp_rec' e)
  | XPow e e' => q_pow (exp_rec' e) (exp_rec' e') | XBin k e e' => q_bin k (exp_rec' e) (exp_rec' e')
  | XCond e e1 e2 => q_cond (exp_rec' e) (exp_rec' e1) (exp_rec' e2) | XAssign p e e' => q_assign p (exp_rec' e) (exp_rec' e')
  | XSeq e es => q_seq (exp_rec' e) (all es) | XObj ps => q_obj (allp ps) | XNew e a => q_new (exp_rec' e) (all a)
  | XPost e p => q_post p (exp_rec' e) | XArrow xs e => q_arrow xs (exp_rec' e) | XFun x f => q_fun x (fn_rec' f)
  | XLam xs ds ss => q_lam xs ds ((fix all (l : list stm) : Forall R l := match l with [] => Forall_nil _ | x :: l' => Forall_cons x (stm_rec' x) (all l') end) ss)
  | XClass x sup ms => @q_class x sup ms (match sup as o return opt Q o with Some e => exp_rec' e | None => I end)
      ((fix allm (l : list (str * fn)) : Forall (fun m => F (snd m)) l :=
        match l with [] => Forall_nil _ | m :: l' => @Forall_cons _ (fun m => F (snd m)) m l' (match m return F (snd m) with (_, f) => fn_rec' f end) (allm l') end) ms)
  end
with fn_rec' (f : fn) : F f :=
  match f with Fn xs ds ss => f_fn xs ds ((fix all (l : list stm) : Forall R l := match l with [] => Forall_nil _ | x :: l' => Forall_cons x (stm_rec' x) (all l') end) ss) end
with stm_rec' (s : stm) : R s :=
  let fix all (l : list stm) : Forall R l := match l with [] => Forall_nil _ | x :: l' => Forall_cons x (stm_rec' x) (all l') end in
  let fix alld (l : list (str * option exp)) : Forall (fun d => opt Q (snd d)) l :=
    match l with [] => Forall_nil _ | d :: l' => @Forall_cons _ (fun d => opt Q (snd d)) d l' (match d return opt Q (snd d) with (_, o) => match o return opt Q o with Some e => exp_rec' e | None => I end end) (alld l') end in
  let fix allc (l : list (option exp * list stm)) : Forall (fun a => opt Q (fst a) /\ Forall R (snd a)) l :=
    match l with [] => Forall_nil _ | a :: l' => @Forall_cons _ (fun a => opt Q (fst a) /\ Forall R (snd a)) a l' (match a return opt Q (fst a) /\ Forall R (snd a) with (o, ss) => conj (match o return opt Q o with Some e => exp_rec' e | None => I end) (all ss) end) (allc l') end in
  let fix allm (l : list (str * fn)) : Forall (fun m => F (snd m)) l :=
    match l with [] => Forall_nil _ | m :: l' => @Forall_cons _ (fun m => F (snd m)) m l' (match m return F (snd m) with (_, f) => fn_rec' f end) (allm l') end in
  match s with
  | SExp e => r_exp (exp_rec' e) | SDecl k ds => r_decl k (alld ds) | SEmpty => r_empty | SBlock ss => r_block (all ss)
  | SIf e s s' => @r_if e s s' (exp_rec' e) (stm_rec' s) (match s' as o return opt R o with Some s' => stm_rec' s' | None => I end)
  | SWhile e s => r_while (exp_rec' e) (stm_rec' s) | SDo s e => r_do (stm_rec' s) (exp_rec' e)
  | SFor i t u s => @r_for i t u s (match i as o return opt Q o with Some e => exp_rec' e | None => I end) (match t as o return opt Q o with Some e => exp_rec' e | None => I end) (match u as o return opt Q o with Some e => exp_rec' e | None => I end) (stm_rec' s)
  | SForDecl k x i t u s => @r_fordecl k x i t u s (match i as o return opt Q o with Some e => exp_rec' e | None => I end) (match t as o return opt Q o with Some e => exp_rec' e | None => I end) (match u as o return opt Q o with Some e => exp_rec' e | None => I end) (stm_rec' s)
  | SForIn k x e s => r_forin k x (exp_rec' e) (stm_rec' s) | SForOf k x e s => r_forof k x (exp_rec' e) (stm_rec' s)
  | SContinue x => r_continue x | SBreak x => r_break x | SReturn e => @r_return e (match e as o return opt Q o with Some e => exp_rec' e | None => I end)
  | SThrow e => r_throw (exp_rec' e) | SDebugger => r_debugger
  | STry ss x ss1 ss2 => @r_try ss x ss1 ss2 (all ss) (all ss1) (match ss2 as o return Forall R (opt_list o) with Some l => all l | None => Forall_nil _ end)
  | STryFinally ss ss2 => r_finally (all ss) (all ss2)
  | SSwitch e cs => r_switch (exp_rec' e) (allc cs)
  | SLabel x s => r_label x (stm_rec' s) | SFun x f => r_fun x (fn_rec' f)
  | SClass x sup ms => @r_class x sup ms (match sup as o return opt Q o with Some e => exp_rec' e | None => I end) (allm ms)
  end.
Lemma syntax_ind : (forall e, Q e) /\ (forall f, F f) /\ (forall s, R s).
Proof. split; [exact exp_rec'|split; [exact fn_rec'|exact stm_rec']]. Qed.
End XInd.

(** ** Decimal numbers *)
Lemma uint_digits u : Forall (digit_of 10) (uint_text u).
Proof. induction u; cbn [uint_text]; constructor; auto; eexists; split; try reflexivity; lia. Qed.
Definition dstep (a d : N) : N := a * 10 + d.
Lemma pos_acc u : forall p, positional_acc 10 (Npos p) (uint_text u) = Npos (Pos.of_uint_acc u p).
Proof.
  induction u; intros p; cbn [uint_text positional_acc Pos.of_uint_acc]; auto.
  all: rewrite <- IHu; apply (f_equal (fun a => positional_acc 10 a (uint_text u)));
    match goal with |- context [digit_value ?c] => let v := eval vm_compute in (digit_value c) in change (digit_value c) with v end; cbv iota beta; lia.
Qed.
Lemma pos_uint u : positional_acc 10 0 (uint_text u) = N.of_uint u.
Proof.
  unfold N.of_uint. induction u; cbn [uint_text positional_acc Pos.of_uint]; auto;
    try (rewrite <- pos_acc; vm_compute digit_value; reflexivity).
Qed.
Lemma decimal_value n : positional 10 (decimal n) = n.
Proof. unfold decimal, positional. rewrite pos_uint. apply Unsigned.of_to. Qed.
Lemma decimal_norm n : Decimal.unorm (N.to_uint n) = N.to_uint n.
Proof. rewrite <- Unsigned.to_of, Unsigned.of_to. reflexivity. Qed.
Lemma norm_nzhead u : forall v, Decimal.nzhead u <> Decimal.D0 v.
Proof. induction u; intros v; cbn [Decimal.nzhead]; try discriminate. apply IHu. Qed.
Lemma decimal_plain n : no_leading_zero (decimal n) /\ decimal n <> [].
Proof.
  unfold decimal. pose proof (decimal_norm n) as H. unfold Decimal.unorm in H. pose proof (@norm_nzhead (N.to_uint n)) as G.
  destruct (Decimal.nzhead (N.to_uint n)) eqn:Hz; rewrite <- H; [cbn; split; auto; discriminate|contradiction (G u); auto|..];
    (split; [|discriminate]; cbn [uint_text no_leading_zero]; destruct (uint_text u); auto; vm_compute; discriminate).
Qed.

(** ** Spelling *)
Lemma s2l_length s : length (s2l s) = String.length s.
Proof. induction s; cbn; auto. Qed.
Lemma prefix_space a b r : is_prefix a (b ++ 32 :: r) -> ~ In 32 a -> (length a <= length b)%nat.
Proof.
  intros [x H] Ha. revert b H. induction a as [|c a IH]; intros b H; cbn; [lia|]. destruct b as [|d b]; cbn in *.
  - inversion H; subst. exfalso. apply Ha. auto.
  - inversion H; subst. apply le_n_S. eapply IH; eauto.
Qed.
Lemma punct_no_space p : ~ In 32 (s2l (p_spell p)).
Proof. destruct p; cbv; intuition discriminate. Qed.

Section Print.
Context (E : env).
Hypothesis Hsane : ucd_sane E.
Hypothesis Hspace : ucd_continue E 32 = false.

Lemma punct_spelled p r : ~ never_scanned p -> spelled E (KP p) (s2l (p_spell p)) (32 :: r).
Proof.
  intros H. constructor.
  - split; [auto|split; [eexists; reflexivity|]]. intros q _ Hq. rewrite <- !s2l_length. eapply prefix_space; eauto. apply punct_no_space.
  - destruct p; cbv; (split; [|split; [|split || idtac]]); try (intuition discriminate); try discriminate; intuition discriminate.
  - intros ->. cbv. intros [H1 _]. apply H1. reflexivity.
  - discriminate.
Qed.

Lemma space_ends r : word_ends E (32 :: r).
Proof.
  split; [|discriminate]. intros H. unfold id_continue, ascii_letter, ascii_digit in H. cbn in H.
  assert (G : ucd_continue E 32 = true) by (decompose [or] H; auto; lia). congruence.
Qed.
Definition ordinary (k : tk) : Prop := match k with KRegex _ _ | KTempl _ _ _ _ => False | _ => True end.
Definition sp (w : str) (t : tok) : Prop := (nl t = false /\ ordinary (knd t)) /\ forall r, spelled E (knd t) w (32 :: r).
Definition sps : list str -> list tok -> Prop := Forall2 sp.

Lemma sp_p p : ~ never_scanned p -> sp (s2l (p_spell p)) (P false p).
Proof. intros H. split; [split; [reflexivity|exact I]|]. intros r. apply punct_spelled; auto. Qed.
Lemma sp_w w : In w reserved_words -> sp (s2l w) (W false w).
Proof. intros H. split; [split; [reflexivity|exact I]|]. intros r. constructor; auto. apply space_ends. Qed.
Lemma sp_i x : writable E x -> ~ reserved x -> ~ literal_word x -> sp x (Id false x).
Proof. intros [H1 H2] H3 H4. split; [split; [reflexivity|exact I]|]. intros r. constructor; auto. apply space_ends. Qed.
Lemma sp_num n : sp (decimal n) (T false (KNum (mkNum n 0))).
Proof.
  split; [split; [reflexivity|exact I]|]. intros r. destruct (decimal_plain n) as [G1 G2].
  pose proof (@sl_decimal E (decimal n) [] [] [] 0%Z (32 :: r)) as H. rewrite !List.app_nil_r, decimal_value in H. cbn in H. apply H; auto.
  - apply uint_digits.
  - constructor.
  - constructor.
  - split; [|split]; [unfold ascii_letter|unfold ascii_digit|]; cbv; intuition discriminate.
Qed.
Lemma sp_str w : sp (quoted 0x22 w) (T false (KStr w)).
Proof. split; [split; [reflexivity|exact I]|]. intros r. constructor. auto. Qed.

Lemma space_trivia r : trivia [32] r.
Proof. apply tv_space; [unfold white_space; cbn; tauto|apply tv_nil]. Qed.
Lemma no_line k l r : ordinary k -> spelled E k l r -> false = true <-> Exists line_terminator ([32] ++ l).
Proof.
  intros Hk H. assert (F : Forall (fun c => ~ line_terminator c) l) by (eapply spelled_lt; [exact H|]; destruct k; try discriminate; contradiction).
  split; [discriminate|]. intros G. rewrite Exists_exists in G. destruct G as (c & [<-|Hc] & G).
  - unfold line_terminator, LF, CR in G. intuition discriminate.
  - rewrite Forall_forall in F. destruct (F c Hc G).
Qed.
Lemma sps_ok k ws ts : sps ws ts -> regexp_ok k (ts ++ [T false KEof]).
Proof. intros [|w [b k0] ws0 ts0 [[_ Hk] _] _]; cbn; [discriminate|]. cbn in Hk. unfold is_regexp. cbn [knd]. destruct k0; try discriminate; contradiction. Qed.
Lemma sps_lay ws ts : sps ws ts -> lay E (ts ++ [T false KEof]) (32 :: spaced ws).
Proof.
  induction 1 as [|w t ws ts [[H1 Hk] H2] H IH].
  - apply (@lay_cons E false KEof [32] [] [] []); [apply space_trivia|apply (@no_line KEof [] [] I); constructor|constructor|exact I|constructor].
  - destruct t as [b k]. cbn in H1, H2. subst b. change (32 :: spaced (w :: ws)) with ([32] ++ (w ++ s2l " ") ++ spaced ws).
    rewrite <- app_assoc. apply lay_cons; auto.
    + apply space_trivia.
    + eapply (@no_line k w (32 :: spaced ws)); [exact Hk|apply H2].
    + apply H2.
    + eapply sps_ok; eauto.
Qed.
Lemma sps_source ws ts : ws <> [] -> sps ws ts -> source_of E (ts ++ [T false KEof]) (spaced ws).
Proof.
  intros Hw H. destruct H as [|w t ws ts [[H1 Hk] H2] H]; [contradiction|]. destruct t as [b k]. cbn in H1, H2. subst b.
  change (spaced (w :: ws)) with ([] ++ (w ++ s2l " ") ++ spaced ws). rewrite <- app_assoc. cbn [app].
  apply (@src_of E k [] w (32 :: spaced ws)); auto using tv_nil; [eapply sps_ok; eauto|]. apply sps_lay; auto.
Qed.

(** ** Tokens *)
Definition name_tk (x : str) : tok :=
  match find (fun w => str_eqb x (s2l w)) reserved_words with Some w => W false w | None => Id false x end.
Fixpoint tcommas (l : list (list tok)) : list tok :=
  match l with [] => [] | [x] => x | x :: l' => x ++ P false Comma :: tcommas l' end.
Definition tmaybe {A} (f : A -> list tok) (o : option A) : list tok := match o with Some x => f x | None => [] end.
Definition kind_tok (k : dkind) : tok := match k with DVar => W false "var" | DLet => Id false (s2l "let") | DConst => W false "const" end.
Definition dtoks (ds : list str) : list tok := flat_map (fun w => [T false (KStr w); P false Semicolon]) ds.
Definition ptoks (xs : list str) : list tok := P false LParen :: tcommas (map (fun x => [Id false x]) xs) ++ [P false RParen].
Definition braced (l : list tok) : list tok := P false LBrace :: l ++ [P false RBrace].
Fixpoint toks (e : exp) : list tok :=
  match e with
  | XId x => [Id false x]
  | XNum n => [T false (KNum (mkNum n 0))]
  | XStr w => [T false (KStr w)]
  | XNull => [T false KNull]
  | XBool b => [T false (KBool b)]
  | XThis => [W false "this"]
  | XPar e => P false LParen :: toks e ++ [P false RParen]
  | XArr es => P false LBracket :: tcommas (map toks es) ++ [P false RBracket]
  | XDot e x => toks e ++ [P false Dot; name_tk x]
  | XIndex e i => toks e ++ P false LBracket :: toks i ++ [P false RBracket]
  | XCall e args => toks e ++ P false LParen :: tcommas (map toks args) ++ [P false RParen]
  | XPre p e => P false p :: toks e
  | XUn k e => T false k :: toks e
  | XPow e e' => toks e ++ P false Pow :: toks e'
  | XBin k e e' => toks e ++ T false k :: toks e'
  | XCond e e1 e2 => toks e ++ P false Question :: toks e1 ++ P false Colon :: toks e2
  | XAssign p e e' => toks e ++ P false p :: toks e'
  | XSeq e es => P false LParen :: tcommas (toks e :: map toks es) ++ [P false RParen]
  | XObj ps => P false LBrace :: tcommas (map (fun p => name_tk (fst p) :: P false Colon :: toks (snd p)) ps) ++ [P false RBrace]
  | XNew e args => W false "new" :: toks e ++ P false LParen :: tcommas (map toks args) ++ [P false RParen]
  | XPost e p => toks e ++ [P false p]
  | XArrow xs e => P false LParen :: tcommas (map (fun x => [Id false x]) xs) ++ P false RParen :: P false FatArrow :: toks e
  | XFun x f => W false "function" :: tmaybe (fun x => [Id false x]) x ++ ftoks f
  | XLam xs ds ss => P false LParen :: tcommas (map (fun x => [Id false x]) xs) ++ P false RParen :: P false FatArrow :: braced (dtoks ds ++ flat_map stoks ss)
  | XClass x sup ms => W false "class" :: Id false x :: tmaybe (fun e => W false "extends" :: toks e) sup ++
      P false LBrace :: flat_map (fun m => name_tk (fst m) :: ftoks (snd m)) ms ++ [P false RBrace]
  end
with ftoks (f : fn) : list tok :=
  match f with Fn xs ds ss => ptoks xs ++ braced (dtoks ds ++ flat_map stoks ss) end
with stoks (s : stm) : list tok :=
  match s with
  | SExp e => toks e ++ [P false Semicolon]
  | SDecl k ds => kind_tok k :: tcommas (map (fun d => Id false (fst d) :: tmaybe (fun e => P false Assign :: toks e) (snd d)) ds) ++ [P false Semicolon]
  | SEmpty => [P false Semicolon]
  | SBlock ss => braced (flat_map stoks ss)
  | SIf e s s' => W false "if" :: P false LParen :: toks e ++ P false RParen :: stoks s ++ tmaybe (fun s' => W false "else" :: stoks s') s'
  | SWhile e s => W false "while" :: P false LParen :: toks e ++ P false RParen :: stoks s
  | SDo s e => W false "do" :: stoks s ++ W false "while" :: P false LParen :: toks e ++ [P false RParen; P false Semicolon]
  | SFor i t u s => W false "for" :: P false LParen :: tmaybe toks i ++
      P false Semicolon :: tmaybe toks t ++ P false Semicolon :: tmaybe toks u ++ P false RParen :: stoks s
  | SForDecl k x i t u s => W false "for" :: P false LParen :: kind_tok k :: (Id false x :: tmaybe (fun e => P false Assign :: toks e) i) ++
      P false Semicolon :: tmaybe toks t ++ P false Semicolon :: tmaybe toks u ++ P false RParen :: stoks s
  | SForIn k x e s => W false "for" :: P false LParen :: kind_tok k :: Id false x :: W false "in" :: toks e ++ P false RParen :: stoks s
  | SForOf k x e s => W false "for" :: P false LParen :: kind_tok k :: Id false x :: Id false (s2l "of") :: toks e ++ P false RParen :: stoks s
  | SContinue x => W false "continue" :: tmaybe (fun x => [Id false x]) x ++ [P false Semicolon]
  | SBreak x => W false "break" :: tmaybe (fun x => [Id false x]) x ++ [P false Semicolon]
  | SReturn e => W false "return" :: tmaybe toks e ++ [P false Semicolon]
  | SThrow e => W false "throw" :: toks e ++ [P false Semicolon]
  | SDebugger => [W false "debugger"; P false Semicolon]
  | STry ss x ss1 ss2 => W false "try" :: braced (flat_map stoks ss) ++
      W false "catch" :: tmaybe (fun x => [P false LParen; Id false x; P false RParen]) x ++ braced (flat_map stoks ss1) ++
      tmaybe (fun ss2 => W false "finally" :: braced (flat_map stoks ss2)) ss2
  | STryFinally ss ss2 => W false "try" :: braced (flat_map stoks ss) ++ W false "finally" :: braced (flat_map stoks ss2)
  | SSwitch e cs => W false "switch" :: P false LParen :: toks e ++ P false RParen :: P false LBrace ::
      flat_map (fun a => match fst a with Some e => W false "case" :: toks e | None => [W false "default"] end ++
        P false Colon :: flat_map stoks (snd a)) cs ++ [P false RBrace]
  | SLabel x s => Id false x :: P false Colon :: stoks s
  | SFun x f => W false "function" :: Id false x :: ftoks f
  | SClass x sup ms => W false "class" :: Id false x :: tmaybe (fun e => W false "extends" :: toks e) sup ++
      P false LBrace :: flat_map (fun m => name_tk (fst m) :: ftoks (snd m)) ms ++ [P false RBrace]
  end.
Lemma name_tk_ok x : name_tok (name_tk x) x.
Proof.
  unfold name_tk. destruct (find _ _) as [w|] eqn:H; [|constructor]. apply find_some in H as [H1 H2]. apply str_eqb_eq in H2. subst. constructor; auto.
Qed.
Lemma sp_prop x : a_prop E x -> sp x (name_tk x).
Proof.
  intros [H1 H2]. unfold name_tk. destruct (find _ _) as [w|] eqn:H.
  - apply find_some in H as [H3 H4]. apply str_eqb_eq in H4. subst. apply sp_w; auto.
  - apply sp_i; auto. intros (w & Hw & ->). apply find_none with (x := w) in H; auto. assert (str_eqb (s2l w) (s2l w) = true) by (apply str_eqb_eq; auto). congruence.
Qed.
Lemma sp_name x : a_name E x -> sp x (Id false x).
Proof. intros (H1 & H2 & H3). apply sp_i; auto. apply H2. Qed.
Lemma sp_op k : level true k <> 0 -> sp (op_text k) (T false k).
Proof.
  intros H. destruct k; cbn in H; try congruence; cbn [op_text].
  - apply sp_p. intros G. unfold never_scanned in G. destruct G as [->|[->|[->| ->]]]; contradiction H; reflexivity.
  - apply sp_w. rewrite Bool.andb_true_r in H. destruct (String.eqb_spec w "instanceof"); [subst; vm_compute; tauto|].
    destruct (String.eqb_spec w "in"); [subst; vm_compute; tauto|]. congruence.
Qed.
Lemma sp_unop k : unary_op k -> sp (op_text k) (T false k).
Proof.
  unfold unary_op. cbn [In]. intros H. decompose [or] H; try contradiction; subst k; cbn [op_text]; (apply sp_p || apply sp_w);
    unfold never_scanned; try (intuition discriminate); vm_compute; tauto.
Qed.
Lemma sp_null : sp (s2l "null") (T false KNull).
Proof. split; [split; [reflexivity|exact I]|]. intros r. constructor. apply space_ends. Qed.
Lemma sp_bool (b : bool) : sp (s2l (if b then "true" else "false")%string) (T false (KBool b)).
Proof. split; [split; [reflexivity|exact I]|]. intros r. destruct b; constructor; apply space_ends. Qed.
Lemma sp_kw (w : string) : existsb (String.eqb w) reserved_words = true -> sp (s2l w) (W false w).
Proof. intros H. apply sp_w. apply existsb_exists in H as (x & Hx & H). apply String.eqb_eq in H. subst; auto. Qed.
Lemma sp_comma : sp (s2l ",") (P false Comma).
Proof. apply sp_p. unfold never_scanned; intuition discriminate. Qed.
Lemma lower_word (w : string) : w <> EmptyString -> forallb (fun c => (0x61 <=? c) && (c <=? 0x7a)) (s2l w) = true -> writable E (s2l w).
Proof.
  intros H0 H. assert (F : Forall (fun c => 0x61 <= c <= 0x7a) (s2l w)).
  { apply Forall_forall. intros c Hc. rewrite forallb_forall in H. specialize (H c Hc). lia. }
  split.
  - destruct (s2l w) as [|c v] eqn:Hw; [destruct w; [congruence|discriminate]|]. exists c, v. split; auto. inversion F; subst.
    split; [unfold id_start, ascii_letter; cbn; lia|]. split.
    + eapply Forall_impl; [|eauto]. cbn. intros a Ha. unfold id_continue, ascii_letter. cbn. lia.
    + eapply Forall_impl; [|exact F]. cbn. unfold backslash. intros a Ha. cbn. lia.
  - eapply Forall_impl; [|exact F]. cbn. unfold line_terminator, LF, CR. cbn. intros a Ha. lia.
Qed.
Lemma sp_word (w : string) : w <> EmptyString -> forallb (fun c => (0x61 <=? c) && (c <=? 0x7a)) (s2l w) = true ->
  existsb (String.eqb w) (["null"; "true"; "false"]%string ++ reserved_words) = false -> sp (s2l w) (Id false (s2l w)).
Proof.
  intros H0 H1 H2. apply sp_i; [apply lower_word; auto|..].
  - intros (x & Hx & Hw). apply s2l_inj in Hw. subst x. rewrite existsb_app in H2. apply Bool.orb_false_iff in H2 as [_ H2].
    assert (G : existsb (String.eqb w) reserved_words = true) by (apply existsb_exists; exists w; split; auto; apply String.eqb_refl). congruence.
  - unfold literal_word. cbn [In]. intros G. rewrite existsb_app in H2. apply Bool.orb_false_iff in H2 as [H2 _].
    decompose [or] G; try contradiction; match goal with K : s2l _ = s2l w |- _ => apply s2l_inj in K; subst w; discriminate end.
Qed.
Lemma sp_kind k : sp (s2l (kind_text k)) (kind_tok k).
Proof. destruct k; cbn [kind_text kind_tok]; [apply sp_kw; reflexivity|apply sp_word; [discriminate|reflexivity|reflexivity]|apply sp_kw; reflexivity]. Qed.

Lemma all_Forall A (Q : A -> Prop) l : all Q l -> Forall Q l.
Proof. induction l; cbn; [constructor|]. intros [? ?]. constructor; auto. Qed.
Lemma Forall_all A (Q : A -> Prop) l : Forall Q l -> all Q l.
Proof. induction 1; cbn; auto. Qed.
Lemma all_mp A (Q R S : A -> Prop) l : (forall x, Q x -> R x -> S x) -> Forall Q l -> all R l -> Forall S l.
Proof. intros H. induction 1; cbn; [constructor|]. intros [? ?]. constructor; auto. Qed.
Lemma sps_commas A (f : A -> list str) (g : A -> list tok) l : Forall (fun a => sps (f a) (g a)) l -> sps (commas (map f l)) (tcommas (map g l)).
Proof.
  induction 1 as [|x l Hx Hl IH]; [constructor|]. destruct l as [|y l]; [exact Hx|]. cbn [map commas tcommas] in *.
  apply Forall2_app; auto. constructor; auto using sp_comma.
Qed.
Lemma sps_flat A (f : A -> list str) (g : A -> list tok) l : Forall (fun a => sps (f a) (g a)) l -> sps (flat_map f l) (flat_map g l).
Proof. induction 1; cbn [flat_map]; [constructor|]. apply Forall2_app; auto. Qed.
Lemma sps_maybe A (f : A -> list str) (g : A -> list tok) o : opt (fun a => sps (f a) (g a)) o -> sps (maybe f o) (tmaybe g o).
Proof. destruct o; cbn; auto. constructor. Qed.
Lemma sps_names xs : all (a_name E) xs -> sps (commas (map (fun x => [x]) xs)) (tcommas (map (fun x => [Id false x]) xs)).
Proof. intros H. apply sps_commas. apply all_Forall in H. eapply Forall_impl; [|exact H]. cbn. intros x Hx. constructor; [|constructor]. apply sp_name; auto. Qed.
Lemma sps_dirs ds : sps (flat_map (fun w => [quoted 0x22 w; s2l ";"]) ds) (dtoks ds).
Proof. apply sps_flat. induction ds; constructor; auto. constructor; [apply sp_str|]. constructor; [|constructor]. apply sp_p; unfold never_scanned; intuition discriminate. Qed.
Lemma sps_cons w t ws ts : sp w t -> sps ws ts -> sps (w :: ws) (t :: ts).
Proof. constructor; auto. Qed.
Lemma sps_app ws ts ws' ts' : sps ws ts -> sps ws' ts' -> sps (ws ++ ws') (ts ++ ts').
Proof. apply Forall2_app. Qed.
Lemma opt_mp A (Q R S : A -> Prop) o : (forall x, Q x -> R x -> S x) -> opt Q o -> opt R o -> opt S o.
Proof. destruct o; cbn; auto. Qed.
Ltac sp1 := first [apply sp_num|apply sp_str|apply sp_null|apply sp_bool|apply sp_kind|apply sp_name; assumption|apply sp_prop; assumption|apply sp_op; assumption|apply sp_unop; assumption
  | apply sp_kw; reflexivity | apply sp_word; [discriminate|reflexivity|reflexivity] | apply sp_p; unfold never_scanned; intuition discriminate].
Ltac spx := repeat (first [apply sps_app | apply sps_cons; [try sp1|] | apply Forall2_nil | apply sps_dirs | apply sps_names; assumption]).
Lemma sps_all : (forall e, proper E e -> sps (words e) (toks e)) /\ (forall f, fproper E f -> sps (fwords f) (ftoks f)) /\
  (forall s c, sproper E c s -> sps (swords s) (stoks s)).
Proof.
  assert (Hp : forall p, update_op p -> sp (s2l (p_spell p)) (P false p)) by (intros p [-> | ->]; sp1).
  assert (He : forall es, Forall (fun e => proper E e -> sps (words e) (toks e)) es -> all (proper E) es -> Forall (fun e => sps (words e) (toks e)) es)
    by (intros es H1 H2; eapply all_mp; [|exact H1|exact H2]; auto).
  assert (Hs : forall c ss, Forall (fun s => forall c, sproper E c s -> sps (swords s) (stoks s)) ss -> all (sproper E c) ss -> sps (flat_map swords ss) (flat_map stoks ss))
    by (intros c ss H1 H2; apply sps_flat; eapply all_mp; [|exact H1|exact H2]; cbn; eauto).
  assert (Ho : forall e, opt (fun e => proper E e -> sps (words e) (toks e)) e -> opt (proper E) e -> opt (fun e => sps (words e) (toks e)) e)
    by (intros e H1 H2; eapply opt_mp; [|exact H1|exact H2]; auto).
  apply syntax_ind; intros; cbn [proper fproper sproper] in *; repeat match goal with H : _ /\ _ |- _ => destruct H end;
    cbn [words toks fwords ftoks swords stoks]; unfold braced, ptoks; repeat (rewrite <- ?app_assoc; cbn [app]); spx; auto.
  all: try (apply sps_maybe; cbn; apply Ho; assumption).
  all: try (eapply Hs; eassumption).
  all: eauto.
  - apply sps_commas; auto.
  - apply sps_commas; auto.
  - apply sp_p. intros G. unfold never_scanned in G. unfold assign_op in H1. destruct G as [->|[->|[->| ->]]]; cbn in H1; intuition discriminate.
  - apply (@sps_commas _ words toks (e :: es)). constructor; auto.
  - apply sps_commas. eapply all_mp; [|exact H|exact H0]. cbn. intros [x e] G [G1 G2]. spx. auto.
  - apply sps_commas; auto.
  - apply sps_maybe. destruct x; cbn in *; auto. spx.
  - apply sps_maybe. destruct sup; cbn in *; auto. spx; auto.
  - apply sps_flat. eapply all_mp; [|exact H0|eassumption]. cbn. intros [o ss] G1 (G2 & G3 & G4). cbn in *. spx; eauto.
  - apply sps_commas. eapply all_mp; [|exact H|exact H1]. cbn. intros [x o] G (G1 & G2 & _). cbn in *. spx. apply sps_maybe. destruct o; cbn in *; auto. spx; auto.
  - apply sps_maybe. destruct s'; cbn in *; auto. spx; eapply H1; apply H5.
  - apply sps_maybe. destruct i; cbn in *; auto. spx; auto.
  - apply sps_maybe. destruct x; cbn in *; auto. spx; auto.
  - apply sps_maybe. destruct x; cbn in *; auto. spx; auto.
  - apply sps_maybe. destruct x; cbn in *; auto. spx; auto.
  - apply sps_maybe. destruct ss2; cbn in *; auto. spx; eauto.
  - apply sps_flat. eapply all_mp; [|exact H0|eassumption]. cbn. intros [o ss] [G1 G2] [G3 G4]. cbn in *. spx; eauto. destruct o; cbn in *; spx; auto.
  - apply sps_maybe. destruct sup; cbn in *; auto. spx; auto.
  - apply sps_flat. eapply all_mp; [|exact H0|eassumption]. cbn. intros [o ss] G1 (G2 & G3 & G4). cbn in *. spx; eauto.
Qed.
Lemma sps_exp e : proper E e -> sps (words e) (toks e).
Proof. apply sps_all. Qed.

(** ** Levels *)
Definition quiet (M : mode) : Prop := m_yield M = NoYield.
Lemma quiet_yield M t : quiet M -> not_yield M t.
Proof. intros H G. unfold in_generator in G. rewrite H in G. discriminate. Qed.
Section Modes.
Context (M : mode) (Hq : quiet M) (inn : bool).
Definition lev (q : N) (l : list tok) (nt : tok) (e : node) : Prop :=
  match q with
  | 0 => gr E M (Assignment inn) l nt e
  | 12 => gr E M (Exp false) l nt e
  | 13 => gr E M (Unary false) l nt e
  | 14 => gr E M (Update false) l nt e
  | 15 => gr E M Member l nt e \/ gr E M (Call false) l nt e
  | _ => gr E M (Bin inn q false) l nt e
  end.
Lemma left_lev l nt e : lev 15 l nt e -> gr E M (Left false) l nt e.
Proof. intros [H|H]; [apply g_left_member|apply g_left_call]; auto. Qed.
Lemma lev_bin q l nt e : 1 <= q -> q <= 12 -> lev q l nt e -> gr E M (Bin inn q false) l nt e.
Proof.
  intros H1 H2 H. assert (K : q = 12 \/ q < 12) by lia. destruct K as [->|K]; [apply g_bin_exp; auto|].
  assert (G : q = 1 \/ q = 2 \/ q = 3 \/ q = 4 \/ q = 5 \/ q = 6 \/ q = 7 \/ q = 8 \/ q = 9 \/ q = 10 \/ q = 11) by lia. decompose [or] G; subst q; exact H.
Qed.
Lemma bin_lev q l nt e : 1 <= q -> q <= 11 -> gr E M (Bin inn q false) l nt e -> lev q l nt e.
Proof.
  intros H1 H2 H. assert (G : q = 1 \/ q = 2 \/ q = 3 \/ q = 4 \/ q = 5 \/ q = 6 \/ q = 7 \/ q = 8 \/ q = 9 \/ q = 10 \/ q = 11) by lia. decompose [or] G; subst q; exact H.
Qed.
Lemma lev_down1 q l nt e : q < 15 -> lev (q + 1) l nt e -> lev q l nt e.
Proof.
  intros H0 H. assert (K : q = 14 \/ q = 13 \/ q = 12 \/ q = 11 \/ q = 0 \/ 1 <= q /\ q <= 10) by lia.
  destruct K as [->|[->|[->|[->|[->|[K1 K2]]]]]].
  - apply g_update_left, left_lev; auto.
  - apply g_unary_update; auto.
  - apply g_exp_unary; auto.
  - apply bin_lev; try lia. apply g_bin_up; [lia|]. apply g_bin_exp; auto.
  - apply g_assign_cond; [apply quiet_yield; auto|]. eapply g_cond_bin. exact H.
  - apply bin_lev; try lia. apply g_bin_up; auto. apply lev_bin; try lia. auto.
Qed.
Lemma lev_down q q' l nt e : q' <= q -> q <= 15 -> lev q l nt e -> lev q' l nt e.
Proof.
  intros H1 H2 H. remember (N.to_nat (q - q')) as n eqn:Hn. revert q' H1 Hn.
  induction n as [|n IH]; intros q' H1 Hn; [assert (q = q') by lia; subst; auto|].
  apply lev_down1; [lia|]. apply IH; lia.
Qed.
Lemma update_assign lone l nt e : gr E M (Update lone) l nt e -> gr E M (Assignment inn) l nt e.
Proof.
  intros H. apply g_assign_cond; [apply quiet_yield; auto|]. apply g_cond_bin with (lone := lone).
  assert (G : forall n, (n <= 11)%nat -> gr E M (Bin inn (12 - N.of_nat n) lone) l nt e).
  { induction n as [|n IH]; intros Hn.
    - apply g_bin_exp, g_exp_unary, g_unary_update. auto.
    - apply g_bin_up; [lia|]. replace (12 - N.of_nat (Datatypes.S n) + 1) with (12 - N.of_nat n) by lia. apply IH. lia. }
  apply (G 11%nat). lia.
Qed.
End Modes.

(** ** Phrases *)
Definition plain_next (nt : tok) : Prop := is_p nt FatArrow || is_regexp nt = false.
Lemma plain_arrow nt : plain_next nt -> is_p nt FatArrow = false.
Proof. intros H. apply Bool.orb_false_iff in H. apply H. Qed.
Lemma plain_regexp nt : plain_next nt -> is_regexp nt = false.
Proof. intros H. apply Bool.orb_false_iff in H. apply H. Qed.
Lemma op_plain b k : level true k <> 0 -> plain_next (T b k).
Proof. intros H. unfold plain_next, is_p, is_regexp. destruct k; auto; [|contradiction H; reflexivity]. destruct p; try reflexivity. contradiction H. reflexivity. Qed.
Lemma level_le k : level true k <= 11.
Proof. destruct k; cbn; try lia; [destruct p; lia|]. destruct (String.eqb _ _); [lia|]. destruct (_ && _); lia. Qed.
Lemma level_inn inn k : (inn = false -> is_in k = false) -> level inn k = level true k.
Proof. destruct inn; auto. intros H. specialize (H eq_refl). destruct k; auto. cbn in *. rewrite H. cbn. destruct (String.eqb w "instanceof"); auto. Qed.
Lemma at_least_tight q e : q <= 15 -> q <= tight (at_least q e).
Proof. intros Hq. unfold at_least. destruct (tight e <? q) eqn:H; cbn [tight]; [lia|]. apply N.ltb_ge in H. auto. Qed.
Lemma tight_le e : tight e <= 15.
Proof. destruct e; cbn; try lia. pose proof (level_le k). lia. Qed.
Lemma tight_assignable e : assignable e -> tight e = 15.
Proof. destruct e; cbn; auto; contradiction. Qed.
Lemma target_tree e : assignable e -> target (tree_of E e) = true.
Proof.
  destruct e; cbn; auto; try contradiction. intros [H1 H2]. apply Bool.negb_true_iff, Bool.orb_false_iff. split; apply str_eqb_false; auto.
Qed.
Lemma sep_slash b p : p <> Slash -> p <> SlashAssign -> no_slash (P b p).
Proof. intros H1 H2. split; destruct p; reflexivity || congruence. Qed.

(** The first token. *)
Lemma next_app l l' t : l <> [] -> next (l ++ l') t = next l t.
Proof. destruct l; [contradiction|reflexivity]. Qed.
Lemma toks_some e : toks e <> [].
Proof. revert e. apply (@exp_rec' (fun e => toks e <> []) (fun _ => True) (fun _ => True)); intros; cbn [toks]; auto; try discriminate; intros G; apply app_eq_nil in G as [G _]; auto. Qed.
Definition first_words : list string := ["this"; "delete"; "void"; "typeof"; "new"]%string.
Lemma begins_sub (w w' : exp -> bool) e : (forall e, w e = true -> w' e = true) -> begins w' e = false -> begins w e = false.
Proof.
  intros Hw. revert e. apply (@exp_rec' (fun e => begins w' e = false -> begins w e = false) (fun _ => True) (fun _ => True)); intros; cbn [begins] in *; auto;
    repeat match goal with H : _ || _ = false |- _ => apply Bool.orb_false_iff in H as [? ?] end; apply Bool.orb_false_iff; split; auto.
  all: match goal with |- ?v ?e = false => destruct (v e) eqn:G; auto; apply Hw in G; congruence end.
Qed.
Definition first_ok (e : exp) : Prop := forall nt, proper E e ->
  (brace_first e = false -> is_p (next (toks e) nt) LBrace = false) /\
  (odd_first e = false -> (forall w, is_w (next (toks e) nt) w = true -> In w first_words) /\ forall b w, next (toks e) nt <> T b (KStr w)) /\
  knd (next (toks e) nt) <> KI (s2l "async").
Lemma w_first b v w : is_w (W b v) w = true -> w = v.
Proof. unfold is_w. cbn [knd]. intros H. apply String.eqb_eq in H. auto. Qed.
Lemma first_tok e : first_ok e.
Proof.
  revert e.
  apply (@exp_rec' first_ok (fun _ => True) (fun _ => True)); unfold first_ok, brace_first, odd_first; intros; cbn [proper] in *; auto; repeat match goal with H : _ /\ _ |- _ => destruct H end;
    cbn [toks begins]; try (rewrite next_app by apply toks_some); cbn [orb];
    try (match goal with IH : forall nt, proper E ?e -> _ |- context [next (toks ?e) ?nt] => apply (IH nt); assumption end);
    cbn [next hd]; try (split; [reflexivity || discriminate|split; [intros _; split; [unfold is_w; cbn; intros ?; discriminate|discriminate]|discriminate]]).
  all: try (split; [reflexivity || discriminate|split; [|discriminate]]).
  all: try (cbn; discriminate).
  all: try (intros _; split; [|discriminate]; intros w Hw; apply w_first in Hw; subst w; vm_compute; tauto).
  - split; [reflexivity|split; [intros _; split; [intros ?; discriminate|discriminate]|]]. cbn. intros Hc. injection Hc as ->. destruct H as (_ & H & _). eapply ident_async; eauto.
  - destruct H0 as [-> | ->]; (split; [reflexivity|split; [intros _; split; [intros ?; discriminate|discriminate]|discriminate]]).
  - unfold unary_op in H0. cbn in H0. decompose [or] H0; try contradiction; subst k; (split; [reflexivity|split; [|discriminate]]);
      (intros _; split; [|discriminate]; intros w Hw; try discriminate; apply w_first in Hw; subst w; vm_compute; tauto).
Qed.
Definition phr (e : exp) : Prop := forall M inn nt, quiet M -> proper E e -> fits e -> (inn = false -> open_in e = false) ->
  plain_next nt -> (tight e = 0 -> no_slash nt) ->
  lev M inn (tight e) (toks e) nt (tree_of E e) /\ (newable e = true -> gr E M Member (toks e) nt (tree_of E e)).
Definition fbody (f : fn) : list tok := match f with Fn xs ds ss => braced (dtoks ds ++ flat_map stoks ss) end.
Definition fnames (f : fn) : list str := match f with Fn xs _ _ => xs end.
Definition fphr (f : fn) : Prop := forall M nt, quiet M -> fproper E f -> ffits f -> gr E M FunBody (fbody f) nt (ftree E f).
Definition stm_next (s : stm) (nt : tok) : Prop := is_w nt "finally" = false /\ (open_if s = true -> is_w nt "else" = false).
Definition sphr (s : stm) : Prop := forall M c nt, quiet M -> sproper E c s -> sfits s -> stm_next s nt ->
  (plain_stm s -> gr E M (Stmt c) (stoks s) nt (stree E s)) /\ gr E M (Item c) (stoks s) nt (stree E s).

Section AtMode.
Context (M : mode) (Hq : quiet M).
Lemma down_to inn q e nt : phr e -> proper E e -> fits e -> (inn = false -> open_in e = false) -> plain_next nt -> q <= tight e -> 0 < q \/ no_slash nt ->
  lev M inn q (toks e) nt (tree_of E e).
Proof. intros H1 H2 H3 H4 H5 H6 H7. eapply lev_down; [auto|exact H6|apply tight_le|]. apply H1; auto. intros H0. destruct H7; auto. lia. Qed.
Lemma to_assign inn e nt : phr e -> proper E e -> fits e -> (inn = false -> open_in e = false) -> plain_next nt -> no_slash nt -> gr E M (Assignment inn) (toks e) nt (tree_of E e).
Proof. intros. apply (@down_to inn 0); auto. lia. Qed.
Lemma to_expr e nt : phr e -> proper E e -> fits e -> plain_next nt -> no_slash nt -> gr E M (Expr true) (toks e) nt (tree_of E e).
Proof. intros. apply g_expr_one, g_exprs_one, to_assign; auto. discriminate. Qed.
Lemma to_opt e nt : opt phr e -> opt (proper E) e -> opt fits e -> plain_next nt -> no_slash nt -> gr E M OptExpr (tmaybe toks e) nt (option_map (tree_of E) e).
Proof. destruct e; cbn; intros; [apply g_opt_some, to_expr; auto|apply g_opt_none]. Qed.
Lemma to_left e nt : phr e -> proper E e -> fits e -> 15 <= tight e -> plain_next nt -> gr E M (Left false) (toks e) nt (tree_of E e).
Proof. intros. apply left_lev with (inn := true), down_to; auto; [discriminate|lia]. Qed.
Lemma phr_all (es : list exp) : Forall phr es -> all (proper E) es -> all fits es ->
  Forall (fun e => forall nt, plain_next nt -> no_slash nt -> gr E M (Assignment true) (toks e) nt (tree_of E e)) es.
Proof.
  induction 1 as [|e l H Hl IH]; cbn; [constructor|]. intros [H1 H2] [H3 H4]. constructor; auto. intros nt Hnt Hs. apply to_assign; auto. discriminate.
Qed.
Notation asg es := (Forall (fun e => forall nt, plain_next nt -> no_slash nt -> gr E M (Assignment true) (toks e) nt (tree_of E e)) es).
Ltac ns := first [apply sep_slash; discriminate].
Lemma elems_phr b es : asg es -> gr E M Elems (tcommas (map toks es)) (P b RBracket) (map (fun e => Some (AE_Expr (tree_of E e))) es).
Proof.
  induction 1 as [|e l H Hl IH]; [apply g_elems_nil|]. destruct l as [|e' l].
  - apply g_elems_last. apply H; [reflexivity|ns].
  - cbn [map tcommas] in *. apply g_elems_more; auto. apply H; [reflexivity|ns].
Qed.
Lemma args_phr b es : asg es -> gr E M ArgList (tcommas (map toks es)) (P b RParen) (map (fun e => AR_Expr (tree_of E e)) es).
Proof.
  induction 1 as [|e l H Hl IH]; [apply g_arglist_nil|]. destruct l as [|e' l].
  - apply g_arglist_last. apply H; [reflexivity|ns].
  - cbn [map tcommas] in *. apply g_arglist_more; auto. apply H; [reflexivity|ns].
Qed.
Lemma exprs_phr b e es : asg (e :: es) -> gr E M (Exprs true) (tcommas (map toks (e :: es))) (P b RParen) (map (tree_of E) (e :: es)).
Proof.
  revert e. induction es as [|e' es IH]; intros e H; inversion H; subst.
  - apply g_exprs_one. apply H2; [reflexivity|ns].
  - cbn [map tcommas] in *. apply g_exprs_more; auto. apply H2; [reflexivity|ns].
Qed.
Lemma props_phr b (ps : list (str * exp)) : Forall (fun p => forall nt, plain_next nt -> no_slash nt -> gr E M (Assignment true) (toks (snd p)) nt (tree_of E (snd p))) ps ->
  gr E M Props (tcommas (map (fun p => name_tk (fst p) :: P false Colon :: toks (snd p)) ps)) (P b RBrace)
    (map (fun p => OE_Prop (key_tree (fst p)) false (Some (PV_Expr (tree_of E (snd p)))) "init" false false nowhere) ps).
Proof.
  assert (K : forall x, key_before x (P false Colon)) by (intros x; right; split; reflexivity).
  induction 1 as [|e l H Hl IH]; [apply g_props_nil|]. destruct l as [|e' l].
  - apply g_props_last. apply g_prop_init; auto using name_tk_ok. apply H; [reflexivity|ns].
  - cbn [map tcommas] in *. apply (@g_props_more E M false (name_tk (fst e) :: P false Colon :: toks (snd e))); auto. apply g_prop_init; auto using name_tk_ok. apply H; [reflexivity|ns].
Qed.
Lemma arrow_phr b xs : Forall (a_name E) xs -> gr E M ArrowParams (tcommas (map (fun x => [Id false x]) xs)) (P b RParen) (map FP_Id xs).
Proof.
  assert (K : forall x nt, a_name E x -> gr E M (Assignment true) [Id false x] nt (id_tree x)).
  { intros x nt (H1 & H2 & _). eapply (@lev_down _ Hq true 15 0); [lia|lia|]. left. apply g_member_primary, g_id. auto. }
  induction 1 as [|x l H Hl IH]; [apply g_arrow_nil|]. change (map FP_Id (x :: l)) with (pat_param (B_Id x nowhere) None :: map FP_Id l).
  destruct l as [|e' l].
  - eapply g_arrow_last; [apply K; auto|]. apply bi_plain, bp_id.
  - cbn [map tcommas] in *. eapply g_arrow_more; [apply K; auto|apply bi_plain, bp_id|]. auto.
Qed.
Lemma body_phr c ds l nt ss : (forall b w, next l nt <> T b (KStr w)) -> (forall M, quiet M -> gr E M (Stmts c) l nt ss) ->
  gr E M (Body c) (dtoks ds ++ l) nt (map (directive E) ds ++ ss).
Proof.
  intros H1 H2. generalize M Hq. induction ds as [|w ds IH]; intros M0 H0.
  - apply g_body; auto.
  - change (dtoks (w :: ds) ++ l) with (T false (KStr w) :: [P false Semicolon] ++ dtoks ds ++ l). apply (@g_body_directive E M0 c false w [P false Semicolon] (dtoks ds ++ l)).
    + apply quiet_yield; auto.
    + constructor.
    + apply IH. unfold quiet, directive_mode. destruct (str_eqb _ _); auto.
Qed.
End AtMode.
Lemma formals_phr M nt f : fproper E f -> gr E M Formals (ptoks (fnames f)) nt (fparams f).
Proof.
  destruct f as [xs ds ss]. intros [H _]. apply g_formals. cbn [fparams]. apply all_Forall in H. induction H as [|x l H Hl IH]; [apply g_params_nil|].
  change (map FP_Id (x :: l)) with (pat_param (B_Id x nowhere) None :: map FP_Id l).
  destruct l as [|e' l].
  - apply g_params_last. apply g_bind_plain, g_bind_id. apply H.
  - cbn [map tcommas] in *. apply (@g_params_more E M false [Id false x]); auto. apply g_bind_plain, g_bind_id. apply H.
Qed.
Lemma ftoks_split f : ftoks f = ptoks (fnames f) ++ fbody f.
Proof. destruct f. reflexivity. Qed.
Lemma fbody_next f t : next (fbody f) t = P false LBrace.
Proof. destruct f. reflexivity. Qed.

Ltac ns := first [apply sep_slash; discriminate].
Ltac conjs := repeat match goal with H : _ /\ _ |- _ => destruct H end.
Lemma new_left M e nt : quiet M -> phr e -> proper E e -> fits e -> newable e = true -> plain_next nt -> gr E M Member (toks e) nt (tree_of E e).
Proof.
  intros Hq H1 H2 H3 H4 H5. assert (tight e = 15).
  { pose proof (tight_le e). destruct e; cbn [newable] in H4; try reflexivity; try discriminate; apply N.leb_le in H4; lia. }
  apply (H1 M true nt); auto; [discriminate|lia].
Qed.
Lemma primary_phr e : tight e = 15 -> (forall M nt, quiet M -> proper E e -> fits e -> plain_next nt -> gr E M Primary (toks e) nt (tree_of E e)) -> phr e.
Proof.
  intros Ht H M inn nt Hq Hp Hf Hi Hn Hs. rewrite Ht. assert (gr E M Member (toks e) nt (tree_of E e)) by (apply g_member_primary; auto).
  split; auto. left. auto.
Qed.
Lemma stm_first c s t : sproper E c s -> sfits s -> is_w (next (stoks s) t) "else" = false /\ is_w (next (stoks s) t) "finally" = false /\
  (forall b w, next (stoks s) t <> T b (KStr w)) /\ stoks s <> [].
Proof.
  intros H1 H2. destruct s; cbn [stoks next hd]; try (split; [reflexivity|split; [reflexivity|split; discriminate]]).
  - rewrite next_app by apply toks_some. cbn [sproper sfits] in *. destruct H2 as [_ H2]. destruct (@first_tok e t H1) as (_ & G & _). destruct (G H2) as [G1 G2].
    split; [|split; [|split; auto]].
    + destruct (is_w _ _) eqn:K; auto. apply G1 in K. cbv in K. intuition discriminate.
    + destruct (is_w _ _) eqn:K; auto. apply G1 in K. cbv in K. intuition discriminate.
    + intros K. apply app_eq_nil in K as [_ K]. discriminate.
  - destruct k; (split; [reflexivity|split; [reflexivity|split; discriminate]]).
Qed.
Lemma stmts_next c ss t : all (sproper E c) ss -> all sfits ss -> is_w t "else" = false -> is_w t "finally" = false ->
  is_w (next (flat_map stoks ss) t) "else" = false /\ is_w (next (flat_map stoks ss) t) "finally" = false /\
  ((forall b w, t <> T b (KStr w)) -> forall b w, next (flat_map stoks ss) t <> T b (KStr w)).
Proof.
  destruct ss as [|s ss]; cbn [all fold_right flat_map]; [auto|]. intros [H1 _] [H2 _] _ _.
  destruct (@stm_first c s t H1 H2) as (G1 & G2 & G3 & G4). rewrite next_app by auto. auto.
Qed.
Lemma stmts_phr M c nt ss : quiet M -> Forall sphr ss -> all (sproper E c) ss -> all sfits ss -> is_w nt "else" = false -> is_w nt "finally" = false ->
  gr E M (Stmts c) (flat_map stoks ss) nt (map (stree E) ss).
Proof.
  intros Hq H H1 H2 H3 H4. induction H as [|s ss Hs Hl IH]; [apply g_stmts_nil|]. cbn [all fold_right flat_map map] in *. destruct H1 as [H1 H1'], H2 as [H2 H2'].
  destruct (@stmts_next c ss nt H1' H2' H3 H4) as (G1 & G2 & _).
  apply g_stmts_cons; auto. apply Hs; auto. split; auto.
Qed.
Lemma block_phr M c nt ss : quiet M -> Forall sphr ss -> all (sproper E c) ss -> all sfits ss -> gr E M (Block c) (braced (flat_map stoks ss)) nt (block (map (stree E) ss)).
Proof. intros. apply g_block, stmts_phr; auto. Qed.
Lemma no_in inn b : (inn = false -> b = false) -> forall b', b = b' -> inn = false -> b' = false.
Proof. intros H b' <-. auto. Qed.
Lemma name_plain_key x : a_prop E x -> key_name x -> plain_key [name_tk x].
Proof.
  intros _ H b y l' G. injection G as G _. unfold name_tk in G. destruct (find _ _); [discriminate|]. injection G as _ G. subst y. auto.
Qed.
Lemma decl_phr M inn x i nt : quiet M -> a_name E x -> opt phr i -> opt (proper E) i -> opt fits i -> opt (fun e => inn = false -> open_in e = false) i ->
  plain_next nt -> no_slash nt ->
  gr E M (Decl inn) (Id false x :: tmaybe (fun e => P false Assign :: toks e) i) nt (VarDeclarator (B_Id x nowhere) (option_map (tree_of E) i)).
Proof.
  intros Hq H1 H2 H3 H4 H5 H6 H7. destruct i as [e|]; cbn in *.
  - apply (@g_decl_init E M inn [Id false x] false); [apply g_bind_id, H1|]. apply to_assign; auto.
  - apply g_decl. apply H1.
Qed.
Lemma decls_phr M k (ds : list (str * option exp)) nt : quiet M -> ds <> [] -> Forall (fun d => opt phr (snd d)) ds ->
  all (fun d => a_name E (fst d) /\ opt (proper E) (snd d) /\ (k = DConst -> snd d <> None)) ds -> all (fun d => opt fits (snd d)) ds -> plain_next nt -> no_slash nt ->
  gr E M (Decls true) (tcommas (map (fun d => Id false (fst d) :: tmaybe (fun e => P false Assign :: toks e) (snd d)) ds)) nt
    (map (fun d => VarDeclarator (B_Id (fst d) nowhere) (option_map (tree_of E) (snd d))) ds).
Proof.
  intros Hq H0 H. revert H0. induction H as [|d ds Hd Hl IH]; [congruence|]. cbn [all fold_right]. intros _ [(H1 & H2 & _) H3] [H4 H5] H6 H7.
  assert (K : forall nt, plain_next nt -> no_slash nt -> gr E M (Decl true) (Id false (fst d) :: tmaybe (fun e => P false Assign :: toks e) (snd d)) nt (VarDeclarator (B_Id (fst d) nowhere) (option_map (tree_of E) (snd d)))).
  { intros. apply decl_phr; auto. destruct (snd d); cbn; auto. discriminate. }
  destruct ds as [|d' ds].
  - apply g_decls_one. apply K; auto.
  - cbn [map tcommas] in *.
    match goal with |- context [?a ++ _ :: ?b] => apply (@g_decls_more E M true false a) end; [apply K; [reflexivity|ns]|]. apply IH; auto. discriminate.
Qed.
Lemma head_phr M c (t u : option exp) s nt : quiet M -> opt phr t -> opt (proper E) t -> opt fits t -> opt phr u -> opt (proper E) u -> opt fits u ->
  gr E M (Stmt (loop_place c)) (stoks s) nt (stree E s) ->
  gr E M (ForRest c) (P false Semicolon :: tmaybe toks t ++ P false Semicolon :: tmaybe toks u ++ P false RParen :: stoks s) nt
    (option_map (tree_of E) t, option_map (tree_of E) u, stree E s).
Proof. intros. apply g_for_rest; auto; apply to_opt; auto; try reflexivity; ns. Qed.
Definition ctoks (a : option exp * list stm) : list tok :=
  match fst a with Some e => W false "case" :: toks e | None => [W false "default"] end ++ P false Colon :: flat_map stoks (snd a).
Lemma cases_phr M c (cs : list (option exp * list stm)) b : forall d : bool, quiet M -> cs <> [] -> (length (filter default cs) <= if d then 1 else 0)%nat ->
  Forall (fun a => opt phr (fst a) /\ Forall sphr (snd a)) cs ->
  all (fun a => opt (proper E) (fst a) /\ all (sproper E c) (snd a)) cs -> all (fun a => opt fits (fst a) /\ all sfits (snd a)) cs ->
  gr E M (Cases c d) (flat_map ctoks cs) (P b RBrace) (map (fun a => SwitchCase (option_map (tree_of E) (fst a)) (map (stree E) (snd a))) cs).
Proof.
  induction cs as [|a cs IH]; intros d Hq H0 Hd H H1 H2; [congruence|]. inversion H; subst. cbn [all fold_right] in *. conjs. clear H.
  assert (K : forall nt, is_w nt "else" = false -> is_w nt "finally" = false -> gr E M (Case c) (ctoks a) nt (SwitchCase (option_map (tree_of E) (fst a)) (map (stree E) (snd a)))).
  { intros nt G1 G2. unfold ctoks. destruct a as [[e|] ss]; cbn [fst snd option_map app] in *.
    - apply g_case; [apply to_expr; auto; [reflexivity|ns]|]. apply stmts_phr; auto.
    - apply g_case_default. apply stmts_phr; auto. }
  assert (Kd : option_map (tree_of E) (fst a) = None -> d = true).
  { intros G. cbn [filter] in Hd. unfold default at 1 in Hd. destruct (fst a); [discriminate|]. cbn in Hd. destruct d; auto. lia. }
  destruct cs as [|a' cs].
  - cbn [flat_map map]. rewrite List.app_nil_r. apply g_cases_one; auto.
  - cbn [flat_map map] in *. apply g_cases_more; auto.
    + assert (next (ctoks a' ++ flat_map ctoks cs) (P b RBrace) = W false "case" \/ next (ctoks a' ++ flat_map ctoks cs) (P b RBrace) = W false "default") as [-> | ->]
        by (unfold ctoks; destruct (fst a'); auto); apply K; reflexivity.
    + apply IH; auto; [discriminate|]. cbn [filter] in Hd |- *. unfold default at 1 in Hd. destruct (fst a); cbn [is_none option_map] in *; auto. cbn [length] in Hd. destruct d; lia.
Qed.
Lemma methods_phr M d (ms : list (str * fn)) nt : quiet M -> Forall (fun m => fphr (snd m)) ms ->
  all (fun m => a_prop E (fst m) /\ key_name (fst m) /\ fproper E (snd m)) ms -> all (fun m => ffits (snd m)) ms ->
  gr E M (ClassBody d) (flat_map (fun m => name_tk (fst m) :: ftoks (snd m)) ms) nt
    (map (fun m => MethodDef (id_tree (fst m)) false (Some (FnExpr None (fparams (snd m)) (ftree E (snd m)) false false false))
         (if str_eqb (fst m) (s2l "constructor") then "constructor" else "method") false) ms).
Proof.
  intros Hq. induction 1 as [|m ms Hm Hl IH]; cbn [all fold_right flat_map map]; [intros; apply g_class_nil|]. intros [(H1 & H2 & H3) H4] [H5 H6].
  apply g_class_cons; auto. rewrite ftoks_split.
  change (str_eqb (fst m) (s2l "constructor")) with (is_ctor (key_tree (fst m))).
  apply (@g_method E M d [name_tk (fst m)] (ptoks (fnames (snd m))) (fbody (snd m)) _ (key_tree (fst m)) false).
  - apply name_plain_key; auto. 
  - apply g_key_name, name_tk_ok.
  - apply formals_phr; auto.
  - apply Hm; auto. reflexivity.
Qed.
Lemma plain_both M c l nt t (s : stm) : gr E M (Stmt c) l nt t -> (plain_stm s -> gr E M (Stmt c) l nt t) /\ gr E M (Item c) l nt t.
Proof. intros H. split; auto. apply g_item_stmt; auto. Qed.
Lemma kind_head k : (knd (kind_tok k), kind_text k) = (KW "var", "var"%string) \/ (knd (kind_tok k), kind_text k) = (KI (s2l "let"), "let"%string) \/ (knd (kind_tok k), kind_text k) = (KW "const", "const"%string).
Proof. destruct k; auto. Qed.
Lemma kind_eta k : kind_tok k = T false (knd (kind_tok k)).
Proof. destruct k; reflexivity. Qed.
Lemma phrases : (forall e, phr e) /\ (forall f, fphr f) /\ (forall s, sphr s).
Proof.
  assert (Hso : semi true [P false Semicolon] (P false RBrace)) by constructor.
  apply syntax_ind.
  - intros x. apply primary_phr; auto. intros M nt Hq Hp Hf Hn. apply g_id. apply Hp.
  - intros n. apply primary_phr; auto. intros. apply g_num.
  - intros w. apply primary_phr; auto. intros. apply g_str.
  - apply primary_phr; auto. intros. apply g_null.
  - intros b. apply primary_phr; auto. intros. apply g_bool.
  - apply primary_phr; auto. intros. apply g_this.
  - intros e H. apply primary_phr; auto. intros M nt Hq Hp Hf Hn. cbn [toks tree_of proper fits] in *. apply g_paren; [apply plain_arrow; auto|].
    apply g_exprs_one, to_assign; auto; [discriminate|reflexivity|ns].
  - intros es H. apply primary_phr; auto. intros M nt Hq Hp Hf Hn. cbn [toks tree_of proper fits] in *. apply g_array. apply elems_phr, phr_all; auto.
  - intros e x H M inn nt Hq Hp Hf Hi Hn Hs. cbn [toks tree_of proper fits tight newable] in *. conjs. split.
    + assert (lev M inn 15 (toks e) (P false Dot) (tree_of E e)) as [G|G].
      { apply down_to; auto; [|reflexivity|lia]. intros _. destruct e; cbn in *; try reflexivity; try lia. pose proof (level_le k). lia. }
      * left. apply g_member_dot; auto using plain_regexp, name_tk_ok.
      * right. apply g_call_dot; auto using plain_regexp, name_tk_ok.
    + intros Hw. apply g_member_dot; auto using plain_regexp, name_tk_ok. apply new_left; auto. reflexivity.
  - intros e i H H0 M inn nt Hq Hp Hf Hi Hn Hs. cbn [toks tree_of proper fits tight newable] in *. conjs.
    assert (K : gr E M (Expr true) (toks i) (P false RBracket) (tree_of E i)) by (apply to_expr; auto; [reflexivity|ns]). split.
    + assert (lev M true 15 (toks e) (P false LBracket) (tree_of E e)) as [G|G] by (apply down_to; auto; [discriminate|reflexivity|lia]).
      * left. apply g_member_index; auto.
      * right. apply g_call_index; auto.
    + intros Hw. apply g_member_index; auto. apply new_left; auto. reflexivity.
  - intros e a H H0 M inn nt Hq Hp Hf Hi Hn Hs. cbn [toks tree_of proper fits tight newable] in *. conjs. split; [|discriminate].
    assert (gr E M Args (P false LParen :: tcommas (map toks a) ++ [P false RParen]) nt (map (fun e => AR_Expr (tree_of E e)) a)) as K
      by (apply g_args, args_phr, phr_all; auto).
    assert (lev M true 15 (toks e) (P false LParen) (tree_of E e)) as [G|G] by (apply down_to; auto; [discriminate|reflexivity|lia]).
    + right. apply g_call_member; auto.
    + right. apply g_call_again; auto.
  - intros p e H M inn nt Hq Hp Hf Hi Hn Hs. cbn [toks tree_of proper fits tight newable] in *. conjs. split; [|discriminate].
    apply g_update_prefix; auto using target_tree. apply (@down_to _ Hq true 13); auto; [discriminate|rewrite tight_assignable; auto; lia|lia].
  - intros k e H M inn nt Hq Hp Hf Hi Hn Hs. cbn [toks tree_of proper fits tight newable] in *. conjs. split; [|discriminate].
    apply g_unary_op; auto. apply (@down_to _ Hq true 13); auto; [discriminate|lia].
  - intros e e' H H0 M inn nt Hq Hp Hf Hi Hn Hs. cbn [toks tree_of proper fits tight newable] in *. conjs. split; [|discriminate].
    apply (@g_exp_pow E M false false); auto; [apply (@down_to _ Hq true 14)|apply (@down_to _ Hq true 12)]; auto; try discriminate; try reflexivity; lia.
  - intros k e e' H H0 M inn nt Hq Hp Hf Hi Hn Hs. cbn [toks tree_of proper fits tight newable open_in] in *. conjs.
    pose proof (level_le k). split; [|intros Hw; apply N.leb_le in Hw; lia].
    assert (Hi1 : inn = false -> is_in k = false /\ open_in e = false /\ open_in e' = false).
    { intros G. specialize (Hi G). apply Bool.orb_false_iff in Hi as [Hi ?]. apply Bool.orb_false_iff in Hi as [? ?]. auto. }
    assert (Hl : level inn k = level true k) by (apply level_inn; intros G; apply Hi1; auto).
    apply bin_lev; try lia. apply (@g_bin_op E M inn (level true k) false false); auto; try lia.
    + apply lev_bin; try lia. apply down_to; auto; [intros G; apply Hi1; auto|apply op_plain; auto|lia].
    + apply lev_bin; [unfold right_level; destruct (_ =? _); lia|unfold right_level; destruct (_ =? _) eqn:G; lia|]. apply down_to; auto; [intros G; apply Hi1; auto|].
      left. unfold right_level; destruct (_ =? _); lia.
  - intros e e1 e2 H H0 H1 M inn nt Hq Hp Hf Hi Hn Hs. cbn [toks tree_of proper fits tight newable open_in] in *. conjs. split; [|discriminate]. specialize (Hs eq_refl).
    apply g_assign_cond; [apply quiet_yield; auto|]. eapply g_cond with (lone := false).
    + apply (@down_to _ Hq inn 1); auto; [|reflexivity|lia]. intros G. specialize (Hi G). apply Bool.orb_false_iff in Hi. apply Hi.
    + apply to_assign; auto; [discriminate|reflexivity|ns].
    + apply to_assign; auto. intros G. specialize (Hi G). apply Bool.orb_false_iff in Hi. apply Hi.
  - intros p e e' H H0 M inn nt Hq Hp Hf Hi Hn Hs. cbn [toks tree_of proper fits tight newable open_in] in *. conjs. split; [|discriminate]. specialize (Hs eq_refl).
    match goal with K : p = Assign \/ _ |- _ => rename K into Ha end.
    assert (forall b, gr E M (Left false) (toks e) (P b p) (tree_of E e)) as G.
    { intros b. apply to_left; auto; [rewrite tight_assignable; auto; lia|]. destruct Ha as [->|Ha]; [reflexivity|]. unfold assign_op in Ha. cbn in Ha. decompose [or] Ha; try contradiction; subst p; reflexivity. }
    assert (K : gr E M (Assignment inn) (toks e') nt (tree_of E e')) by (apply to_assign; auto).
    destruct Ha as [->|Ha].
    + eapply g_assign with (n := false); [apply quiet_yield; auto|apply G| |exact K]. apply ap_target. auto using target_tree.
    + eapply g_assign_op with (n := false); [apply quiet_yield; auto|auto using target_tree|auto|apply G|exact K].
  - intros e es H H0. apply primary_phr; auto. intros M nt Hq Hp Hf Hn. cbn [toks tree_of proper fits] in *. conjs. apply g_paren; [apply plain_arrow; auto|].
    apply exprs_phr. apply phr_all; auto; cbn; auto.
  - intros ps H M inn nt Hq Hp Hf Hi Hn Hs. cbn [toks tree_of proper fits tight newable open_in] in *. split; [|discriminate]. specialize (Hs eq_refl).
    apply (@lev_down _ Hq inn 15 0); [lia|lia|]. left. apply g_member_primary. apply g_object; auto. apply props_phr.
    eapply all_mp with (R := fun p => fits (snd p)); [|eapply all_mp with (S := fun p => phr (snd p) /\ proper E (snd p)); [|exact H|exact Hp]|exact Hf]; cbn.
    + intros x [G1 G2] G3 nt' G4 G5. apply to_assign; auto. discriminate.
    + intros x G1 [G2 G3]. auto.
  - intros e a H H0 M inn nt Hq Hp Hf Hi Hn Hs. cbn [toks tree_of proper fits tight newable] in *. conjs. split; [|discriminate].
    assert (gr E M Args (P false LParen :: tcommas (map toks a) ++ [P false RParen]) nt (map (fun e => AR_Expr (tree_of E e)) a)) as K
      by (apply g_args, args_phr, phr_all; auto).
    apply update_assign with (lone := true); auto. apply g_update_left, g_left_call, g_call_new; auto. apply new_left; auto. reflexivity.
  - intros e p H M inn nt Hq Hp Hf Hi Hn Hs. cbn [toks tree_of proper fits tight newable] in *. conjs. split; [|discriminate]. specialize (Hs eq_refl).
    apply update_assign with (lone := true); auto. apply g_update_postfix; auto using target_tree. apply to_left; auto; [rewrite tight_assignable; auto; lia|].
    match goal with K : update_op p |- _ => destruct K as [-> | ->] end; reflexivity.
  - intros xs e H M inn nt Hq Hp Hf Hi Hn Hs. cbn [toks tree_of proper fits tight newable open_in] in *. conjs. split; [|discriminate]. specialize (Hs eq_refl).
    apply g_arrow; [apply arrow_phr; auto using all_Forall|]. apply g_arrow_body_expr; [apply first_tok; auto|]. apply to_assign; auto. reflexivity.
  - intros x f H M inn nt Hq Hp Hf Hi Hn Hs. cbn [toks tree_of proper fits tight newable open_in] in *. conjs. split; [|discriminate]. specialize (Hs eq_refl).
    apply (@lev_down _ Hq inn 15 0); [lia|lia|]. left. apply g_member_primary. rewrite ftoks_split.
    assert (Q : quiet (fun_mode M)) by (unfold quiet, fun_mode; cbn; rewrite Hq; reflexivity).
    destruct x as [x|]; cbn [tmaybe option_map app opt] in *.
    + apply g_function_named; auto; [match goal with K : a_name E x |- _ => apply K end|apply formals_phr; auto].
    + apply g_function; auto. apply formals_phr; auto.
  - intros xs ds ss H M inn nt Hq Hp Hf Hi Hn Hs. cbn [toks tree_of proper fits tight newable open_in] in *. destruct Hp as [H1 H2]. split; [|discriminate]. specialize (Hs eq_refl).
    assert (Q : quiet (arrow_mode M false)) by reflexivity.
    apply g_arrow; [apply arrow_phr; auto using all_Forall|]. apply g_arrow_body_block; [auto|]. apply g_funbody.
    destruct (@stmts_next fun_place ss (P false RBrace) H2 Hf eq_refl eq_refl) as (G1 & G2 & G3). apply body_phr; auto.
    + apply G3. discriminate.
    + intros M' Hq'. apply stmts_phr; auto.
  - intros x sup ms H H0 M inn nt Hq Hp Hf Hi Hn Hs. cbn [toks tree_of proper fits tight newable open_in] in *. conjs. split; [|discriminate]. specialize (Hs eq_refl).
    apply (@lev_down _ Hq inn 15 0); [lia|lia|]. left. apply g_member_primary.
    apply g_class; [auto|match goal with K : a_name E x |- _ => apply K end|]. destruct sup as [e|]; cbn [tmaybe option_map opt app] in *; conjs.
    + apply g_class_extends; [apply to_left; auto; reflexivity|]. apply methods_phr; auto.
    + apply g_class_tail. apply methods_phr; auto.
  - intros xs ds ss H M nt Hq [H1 H2] Hf. cbn [ffits] in Hf. cbn [fbody ftree]. apply g_funbody.
    destruct (@stmts_next fun_place ss (P false RBrace) H2 Hf eq_refl eq_refl) as (G1 & G2 & G3). apply body_phr; auto.
    + apply G3. discriminate.
    + intros M' Hq'. apply stmts_phr; auto.
  - intros e H M c nt Hq Hp [Hf Ho] Hn. apply plain_both. cbn [stoks stree sproper] in *. destruct (@first_tok e (P false Semicolon) Hp) as (G1 & G2 & G3).
    destruct (G2 Ho) as [G4 G5].
    assert (Ha : next (toks e) nt = next (toks e) (P false Semicolon)) by (pose proof (toks_some e); destruct (toks e); [congruence|reflexivity]).
    apply g_stmt_expr; rewrite ?Ha.
    + apply G1. eapply begins_sub; [|exact Ho]. intros []; auto; discriminate.
    + destruct (is_w _ _) eqn:K; auto. apply G4 in K. cbv in K. intuition discriminate.
    + destruct (is_w _ _) eqn:K; auto. apply G4 in K. cbv in K. intuition discriminate.
    + intros b l' Hl. rewrite Hl in G3. exfalso. apply G3. reflexivity.
    + apply to_expr; auto; [reflexivity|ns].
    + constructor.
  - intros k ds H M c nt Hq Hp Hf Hn. cbn [stoks stree sproper sfits] in *. conjs.
    assert (K : gr E M (Decls true) (tcommas (map (fun d => Id false (fst d) :: tmaybe (fun e => P false Assign :: toks e) (snd d)) ds)) (P false Semicolon)
      (map (fun d => VarDeclarator (B_Id (fst d) nowhere) (option_map (tree_of E) (snd d))) ds)) by (eapply decls_phr; eauto; [reflexivity|ns]).
    destruct k.
    + apply plain_both. apply g_stmt_var; auto. constructor.
    + split; [intros []|]. apply g_item_let; auto. constructor.
    + split; [intros []|]. apply g_item_const; auto; [|constructor]. intros d Hd. apply in_map_iff in Hd as ([x o] & <- & Hd).
      match goal with G : all _ ds |- _ => apply all_Forall in G; rewrite Forall_forall in G; specialize (G _ Hd); cbn in G; destruct G as (_ & _ & G); specialize (G eq_refl) end.
      destruct o; [do 2 eexists; reflexivity|congruence].
  - intros M c nt Hq Hp Hf Hn. apply plain_both, g_stmt_empty.
  - intros ss H M c nt Hq Hp Hf Hn. apply plain_both, g_stmt_block, block_phr; auto.
  - intros e s s' H H0 H1 M c nt Hq Hp Hf [Hn1 Hn2]. apply plain_both. cbn [stoks stree sproper sfits open_if] in *. conjs.
    assert (K : gr E M (Expr true) (toks e) (P false RParen) (tree_of E e)) by (apply to_expr; auto; [reflexivity|ns]).
    destruct s' as [s'|]; cbn [tmaybe option_map opt] in *; conjs.
    + apply g_stmt_if_else; auto.
      * apply H0; auto. split; [reflexivity|]. intros G. match goal with K : Some s' <> None -> open_if s = false |- _ => rewrite K in G by discriminate end. discriminate.
      * apply H1; auto. split; auto.
    + rewrite List.app_nil_r. apply g_stmt_if; auto. apply H0; auto. split; auto.
  - intros e s H H0 M c nt Hq Hp Hf [Hn1 Hn2]. apply plain_both. cbn [stoks stree sproper sfits open_if] in *. conjs.
    apply g_stmt_while; [apply to_expr; auto; [reflexivity|ns]|]. apply H0; auto. split; auto.
  - intros s e H H0 M c nt Hq Hp Hf [Hn1 Hn2]. apply plain_both. cbn [stoks stree sproper sfits open_if] in *. conjs.
    apply (@g_stmt_do E M c false (stoks s) false false (toks e) false [P false Semicolon]); [|apply to_expr; auto; [reflexivity|ns]|constructor]. apply H; auto. split; auto.
  - intros i t u s H H0 H1 H2 M c nt Hq Hp Hf [Hn1 Hn2]. apply plain_both. cbn [stoks stree sproper sfits open_if] in *. conjs.
    assert (K : gr E M (ForRest c) (P false Semicolon :: tmaybe toks t ++ P false Semicolon :: tmaybe toks u ++ P false RParen :: stoks s) nt
      (option_map (tree_of E) t, option_map (tree_of E) u, stree E s)) by (apply head_phr; auto; apply H2; auto; split; auto).
    destruct i as [i|]; cbn [tmaybe option_map opt app] in *; conjs.
    + apply g_for_expr; auto. apply to_assign; auto; [reflexivity|ns].
    + apply g_for_none; auto.
  - intros k x i t u s H H0 H1 H2 M c nt Hq Hp Hf [Hn1 Hn2]. apply plain_both. cbn [stoks stree sproper sfits open_if] in *. conjs.
    assert (K : gr E M (ForRest c) (P false Semicolon :: tmaybe toks t ++ P false Semicolon :: tmaybe toks u ++ P false RParen :: stoks s) nt
      (option_map (tree_of E) t, option_map (tree_of E) u, stree E s)) by (apply head_phr; auto; apply H2; auto; split; auto).
    rewrite (kind_eta k). eapply g_for_decl; [apply kind_head| |exact K]. apply decl_phr; auto; [destruct i; cbn in *; tauto|destruct i; cbn in *; tauto|reflexivity|ns].
  - intros k x e s H H0 M c nt Hq Hp Hf [Hn1 Hn2]. apply plain_both. cbn [stoks stree sproper sfits open_if] in *. conjs.
    rewrite (kind_eta k). apply (@g_for_in_decl E M c false false false (knd (kind_tok k)) [Id false x] (W false "in" :: toks e ++ P false RParen :: stoks s) nt (B_Id x nowhere)).
    + destruct k; cbn; auto.
    + apply g_bind_id. match goal with K : a_name E x |- _ => apply K end.
    + apply g_in_rest; [apply to_expr; auto; [reflexivity|ns]|]. apply H0; auto. split; auto.
  - intros k x e s H H0 M c nt Hq Hp Hf [Hn1 Hn2]. apply plain_both. cbn [stoks stree sproper sfits open_if] in *. conjs.
    rewrite (kind_eta k). apply (@g_for_of E M c false false false (knd (kind_tok k)) [Id false x] (Id false (s2l "of") :: toks e ++ P false RParen :: stoks s) nt (B_Id x nowhere)).
    + destruct k; cbn; auto; congruence.
    + apply g_bind_id. match goal with K : a_name E x |- _ => apply K end.
    + apply g_of_rest; [apply to_assign; auto; [discriminate|reflexivity|ns]|]. apply H0; auto. split; auto.
  - intros x M c nt Hq Hp Hf Hn. apply plain_both. cbn [stoks stree sproper] in *. conjs. destruct x as [x|]; cbn in *.
    + apply g_stmt_continue_label; [match goal with K : a_name E x |- _ => apply K end|constructor].
    + apply g_stmt_continue; auto. constructor.
  - intros x M c nt Hq Hp Hf Hn. apply plain_both. cbn [stoks stree sproper] in *. conjs. destruct x as [x|]; cbn in *.
    + apply g_stmt_break_label; [match goal with K : a_name E x |- _ => apply K end|constructor].
    + apply g_stmt_break; auto. constructor.
  - intros e H M c nt Hq Hp Hf Hn. apply plain_both. cbn [stoks stree sproper sfits] in *. conjs. destruct e as [e|]; cbn [tmaybe option_map opt app] in *.
    + apply g_stmt_return_expr; auto; [|apply to_expr; auto; [reflexivity|ns]|constructor].
      pose proof (toks_some e) as G. pose proof (@sps_exp e) as G'. destruct G' as [|? ? ? ? [[? _] _] _]; [auto|congruence|auto].
    + apply g_stmt_return; eauto.
  - intros e H M c nt Hq Hp Hf Hn. apply plain_both. cbn [stoks stree sproper sfits] in *. 
    apply g_stmt_throw; auto; [|apply to_expr; auto; [reflexivity|ns]|constructor].
    pose proof (toks_some e) as G. pose proof (@sps_exp e) as G'. destruct G' as [|? ? ? ? [[? _] _] _]; [auto|congruence|auto].
  - intros M c nt Hq Hp Hf Hn. apply plain_both. apply g_stmt_debugger. constructor.
  - intros ss x ss1 ss2 H H0 H1 M c nt Hq Hp Hf [Hn1 Hn2]. apply plain_both. cbn [stoks stree sproper sfits] in *. conjs.
    assert (Hb : forall x', a_name E x' -> gr E M Bind [Id false x'] (P false RParen) (B_Id x' nowhere)) by (intros x' G; apply g_bind_id, G).
    destruct x as [x|], ss2 as [ss2|]; cbn [tmaybe option_map opt app opt_list] in *; rewrite ?List.app_nil_r.
    + apply (@g_stmt_try_both E M c false _ false false [Id false x] false (braced (flat_map stoks ss1)) false); auto using block_phr.
    + apply (@g_stmt_try_catch E M c false _ false false [Id false x] false (braced (flat_map stoks ss1))); auto using block_phr.
    + apply g_stmt_try_both0; auto using block_phr.
    + apply g_stmt_try_catch0; auto using block_phr.
  - intros ss ss2 H H0 M c nt Hq Hp Hf [Hn1 Hn2]. apply plain_both. cbn [stoks stree sproper sfits] in *. conjs.
    apply g_stmt_try_finally; auto using block_phr.
  - intros e cs H H0 M c nt Hq Hp Hf Hn. apply plain_both. cbn [stoks stree sproper sfits] in *. conjs.
    apply g_stmt_switch; [apply to_expr; auto; [reflexivity|ns]|]. apply cases_phr; auto.
  - intros x s H M c nt Hq Hp Hf [Hn1 Hn2]. apply plain_both. cbn [stoks stree sproper sfits open_if] in *. conjs.
    apply g_stmt_label; [match goal with K : a_name E x |- _ => apply K end|]. apply H; auto. split; auto.
  - intros x f H M c nt Hq Hp Hf Hn. split; [intros []|]. cbn [stoks stree sproper sfits] in *. conjs. rewrite ftoks_split.
    apply g_item_function; [match goal with K : a_name E x |- _ => apply K end|apply formals_phr; auto|]. apply H; auto. reflexivity.
  - intros x sup ms H H0 M c nt Hq Hp Hf Hn. split; [intros []|]. cbn [stoks stree sproper sfits] in *. conjs.
    apply g_item_class; [match goal with K : a_name E x |- _ => apply K end|]. destruct sup as [e|]; cbn [tmaybe option_map opt app] in *; conjs.
    + apply g_class_extends; [apply to_left; auto; reflexivity|]. apply methods_phr; auto.
    + apply g_class_tail. apply methods_phr; auto.
Qed.

(** ** Adding parentheses *)
Lemma proper_at q e : proper E e -> proper E (at_least q e).
Proof. unfold at_least. destruct (_ <? _); auto. Qed.
Lemma fits_at q e : fits e -> fits (at_least q e).
Proof. unfold at_least. destruct (_ <? _); auto. Qed.
Lemma assignable_parens e : assignable e -> assignable (parens e).
Proof. destruct e; cbn; auto. Qed.
Lemma all_maps A B (f : A -> B) (Q R : A -> Prop) (S T : B -> Prop) l : (forall x, Q x -> R x -> S (f x) /\ T (f x)) -> Forall Q l -> all R l -> all S (map f l) /\ all T (map f l).
Proof. intros H. induction 1 as [|x l Hx Hl IH]; cbn; auto. intros [H1 H2]. destruct (H x Hx H1), (IH H2). auto. Qed.
Lemma opt_maps A B (f : A -> B) (Q R : A -> Prop) (S T : B -> Prop) o : (forall x, Q x -> R x -> S (f x) /\ T (f x)) -> opt Q o -> opt R o -> opt S (option_map f o) /\ opt T (option_map f o).
Proof. destruct o; cbn; auto. Qed.
Lemma plain_parens s : plain_stm s -> plain_stm (sparens s).
Proof. destruct s as [|[]| | | | | | | | | | | | | | | | | | | |]; cbn; auto. Qed.
Lemma newable_callee e : newable (callee e) = true.
Proof. unfold callee. destruct (newable e) eqn:H; auto. Qed.
Lemma callee_ok e : proper E e /\ fits e -> proper E (callee e) /\ fits (callee e).
Proof. unfold callee. destruct (newable e); auto. Qed.
Lemma statement_ok e : proper E e /\ fits e -> proper E (statement e) /\ fits (statement e) /\ odd_first (statement e) = false.
Proof. unfold statement. destruct (odd_first e) eqn:H; intros [? ?]; auto. Qed.
Lemma arrow_ok e : proper E e /\ fits e -> proper E (arrow_body e) /\ fits (arrow_body e) /\ brace_first (arrow_body e) = false.
Proof. unfold arrow_body. destruct (brace_first e) eqn:H; intros [? ?]; auto. Qed.
Lemma for_ok e : proper E e /\ fits e -> proper E (for_head e) /\ fits (for_head e) /\ open_in (for_head e) = false.
Proof. unfold for_head. destruct (open_in e) eqn:H; intros [? ?]; auto. Qed.
Lemma closed_ok c s : plain_stm s -> sproper E c s /\ sfits s -> sproper E c (closed s) /\ sfits (closed s) /\ open_if (closed s) = false /\ plain_stm (closed s).
Proof. unfold closed. destruct (open_if s) eqn:H; intros ? [? ?]; cbn; auto. Qed.
Lemma parens_all : (forall e, proper E e -> proper E (parens e) /\ fits (parens e)) /\ (forall f, fproper E f -> fproper E (fparens f) /\ ffits (fparens f)) /\
  (forall s c, sproper E c s -> sproper E c (sparens s) /\ sfits (sparens s)).
Proof.
  assert (He : forall es, Forall (fun e => proper E e -> proper E (parens e) /\ fits (parens e)) es -> all (proper E) es -> all (proper E) (map parens es) /\ all fits (map parens es))
    by (intros es H1 H2; eapply all_maps; [|exact H1|exact H2]; auto).
  assert (Hs : forall c ss, Forall (fun s => forall c, sproper E c s -> sproper E c (sparens s) /\ sfits (sparens s)) ss -> all (sproper E c) ss ->
    all (sproper E c) (map sparens ss) /\ all sfits (map sparens ss)) by (intros c ss H1 H2; eapply all_maps; [|exact H1|exact H2]; auto).
  assert (Ho : forall o, opt (fun e => proper E e -> proper E (parens e) /\ fits (parens e)) o -> opt (proper E) o -> opt (proper E) (option_map parens o) /\ opt fits (option_map parens o))
    by (intros es H1 H2; eapply opt_maps; [|exact H1|exact H2]; auto).
  assert (Hf : forall o, opt (fun e => proper E e -> proper E (parens e) /\ fits (parens e)) o -> opt (proper E) o ->
    opt (proper E) (option_map (fun e => for_head (parens e)) o) /\ opt (fun e => fits e /\ open_in e = false) (option_map (fun e => for_head (parens e)) o))
    by (intros es H1 H2; eapply opt_maps; [|exact H1|exact H2]; cbn; intros x G1 G2; apply for_ok; auto).
  apply syntax_ind; intros; cbn [proper parens fits fproper fparens ffits sproper sparens sfits] in *; conjs;
    repeat match goal with
    | IH : ?Q -> _ /\ _, H : ?Q |- _ => destruct (IH H); clear IH
    | IH : forall c, sproper E c ?s -> _ /\ _, H : sproper E ?c' ?s |- _ => destruct (IH c' H); clear IH
    | H : Forall _ ?l, K : all (proper E) ?l |- _ => destruct (He l H K); clear H
    | H : Forall _ ?l, K : all (sproper E ?c) ?l |- _ => destruct (Hs c l H K); clear H
    end;
    repeat match goal with |- _ /\ _ => split end; auto using proper_at, fits_at, assignable_parens, newable_callee, plain_parens; try (apply at_least_tight; try lia).
  all: try (pose proof (level_le k); unfold right_level; try destruct (_ =? _); lia).
  all: try (apply callee_ok; auto; fail).
  all: try (apply arrow_ok; auto; fail).
  all: try (apply statement_ok; auto; fail).
  all: try (apply Ho; auto; fail).
  all: try (apply Hf; auto; fail).
  - match goal with K : Forall _ ps, K' : all _ ps |- _ => eapply all_maps with (T := fun _ => True); [|exact K|exact K'] end. cbn. intros [x0 e0] G1 [G2 G3]. cbn in *. split; auto. split; auto. apply G1; auto.
  - match goal with K : Forall _ ps, K' : all _ ps |- _ => eapply all_maps with (S := fun _ => True); [|exact K|exact K'] end. cbn. intros [x0 e0] G1 [G2 G3]. cbn in *. split; auto. apply G1; auto.
  - eapply opt_maps with (T := fun _ => True); [|exact H|exact H2]. cbn. intros e G1 G2. split; auto. apply proper_at. apply G1; auto.
  - match goal with K : Forall _ ms, K' : all _ ms |- _ => eapply all_maps with (T := fun _ => True); [|exact K|exact K'] end. cbn. intros [x0 o] G1 (G2 & G3 & G4). cbn in *. split; auto. split; auto. split; auto. apply G1; auto.
  - eapply opt_maps with (S := fun _ => True); [|exact H|exact H2]. cbn. intros e G1 G2. split; auto. split; [apply fits_at; apply G1; auto|apply at_least_tight; lia].
  - match goal with K : Forall _ ms, K' : all _ ms |- _ => eapply all_maps with (S := fun _ => True); [|exact K|exact K'] end. cbn. intros [x0 o] G1 (G2 & G3 & G4). cbn in *. split; auto. apply G1; auto.
  - match goal with K : ds <> [] |- _ => destruct ds; [congruence|discriminate] end.
  - match goal with K : Forall _ ds, K' : all _ ds |- _ => eapply all_maps with (T := fun _ => True); [|exact K|exact K'] end. cbn. intros [x0 o] G1 (G2 & G3 & G4). cbn in *. split; auto. split; auto. split; [apply Ho; auto|].
    intros G. specialize (G4 G). destruct o; [discriminate|congruence].
  - match goal with K : Forall _ ds, K' : all _ ds |- _ => eapply all_maps with (S := fun _ => True); [|exact K|exact K'] end. cbn. intros [x0 o] G1 (G2 & G3 & G4). cbn in *. split; auto. apply Ho; auto.
  - destruct s' as [s'|]; auto. apply closed_ok; auto using plain_parens.
  - destruct s' as [s'|]; auto using plain_parens. eapply closed_ok; eauto using plain_parens.
  - destruct s' as [s'|]; cbn in *; conjs; auto. split; auto using plain_parens. match goal with K : forall c, sproper E c s' -> _ |- _ => apply K; auto end.
  - destruct s' as [s'|]; auto. eapply closed_ok; eauto using plain_parens.
  - destruct s' as [s'|]; cbn in *; conjs; auto. match goal with K : forall c, sproper E c s' -> _, K' : sproper E ?c s' |- _ => apply (K c K') end.
  - destruct s' as [s'|]; intros Hne; [|contradiction Hne; reflexivity]. eapply closed_ok; eauto using plain_parens.
  - destruct ss2 as [l|]; cbn in *; auto. eapply Hs; eauto.
  - destruct ss2 as [l|]; cbn in *; auto. eapply Hs; eauto.
  - match goal with K : cs <> [] |- _ => destruct cs; [congruence|discriminate] end.
  - match goal with K : (length (filter default cs) <= 1)%nat |- _ => revert K end.
    assert (G : length (filter default (map (fun a => (option_map parens (fst a), map sparens (snd a))) cs)) = length (filter default cs)).
    { clear. induction cs as [|[[e|] ss] cs IH]; cbn in *; auto. }
    rewrite G. auto.
  - match goal with K : Forall _ cs, K' : all _ cs |- _ => eapply all_maps with (T := fun _ => True); [|exact K|exact K'] end. cbn. intros [x0 o] [G1 G1'] [G2 G3]. cbn in *. split; auto. split; [apply Ho; auto|eapply Hs; eauto].
  - match goal with K : Forall _ cs, K' : all _ cs |- _ => eapply all_maps with (S := fun _ => True); [|exact K|exact K'] end. cbn. intros [x0 o] [G1 G1'] [G2 G3]. cbn in *. split; auto. split; [apply Ho; auto|eapply Hs; eauto].
  - eapply opt_maps with (T := fun _ => True); [|exact H|exact H2]. cbn. intros e G1 G2. split; auto. apply proper_at. apply G1; auto.
  - match goal with K : Forall _ ms, K' : all _ ms |- _ => eapply all_maps with (T := fun _ => True); [|exact K|exact K'] end. cbn. intros [x0 o] G1 (G2 & G3 & G4). cbn in *. split; auto. split; auto. split; auto. apply G1; auto.
  - eapply opt_maps with (S := fun _ => True); [|exact H|exact H2]. cbn. intros e G1 G2. split; auto. split; [apply fits_at; apply G1; auto|apply at_least_tight; lia].
  - match goal with K : Forall _ ms, K' : all _ ms |- _ => eapply all_maps with (S := fun _ => True); [|exact K|exact K'] end. cbn. intros [x0 o] G1 (G2 & G3 & G4). cbn in *. split; auto. apply G1; auto.
Qed.
Lemma parens_ok e : proper E e -> proper E (parens e) /\ fits (parens e).
Proof. apply parens_all. Qed.
Lemma bare_at q e : bare_exp (at_least q e) = bare_exp e.
Proof. unfold at_least. destruct (_ <? _); auto. Qed.
Lemma bare_callee e : bare_exp (callee e) = bare_exp e.
Proof. unfold callee. destruct (newable e); auto. Qed.
Lemma bare_statement e : bare_exp (statement e) = bare_exp e.
Proof. unfold statement. destruct (odd_first e); auto. Qed.
Lemma bare_arrow e : bare_exp (arrow_body e) = bare_exp e.
Proof. unfold arrow_body. destruct (brace_first e); auto. Qed.
Lemma bare_for e : bare_exp (for_head e) = bare_exp e.
Proof. unfold for_head. destruct (open_in e); auto. Qed.
Lemma bare_closed s : bare_stm (closed s) = bare_stm s.
Proof. unfold closed. destruct (open_if s); auto. Qed.
Lemma map_same A B C (f g : B -> C) (h : A -> B) l : Forall (fun x => f (h x) = g (h x)) l -> map f (map h l) = map g (map h l).
Proof. rewrite !map_map. apply map_ext_Forall. Qed.
Lemma map_comp A (f g : A -> A) l : Forall (fun x => f (g x) = f x) l -> map f (map g l) = map f l.
Proof. rewrite map_map. apply map_ext_Forall. Qed.
Lemma opt_comp A B (f : A -> B) (g : A -> A) o : opt (fun x => f (g x) = f x) o -> option_map f (option_map g o) = option_map f o.
Proof. destruct o; cbn; [congruence|auto]. Qed.
Lemma opt_for o : opt (fun e => bare_exp (parens e) = bare_exp e) o -> option_map bare_exp (option_map (fun e => for_head (parens e)) o) = option_map bare_exp o.
Proof. destruct o; cbn; auto. rewrite bare_for. congruence. Qed.
Lemma opt_sup o : opt (fun e => bare_exp (parens e) = bare_exp e) o -> option_map bare_exp (option_map (fun e => at_least 15 (parens e)) o) = option_map bare_exp o.
Proof. destruct o; cbn; auto. rewrite bare_at. congruence. Qed.
Lemma bare_all : (forall e, bare_exp (parens e) = bare_exp e) /\ (forall f, bare_fn (fparens f) = bare_fn f) /\ (forall s, bare_stm (sparens s) = bare_stm s).
Proof.
  apply syntax_ind; intros; cbn [parens bare_exp fparens bare_fn sparens bare_stm]; rewrite ?bare_at, ?bare_callee, ?bare_arrow, ?bare_statement, ?map_comp, ?opt_comp, ?opt_for, ?opt_sup by auto; try congruence.
  - f_equal. apply map_comp. eapply Forall_impl; [|exact H]. cbn. intros [x e] G. cbn in *. congruence.
  - f_equal. apply map_comp. eapply Forall_impl; [|exact H0]. cbn. intros [y f] G. cbn in *. congruence.
  - f_equal. apply map_comp. eapply Forall_impl; [|exact H]. cbn. intros [x o] G. cbn in *. rewrite opt_comp by auto. auto.
  - destruct ss as [|s [|s' ss]]; cbn [map]; [reflexivity|inversion H; auto|reflexivity].
  - destruct s' as [s'|]; cbn [option_map opt] in *; rewrite ?bare_closed; congruence.
  - rewrite !opt_comp by auto. congruence.
  - rewrite !opt_comp by auto. congruence.
  - destruct ss2 as [l|]; cbn [option_map opt_list] in *; auto. rewrite map_comp; auto.
  - f_equal; auto. apply map_comp. eapply Forall_impl; [|exact H0]. cbn. intros [o ss] [G1 G2]. cbn in *. rewrite opt_comp, map_comp by auto. auto.
  - f_equal. apply map_comp. eapply Forall_impl; [|exact H0]. cbn. intros [y f] G. cbn in *. congruence.
Qed.
Lemma bare_parens e : bare_exp (parens e) = bare_exp e.
Proof. apply bare_all. Qed.

Lemma at_least_id q e : q <= tight e -> at_least q e = e.
Proof. intros H. unfold at_least. apply N.ltb_ge in H. rewrite H. auto. Qed.
Lemma map_id_all A (f : A -> A) (Q : A -> Prop) l : Forall (fun x => Q x -> f x = x) l -> all Q l -> map f l = l.
Proof. induction 1; cbn; auto. intros [? ?]. f_equal; auto. Qed.
Lemma opt_id_all A (f : A -> A) (Q : A -> Prop) o : opt (fun x => Q x -> f x = x) o -> opt Q o -> option_map f o = o.
Proof. destruct o; cbn; auto. intros H1 H2. f_equal; auto. Qed.
Lemma fits_all : (forall e, fits e -> parens e = e) /\ (forall f, ffits f -> fparens f = f) /\ (forall s, sfits s -> sparens s = s).
Proof.
  apply syntax_ind; intros; cbn [parens fits fparens ffits sparens sfits] in *; conjs;
    repeat match goal with
    | IH : ?Q -> parens _ = _, H : ?Q |- _ => rewrite (IH H); clear IH
    | IH : ?Q -> fparens _ = _, H : ?Q |- _ => rewrite (IH H); clear IH
    | IH : ?Q -> sparens _ = _, H : ?Q |- _ => rewrite (IH H); clear IH
    | H : Forall _ ?l, K : all fits ?l |- context [map parens ?l] => rewrite (@map_id_all _ parens fits l H K); clear H
    | H : Forall _ ?l, K : all sfits ?l |- context [map sparens ?l] => rewrite (@map_id_all _ sparens sfits l H K); clear H
    | H : opt _ ?l, K : opt fits ?l |- context [option_map parens ?l] => rewrite (@opt_id_all _ parens fits l H K); clear H
    end; rewrite ?at_least_id by auto; auto.
  all: unfold callee, arrow_body, statement; repeat match goal with H : _ = _ |- _ => rewrite H end; auto.
  - f_equal. eapply map_id_all; [|exact H0]. eapply Forall_impl; [|exact H]. cbn. intros [x e] G1 G2. cbn in *. f_equal; auto.
  - f_equal.
    + destruct sup as [e|]; cbn in *; auto. conjs. match goal with K : fits e -> _ |- _ => rewrite K by auto end. rewrite at_least_id; auto.
    + eapply map_id_all; [|eassumption]. eapply Forall_impl; [|exact H0]. cbn. intros [x0 f] G1 G2. cbn in *. f_equal; auto.
  - f_equal. eapply map_id_all; [|exact H0]. eapply Forall_impl; [|exact H]. cbn. intros [x o] G1 G2. cbn in *. f_equal. eapply opt_id_all; eauto.
  - destruct s' as [s'|]; cbn in *; auto. unfold closed. match goal with K : Some _ <> None -> _ |- _ => rewrite K by discriminate end. match goal with K : sfits s' -> _ |- _ => rewrite K by auto end. auto.
  - f_equal. destruct i as [i|]; cbn in *; auto. conjs. unfold for_head. match goal with K : fits i -> _ |- _ => rewrite K by auto end. match goal with K : open_in i = _ |- _ => rewrite K end. auto.
  - f_equal. destruct i as [i|]; cbn in *; auto. conjs. unfold for_head. match goal with K : fits i -> _ |- _ => rewrite K by auto end. match goal with K : open_in i = _ |- _ => rewrite K end. auto.
  - f_equal. destruct ss2 as [l|]; cbn in *; auto. f_equal. eapply map_id_all; eauto.
  - f_equal. eapply map_id_all; [|eassumption]. eapply Forall_impl; [|exact H0]. cbn. intros [x0 o] [G1 G2] [G3 G4]. cbn in *. f_equal; [eapply opt_id_all|eapply map_id_all]; eauto.
  - f_equal.
    + destruct sup as [e|]; cbn in *; auto. conjs. match goal with K : fits e -> _ |- _ => rewrite K by auto end. rewrite at_least_id; auto.
    + eapply map_id_all; [|eassumption]. eapply Forall_impl; [|exact H0]. cbn. intros [x0 f] G1 G2. cbn in *. f_equal; auto.
Qed.
Lemma parens_fits e : fits e -> parens e = e.
Proof. apply fits_all. Qed.

(** ** Programs *)
Lemma stmts_ok c ss : all (sproper E c) ss -> all (sproper E c) (map sparens ss) /\ all sfits (map sparens ss).
Proof. intros H. eapply all_maps with (Q := fun _ => True); [|apply Forall_forall; auto|exact H]. intros x _. apply parens_all. Qed.
Lemma program_phr st ds ss : all (sproper E top_place) ss -> all sfits ss ->
  program E st ((dtoks ds ++ flat_map stoks ss) ++ [T false KEof]) (map (directive E) ds ++ map (stree E) ss).
Proof.
  intros H1 H2. destruct (@stmts_next top_place ss (T false KEof) H1 H2 eq_refl eq_refl) as (G1 & G2 & G3).
  assert (G4 : forall b w, next (flat_map stoks ss) (T false KEof) <> T b (KStr w)) by (apply G3; discriminate).
  assert (Hs : Forall sphr ss) by (apply Forall_forall; intros; apply phrases).
  assert (Q : forall b, quiet (top_mode b)) by (intros; reflexivity).
  destruct st; constructor.
  - assert (K : forall M, quiet M -> module_body E M (T false KEof) (flat_map stoks ss) (map (stree E) ss)).
    { intros M HM. apply mb_items; auto. clear G1 G2 G3 G4. induction Hs as [|s ss Hs Hl IH]; [apply ms_nil|]. cbn [all fold_right flat_map map] in *. destruct H1 as [H1 H1'], H2 as [H2 H2'].
      destruct (@stmts_next top_place ss (T false KEof) H1' H2' eq_refl eq_refl) as (G1 & G2 & _).
      apply ms_cons; auto. apply mi_item. apply Hs; auto. split; auto. }
    specialize (Q true). revert Q. generalize (top_mode true). induction ds as [|w ds IH]; intros M HM; [apply K; auto|].
    change (module_body E M (T false KEof) (T false (KStr w) :: [P false Semicolon] ++ dtoks ds ++ flat_map stoks ss) (ExpressionStatement (lit_tree E (VStr w)) nowhere :: map (directive E) ds ++ map (stree E) ss)).
    apply mb_directive; [constructor|]. apply IH. unfold quiet, directive_mode. destruct (str_eqb _ _); auto.
  - apply body_phr; auto. intros M HM. apply stmts_phr; auto.
Qed.
Lemma program_words ds ss c : all (sproper E c) ss -> sps (flat_map (fun w => [quoted 0x22 w; s2l ";"]) ds ++ flat_map swords ss) (dtoks ds ++ flat_map stoks ss).
Proof. intros H. apply sps_app; [apply sps_dirs|]. apply sps_flat. apply all_Forall in H. eapply Forall_impl; [|exact H]. cbn. intros s. apply sps_all. Qed.
Lemma program_some ds ss c : all (sproper E c) ss -> ds <> [] \/ ss <> [] -> flat_map (fun w => [quoted 0x22 w; s2l ";"]) ds ++ flat_map swords ss <> [].
Proof.
  intros H Hn G. pose proof (@program_words ds ss c H) as K. rewrite G in K. assert (K0 : dtoks ds ++ flat_map stoks ss = []) by (inversion K; auto). apply app_eq_nil in K0 as [K1 K2].
  destruct ds as [|d ds]; [|discriminate]. destruct ss as [|s ss]; [intuition congruence|].
  cbn [flat_map] in K2. apply app_eq_nil in K2 as [K2 _]. destruct s; cbn [stoks] in K2; try (destruct k; discriminate); try discriminate; apply app_eq_nil in K2 as [_ K2]; discriminate.
Qed.
Lemma spaced_some ws : ws <> [] -> spaced ws <> [].
Proof. destruct ws as [|w ws]; [congruence|]. intros _ G. change ((w ++ s2l " ") ++ flat_map (fun w => w ++ s2l " ") ws = []) in G. apply app_eq_nil in G as [G _]. apply app_eq_nil in G as [_ G]. discriminate. Qed.
Theorem program_round_trip ds ss : all (sproper E top_place) ss -> all sfits ss -> ds <> [] \/ ss <> [] ->
  exists t, parse_script E (print_program ds ss) = Ok t /\ bare_node t = Program (map (directive E) ds ++ map (stree E) ss) "script" nowhere.
Proof.
  intros H1 H2 H3. assert (H4 := @program_some ds ss _ H1 H3).
  eapply script_parses; [auto|apply sps_source; [exact H4|eapply program_words; eauto]|apply program_phr; auto|]. intros _. apply spaced_some; auto.
Qed.
Theorem program_round_trip_module ds ss : all (sproper E top_place) ss -> all sfits ss -> ds <> [] \/ ss <> [] ->
  exists t, parse_module E (print_program ds ss) = Ok t /\ bare_node t = Program (map (directive E) ds ++ map (stree E) ss) "module" nowhere.
Proof.
  intros H1 H2 H3. assert (H4 := @program_some ds ss _ H1 H3).
  eapply module_parses; [auto|apply sps_source; [exact H4|eapply program_words; eauto]|apply program_phr; auto|]. intros _. apply spaced_some; auto.
Qed.
(** A single expression. *)
Lemma one_statement e : proper E e -> fits e -> print (statement e) = print_program [] [SExp (statement e)] /\
  all (sproper E top_place) [SExp (statement e)] /\ all sfits [SExp (statement e)].
Proof.
  intros H1 H2. destruct (@statement_ok e (conj H1 H2)) as (G1 & G2 & G3). split; [|cbn; auto].
  unfold print, print_program. cbn [flat_map app swords]. rewrite List.app_nil_r. reflexivity.
Qed.
Theorem round_trip e : proper E e -> fits e ->
  exists t, parse_script E (print (statement e)) = Ok t /\ bare_node t = Program [ExpressionStatement (tree_of E (statement e)) nowhere] "script" nowhere.
Proof. intros H1 H2. destruct (@one_statement e H1 H2) as (-> & G1 & G2). apply (@program_round_trip [] [SExp (statement e)]); auto. right. discriminate. Qed.
Theorem round_trip_module e : proper E e -> fits e ->
  exists t, parse_module E (print (statement e)) = Ok t /\ bare_node t = Program [ExpressionStatement (tree_of E (statement e)) nowhere] "module" nowhere.
Proof. intros H1 H2. destruct (@one_statement e H1 H2) as (-> & G1 & G2). apply (@program_round_trip_module [] [SExp (statement e)]); auto. right. discriminate. Qed.
End Print.
Theorem unambiguous E ds ss ds' ss' : ucd_sane E -> ucd_continue E 32 = false ->
  all (sproper E top_place) ss -> all sfits ss -> all (sproper E top_place) ss' -> all sfits ss' ->
  print_program ds ss = print_program ds' ss' ->
  map (directive E) ds ++ map (stree E) ss = map (directive E) ds' ++ map (stree E) ss'.
Proof.
  intros H1 H2 H3 H4 H5 H6 H. 
  assert (D : forall (A B : Type) (l : list A) (l' : list B), (l <> [] \/ l' <> []) \/ (l = [] /\ l' = [])) by (intros A B [|] [|]; auto; left; (left; discriminate) || (right; discriminate)).
  destruct (D _ _ ds ss) as [G|[-> ->]], (D _ _ ds' ss') as [G'|[-> ->]]; auto.
  - destruct (@program_round_trip E H1 H2 ds ss H3 H4 G) as (t & T1 & T2). destruct (@program_round_trip E H1 H2 ds' ss' H5 H6 G') as (t' & T3 & T4).
    rewrite H in T1. rewrite T1 in T3. injection T3 as ->. rewrite T2 in T4. injection T4. auto.
  - exfalso. eapply spaced_some; [eapply program_some; [exact H2|exact H3|exact G]|exact H].
  - exfalso. eapply spaced_some; [eapply program_some; [exact H2|exact H5|exact G']|symmetry; exact H].
Qed.
