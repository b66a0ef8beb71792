(** * GramExpr: the parser on the expressions of the grammar (proofs). *)
From Verif Require Import Base Codepoint Punct Token Scanner SpecLex SpecScan Hoare ScanBase ScanTokens2.
From Verif Require Import Ast Convert ParserBase ParserExpr ParserStmt Parser SpecJson SpecBare SpecLayout SpecGrammar GramLex GramBase GramTac.
From Coq Require Import ZifyBool ZifyN ZifyNat.
Set Implicit Arguments.

(** The parameters allow what the mode allows. *)
Definition mok (M : mode) (F : fr) : Prop :=
  has_yield (fprm F) = in_generator M /\ (m_await M = true -> has_await (fprm F) = true) /\ fstrict F = m_strict M.
Definition eok (M : mode) (F : fr) (inn : bool) : Prop := mok M F /\ has_in (fprm F) = inn.
Lemma eok_in M F : mok M F -> eok M (setp (set_in true) F) true.
Proof. intros H. split; [exact H|reflexivity]. Qed.
Lemma eok_noin M F : mok M F -> eok M (setp (set_in false) F) false.
Proof. intros H. split; [exact H|reflexivity]. Qed.
Lemma eok_mok M F i : eok M F i -> mok M F.
Proof. intros H; apply H. Qed.
Lemma mok_ya M y a F : in_generator M = y -> (m_await M = true -> a = true) -> fstrict F = m_strict M -> mok M (setp (ya y a) F).
Proof. intros H1 H2 H3. unfold mok. splits; [symmetry; exact H1|exact H2|exact H3]. Qed.
Lemma eok_ya M F i y a : in_generator M = y -> (m_await M = true -> a = true) -> fstrict F = m_strict M -> has_in (fprm F) = i -> eok M (setp (ya y a) F) i.
Proof. intros H1 H2 H3 H4. split; [apply mok_ya; auto|exact H4]. Qed.
Lemma gen_no_here y : match no_here y with NoYield => false | _ => true end = match y with NoYield => false | _ => true end.
Proof. destruct y; reflexivity. Qed.
Lemma mok_params M F : mok M F -> mok (params_mode M) F.
Proof. intros (H1 & H2 & H3). unfold mok. splits; [rewrite H1; symmetry; apply gen_no_here|discriminate|exact H3]. Qed.
Lemma mok_fun M F : mok M F -> mok (fun_mode M) F.
Proof. intros (H1 & H2 & H3). unfold mok. splits; [rewrite H1; symmetry; apply gen_no_here|discriminate|exact H3]. Qed.
Lemma mok_async M F : mok M F -> mok (async_mode M) F.
Proof. intros (H1 & H2 & H3). unfold mok. splits; [rewrite H1; symmetry; apply gen_no_here|exact H2|exact H3]. Qed.
(** The mode [M0] of a function met in the mode [M]. *)
Definition allows (M M0 : mode) (y a : bool) : Prop := in_generator M0 = y /\ (m_await M0 = true -> a = true) /\ m_strict M0 = m_strict M.
Lemma allows_mok M M0 y a F : mok M F -> allows M M0 y a -> mok M0 (setp (ya y a) F).
Proof. intros (_ & _ & H) (H1 & H2 & H3). apply mok_ya; auto. congruence. Qed.

Section Expr.
Context (E : env).
Hypothesis Hsane : ucd_sane E.
Notation ht := (ht E).
Notation does := (does E).
Notation lit_tree := (lit_tree E).

(** ** Names *)
Lemma ht_strict' {B} x b u F m (K : bool -> PM B) Q : is_strict_reserved_kw (ktok (KI x)) = Some false ->
  ht (Id b x :: u) F m (K false) Q -> ht (Id b x :: u) F m (bind strict_reserved K) Q.
Proof.
  intros Hx H. unfold strict_reserved. go.
  destruct (strict c); [|go; exact H]. eapply ht_unwrap; [krw; apply Hx; auto|]. exact H.
Qed.
Lemma async_ref b u F m : u <> [] ->
  does (Id b (s2l "async") :: u) F m (parse_id_reference E) (fun e => exists a sp, e = Identifier (s2l "async") a sp) u m.
Proof. intros Hu. unfold parse_id_reference. go. apply ht_strict'; [reflexivity|]. go. fin. eauto. Qed.
Lemma ht_strict {B} x b u F m (K : bool -> PM B) Q : ident x ->
  ht (Id b x :: u) F m (K false) Q -> ht (Id b x :: u) F m (bind strict_reserved K) Q.
Proof.
  intros Hx H. unfold strict_reserved. go.
  destruct (strict c); [|go; exact H]. eapply ht_unwrap; [krw; apply ident_strict; auto|]. exact H.
Qed.
Lemma id_ref x b u F m : ident x -> u <> [] ->
  does (Id b x :: u) F m (parse_id_reference E)
    (fun e => exists a sp, e = Identifier x a sp /\ (target (id_tree x) = true -> a = ASimple)) u m.
Proof.
  intros Hx Hu. unfold parse_id_reference. go. apply ht_strict; auto. go. fin.
  eexists _, _. split; [reflexivity|]. cbn [target]. intros Ht. apply negb_true_iff in Ht. rewrite Ht. reflexivity.
Qed.
Lemma bind_id x b u F m : ident x -> u <> [] ->
  does (Id b x :: u) F m (parse_binding_id E) (fun e => exists sp, e = B_Id x sp) u m.
Proof. intros Hx Hu. unfold parse_binding_id. go. apply ht_strict; auto. go. fin. eauto. Qed.
Lemma id_name t x u F m g : name_tok t x -> u <> [] -> (g = GRegExp -> slashfree u) -> (g = GDiv -> is_regexp (hd t u) = false) ->
  does (t :: u) F m (parse_id_name E g) (eq x) u m.
Proof.
  intros Ht Hu Hg Hd. unfold parse_id_name. destruct Ht as [b y|b w Hw]; go.
  all: apply ht_advg; auto; intros t' Ht'; cbn [knd] in Ht'; go; fin; reflexivity.
Qed.

(** ** What the functions do *)
Definition P_prim F l nt e := forall n n2 rest m,
  does (l ++ nt :: rest) F m (parse_primary_expr E n (run E n2)) (tr e) (nt :: rest) m.
Definition P_member F l nt e := forall n n2 rest m Q,
  (forall k e', tr e e' -> ht (nt :: rest) F m (member_tail E n (run E n2) k e') Q) ->
  ht (l ++ nt :: rest) F m (parse_member_expr E n (run E n2)) Q.
Definition P_call F new l nt e := forall n n2 rest m Q,
  (forall k e', tr e e' -> ht (nt :: rest) F (S m) (call_tail E n (run E n2) k e') Q) ->
  ht (l ++ nt :: rest) F (mk new m) (parse_left_hand_side_expr E n (run E n2)) Q.
Definition P_left F new l nt e := forall n n2 rest m,
  does (l ++ nt :: rest) F (mk new m) (parse_left_hand_side_expr E n (run E n2)) (tr e) (nt :: rest) m.
Definition P_update F lone l nt e := forall n n2 rest m,
  does (l ++ nt :: rest) F m (parse_update_expr E n (run E n2)) (tr e) (nt :: rest) (mk (negb lone) m).
Definition P_unary F lone l nt e := forall n n2 rest m,
  does (l ++ nt :: rest) F m (parse_unary_expr E n (run E n2)) (tr e) (nt :: rest) (mk (negb lone) m).
Definition P_exp F lone l nt e := forall n n2 rest m,
  does (l ++ nt :: rest) F m (parse_exponentiation_expr E n (run E n2)) (tr e) (nt :: rest) (mk (negb lone) m).
Definition P_cond F l nt e := forall n n2 rest m,
  does (l ++ nt :: rest) F m (parse_conditional_expr E n (run E n2)) (tr e) (nt :: rest) m.
Definition P_assign F l nt e := forall n n2 rest m,
  does (l ++ nt :: rest) F m (parse_assignment_expr E n (run E n2)) (tr e) (nt :: rest) m.
Definition P_expr F l nt e := forall n n2 rest m,
  does (l ++ nt :: rest) F m (parse_expression E n (run E n2)) (tr e) (nt :: rest) m.

(** The same through the handler. *)
Lemma via_unary F lone l nt e : P_unary F lone l nt e -> forall n2 rest m,
  does (l ++ nt :: rest) F m (h_unary (run E n2)) (tr e) (nt :: rest) (mk (negb lone) m).
Proof. intros H [|n2] rest m; [apply ht_fuel|]. apply H. Qed.
Lemma via_exp F lone l nt e : P_exp F lone l nt e -> forall n2 rest m,
  does (l ++ nt :: rest) F m (h_exp (run E n2)) (tr e) (nt :: rest) (mk (negb lone) m).
Proof. intros H [|n2] rest m; [apply ht_fuel|]. apply H. Qed.
Lemma via_assign F l nt e : P_assign F l nt e -> forall n2 rest m,
  does (l ++ nt :: rest) F m (h_assign (run E n2)) (tr e) (nt :: rest) m.
Proof. intros H [|n2] rest m; [apply ht_fuel|]. apply H. Qed.
Lemma via_expr F l nt e : P_expr F l nt e -> forall n2 rest m,
  does (l ++ nt :: rest) F m (h_expression (run E n2)) (tr e) (nt :: rest) m.
Proof. intros H [|n2] rest m; [apply ht_fuel|]. apply H. Qed.

Lemma tr_plain e e' : bare_node e' = e -> good e' = true -> tr e e'.
Proof. intros H Ht. split; auto. Qed.
Lemma nn {A} (l : list A) x r : l ++ x :: r <> [].
Proof. destruct l; discriminate. Qed.
Hint Resolve nn : gr.

(** ** Literals and names *)
Lemma r_this F b nt : P_prim F [W b "this"] nt (ThisExpression ASimple nowhere).
Proof. intros n n2 rest m. unfold parse_primary_expr. norm. go. fin. apply tr_plain; reflexivity. Qed.
Lemma r_id F b x nt : ident x -> P_prim F [Id b x] nt (id_tree x).
Proof.
  intros Hx n n2 rest m. unfold parse_primary_expr. norm. go. eapply does_conseq; [| |apply id_ref; auto]; [lia| |discriminate].
  intros e' (a & sp & -> & Ha). split; [reflexivity|]. cbn [good target id_tree] in *. destruct (_ || _); [reflexivity|]. rewrite Ha; reflexivity.
Qed.
Lemma r_num F b x nt : P_prim F [T b (KNum x)] nt (lit_tree (VNum x)).
Proof. intros n n2 rest m. unfold parse_primary_expr. norm. go. fin. krw. apply tr_plain; reflexivity. Qed.
Lemma r_str F b x nt : P_prim F [T b (KStr x)] nt (lit_tree (VStr x)).
Proof. intros n n2 rest m. unfold parse_primary_expr. norm. go. fin. krw. apply tr_plain; reflexivity. Qed.
Lemma r_null F b nt : P_prim F [T b KNull] nt (lit_tree VNull).
Proof. intros n n2 rest m. unfold parse_primary_expr. norm. go. fin. krw. apply tr_plain; reflexivity. Qed.
Lemma r_bool F b v nt : P_prim F [T b (KBool v)] nt (lit_tree (VStr (s2l (if v then "true" else "false")))).
Proof. intros n n2 rest m. unfold parse_primary_expr. norm. go. fin. krw. apply tr_plain; destruct v; reflexivity. Qed.
Lemma r_regexp F b p f nt : P_prim F [T b (KRegex p f)] nt (RegexLiteral [] [] (mkRegex p f) ASimple nowhere).
Proof.
  intros n n2 rest m. unfold parse_primary_expr. norm. go. destruct Kt0 as (_ & _ & Kp & Kf). rewrite Kp, Kf. go. fin.
  apply tr_plain; reflexivity.
Qed.

(** ** Templates *)
Definition P_template F l nt (p : list template_element * list node) := forall n n2 rest m,
  does (l ++ nt :: rest) F m (template_literal E n (run E n2)) (fun x => fst (fst x) = fst p /\ map bare_node (snd (fst x)) = snd p) (nt :: rest) m.
Definition P_trest F l nt (p : list template_element * list node) := forall k n2 rest m,
  does (l ++ nt :: rest) F m (template_rest E (run E n2) k false) (fun x => fst x = fst p /\ map bare_node (snd x) = snd p) (nt :: rest) m.
Lemma piece F m b h tl w v u : u <> [] -> does (T b (KTempl h tl w v) :: u) F m (template_piece E) (eq (mkTE v w tl)) u m.
Proof.
  intros Hu. unfold template_piece. go. pose proof Kt as (_ & _ & K1 & K2 & K3). rewrite K1, K3. go. fin. krw. reflexivity.
Qed.
Lemma r_template_one F b w v nt : P_template F [T b (KTempl true true w v)] nt ([mkTE v w true], []).
Proof.
  intros n n2 rest m. unfold template_literal, parse_template_head. norm. go. pose proof Kt as (_ & _ & K1 & K2 & K3). rewrite K2.
  eapply ht_use; [apply piece; discriminate|]. intros q <-. destruct n as [|n]; [apply ht_fuel_bind|]. cbn [template_rest te_tail]. go. fin.
  split; reflexivity.
Qed.
Lemma r_template_head F b w v l nt qs es : P_trest F l nt (qs, es) -> P_template F (T b (KTempl true false w v) :: l) nt (mkTE v w false :: qs, es).
Proof.
  intros H n n2 rest m. unfold template_literal, parse_template_head. norm. go. pose proof Kt as (_ & _ & K1 & K2 & K3). rewrite K2.
  eapply ht_use; [apply piece; apply nn|]. intros q <-. cbn [te_tail]. eapply ht_use; [apply H|]. intros [qs' es'] [H1 H2]. cbn [fst snd] in *. go. fin.
  cbn [fst snd]. split; congruence.
Qed.
Lemma r_template_last F l b w v nt e : starts start_as l -> P_expr (setp (set_in true) F) l (T b (KTempl false true w v)) e ->
  P_trest F (l ++ [T b (KTempl false true w v)]) nt ([mkTE v w true], [e]).
Proof.
  intros Hl H k n2 rest m. destruct k as [|k]; [apply ht_fuel|]. cbn [template_rest]. unfold expression_in, parse_template_element. norm. go.
  eapply ht_use; [apply (via_expr H)|]. intros e' He. go. eapply ht_use; [apply piece; discriminate|]. intros q <-. cbn [te_tail].
  destruct k as [|k]; [apply ht_fuel_bind|]. cbn [template_rest]. go. fin. cbn [fst snd map]. rewrite (tr_bare He). split; reflexivity.
Qed.
Lemma r_template_more F l b w v l' nt e qs es : starts start_as l -> P_expr (setp (set_in true) F) l (T b (KTempl false false w v)) e -> P_trest F l' nt (qs, es) ->
  P_trest F (l ++ T b (KTempl false false w v) :: l') nt (mkTE v w false :: qs, e :: es).
Proof.
  intros Hl H H' k n2 rest m. destruct k as [|k]; [apply ht_fuel|]. cbn [template_rest]. unfold expression_in, parse_template_element. norm. go.
  eapply ht_use; [apply (via_expr H)|]. intros e' He. go. eapply ht_use; [apply piece; apply nn|]. intros q <-. cbn [te_tail].
  eapply ht_use; [apply H'|]. intros [qs' es'] [H1 H2]. cbn [fst snd] in *. go. fin. cbn [fst snd map]. rewrite (tr_bare He). split; congruence.
Qed.
Lemma r_template F l nt qs es b tl w v l0 : l = T b (KTempl true tl w v) :: l0 -> P_template F l nt (qs, es) -> P_prim F l nt (TemplateLiteral qs es ASimple nowhere).
Proof.
  intros Hl H n n2 rest m. unfold parse_primary_expr. specialize (H n n2 rest m). subst l. norm. cbn [app] in H. go. unfold parse_template_literal.
  eapply ht_use; [apply H|]. intros [[qs' es'] sp] [H1 H2]. cbn [fst snd] in *. fin. subst. apply tr_plain; reflexivity.
Qed.
Lemma tagged F l nt rest n n2 m qs es e e' : tr e e' -> P_template F l nt (qs, es) ->
  does (l ++ nt :: rest) F m (tagged_template E n (run E n2) e') (tr (TaggedTemplateExpression e qs es nowhere)) (nt :: rest) m.
Proof.
  intros He H. unfold tagged_template. eapply ht_use; [apply H|]. intros [[qs' es'] sp] [H1 H2]. cbn [fst snd] in *. fin. subst.
  apply tr_plain; [|reflexivity]. cbn [bare_node]. rewrite (tr_bare He). reflexivity.
Qed.

(** ** Member, call and new expressions *)
Lemma static_member F m b t x nt rest e e' : tr e e' -> name_tok t x -> is_regexp nt = false -> let u := nt :: rest in
  does (P b Dot :: t :: u) F m (parse_static_member_expr E e') (tr (StaticMemberExpression false e (id_tree x) ASimple nowhere)) u m.
Proof.
  intros He Ht Hnt u. unfold parse_static_member_expr. unfold consume_p. go.
  apply ht_advr; [exact Hsane|destruct Ht; split; reflexivity|]. intros t1 Kt1. go.
  eapply ht_use; [apply (@id_name t x u); auto; discriminate|]. intros y <-. go. fin.
  split; [|reflexivity]. cbn [bare_node]. rewrite (tr_bare He). reflexivity.
Qed.
Lemma computed_member n2 F m b b' l' u e e' i : tr e e' -> starts start_as l' ->
  P_expr (setp (set_in true) F) l' (P b' RBracket) i -> u <> [] ->
  does (P b LBracket :: l' ++ P b' RBracket :: u) F m (parse_computed_member_expr E (run E n2) e')
    (tr (ComputedMemberExpression true e i ASimple nowhere)) u m.
Proof.
  intros He Hl Hi Hu. unfold parse_computed_member_expr, expression_in. go.
  eapply ht_use; [apply (via_expr Hi)|]. intros y Hy. go. fin.
  split; [|reflexivity]. cbn [bare_node]. rewrite (tr_bare He), (tr_bare Hy). reflexivity.
Qed.
Lemma r_member_prim F l nt e : starts start_prim l -> P_prim F l nt e -> P_member F l nt e.
Proof.
  intros Hs H n n2 rest m Q HQ. unfold parse_member_expr. destruct l as [|[b k] l]; [contradiction|]. cbn [starts knd] in Hs.
  norm. go. eapply ht_use; [apply H|]. intros e' He. apply HQ; auto.
Qed.
Lemma r_member_dot F l nt b t x e : P_member F l (P b Dot) e -> name_tok t x -> is_regexp nt = false ->
  P_member F (l ++ [P b Dot; t]) nt (StaticMemberExpression false e (id_tree x) ASimple nowhere).
Proof.
  intros H Ht Hnt n n2 rest m Q HQ. norm. apply H. intros [|k] e' He; [apply ht_fuel|]. cbn [member_tail]. go.
  eapply ht_use; [apply static_member; eauto|]. auto.
Qed.
Lemma r_member_index F l l' nt b b' e i : P_member F l (P b LBracket) e -> starts start_as l' ->
  P_expr (setp (set_in true) F) l' (P b' RBracket) i ->
  P_member F (l ++ P b LBracket :: l' ++ [P b' RBracket]) nt (ComputedMemberExpression true e i ASimple nowhere).
Proof.
  intros H Hl Hi n n2 rest m Q HQ. norm. apply H. intros [|k] e' He; [apply ht_fuel|]. cbn [member_tail]. go.
  eapply ht_use; [apply computed_member; eauto; discriminate|]. auto.
Qed.
Lemma r_member_template F l l' nt e qs es b tl w v l0 : l' = T b (KTempl true tl w v) :: l0 -> P_member F l (T b (KTempl true tl w v)) e -> P_template F l' nt (qs, es) ->
  P_member F (l ++ l') nt (TaggedTemplateExpression e qs es nowhere).
Proof.
  intros Hl H Ht n n2 rest m Q HQ. norm. pose proof (fun e e' He => @tagged F l' nt rest n n2 m qs es e e' He Ht) as Ht'. subst l'. cbn [app] in *.
  apply H. intros [|k] e' He; [apply ht_fuel|]. cbn [member_tail]. go.
  eapply ht_use; [apply Ht'; eauto|]. auto.
Qed.
Lemma r_call_template F new l l' nt e qs es b tl w v l0 : l' = T b (KTempl true tl w v) :: l0 -> P_call F new l (T b (KTempl true tl w v)) e -> P_template F l' nt (qs, es) ->
  P_call F new (l ++ l') nt (TaggedTemplateExpression e qs es nowhere).
Proof.
  intros Hl H Ht n n2 rest m Q HQ. norm. pose proof (fun e e' He => @tagged F l' nt rest n n2 (S m) qs es e e' He Ht) as Ht'. subst l'. cbn [app] in *.
  apply H. intros [|k] e' He; [apply ht_fuel|]. cbn [call_tail]. go.
  eapply ht_use; [apply Ht'; eauto|]. auto.
Qed.
Definition P_args F l nt args := forall n n2 rest m,
  does (l ++ nt :: rest) F m (parse_arguments E n (run E n2)) (fun a => map bare_arg a = args) (nt :: rest) m.
Lemma member_end n n2 F m nt rest k e e' : tr e e' -> tok_punc (kt nt) LBracket = false -> tok_punc (kt nt) Dot = false -> tok_template_head (kt nt) = false ->
  does (nt :: rest) F m (member_tail E n (run E n2) k e') (tr e) (nt :: rest) m.
Proof. intros He H1 H2 H3. destruct k as [|k]; [apply ht_fuel|]. cbn [member_tail]. go. fin. auto. Qed.
Lemma member_does F l nt e n n2 rest m : P_member F l nt e -> tok_punc (kt nt) LBracket = false -> tok_punc (kt nt) Dot = false -> tok_template_head (kt nt) = false ->
  does (l ++ nt :: rest) F m (parse_member_expr E n (run E n2)) (tr e) (nt :: rest) m.
Proof. intros H H1 H2 H3. apply H. intros k e' He. apply member_end; auto. Qed.
Lemma args_first (l : list tok) nt rest b l0 : l = P b LParen :: l0 -> l ++ nt :: rest = P b LParen :: l0 ++ nt :: rest.
Proof. intros ->. reflexivity. Qed.
Lemma r_call_member F l l' nt e args b l0 : starts start_prim l -> l' = P b LParen :: l0 -> P_member F l (P b LParen) e -> P_args F l' nt args ->
  P_call F false (l ++ l') nt (CallExpression e args ASimple nowhere).
Proof.
  intros Hl Hl' H Ha n n2 rest m Q HQ. unfold parse_left_hand_side_expr. destruct l as [|[b0 k0] l]; [contradiction|]. cbn [starts knd] in Hl.
  norm. cbn [mk]. go. unfold parse_call_expr. go. specialize (Ha n n2 rest). subst l'. cbn [app] in *.
  eapply ht_use; [apply (@member_does F (T b0 k0 :: l)); [exact H|reflexivity..]|].
  intros e' He. destruct n as [|n]; [apply ht_fuel|]. cbn [call_tail]. go.
  eapply ht_use; [apply Ha|]. intros a Hx. go. apply HQ. apply tr_plain; [|reflexivity].
  cbn [bare_node]. rewrite (tr_bare He), Hx. reflexivity.
Qed.
Lemma r_call_new F l l' nt e args b b1 l0 : starts start_prim l -> l' = P b1 LParen :: l0 -> P_member F l (P b1 LParen) e -> P_args F l' nt args ->
  P_call F true (W b "new" :: l ++ l') nt (NewExpression e args ASimple nowhere).
Proof.
  intros Hl Hl' H Ha n n2 rest m Q HQ. unfold parse_left_hand_side_expr. destruct l as [|[b0 k0] l]; [contradiction|]. cbn [starts knd] in Hl.
  norm. cbn [mk]. go. unfold parse_new_expr. go. specialize (Ha n n2 rest). subst l'. cbn [app] in *.
  eapply ht_use; [apply (@member_does F (T b0 k0 :: l)); [exact H|reflexivity..]|].
  intros e' He. go. eapply ht_use; [apply Ha|]. intros a Hx. go. apply HQ. apply tr_plain; [|reflexivity].
  cbn [bare_node]. rewrite (tr_bare He), Hx. reflexivity.
Qed.
Lemma r_call_again F new l l' nt e args b l0 : l' = P b LParen :: l0 -> P_call F new l (P b LParen) e -> P_args F l' nt args ->
  P_call F new (l ++ l') nt (CallExpression e args ASimple nowhere).
Proof.
  intros Hl' H Ha n n2 rest m Q HQ. specialize (Ha n n2 rest). subst l'. norm. cbn [app] in Ha. apply H. intros [|k] e' He; [apply ht_fuel|].
  cbn [call_tail]. go. eapply ht_use; [apply Ha|]. intros a Hx. go. apply HQ. apply tr_plain; [|reflexivity].
  cbn [bare_node]. rewrite (tr_bare He), Hx. reflexivity.
Qed.
Lemma r_call_dot F new l nt b t x e : P_call F new l (P b Dot) e -> name_tok t x -> is_regexp nt = false ->
  P_call F new (l ++ [P b Dot; t]) nt (StaticMemberExpression false e (id_tree x) ASimple nowhere).
Proof.
  intros H Ht Hnt n n2 rest m Q HQ. norm. apply H. intros [|k] e' He; [apply ht_fuel|]. cbn [call_tail]. go.
  eapply ht_use; [apply static_member; eauto|]. auto.
Qed.
Lemma r_call_index F new l l' nt b b' e i : P_call F new l (P b LBracket) e -> starts start_as l' ->
  P_expr (setp (set_in true) F) l' (P b' RBracket) i ->
  P_call F new (l ++ P b LBracket :: l' ++ [P b' RBracket]) nt (ComputedMemberExpression true e i ASimple nowhere).
Proof.
  intros H Hl Hi n n2 rest m Q HQ. norm. apply H. intros [|k] e' He; [apply ht_fuel|]. cbn [call_tail]. go.
  eapply ht_use; [apply computed_member; eauto; discriminate|]. auto.
Qed.
Lemma call_end n n2 F m nt rest k e e' : tr e e' -> ok_lhs nt ->
  does (nt :: rest) F (S m) (call_tail E n (run E n2) k e') (tr e) (nt :: rest) m.
Proof. intros He [H1 H2 H3 H4]. destruct k as [|k]; [apply ht_fuel|]. cbn [call_tail]. go. fin. auto. Qed.
Lemma r_left_call F new l nt e : ok_lhs nt -> P_call F new l nt e -> P_left F new l nt e.
Proof. intros Hn H n n2 rest m. apply H. intros k e' He. apply call_end; auto. Qed.
Lemma r_left_member F l nt e : starts start_prim l -> ok_lhs nt -> P_member F l nt e -> P_left F false l nt e.
Proof.
  intros Hl Hn H n n2 rest m. unfold parse_left_hand_side_expr. destruct l as [|[b0 k0] l]; [contradiction|]. cbn [starts knd] in Hl.
  norm. cbn [mk]. go. unfold parse_call_expr. go.
  eapply ht_use; [apply (@member_does F (T b0 k0 :: l)); [exact H|apply Hn..]|].
  intros e' He. apply call_end; auto.
Qed.
Lemma r_left_new F l nt b e : starts start_prim l -> ok_lhs nt -> P_member F l nt e ->
  P_left F true (W b "new" :: l) nt (NewExpression e [] ASimple nowhere).
Proof.
  intros Hl Hn H n n2 rest m. unfold parse_left_hand_side_expr. destruct l as [|[b0 k0] l]; [contradiction|]. cbn [starts knd] in Hl.
  norm. cbn [mk]. go. unfold parse_new_expr. go.
  eapply ht_use; [apply (@member_does F (T b0 k0 :: l)); [exact H|apply Hn..]|].
  intros e' He. pose proof (ol_paren Hn) as Hp. go. apply call_end; auto. apply tr_plain; [|reflexivity].
  cbn [bare_node map]. rewrite (tr_bare He). reflexivity.
Qed.

(** ** super and new.target *)
Lemma super_start F b t u m B (K : node -> PM B) Q : In (knd t) [KP LParen; KP LBracket; KP Dot] -> 
  (forall e', tr (Super ASimple nowhere) e' -> ht (t :: u) F m (K e') Q) ->
  ht (W b "super" :: t :: u) F m (bind (parse_super E) K) Q.
Proof.
  intros Ht HQ. unfold parse_super. destruct t as [b0 k]. cbn [In knd] in Ht. destruct Ht as [<-|[<-|[<-|[]]]].
  all: go; apply HQ; apply tr_plain; reflexivity.
Qed.
Lemma r_call_super F b l nt args b1 l0 : l = P b1 LParen :: l0 -> P_args F l nt args ->
  P_call F false (W b "super" :: l) nt (CallExpression (Super ASimple nowhere) args ASimple nowhere).
Proof.
  intros Hl H n n2 rest m Q HQ. unfold parse_left_hand_side_expr, parse_call_expr. specialize (H n n2 rest). subst l. norm. cbn [app mk] in *. go.
  apply super_start; [cbn; tauto|]. intros x Hx. go. eapply ht_use; [apply H|]. intros y Hy. go. apply HQ.
  apply tr_plain; [|reflexivity]. cbn [bare_node]. rewrite (tr_bare Hx), Hy. reflexivity.
Qed.
Lemma r_call_super_dot F b b' t x nt : name_tok t x -> is_regexp nt = false ->
  P_call F false [W b "super"; P b' Dot; t] nt (StaticMemberExpression false (Super ASimple nowhere) (id_tree x) ASimple nowhere).
Proof.
  intros Ht Hnt n n2 rest m Q HQ. unfold parse_left_hand_side_expr, parse_call_expr. norm. cbn [mk]. go.
  apply super_start; [cbn; tauto|]. intros y Hy. go. eapply ht_use; [eapply static_member; eauto|]. intros z Hz. apply HQ; auto.
Qed.
Lemma r_call_super_index F b b' l b'' nt i : starts start_as l -> P_expr (setp (set_in true) F) l (P b'' RBracket) i ->
  P_call F false (W b "super" :: P b' LBracket :: l ++ [P b'' RBracket]) nt (ComputedMemberExpression true (Super ASimple nowhere) i ASimple nowhere).
Proof.
  intros Hl H n n2 rest m Q HQ. unfold parse_left_hand_side_expr, parse_call_expr. norm. cbn [mk]. go.
  apply super_start; [cbn; tauto|]. intros y Hy. go. eapply ht_use; [eapply computed_member; eauto; discriminate|]. intros z Hz. apply HQ; auto.
Qed.
Lemma r_left_target F b b' b'' nt : P_left F false [W b "new"; P b' Dot; Id b'' (s2l "target")] nt
  (MetaProperty (id_tree (s2l "new")) (id_tree (s2l "target")) ASimple nowhere).
Proof.
  intros n n2 rest m. unfold parse_left_hand_side_expr. norm. cbn [mk]. go. unfold parse_new_expr. go. fin. apply tr_plain; reflexivity.
Qed.

(** ** Operators *)
Lemma r_update_left F new l nt e : starts start_left l -> ok_upd nt -> P_left F new l nt e -> P_update F new l nt e.
Proof.
  intros Hl [Hn Hu] H n n2 rest m. unfold parse_update_expr. destruct l as [|[b0 k0] l]; [contradiction|]. cbn [starts knd] in Hl.
  norm. go. eapply ht_use with (m' := mk (negb new) m).
  { specialize (H n n2 rest). destruct new; cbn [mk negb] in *; apply H. }
  intros e' He. go. apply ht_if_f. { krw. destruct Hu as [->| ->]; [reflexivity|]. apply andb_false_r. } fin. auto.
Qed.
Lemma upd_string p : update_op p -> t_to_string (ktok (KP p)) = Some (s2l (p_spell p)) /\ is_update_op (ktok (KP p)) = true.
Proof. intros [-> | ->]; split; reflexivity. Qed.
Lemma r_update_postfix F l p nt e : update_op p -> target e = true -> no_slash nt -> starts start_left l ->
  P_left F false l (P false p) e ->
  P_update F true (l ++ [P false p]) nt (UpdateExpression (s2l (p_spell p)) e false ASimple nowhere).
Proof.
  intros Hp Ht Hn Hl H n n2 rest m. unfold parse_update_expr. destruct l as [|[b0 k0] l]; [contradiction|]. cbn [starts knd] in Hl.
  norm. go. eapply ht_use; [apply H|]. intros e' He. go. destruct (upd_string Hp) as [Hs Hu].
  apply ht_if_t; [krw; rewrite Hu; reflexivity|]. apply ht_if_f; [eapply tr_target; eauto|]. go.
  fin. apply tr_plain; [|reflexivity]. cbn [bare_node]. rewrite (tr_bare He). reflexivity.
Qed.
Lemma r_update_prefix F b p lone l nt e : update_op p -> target e = true -> starts start_un l -> P_unary F lone l nt e ->
  P_update F lone (P b p :: l) nt (UpdateExpression (s2l (p_spell p)) e true ASimple nowhere).
Proof.
  intros Hp Ht Hl H n n2 rest m. unfold parse_update_expr. destruct (upd_string Hp) as [Hs Hu].
  destruct l as [|[b0 k0] l]; [contradiction|]. cbn [starts knd] in Hl.
  norm. go.
  eapply ht_use; [apply (via_unary H)|]. intros e' He. apply ht_if_f; [eapply tr_target; eauto|].
  replace (mk (negb lone) (S m)) with (S (mk (negb lone) m)) by (destruct lone; reflexivity). go. fin.
  apply tr_plain; [|reflexivity]. cbn [bare_node]. rewrite (tr_bare He). reflexivity.
Qed.
Lemma unary_op_facts k b : unary_op k -> is_unary_op b (ktok k) = Some true /\ t_to_string (ktok k) = Some (op_text k) /\
  tok_is (ktok k) TPunctuator || tok_is (ktok k) TKeyword = true.
Proof.
  intros H. unfold unary_op in H. cbn [In] in H. destruct H as [<-|[<-|[<-|[<-|[<-|[<-|[<-|[]]]]]]]]; splits; reflexivity.
Qed.
Lemma r_unary_update F lone l nt e : starts start_upd l -> P_update F lone l nt e -> P_unary F lone l nt e.
Proof.
  intros Hl H n n2 rest m. unfold parse_unary_expr. destruct l as [|[b0 k0] l]; [contradiction|]. cbn [starts knd] in Hl.
  norm. apply ht_cur. intros t Kt. cbn [knd] in Kt. apply ht_assoc || idtac.
  eapply ht_use with (R := fun u => u = false) (ts' := (T b0 k0 :: l ++ nt :: rest)) (m' := m).
  { destruct (tok_is t TPunctuator || tok_is t TKeyword); [|fin; reflexivity].
    unfold cur_unary_op. go. fin. reflexivity. }
  intros u ->. apply H.
Qed.
Definition un_word (F : fr) (k : tk) : Prop := is_unary_op (has_await (fprm F)) (ktok k) = Some true /\ t_to_string (ktok k) = Some (op_text k) /\
  tok_is (ktok k) TPunctuator || tok_is (ktok k) TKeyword = true.
Lemma un_op F k : unary_op k -> un_word F k.
Proof. apply unary_op_facts. Qed.
Lemma un_await F : has_await (fprm F) = true -> un_word F (KW "await").
Proof. intros H. unfold un_word. rewrite H. splits; reflexivity. Qed.
Lemma r_unary_op F b k lone l nt e : un_word F k -> starts start_un l -> P_unary F lone l nt e ->
  P_unary F lone (T b k :: l) nt (UnaryExpression (op_text k) e true ASimple nowhere).
Proof.
  intros Hk Hl H n n2 rest m. unfold parse_unary_expr. destruct Hk as (H1 & H2 & H3).
  norm. unfold cur_unary_op. go. eapply ht_use; [apply (via_unary H)|]. intros e' He.
  replace (mk (negb lone) (S m)) with (S (mk (negb lone) m)) by (destruct lone; reflexivity). go. fin.
  apply tr_plain; [|reflexivity]. cbn [bare_node]. rewrite (tr_bare He). reflexivity.
Qed.
Lemma r_exp_op F b k lone l nt e : un_word F k -> P_unary F lone (T b k :: l) nt e -> P_exp F lone (T b k :: l) nt e.
Proof.
  intros Hk H n n2 rest m. unfold parse_exponentiation_expr. destruct Hk as (H1 & H2 & H3).
  norm. unfold cur_unary_op. go. apply H.
Qed.
Lemma r_exp_update F lone l nt e : starts start_upd l -> ok_exp nt -> P_update F lone l nt e -> P_exp F lone l nt e.
Proof.
  intros Hl [_ Hn] H n n2 rest m. unfold parse_exponentiation_expr. destruct l as [|[b0 k0] l]; [contradiction|]. cbn [starts knd] in Hl.
  norm. unfold cur_unary_op. go.
  eapply ht_use; [apply H|]. intros e' He.
  replace (mk (negb lone) (S m)) with (S (mk (negb lone) m)) by (destruct lone; reflexivity). go. fin. auto.
Qed.
Lemma r_exp_pow F o1 o2 l l' b nt e e' : starts start_upd l -> starts start_un l' -> o1 && o2 = false ->
  P_update F o1 l (P b Pow) e -> P_exp F o2 l' nt e' ->
  P_exp F (o1 || o2) (l ++ P b Pow :: l') nt (BinaryExpression (s2l "**") e e' ASimple nowhere).
Proof.
  intros Hl Hl' Ho H H' n n2 rest m. unfold parse_exponentiation_expr. destruct l as [|[b0 k0] l]; [contradiction|]. cbn [starts knd] in Hl.
  norm. unfold cur_unary_op. go.
  eapply ht_use; [apply H|]. intros x Hx. go. eapply ht_use; [apply (via_exp H')|]. intros y Hy.
  destruct o1, o2; try discriminate; cbn [mk negb orb]; go; fin.
  all: apply tr_plain; [|reflexivity]; cbn [bare_node]; rewrite (tr_bare Hx), (tr_bare Hy); reflexivity.
Qed.

(** Chains of binary operators *)
Definition P_O F q lone l nt e := forall r, 1 <= r -> r <= q -> forall n n2 k0 rest m B (K : node -> PM B) Q,
  (forall k e', tr e e' -> ht (nt :: rest) F (mk (negb lone) m) (y <- climb E n (run E n2) k e' r ;; K y) Q) ->
  ht (l ++ nt :: rest) F m (x <- parse_exponentiation_expr E n (run E n2) ;; y <- climb E n (run E n2) k0 x r ;; K y) Q.
Definition P_I F inn q lone l nt e := forall op o, kmatch op o -> 1 <= level inn o -> level inn o < q ->
  forall n n2 k0 rest m B (K : node -> PM B) Q,
  (forall k e', tr e e' -> ht (nt :: rest) F (mk (negb lone) m) (y <- climb_inner (run E n2) k op e' ;; K y) Q) ->
  (forall k k2 n' n2' r e', q <= r -> tr e e' ->
    ht (nt :: rest) F (S (mk (negb lone) m)) (x <- climb E n' (run E n2') k e' r ;; y <- climb_inner (run E n2) k2 op x ;; K y) Q) ->
  ht (l ++ nt :: rest) F m (x <- parse_exponentiation_expr E n (run E n2) ;; y <- climb_inner (run E n2) k0 op x ;; K y) Q.

Lemma inner_stop F inn n2 k op o e nt rest m B (K : node -> PM B) Q : has_in (fprm F) = inn -> kmatch op o -> 1 <= level inn o ->
  level inn (knd nt) <= level inn o ->
  ht (nt :: rest) F m (K e) Q -> ht (nt :: rest) F m (y <- climb_inner (run E n2) k op e ;; K y) Q.
Proof.
  intros Hi Ko Ho Hn H. destruct k as [|k]; [apply ht_fuel_bind|]. cbn [climb_inner]. go. rewrite Hi.
  apply ht_ifb_f; [krw; rewrite (@level_prec_lt inn o (knd nt) _ eq_refl Ho); lia|]. go. exact H.
Qed.
Lemma climb_stop F inn n n2 k r e nt rest m B (K : node -> PM B) Q : has_in (fprm F) = inn -> 1 <= r ->
  level inn (knd nt) < r ->
  ht (nt :: rest) F m (K e) Q -> ht (nt :: rest) F (S m) (y <- climb E n (run E n2) k e r ;; K y) Q.
Proof.
  intros Hi Hr Hn H. destruct k as [|k]; [apply ht_fuel_bind|]. cbn [climb]. go. rewrite Hi.
  apply ht_ifb_f; [krw; rewrite (@level_prec inn (knd nt) r Hr); lia|]. go. exact H.
Qed.
Lemma climb_step F inn b o q o2 l nt e1 e2 r n n2 k x rest m m' B (K : node -> PM B) Q : has_in (fprm F) = inn ->
  level inn o = q -> 1 <= r -> r <= q -> starts start_un l -> P_I F inn (right_level q) o2 l nt e2 -> level inn (knd nt) <= q ->
  tr e1 x -> mk (negb o2) m = S m' ->
  (forall k e', tr (BinaryExpression (op_text o) e1 e2 ASimple nowhere) e' -> ht (nt :: rest) F (S m') (y <- climb E n (run E n2) k e' r ;; K y) Q) ->
  ht (T b o :: l ++ nt :: rest) F m (y <- climb E n (run E n2) k x r ;; K y) Q.
Proof.
  intros Hi Ho Hr Hq Hl HI Hn Hx Hm HQ. destruct k as [|k]; [apply ht_fuel_bind|]. cbn [climb]. go. rewrite Hi.
  apply ht_ifb_t; [krw; rewrite (@level_prec inn o r Hr); lia|]. go.
  apply ht_assoc2.
  assert (Hlev : level inn o <> 0) by lia.
  assert (Hfin : forall y, tr e2 y -> ht (nt :: rest) F (S m')
     (bind (operator <- unwrap P_ToString (t_to_string t0);; sp <- end_span;; start_span;;; climb E n (run E n2) k (BinaryExpression operator x y AInvalid sp) r) K) Q).
  { intros y Hy. go. eapply ht_unwrap; [krw; apply (@level_prec_same inn); auto|]. go. apply HQ.
    apply tr_plain; [|reflexivity]. cbn [bare_node]. rewrite (tr_bare Hx), (tr_bare Hy). reflexivity. }
  eapply (HI t0 o); auto; [lia|unfold right_level; destruct (q =? 10) eqn:?; lia| |].
  - intros k1 y Hy. rewrite Hm. eapply inner_stop; eauto; lia.
  - intros k1 k2 n' n2' r2 y Hr2 Hy. rewrite Hm. assert (q < r2) by (unfold right_level in Hr2; destruct (q =? 10) eqn:?; lia).
    apply (@climb_stop F inn); auto; [lia..|]. eapply inner_stop; eauto; lia.
Qed.

Lemma r_bin_exp_O F q lone l nt e : P_exp F lone l nt e -> P_O F q lone l nt e.
Proof. intros H r Hr Hq n n2 k0 rest m B K Q HQ. eapply ht_use; [apply H|]. intros x Hx. apply HQ; auto. Qed.
Lemma r_bin_exp_I F inn q lone l nt e : P_exp F lone l nt e -> P_I F inn q lone l nt e.
Proof. intros H op o Ko Ho Hq n n2 k0 rest m B K Q HA HB. eapply ht_use; [apply H|]. intros x Hx. apply HA; auto. Qed.
Lemma r_bin_up_O F q lone l nt e : P_O F (q + 1) lone l nt e -> P_O F q lone l nt e.
Proof. intros H r Hr Hq. apply H; lia. Qed.
Lemma r_bin_up_I F inn q lone l nt e : P_I F inn (q + 1) lone l nt e -> P_I F inn q lone l nt e.
Proof.
  intros H op o Ko Ho Hq n n2 k0 rest m B K Q HA HB. eapply H; eauto; [lia|].
  intros k k2 n' n2' r e' Hr. apply HB. lia.
Qed.
Lemma r_bin_op_O F inn q o1 o2 l b o l' nt e e' : has_in (fprm F) = inn -> o1 && o2 = false -> 1 <= q -> level inn o = q ->
  starts start_un l' -> P_O F q o1 l (T b o) e -> P_I F inn (right_level q) o2 l' nt e' -> level inn (knd nt) <= q ->
  P_O F q (o1 || o2) (l ++ T b o :: l') nt (BinaryExpression (op_text o) e e' ASimple nowhere).
Proof.
  intros Hi Hoo Hq Ho Hl' HO HI Hn r Hr Hrq n n2 k0 rest m B K Q HQ. norm. apply HO; auto. intros k x Hx.
  destruct o1, o2; try discriminate; cbn [mk negb orb] in *.
  all: eapply climb_step; eauto; try (cbn [mk negb]; reflexivity).
  all: intros k' y Hy; eapply ht_mono; [|apply HQ; auto]; lia.
Qed.
Lemma r_bin_op_I F inn q o1 o2 l b o l' nt e e' : has_in (fprm F) = inn -> o1 && o2 = false -> 1 <= q -> level inn o = q ->
  starts start_un l' -> P_I F inn q o1 l (T b o) e -> P_I F inn (right_level q) o2 l' nt e' -> level inn (knd nt) <= q ->
  P_I F inn q (o1 || o2) (l ++ T b o :: l') nt (BinaryExpression (op_text o) e e' ASimple nowhere).
Proof.
  intros Hi Hoo Hq Ho Hl' H1 H2 Hn op p Kp Hp Hpq n n2 k0 rest m B K Q HA HB. norm.
  assert (Hgo : forall n' n2' k x, tr e x -> forall k2, ht (T b o :: l' ++ nt :: rest) F (mk (negb o1) m)
     (x <- climb E n' (run E n2') k x q;; y <- climb_inner (run E n2) k2 op x;; K y) Q).
  { intros n' n2' k x Hx k2. destruct o1, o2; try discriminate; cbn [mk negb orb] in *.
    all: eapply climb_step; eauto; try lia; try (cbn [mk negb]; reflexivity).
    all: intros k' y Hy; apply HB; auto; lia. }
  eapply (H1 op p); auto.
  - intros k x Hx. destruct k as [|k]; [apply ht_fuel_bind|]. cbn [climb_inner]. go. rewrite Hi.
    apply ht_ifb_t; [krw; rewrite (@level_prec_lt inn p o _ eq_refl Hp); lia|]. go.
    rewrite (@k_prec t o) by auto. rewrite prec_level by lia. rewrite Ho.
    destruct n2 as [|n2]; [apply ht_fuel_bind|]. apply Hgo; auto.
  - intros k k2 n' n2' r x Hr Hx. destruct (N.eq_dec r q) as [->|Hne].
    + eapply ht_mono; [|apply Hgo; auto]. lia.
    + apply (@climb_stop F inn); auto; [lia|cbn [knd]; lia|].
      destruct k2 as [|k2]; [apply ht_fuel_bind|]. cbn [climb_inner]. go. rewrite Hi.
      apply ht_ifb_t; [krw; rewrite (@level_prec_lt inn p o _ eq_refl Hp); lia|]. go.
      rewrite (@k_prec t o) by auto. rewrite prec_level by lia. rewrite Ho.
      destruct n2 as [|n2]; [apply ht_fuel_bind|]. apply Hgo; auto.
Qed.
End Expr.
