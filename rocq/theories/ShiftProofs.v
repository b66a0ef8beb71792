(** * ShiftProofs: white space and comments before a program (proofs, C48). *)
From Verif Require Import Base Codepoint Punct Token Scanner Ast Convert ParserBase ParserExpr ParserStmt Parser FrameFacts
  Hoare ScanBase ScanNext LexProofs SpecLex SpecScan SpecParse Fuel ParserInv TermBase TermTop ParseProofs
  Rel SimBase SimTac SimExpr SimStmt SimTop SpecTree SpecTouch SpecStrict StrictProofs TouchProofs SpecShift ScanShift.
From Verif Require ScanSim.
Set Implicit Arguments.

Section Go.
Context (go : env -> nat -> handler -> PM node).
Hypothesis go_sim : forall E RM n k I, line_rel RM -> sim E false RM (r_node (RS RM) (RA false)) (go E n (run E k)) (fun _ : I => go E n (run E k)).
Hypothesis go_fuel : forall E n n' s, (n <= n')%nat -> go E n (run E n) s <> RFuel -> go E n' (run E n') s = go E n (run E n) s.
Hypothesis go_ends : forall E src, parse_with go E src <> OutOfFuel.

Lemma go_shift E dl dk a b t1 s1 t2 s2 x : s_next E GRegExp (s_new a) = ROk t1 s1 -> s_next E GRegExp (s_new b) = ROk t2 s2 ->
  tk_rel dl dk t1 t2 -> shf E dl dk true s1 s2 -> parse_with go E a = Ok x ->
  exists y, parse_with go E b = Ok y /\ r_node (RS (RMz dl dk)) (RA false) x y.
Proof.
  intros Ha Hb Ht Hs Hx. unfold parse_with in Hx. rewrite Ha in Hx.
  set (N1 := fuel_for a) in *. set (N2 := fuel_for b) in *. set (n := Nat.max N1 N2).
  destruct (go E N1 (run E N1) (init_pst t1 s1)) as [y s| | |] eqn:E1; try discriminate. injection Hx as ->.
  rewrite <- (@go_fuel E N1 n) in E1; [|lia|congruence].
  destruct (proj1 (@go_sim E (RMz dl dk) n n unit (RMz_line (dl:=dl) (dk:=dk))) _ _ _ E1) as [_ [tr [_ Q]]].
  destruct (Q tt [] (init_pst t2 s2)) as (y & s' & E2 & E3 & _).
  { constructor; cbn; auto; [rewrite List.app_nil_r; apply (@shf_srep E dl dk true); [reflexivity|exact Hs]|]. exists false. split; [reflexivity|left; reflexivity]. }
  exists y. split; [|exact E3]. unfold parse_with. rewrite Hb. fold N2.
  rewrite (@go_fuel E N2 n) in E2; [rewrite E2; reflexivity|lia|].
  intros K. apply (@go_ends E b). unfold parse_with. rewrite Hb. fold N2. rewrite K. reflexivity.
Qed.
Lemma moved_eq dl dk x y : r_node (RS (RMz (Z.of_N dl) (Z.of_N dk))) (RA false) x y -> y = moved dl dk x.
Proof.
  intros H. rewrite <- (@touch_idle (fun s => s) (fun a => a) (fun s => eq_refl) (fun a => eq_refl) y). symmetry. unfold moved.
  refine (@eq_node _ _ _ _ _ _ _ _ _ _ H).
  - intros a b [[H1 [H2 H3]] [G1 [G2 G3]]]. destruct a as [[? ? ?] [? ? ?]], b as [[? ? ?] [? ? ?]]. unfold moved_span, moved_marker. cbn in *.
    repeat f_equal; lia.
  - intros a b [->|(K & _)]; [reflexivity|discriminate].
Qed.
Lemma leading E w src x : trivia w src -> parse_with go E src = Ok x -> parse_with go E (w ++ src) = Ok (moved_by w src x).
Proof.
  intros Hw Hx. destruct (list_eq_dec N.eq_dec w []) as [->|Hn].
  - cbn [app]. rewrite Hx. f_equal. unfold moved_by, moved. cbn. symmetry. apply touch_idle; [|reflexivity]. intros [[? ? ?] [? ? ?]]. unfold moved_span, moved_marker. cbn. rewrite !N.add_0_r. reflexivity.
  - destruct (s_next E GRegExp (s_new src)) as [t1 s1| | |] eqn:H1; try (unfold parse_with in Hx; rewrite H1 in Hx; discriminate).
    destruct (first_shift E Hw Hn H1) as (t2 & s2 & H2 & Ht & Hs).
    destruct (go_shift _ _ H1 H2 Ht Hs Hx) as (y & Hy & R). rewrite Hy. f_equal. apply moved_eq. exact R.
Qed.
Lemma leading_converse E w src y : trivia w src -> (src = [] -> checked E = false) -> parse_with go E (w ++ src) = Ok y -> exists x, parse_with go E src = Ok x /\ y = moved_by w src x.
Proof.
  intros Hw Hc Hy.
  assert (K : exists x, parse_with go E src = Ok x); [|destruct K as [x K]; exists x; split; [exact K|pose proof (leading E Hw K); congruence]].
  destruct (list_eq_dec N.eq_dec w []) as [->|Hn]; [eauto|].
  destruct (s_next E GRegExp (s_new (w ++ src))) as [t2 s2| | |] eqn:H2; try (unfold parse_with in Hy; rewrite H2 in Hy; discriminate).
  assert (S : same_scan (s_next E GRegExp (s_new src)) (s_next E GRegExp (s_new (w ++ src)))).
  { apply (@trivia_irrelevant E src (s_new src) GRegExp w); [constructor|reflexivity|exact Hw|].
    intros Hk [_ Hr]. cbn in Hr. rewrite (Hc Hr) in Hk. discriminate. }
  rewrite H2 in S. destruct (s_next E GRegExp (s_new src)) as [t1 s1| | |] eqn:H1; cbn in S; try contradiction.
  destruct (first_shift E Hw Hn H1) as (t2' & s2' & H2' & Ht & Hs). rewrite H2 in H2'. injection H2' as <- <-.
  destruct (reach_next_token _ _ _ _ _ _ (reach_new E src) eq_refl H1) as (tr & l & N).
  assert (Hs' : shf E (- Z.of_N (breaks w src)) (- Z.of_N (len w)) true s2 s1).
  { apply shf_sym; auto; [exact (nt_unscanned N)|exact (nt_sstate N)|].
    intros Hk. pose proof (nt_current N) as C. cbn in C. destruct tr as [|c tr]; [|unfold len in C; cbn in C; lia].
    destruct l as [|c l]; [|unfold len in C; cbn in C; lia].
    pose proof (nt_rest N) as D. rewrite (nt_eof_rest N eq_refl) in D. cbn in D. rewrite (Hc D) in Hk. discriminate. }
  assert (Ht' : tk_rel (- Z.of_N (breaks w src)) (- Z.of_N (len w)) t2 t1).
  { destruct Ht as ([[? ? ?] ?] & -> & X & Y & Z). exists (tmark t1, tend t1). split; [destruct t1; reflexivity|]. cbn in *. unfold tmark in *; cbn in *. split; [|split]; cbn; lia. }
  destruct (go_shift _ _ H2 H1 Ht' Hs' Hy) as (x & Hx & _). eauto.
Qed.

(** *** Errors *)
Lemma go_shift_err E dl dk a b t1 s1 t2 s2 e : s_next E GRegExp (s_new a) = ROk t1 s1 -> s_next E GRegExp (s_new b) = ROk t2 s2 ->
  tk_rel dl dk t1 t2 -> shf E dl dk true s1 s2 -> parse_with go E a = Err e ->
  exists e', parse_with go E b = Err e' /\ erel (RMz dl dk) e e'.
Proof.
  intros Ha Hb Ht Hs Hx. unfold parse_with in Hx. rewrite Ha in Hx.
  set (N1 := fuel_for a) in *. set (N2 := fuel_for b) in *. set (n := Nat.max N1 N2).
  destruct (go E N1 (run E N1) (init_pst t1 s1)) as [y s|e0| |] eqn:E1; try discriminate. injection Hx as ->.
  rewrite <- (@go_fuel E N1 n) in E1; [|lia|congruence].
  destruct (proj2 (@go_sim E (RMz dl dk) n n unit (RMz_line (dl:=dl) (dk:=dk))) eq_refl _ _ E1) as (tr & x & _ & _ & Q).
  destruct (Q tt [] (init_pst t2 s2)) as (e' & E2 & E3).
  { constructor; cbn; auto; [rewrite List.app_nil_r; apply (@shf_srep E dl dk true); [reflexivity|exact Hs]|]. exists false. split; [reflexivity|left; reflexivity]. }
  exists e'. split; [|exact E3]. unfold parse_with. rewrite Hb. fold N2.
  rewrite (@go_fuel E N2 n) in E2; [rewrite E2; reflexivity|lia|].
  intros K. apply (@go_ends E b). unfold parse_with. rewrite Hb. fold N2. rewrite K. reflexivity.
Qed.
Lemma moved_err_eq dl dk e e' : erel (RMz (Z.of_N dl) dk) e e' -> e' = moved_error dl e.
Proof. intros (H & i & i' & A & B & C). destruct e, e'. unfold moved_error. cbn in *. subst. f_equal. lia. Qed.
Lemma leading_err E w src e : trivia w src -> parse_with go E src = Err e -> parse_with go E (w ++ src) = Err (moved_error (breaks w src) e).
Proof.
  intros Hw Hx. destruct (list_eq_dec N.eq_dec w []) as [->|Hn].
  - cbn [app]. rewrite Hx. f_equal. destruct e. unfold moved_error. cbn. rewrite N.add_0_r. reflexivity.
  - destruct (s_next E GRegExp (s_new src)) as [t1 s1|e1| |] eqn:H1; try (unfold parse_with in Hx; rewrite H1 in Hx; discriminate).
    destruct (first_shift E Hw Hn H1) as (t2 & s2 & H2 & Ht & Hs).
      destruct (@go_shift_err _ _ _ _ _ _ _ _ _ _ H1 H2 Ht Hs Hx) as (y & Hy & R). rewrite Hy. f_equal. eapply moved_err_eq. exact R.
Qed.
Lemma leading_err_converse E w src e' : trivia w src -> (src = [] -> checked E = false) -> parse_with go E (w ++ src) = Err e' ->
  exists e, parse_with go E src = Err e /\ e' = moved_error (breaks w src) e.
Proof.
  intros Hw Hc Hy.
  assert (K : exists x, parse_with go E src = Err x); [|destruct K as [x K]; exists x; split; [exact K|pose proof (leading_err E Hw K); congruence]].
  destruct (list_eq_dec N.eq_dec w []) as [->|Hn]; [eauto|].
  assert (S : same_scan (s_next E GRegExp (s_new src)) (s_next E GRegExp (s_new (w ++ src)))).
  { apply (@trivia_irrelevant E src (s_new src) GRegExp w); [constructor|reflexivity|exact Hw|].
    intros Hk [_ Hr]. cbn in Hr. rewrite (Hc Hr) in Hk. discriminate. }
  destruct (s_next E GRegExp (s_new (w ++ src))) as [t2 s2|e2| |] eqn:H2; try (unfold parse_with in Hy; rewrite H2 in Hy; discriminate).
  destruct (s_next E GRegExp (s_new src)) as [t1 s1| | |] eqn:H1; cbn in S; try contradiction.
  destruct (first_shift E Hw Hn H1) as (t2' & s2' & H2' & Ht & Hs). rewrite H2 in H2'. injection H2' as <- <-.
  destruct (reach_next_token _ _ _ _ _ _ (reach_new E src) eq_refl H1) as (tr & l & N).
  assert (Hs' : shf E (- Z.of_N (breaks w src)) (- Z.of_N (len w)) true s2 s1).
  { apply shf_sym; auto; [exact (nt_unscanned N)|exact (nt_sstate N)|].
    intros Hk. pose proof (nt_current N) as C. cbn in C. destruct tr as [|c tr]; [|unfold len in C; cbn in C; lia].
    destruct l as [|c l]; [|unfold len in C; cbn in C; lia].
    pose proof (nt_rest N) as D. rewrite (nt_eof_rest N eq_refl) in D. cbn in D. rewrite (Hc D) in Hk. discriminate. }
  assert (Ht' : tk_rel (- Z.of_N (breaks w src)) (- Z.of_N (len w)) t2 t1).
  { destruct Ht as ([[? ? ?] ?] & -> & X & Y & Z). exists (tmark t1, tend t1). split; [destruct t1; reflexivity|]. cbn in *. unfold tmark in *; cbn in *. split; [|split]; cbn; lia. }
  destruct (@go_shift_err _ _ _ _ _ _ _ _ _ _ H2 H1 Ht' Hs' Hy) as (x & Hx & _). eauto.
Qed.
End Go.

Lemma script_sim : forall E RM n k I, line_rel RM -> sim E false RM (r_node (RS RM) (RA false)) (script E n (run E k)) (fun _ : I => script E n (run E k)).
Proof. intros E RM n k I H. apply s_script; [exact H|]. exact (sim_run E false H k). Qed.
Lemma module_sim : forall E RM n k I, line_rel RM -> sim E false RM (r_node (RS RM) (RA false)) (module_ E n (run E k)) (fun _ : I => module_ E n (run E k)).
Proof. intros E RM n k I H. apply s_module_; [exact H|]. exact (sim_run E false H k). Qed.
Lemma script_ends : forall E src, parse_with script E src <> OutOfFuel.
Proof. intros E src. exact (proj2 (@within_script E src _ (Nat.le_refl _))). Qed.
Lemma module_ends : forall E src, parse_with module_ E src <> OutOfFuel.
Proof. intros E src. exact (proj2 (@within_module E src _ (Nat.le_refl _))). Qed.
Lemma script_leading E w src x : trivia w src -> parse_script E src = Ok x -> parse_script E (w ++ src) = Ok (moved_by w src x).
Proof. apply leading; [exact script_sim|exact script_fuel|exact script_ends]. Qed.
Lemma module_leading E w src x : trivia w src -> parse_module E src = Ok x -> parse_module E (w ++ src) = Ok (moved_by w src x).
Proof. apply leading; [exact module_sim|exact module_fuel|exact module_ends]. Qed.
Lemma script_leading_converse E w src y : trivia w src -> (src = [] -> checked E = false) -> parse_script E (w ++ src) = Ok y -> exists x, parse_script E src = Ok x /\ y = moved_by w src x.
Proof. apply leading_converse; [exact script_sim|exact script_fuel|exact script_ends]. Qed.
Lemma module_leading_converse E w src y : trivia w src -> (src = [] -> checked E = false) -> parse_module E (w ++ src) = Ok y -> exists x, parse_module E src = Ok x /\ y = moved_by w src x.
Proof. apply leading_converse; [exact module_sim|exact module_fuel|exact module_ends]. Qed.
Lemma script_leading_err E w src e : trivia w src -> parse_script E src = Err e -> parse_script E (w ++ src) = Err (moved_error (breaks w src) e).
Proof. apply leading_err; [exact script_sim|exact script_fuel|exact script_ends]. Qed.
Lemma module_leading_err E w src e : trivia w src -> parse_module E src = Err e -> parse_module E (w ++ src) = Err (moved_error (breaks w src) e).
Proof. apply leading_err; [exact module_sim|exact module_fuel|exact module_ends]. Qed.
Lemma script_leading_err_converse E w src e' : trivia w src -> (src = [] -> checked E = false) -> parse_script E (w ++ src) = Err e' ->
  exists e, parse_script E src = Err e /\ e' = moved_error (breaks w src) e.
Proof. apply leading_err_converse; [exact script_sim|exact script_fuel|exact script_ends]. Qed.
Lemma module_leading_err_converse E w src e' : trivia w src -> (src = [] -> checked E = false) -> parse_module E (w ++ src) = Err e' ->
  exists e, parse_module E src = Err e /\ e' = moved_error (breaks w src) e.
Proof. apply leading_err_converse; [exact module_sim|exact module_fuel|exact module_ends]. Qed.
Lemma script_leading_panic E w src p : trivia w src -> (src = [] -> checked E = false) -> parse_script E src = Panicked p -> exists p', parse_script E (w ++ src) = Panicked p'.
Proof.
  intros Hw Hc H. destruct (parse_script E (w ++ src)) as [x|e|p'|] eqn:K; [| |eauto|].
  - destruct (@script_leading_converse _ _ _ _ Hw Hc K) as (u & U & _). congruence.
  - destruct (@script_leading_err_converse _ _ _ _ Hw Hc K) as (u & U & _). congruence.
  - destruct (@script_ends E (w ++ src)). exact K.
Qed.
Lemma module_leading_panic E w src p : trivia w src -> (src = [] -> checked E = false) -> parse_module E src = Panicked p -> exists p', parse_module E (w ++ src) = Panicked p'.
Proof.
  intros Hw Hc H. destruct (parse_module E (w ++ src)) as [x|e|p'|] eqn:K; [| |eauto|].
  - destruct (@module_leading_converse _ _ _ _ Hw Hc K) as (u & U & _). congruence.
  - destruct (@module_leading_err_converse _ _ _ _ Hw Hc K) as (u & U & _). congruence.
  - destruct (@module_ends E (w ++ src)). exact K.
Qed.
