(** * StrictProofs: a module without import and export is a script (proofs, C47). *)
From Verif Require Import Base Codepoint Punct Token Scanner Ast Convert ParserBase ParserExpr ParserStmt Parser FrameFacts
  Rel SimBase SimTac SimExpr SimStmt SimTop SpecTouch SpecStrict.
Set Implicit Arguments.

Lemma sim_run E sl RM : line_rel RM -> forall k, sim_h E sl RM (run E k).
Proof.
  intros H. induction k as [|k IH]; [|apply sim_step; assumption].
  constructor; intros; apply sim_fuel.
Qed.

(** ** Results of import and export declarations *)
Definition rets {A} (P : A -> Prop) (m : PM A) : Prop := forall s a s1, m s = ROk a s1 -> P a.
Lemma rets_bind A B (P : B -> Prop) (m : PM A) k : (forall a, rets P (k a)) -> rets P (bind m k).
Proof. intros H s b s1 G. apply bind_ok in G. destruct G as (a & s2 & _ & G). exact (H _ _ _ _ G). Qed.
Lemma rets_ret A (P : A -> Prop) a : P a -> rets P (ret a).
Proof. intros H s x s1 [= <- _]. exact H. Qed.
Lemma rets_nok A (P : A -> Prop) m : nok m -> rets P m.
Proof. intros H s a s1 G. destruct (H _ _ _ G). Qed.
Ltac retss := repeat (cbv beta; lazymatch goal with
  | |- rets _ (bind _ _) => apply rets_bind; intros ?
  | |- rets _ (ret _) => apply rets_ret; reflexivity
  | |- rets _ (if ?b then _ else _) => destruct b
  | |- _ => solve [apply rets_nok; auto with nok]
  end).
Lemma rets_from E l : rets (fun x => module_only x = true) (parse_import_from_dclr E l).
Proof. unfold parse_import_from_dclr. retss. Qed.
Lemma rets_import E n : rets (fun x => module_only x = true) (parse_import_dclr E n).
Proof. unfold parse_import_dclr. repeat (retss; try apply rets_from). Qed.
Lemma rets_default E n h : rets (fun x => module_only x = true) (export_default E n h).
Proof. unfold export_default. retss. Qed.
Lemma rets_export E n h : rets (fun x => module_only x = true) (parse_export_dclr E n h).
Proof. unfold parse_export_dclr. repeat (retss; try apply rets_default). Qed.

(** ** Module items as statements *)
Section Items.
Context (E : env) (n k : nat).
Notation RM := (@eq marker).
Notation rep := (rep E true RM).
Notation rn := (r_node (RS RM) (RA true)).
Definition P0 : params := mkParams false false false false false.
Lemma line_eq : line_rel RM. Proof. intros a a' b b' -> ->. reflexivity. Qed.
Let Hh := sim_run E true line_eq k.
Let h := run E k.

(** [m], run under parameters that change nothing, against plain [m] *)
Lemma with_module A B (R : A -> B -> Prop) (m : PM A) (m' : PM B) : (forall s a s1, m s = ROk a s1 -> prm s1 = prm s) -> (forall I : Type, sim E true RM R m (fun _ : I => m')) ->
  forall s a s1, prm s = P0 -> with_prm module_params m s = ROk a s1 ->
  exists tr, forall tl s', rep (tr ++ tl) s s' -> exists a' s1', m' s' = ROk a' s1' /\ R a a' /\ rep tl s1 s1' /\ prm s1 = P0.
Proof.
  intros F H s a s1 Hp Hm. unfold with_prm, save_params, upd_prm, restore_params, modify, bind in Hm. cbn in Hm.
  match type of Hm with context [m ?s0] => set (s2 := s0) in *; destruct (m s2) as [x s3| | |] eqn:Em end; try discriminate.
  destruct (proj1 (H unit) _ _ _ Em) as [P [tr [_ Q]]]. cbn in P. rewrite P in Hm. injection Hm as <- <-.
  exists tr. intros tl s' Hs.
  destruct (Q tt tl s') as (a' & s3' & E1 & E2 & E3 & E4).
  { destruct Hs as [? ? ? ? X ?]. constructor; cbn; auto. rewrite X, Hp. reflexivity. }
  exists a', s3'. split; [exact E1|]. split; [exact E2|]. apply F in Em. rename Em into K. cbn in K.
  split; [|cbn; exact Hp]. destruct E3 as [? ? ? ? X ?]. constructor; cbn; auto. rewrite X, K, Hp. reflexivity.
Qed.
Lemma item_rel : forall s a s1, prm s = P0 -> parse_module_item E n h s = ROk a s1 -> module_only a = false ->
  exists tr, forall tl s', rep (tr ++ tl) s s' -> exists a' s1', parse_stmt_list_item E n h s' = ROk a' s1' /\ rn a a' /\ rep tl s1 s1' /\ prm s1 = P0.
Proof.
  intros s a s1 Hp Hm Ho. unfold parse_module_item in Hm. unfold bind, getcur, gets in Hm.
  destruct (tok_kw (cur s) "import"); [apply rets_import in Hm; congruence|].
  destruct (tok_kw (cur s) "export"); [apply rets_export in Hm; congruence|].
  eapply with_module; [| |exact Hp|exact Hm].
  - intros s2 a2 s3 G. assert (F : fr (parse_stmt_list_item E n h)) by apply fr_parse_stmt_list_item, fr_run. apply F in G. apply G.
  - intros I. apply s_parse_stmt_list_item; [exact line_eq|exact Hh].
Qed.
Lemma items_rel : forall j s l s1, prm s = P0 -> parse_until_eof j (parse_module_item E n h) s = ROk l s1 -> Forall (fun x => module_only x = false) l ->
  exists tr, forall tl s', rep (tr ++ tl) s s' -> exists l' s1', parse_until_eof j (parse_stmt_list_item E n h) s' = ROk l' s1' /\ Forall2 rn l l' /\ rep tl s1 s1'.
Proof.
  induction j as [|j IH]; intros s l s1 Hp Hm Hl; [discriminate|]. cbn [parse_until_eof] in *. unfold bind at 1, getcur, gets in Hm.
  destruct (tok_is (cur s) TEof) eqn:Eo.
  - injection Hm as <- <-. exists []. intros tl s' Hs. exists [], s'. unfold bind, getcur, gets.
    destruct (rp_cur Hs) as (q & -> & _). change (tok_is (repos q (cur s)) TEof) with (tok_is (cur s) TEof). rewrite Eo. auto.
  - apply bind_ok in Hm. destruct Hm as (x & s2 & G1 & G2). apply bind_ok in G2. destruct G2 as (xs & s3 & G2 & [= <- <-]).
    inversion Hl as [|? ? L1 L2]; subst.
    destruct (@item_rel _ _ _ Hp G1 L1) as [tr1 Q1].
    assert (Hp2 : prm s2 = P0).
    { assert (F : fr (parse_module_item E n h)) by apply fr_parse_module_item, fr_run. apply F in G1. destruct G1 as (_ & K & _). congruence. }
    destruct (@IH _ _ _ Hp2 G2 L2) as [tr2 Q2]. exists (tr1 ++ tr2). intros tl s' Hs. rewrite <- List.app_assoc in Hs.
    destruct (rp_cur Hs) as (q & Eq & _).
    destruct (Q1 _ _ Hs) as (x' & s2' & E1 & E2 & E3 & _). destruct (Q2 _ _ E3) as (xs' & s3' & E4 & E5 & E6).
    exists (x' :: xs'), s3'. unfold bind, getcur, gets. rewrite Eq.
    change (tok_is (repos q (cur s)) TEof) with (tok_is (cur s) TEof). rewrite Eo, E1, E4. auto.
Qed.
End Items.

(** The same scanner state answers alike. *)
Lemma srep_refl E tr : forall s, srep E eq tr s s.
Proof.
  induction tr as [|v tr IH]; intros s; cbn [srep]; [auto|]. split; [reflexivity|]. split; [|intros e H; exists e; split; [exact H|split; [reflexivity|exists 0, 0; reflexivity]]]. intros t s1 H.
  exists t, s1. split; [exact H|]. split; [|apply IH]. exists (tmark t, tend t). split; [destruct t; reflexivity|reflexivity].
Qed.

Lemma Forall2_marks l l' : Forall2 (r_node (RS eq) (RA true)) l l' -> Forall2 same_but_marks l l'.
Proof.
  intros F. induction F as [|x y l l' H F IH]; constructor; auto.
  eapply eq_node; [| |exact H].
  - intros a b [H1 H2]. destruct a, b. cbn in *. congruence.
  - intros a b [->|(_ & -> & ->)]; reflexivity.
Qed.

Lemma module_is_script E src body ty sp :
  parse_module E src = Ok (Program body ty sp) -> Forall (fun x => module_only x = false) body ->
  exists body', parse_script E src = Ok (Program body' "script" sp) /\ Forall2 same_but_marks body body'.
Proof.
  unfold parse_module, parse_script, parse_with. destruct (s_next E GRegExp (s_new src)) as [t sc| | |]; try discriminate.
  set (N := fuel_for src). set (s0 := init_pst t sc).
  destruct (module_ E N (run E N) s0) as [x s1| | |] eqn:Em; try discriminate. intros [= ->] Hb.
  unfold module_ in Em.
  apply bind_ok in Em. destruct Em as ([] & s2 & G1 & Em). injection G1 as <-.
  apply bind_ok in Em. destruct Em as ([] & s3 & G1 & Em). injection G1 as <-.
  apply bind_ok in Em. destruct Em as (ds & s4 & G1 & Em).
  apply bind_ok in Em. destruct Em as (l & s5 & G2 & Em).
  apply bind_ok in Em. destruct Em as (sp' & s6 & G3 & [= <- <- <- <-]).
  apply Forall_app in Hb. destruct Hb as [Hb1 Hb2].
  edestruct (@with_module E _ _ (Forall2 (r_node (RS eq) (RA true))) (directive_prologues E (run E N) N) (directive_prologues E (run E N) N)) as [tr1 Q1];
    [intros ? ? ? X; apply (@directives_ok E _ (fr_run E N)) in X; apply X|intros I; apply s_directive_prologues; [exact line_eq|exact (sim_run E true line_eq N)]| |exact G1|]; [reflexivity|].
  assert (Hp : prm s4 = P0).
  { clear - G1. clearbody N. unfold with_prm, save_params, upd_prm, restore_params, modify, bind in G1. cbn in G1.
    match type of G1 with context [directive_prologues ?a ?b ?c ?s] => destruct (directive_prologues a b c s) as [y s7| | |] eqn:Ed end; try discriminate.
    apply (@directives_ok E _ (fr_run E N)) in Ed. destruct Ed as (_ & _ & K). cbn in K. rewrite K in G1. injection G1 as _ <-. reflexivity. }
  destruct (@items_rel E N N N _ _ _ Hp G2 Hb2) as [tr2 Q2].
  destruct (proj1 (@sim_end E true eq unit) _ _ _ G3) as [_ [tr3 [_ Q3]]].
  pose (s0' := set_marks (mkMarker (tline t) (tcol t) (tstart t) :: []) s0).
  destruct (Q1 (tr2 ++ tr3 ++ []) s0') as (ds' & s4' & E1 & E2 & E3 & _).
  { constructor; cbn; [apply srep_refl|reflexivity| |exists false; split; [reflexivity|right; auto]|reflexivity|].
    - exists (tmark t, tend t). split; [destruct t; reflexivity|reflexivity].
    - constructor; [|constructor]. reflexivity. }
  destruct (Q2 _ _ E3) as (l' & s5' & E4 & E5 & E6).
  destruct (Q3 tt _ _ E6) as (sp2 & s6' & E7 & E8 & _).
  exists (ds' ++ l'). split; [|apply Forall2_marks, Forall2_app; assumption].
  unfold script, bind at 1. change (start_span s0) with (ROk tt s0'). cbv beta iota.
  unfold bind. rewrite E1, E4, E7. destruct E8 as [X Y]. destruct sp', sp2. cbn in X, Y. subst. reflexivity.
Qed.
