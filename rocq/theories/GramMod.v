(** * GramMod: modules of the grammar are parsed to their trees (proofs). *)
From Verif Require Import Base Codepoint Punct Token Scanner SpecLex SpecScan Hoare ScanBase ScanTokens2.
From Verif Require Import Ast Convert ParserBase ParserExpr ParserStmt Parser SpecJson SpecBare SpecLayout SpecGrammar GramLex GramBase GramTac GramPat GramExpr GramExpr2 GramExpr3 GramExpr4.
From Verif Require Import GramBal GramStmt GramStmt2 GramStmt3 LexProofs ParseProofs GramTop.
From Coq Require Import ZifyBool ZifyN ZifyNat.
Set Implicit Arguments.

(** ** Braces *)
Lemma import_name_bal l x : import_name l x -> bal l.
Proof. intros [b y Hy|t y b b' z Hy Hz]; bals. Qed.
Lemma export_name_bal l x : export_name l x -> bal l.
Proof. intros [t y Hy|t y b t' z Hy Hz]; bals. Qed.
Lemma listed_bal A (one : list tok -> A -> Prop) : (forall l x, one l x -> bal l) -> forall l xs, listed one l xs -> bal l.
Proof. intros H l xs Hl. induction Hl; bals; eauto. Qed.
Lemma group_bal l xs : import_group l xs -> bal l.
Proof. intros [b b1 b2 x Hx|b l0 b' ys H]; bals. eapply listed_bal; eauto using import_name_bal. Qed.
Lemma clause_bal l xs : import_clause l xs -> bal l.
Proof. intros [l0 ys H|b x Hx|b x b' l0 ys Hx H]; bals; eauto using group_bal. Qed.
Lemma opt_name_bal l x : opt_name l x -> bal l.
Proof. intros [|]; bals. Qed.
Lemma opt_star_bal l x : opt_star l x -> bal l.
Proof. intros [|]; bals. Qed.
Lemma item_bal E M l nt s : module_item E M l nt s -> bal l.
Proof.
  intros [l0 nt0 s0 H|b l0 b1 b2 w sl nt0 xs H Hs|b b0 b1 b2 w sl nt0 Hs|b b1 l0 b2 nt0 xs H Hn Hp|b b1 w l0 nt0 s0 Hw H
    |b b1 l0 sl nt0 e H1 H2 H3 H Hs|b b1 b2 g gen nm id l0 l1 nt0 ps bd Hg Hnm H H'|b b1 b2 b3 x l0 nt0 s0 ms Hx H].
  - exact (balanced H).
  - bals. eauto using clause_bal.
  - bals.
  - bals. eapply listed_bal; eauto using export_name_bal.
  - apply bal_cons; [reflexivity|]. exact (balanced H).
  - pose proof (balanced H) as G. cbn [shape] in G. bals.
  - pose proof (balanced H) as G. pose proof (balanced H') as G'. cbn [shape] in *. pose proof (opt_name_bal Hnm). pose proof (opt_star_bal Hg). bals.
  - pose proof (balanced H) as G. cbn [shape] in G. bals.
Qed.
Lemma items_bal E M nt l ss : module_items E M nt l ss -> bal l.
Proof. induction 1; bals. eapply item_bal; eauto. Qed.
Lemma body_bal E M nt l ss : module_body E M nt l ss -> bal l.
Proof. induction 1; bals. eapply items_bal; eauto. Qed.

Section Mod.
Context (E : env).
Hypothesis Hsane : ucd_sane E.
Notation ht := (ht E).
Notation does := (does E).
Notation run := (run E).

(** ** Names *)
Lemma name_sf t x u : name_tok t x -> slashfree (t :: u).
Proof. intros [b y|b w Hw]; split; reflexivity. Qed.
Lemma import_binding_does x b u F m : ident x -> u <> [] ->
  does (Id b x :: u) F m (import_binding E) (fun i => strip_id i = name_id x) u m.
Proof.
  intros Hx Hu. unfold import_binding. go. eapply ht_use; [apply bind_id; auto|]. intros y (sp & ->). go.
  apply ht_ret_r. eapply ht_liftc; [reflexivity|]. fin. reflexivity.
Qed.
Lemma comma_close b p u F m : (p = RBrace \/ p = RBracket \/ p = RParen) -> does (P b p :: u) F m (comma_unless E p) (fun _ => True) (P b p :: u) m.
Proof. intros [->|[->| ->]]; unfold comma_unless; go; fin; auto. Qed.
Lemma comma_more b u F m : slashfree u -> does (P b Comma :: u) F m (comma_unless E RBrace) (fun _ => True) u m.
Proof. intros Hu. unfold comma_unless. go. fin. auto. Qed.
(** A specifier and what follows it: the brace, or a comma that goes with it. *)
Definition after (b : bool) (c : option bool) (u : list tok) : list tok * list tok :=
  match c with None => (P b RBrace :: u, P b RBrace :: u) | Some b' => (P b' Comma :: u, u) end.
Lemma after_does b c u F m : (c <> None -> slashfree u) -> does (fst (after b c u)) F m (comma_unless E RBrace) (fun _ => True) (snd (after b c u)) m.
Proof. intros Hu. destruct c; cbn [after fst snd]; [apply comma_more; apply Hu; discriminate|apply comma_close; auto]. Qed.
Lemma after_ne b c u : exists t v, fst (after b c u) = t :: v /\ no_slash t /\ tok_id (kt t) "as" = false.
Proof. destruct c; cbn [after fst]; eexists _, _; (split; [reflexivity|]); split; [split; reflexivity|reflexivity|split; reflexivity|reflexivity]. Qed.
Lemma import_name_does l x b c u F m : import_name l x -> (c <> None -> slashfree u) ->
  does (l ++ fst (after b c u)) F m (named_import_specifier E) (fun y => strip_import y = x) (snd (after b c u)) m.
Proof.
  intros H Hu. pose proof (@after_does b c u F) as Ha. destruct (after_ne b c u) as (t9 & v9 & Hv & Hs & Has). rewrite Hv in *.
  unfold named_import_specifier. destruct H as [b0 y Hy|t y b0 b1 z Hy Hz]; norm.
  - go. eapply ht_use; [apply id_name; [exact Hsane|constructor|discriminate|intros _; exact Hs|discriminate]|]. intros ? <-. go.
    pose proof (ident_not_keyword Hy) as Hk. go.
    eapply ht_use; [apply Ha; auto|]. intros _ _. fin. reflexivity.
  - go. eapply ht_use; [apply id_name; [exact Hsane|exact Hy|discriminate|intros _; split; reflexivity|discriminate]|]. intros ? <-. go.
    eapply ht_use; [apply import_binding_does; auto; discriminate|]. intros i Hi.
    eapply ht_use; [apply Ha; auto|]. intros _ _. fin. cbn [strip_import]. rewrite Hi. reflexivity.
Qed.
Lemma export_name_does l x b c u F m : export_name l x -> (c <> None -> slashfree u) ->
  does (l ++ fst (after b c u)) F m (named_export_specifier E) (fun y => strip_export y = x) (snd (after b c u)) m.
Proof.
  intros H Hu. pose proof (@after_does b c u F) as Ha. destruct (after_ne b c u) as (t9 & v9 & Hv & Hs & Has). rewrite Hv in *.
  unfold named_export_specifier. destruct H as [t y Hy|t y b0 t' z Hy Hz]; norm.
  - go. eapply ht_use; [apply id_name; [exact Hsane|exact Hy|discriminate|intros _; exact Hs|discriminate]|]. intros ? <-. go.
    eapply ht_use; [apply Ha; auto|]. intros _ _. fin. reflexivity.
  - pose proof (name_sf (t9 :: v9) Hz) as Hz'. go. eapply ht_use; [apply id_name; [exact Hsane|exact Hy|discriminate|intros _; split; reflexivity|discriminate]|]. intros ? <-. go.
    eapply ht_use; [apply id_name; [exact Hsane|exact Hz|discriminate|intros _; exact Hs|discriminate]|]. intros ? <-. go.
    eapply ht_use; [apply Ha; auto|]. intros _ _. fin. reflexivity.
Qed.
(** Lists in braces. *)
Lemma listed_does A B (one : list tok -> B -> Prop) (strip : A -> B) (item : PM A) F b rest :
  (forall l x, one l x -> exists t l0, l = t :: l0 /\ no_slash t /\ tok_punc (kt t) RBrace = false) ->
  (forall l x c u m, one l x -> (c <> None -> slashfree u) -> does (l ++ fst (after b c u)) F m item (fun y => strip y = x) (snd (after b c u)) m) ->
  forall l xs, listed one l xs -> slashfree (l ++ P b RBrace :: rest) /\ forall k m,
  does (l ++ P b RBrace :: rest) F m (parse_until_punc k RBrace item) (fun ys => map strip ys = xs) (P b RBrace :: rest) m.
Proof.
  intros Hst Hi l xs H. induction H as [|l x H|l x b' l' xs H H' [IHs IH]].
  - split; [split; reflexivity|]. intros [|k] m; [apply ht_fuel|]. cbn [app parse_until_punc]. go. fin. reflexivity.
  - destruct (Hst _ _ H) as (t9 & l0 & -> & Hs & Hb). split; [exact Hs|]. intros [|k] m; [apply ht_fuel|]. cbn [app parse_until_punc]. go.
    eapply ht_use; [apply (Hi (t9 :: l0) x None rest m H); congruence|]. intros y Hy. cbn [after fst snd].
    destruct k as [|k]; [apply ht_fuel_bind|]. cbn [parse_until_punc]. go. fin. cbn [map]. rewrite Hy. reflexivity.
  - destruct (Hst _ _ H) as (t9 & l0 & -> & Hs & Hb). split; [exact Hs|]. intros [|k] m; [apply ht_fuel|]. cbn [app parse_until_punc]. rewrite <- app_assoc. go.
    eapply ht_use; [apply (Hi (t9 :: l0) x (Some b') (l' ++ P b RBrace :: rest) m H); auto|]. intros y Hy. cbn [after fst snd].
    eapply ht_use; [apply IH|]. intros ys Hys. fin. cbn [map]. rewrite Hy, Hys. reflexivity.
Qed.
Lemma name_first t x : name_tok t x -> no_slash t /\ tok_punc (kt t) RBrace = false.
Proof. intros [b y|b w Hw]; (split; [split|]; reflexivity). Qed.
Lemma import_first l x : import_name l x -> exists t l0, l = t :: l0 /\ no_slash t /\ tok_punc (kt t) RBrace = false.
Proof. intros [b y Hy|t y b b' z Hy Hz]; eexists _, _; (split; [reflexivity|]); [split; [split|]; reflexivity|]. eapply name_first; eauto. Qed.
Lemma export_first l x : export_name l x -> exists t l0, l = t :: l0 /\ no_slash t /\ tok_punc (kt t) RBrace = false.
Proof. intros [t y Hy|t y b t' z Hy Hz]; eexists _, _; (split; [reflexivity|]); eapply name_first; eauto. Qed.
Lemma names_does b l b' xs nt rest F n m : listed import_name l xs -> no_slash nt ->
  does (P b LBrace :: l ++ P b' RBrace :: nt :: rest) F m (named_import_specifiers E n) (fun ys => map strip_import ys = xs) (nt :: rest) m.
Proof.
  intros H Hn. unfold named_import_specifiers.
  destruct (@listed_does _ _ import_name strip_import (named_import_specifier E) F b' (nt :: rest) import_first (fun l x c u m => @import_name_does l x b' c u F m) l xs H) as [Hs Hd].
  go. eapply ht_use; [apply Hd|]. intros ys Hys. go. fin. auto.
Qed.
Lemma exports_does b l b' xs nt rest F n m : listed export_name l xs -> no_slash nt ->
  does (P b LBrace :: l ++ P b' RBrace :: nt :: rest) F m (named_export_specifiers E n) (fun ys => map strip_export ys = xs) (nt :: rest) m.
Proof.
  intros H Hn. unfold named_export_specifiers.
  destruct (@listed_does _ _ export_name strip_export (named_export_specifier E) F b' (nt :: rest) export_first (fun l x c u m => @export_name_does l x b' c u F m) l xs H) as [Hs Hd].
  go. eapply ht_use; [apply Hd|]. intros ys Hys. go. fin. auto.
Qed.
(** ** Imports *)
Lemma from_does b1 b2 w sl nt rest F m specs : semi false sl nt -> no_slash nt ->
  does (Id b1 (s2l "from") :: T b2 (KStr w) :: sl ++ nt :: rest) F (S m) (parse_import_from_dclr E specs)
    (R_node (ImportDeclaration (map strip_import specs) (from_tree w) nowhere)) (nt :: rest) m.
Proof.
  intros Hs Hn. unfold parse_import_from_dclr, parse_module_specifier.
  assert (Hsf : slashfree (sl ++ nt :: rest)) by (destruct Hs; first [exact Hn|split; reflexivity]).
  go. eapply ht_use; [eapply semi_does; eauto|]. intros _ _. go. fin. unfold R_node. cbn [bare_node strip_lit lit_value lit_raw].
  unfold from_tree, strip_lit. cbn [lit_value lit_raw]. krw. reflexivity.
Qed.
Ltac kw_start := split; [eexists _, _; split; [reflexivity|]; split; [split; [split|]|]; reflexivity|].
Definition next_ok nt := no_slash nt /\ tok_kw (kt nt) "from" = false.
Definition claimN M l nt s := (exists t l0, l = t :: l0 /\ next_ok t /\ tok_is (kt t) TEof = false) /\
  forall F, mok M F -> mok M (setp (ya false false) F) -> mok M (setp module_params F) -> next_ok nt -> forall n n2 rest m,
  does (l ++ nt :: rest) F m (parse_module_item E n (run n2)) (R_node s) (nt :: rest) m.
Lemma namespace_does b b1 b2 x u F m : ident x -> u <> [] ->
  does (P b Star :: Id b1 (s2l "as") :: Id b2 x :: u) F m (namespace_import_specifiers E) (fun ys => map strip_import ys = [ImportNamespace (name_id x)]) u m.
Proof.
  intros Hx Hu. unfold namespace_import_specifiers. go. eapply ht_use; [apply import_binding_does; auto|]. intros i Hi. fin. cbn [map strip_import]. rewrite Hi. reflexivity.
Qed.
Lemma r_import M b l b1 b2 w sl nt xs : import_clause l xs -> semi false sl nt ->
  claimN M (W b "import" :: l ++ Id b1 (s2l "from") :: T b2 (KStr w) :: sl) nt (ImportDeclaration xs (from_tree w) nowhere).
Proof.
  intros Hc Hs. kw_start. intros F _ _ _ [Hn Hfr] n n2 rest m. norm.
  assert (HF : forall ys F, map strip_import ys = xs ->
    does (Id b1 (s2l "from") :: T b2 (KStr w) :: sl ++ nt :: rest) F (S m) (parse_import_from_dclr E ys) (R_node (ImportDeclaration xs (from_tree w) nowhere)) (nt :: rest) m)
    by (intros ys F' <-; apply from_does; auto).
  unfold parse_module_item. destruct Hc as [l ys [b0 b3 b4 x Hx|b0 l0 b' ys' H]|b0 x Hx|b0 x b' l ys Hx [b3 b4 b5 y Hy|b3 l0 b4 ys' H]]; norm.
  - go. unfold parse_import_dclr. go. eapply ht_use; [apply namespace_does; auto; discriminate|]. intros zs Hzs. apply HF; auto.
  - assert (slashfree (P b0 LBrace :: l0 ++ P b' RBrace :: Id b1 (s2l "from") :: T b2 (KStr w) :: sl ++ nt :: rest)) by (split; reflexivity).
    go. unfold parse_import_dclr. go. eapply ht_use; [apply names_does; eauto; split; reflexivity|]. intros zs Hzs. apply HF; auto.
  - go. unfold parse_import_dclr. go. eapply ht_use; [apply import_binding_does; auto; discriminate|]. intros i Hi. go. apply HF. cbn [map strip_import]. rewrite Hi. reflexivity.
  - go. unfold parse_import_dclr. go. eapply ht_use; [apply import_binding_does; auto; discriminate|]. intros i Hi. go.
    eapply ht_use; [apply namespace_does; auto; discriminate|]. intros zs Hzs. apply HF. cbn [map strip_import]. rewrite Hi, Hzs. reflexivity.
  - go. unfold parse_import_dclr. go. eapply ht_use; [apply import_binding_does; auto; discriminate|]. intros i Hi. go.
    eapply ht_use; [apply names_does; eauto; split; reflexivity|]. intros zs Hzs. apply HF. cbn [map strip_import]. rewrite Hi, Hzs. reflexivity.
Qed.
(** ** Exports *)
Lemma r_export_all M b b0 b1 b2 w sl nt : semi false sl nt ->
  claimN M (W b "export" :: P b0 Star :: Id b1 (s2l "from") :: T b2 (KStr w) :: sl) nt (ExportAllDeclaration (from_tree w) nowhere).
Proof.
  intros Hs. kw_start. intros F _ _ _ [Hn Hfr] n n2 rest m. norm.
  assert (Hsf : slashfree (sl ++ nt :: rest)) by (destruct Hs; first [exact Hn|split; reflexivity]).
  unfold parse_module_item. go. unfold parse_export_dclr, parse_module_specifier. go.
  eapply ht_use; [eapply semi_does; eauto|]. intros _ _. go. fin. unfold R_node. cbn [bare_node].
  unfold from_tree, strip_lit. cbn [lit_value lit_raw]. krw. reflexivity.
Qed.
Lemma r_export_names M b b1 l b2 nt xs : listed export_name l xs ->
  claimN M (W b "export" :: P b1 LBrace :: l ++ [P b2 RBrace]) nt (ExportNamedDeclaration None xs None nowhere).
Proof.
  intros H. kw_start. intros F _ _ _ [Hn Hfr] n n2 rest m. norm.
  unfold parse_module_item. go. unfold parse_export_dclr. go. eapply ht_use; [apply exports_does; eauto|]. intros ys Hys.
  go. fin. unfold R_node. cbn [bare_node option_map]. rewrite Hys. reflexivity.
Qed.
Lemma r_export_decl M b b1 w l nt s : In w ["var"; "const"; "function"; "class"]%string -> claimI E M top_place (W b1 w :: l) nt s ->
  claimN M (W b "export" :: W b1 w :: l) nt (ExportNamedDeclaration (Some s) [] None nowhere).
Proof.
  intros Hw [_ H]. kw_start. intros F _ HF _ [Hn Hfr] n n2 rest m. norm.
  specialize (H (setp (ya false false) F) (sok_top HF) Hn n n2 rest). cbn [app] in H.
  assert (Hl : forall A (x y : PM A) u F m R ts' m', (forall s, kmatch (cur s) (KW w) -> x s = y s) -> does (W b1 w :: u) F m x R ts' m' -> does (W b1 w :: u) F m y R ts' m').
  { intros A x y u F' m0 R ts' m' He Hx s0 Hs0. specialize (Hx s0 Hs0). unfold pwp in *. rewrite <- He; auto. pose proof (st_head Hs0) as (G & _). exact G. }
  assert (Hd : forall m, does (W b1 w :: l ++ nt :: rest) (setp (ya false false) F) m
     (if String.eqb w "var" then parse_variable_stmt E n (run n2) true else parse_declaration E n (run n2)) (R_node s) (nt :: rest) m).
  { intros m0. eapply Hl; [|apply H]. intros s0 K. unfold parse_stmt_list_item, parse_declaration.
    destruct Hw as [<-|[<-|[<-|[<-|[]]]]]; cbn [String.eqb Ascii.eqb Bool.eqb]; unfold bind, getcur, gets; krw; reflexivity. }
  unfold parse_module_item. destruct Hw as [<-|[<-|[<-|[<-|[]]]]]; cbn [String.eqb Ascii.eqb Bool.eqb] in Hd; go; unfold parse_export_dclr; go; try (apply ht_if_t; [unfold is_dclr_kw; krw; try match goal with K : kmatch ?t _ |- context [ttype ?t] => rewrite (proj1 K) end; reflexivity|]; go);
    (eapply ht_use; [apply Hd|]); intros x Hx; go; fin; unfold R_node; cbn [bare_node option_map map]; rewrite Hx; reflexivity.
Qed.
Lemma is_w_kw t w : is_w t w = false -> tok_kw (kt t) w = false.
Proof. apply tok_kw_is. Qed.
Lemma r_default_expr M b b1 l sl nt e : is_w (next l nt) "function" = false -> is_w (next l nt) "class" = false ->
  (forall b2 l0, l <> Id b2 (s2l "async") :: l0) -> claimA E M true l (next sl nt) e -> semi true sl nt ->
  claimN M (W b "export" :: W b1 "default" :: l ++ sl) nt (ExportDefaultDeclaration e nowhere).
Proof.
  intros H1 H2 H3 H Hs. kw_start. intros F _ HF _ [Hn Hfr] n n2 rest m. norm.
  destruct H as [Hst H]. destruct l as [|[b0 k] l]; [contradiction|]. cbn [starts knd next hd] in *.
  apply tok_kw_is in H1. apply tok_kw_is in H2. cbn [knd] in *.
  assert (Ha : tok_id (ktok k) "async" = false).
  { destruct k; auto. unfold tok_id, matches_str. cbn [ktok ttype tval ktype kval tt_eqb andb].
    destruct (str_eqb _ _) eqn:Ev; auto. apply str_eqb_eq in Ev. subst. exfalso. eapply H3. reflexivity. }
  destruct (start_dispatch Hst H1 Ha) as (D1 & D2 & D3 & D4).
  pose proof (start_slash Hst b0) as Hsl. norm.
  assert (Hx : forall m0, does (T b0 k :: l ++ sl ++ nt :: rest) (setp (fun p => set_in true (ya false false p)) F) m0 (parse_assignment_expr E n (run n2)) (tr e) (sl ++ nt :: rest) m0).
  { intros m0. change (T b0 k :: l ++ sl ++ nt :: rest) with ((T b0 k :: l) ++ sl ++ nt :: rest). apply at_next. intros rest'.
    apply H; [split; [exact HF|reflexivity]|]. apply assign_expr, (semi_next_ok true Hs). }
  unfold parse_module_item. go. unfold parse_export_dclr. go. unfold export_default. go.
  eapply ht_use; [apply Hx|]. intros y Hy. go.
  eapply ht_use; [eapply semi_does; eauto|]. intros _ _. go. fin. unfold R_node. cbn [bare_node]. rewrite (tr_bare Hy). reflexivity.
Qed.
Lemma r_default_function M M1 M2 b b1 b2 g gen nm id l l' nt ps bd : allows M M1 gen false -> allows M M2 gen false -> opt_star g gen -> opt_name nm id ->
  claimT E M1 l (next l' nt) ps -> claimF E M2 l' nt bd ->
  claimN M (W b "export" :: W b1 "default" :: W b2 "function" :: g ++ nm ++ l ++ l') nt
    (ExportDefaultDeclaration (FunctionDeclaration id ps bd gen false false nowhere) nowhere).
Proof.
  intros A1 A2 Hg Hnm H H'. kw_start. intros F _ HF _ [Hn Hfr] n n2 rest m. norm. pose proof (proj1 H) as (b3 & l1 & ->).
  unfold parse_module_item. 
  destruct Hg as [|b4]; destruct Hnm as [|b5 x Hx]; norm; go; unfold parse_export_dclr; go; unfold export_default; go; unfold parse_hoistable_dclr; go; unfold parse_function_dclr; go.
  all: try (unfold binding_id_node; go; eapply ht_use; [apply bind_id; auto; discriminate|]; intros y (sp & ->); go).
  all: (eapply ht_use; [eapply params_body with (l := P b3 LParen :: l1) (M1 := M1) (M2 := M2); first [eassumption | eapply allows_mok; [exact HF|eassumption]]|]); intros [xs z] [Hxs Hz]; cbn [fst snd] in *; go; fin;
    unfold R_node; cbn [bare_node option_map]; rewrite Hxs, Hz; reflexivity.
Qed.
Lemma r_default_class M b b1 b2 b3 x l nt s ms : ident x -> claimCT E (strict_mode M) l nt (s, ms) ->
  claimN M (W b "export" :: W b1 "default" :: W b2 "class" :: Id b3 x :: l) nt
    (ExportDefaultDeclaration (ClassDeclaration (Some (NBindingIdentifier x nowhere)) s ms nowhere) nowhere).
Proof.
  intros Hx H. kw_start. intros F _ HF _ [Hn Hfr] n n2 rest m. norm. destruct (@ct_ne_ E (strict_mode M) _ _ _ (nt :: rest) H) as [Hne Hsf].
  unfold parse_module_item. go. unfold parse_export_dclr. go. unfold export_default. go.
  unfold parse_class_dclr. go. apply ht_setst. go. unfold binding_id_node. go.
  eapply ht_use; [apply bind_id; auto|]. intros y (sp & ->). go.
  set (F' := setp (fun p => set_default true (ya false false p)) F) in *.
  assert (HF' : mok M F') by exact HF.
  eapply ht_use; [apply (proj2 H); auto; apply (@mok_class M F'), HF'|]. intros z (s' & ms' & sp' & -> & H1 & H2). cbn [fst snd] in *. go.
  apply ht_setst. replace (strict c) with (fstrict F') by auto. rewrite setst_back. subst F'. go. fin. unfold R_node.
  cbn [bare_node option_map]. rewrite H1, H2. reflexivity.
Qed.
Lemma r_item M l nt s : claimI E M top_place l nt s -> claimN M l nt s.
Proof.
  intros [Hl H]. destruct l as [|t l]; [contradiction|]. cbn [item_start] in Hl. destruct Hl as [I1 I2 I3 I4 I5 I6 I7 I8]. split.
  - eexists _, _. splits; [reflexivity|split; auto|auto].
  - intros F _ _ HF [Hn Hfr] n n2 rest m. unfold parse_module_item. norm. go.
    specialize (H (setp module_params F) (sok_top HF) Hn n n2). cbn [app] in H.
    eapply ht_use; [apply H|]. intros x Hx. go. fin. auto.
Qed.
Theorem item_does M l nt s : module_item E M l nt s -> claimN M l nt s.
Proof.
  intros [l0 nt0 s0 H|b l0 b1 b2 w sl nt0 xs H Hs|b b0 b1 b2 w sl nt0 Hs|b b1 l0 b2 nt0 xs H Hn Hp|b b1 w l0 nt0 s0 Hw H
    |b b1 l0 sl nt0 e H1 H2 H3 H Hs|b b1 b2 g gen nm id l0 l1 nt0 ps bd Hg Hnm H H'|b b1 b2 b3 x l0 nt0 s0 ms Hx H].
  - apply r_item. exact (phrase Hsane H).
  - apply r_import; auto.
  - apply r_export_all; auto.
  - apply r_export_names; auto.
  - apply r_export_decl; auto. exact (phrase Hsane H).
  - apply r_default_expr; auto. exact (phrase Hsane H).
  - pose proof (phrase Hsane H) as G. pose proof (phrase Hsane H') as G'. cbn [claim] in *.
    eapply r_default_function with (M1 := params_mode (decl_mode M gen)) (M2 := decl_mode M gen); eauto; unfold allows; destruct gen; splits; try reflexivity; discriminate.
  - apply r_default_class; auto. exact (phrase Hsane H).
Qed.
(** ** The whole module *)
Lemma items_first M nt l ss : module_items E M nt l ss -> next_ok nt -> next_ok (next l nt).
Proof.
  intros [|l0 l' s ss' H H'] Hn; [exact Hn|]. destruct (item_does H) as [(t & l1 & -> & Ht & _) _]. exact Ht.
Qed.
Lemma items_does M b l ss F : module_items E M (T b KEof) l ss -> mok M F -> mok M (setp (ya false false) F) -> mok M (setp module_params F) -> forall n n2 k rest m,
  does (l ++ T b KEof :: rest) F m (parse_until_eof k (parse_module_item E n (run n2))) (fun x => map bare_node x = ss) (T b KEof :: rest) m.
Proof.
  intros H H1 H2 H3 n n2. assert (Hn : next_ok (T b KEof)) by (split; [split|]; reflexivity).
  induction H as [|l l' s ss H H' IH]; intros [|k] rest m; try apply ht_fuel; cbn [parse_until_eof].
  - norm. go. fin. reflexivity.
  - destruct (item_does H) as [(t9 & l9 & -> & [Ht1 Ht2] & Ht3) Hd]. norm. go.
    eapply ht_use with (ts' := l' ++ T b KEof :: rest).
    { pose proof (Hd F H1 H2 H3 (items_first H' Hn) n n2 (tl (l' ++ T b KEof :: rest)) m) as Hx. destruct l'; exact Hx. }
    intros x Hx. eapply ht_use; [apply IH|]. intros xs Hxs. fin. cbn [map]. rewrite Hxs, Hx. reflexivity.
Qed.
Lemma split_body M nt l ss : in_generator M = false -> module_body E M nt l ss ->
  exists l1 l2 s1 s2 M', l = l1 ++ l2 /\ ss = s1 ++ s2 /\ dirs E (next l2 nt) M l1 s1 M' /\ module_items E M' nt l2 s2 /\ in_generator M' = false /\ m_await M' = m_await M.
Proof.
  intros HM H. induction H as [M nt b w sl l ss Hs H IH|M nt l ss Hw H].
  - assert (HM' : in_generator (directive_mode M w) = false) by (unfold directive_mode; destruct (str_eqb _ _); auto).
    destruct (IH HM') as (l1 & l2 & s1 & s2 & M' & -> & -> & G1 & G2 & G3 & G4).
    exists (T b (KStr w) :: sl ++ l1), l2, (ExpressionStatement (lit_tree E (VStr w)) nowhere :: s1), s2, M'. splits; auto.
    + norm. reflexivity.
    + constructor; auto. { intros Hg. congruence. } destruct l1; exact Hs.
    + rewrite G4. unfold directive_mode; destruct (str_eqb _ _); auto.
  - exists [], l, [], ss, M. splits; auto. constructor; auto.
Qed.
Lemma module_does n n2 b l ss rest : module_body E (top_mode true) (T b KEof) l ss ->
  ht (l ++ T b KEof :: rest) F0 0 (module_ E n (run n2)) (fun a _ => ends ss "module" a).
Proof.
  intros H. destruct (@split_body (top_mode true) _ _ _ eq_refl H) as (l1 & l2 & s1 & s2 & M' & -> & -> & H1 & H2 & HM' & HA). unfold module_. go. rewrite <- app_assoc. apply ht_setst. go.
  assert (Hs2 : next_ok (next l2 (T b KEof))) by (eapply items_first; eauto; split; [split|]; reflexivity).
  assert (HM0 : mok (top_mode true) (setp module_params (setst true F0))) by (unfold mok; splits; try reflexivity; discriminate).
  pose proof (@dirs_mok _ _ _ _ _ _ H1 _ HM0) as HM.
  eapply dirs_bind; [exact Hsane|exact (proj1 Hs2)|exact H1|exact HM0|]. intros xs Hxs.
  change (setst (m_strict M') (setp module_params (setst true F0))) with (setp module_params (setst (m_strict M') F0)) in *. go.
  assert (HM2 : forall f, has_yield (f (fprm F0)) = false -> mok M' (setp f (setst (m_strict M') F0))).
  { intros f Hf. destruct HM as (G1 & G2 & G3). unfold mok. splits; auto. { rewrite HM'. exact Hf. } cbn in HA. rewrite HA. discriminate. }
  eapply ht_use; [eapply items_does; [exact H2|apply (HM2 (fun p => p) eq_refl)|apply HM2; reflexivity|apply HM2; reflexivity]|].
  intros ys Hys. go. intros s Hs. unfold pwp, ends. cbn [ret bare_node]. rewrite map_app, Hxs, Hys. reflexivity.
Qed.
Lemma module_fits ts ss : a_module E ts ss -> exists b l, ts = l ++ [T b KEof] /\ module_body E (top_mode true) (T b KEof) l ss /\ fits ts [] /\ slashfree ts.
Proof.
  intros [b l ss0 H]. exists b, l. splits; auto.
  - apply (body_bal H). cbn. auto.
  - destruct (@split_body (top_mode true) _ _ _ eq_refl H) as (l1 & l2 & s1 & s2 & M' & -> & -> & H1 & H2 & _).
    destruct H1; [|split; reflexivity]. apply sf_next. eapply items_first; eauto. split; [split|]; reflexivity.
Qed.
Theorem module_parses ts text ss : source_of E ts text -> program E true ts ss -> (checked E = true -> text <> []) ->
  exists t, parse_module E text = Ok t /\ bare_node t = Program ss "module" nowhere.
Proof.
  intros Hs Hp Hc. destruct (module_fits Hp) as (b & l & -> & Hb & Hft & Hsf). destruct (first_state Hsane Hs Hft Hsf Hc) as (t & sc & Hn & HS).
  pose proof (proj2 (@within_module E text _ (Nat.le_refl _))) as Hfuel.
  pose proof (@module_does (fuel_for text) (fuel_for text) b l ss [] Hb _ HS) as Hd.
  unfold parse_module, parse_with in *. rewrite Hn in *. unfold pwp in Hd.
  destruct (module_ E _ _ _) as [a s'| | |]; try contradiction; try congruence.
  exists a. split; auto.
Qed.
End Mod.
