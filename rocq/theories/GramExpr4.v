(** * GramExpr4: classes (proofs). *)
From Verif Require Import Base Codepoint Punct Token Scanner SpecLex SpecScan Hoare ScanBase ScanTokens2.
From Verif Require Import Ast Convert ParserBase ParserExpr ParserStmt Parser SpecJson SpecBare SpecLayout SpecGrammar GramLex GramBase GramTac GramExpr GramExpr2 GramExpr3.
From Coq Require Import ZifyBool ZifyN ZifyNat.
Set Implicit Arguments.

Lemma mok_class M F : mok M F -> mok (strict_mode M) (setst true F).
Proof. intros (H1 & H2 & H3). unfold mok. splits; auto. Qed.
Lemma not_static w : In w reserved_words -> String.eqb w "static" = false.
Proof. unfold reserved_words. cbn [In]. intros H. repeat destruct H as [<-|H]; try reflexivity. destruct H. Qed.

Section Class.
Context (E : env) (M : mode).
Hypothesis Hsane : ucd_sane E.
Notation ht := (ht E).
Notation does := (does E).
Notation run := (run E).
Notation claimA := (claimA E M).
Notation mok := (mok M).

(** ** Keys *)
Definition key_start (l : list tok) : Prop := match l with t :: _ => (exists x, name_tok t x) \/ (exists b, t = P b LBracket) | [] => False end.
Definition R_key (k : prop_key * bool) (y : prop_key * bool) : Prop :=
  bare_key (fst y) = fst k /\ snd y = snd k /\ bare_node (key_as_node (fst y)) = key_node E (fst k) /\
  class_method_kind (fst y) = (if is_ctor (fst k) then "constructor" else "method")%string.
Definition claimKey l nt k := key_start l /\ forall F, mok F -> no_slash nt -> is_regexp nt = false -> forall n2 rest m,
  does (l ++ nt :: rest) F m (parse_property_name E (run n2)) (R_key k) (nt :: rest) m.
Lemma r_key_name t x nt : name_tok t x -> claimKey [t] nt (key_tree x, false).
Proof.
  intros Ht. split; [left; eauto|]. intros F HF Hn Hrx n2 rest m. unfold parse_property_name.
  assert (N6 : tok_is (kt t) TIdentifier || tok_is (kt t) TKeyword = true) by (destruct Ht; reflexivity).
  norm. go. eapply ht_use; [apply (@id_name E Hsane t x (nt :: rest)); auto; discriminate|]. intros y <-. go. fin. unfold R_key. splits; reflexivity.
Qed.
Lemma r_key_computed b l b' nt e : claimA true l (P b' RBracket) e -> claimKey (P b LBracket :: l ++ [P b' RBracket]) nt (PK_Expr e, true).
Proof.
  intros H. split; [right; eauto|]. intros F HF Hn Hrx n2 rest m. unfold parse_property_name, parse_computed_property_name. pose proof (proj1 H) as Hl.
  norm. go. eapply ht_use; [apply (assign_in_does H); auto; apply close_ok; reflexivity|]. intros y Hy. go. fin.
  unfold R_key. cbn [fst snd bare_key key_as_node key_node class_method_kind is_ctor]. rewrite (tr_bare Hy). splits; reflexivity.
Qed.
Record key_tests (t : tok) : Prop := mkKeyTests {
  kt_slash : no_slash t; kt_semi : tok_punc (kt t) Semicolon = false; kt_brace : tok_punc (kt t) RBrace = false;
  kt_static : tok_kw (kt t) "static" = false; kt_star : tok_punc (kt t) Star = false }.
Lemma key_first l : key_start l -> exists t l0, l = t :: l0 /\ key_tests t.
Proof.
  destruct l as [|t l]; [intros []|]. intros [(x & H)|(b & ->)]; exists t, l + exists (P b LBracket), l; split; auto.
  - constructor; destruct H as [b y|b w Hw]; try (split; reflexivity); try reflexivity.
    unfold tok_kw, matches_str. cbn [knd ktok ttype tval ktype kval tt_eqb andb]. rewrite s2l_eqb. apply not_static; auto.
  - constructor; try (split; reflexivity); reflexivity.
Qed.
Lemma key_sf l r : key_start l -> slashfree (l ++ r).
Proof. intros H. destruct (@key_first l H) as (t & l0 & -> & Ht). apply Ht. Qed.

(** ** Class elements *)
Definition claimM l nt d := prop_start l /\ forall F, mok F -> no_slash nt -> forall n n2 rest m,
  does (l ++ nt :: rest) F m (class_element E n (run n2)) (fun x => exists y, x = Some y /\ bare_meth y = d) (nt :: rest) m.
Definition claimCB l nt ms := forall b, nt = P b RBrace -> no_slash (next l nt) /\ forall F, mok F -> forall n n2 k rest m,
  does (l ++ nt :: rest) F m (parse_until_punc k RBrace (class_element E n (run n2))) (fun x => map bare_meth (cat_some x) = ms) (nt :: rest) m.
Ltac loop0 k := destruct k as [|k]; [first [apply ht_fuel | apply ht_fuel_bind]|]; cbn [parse_until_punc]; go.
Lemma r_class_nil nt : claimCB [] nt [].
Proof. intros b ->. split; [split; reflexivity|]. intros F HF n n2 k rest m. norm. loop0 k. fin. reflexivity. Qed.
Lemma r_class_semi b l nt ms : claimCB l nt ms -> claimCB (P b Semicolon :: l) nt ms.
Proof.
  intros H b' ->. destruct (H b' eq_refl) as [Hs Hr]. split; [split; reflexivity|]. intros F HF n n2 k rest m. norm. loop0 k.
  unfold class_element at 1. go. eapply ht_use; [apply Hr; auto|]. intros xs Hxs. go. fin. exact Hxs.
Qed.
Lemma r_class_cons l l' nt x ms : claimM l (next l' nt) x -> claimCB l' nt ms -> claimCB (l ++ l') nt (x :: ms).
Proof.
  intros [Hl H] H' b' ->. destruct (H' b' eq_refl) as [Hs Hr]. destruct l as [|t l]; [contradiction|]. destruct Hl as [Hs1 Hb].
  split; [exact Hs1|]. intros F HF n n2 k rest m. norm. loop0 k.
  eapply ht_use with (ts' := l' ++ P b' RBrace :: rest).
  { change (t :: l ++ l' ++ P b' RBrace :: rest) with ((t :: l) ++ l' ++ P b' RBrace :: rest).
    pose proof (H F HF Hs n n2 (tl (l' ++ P b' RBrace :: rest))) as Hx. destruct l'; apply Hx. }
  intros y (z & -> & Hz). eapply ht_use; [apply Hr; auto|]. intros xs Hxs. go. fin. cbn [cat_some map]. congruence.
Qed.
End Class.

Section Methods.
Context (E : env) (M M1 M2 : mode).
Hypothesis Hsane : ucd_sane E.
Notation ht := (ht E).
Notation does := (does E).
Notation run := (run E).
Notation claimKey := (claimKey E M).
Notation claimM := (claimM E M).
Lemma key_params F y a l l1 l2 nt k comp ps body : mok M F -> no_slash nt -> allows M M1 y a -> allows M M2 y a ->
  claimKey l (next l1 nt) (k, comp) -> claimT E M1 l1 (next l2 nt) ps -> claimF E M2 l2 nt body ->
  forall n n2 rest m,
  does (l ++ l1 ++ l2 ++ nt :: rest) F m (parse_property_name E (run n2)) (R_key E (k, comp)) (l1 ++ l2 ++ nt :: rest) m /\
  does (l1 ++ l2 ++ nt :: rest) F m (params_and_body E n (run n2) y a) (fun x => map bare_param (fst x) = ps /\ bare_node (snd x) = body) (nt :: rest) m.
Proof.
  intros HF Hn A1 A2 [Hk H] HT HB n n2 rest m.
  pose proof (fun n n2 rest m => @params_body E M1 M2 F y a l1 l2 nt ps body n n2 rest m (allows_mok HF A1) (allows_mok HF A2) HT HB Hn) as Hp.
  destruct HT as [(b1 & l1' & ->) _]. cbn [app next hd] in *. split; [apply H; auto; split; reflexivity|apply Hp].
Qed.
Ltac use_key HF Hn H HT HB A1 A2 n n2 rest :=
  let Hk := fresh "Hk" in let Hp := fresh "Hp" in
  let Hkp := fresh in
  pose proof (fun m => key_params HF Hn A1 A2 H HT HB n n2 rest m) as Hkp;
  eapply ht_use; [apply Hkp|]; intros [k' c'] (R1 & R2 & R3 & R4); cbn [fst snd] in *;
  eapply ht_use; [apply Hkp|]; intros [xs z] [Hxs Hz]; cbn [fst snd] in *.
Lemma r_method l l1 l2 nt k comp ps body : plain_key l -> allows M M1 false false -> allows M M2 false false ->
  claimKey l (next l1 nt) (k, comp) -> claimT E M1 l1 (next l2 nt) ps -> claimF E M2 l2 nt body ->
  claimM (l ++ l1 ++ l2) nt (MethodDef (key_node E k) comp (Some (FnExpr None ps body false false false)) (if is_ctor k then "constructor" else "method") false).
Proof.
  intros Hp A1 A2 H HT HB. pose proof (proj1 H) as Hk. destruct (@key_first _ Hk) as (t & l0 & -> & Kt). split; [split; apply Kt|].
  intros F HF Hn n n2 rest m. norm. unfold class_element. destruct Kt as [K1 K2 K3 K4 K5].
  assert (N : forall w, existsb (String.eqb w) ["get"; "set"; "async"]%string = true -> tok_id (kt t) w = false).
  { intros w Hw. destruct Hk as [(x & Hx)|(b & ->)]; [|reflexivity]. destruct Hx as [b y|b w' Hw']; [|reflexivity]. apply key_not; auto. eapply Hp; reflexivity. }
  pose proof (N "get"%string eq_refl) as N1. pose proof (N "set"%string eq_refl) as N2. pose proof (N "async"%string eq_refl) as N3. clear N.
  go. unfold class_plain_method.
  change (t :: l0 ++ l1 ++ l2 ++ nt :: rest) with ((t :: l0) ++ l1 ++ l2 ++ nt :: rest).
  use_key HF Hn H HT HB A1 A2 n n2 rest. go. fin.
  eexists; split; [reflexivity|]. cbn [bare_meth bare_fn option_map]. rewrite R2, R3, R4, Hxs, Hz. reflexivity.
Qed.
Lemma r_method_set b l l1 l2 nt k comp ps body : allows M M1 false false -> allows M M2 false false ->
  claimKey l (next l1 nt) (k, comp) -> claimT E M1 l1 (next l2 nt) ps -> claimF E M2 l2 nt body ->
  claimM (Id b (s2l "set") :: l ++ l1 ++ l2) nt (MethodDef (key_node E k) comp (Some (FnExpr None ps body false false false)) "set" false).
Proof.
  intros A1 A2 H HT HB. split; [split; [split|]; reflexivity|].
  intros F HF Hn n n2 rest m. norm. unfold class_element. pose proof (@key_sf l (l1 ++ l2 ++ nt :: rest) (proj1 H)). go. unfold class_setter. go.
  use_key HF Hn H HT HB A1 A2 n n2 rest. go. fin.
  eexists; split; [reflexivity|]. cbn [bare_meth bare_fn option_map]. rewrite R2, R3, Hxs, Hz. reflexivity.
Qed.
Lemma r_method_gen b l l1 l2 nt k comp ps body : allows M M1 true false -> allows M M2 true false ->
  claimKey l (next l1 nt) (k, comp) -> claimT E M1 l1 (next l2 nt) ps -> claimF E M2 l2 nt body ->
  claimM (P b Star :: l ++ l1 ++ l2) nt (MethodDef (key_node E k) comp (Some (FnExpr None ps body true false false)) "method" false).
Proof.
  intros A1 A2 H HT HB. split; [split; [split|]; reflexivity|].
  intros F HF Hn n n2 rest m. norm. unfold class_element. pose proof (@key_sf l (l1 ++ l2 ++ nt :: rest) (proj1 H)). go. unfold class_generator_method. go.
  use_key HF Hn H HT HB A1 A2 n n2 rest. go. fin.
  eexists; split; [reflexivity|]. cbn [bare_meth bare_fn option_map]. rewrite R2, R3, Hxs, Hz. reflexivity.
Qed.
Lemma r_method_asyncgen b l l1 l2 nt k comp ps body : allows M M1 true true -> allows M M2 true true ->
  claimKey l (next l1 nt) (k, comp) -> claimT E M1 l1 (next l2 nt) ps -> claimF E M2 l2 nt body ->
  claimM (Id b (s2l "async") :: P false Star :: l ++ l1 ++ l2) nt (MethodDef (key_node E k) comp (Some (FnExpr None ps body true false true)) "method" false).
Proof.
  intros A1 A2 H HT HB. split; [split; [split|]; reflexivity|].
  intros F HF Hn n n2 rest m. norm. unfold class_element. pose proof (@key_sf l (l1 ++ l2 ++ nt :: rest) (proj1 H)). go. unfold class_async_method. go.
  destruct (@key_first _ (proj1 H)) as (t9 & l0 & -> & _). cbn [app] in *. go.
  change (t9 :: l0 ++ l1 ++ l2 ++ nt :: rest) with ((t9 :: l0) ++ l1 ++ l2 ++ nt :: rest).
  use_key HF Hn H HT HB A1 A2 n n2 rest. go. fin.
  eexists; split; [reflexivity|]. cbn [bare_meth bare_fn option_map]. rewrite R2, R3, Hxs, Hz. reflexivity.
Qed.
Lemma r_method_get b l b1 b2 l2 nt k comp body : allows M M2 false false ->
  claimKey l (P b1 LParen) (k, comp) -> claimF E M2 l2 nt body ->
  claimM (Id b (s2l "get") :: l ++ P b1 LParen :: P b2 RParen :: l2) nt (MethodDef (key_node E k) comp (Some (FnExpr None [] body false false false)) "get" false).
Proof.
  intros A2 H [(b3 & l3 & ->) HB]. split; [split; [split|]; reflexivity|].
  intros F HF Hn n n2 rest m. norm. unfold class_element. pose proof (@key_sf l (P b1 LParen :: P b2 RParen :: P b3 LBrace :: l3 ++ nt :: rest) (proj1 H)) as Hsf. go. unfold class_getter. go.
  eapply ht_use; [apply (proj2 H); auto; split; reflexivity|]. intros [k' c'] (R1 & R2 & R3 & R4); cbn [fst snd] in *. go.
  eapply ht_use; [apply (HB (setp (ya false false) F) (allows_mok HF A2) Hn)|]. intros z Hz. go. fin.
  eexists; split; [reflexivity|]. cbn [bare_meth bare_fn option_map]. rewrite R2, R3, Hz. reflexivity.
Qed.
End Methods.

(** ** Class tails *)
Section Tail.
Context (E : env) (M : mode).
Hypothesis Hsane : ucd_sane E.
Notation ht := (ht E).
Notation does := (does E).
Notation run := (run E).
Definition R_class id (r : option node * list method_def) (x : node) : Prop :=
  exists s ms sp, x = ClassDeclaration id s ms sp /\ option_map bare_node s = fst r /\ map bare_meth ms = snd r.
Definition claimCT l nt r := prop_start l /\ forall F, mok M F -> no_slash nt -> forall n n2 id rest m,
  does (l ++ nt :: rest) F (S m) (parse_class_tail E n (run n2) id) (R_class id r) (nt :: rest) m.
Lemma r_class_tail b l b' nt ms : claimCB E M l (P b' RBrace) ms -> claimCT (P b LBrace :: l ++ [P b' RBrace]) nt (None, ms).
Proof.
  intros H. destruct (H b' eq_refl) as [Hs Hr]. split; [split; [split|]; reflexivity|]. intros F HF Hn n n2 id rest m. unfold parse_class_tail, parse_class_body. norm. go.
  eapply ht_use; [apply Hr; auto|]. intros xs Hxs. go. fin. unfold R_class. eexists _, _, _. splits; [reflexivity|reflexivity|exact Hxs].
Qed.
Lemma via_lhs F l nt e : P_left E F false l nt e -> forall n2 rest m, does (l ++ nt :: rest) F m (h_lhs (run n2)) (tr e) (nt :: rest) m.
Proof. intros H [|n2] rest m; [apply ht_fuel|]. apply H. Qed.
Lemma r_class_extends b0 l0 b l b' nt e ms : starts start_left l0 -> (forall F, mok M F -> P_left E F false l0 (P b LBrace) e) ->
  claimCB E M l (P b' RBrace) ms -> claimCT (W b0 "extends" :: l0 ++ P b LBrace :: l ++ [P b' RBrace]) nt (Some e, ms).
Proof.
  intros Hl He H. destruct (H b' eq_refl) as [Hs Hr]. split; [split; [split|]; reflexivity|]. intros F HF Hn n n2 id rest m. unfold parse_class_tail, parse_class_body. norm. go.
  eapply ht_use; [apply (via_lhs (He F HF))|]. intros y Hy. go.
  eapply ht_use; [apply Hr; auto|]. intros xs Hxs. go. fin. unfold R_class. eexists _, _, _. splits; [reflexivity| |exact Hxs]. cbn. rewrite (tr_bare Hy). reflexivity.
Qed.
End Tail.
Section Expr.
Context (E : env) (M : mode).
Hypothesis Hsane : ucd_sane E.
Notation ht := (ht E).
Notation does := (does E).
Notation run := (run E).
Lemma ct_ne_ M0 l nt r u : claimCT E M0 l nt r -> l ++ u <> [] /\ slashfree (l ++ u).
Proof. intros [H _]. destruct l as [|t l]; [contradiction|]. split; [discriminate|apply H]. Qed.
Lemma r_class F b b' x l nt s ms : mok M F -> no_slash nt -> ident x -> claimCT E (strict_mode M) l nt (s, ms) ->
  P_prim E F (W b "class" :: Id b' x :: l) nt (ClassDeclaration (Some (NBindingIdentifier x nowhere)) s ms nowhere).
Proof.
  intros HF Hn Hx H n n2 rest m. unfold parse_primary_expr. norm. destruct (@ct_ne_ (strict_mode M) _ _ _ (nt :: rest) H) as [Hne Hsf]. go. unfold parse_class_expr. go.
  apply ht_setst. go. unfold binding_id_node. go.
  eapply ht_use; [apply bind_id; auto|]. intros y (sp & ->). go.
  eapply ht_use; [apply (proj2 H); auto using mok_class|]. intros z (s' & ms' & sp' & -> & H1 & H2). cbn [fst snd] in *. go.
  apply ht_setst. replace (strict c) with (fstrict F) by auto. rewrite setst_back. fin. apply tr_plain; [|reflexivity].
  cbn [bare_node option_map]. rewrite H1, H2. reflexivity.
Qed.
End Expr.

(** ** More members of object literals *)
Section Members.
Context (E : env) (M M1 M2 : mode).
Hypothesis Hsane : ucd_sane E.
Notation ht := (ht E).
Notation does := (does E).
Notation run := (run E).
Lemma simple_look t k : simple_key t k -> nl t = false -> exists tk0, t = T false tk0 /\ no_slash (T false tk0) /\
  tok_is (ktok tk0) TPunctuator = false /\ matches_punc (ktok tk0) LParen = false /\ matches_punc (ktok tk0) Star = false /\ nobrace tk0 = true.
Proof. destruct t as [b tk0]. cbn [nl]. intros H ->. exists tk0. split; auto. inversion H as [? ? Ht| |]; subst; [inversion Ht; subst|..]; (splits; [split| | | |]; reflexivity). Qed.
Lemma simple_key_does t k u F n2 m : simple_key t k -> u <> [] -> slashfree u -> is_regexp (hd t u) = false ->
  does (t :: u) F m (property_key E (run n2)) (fun kc => bare_key (fst kc) = k /\ snd kc = false) u m.
Proof.
  intros H Hu Hs Hrx. unfold property_key. inversion H as [? x Ht| |]; subst.
  - assert (N6 : tok_is (kt t) TIdentifier || tok_is (kt t) TKeyword = true) by (destruct Ht; reflexivity). go.
    eapply ht_use; [apply (@id_name E Hsane t x u); auto; discriminate|]. intros y <-. go. fin. split; reflexivity.
  - go. destruct u as [|t1 u]; [contradiction|]. go. fin. cbn [fst snd bare_key]. krw. split; reflexivity.
  - go. destruct u as [|t1 u]; [contradiction|]. go. fin. cbn [fst snd bare_key]. krw. split; reflexivity.
Qed.
Lemma params_sf l nt ps r : claimT E M1 l nt ps -> exists b1 l1, l = P b1 LParen :: l1 /\ slashfree (l ++ r) /\ l ++ r <> [].
Proof. intros [(b1 & l1 & ->) _]. exists b1, l1. splits; auto; [split; reflexivity|discriminate]. Qed.
Lemma sepr_slash c nt rest u : existsb (punct_eqb c) (tl closers) = true -> sepr c nt rest u -> no_slash nt.
Proof. intros Hc (b0 & [[-> _]|[-> _]]); destruct c; try discriminate Hc; split; reflexivity. Qed.
Lemma r_prop_get b t k b1 b2 l nt body : simple_key t k -> nl t = false -> allows M M2 false false -> claimF E M2 l nt body ->
  claimO E M (Id b (s2l "get") :: t :: P b1 LParen :: P b2 RParen :: l) nt (OE_Prop k false (Some (PV_Fn (FnExpr None [] body false false false))) "get" true false nowhere).
Proof.
  intros Hk Hn A2 HB. split; [split; [split|]; reflexivity|]. intros F HF n n2 rest u m Hs. norm.
  destruct (simple_look Hk Hn) as (tk0 & -> & L1 & L2 & L3 & L4 & L5). destruct HB as [(b3 & l3 & ->) HB]. cbn [app] in HB.
  unfold object_property. go. unfold property_modifiers. go. unfold accessor_modifier. go.
  eapply ht_look; [assumption|reflexivity|exact L1|exact L5|]. intros t9 Kt9. go.
  eapply ht_use; [apply simple_key_does; [exact Hk|discriminate|split; reflexivity|reflexivity]|]. intros [k' c'] [R1 R2]. cbn [fst snd] in *. subst c'. go.
  unfold parse_method_definition. cbn [String.eqb Ascii.eqb Bool.eqb]. go.
  eapply ht_use; [apply (HB (setp (ya false false) F) (allows_mok HF A2))|]. { eapply sepr_slash; [|exact Hs]. reflexivity. } intros z Hz. go.
  eapply ht_use; [apply (@sepr_comma E Hsane RBrace); eauto|]. intros _ _. fin. split; [cbn; rewrite R1, Hz; reflexivity|reflexivity].
Qed.
Lemma r_prop_set b t k l l' nt ps body : simple_key t k -> nl t = false -> allows M M1 false false -> allows M M2 false false ->
  claimT E M1 l (next l' nt) ps -> claimF E M2 l' nt body ->
  claimO E M (Id b (s2l "set") :: t :: l ++ l') nt (OE_Prop k false (Some (PV_Fn (FnExpr None ps body false false false))) "set" true false nowhere).
Proof.
  intros Hk Hn A1 A2 HT HB. split; [split; [split|]; reflexivity|]. intros F HF n n2 rest u m Hs. norm.
  destruct (simple_look Hk Hn) as (tk0 & -> & L1 & L2 & L3 & L4 & L5). assert (Hns : no_slash nt) by (eapply sepr_slash; [|exact Hs]; reflexivity).
  pose proof (fun n n2 rest m => @params_body E M1 M2 F false false l l' nt ps body n n2 rest m (allows_mok HF A1) (allows_mok HF A2) HT HB Hns) as Hp.
  destruct (@params_sf l (next l' nt) ps (l' ++ nt :: rest) HT) as (b1 & l1 & -> & S1 & S2). cbn [app] in *.
  unfold object_property. go. unfold property_modifiers. go. unfold accessor_modifier. go.
  eapply ht_look; [assumption|reflexivity|exact L1|exact L5|]. intros t9 Kt9. go.
  eapply ht_use; [apply simple_key_does; [exact Hk|discriminate|split; reflexivity|reflexivity]|]. intros [k' c'] [R1 R2]. cbn [fst snd] in *. subst c'. go.
  unfold parse_method_definition. cbn [String.eqb Ascii.eqb Bool.eqb]. go.
  eapply ht_use; [apply Hp|]. intros [xs z] [Hxs Hz]. cbn [fst snd] in *. go.
  eapply ht_use; [apply (@sepr_comma E Hsane RBrace); eauto|]. intros _ _. fin. split; [cbn; rewrite R1, Hxs, Hz; reflexivity|reflexivity].
Qed.
Lemma r_prop_async b t k l l' nt ps body : simple_key t k -> nl t = false -> allows M M1 false true -> allows M M2 false true ->
  claimT E M1 l (next l' nt) ps -> claimF E M2 l' nt body ->
  claimO E M (Id b (s2l "async") :: t :: l ++ l') nt (OE_Prop k false (Some (PV_AsyncFn None ps body false false true)) "init" true false nowhere).
Proof.
  intros Hk Hn A1 A2 HT HB. split; [split; [split|]; reflexivity|]. intros F HF n n2 rest u m Hs. norm.
  destruct (simple_look Hk Hn) as (tk0 & -> & L1 & L2 & L3 & L4 & L5). assert (Hns : no_slash nt) by (eapply sepr_slash; [|exact Hs]; reflexivity).
  pose proof (fun n n2 rest m => @params_body E M1 M2 F false true l l' nt ps body n n2 rest m (allows_mok HF A1) (allows_mok HF A2) HT HB Hns) as Hp.
  destruct (@params_sf l (next l' nt) ps (l' ++ nt :: rest) HT) as (b1 & l1 & -> & S1 & S2). cbn [app] in *.
  unfold object_property. go. unfold property_modifiers. go. unfold async_modifier. go.
  eapply ht_look; [assumption|reflexivity|exact L1|exact L5|]. intros t9 Kt9. go.
  eapply ht_use; [apply simple_key_does; [exact Hk|discriminate|split; reflexivity|reflexivity]|]. intros [k' c'] [R1 R2]. cbn [fst snd] in *. subst c'. go.
  unfold parse_method_definition. cbn [String.eqb Ascii.eqb Bool.eqb]. go.
  eapply ht_use; [apply Hp|]. intros [xs z] [Hxs Hz]. cbn [fst snd] in *. go.
  eapply ht_use; [apply (@sepr_comma E Hsane RBrace); eauto|]. intros _ _. fin. split; [cbn; rewrite R1, Hxs, Hz; reflexivity|reflexivity].
Qed.
Lemma r_props_generator b l l1 l2 nt k comp ps body : allows M M1 true false -> allows M M2 true false ->
  claimKey E M l (next l1 nt) (k, comp) -> claimT E M1 l1 (next l2 nt) ps -> claimF E M2 l2 nt body ->
  claimOs E M (P b Star :: l ++ l1 ++ l2) nt [OE_Prop k comp (Some (PV_Fn (FnExpr None ps body true false false))) "init" true false nowhere].
Proof.
  intros A1 A2 H HT HB b' ->. split; [split; reflexivity|]. intros F HF n n2 kk rest m. norm. destruct kk as [|kk]; [apply ht_fuel|]. cbn [parse_until_punc]. go.
  pose proof (@key_sf l (l1 ++ l2 ++ P b' RBrace :: rest) (proj1 H)) as Hsf.
  unfold object_property. go. unfold property_modifiers. go.
  pose proof (fun m => @key_params E M M1 M2 F true false l l1 l2 (P b' RBrace) k comp ps body HF (conj eq_refl eq_refl) A1 A2 H HT HB n n2 rest m) as Hkp.
  eapply ht_use; [apply Hkp|]; intros [k' c'] (R1 & R2 & R3 & R4); cbn [fst snd] in *. go.
  unfold parse_method_definition. cbn [String.eqb Ascii.eqb Bool.eqb]. go.
  eapply ht_use; [apply Hkp|]; intros [xs z] [Hxs Hz]; cbn [fst snd] in *. go.
  destruct kk as [|kk]; [apply ht_fuel_bind|]. cbn [parse_until_punc]. go. fin. split; [|reflexivity]. cbn [map bare_prop option_map bare_val bare_fn]. rewrite R1, R2, Hxs, Hz. reflexivity.
Qed.

(** ** Async functions *)
Lemma r_async F b l l' nt ps body : mok M1 F -> mok M2 F -> no_slash nt -> claimT E M1 l (next l' nt) ps -> claimF E M2 l' nt body ->
  P_prim E F (Id b (s2l "async") :: W false "function" :: l ++ l') nt (FunctionExpression None ps body false false true ASimple nowhere).
Proof.
  intros HM1 HM2 Hn [(b1 & l1 & ->) H] [(b2 & l2 & ->) H'] n n2 rest m. cbn [next hd] in H. unfold parse_primary_expr. norm. go. unfold parse_async_primary_expr. go.
  eapply ht_use; [apply async_ref; auto; discriminate|]. intros y (a & sp & ->). go. unfold parse_function_expr. go.
  specialize (H F HM1 (conj eq_refl eq_refl) n n2). cbn [app] in H. specialize (H' F HM2 Hn n n2). cbn [app] in H'.
  eapply ht_use; [apply H|]. intros xs Hxs. eapply ht_use; [apply H'|]. intros z Hz. go. fin.
  apply tr_plain; [|reflexivity]. cbn [bare_node option_map]. krw. rewrite Hxs, Hz. reflexivity.
Qed.
Lemma r_async_named F b b' x l l' nt ps body : mok M1 F -> mok M2 F -> no_slash nt -> ident x -> claimT E M1 l (next l' nt) ps -> claimF E M2 l' nt body ->
  P_prim E F (Id b (s2l "async") :: W false "function" :: Id b' x :: l ++ l') nt (FunctionExpression (Some (id_tree x)) ps body false false true ASimple nowhere).
Proof.
  intros HM1 HM2 Hn Hx [(b1 & l1 & ->) H] [(b2 & l2 & ->) H'] n n2 rest m. cbn [next hd] in H. unfold parse_primary_expr. norm. go. unfold parse_async_primary_expr. go.
  eapply ht_use; [apply async_ref; auto; discriminate|]. intros y (a & sp & ->). go. unfold parse_function_expr. go.
  specialize (H F HM1 (conj eq_refl eq_refl) n n2). cbn [app] in H. specialize (H' F HM2 Hn n n2). cbn [app] in H'.
  eapply ht_use; [apply id_ref; auto; discriminate|]. intros y (a' & sp' & -> & _). go.
  eapply ht_use; [apply H|]. intros xs Hxs. eapply ht_use; [apply H'|]. intros z Hz. go. fin.
  apply tr_plain; [|reflexivity]. cbn [bare_node option_map]. krw. rewrite Hxs, Hz. reflexivity.
Qed.
Lemma r_arrow_async F inn b x l nt body ex : eok M F inn -> ident x -> in_generator M1 = false -> m_strict M1 = m_strict M -> claimB E M1 inn l nt (body, ex) -> ok_assign inn nt ->
  P_assign E F (Id b (s2l "async") :: Id false x :: P false FatArrow :: l) nt (AsyncArrowFunctionExpression None [FP_Id x] body false ex true ASimple nowhere).
Proof.
  intros HF Hx Hg Hg' [Hs H] Hn. assert (Hst : fstrict F = m_strict M1) by (rewrite Hg'; apply HF). eapply r_assign_cond; eauto; [cbn [starts knd]; eauto with gr|intros _; exact I|]. apply condx_cond.
  eapply prim_condx; [apply HF|cbn [starts knd]; eauto with gr|apply Hn|]. intros n n2 rest m. unfold parse_primary_expr. norm. go. unfold parse_async_primary_expr. go.
  eapply ht_use; [apply async_ref; auto; discriminate|]. intros y (a & sp & ->). go.
  eapply ht_use; [apply id_ref; auto; discriminate|]. intros y (a' & sp' & -> & _). go.
  eapply ht_use; [apply H; auto; apply HF|]. intros [bd ex'] [Hb Hx']. cbn [fst snd] in Hb, Hx'. subst. go. fin.
  apply tr_plain; reflexivity.
Qed.
End Members.
