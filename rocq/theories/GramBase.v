(** * GramBase: running the parser on token sequences (proofs). *)
From Verif Require Import Base Codepoint Punct Token Scanner SpecLex SpecScan Hoare ScanBase ScanTrivia ScanToken ScanTokens2 ScanNext.
From Verif Require Import Ast Convert ParserBase ParserExpr ParserStmt Parser SpecJson SpecBare SpecLayout GramLex.
From Coq Require Import ZifyBool ZifyN ZifyNat.
Set Implicit Arguments.

(** Parameters, saved parameters, and the loop, switch and strictness flags. *)
Record fr := mkF { fprm : params; fpst : list params; fit : bool; fsw : bool; fstrict : bool }.
Definition setp (f : params -> params) (F : fr) : fr := mkF (f (fprm F)) (fprm F :: fpst F) (fit F) (fsw F) (fstrict F).
Definition setit (b : bool) (F : fr) : fr := mkF (fprm F) (fpst F) b (fsw F) (fstrict F).
Definition setsw (b : bool) (F : fr) : fr := mkF (fprm F) (fpst F) (fit F) b (fstrict F).
Definition setst (b : bool) (F : fr) : fr := mkF (fprm F) (fpst F) (fit F) (fsw F) b.
Lemma setst_back b F : setst (fstrict F) (setst b F) = F.
Proof. destruct F; reflexivity. Qed.
Lemma setst_same F : setst (fstrict F) F = F.
Proof. destruct F; reflexivity. Qed.
Lemma setst_setst b c F : setst b (setst c F) = setst b F.
Proof. destruct F; reflexivity. Qed.

Definition slashfree (u : list tok) : Prop := match u with t :: _ => no_slash t | [] => False end.

(** A token saying [k]. *)
Definition ktok (k : tk) : token :=
  mkToken (ktype k) (kval k) (match k with KRegex p _ => Some p | _ => None end) (match k with KRegex _ f => Some f | _ => None end) None
    (match k with KTempl _ _ _ v => Some v | _ => None end) (match k with KTempl h _ _ _ => Some h | _ => None end) (match k with KTempl _ t _ _ => Some t | _ => None end) 0 0 0 0.
(** The tokens fit the open braces. *)
Fixpoint fits (u : list tok) (c : list brace) : Prop :=
  match u with [] => True | t :: u' => kopen (knd t) c /\ fits u' (kcurly (knd t) c) end.
Definition nobrace (k : tk) : bool := match k with KP LBrace | KP RBrace | KTempl _ _ _ _ => false | _ => true end.
Lemma nobrace_curly k c : nobrace k = true -> kcurly k c = c.
Proof. destruct k as [[]| | | | | | | | |]; cbn; auto; discriminate. Qed.

Section Base.
Context (E : env).
Hypothesis Hsane : ucd_sane E.

Record lays (sc : sst) (u : list tok) : Prop := mkLays {
  ly_quiet : quiet sc; ly_fresh : fresh sc; ly_fits : fits u (curly sc);
  ly_lay : lay E u (rest sc);
  ly_cur : checked E = true -> current sc <> 0 }.
(** What the scanner has after a token on the line [ln]: the tokens [u], of which
    the first may have been scanned already. *)
Inductive ahead (ln : N) (sc : sst) (u : list tok) : Prop :=
| ah_fresh : ln = line sc -> lays sc u -> ahead ln sc u
| ah_peeked tk k u' : u = T false k :: u' -> unscanned sc = Some tk -> kmatch tk k -> tline tk = ln -> ln = line sc -> regexp_ok k u' -> nobrace k = true ->
    lays (set_unscanned None sc) u' -> ahead ln sc u.
Record St (ts : list tok) (F : fr) (m : nat) (s : pst) : Prop := mkSt {
  st_head : match ts with
            | t :: u => kmatch (cur s) (knd t) /\ has_lt s = nl t /\ ahead (tline (cur s)) (scn s) u /\ regexp_ok (knd t) u
            | [] => False
            end;
  st_strict : strict (ctx s) = fstrict F;
  st_prm : prm s = fprm F;
  st_pst : pstack s = fpst F;
  st_it : in_iteration (ctx s) = fit F;
  st_sw : in_switch (ctx s) = fsw F;
  st_marks : (m <= length (marks s))%nat }.

Definition pwp {A} (mm : PM A) (Q : A -> pst -> Prop) (s : pst) : Prop :=
  match mm s with ROk a s' => Q a s' | RFuel => True | _ => False end.
Definition ht {A} (ts : list tok) (F : fr) (m : nat) (mm : PM A) (Q : A -> pst -> Prop) : Prop :=
  forall s, St ts F m s -> pwp mm Q s.
Definition does {A} (ts : list tok) (F : fr) (m : nat) (mm : PM A) (R : A -> Prop) (ts' : list tok) (m' : nat) : Prop :=
  ht ts F m mm (fun a s' => R a /\ St ts' F m' s').

Lemma St_mono ts F m m' s : (m' <= m)%nat -> St ts F m s -> St ts F m' s.
Proof. intros H [H1 H2 H3 H4 H5 H6 H7]. constructor; auto. lia. Qed.

Section Rules.
Context {A B : Type} (ts : list tok) (F : fr) (m : nat) (Q : B -> pst -> Prop).
Implicit Types (k : A -> PM B).

Lemma ht_mono (mm : PM B) m' : (m' <= m)%nat -> ht ts F m' mm Q -> ht ts F m mm Q.
Proof. intros H H1 s Hs. apply H1. eapply St_mono; eauto. Qed.
Lemma ht_conseq (mm : PM B) (Q' : B -> pst -> Prop) : ht ts F m mm Q' -> (forall b s, Q' b s -> Q b s) -> ht ts F m mm Q.
Proof. intros H1 H2 s Hs. pose proof (H1 s Hs) as H. unfold pwp in *. destruct (mm s); auto. Qed.
Lemma ht_fuel : ht ts F m (nofuel : PM B) Q.
Proof. intros s _. exact I. Qed.
Lemma ht_fuel_bind k : ht ts F m (bind nofuel k) Q.
Proof. intros s _. exact I. Qed.
Lemma ht_assoc C (a : PM C) (f : C -> PM A) k : ht ts F m (bind a (fun x => bind (f x) k)) Q -> ht ts F m (bind (bind a f) k) Q.
Proof. intros H s Hs. specialize (H s Hs). unfold pwp, bind in *. destruct (a s); auto. Qed.
Lemma ht_ret_bind (a : A) k : ht ts F m (k a) Q -> ht ts F m (bind (ret a) k) Q.
Proof. intros H. exact H. Qed.
Lemma ht_bind (mm : PM A) k Q1 : ht ts F m mm Q1 -> (forall a s', Q1 a s' -> pwp (k a) Q s') -> ht ts F m (bind mm k) Q.
Proof. intros H1 H2 s Hs. specialize (H1 s Hs). unfold pwp, bind in *. destruct (mm s); auto. apply H2; auto. Qed.
Lemma ht_use (mm : PM A) k R ts' m' : does ts F m mm R ts' m' -> (forall a, R a -> ht ts' F m' (k a) Q) -> ht ts F m (bind mm k) Q.
Proof. intros H1 H2. eapply ht_bind; [exact H1|]. intros a s' [Ha Hs]. apply H2; auto. Qed.
Lemma ht_start (k : unit -> PM B) : ht ts F (S m) (k tt) Q -> ht ts F m (bind start_span k) Q.
Proof.
  intros H s [H1 H2 H3 H4 H5 H6 H7]. apply (H (set_marks (mkMarker (tline (cur s)) (tcol (cur s)) (tstart (cur s)) :: marks s) s)).
  constructor; auto. cbn. lia.
Qed.
Lemma ht_end (k : span -> PM B) : (forall sp, ht ts F m (k sp) Q) -> ht ts F (S m) (bind end_span k) Q.
Proof.
  intros H s [H1 H2 H3 H4 H5 H6 H7]. unfold pwp, bind, end_span. destruct (marks s) as [|mk ms] eqn:Hm; [cbn in H7; lia|].
  apply (H _ (set_marks ms s)). constructor; auto. cbn in *. lia.
Qed.
Lemma ht_peek (k : span -> PM B) : (forall sp, ht ts F (S m) (k sp) Q) -> ht ts F (S m) (bind peek_span k) Q.
Proof.
  intros H s Hs. pose proof (st_marks Hs) as H7. unfold pwp, bind, peek_span. destruct (marks s) as [|mk ms] eqn:Hm; [cbn in H7; lia|].
  apply (H _ s). auto.
Qed.
Lemma ht_prm (k : params -> PM B) : ht ts F m (k (fprm F)) Q -> ht ts F m (bind (gets prm) k) Q.
Proof. intros H s Hs. specialize (H s Hs). unfold pwp, bind, gets in *. rewrite (st_prm Hs). exact H. Qed.
Lemma ht_ctx (k : pctx -> PM B) : (forall c, in_iteration c = fit F -> in_switch c = fsw F -> strict c = fstrict F -> ht ts F m (k c) Q) -> ht ts F m (bind (gets ctx) k) Q.
Proof. intros H s Hs. exact (H _ (st_it Hs) (st_sw Hs) (st_strict Hs) s Hs). Qed.
Lemma ht_updctx (f : pctx -> pctx) (k : unit -> PM B) :
  (forall c, in_iteration (f c) = in_iteration c) -> (forall c, in_switch (f c) = in_switch c) -> (forall c, strict (f c) = strict c) ->
  ht ts F m (k tt) Q -> ht ts F m (bind (upd_ctx f) k) Q.
Proof.
  intros Hi Hw Ht H s [H1 H2 H3 H4 H5 H6 H7]. apply (H (set_ctx (f (ctx s)) s)). constructor; auto; cbn; congruence.
Qed.
Lemma ht_setit b (k : unit -> PM B) : ht ts (setit b F) m (k tt) Q -> ht ts F m (bind (upd_ctx (ctx_in_iteration b)) k) Q.
Proof.
  intros H s [H1 H2 H3 H4 H5 H6 H7]. apply (H (set_ctx (ctx_in_iteration b (ctx s)) s)). constructor; auto; cbn; congruence.
Qed.
Lemma ht_setsw b (k : unit -> PM B) : ht ts (setsw b F) m (k tt) Q -> ht ts F m (bind (upd_ctx (ctx_in_switch b)) k) Q.
Proof.
  intros H s [H1 H2 H3 H4 H5 H6 H7]. apply (H (set_ctx (ctx_in_switch b (ctx s)) s)). constructor; auto; cbn; congruence.
Qed.
Lemma ht_setst b (k : unit -> PM B) : ht ts (setst b F) m (k tt) Q -> ht ts F m (bind (upd_ctx (ctx_strict b)) k) Q.
Proof.
  intros H s [H1 H2 H3 H4 H5 H6 H7]. apply (H (set_ctx (ctx_strict b (ctx s)) s)). constructor; auto; cbn; congruence.
Qed.
Lemma ht_with f (mm : PM A) k : ht ts (setp f F) m (bind mm (fun x => bind restore_params (fun _ => k x))) Q -> ht ts F m (bind (with_prm f mm) k) Q.
Proof.
  intros H s [H1 H2 H3 H4 H5 H6 H7]. 
  specialize (H (set_prm (f (prm s)) (set_pstack (prm s :: pstack s) s))).
  assert (H0 : St ts (setp f F) m (set_prm (f (prm s)) (set_pstack (prm s :: pstack s) s))).
  { constructor; auto; cbn; congruence. }
  specialize (H H0). unfold pwp, with_prm, save_params, upd_prm, modify, bind, ret in *. cbn [prm set_prm set_pstack] in *.
  destruct (mm _); auto. destruct (restore_params _); auto.
Qed.
Lemma ht_restore f (k : unit -> PM B) : ht ts F m (k tt) Q -> ht ts (setp f F) m (bind restore_params k) Q.
Proof.
  intros H s [H1 H2 H3 H4 H5 H6 H7]. unfold pwp, bind, restore_params. rewrite H4. cbn [setp fpst].
  apply (H (set_prm (fprm F) (set_pstack (fpst F) s))). constructor; auto.
Qed.
Lemma ht_if_t (b : bool) (x y : PM B) : b = true -> ht ts F m x Q -> ht ts F m (if b then x else y) Q.
Proof. intros ->. auto. Qed.
Lemma ht_if_f (b : bool) (x y : PM B) : b = false -> ht ts F m y Q -> ht ts F m (if b then x else y) Q.
Proof. intros ->. auto. Qed.
Lemma ht_ifb_t (b : bool) (x y : PM A) k : b = true -> ht ts F m (bind x k) Q -> ht ts F m (bind (if b then x else y) k) Q.
Proof. intros ->. auto. Qed.
Lemma ht_ifb_f (b : bool) (x y : PM A) k : b = false -> ht ts F m (bind y k) Q -> ht ts F m (bind (if b then x else y) k) Q.
Proof. intros ->. auto. Qed.
Lemma ht_ret_r (mm : PM B) : ht ts F m (bind mm (fun x => ret x)) Q -> ht ts F m mm Q.
Proof. intros H s Hs. specialize (H s Hs). unfold pwp, bind, ret in *. destruct (mm s); auto. Qed.
Lemma ht_ext (mm mm' : PM B) : (forall s, mm' s = mm s) -> ht ts F m mm' Q -> ht ts F m mm Q.
Proof. intros He H s Hs. specialize (H s Hs). unfold pwp in *. rewrite <- He. exact H. Qed.
Lemma ht_assoc2 C D (a : PM C) (f : C -> PM D) (g : C -> D -> PM A) k :
  ht ts F m (bind a (fun x => bind (f x) (fun y => bind (g x y) k))) Q -> ht ts F m (bind a (fun x => bind (bind (f x) (g x)) k)) Q.
Proof. apply ht_ext. intros s. unfold bind. destruct (a s) as [x s1| | |]; auto. destruct (f x s1); auto. Qed.
Lemma ht_unwrap p (o : option A) a k : o = Some a -> ht ts F m (k a) Q -> ht ts F m (bind (unwrap p o) k) Q.
Proof. intros ->. auto. Qed.
Lemma ht_liftc (o : cres A) a k : o = COk a -> ht ts F m (k a) Q -> ht ts F m (bind (lift_c o) k) Q.
Proof. intros ->. auto. Qed.
End Rules.

Section Rules2.
Context {B : Type} (t0 : tok) (u : list tok) (F : fr) (m : nat) (Q : B -> pst -> Prop).
Lemma ht_cur (k : token -> PM B) : (forall t, kmatch t (knd t0) -> ht (t0 :: u) F m (k t) Q) -> ht (t0 :: u) F m (bind getcur k) Q.
Proof. intros H s Hs. pose proof (st_head Hs) as (H1 & _). exact (H _ H1 s Hs). Qed.
Lemma ht_lt (k : bool -> PM B) : ht (t0 :: u) F m (k (nl t0)) Q -> ht (t0 :: u) F m (bind (gets has_lt) k) Q.
Proof. intros H s Hs. pose proof (st_head Hs) as (_ & H1 & _). specialize (H s Hs). unfold pwp, bind, gets in *. rewrite H1. exact H. Qed.
Lemma ht_advg g (k : token -> PM B) : u <> [] -> (g = GRegExp -> slashfree u) -> (g = GDiv -> before_regexp (knd t0) = false \/ is_regexp (hd t0 u) = false) ->
  (forall t, kmatch t (knd t0) -> ht u F m (k t) Q) -> ht (t0 :: u) F m (bind (advance E g) k) Q.
Proof.
  intros Hu Hg Hgd H s [H1 H2 H3 H4 H5 H6 H7]. destruct H1 as (M1 & L1 & [N1 [Y1 Y2 Y3 Y4 Y5]|tk k2 u2 -> N2 N3 N4 N5 N6 N7 Y] & Rg).
  - destruct u as [|[b k2] u2]; [congruence|]. inversion Y4 as [|b' k' tr l r ts' Tr Hb Hsp Hro Hlay]; subst. destruct Y3 as [Y3 Y3'].
    destruct (@tok_next E Hsane g (scn s) tr k2 l r) as (t & sc & Hn & [S1 S2 S3 S4 S5 S6 S7 S8 S9]); auto.
    { intros Hg'. specialize (Hg Hg'). destruct Hg as [G1 G2]. unfold is_p in *. cbn [knd] in *. split; intros ->; discriminate. }
    { intros Hg' Hk. cbn [hd] in Hgd. assert (Hx : is_regexp (T b k2) = true) by (destruct k2; try discriminate Hk; reflexivity).
      specialize (Hgd Hg'). specialize (Rg Hx). cbn [knd] in *. destruct Hgd; congruence. }
    unfold pwp, bind, advance. rewrite Hn. apply H; auto. constructor; auto.
    cbn. splits; auto.
    + rewrite N1, S6, S7. apply Bool.eq_true_iff_eq. rewrite Hb. rewrite <- (@lay_breaks E Hsane k2 tr l r) by auto. clear. split; intros; lia.
    + apply ah_fresh; auto. constructor; auto. * rewrite S5; auto. * rewrite S2; auto. * intros Hc. specialize (Y5 Hc). clear - Y5 S8. lia.
  - unfold pwp, bind, advance, s_next. rewrite N2. apply H; auto. constructor; auto. cbn [cur has_lt scn set_scn set_cur nl knd].
    splits; auto; [rewrite N4; apply N.ltb_irrefl|].
    apply ah_fresh; auto. cbn. congruence.
Qed.
Lemma ht_look tk0 u0 (k : token -> PM B) : u = T false tk0 :: u0 -> no_slash (T false tk0) -> nobrace tk0 = true ->
  (forall t, kmatch t tk0 -> ht (t0 :: u) F m (k t) Q) -> ht (t0 :: u) F m (bind (lookahead E) k) Q.
Proof.
  intros -> Hg Hnb H s [H1 H2 H3 H4 H5 H6 H7]. destruct H1 as (M1 & L1 & [N1 [Y1 Y2 Y3 Y4 Y5]|tk k2 u2 N0 N2 N3 N4 N5 N6 N7 [Y1 Y2 Y3 Y4 Y5]] & Rg).
  - inversion Y4 as [|b' k' tr l r ts' Tr Hb Hsp Hro Hlay]; subst. destruct Y3 as [Y3 Y3'].
    set (sc0 := set_sstate (Some (mkSaved (start (scn s)) (current (scn s)) (line (scn s)) (col (scn s)) (newline (scn s)) (raw_string (scn s)) (curly (scn s)))) (scn s)).
    destruct (@tok_next E Hsane GRegExp sc0 tr tk0 l r) as (t & sc & Hn & [S1 S2 S3 S4 S5 S6 S7 S8 S9]); auto.
    { intros _. destruct Hg as [G1 G2]. unfold is_p in *. cbn [knd] in *. split; intros ->; discriminate. }
    { discriminate. }
    assert (Hst : sstate sc = sstate sc0) by exact S9.
    unfold pwp, bind, lookahead, lift_s, save_state, modify, bind, ret. fold sc0. cbn [scn set_scn]. rewrite Hn. cbn [scn set_scn].
    unfold restore_state. rewrite Hst. cbn [sstate sc0 set_sstate sv_start sv_current sv_line sv_col sv_newline sv_raw sv_curly].
    apply H; auto. constructor; auto. cbn [cur set_scn has_lt scn]. splits; auto.
    eapply ah_peeked; [reflexivity|reflexivity|exact S1| |cbn; auto|exact Hro|exact Hnb|].
    + rewrite S6, S7. change (line sc0) with (line (scn s)). rewrite <- N1.
      assert (Hz : ~ breaks (tr ++ l) r > 0).
      { intros Hz. assert (Hx : Exists line_terminator (tr ++ l)) by (apply (@lay_breaks E Hsane tk0 tr l r); auto; clear - Hz; lia).
        apply Hb in Hx. discriminate. }
      clear - Hz. lia.
    + cbn [knd] in Y3'. rewrite (@nobrace_curly tk0) in Y3' by exact Hnb. constructor; [split; [apply S3|apply Y1]|reflexivity|exact Y3'|cbn; rewrite S2; auto|exact Y5].
  - injection N0 as -> ->.
    unfold pwp, bind, lookahead, lift_s, save_state, modify, bind, ret. cbn [scn set_scn]. unfold s_next. cbn [unscanned set_sstate]. rewrite N2.
    cbn [scn set_scn]. unfold restore_state. cbn [sstate set_unscanned set_sstate sv_start sv_current sv_line sv_col sv_newline sv_raw sv_curly].
    apply H; auto. constructor; auto. cbn [cur set_scn has_lt scn]. splits; auto.
    eapply ah_peeked; [reflexivity|reflexivity|exact N3|auto|cbn; auto|exact N6|exact N7|].
    constructor; auto.
Qed.
Lemma ht_advr (k : token -> PM B) : slashfree u -> (forall t, kmatch t (knd t0) -> ht u F m (k t) Q) -> ht (t0 :: u) F m (bind (advance E GRegExp) k) Q.
Proof. intros Hu. apply ht_advg; auto; [intros ->; contradiction Hu|discriminate]. Qed.
Lemma ht_advd (k : token -> PM B) : u <> [] -> before_regexp (knd t0) = false \/ is_regexp (hd t0 u) = false -> (forall t, kmatch t (knd t0) -> ht u F m (k t) Q) -> ht (t0 :: u) F m (bind (advance E GDiv) k) Q.
Proof. intros Hu Hx. apply ht_advg; auto. discriminate. Qed.
End Rules2.

(** Final steps. *)
Lemma does_ret {A} ts F m (a : A) (R : A -> Prop) m' : (m' <= m)%nat -> R a -> does ts F m (ret a) R ts m'.
Proof. intros H1 H2 s Hs. split; auto. eapply St_mono; eauto. Qed.
Lemma does_conseq {A} ts F m (mm : PM A) (R R' : A -> Prop) ts' m' m2 : (m2 <= m')%nat ->
  (forall a, R a -> R' a) -> does ts F m mm R ts' m' -> does ts F m mm R' ts' m2.
Proof. intros H1 H2 H. eapply ht_conseq; [exact H|]. intros a s [Ha Hs]. split; auto. eapply St_mono; eauto. Qed.
Lemma does_with {A} ts F m f (mm : PM A) R ts' m' : does ts (setp f F) m mm R ts' m' -> does ts F m (with_prm f mm) R ts' m'.
Proof.
  intros H. assert (does ts F m (bind (with_prm f mm) (fun a => ret a)) R ts' m').
  { apply ht_with. eapply ht_use; [exact H|]. intros a Ha. apply ht_restore. apply does_ret; auto. }
  intros s Hs. specialize (H0 s Hs). unfold pwp, bind, ret in *. destruct (with_prm f mm s); auto.
Qed.
Lemma does_tail {A} ts F m (mm : PM A) (Q : A -> pst -> Prop) R ts' m' : does ts F m mm R ts' m' ->
  (forall a s, R a -> St ts' F m' s -> Q a s) -> ht ts F m mm Q.
Proof. intros H1 H2. eapply ht_conseq; [exact H1|]. intros a s [Ha Hs]. auto. Qed.

(** ** Tests on the current token *)
Section Tests.
Context (t : token) (k : tk) (H : kmatch t k).
Lemma k_punc p : tok_punc t p = tok_punc (ktok k) p.
Proof. destruct H as (H1 & H2 & _). unfold tok_punc, matches_punc. rewrite H1, H2. reflexivity. Qed.
Lemma k_kw w : tok_kw t w = tok_kw (ktok k) w.
Proof. destruct H as (H1 & H2 & _). unfold tok_kw, matches_str. rewrite H1, H2. reflexivity. Qed.
Lemma k_id w : tok_id t w = tok_id (ktok k) w.
Proof. destruct H as (H1 & H2 & _). unfold tok_id, matches_str. rewrite H1, H2. reflexivity. Qed.
Lemma k_is ty : tok_is t ty = tok_is (ktok k) ty.
Proof. destruct H as (H1 & H2 & _). unfold tok_is. rewrite H1. reflexivity. Qed.
Lemma k_mstr w : matches_str t w = matches_str (ktok k) w.
Proof. destruct H as (H1 & H2 & _). unfold matches_str. rewrite H2. reflexivity. Qed.
Lemma k_mpunc p : matches_punc t p = matches_punc (ktok k) p.
Proof. destruct H as (H1 & H2 & _). unfold matches_punc. rewrite H2. reflexivity. Qed.
Lemma k_assignop : is_assign_op t = is_assign_op (ktok k).
Proof. destruct H as (H1 & H2 & _). unfold is_assign_op. rewrite H2. reflexivity. Qed.
Lemma k_binop : is_bin_op t = is_bin_op (ktok k).
Proof. destruct H as (H1 & H2 & _). unfold is_bin_op, matches_str. rewrite H1, H2. reflexivity. Qed.
Lemma k_unop b : is_unary_op b t = is_unary_op b (ktok k).
Proof. destruct H as (H1 & H2 & _). unfold is_unary_op, t_to_str. rewrite H1, H2. reflexivity. Qed.
Lemma k_updop : is_update_op t = is_update_op (ktok k).
Proof. destruct H as (H1 & H2 & _). unfold is_update_op. rewrite H2. reflexivity. Qed.
Lemma k_prec b : precedence b t = precedence b (ktok k).
Proof. destruct H as (H1 & H2 & _). unfold precedence, matches_str. rewrite H1, H2. reflexivity. Qed.
Lemma k_iter : is_iteration_kw t = is_iteration_kw (ktok k).
Proof. destruct H as (H1 & H2 & _). unfold is_iteration_kw, matches_str. rewrite H1, H2. reflexivity. Qed.
Lemma k_hoist : is_hoistable_dclr_kw t = is_hoistable_dclr_kw (ktok k).
Proof. destruct H as (H1 & H2 & _). unfold is_hoistable_dclr_kw, matches_str. rewrite H1, H2. reflexivity. Qed.
Lemma k_lex : is_lexical_dclr_kw t = is_lexical_dclr_kw (ktok k).
Proof. destruct H as (H1 & H2 & _). unfold is_lexical_dclr_kw, matches_str. rewrite H1, H2. reflexivity. Qed.
Lemma k_strict : is_strict_reserved_kw t = is_strict_reserved_kw (ktok k).
Proof. destruct H as (H1 & H2 & _). unfold is_strict_reserved_kw, t_to_str. rewrite H2. reflexivity. Qed.
Lemma k_tostr : t_to_string t = t_to_string (ktok k).
Proof. destruct H as (H1 & H2 & _). unfold t_to_string. rewrite H2. reflexivity. Qed.
Lemma k_val : tval t = kval k.
Proof. apply H. Qed.
End Tests.
Lemma k_temphead t k : kmatch t k -> tok_template_head t = tok_template_head (ktok k).
Proof. intros (H1 & H2 & H3). unfold tok_template_head, tok_is. rewrite H1. destruct k; try reflexivity. destruct H3 as (_ & -> & _). reflexivity. Qed.
End Base.

Ltac krw := repeat match goal with
  | H : kmatch ?t ?k |- context [tok_punc ?t ?p] => rewrite (@k_punc t k H p)
  | H : kmatch ?t ?k |- context [tok_kw ?t ?p] => rewrite (@k_kw t k H p)
  | H : kmatch ?t ?k |- context [tok_id ?t ?p] => rewrite (@k_id t k H p)
  | H : kmatch ?t ?k |- context [tok_is ?t ?p] => rewrite (@k_is t k H p)
  | H : kmatch ?t ?k |- context [matches_str ?t ?p] => rewrite (@k_mstr t k H p)
  | H : kmatch ?t ?k |- context [matches_punc ?t ?p] => rewrite (@k_mpunc t k H p)
  | H : kmatch ?t ?k |- context [is_assign_op ?t] => rewrite (@k_assignop t k H)
  | H : kmatch ?t ?k |- context [is_bin_op ?t] => rewrite (@k_binop t k H)
  | H : kmatch ?t ?k |- context [is_unary_op ?b ?t] => rewrite (@k_unop t k H b)
  | H : kmatch ?t ?k |- context [is_update_op ?t] => rewrite (@k_updop t k H)
  | H : kmatch ?t ?k |- context [precedence ?b ?t] => rewrite (@k_prec t k H b)
  | H : kmatch ?t ?k |- context [is_iteration_kw ?t] => rewrite (@k_iter t k H)
  | H : kmatch ?t ?k |- context [is_hoistable_dclr_kw ?t] => rewrite (@k_hoist t k H)
  | H : kmatch ?t ?k |- context [is_lexical_dclr_kw ?t] => rewrite (@k_lex t k H)
  | H : kmatch ?t ?k |- context [is_strict_reserved_kw ?t] => rewrite (@k_strict t k H)
  | H : kmatch ?t ?k |- context [t_to_string ?t] => rewrite (@k_tostr t k H)
  | H : kmatch ?t ?k |- context [tok_template_head ?t] => rewrite (@k_temphead t k H)
  | H : kmatch ?t ?k |- context [tval ?t] => rewrite (@k_val t k H)
  end.
