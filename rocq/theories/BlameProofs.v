(** * BlameProofs: C50, C51 and C52 in the form stated in PropsBlame (proofs). *)
From Verif Require Import Base Codepoint Punct Token Scanner Ast ParserBase Parser.
From Verif Require Import SpecLex SpecScan SpecTree SpecSpell SpecBlame SpecCol SpecParse Witness Hoare ScanTokens2 LexFacts ScanErr ScanCol SpellTop Rel BlameBase BlameTop BlameTree.
From Coq Require Import ZifyBool ZifyN ZifyNat.
Set Implicit Arguments.

Lemma errors_reported : forall E src e, error_of E src e -> reported E src e.
Proof. intros E src e [H|H]; [eapply script_blames|eapply module_blames]; exact H. Qed.
Lemma spans_cover : forall E src t x sp, tree_of E src t -> part_of t x -> In sp (own_spans x) -> covers E src sp.
Proof.
  intros E src t x sp Ht [path Hx] Hs. eapply good_spans; [|exact Hs]. eapply good_occurs; [|exact Hx]. cbn.
  destruct Ht as [Ht|Ht]; [apply script_spans|apply module_spans]; exact Ht.
Qed.
Lemma token_columns : forall E src gs ts s t, s_nexts E gs (s_new src) = ROk ts s -> In t ts ->
  exists before l after, src = before ++ l ++ after /\ lexeme E t l /\ tstart t = N.of_nat (length before) /\
    tline t = 1 + breaks (before ++ l) after /\ tcol t = column 1 l after.
Proof. intros E src gs ts s t H Ht. destruct (nexts_new _ _ _ H) as (_ & K & _). exact (K _ Ht). Qed.
Lemma error_columns : forall E src gs ts s g e, s_nexts E gs (s_new src) = ROk ts s -> s_next E g s = RErr e ->
  exists before l after k, src = before ++ l ++ after /\ err_line e = 1 + breaks (before ++ l) after /\
    err_col e = column 1 l after + k /\ (after <> [] -> k = 0) /\
    exists b tr, before = b ++ tr /\ tr ++ l ++ after = rest s /\ trivia tr (l ++ after).
Proof.
  intros E src gs ts s g e H He. destruct (nexts_new _ _ _ H) as ((Q & F & pre & P1 & P2 & P3) & _).
  destruct (@next_error_col E g s e Q F He) as (tr & l & r & k & H1 & H2 & H3 & H4 & H5). exists (pre ++ tr), l, r, k. rewrite H1 in *. splits; auto.
  - rewrite P1, <- !app_assoc. reflexivity.
  - rewrite H3, P3, <- app_assoc, (breaks_app pre), <- app_assoc. lia.
  - exists pre, tr. auto.
Qed.
Lemma column_plain l : forall c r, breaks l r = 0 -> column c l r = c + N.of_nat (length l).
Proof.
  induction l as [|x l IH]; intros c r H; cbn [column breaks length] in *; [lia|].
  destruct (line_terminatorb x && _) eqn:Hb; [lia|]. rewrite IH by lia. lia.
Qed.
Lemma column_length : forall l r, breaks l r = 0 -> column 1 l r = 1 + N.of_nat (length l).
Proof. intros l r H. apply column_plain; assumption. Qed.

(** ** An error that is not explained *)
Lemma digit_low b d : digit_of b d -> (b <= 10)%N -> 48 <= d <= 57.
Proof.
  intros (v & Hv & Hd) Hb. unfold digit_value in Hv. repeat match type of Hv with (if ?c then _ else _) = _ => destruct c eqn:?; [injection Hv as <-; try lia|] end; try discriminate.
Qed.
Lemma number_first l x : number_lit l x -> exists c m, l = c :: m /\ (c = 46 \/ 48 <= c <= 57).
Proof.
  intros H. destruct H as [p b ds _ _ _ _|ds _ _|ds _ _ _|ip fl fp el z H1 H2 H3 H4]; try (eexists _, _; split; [reflexivity|right; vm_compute; split; discriminate]).
  destruct ip as [|d ip]; cbn [app] in *.
  - inversion H2; subst; [congruence|]. eexists _, _. split; [reflexivity|left; reflexivity].
  - inversion H1; subst. eexists _, _. split; [reflexivity|right]. eapply digit_low; [eassumption|reflexivity || lia].
Qed.
Lemma tiles_member E ts : forall t us src r, tiles E (ts ++ t :: us) src r -> exists pre l post, src = pre ++ l ++ post /\ lexeme E t l.
Proof.
  induction ts as [|a ts IH]; cbn [app]; intros t us src r H; apply tiles_inv in H; destruct H as (tr & l & r0 & <- & _ & Hl & Hr).
  - eauto.
  - destruct (IH _ _ _ _ Hr) as (pre & m & post & -> & Hm). exists (tr ++ l ++ pre), m, post. rewrite <- !app_assoc. auto.
Qed.
Lemma shown_first E t l : lexeme E t l -> l = [] \/ In (hd 0 l) [97; 98; 32] -> shown E t <> s2l "c".
Proof.
  intros H Hl Hs. unfold shown in Hs.
  destruct H as [K1 K2|c l v ls Hh _ Hw|p K1 K2|l x K1 K2 K3|q vs ls Hq K1 K2 K3 K4 K5|ps f ls K1 K2 K3 K4 K5 K6|hd tl vs ls K1 K2 K3 K4 K5 K6].
  - rewrite K2 in Hs. discriminate.
  - assert (c = 99). { inversion Hw; subst; try (match goal with K : _ = tval t |- _ => rewrite <- K in Hs end); try discriminate Hs; injection Hs; auto. }
    subst c. inversion Hh as [c K|v0 l0 _ K]; subst.
    + cbn in Hl. destruct Hl as [Hl|Hl]; [discriminate|]. lia.
    + inversion K; subst; cbn in Hl; destruct Hl as [Hl|Hl]; try discriminate Hl; unfold backslash in Hl; lia.
  - rewrite K2 in Hs. destruct p; discriminate Hs.
  - destruct (number_first K3) as (c & m & -> & Hc). cbn in Hl. destruct Hl as [Hl|Hl]; [discriminate|]. lia.
  - cbn in Hl. destruct Hl as [Hl|Hl]; [discriminate|]. lia.
  - rewrite K2 in Hs. discriminate.
  - cbn in Hl. destruct Hl as [Hl|Hl]; [discriminate|]. destruct hd; vm_compute in Hl; repeat destruct Hl as [Hl|Hl]; try discriminate Hl; destruct Hl.
Qed.
Lemma not_text : forall c, ~ reported E0 (s2l "a b") (mkError 1 c (UnexpectedToken (s2l "c"))).
Proof.
  intros c H. destruct H as [ts t us Hsc _ _ He|ts s g _ _ _ He|ts t us _ _ _ _ _ He].
  - destruct Hsc as (r & Ht & _). cbn [err_type explains] in He. destruct (tiles_member _ _ _ Ht) as (pre & l & post & Hp & Hl). refine (shown_first Hl _ (eq_sym He)).
    destruct l as [|x l]; [auto|right]. assert (In x (s2l "a b")) as Hx by (rewrite Hp; apply in_or_app; right; left; reflexivity). cbn in Hx |- *. lia.
  - cbn [err_type] in He. repeat destruct He as [He|He]; try discriminate He. destruct He.
  - cbn [err_type] in He. repeat destruct He as [He|He]; try discriminate He. destruct He.
Qed.
