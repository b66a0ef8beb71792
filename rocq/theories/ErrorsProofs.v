(** * ErrorsProofs: error texts determine the errors. *)
From Verif Require Import Base Errors Json.
From Coq Require Import DecimalN HexadecimalN.

Lemma differ (a b : str) : str_eqb a b = false -> a <> b.
Proof. intros H ->. induction b as [|x b IH]; cbn [str_eqb] in H; [discriminate|]. rewrite N.eqb_refl in H. auto. Qed.
Ltac differ := let H := fresh in intros H; exfalso; revert H; apply differ; vm_compute; reflexivity.
Lemma display_type e1 e2 : display e1 = display e2 <-> err_type e1 = err_type e2.
Proof.
  split; [|unfold display; intros ->; reflexivity].
  unfold display. destruct e1 as [l1 c1 t1], e2 as [l2 c2 t2]. cbn [err_type].
  destruct t1, t2; try reflexivity; try differ. cbn; congruence.
Qed.

(** ** Numbers *)
Lemma dec_text_inj u : forall v c r c' r', dec_text u ++ c :: r = dec_text v ++ c' :: r' ->
  (c < 48)%N -> (c' < 48)%N -> u = v /\ c :: r = c' :: r'.
Proof.
  induction u; intros v c r c' r' H L L'; destruct v; cbn [dec_text app] in H; try (injection H as H0 H1; exfalso; lia).
  1: auto.
  all: injection H as H1; destruct (IHu _ _ _ _ _ H1 L L') as [-> E]; auto.
Qed.
Lemma show_usize_inj n m c r c' r' : show_usize n ++ c :: r = show_usize m ++ c' :: r' -> (c < 48)%N -> (c' < 48)%N -> n = m /\ c :: r = c' :: r'.
Proof.
  unfold show_usize. intros H L L'. destruct (dec_text_inj _ _ _ _ _ _ H L L') as [E E']. split; auto.
  rewrite <- (DecimalN.Unsigned.of_to n), <- (DecimalN.Unsigned.of_to m), E. reflexivity.
Qed.
Lemma hex_text_inj u : forall v c r c' r', hex_text u ++ c :: r = hex_text v ++ c' :: r' ->
  (102 < c)%N -> (102 < c')%N -> u = v /\ c :: r = c' :: r'.
Proof.
  induction u; intros v c r c' r' H L L'; destruct v; cbn [hex_text app] in H; try (injection H as H0 H1; exfalso; lia).
  1: auto.
  all: injection H as H1; destruct (IHu _ _ _ _ _ H1 L L') as [-> E]; auto.
Qed.
Lemma hex_inj n m r r' : hex_text (N.to_hex_uint n) ++ 125 :: r = hex_text (N.to_hex_uint m) ++ 125 :: r' -> n = m /\ r = r'.
Proof.
  intros H. destruct (hex_text_inj _ _ _ _ _ _ H) as [E E']; try lia. injection E' as ->. split; auto.
  rewrite <- (HexadecimalN.Unsigned.of_to n), <- (HexadecimalN.Unsigned.of_to m), E. reflexivity.
Qed.

(** ** Escaped strings *)
(** A text of [escape] is one of three kinds. *)
Inductive esc_kind (c : N) : str -> Prop :=
| ek_plain : c <> 34 -> c <> 92 -> esc_kind c [c]
| ek_short d : In (c, d) [(0, 48); (9, 116); (10, 110); (13, 114); (34, 34); (92, 92); (39, 39)] -> esc_kind c [92; d]
| ek_hex : esc_kind c (92 :: 117 :: 123 :: hex_text (N.to_hex_uint c) ++ [125]).
Lemma escape_kind F c : esc_kind c (escape F c).
Proof.
  unfold escape. destruct (c =? 0) eqn:E0; [apply N.eqb_eq in E0; subst c; destruct (short_nul F); cbn [andb]; [apply ek_short; cbn; auto|]|].
  { change (0 =? 9) with false. change (0 =? 10) with false. change (0 =? 13) with false. change (0 =? 34) with false.
    change (0 =? 92) with false. change (0 =? 39) with false. cbn [andb]. destruct (printable F 0); [apply ek_plain; discriminate|apply ek_hex]. }
  cbn [andb]. destruct (c =? 9) eqn:E9; [apply N.eqb_eq in E9; subst c; apply ek_short; cbn; auto|].
  destruct (c =? 10) eqn:E10; [apply N.eqb_eq in E10; subst c; apply ek_short; cbn; auto|].
  destruct (c =? 13) eqn:E13; [apply N.eqb_eq in E13; subst c; apply ek_short; cbn; auto|].
  destruct (c =? 34) eqn:E34; [apply N.eqb_eq in E34; subst c; apply ek_short; cbn; auto 10|].
  destruct (c =? 92) eqn:E92; [apply N.eqb_eq in E92; subst c; apply ek_short; cbn; auto 10|].
  apply N.eqb_neq in E34, E92.
  destruct (c =? 39) eqn:E39; [apply N.eqb_eq in E39; subst c; destruct (quote_apostrophe F); cbn [andb]; [apply ek_short; cbn; auto 10|]|cbn [andb]];
    (match goal with |- context [printable F ?c] => destruct (printable F c) end; [apply ek_plain; assumption|apply ek_hex]).
Qed.
Lemma escape_inj F c c' r r' : escape F c ++ r = escape F c' ++ r' -> c = c' /\ r = r'.
Proof.
  destruct (escape_kind F c) as [N1 N2|d I|]; destruct (escape_kind F c') as [N1' N2'|d' I'|]; cbn [app]; intros H; injection H; clear H; intros; try congruence; try (now split; congruence); subst.
  - cbn in I, I'. split; auto.
    repeat match goal with H : _ \/ _ |- _ => destruct H as [H|H] end; try contradiction; congruence.
  - exfalso. cbn in I. repeat match goal with H : _ \/ _ |- _ => destruct H as [H|H] end; try contradiction; discriminate.
  - exfalso. cbn in I'. repeat match goal with H : _ \/ _ |- _ => destruct H as [H|H] end; try contradiction; discriminate.
  - rewrite <- !app_assoc in H. exact (hex_inj _ _ _ _ H).
Qed.
Lemma escape_start F c r r' : escape F c ++ r <> 34 :: r'.
Proof. destruct (escape_kind F c); cbn [app]; intros HH; congruence. Qed.
Lemma debug_str_inj F s : forall s' r r', concat (map (escape F) s) ++ 34 :: r = concat (map (escape F) s') ++ 34 :: r' -> s = s' /\ r = r'.
Proof.
  induction s as [|c s IH]; intros [|c' s'] r r'; cbn [map concat]; rewrite <- ?app_assoc; cbn [app]; intros H.
  - injection H as ->. auto.
  - symmetry in H. apply escape_start in H. contradiction.
  - apply escape_start in H. contradiction.
  - apply escape_inj in H. destruct H as [-> H]. apply IH in H. destruct H as [-> ->]. auto.
Qed.
Lemma debug_type_inj F t t' : debug_type F t ++ s2l " }" = debug_type F t' ++ s2l " }" -> t = t'.
Proof.
  destruct t, t'; try reflexivity; unfold debug_type, debug_str;
    try differ; rewrite <- ?app_assoc.
  intros H. apply app_inv_head in H. cbn [app] in H. rewrite <- !app_assoc in H. cbn [app] in H. injection H as H.
  apply debug_str_inj in H. destruct H as [-> _]. reflexivity.
Qed.
Lemma debug_inj F e e' : debug F e = debug F e' -> e = e'.
Proof.
  destruct e as [l c t], e' as [l' c' t']. unfold debug. cbn [err_line err_col err_type]. intros H.
  apply app_inv_head in H.
  apply show_usize_inj with (c := 44) (c' := 44) (n := l) (m := l') in H; try reflexivity.
  destruct H as [-> H]. apply (@app_inv_head _ (s2l ", col: ")) in H.
  apply show_usize_inj with (c := 44) (c' := 44) (n := c) (m := c') in H; try reflexivity.
  destruct H as [-> H]. apply (@app_inv_head _ (s2l ", errortype: ")) in H.
  apply debug_type_inj in H. subst. reflexivity.
Qed.
Lemma wasm_text F e e' : Some (JStr (debug F e)) = Some (JStr (debug F e')) -> e = e'.
Proof. intros H. assert (K : debug F e = debug F e') by congruence. exact (debug_inj _ _ _ K). Qed.
