(** * GramTac: first tokens, conditions on the next token, and tactics (proofs). *)
From Verif Require Import Base Codepoint Punct Token Scanner SpecLex SpecScan Hoare ScanBase ScanTokens2.
From Verif Require Import Ast Convert ParserBase ParserExpr ParserStmt Parser SpecJson SpecBare SpecLayout SpecGrammar GramLex GramBase.
From Coq Require Import ZifyBool ZifyN ZifyNat.
Set Implicit Arguments.

(** ** First tokens *)
Inductive start_prim : tk -> Prop :=
| sp_this : start_prim (KW "this") | sp_fun : start_prim (KW "function") | sp_class : start_prim (KW "class") | sp_async : start_prim (KI (s2l "async"))
| sp_id x : ident x -> start_prim (KI x)
| sp_num x : start_prim (KNum x) | sp_str x : start_prim (KStr x) | sp_null : start_prim KNull | sp_bool b : start_prim (KBool b)
| sp_regex p f : start_prim (KRegex p f) | sp_templ tl w v : start_prim (KTempl true tl w v)
| sp_paren : start_prim (KP LParen) | sp_brack : start_prim (KP LBracket) | sp_brace : start_prim (KP LBrace).
Inductive start_left : tk -> Prop := sl_prim k : start_prim k -> start_left k | sl_new : start_left (KW "new") | sl_super : start_left (KW "super").
Inductive start_upd : tk -> Prop := su_left k : start_left k -> start_upd k | su_inc : start_upd (KP Inc) | su_dec : start_upd (KP Dec).
Inductive start_un : tk -> Prop := sn_upd k : start_upd k -> start_un k | sn_op k : unary_op k -> start_un k | sn_await : start_un (KW "await").
(** First tokens of assignment expressions: also [yield]. *)
Inductive start_as : tk -> Prop := sa_un k : start_un k -> start_as k | sa_yield : start_as (KW "yield").
Definition starts (S : tk -> Prop) (l : list tok) : Prop := match l with t :: _ => S (knd t) | [] => False end.
Lemma starts_impl (S S' : tk -> Prop) l : (forall k, S k -> S' k) -> starts S l -> starts S' l.
Proof. destruct l; cbn; auto. Qed.
Lemma starts_app S l r : starts S l -> starts S (l ++ r).
Proof. destruct l; cbn; [intros []|auto]. Qed.
Create HintDb gr discriminated.
Global Hint Constants Opaque : gr.
Lemma st_prim_left l : starts start_prim l -> starts start_left l. Proof. apply starts_impl. apply sl_prim. Qed.
Lemma st_left_upd l : starts start_left l -> starts start_upd l. Proof. apply starts_impl. apply su_left. Qed.
Lemma st_upd_un l : starts start_upd l -> starts start_un l. Proof. apply starts_impl. apply sn_upd. Qed.
Lemma st_un_as l : starts start_un l -> starts start_as l. Proof. apply starts_impl. apply sa_un. Qed.
Global Hint Resolve st_prim_left st_left_upd st_upd_un st_un_as starts_app : gr.
Global Hint Constructors start_prim start_left start_upd start_un start_as : gr.

Lemma prim_upd k : start_prim k -> start_upd k. Proof. intros; apply su_left, sl_prim; auto. Qed.
Lemma left_un k : start_left k -> start_un k. Proof. intros; apply sn_upd, su_left; auto. Qed.
Lemma prim_as k : start_prim k -> start_as k. Proof. intros; apply sa_un, left_un, sl_prim; auto. Qed.
Lemma left_as k : start_left k -> start_as k. Proof. intros; apply sa_un, left_un; auto. Qed.
Lemma upd_as k : start_upd k -> start_as k. Proof. intros; apply sa_un, sn_upd; auto. Qed.
Lemma prim_as_s l : starts start_prim l -> starts start_as l. Proof. apply starts_impl, prim_as. Qed.
Lemma left_as_s l : starts start_left l -> starts start_as l. Proof. apply starts_impl, left_as. Qed.
Lemma upd_as_s l : starts start_upd l -> starts start_as l. Proof. apply starts_impl, upd_as. Qed.
Global Hint Resolve prim_upd left_un prim_as left_as upd_as prim_as_s left_as_s upd_as_s : gr.

Lemma str_eqb_false x y : x <> y -> str_eqb x y = false.
Proof. intros H. destruct (str_eqb x y) eqn:Hx; auto. apply str_eqb_eq in Hx. congruence. Qed.
Definition ident_words : list string := ["async"; "let"; "implements"; "interface"; "package"; "private"; "protected"; "public"; "static"]%string.
Lemma ident_not x w : ident x -> existsb (String.eqb w) ident_words = true -> str_eqb x (s2l w) = false.
Proof.
  intros H Hw. apply str_eqb_false. intros ->. apply (proj2 H). apply existsb_exists in Hw as (v & Hv & Hx). apply String.eqb_eq in Hx. subst v.
  change (In (s2l w) (map s2l ident_words)). apply in_map; auto.
Qed.
Lemma ident_kw x w : ident x -> In w reserved_words -> str_eqb x (s2l w) = false.
Proof. intros H Hw. apply str_eqb_false. intros ->. apply (proj1 H). exists w. auto. Qed.
Lemma ident_strict x : ident x -> is_strict_reserved_kw (ktok (KI x)) = Some false.
Proof.
  intros H. unfold is_strict_reserved_kw, t_to_str. cbn [ktok tval kval]. f_equal.
  cbn [existsb]. rewrite !(@ident_not x) by (auto; reflexivity). reflexivity.
Qed.

(** All first tokens at once. *)
Ltac starts_cases H := repeat match type of H with
  | start_as _ => destruct H as [? H|]
  | start_un _ => destruct H as [? H|? H|]
  | start_upd _ => destruct H as [? H| |]
  | start_left _ => destruct H as [? H| |]
  | start_prim _ => destruct H as [| | | |? H| | | | | | | | |]
  | unary_op _ => unfold unary_op in H; cbn [In] in H; destruct H as [<-|[<-|[<-|[<-|[<-|[<-|[<-|H]]]]]]]; [..|destruct H]
  end.
Lemma start_slash k : start_as k -> forall b, no_slash (T b k).
Proof. intros H b. starts_cases H; split; reflexivity. Qed.
Lemma starts_sf l r : starts start_as l -> slashfree (l ++ r).
Proof. destruct l as [|[b k] l]; cbn; [tauto|]. intros H. apply start_slash; auto. Qed.
Lemma sf_next l nt rest : no_slash (next l nt) -> slashfree (l ++ nt :: rest).
Proof. destruct l; auto. Qed.
Definition start_puncts : list punct := [LParen; LBracket; LBrace; Inc; Dec; Plus; Minus; Tilde; Bang].
Lemma start_punc k p : start_as k -> existsb (punct_eqb p) start_puncts = false -> tok_punc (ktok k) p = false.
Proof. intros H Hp. starts_cases H; try reflexivity; destruct p; try reflexivity; discriminate Hp. Qed.
Lemma start_mpunc k p : start_as k -> existsb (punct_eqb p) start_puncts = false -> matches_punc (ktok k) p = false.
Proof. intros H Hp. starts_cases H; try reflexivity; destruct p; try reflexivity; discriminate Hp. Qed.
Definition start_words : list string := ["this"; "function"; "new"; "delete"; "void"; "typeof"; "yield"; "super"; "await"; "class"]%string.
Lemma s2l_inj a : forall b, s2l a = s2l b -> a = b.
Proof.
  unfold s2l. induction a as [|c a IH]; intros [|d b] H; cbn in H; try discriminate; auto.
  injection H as H1 H2. f_equal; [|apply IH; auto]. rewrite <- (ascii_N_embedding c), <- (ascii_N_embedding d). congruence.
Qed.
Lemma s2l_eqb a b : str_eqb (s2l a) (s2l b) = String.eqb a b.
Proof.
  destruct (String.eqb a b) eqn:H.
  - apply String.eqb_eq in H. subst. apply str_eqb_eq. reflexivity.
  - apply str_eqb_false. intros Hx. apply s2l_inj in Hx. subst. rewrite String.eqb_refl in H. discriminate.
Qed.
Lemma start_kw k w : start_as k -> existsb (String.eqb w) start_words = false -> tok_kw (ktok k) w = false.
Proof.
  intros H Hw. unfold tok_kw, matches_str. cbn [ktok ttype tval].
  starts_cases H; try reflexivity; cbn [ktype kval tt_eqb andb]; rewrite s2l_eqb; apply Bool.not_true_is_false; intros Hx; apply String.eqb_eq in Hx; subst w; discriminate Hw.
Qed.
Lemma start_id k w : start_as k -> existsb (String.eqb w) (tl ident_words) = true -> tok_id (ktok k) w = false.
Proof.
  intros H Hw. assert (Hw' : existsb (String.eqb w) ident_words = true) by (cbn in *; rewrite Hw; apply orb_true_r).
  unfold tok_id, matches_str. cbn [ktok ttype tval].
  starts_cases H; try reflexivity; cbn [ktype kval tt_eqb andb]; [|apply ident_not; auto].
  rewrite s2l_eqb. apply Bool.not_true_is_false; intros Hx; apply String.eqb_eq in Hx; subst w; discriminate Hw.
Qed.
Lemma ident_id x w : ident x -> existsb (String.eqb w) ident_words = true -> tok_id (ktok (KI x)) w = false.
Proof. intros H Hw. unfold tok_id, matches_str. cbn [ktok ttype tval ktype kval tt_eqb andb]. apply ident_not; auto. Qed.
Lemma ident_async : ~ ident (s2l "async").
Proof. intros [_ H]. apply H. left. reflexivity. Qed.
Lemma start_eof k : start_as k -> tok_is (ktok k) TEof = false.
Proof. intros H. starts_cases H; reflexivity. Qed.
Lemma upd_unop k b : start_upd k -> is_unary_op b (ktok k) = Some false.
Proof. intros H. starts_cases H; reflexivity. Qed.
Lemma left_updop k : start_left k -> is_update_op (ktok k) = false.
Proof. intros H. starts_cases H; reflexivity. Qed.
Lemma prim_kw k w : start_prim k -> existsb (String.eqb w) ["this"; "function"; "class"]%string = false -> tok_kw (ktok k) w = false.
Proof.
  intros H Hw. unfold tok_kw, matches_str. cbn [ktok ttype tval].
  starts_cases H; try reflexivity; cbn [ktype kval tt_eqb andb]; rewrite s2l_eqb; apply Bool.not_true_is_false; intros Hx; apply String.eqb_eq in Hx; subst w; discriminate Hw.
Qed.

(** ** Conditions on the next token *)
Notation kt t := (ktok (knd t)).
Record ok_lhs (nt : tok) : Prop := mkOkLhs { ol_paren : tok_punc (kt nt) LParen = false; ol_brack : tok_punc (kt nt) LBracket = false; ol_dot : tok_punc (kt nt) Dot = false;
  ol_templ : tok_template_head (kt nt) = false }.
Definition ok_upd nt : Prop := ok_lhs nt /\ (nl nt = true \/ is_update_op (kt nt) = false).
Definition ok_exp nt : Prop := ok_upd nt /\ tok_punc (kt nt) Pow = false.
Definition ok_cond inn nt : Prop := ok_exp nt /\ level inn (knd nt) = 0 /\ matches_punc (kt nt) Question = false.
Record ok_assign inn nt : Prop := mkOkAssign { oa_cond : ok_cond inn nt; oa_assign : tok_punc (kt nt) Assign = false;
  oa_op : is_assign_op (kt nt) = false; oa_arrow : tok_punc (kt nt) FatArrow = false }.
Definition ok_expr inn nt : Prop := ok_assign inn nt /\ matches_punc (kt nt) Comma = false.
Lemma lhs_upd nt : ok_upd nt -> ok_lhs nt. Proof. intros H; apply H. Qed.
Lemma upd_exp nt : ok_exp nt -> ok_upd nt. Proof. intros H; apply H. Qed.
Lemma exp_cond i nt : ok_cond i nt -> ok_exp nt. Proof. intros H; apply H. Qed.
Lemma cond_assign i nt : ok_assign i nt -> ok_cond i nt. Proof. intros H; apply H. Qed.
Lemma assign_expr i nt : ok_expr i nt -> ok_assign i nt. Proof. intros H; apply H. Qed.
Global Hint Resolve lhs_upd upd_exp exp_cond cond_assign assign_expr : gr.

Lemma level_prec inn k r : 1 <= r -> is_bin_op (ktok k) && (r <=? precedence inn (ktok k)) = (r <=? level inn k).
Proof.
  intros Hr. assert (H0 : (r <=? 0) = false) by lia. unfold is_bin_op, precedence, matches_str, level. cbn [ktok ttype tval].
  destruct k as [p|w| | | | | | | |]; cbn [ktype kval]; try (rewrite H0; reflexivity).
  - destruct p; cbn [p_is_bin_op p_precedence andb]; rewrite ?H0; reflexivity.
  - rewrite !s2l_eqb. destruct (String.eqb w "instanceof") eqn:H1; [rewrite orb_true_r; reflexivity|].
    destruct (String.eqb w "in") eqn:H2; cbn [orb andb]; [reflexivity|]. rewrite H0. reflexivity.
Qed.
Lemma prec_level inn k : level inn k <> 0 -> precedence inn (ktok k) = level inn k.
Proof.
  unfold precedence, matches_str, level. cbn [ktok ttype tval].
  destruct k as [p|w| | | | | | | |]; cbn [ktype kval]; intros H; auto.
  rewrite !s2l_eqb. reflexivity.
Qed.
Lemma level_prec_lt inn o k r : level inn o = r -> 1 <= r ->
  is_bin_op (ktok k) && (precedence inn (ktok o) <? precedence inn (ktok k)) = (r <? level inn k).
Proof.
  intros Ho Hr. rewrite prec_level by lia. rewrite Ho.
  replace (r <? precedence inn (ktok k)) with (r + 1 <=? precedence inn (ktok k)) by lia.
  replace (r <? level inn k) with (r + 1 <=? level inn k) by lia. apply level_prec. lia.
Qed.
Lemma level_ok inn b k : level inn k <> 0 -> ok_exp (T b k).
Proof.
  unfold level. intros H. destruct k as [p|w| | | | | | | |]; try congruence; [|repeat split; auto].
  destruct p; try congruence; repeat split; auto.
Qed.
Lemma level_prec_same inn k : level inn k <> 0 -> t_to_string (ktok k) = Some (op_text k).
Proof.
  unfold level, op_text. destruct k as [p|w| | | | | | | |]; try congruence; intros H; reflexivity.
Qed.

(** ** Relating trees *)
(** The assignability marks of a tree are right where an assignment looks at them. *)
Definition simple (e : node) : bool := att_eqb (assign_target_type e) ASimple.
Fixpoint good (e : node) : bool :=
  match e with
  | Identifier x a _ => str_eqb x (s2l "eval") || str_eqb x (s2l "arguments") || att_eqb a ASimple
  | StaticMemberExpression _ _ _ a _ | ComputedMemberExpression _ _ _ a _ => att_eqb a ASimple
  | SequenceExpression [e'] a _ => good e' && (negb (simple e') || att_eqb a ASimple)
  | ArrayExpression es _ _ => forallb (fun x => match x with Some y => good_elem y | None => true end) es
  | ObjectExpression ps _ _ => forallb good_prop ps
  | AssignmentExpression _ l _ _ _ => simple l
  | _ => true
  end
with good_elem (x : arr_elem) : bool := match x with AE_Expr e | AE_Spread e _ => good e end
with good_prop (x : obj_prop) : bool :=
  match x with OE_Prop _ _ v _ _ _ _ => match v with Some w => good_val w | None => true end | OE_Spread e _ => good e end
with good_val (x : prop_value) : bool := match x with PV_Expr e => good e | _ => true end.
Definition good_opt (x : option arr_elem) : bool := match x with Some y => good_elem y | None => true end.
Definition tr (e e' : node) : Prop := bare_node e' = e /\ good e' = true.
Lemma tr_bare e e' : tr e e' -> bare_node e' = e.
Proof. intros H; apply H. Qed.
Lemma att_simple a : att_eqb a ASimple = true -> a = ASimple.
Proof. destruct a; auto; discriminate. Qed.
Fixpoint target_simple (e : node) : good e = true -> target (bare_node e) = true -> simple e = true.
Proof.
  destruct e; cbn [good bare_node target]; intros H Ht; try discriminate; unfold simple; cbn [assign_target_type]; auto.
  - apply negb_true_iff in Ht. rewrite Ht in H. exact H.
  - destruct expressions as [|e [|]]; try discriminate. cbn [map] in Ht. apply andb_prop in H as [H1 H2].
    rewrite (target_simple e H1 Ht) in H2. exact H2.
Qed.
Lemma tr_target e e' : tr e e' -> target e = true -> not_assignable e' = false.
Proof. intros [<- H] Ht. pose proof (target_simple e' H Ht) as K. unfold not_assignable. unfold simple in K. rewrite K. reflexivity. Qed.

Definition mk (b : bool) (m : nat) : nat := if b then S m else m.

(** ** Tactics *)
Ltac sfree := first [ assumption | exact (conj eq_refl eq_refl) | (apply starts_sf; solve [eauto with gr]) | (apply start_slash; solve [eauto with gr]) | (apply sf_next; solve [eauto with gr]) | discriminate | (cbn; tauto)
  | match goal with |- _ ++ _ <> [] => let H := fresh in intros H; apply app_eq_nil in H; destruct H; discriminate end ].
Ltac unk := match goal with H : kmatch _ _ |- _ => cbn [knd] in H end.
Ltac dcase := krw; first
  [ reflexivity
  | assumption
  | (vm_compute; reflexivity)
  | (apply start_punc; [solve [eauto with gr]|reflexivity])
  | (apply start_mpunc; [solve [eauto with gr]|reflexivity])
  | (apply start_kw; [solve [eauto with gr]|reflexivity])
  | (apply start_id; [solve [eauto with gr]|reflexivity])
  | (apply ident_id; [assumption|reflexivity])
  | (apply prim_kw; [solve [eauto with gr]|reflexivity])
  | (apply left_updop; solve [eauto with gr]) ].
Ltac norm := cbn [app]; repeat (rewrite <- app_assoc; cbn [app]).
Ltac ifs := first
  [ apply ht_ifb_t; [solve [dcase]|] | apply ht_ifb_f; [solve [dcase]|]
  | apply ht_if_t; [solve [dcase]|] | apply ht_if_f; [solve [dcase]|] ].
Ltac step1 := lazymatch goal with
  | |- ht _ _ _ _ (bind (bind _ _) _) _ => apply ht_assoc
  | |- ht _ _ _ _ (bind start_span _) _ => apply ht_start
  | |- ht _ _ _ (S _) (bind end_span _) _ => apply ht_end; intros ?sp
  | |- ht _ _ _ (S _) (bind peek_span _) _ => apply ht_peek; intros ?sp
  | |- ht _ (_ :: _) _ _ (bind getcur _) _ => apply ht_cur; let H := fresh "Kt" in intros ?t H; cbn [knd] in H
  | |- ht _ _ _ _ (bind (ret _) _) _ => apply ht_ret_bind
  | |- ht _ _ _ _ (bind (gets prm) _) _ => apply ht_prm
  | |- ht _ _ _ _ (bind (gets ctx) _) _ => apply ht_ctx; intros ?c ?Ci ?Cs ?Ct
  | |- ht _ (_ :: _) _ _ (bind (gets has_lt) _) _ => apply ht_lt; cbn [nl]
  | |- ht _ _ _ _ (bind (with_prm _ _) _) _ => apply ht_with
  | |- ht _ _ _ _ (bind (with_in _ _) _) _ => unfold with_in at 1; apply ht_with
  | |- ht _ _ _ _ (bind (with_default _ _) _) _ => unfold with_default at 1; apply ht_with
  | |- ht _ _ (setp _ _) _ (bind restore_params _) _ => apply ht_restore
  | |- ht _ _ _ _ (bind nofuel _) _ => apply ht_fuel_bind
  | |- ht _ _ _ _ nofuel _ => apply ht_fuel
  | |- ht _ (_ :: _) _ _ (bind (advance _ GRegExp) _) _ => apply ht_advr; [assumption|sfree|let H := fresh "Kt" in intros ?t H; cbn [knd] in H]
  | |- ht _ (_ :: _) _ _ (bind (advance _ GDiv) _) _ => apply ht_advd; [assumption|sfree|solve [left; reflexivity|right; first [reflexivity|assumption]]|let H := fresh "Kt" in intros ?t H; cbn [knd] in H]
  | |- ht _ (_ :: _) _ _ (bind (consume_p _ _ _) _) _ => unfold consume_p at 1
  | |- ht _ (_ :: _) _ _ (bind (consume_kw _ _ _) _) _ => unfold consume_kw at 1
  | |- ht _ (_ :: _) _ _ (bind (consume_id _ _ _) _) _ => unfold consume_id at 1
  | |- ht _ (_ :: _) _ _ (bind (advance_string _ _) _) _ => unfold advance_string at 1
  | |- ht _ _ _ _ (bind (if _ then _ else _) _) _ => ifs
  | |- ht _ _ _ _ (if _ then _ else _) _ => ifs
  | |- ht _ _ _ _ (bind (unwrap _ _) _) _ => eapply ht_unwrap; [solve [krw; first [eassumption | reflexivity | (apply upd_unop; solve [eauto with gr])]]|]
  | |- ht _ _ _ _ (unwrap _ _) _ => apply ht_ret_r
  | |- ht _ _ _ _ (advance _ _) _ => apply ht_ret_r
  | |- ht _ _ _ _ (consume_p _ _ _) _ => apply ht_ret_r
  | |- ht _ _ _ _ (with_prm _ _) _ => apply ht_ret_r
  | |- ht _ _ _ _ (with_in _ _) _ => apply ht_ret_r
  | |- ht _ _ _ _ (with_default _ _) _ => apply ht_ret_r
  end; cbv beta iota zeta.
Ltac go := lazymatch goal with |- does _ _ _ _ _ _ _ _ => unfold does | _ => idtac end; repeat step1.
Ltac fin := unfold does; match goal with |- ht _ _ _ _ (ret _) _ => apply does_ret; [cbn [mk negb orb]; first [apply Nat.le_refl | apply Nat.le_succ_diag_r | lia]|] end.
