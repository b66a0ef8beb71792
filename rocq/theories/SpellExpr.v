(** * SpellExpr: what the functions of ParserExpr.v read is spelled by what they
    return (proofs). *)
From Verif Require Import Base Codepoint Punct Token Scanner Ast Convert ParserBase ParserExpr.
From Verif Require Import SpecLex SpecScan SpecTree SpecSpell Hoare LexFacts ParserInv SpellBase SpellConv.
Set Implicit Arguments.

Record hSp (E : env) (At : span -> pos -> pos -> Prop) (src : str) (first : token) (L LB : N) (h : handler) : Prop := mkHSp {
  hs_bindpat : fs E src first L LB (h_bindpat h) (fun p b q => spells E At (T_Bind b) p q);
  hs_lhs : fs E src first L LB (h_lhs h) (fun p e q => spells E At (T_Node e) p q);
  hs_new : fs E src first L LB (h_new h) (fun p e q => spells E At (T_Node e) p q);
  hs_unary : fs E src first L LB (h_unary h) (fun p e q => spells E At (T_Node e) p q);
  hs_exp : fs E src first L LB (h_exp h) (fun p e q => spells E At (T_Node e) p q);
  hs_climb : forall lhs prec, fs E src first L LB (h_climb h lhs prec) (fun p e q => forall p0, spells E At (T_Node lhs) p0 p -> spells E At (T_Node e) p0 q);
  hs_assign : fs E src first L LB (h_assign h) (fun p e q => spells E At (T_Node e) p q);
  hs_expression : fs E src first L LB (h_expression h) (fun p e q => spells E At (T_Node e) p q);
  hs_statement : fs E src first L LB (h_statement h) (fun p e q => spells E At (T_Node e) p q);
  hs_item : fs E src first L LB (h_item h) (fun p e q => spells E At (T_Node e) p q) }.

(** ** Token tests *)
Lemma mp_tp t x : token_wf t -> matches_punc t x = true -> tok_punc t x = true.
Proof. intros W M. apply tok_punc_eq. apply matches_punc_eq in M. split; auto. eapply wf_punct; eauto. Qed.
Lemma tp_mp t x : tok_punc t x = true -> matches_punc t x = true.
Proof. intros H. apply tok_punc_eq in H. apply matches_punc_eq. tauto. Qed.
Lemma ref_id t w : token_wf t -> t_to_string t = Some w -> tok_is t TIdentifier = true -> is_ref w t.
Proof.
  intros W Hs H. apply tok_is_eq in H. unfold token_wf in W. rewrite H in W. destruct W as (v & W & _).
  unfold t_to_string in Hs. rewrite W in Hs. injection Hs as <-. split; auto.
Qed.
Lemma ref_kw t k w : t_to_string t = Some w -> tok_kw t k = true -> k = "yield"%string \/ k = "await"%string -> is_ref w t.
Proof.
  intros Hs H Hk. apply tok_kw_eq in H. destruct H as [H1 H2]. unfold t_to_string in Hs. rewrite H2 in Hs. injection Hs as <-.
  split; auto. right. split; auto. destruct Hk as [->| ->]; auto.
Qed.
Lemma or_true a b : a || b = true -> a = true \/ b = true.
Proof. apply orb_true_iff. Qed.
Lemma op_tok t w : token_wf t -> t_to_string t = Some w -> ttype t = TKeyword \/ ttype t = TPunctuator -> is_op w t.
Proof.
  intros W Hs [H|H]; unfold token_wf in W; rewrite H in W.
  - destruct W as (v & W & _). unfold t_to_string in Hs. rewrite W in Hs. injection Hs as <-. left. auto.
  - destruct W as (v & W). unfold t_to_string in Hs. rewrite W in Hs. injection Hs as <-. right. exists v. split; auto.
Qed.
Lemma eats_mp E src first L LB s p q x : Fa E src first L LB s p -> matches_punc (next p) x = true -> step p q -> eats (is_p x) p q.
Proof. intros H M S. apply eats_p; auto. apply mp_tp; auto. eapply Fa_wf; eauto. Qed.

Create HintDb sp discriminated.
#[export] Hint Constants Opaque : sp.
#[export] Hint Resolve eats_p eats_k eats_w eats_mp : sp.

Section Pass.
Context (E : env) (At : span -> pos -> pos -> Prop) (src : str) (first : token) (L LB : N) (n : nat) (h : handler).
Hypothesis HAt : tell At.
Notation fsx := (fsx E src first L LB).
Notation fs := (fs E src first L LB).
Notation Fa := (Fa E src first L LB).
Notation spells := (spells E At).
Notation spn := (fun x => spells (T_Node x)).
Hypothesis HS : hSp E At src first L LB h.
#[local] Hint Resolve hs_bindpat hs_lhs hs_new hs_unary hs_exp hs_assign hs_expression hs_statement hs_item HS : fs.

(** ** Names *)
Lemma id_reference_f : fsx (parse_id_reference E) (fun p ms a q ms' => ms' = ms /\ exists nm at_ sp, a = Identifier nm at_ sp /\ eats (is_ref nm) p q /\ At sp p q).
Proof.
  fgo parse_id_reference; do 3 eexists; (split; [reflexivity|]);
    match goal with |- eats ?P ?p ?q /\ _ => assert (K9 : eats P p q); [split; [assumption|]|split; [exact K9|fat HAt]] end.
  - eapply ref_id; eauto. eapply Fa_wf; eauto.
  - eapply ref_kw; eauto.
  - eapply ref_kw; eauto.
Qed.
Lemma id_reference_n : fsx (parse_id_reference E) (fun p ms a q ms' => ms' = ms /\ spn a p q).
Proof.
  intros s p H. fuse ltac:(eapply use_fsx; [exact H|apply id_reference_f]). fret. constructor; assumption.
Qed.
Lemma binding_id_f : fsx (parse_binding_id E) (fun p ms a q ms' => ms' = ms /\ exists nm sp, a = B_Id nm sp /\ eats (is_ref nm) p q /\ At sp p q).
Proof.
  fgo parse_binding_id. do 2 eexists; (split; [reflexivity|]).
  match goal with |- eats ?P ?p ?q /\ _ => assert (K9 : eats P p q); [split; [assumption|]|split; [exact K9|fat HAt]] end.
  match goal with H : _ || _ || _ = true |- _ => apply or_true in H; destruct H as [H|H]; [apply or_true in H; destruct H as [H|H]|] end.
  - eapply ref_id; eauto. eapply Fa_wf; eauto.
  - eapply ref_kw; eauto.
  - eapply ref_kw; eauto.
Qed.
Lemma binding_id_b : fsx (parse_binding_id E) (fun p ms a q ms' => ms' = ms /\ spells (T_Bind a) p q).
Proof.
  intros s p H. fuse ltac:(eapply use_fsx; [exact H|apply binding_id_f]). fret. constructor; assumption.
Qed.
Lemma name_tok t w : token_wf t -> v_string (tval t) = Some w -> tok_is t TIdentifier || tok_is t TKeyword = true -> is_name w t.
Proof.
  intros W Hs H. split.
  - destruct (tval t); try discriminate Hs. injection Hs as ->. reflexivity.
  - apply or_true in H. destruct H as [H|H]; apply tok_is_eq in H; auto.
Qed.
Lemma id_name_f g : fsx (parse_id_name E g) (fun p ms a q ms' => ms' = ms /\ eats (is_name a) p q).
Proof. fgo parse_id_name. split; [assumption|]. eapply name_tok; eauto. eapply Fa_wf; eauto. Qed.
Lemma comma_unless_f c : fsx (comma_unless E c) (fun p ms _ q ms' => ms' = ms /\ comma_or c p q).
Proof.
  fgo comma_unless.
  - right. split; auto. apply mp_tp; auto. eapply Fa_wf; eauto.
  - left. assumption.
Qed.
Lemma assign_in_f : fs (assign_in h) (fun p a q => spn a p q).
Proof. unfold assign_in, with_in. eauto with fs. Qed.
Lemma expression_in_f : fs (expression_in h) (fun p a q => spn a p q).
Proof. unfold expression_in, with_in. eauto with fs. Qed.
#[local] Hint Resolve id_name_f comma_unless_f : fsx.
#[local] Hint Resolve assign_in_f expression_in_f : fs.

(** ** Binding patterns *)
Definition okey (v : value_or_expr) (p q : pos) : Prop :=
  match v with VEValue v => eats (key_token v) p q | VEExpr e => block LBracket RBracket (spn e) p q end.
Definition okeys (v : value_or_expr) (sp : span) (p q : pos) : Prop :=
  okey v p q /\ match v with VEValue _ => At sp p q | _ => True end.
Lemma obj_pat_key_f : fsx (obj_pat_key E h) (fun p ms v q ms' => okey v p q /\ match v with VEValue _ => ms' = ms | _ => True end).
Proof.
  fgo obj_pat_key.
  - split; [|assumption]. split; [assumption|]. split; [reflexivity|].
    match goal with H : _ || _ || _ || _ = true |- _ => apply or_true in H; destruct H as [H|H]; [apply or_true in H; destruct H as [H|H]; [apply or_true in H; destruct H as [H|H]|]|] end;
      match goal with H : tok_is _ _ = true |- _ => apply tok_is_eq in H; auto end.
  - split; [|exact I]. econstructor; eassumption.
Qed.
Lemma obj_pat_value_f l c b : fs (obj_pat_value E h l c b) (fun p v q => forall p0, spells (T_Bind b) p0 p -> spells (T_Val v) p0 q).
Proof.
  fgo obj_pat_value; intros p0 KK.
  - eapply S_val_default; eauto with sp.
  - inversion KK; subst. constructor; auto.
  - inversion KK; subst. constructor; auto.
  - inversion KK; subst. constructor; auto.
Qed.
Lemma value_to_key_f v lit sp : fs (value_to_key E v lit sp) (fun p k q => p = q /\
  if lit then k = (match v with VEValue v => PK_Lit (mkLit v (value_show E v) sp) | VEExpr e => PK_Expr e end)
  else exists w, v = VEValue w /\ k = PK_Id (mkId (value_show E w) sp)).
Proof. fgo value_to_key; eauto. Qed.
Lemma name_of_f v : fs (match v with VEValue (VStr s) => ret s | _ => unexpected_current E end) (fun p a q => p = q /\ v = VEValue (VStr a)).
Proof. intros s p H. destruct v as [[]|]; fwalk; auto. Qed.
#[local] Hint Resolve obj_pat_key_f : fsx.
#[local] Hint Resolve obj_pat_value_f value_to_key_f name_of_f : fs.
Lemma obj_pat_rest_f v sp : fs (obj_pat_rest E h v sp) (fun p x q => forall p0, okeys v sp p0 p -> spells (T_OPat x) p0 q).
Proof.
  unfold obj_pat_rest. intros s p H. fstep. fstep. fstep.
  - do 2 fstep. fstep. fuse ltac:(eapply use_fs; [eassumption|apply name_of_f]). fwalk.
    match goal with H : VEValue _ = VEValue _ |- _ => injection H as <- end. intros p0 [KK KA]. cbn in KK, KA. eapply S_opat_default; eauto with sp.
  - fwalk; subst; intros p0 [KK KA]; cbn in KK, KA.
    + destruct v; cbn in KK, KA; (eapply S_opat_pair; eauto with sp; constructor; auto).
    + cbn in KK, KA; eapply S_opat_name; eauto.
Qed.
#[local] Hint Resolve obj_pat_rest_f : fs.
Definition ell (close : punct) (p q' q : pos) : Prop := comma_or close q' q \/ tok_punc (next p) Ellipsis = true /\ q' = q.
Lemma obj_pat_property_f : fs (obj_pat_property E h) (fun p x q => exists q', spells (T_OPat x) p q' /\ ell RBrace p q' q).
Proof.
  fgo obj_pat_property.
  - eexists. split; [eapply S_opat_rest; eauto with sp|]. right. auto.
  - eexists. split; [|left; eassumption]. match goal with H : forall p0, okeys _ _ p0 _ -> _ |- _ => apply H end. split; [assumption|].
    match goal with |- match ?v with _ => _ end => destruct v; [|exact I] end. match goal with H : okey _ _ _ |- _ => cbn in H end. fat HAt.
Qed.
Lemma obj_binding_pat_f : fs (parse_obj_binding_pat E n h) (fun p b q => spells (T_Bind b) p q).
Proof.
  pose proof (@fs_until_rest E src first L LB _ _ _ n RBrace obj_pat_property_f) as HL.
  fgo parse_obj_binding_pat. constructor. econstructor; try eassumption. eapply many_rest_commas. eassumption.
Qed.
Lemma arr_pat_element_f : fs (arr_pat_element E h) (fun p x q => hole_or (fun x => spells (T_APat x)) RBracket x p q).
Proof.
  fgo arr_pat_element; cbn [hole_or].
  - eauto with sp.
  - eexists. split; [eapply S_apat_rest; eauto with sp|]. right. auto.
  - eexists. split; [eapply S_apat_default; eauto with sp|]. left. assumption.
  - match goal with H : spells (T_Bind _) _ _ |- _ => inversion H; subst; clear H end. eexists. split; [constructor; eassumption|]. left. assumption.
  - match goal with H : spells (T_Bind _) _ _ |- _ => inversion H; subst; clear H end. eexists. split; [constructor; eassumption|]. left. assumption.
  - match goal with H : spells (T_Bind _) _ _ |- _ => inversion H; subst; clear H end. eexists. split; [constructor; eassumption|]. left. assumption.
Qed.
Lemma arr_binding_pat_f : fs (parse_arr_binding_pat E n h) (fun p b q => spells (T_Bind b) p q).
Proof.
  pose proof (@fs_until_rest E src first L LB _ _ _ n RBracket arr_pat_element_f) as HL.
  fgo parse_arr_binding_pat. constructor. econstructor; try eassumption. eapply many_rest_holes. eassumption.
Qed.
#[local] Hint Resolve obj_binding_pat_f arr_binding_pat_f : fs.
#[local] Hint Resolve binding_id_b : fsx.
Lemma bindpat_f : fs (parse_binding_id_or_pat E n h) (fun p b q => spells (T_Bind b) p q).
Proof. fgo parse_binding_id_or_pat; assumption. Qed.
#[local] Hint Resolve bindpat_f : fs.

(** ** Functions *)
Lemma directives_f k : fs (directive_prologues E h k) (fun p l q => many spn l p q).
Proof.
  induction k; intros s p H; [exact I|]. cbn [directive_prologues]. fwalk; try constructor.
  all: econstructor; [eapply S_expression; eassumption|eassumption].
Qed.
Lemma statement_list_f : fs (parse_statement_list n h) (fun p l q => many spn l p q).
Proof.
  unfold parse_statement_list. eapply fs_weaken; [apply fs_until; apply hs_item; exact HS|]. cbv beta. intros p l q [H _].
  eapply many_impl; [|exact H]. cbv beta. tauto.
Qed.
#[local] Hint Resolve directives_f statement_list_f : fs.
Lemma body_block_f : fs (parse_function_body_block E n h) (fun p a q => spn a p q).
Proof. fgo parse_function_body_block. constructor. econstructor; try eassumption. eapply many_app; eassumption. Qed.
#[local] Hint Resolve body_block_f : fs.
Lemma function_body_f : fs (parse_function_body E n h) (fun p a q => spn a p q).
Proof. fgo parse_function_body. assumption. Qed.
#[local] Hint Resolve function_body_f : fs.
Lemma formal_param_f : fs (formal_param E n h) (fun p x q => exists q', spells (T_Param x) p q' /\ ell RParen p q' q).
Proof.
  fgo formal_param.
  - eexists. split; [eapply S_param_rest; eauto with sp|]. right. auto.
  - eexists. split; [eapply S_param_default; eauto with sp|]. left. assumption.
  - match goal with H : spells (T_Bind _) _ _ |- _ => inversion H; subst; clear H end. eexists. split; [constructor; eassumption|]. left. assumption.
  - match goal with H : spells (T_Bind _) _ _ |- _ => inversion H; subst; clear H end. eexists. split; [constructor; eassumption|]. left. assumption.
  - match goal with H : spells (T_Bind _) _ _ |- _ => inversion H; subst; clear H end. eexists. split; [constructor; eassumption|]. left. assumption.
Qed.
Notation prms := (fun ps => block LParen RParen (commas (fun x => spells (T_Param x)) ps)).
Lemma formal_params_f : fs (parse_formal_params E n h) (fun p ps q => prms ps p q).
Proof.
  pose proof (@fs_until_rest E src first L LB _ _ _ n RParen formal_param_f) as HL.
  fgo parse_formal_params. econstructor; try eassumption. eapply many_rest_commas. eassumption.
Qed.
#[local] Hint Resolve formal_params_f : fs.
Lemma params_and_body_f y a : fs (params_and_body E n h y a) (fun p r q => function spells (fst r) (snd r) p q).
Proof. fgo params_and_body. econstructor; eassumption. Qed.
#[local] Hint Resolve params_and_body_f : fs.
#[local] Hint Resolve id_reference_n : fsx.
Lemma not_star p : tok_is (next p) TPunctuator && matches_str (next p) "*" = true -> token_wf (next p) -> False.
Proof.
  intros H W. apply andb_true_iff in H. destruct H as [H1 H2]. apply tok_is_eq in H1. unfold token_wf in W. rewrite H1 in W. destruct W as (x & W).
  unfold matches_str in H2. rewrite W in H2. discriminate H2.
Qed.
Lemma f_maybe_start (b : bool) s p : Fa s p -> wp xAny (if b then ret tt else start_span) (fun _ s' => Fa s' p) s.
Proof. intros H. destruct b; fwalk; assumption. Qed.
Lemma function_expr_f async : fs (parse_function_expr E n h async) (fun p a q => forall p0, flag async (is_w "async") p0 p -> spn a p0 q).
Proof.
  intros s p H. unfold parse_function_expr. fstep.
  fuse ltac:(eapply f_maybe_start; exact H). repeat fstep; fret; intros p0 KK;
  match goal with |- context [tok_is ?t TPunctuator && matches_str ?t "*"] => destruct (tok_is t TPunctuator && matches_str t "*") eqn:Hg end;
  try (exfalso; eapply not_star; [exact Hg|]; eapply Fa_wf; eassumption).
  - eapply S_function; [eassumption|eassumption|constructor|econstructor; eassumption].
  - eapply S_function; [eassumption|eassumption|constructor; eassumption|econstructor; eassumption].
Qed.
Lemma arrow_body_f : fs (parse_arrow_body E n h) (fun p r q => spn (fst r) p q).
Proof. fgo parse_arrow_body; assumption. Qed.
#[local] Hint Resolve function_expr_f arrow_body_f : fs.
Lemma single_param_arrow_f name : fs (parse_single_param_arrow_function_expr E n h name) (fun p a q => forall p0, eats (is_ref name) p0 p -> spn a p0 q).
Proof. fgo parse_single_param_arrow_function_expr. intros p0 KK. eapply S_arrow_name; eassumption. Qed.

(** Parameters made from expressions; a rest element may come last. *)
Definition cover (x : node) (p q : pos) : Prop :=
  spells (T_Node x) p q \/ exists b sp r, x = NRestElement b sp /\ eats (is_p Ellipsis) p r /\ spells (T_Bind b) r q.
Lemma to_binding_pattern_cover x p q : cover x p q -> ck (to_binding_pattern E x) (fun y => cover y p q).
Proof.
  intros [H|(b & sp & r & -> & H1 & H2)].
  - eapply ck_conseq; [apply to_binding_pattern_spells; exact H|]. cbv beta. left. assumption.
  - cbn. right. eauto 8.
Qed.
Lemma tbp_cover x y : to_binding_pattern E x = COk y -> forall p q, cover x p q -> cover y p q.
Proof. intros H p q K. apply to_binding_pattern_cover in K. rewrite H in K. exact K. Qed.
Lemma param_of_pattern_f l x : fs (param_of_pattern E l x) (fun p y q => p = q /\ forall p0 q0, cover x p0 q0 -> spells (T_Param y) p0 q0).
Proof.
  fgo param_of_pattern; split; auto; intros p0 q0 [K|(b & sp' & r & K & K1 & K2)]; try discriminate K; try (exfalso; eapply no_rest; eassumption).
  - constructor. eapply inv_apat; eauto.
  - destruct (inv_pattern K) as (? & ? & ? & ? & ?). eapply S_param_default; eauto.
  - apply inv_binding_id in K. destruct K. constructor; auto.
  - constructor. eapply inv_opat; eauto.
  - injection K as <- _. eapply S_param_rest; eauto.
Qed.
#[local] Hint Resolve single_param_arrow_f param_of_pattern_f : fs.
Lemma seq_to_arrow_params_f seq : fs (seq_to_arrow_params E seq) (fun p ps q => p = q /\ (seq = [] -> ps = []) /\
  forall p0 q0, commas cover seq p0 q0 -> commas (fun x => spells (T_Param x)) ps p0 q0).
Proof.
  induction seq as [|e seq IH]; cbn [seq_to_arrow_params]; intros s p H.
  - fwalk. split; auto. split; auto. intros p0 q0 K. inversion K; constructor.
  - fwalk. subst. split; auto. split; [discriminate|]. intros p0 q0 K.
    match goal with Hc : to_binding_pattern E e = COk _ |- _ => pose proof (@tbp_cover e _ Hc) as Hx end.
    inversion K; subst.
    + match goal with Hl : [] = [] -> _ |- _ => rewrite (Hl eq_refl) end. apply commas_last. auto.
    + eapply commas_more; eauto.
Qed.
#[local] Hint Resolve seq_to_arrow_params_f : fs.

(** ** Classes *)
Definition good_name (k : prop_key) (c : bool) (p q : pos) : Prop :=
  (exists i, k = PK_Id i /\ c = false /\ eats (is_name (id_name i)) p q /\ At (id_span i) p q) \/
  (exists e, k = PK_Expr e /\ c = true /\ block LBracket RBracket (spn e) p q).
Definition lit_name (p q : pos) : Prop := p = q /\ (ttype (next p) = TString \/ ttype (next p) = TNumeric).
Lemma good_key k c p q : good_name k c p q -> key E At spells k c p q.
Proof. intros [(i & -> & -> & H & H')|(e & -> & -> & H)]; constructor; auto. Qed.
Lemma good_member k c p q : good_name k c p q -> member_name At spells (key_as_node k) c p q.
Proof. intros [(i & -> & -> & H & H')|(e & -> & -> & H)]; constructor; auto. Qed.
Lemma lit_no_paren p q r : lit_name p q -> eats (is_p LParen) q r -> False.
Proof. intros [-> H] [_ [H1 _]]. destruct H; congruence. Qed.
Lemma lit_no_fn p q r ps b : lit_name p q -> function spells ps b q r -> False.
Proof. intros H [q' [? ? H1 _ _] _]. eapply lit_no_paren; eauto. Qed.
Lemma computed_name_f : fs (parse_computed_property_name E h) (fun p k q => exists e, k = PK_Expr e /\ block LBracket RBracket (spn e) p q).
Proof. fgo parse_computed_property_name. eexists. split; [reflexivity|]. econstructor; eassumption. Qed.
#[local] Hint Resolve computed_name_f : fs.
Lemma property_name_f : fs (parse_property_name E h) (fun p r q => good_name (fst r) (snd r) p q \/ lit_name p q).
Proof.
  fgo parse_property_name; cbn [fst snd].
  - left. left. eexists. split; [reflexivity|]. split; [reflexivity|]. split; [eassumption|]. fat HAt.
  - right. split; auto. match goal with H : _ || _ = true |- _ => apply or_true in H; destruct H as [H|H]; apply tok_is_eq in H; auto end.
  - left. right. eauto.
Qed.
#[local] Hint Resolve property_name_f : fs.
Definition item (x : option method_def) (p q : pos) : Prop :=
  match x with None => eats (is_p Semicolon) p q | Some m => spells (T_Meth m) p q end.
Ltac getname := match goal with H : good_name _ _ _ _ \/ lit_name _ _ |- _ => destruct H as [H|H];
    [|exfalso; first [eapply lit_no_fn; eassumption|eapply lit_no_paren; eassumption]] end.
Lemma class_getter_f : fs (class_getter E n h false) (fun p x q => tok_id (next p) "get" = true -> item x p q).
Proof.
  fgo class_getter. cbn [fst snd] in *. intros KK. getname. cbn. eapply S_method_get; [eauto with sp|eapply good_member; eassumption|].
  econstructor; [|eassumption]. econstructor; [eassumption|constructor|eassumption].
Qed.
Lemma class_setter_f : fs (class_setter E n h false) (fun p x q => tok_id (next p) "set" = true -> item x p q).
Proof. fgo class_setter. cbn [fst snd] in *. intros KK. getname. cbn. eapply S_method_set; [eauto with sp|eapply good_member; eassumption|eassumption]. Qed.
Lemma class_generator_f : fs (class_generator_method E n h false) (fun p x q => tok_punc (next p) Star = true -> item x p q).
Proof. fgo class_generator_method. cbn [fst snd] in *. intros KK. getname. cbn. eapply S_method_gen; [eauto with sp|eapply good_member; eassumption|eassumption]. Qed.
Lemma class_async_f : fs (class_async_method E n h false) (fun p x q => tok_id (next p) "async" = true -> item x p q).
Proof.
  fgo class_async_method; cbn [fst snd] in *; intros KK; getname; cbn.
  - match goal with H : _ && (_ && _) = true |- _ => apply andb_true_iff in H; destruct H as [_ H]; apply andb_true_iff in H; destruct H as [_ H] end.
    eapply S_method_async with (gen := true); [eauto with sp|cbn; eauto with sp|eapply good_member; eassumption|eassumption].
  - eapply S_method_async with (gen := false); [eauto with sp|reflexivity|eapply good_member; eassumption|eassumption].
Qed.
Lemma class_plain_f : fs (class_plain_method E n h false) (fun p x q => item x p q).
Proof.
  fgo class_plain_method; cbn [fst snd] in *; getname; cbn. eapply S_method; [eapply good_member; eassumption|eassumption|].
  match goal with H : good_name _ _ _ _ |- _ => destruct H as [(i & -> & -> & H & _)|(e & -> & -> & H)]; cbn [class_method_kind key_as_node] end.
  - destruct (str_eqb (id_name i) (s2l "constructor")) eqn:Hc.
    + left. apply str_eqb_eq in Hc. rewrite Hc. eauto.
    + right. split; auto. intros _ a sp K. injection K as K _ _. rewrite K in Hc. discriminate Hc.
  - right. split; [reflexivity|discriminate].
Qed.
#[local] Hint Resolve class_getter_f class_setter_f class_generator_f class_async_f class_plain_f : fs.
Lemma no_static t : token_wf t -> tok_kw t "static" = false.
Proof.
  intros W. destruct (tok_kw t "static") eqn:H; auto. apply kw_reserved in H; auto. destruct H as (k & Hk & He). exfalso.
  cbn in Hk. repeat (destruct Hk as [<-|Hk]; [discriminate He|]). contradiction.
Qed.
Lemma class_element_f : fs (class_element E n h) (fun p x q => item x p q).
Proof.
  unfold class_element. intros s p H. fstep. fstep. fstep; [fwalk; cbn; eauto with sp|].
  rewrite no_static by (eapply Fa_wf; eassumption). fwalk; auto.
Qed.
Lemma items_cat l p q : many item l p q -> class_items (fun x => spells (T_Meth x)) (cat_some l) p q.
Proof. induction 1 as [|[x|] l p q r H1 H2 IH]; cbn; [constructor|eapply ci_item; eauto|eapply ci_semi; eauto]. Qed.
Lemma class_body_f : fs (parse_class_body E n h) (fun p l q => class_items (fun x => spells (T_Meth x)) l p q).
Proof.
  pose proof (@fs_until E src first L LB _ _ _ n RBrace class_element_f) as HL.
  fgo parse_class_body. apply items_cat. eapply many_impl; [|eassumption]. cbv beta. tauto.
Qed.
#[local] Hint Resolve class_body_f : fs.
Lemma class_tail_f id : fs (parse_class_tail E n h id) (fun p a q => is_declared a = true /\ forall p0 p1, eats (is_k "class") p0 p1 -> maybe spn id p1 p -> spn a p0 q).
Proof.
  fgo parse_class_tail; (split; [reflexivity|]); intros p' p'' K1 K2; (eapply S_class; [eassumption|eassumption| |econstructor; eassumption]).
  - constructor. econstructor; eauto with sp.
  - constructor.
Qed.
Lemma binding_id_node_f : fs (binding_id_node E) (fun p a q => spn a p q).
Proof.
  intros s p H. unfold binding_id_node. fstep. fuse ltac:(eapply use_fsx; [eassumption|apply binding_id_f]). subst. fwalk. constructor; assumption.
Qed.
#[local] Hint Resolve class_tail_f binding_id_node_f : fs.
Lemma class_dclr_f : fs (parse_class_dclr E n h) (fun p a q => is_declared a = true /\ spn a p q).
Proof. fgo parse_class_dclr. split; [assumption|]. match goal with H : forall p0 p1, eats _ p0 p1 -> _ |- _ => eapply H; [eassumption|constructor; assumption] end. Qed.
Lemma class_expr_f : fs (parse_class_expr E n h) (fun p a q => spn a p q).
Proof. fgo parse_class_expr; match goal with H : forall p0 p1, eats _ p0 p1 -> _ |- _ => eapply H; [eassumption|constructor; assumption] end. Qed.
#[local] Hint Resolve class_dclr_f class_expr_f : fs.

(** ** Primary expressions *)
Lemma piece_f : fsx (template_piece E) (fun p ms te q ms' => ms' = ms /\ (ttype (next p) = TTemplate -> eats (is_piece te) p q)).
Proof.
  fgo template_piece. intros K. split; [assumption|].
  match goal with H : Fa _ p |- _ => pose proof (Fa_wf H) as W end. unfold token_wf in W. rewrite K in W. destruct W as ((w & W) & _).
  unfold is_piece. cbn. rewrite W. auto.
Qed.
#[local] Hint Resolve piece_f : fsx.
Lemma template_head_f : fsx (parse_template_head E) (fun p ms te q ms' => ms' = ms /\ eats (is_head_piece te) p q).
Proof.
  unfold parse_template_head. intros s p H. fstep. fstep. fstep; [|fwalk]. destruct (thead (next p)) as [[]|] eqn:Ht; fwalk.
  match goal with H : tok_is _ _ = true |- _ => apply tok_is_eq in H end.
  match goal with H : ?A -> eats _ _ _, H' : ?A |- _ => destruct (H H') as [K1 K2] end. split; [assumption|]. split; auto.
Qed.
Lemma template_element_f : fs (parse_template_element E) (fun p te q => eats (is_piece te) p q).
Proof. fgo parse_template_element. match goal with H : tok_is _ _ = true |- _ => apply tok_is_eq in H end. auto. Qed.
#[local] Hint Resolve template_head_f : fsx.
#[local] Hint Resolve template_element_f : fs.
Lemma template_rest_f k : forall b, fsx (template_rest E h k b) (fun p ms r q ms' => template_tail spells (fst r) (snd r) p q /\ (b = true <-> fst r = []) /\
  (snd r = [] -> ms' = ms)).
Proof.
  induction k as [|k IH]; intros b s p H; [exact I|]. cbn [template_rest]. destruct b.
  - fwalk. split; [constructor|]. split; [split; reflexivity|reflexivity].
  - fwalk. cbn [fst snd] in *. split; [econstructor; eassumption|]. split; [split; discriminate|discriminate].
Qed.
#[local] Hint Resolve template_rest_f : fsx.
Lemma ne_head te p q : eats (is_head_piece te) p q -> ttype (next p) <> TEof.
Proof. intros [_ [[K _] _]]. congruence. Qed.
#[local] Hint Resolve ne_head : ne.
Lemma template_literal_f : fs (template_literal E n h) (fun p r q => template spells (fst (fst r)) (snd (fst r)) p q /\ (snd (fst r) = [] -> At (snd r) p q)).
Proof.
  fgo template_literal. cbn [fst snd] in *. split; [econstructor; eassumption|].
  match goal with H : ?A -> marks _ = marks _ |- ?A -> _ => intros K9; specialize (H K9) end. fat HAt.
Qed.
#[local] Hint Resolve template_literal_f : fs.
Lemma parse_template_f : fs (parse_template_literal E n h) (fun p a q => spn a p q).
Proof. fgo parse_template_literal. constructor; assumption. Qed.
Lemma tagged_template_f tag : fs (tagged_template E n h tag) (fun p a q => forall p0, spn tag p0 p -> spn a p0 q).
Proof. fgo tagged_template. intros p0 K. eapply S_tagged; eassumption. Qed.
#[local] Hint Resolve parse_template_f tagged_template_f : fs.

Lemma array_element_f : fs (array_lit_element E h) (fun p x q => elem_or (fun x => spells (T_Elem x)) RBracket x p q).
Proof.
  fgo array_lit_element; cbn [elem_or].
  - eauto with sp.
  - eexists. split; [eapply S_elem_spread; eauto with sp|assumption].
  - eexists. split; [eapply S_elem; eassumption|assumption].
Qed.
Lemma array_lit_f : fs (parse_array_lit_expr E n h) (fun p a q => spn a p q).
Proof.
  pose proof (@fs_until E src first L LB _ _ _ n RBracket array_element_f) as HL.
  fgo parse_array_lit_expr. constructor. econstructor; try eassumption. eapply many_holes. eassumption.
Qed.

Definition mdef (key : prop_key) (kind : string) (async generator computed : bool) (p : pos) (x : obj_prop) (q : pos) : Prop :=
  exists ps b sp, function spells ps b p q /\
   (kind = "get"%string /\ ps = [] /\ x = OE_Prop key computed (Some (PV_Fn (FnExpr None [] b generator false async))) "get" true false sp \/
    kind = "set"%string /\ x = OE_Prop key computed (Some (PV_Fn (FnExpr None ps b generator false async))) "set" true false sp \/
    kind = "init"%string /\ x = OE_Prop key computed (Some (if async then PV_AsyncFn None ps b generator false async
                  else PV_Fn (FnExpr None ps b generator false async))) "init" true false sp).
Lemma method_definition_f key kind async generator computed : fs (parse_method_definition E n h key kind async generator computed) (mdef key kind async generator computed).
Proof.
  fgo parse_method_definition; cbn [fst snd] in *;
    match goal with H : String.eqb kind _ = true |- _ => apply String.eqb_eq in H; subst kind end; unfold mdef.
  - do 3 eexists. split; [econstructor; [econstructor; [eassumption|constructor|eassumption]|eassumption]|]. left. auto.
  - do 3 eexists. split; [eassumption|]. right; left. auto.
  - do 3 eexists. split; [eassumption|]. right; right. auto.
Qed.
#[local] Hint Resolve array_lit_f method_definition_f : fs.

Definition modi (p : pos) (m : modifiers) (q : pos) : Prop :=
  match m with
  | Done x => loose E At x p q
  | More kind async gen => gen = false /\
      (kind = "init"%string /\ async = false /\ p = q \/ kind = "get"%string /\ async = false /\ eats (is_w "get") p q \/
       kind = "set"%string /\ async = false /\ eats (is_w "set") p q \/ kind = "init"%string /\ async = true /\ eats (is_w "async") p q)
  end.
Lemma not_punc u x : token_wf u -> tok_is u TPunctuator = false -> matches_punc u x = true -> False.
Proof. intros W H M. apply mp_tp in M; auto. apply tok_punc_eq in M. destruct M as [M _]. apply tok_is_eq in M. congruence. Qed.
Lemma ahead u x : token_wf u -> tok_is u TPunctuator = false -> next x = u -> forall y, matches_punc (next x) y = false.
Proof. intros W H -> y. destruct (matches_punc u y) eqn:M; auto. exfalso. eapply not_punc; eauto. Qed.
Ltac lookedup Hn := match goal with W : token_wf ?u, H : tok_is ?u TPunctuator = false, K : forall v, _ -> next ?x = v |- _ =>
    pose proof (@ahead u x W H (K u ltac:(congruence))) as Hn; clear K end.
Definition kept (m : modifiers) (ms ms' : list marker) : Prop := match m with More _ _ _ => ms' = ms | Done _ => True end.
Lemma accessor_modifier_f w : w = "get"%string \/ w = "set"%string -> forall s p, Fa s p -> tok_id (next p) w = true ->
  wp xAny (accessor_modifier E n h w) (fun m s' => exists q, Fa s' q /\ modi p m q /\ kept m (marks s) (marks s')) s.
Proof.
  intros Hw s p H KK. assert (Pk : peeked (next p)) by (eapply peeked_w; [|exact KK]; destruct Hw as [-> | ->]; auto).
  unfold accessor_modifier. fstep. fstep. fstep.
  - fwalk. cbn. auto 8.
  - do 5 fstep. lookedup Hn. fstep. fstep. fstep. rewrite Hn. fwalk. cbn [modi kept]. split; [|congruence]. split; auto.
    destruct Hw as [-> | ->]; [right; left|right; right; left]; split; auto; split; auto; apply eats_w; auto.
Qed.
Lemma async_modifier_f s p : Fa s p -> tok_id (next p) "async" = true ->
  wp xAny (async_modifier E n h) (fun m s' => exists q, Fa s' q /\ modi p m q /\ kept m (marks s) (marks s')) s.
Proof.
  intros H KK. unfold async_modifier. fstep. fstep. fstep.
  - fwalk. cbn. auto 8.
  - do 5 fstep. lookedup Hn. fstep. fstep. fstep. rewrite Hn. do 4 fstep. rewrite Hn. fwalk. cbn [modi kept]. split; [|congruence]. split; auto.
    right; right; right; split; auto; split; auto; apply eats_w; auto.
Qed.
Lemma property_modifiers_f : fsx (property_modifiers E n h) (fun p ms m q ms' => modi p m q /\ kept m ms ms').
Proof.
  unfold property_modifiers. intros s p H. fstep. fstep. fstep.
  { fuse ltac:(eapply accessor_modifier_f; [|eassumption|eassumption]; auto). fret. auto. }
  fstep. { fuse ltac:(eapply accessor_modifier_f; [|eassumption|eassumption]; auto). fret. auto. }
  fstep. { fuse ltac:(eapply async_modifier_f; eassumption). fret. auto. }
  fwalk.
  - match goal with H : mdef _ _ _ _ _ _ _ _ |- _ => destruct H as (ps9 & b9 & sp9 & K1 & [(K2 & _)|[(K2 & _)|(_ & K2)]]); try discriminate K2 end.
    cbn [fst snd] in *. getname. subst. cbn. split; [|exact I]. unfold loose. do 6 eexists. split; [reflexivity|]. split; [eauto with sp|]. split; [eapply good_key; eassumption|].
    do 2 eexists. split; [reflexivity|assumption].
  - cbn. auto 8.
Qed.
Lemma ne_prefix k p q : prefix k p q -> ttype (next q) <> TEof -> ttype (next p) <> TEof.
Proof. intros [] K; auto; fne. Qed.
Lemma property_key_f : fsx (property_key E h) (fun p ms r q ms' => key E At spells (fst r) (snd r) p q /\ (snd r = false -> ms' = ms /\ ttype (next p) <> TEof)).
Proof.
  fgo property_key; cbn [fst snd].
  - split; [|intros _; split; [congruence|fne]]. constructor; [assumption|]. fat HAt.
  - split; [|intros _; split; [congruence|fne]]. constructor; [|reflexivity|fat HAt]. split; [assumption|]. split; [|reflexivity].
    match goal with H : _ || _ = true |- _ => apply or_true in H; destruct H as [H|H]; apply tok_is_eq in H; auto end.
  - subst. split; [|discriminate]. constructor. assumption.
Qed.
#[local] Hint Resolve property_modifiers_f property_key_f : fsx.
Definition object_item (p : pos) (x : obj_prop) (q : pos) : Prop :=
  (exists q', spells (T_Prop x) p q' /\ comma_or RBrace q' q) \/ loose E At x p q.
Lemma modi_prefix p k a g q : modi p (More k a g) q -> prefix k p q.
Proof.
  cbn. intros (_ & [(-> & _ & ->)|[(-> & _ & H)|[(-> & _ & H)|(-> & _ & H)]]]); [apply pf_none|apply pf_get|apply pf_set|apply pf_async]; assumption.
Qed.
Lemma object_property_f : fs (object_property E n h) object_item.
Proof.
  fgo object_property.
  - left. eexists. split; [eapply S_prop_spread; eauto with sp|assumption].
  - right. assumption.
  - left. eexists. split; [|eassumption]. cbn [fst snd] in *. eapply S_prop; eauto with sp. eapply modi_prefix; eassumption.
  - left. eexists. split; [|eassumption]. cbn [fst snd] in *. eapply S_prop_default; eauto with sp. eapply modi_prefix; eassumption.
  - left. eexists. split; [|eassumption]. cbn [fst snd kept] in *.
    match goal with H : modi _ _ _, H' : mdef _ _ _ _ _ _ _ _ |- _ => destruct H as (-> & M); destruct H' as (ps9 & b9 & sp9 & K1 & K2) end.
    destruct M as [(-> & -> & ->)|[(-> & -> & M)|[(-> & -> & M)|(-> & -> & M)]]];
      destruct K2 as [(K2 & K3 & ->)|[(K2 & ->)|(K2 & ->)]]; try discriminate K2.
    + eapply S_prop_method; eassumption.
    + subst ps9. eapply S_prop_get; eassumption.
    + eapply S_prop_set; eassumption.
    + eapply S_prop_async; eassumption.
  - left. eexists. split; [|eassumption]. cbn [fst snd kept] in *.
    match goal with M : modi _ _ _, K : ?c = false -> marks _ = marks _ /\ _ |- _ => apply modi_prefix in M; eapply S_prop_short; [exact M|assumption|]; intros K9; destruct (K K9) as [K8 K7]; pose proof (ne_prefix M K7) as K6 end.
    apply HAt; eapply exact_intro; [eassumption|exact K6|congruence|eassumption].
Qed.
Lemma many_properties l p q : many (fun x p q => tok_punc (next p) RBrace = false /\ object_item p x q) l p q ->
  properties (fun x => spells (T_Prop x)) (loose E At) l p q.
Proof.
  induction 1 as [|x l p q r (H1 & [(q' & H2 & [H3|[-> H3]])|H2]) H4 IH].
  - constructor.
  - eapply pr_more; eauto.
  - inversion H4; subst; [apply pr_last; auto|]. match goal with H : _ /\ _ |- _ => destruct H end. congruence.
  - eapply pr_loose; eauto.
Qed.
Lemma object_lit_f : fs (parse_object_lit_expr E n h) (fun p a q => spn a p q).
Proof.
  pose proof (@fs_until E src first L LB _ _ _ n RBrace object_property_f) as HL.
  fgo parse_object_lit_expr. constructor. econstructor; try eassumption. eapply many_properties. eassumption.
Qed.
Lemma argument_f : fs (argument E h) (fun p x q => exists q', spells (T_Arg x) p q' /\ comma_or RParen q' q).
Proof.
  fgo argument.
  - eexists. split; [eapply S_arg_spread; eauto with sp|assumption].
  - eexists. split; [eapply S_arg; eassumption|assumption].
Qed.
Notation args := (fun l => block LParen RParen (commas (fun x => spells (T_Arg x)) l)).
Lemma arguments_f : fs (parse_arguments E n h) (fun p l q => args l p q).
Proof.
  pose proof (@fs_until E src first L LB _ _ _ n RParen argument_f) as HL.
  fgo parse_arguments. econstructor; try eassumption. eapply many_commas. eassumption.
Qed.
#[local] Hint Resolve object_lit_f arguments_f : fs.

(** Parenthesised expressions and arrow functions. *)
Definition seq_item (p : pos) (x : node * bool) (q : pos) : Prop :=
  (snd x = true /\ tok_punc (next p) Ellipsis = true /\ cover (fst x) p q) \/
  exists q', spn (fst x) p q' /\ (tok_punc (next q') RParen = true /\ q' = q /\ snd x = false \/
     eats (is_p Comma) q' q /\ snd x = matches_punc (next q) RParen) /\ tok_punc (next p) Ellipsis = false.
Lemma seq_element_f : fs (seq_element E n h) seq_item.
Proof.
  fgo seq_element.
  - left. split; [reflexivity|]. split; [assumption|]. right. do 3 eexists. split; [reflexivity|]. split; eauto with sp.
  - right. cbn [fst snd]. eexists. split; [eassumption|]. split; [|assumption]. left. split; auto. apply mp_tp; auto. eapply Fa_wf; eauto.
  - right. cbn [fst snd]. eexists. split; [eassumption|]. split; [|assumption]. right. auto.
Qed.
Lemma rest_nil A (R : pos -> A -> pos -> Prop) c l p q : many_rest c R l p q -> tok_punc (next p) c = true -> l = [] /\ p = q.
Proof. inversion 1; subst; auto; congruence. Qed.
Lemma seq_cover l p q : many_rest RParen seq_item l p q -> commas cover (map fst l) p q.
Proof.
  induction 1 as [p Hp|x p q Hp He H|x l p q r Hp He H H3 IH]; cbn [map].
  - constructor.
  - destruct H as [(_ & _ & H)|(q' & _ & _ & H)]; [apply commas_last; auto|congruence].
  - destruct H as [(_ & H & _)|(q' & H1 & [(H2 & -> & _)|(H2 & _)] & _)]; [congruence| |].
    + apply rest_nil in H3; auto. destruct H3 as [-> ->]. apply commas_last. left. exact H1.
    + eapply commas_more; [left; exact H1|exact H2|exact IH].
Qed.
Lemma seq_plain l p q : many_rest RParen seq_item l p q -> existsb snd l = false -> map fst l = [] /\ p = q \/ commas1 (fun x => spells (T_Node x)) (map fst l) p q.
Proof.
  induction 1 as [p Hp|x p q Hp He H|x l p q r Hp He H H3 IH]; cbn [map existsb]; intros Hs.
  - auto.
  - apply orb_false_iff in Hs. destruct Hs as [Hs _]. destruct H as [(H & _)|(q' & _ & _ & H)]; congruence.
  - apply orb_false_iff in Hs. destruct Hs as [Hs Hs']. right.
    destruct H as [(_ & H & _)|(q' & H1 & [(H2 & -> & _)|(H2 & H4)] & _)]; [congruence| |].
    + apply rest_nil in H3; auto. destruct H3 as [-> ->]. apply commas1_one. exact H1.
    + eapply commas1_more; [exact H1|exact H2|]. destruct (IH Hs') as [[K1 K2]|K]; [|exact K]. exfalso.
      destruct l; [|discriminate K1]. inversion H3; subst. rewrite Hs in H4. apply tp_mp in H. congruence.
Qed.
Lemma seq_to_arrow_f seq : fs (seq_to_arrow E n h seq) (fun p a q => forall p0, block LParen RParen (commas cover seq) p0 p -> spn a p0 q).
Proof.
  fgo seq_to_arrow. intros p0 [? ? K1 K2 K3]. cbn [fst snd] in *. subst. eapply S_arrow; [econstructor; eauto|eassumption|eassumption].
Qed.
#[local] Hint Resolve seq_to_arrow_f : fs.
Lemma seq_or_arrow_f : fs (parse_seq_or_arrow E n h) (fun p a q => spn a p q).
Proof.
  pose proof (@fs_until_rest E src first L LB _ _ _ n RParen seq_element_f) as HL.
  fgo parse_seq_or_arrow.
  - match goal with H : forall p0, block _ _ _ _ _ -> _ |- _ => apply H end. econstructor; try eassumption. apply seq_cover. assumption.
  - match goal with H : _ || _ = false |- _ => apply orb_false_iff in H; destruct H as [He _] end.
    apply S_parens. econstructor; try eassumption. apply seq_plain; assumption.
Qed.
Lemma async_primary_f : fs (parse_async_primary_expr E n h) (fun p a q => tok_id (next p) "async" = true -> spn a p q).
Proof.
  intros s p H. unfold parse_async_primary_expr. fstep. fstep. fstep. fuse ltac:(eapply use_fsx; [eassumption|apply id_reference_f]). subst.
  match goal with K : eats (is_ref ?nm) p ?q |- _ => pose proof K as Kid; apply eats_step in K; rename K into Kst end.
  fstep. fstep. destruct (broken x) eqn:Hb; cbn [negb].
  { fwalk. intros _. constructor; assumption. }
  fstep. fstep.
  fstep; [fwalk; intros _; constructor; assumption|]. fstep; [fwalk; intros _; constructor; assumption|]. fstep; [fwalk; intros _; constructor; assumption|].
  destruct (tok_is (next x) TPunctuator && is_some (v_punc (tval (next x)))) eqn:Hp; [fwalk|].
  destruct (tok_punc (next x) LParen) eqn:Hl.
  { exfalso. apply tok_punc_eq in Hl. destruct Hl as [Hl1 Hl2]. unfold tok_is in Hp. rewrite Hl1, Hl2 in Hp. discriminate Hp. }
  fstep.
  { fwalk. intros K. match goal with H : forall p0, flag _ _ p0 _ -> _ |- _ => apply H end. cbn. apply eats_w; assumption. }
  fstep. fuse ltac:(eapply use_fsx; [eassumption|apply fsx_with_prm; apply id_reference_f]). subst. fwalk. intros K. cbn [fst snd] in *.
  match goal with H : negb _ && _ = true |- _ => apply andb_true_iff in H; destruct H as [Hb' Hm]; apply negb_true_iff in Hb' end.
  eapply S_async_arrow; [apply eats_w; eassumption|apply broken_not; exact Hb|eassumption|apply broken_not; exact Hb'|eauto with sp|eassumption].
Qed.
#[local] Hint Resolve seq_or_arrow_f async_primary_f : fs.
Lemma or4 a b c d : a || b || c || d = true -> a = true \/ b = true \/ c = true \/ d = true.
Proof. destruct a, b, c, d; auto. Qed.
Lemma primary_f : fs (parse_primary_expr E n h) (fun p a q => spn a p q).
Proof.
  fgo parse_primary_expr; auto; try assumption.
  - match goal with H : forall p0, flag _ _ p0 _ -> _ |- _ => apply H end. reflexivity.
  - constructor; [eauto with sp|fat HAt].
  - constructor; [|reflexivity|fat HAt]. split; [assumption|]. split; [reflexivity|].
    match goal with H : _ || _ || _ || _ = true |- _ => apply or4 in H; destruct H as [H|[H|[H|H]]]; apply tok_is_eq in H; auto end.
  - constructor; [|reflexivity|reflexivity|fat HAt]. split; [assumption|]. cbn.
    match goal with H : tok_is _ TRegExp = true |- _ => apply tok_is_eq in H; auto end.
Qed.
#[local] Hint Resolve primary_f : fs.

(** ** Member access, calls, new *)
Lemma computed_member_f o : fs (parse_computed_member_expr E h o) (fun p a q => forall p0, spn o p0 p -> spn a p0 q).
Proof. fgo parse_computed_member_expr. intros p0 K. eapply S_member; [eassumption|]. econstructor; eassumption. Qed.
Lemma static_member_f o : fs (parse_static_member_expr E o) (fun p a q => forall p0, spn o p0 p -> spn a p0 q).
Proof. fgo parse_static_member_expr. intros p0 K. eapply S_dot; [eassumption|eassumption|eassumption|fat HAt|fat HAt]. Qed.
Lemma super_f : fs (parse_super E) (fun p a q => spn a p q).
Proof. fgo parse_super. constructor; [assumption|fat HAt]. Qed.
#[local] Hint Resolve computed_member_f static_member_f super_f : fs.
Lemma member_tail_f k : forall e, fs (member_tail E n h k e) (fun p a q => forall p0, spn e p0 p -> spn a p0 q).
Proof. induction k as [|k IH]; intros e s p H; [exact I|]. cbn [member_tail]. fwalk; intros p' K; eauto. Qed.
#[local] Hint Resolve member_tail_f : fs.
Lemma member_f : fs (parse_member_expr E n h) (fun p a q => spn a p q).
Proof. fgo parse_member_expr; eauto. Qed.
#[local] Hint Resolve member_f : fs.
Lemma call_tail_f k : forall e, fs (call_tail E n h k e) (fun p a q => forall p0, spn e p0 p -> spn a p0 q).
Proof.
  induction k as [|k IH]; intros e s p H; [exact I|]. cbn [call_tail]. fwalk; intros p' K; eauto.
  match goal with H : forall p0, spells (T_Node (CallExpression _ _ _ _)) _ _ -> _ |- _ => apply H end. eapply S_call; eassumption.
Qed.
#[local] Hint Resolve call_tail_f : fs.
Lemma new_f : fs (parse_new_expr E n h) (fun p a q => spn a p q).
Proof.
  fgo parse_new_expr.
  - match goal with K : eats (is_k "new") _ _ |- _ => pose proof K as Kn; destruct Kn as [_ [_ Kn]] end.
    match goal with K : tok_id ?t "target" = true |- _ => pose proof K as Kt; apply tok_id_eq in Kt; destruct Kt as [_ Kt] end.
    repeat match goal with K : v_string _ = Some _ |- _ => first [rewrite Kn in K|rewrite Kt in K]; injection K as <- end.
    eapply S_new_target; [eassumption|fat HAt|eauto with sp|eauto with sp|fat HAt|fat HAt].
  - eapply S_new_bare; eassumption.
  - match goal with H : forall p0, spells (T_Node (NewExpression _ _ _ _)) _ _ -> _ |- _ => apply H end. eapply S_new; eassumption.
  - match goal with H : forall p0, spells (T_Node (NewExpression _ _ _ _)) _ _ -> _ |- _ => apply H end. eapply S_new_bare; eassumption.
Qed.
Lemma call_f : fs (parse_call_expr E n h) (fun p a q => spn a p q).
Proof.
  fgo parse_call_expr; eauto.
  match goal with H : forall p0, spells (T_Node (CallExpression _ _ _ _)) _ _ -> _ |- _ => apply H end. eapply S_call; eassumption.
Qed.
#[local] Hint Resolve new_f call_f : fs.
Lemma lhs_f : fs (parse_left_hand_side_expr E n h) (fun p a q => spn a p q).
Proof. fgo parse_left_hand_side_expr; assumption. Qed.
#[local] Hint Resolve lhs_f : fs.

(** ** Operators *)
Lemma update_op t : token_wf t -> is_update_op t = true -> ttype t = TKeyword \/ ttype t = TPunctuator.
Proof. intros W H. right. unfold is_update_op in H. destruct (tval t) eqn:K; try discriminate H. eapply wf_punct; eauto. Qed.
Lemma unary_op b t : token_wf t -> is_unary_op b t = Some true -> ttype t = TKeyword \/ ttype t = TPunctuator.
Proof.
  intros W H. unfold is_unary_op in H. destruct (tval t) eqn:K; try (destruct (ttype t) eqn:Kt; auto; discriminate H).
  right. eapply wf_punct; eauto.
Qed.
Lemma bin_op t : is_bin_op t = true -> ttype t = TKeyword \/ ttype t = TPunctuator.
Proof. unfold is_bin_op. destruct (ttype t); try discriminate; auto. Qed.
Lemma eats_op s p q w : Fa s p -> t_to_string (next p) = Some w -> ttype (next p) = TKeyword \/ ttype (next p) = TPunctuator -> step p q -> eats (is_op w) p q.
Proof. intros H1 H2 H3 H4. split; [exact H4|]. apply op_tok; auto. eapply Fa_wf; eauto. Qed.
Lemma update_f : fs (parse_update_expr E n h) (fun p a q => spn a p q).
Proof.
  fgo parse_update_expr; try assumption.
  - eapply S_prefix; [|eassumption]. eapply eats_op; eauto. apply update_op; auto. eapply Fa_wf; eauto.
  - match goal with H : negb _ && _ = true |- _ => apply andb_true_iff in H; destruct H as [Hb' Hm]; apply negb_true_iff in Hb' end.
    eapply S_postfix; [eassumption|apply broken_not; exact Hb'|]. eapply eats_op; eauto. apply update_op; auto. eapply Fa_wf; eauto.
Qed.
Lemma cur_unary_f : fs cur_unary_op (fun p u q => p = q /\ (u = true -> ttype (next p) = TKeyword \/ ttype (next p) = TPunctuator)).
Proof. fgo cur_unary_op. split; auto. intros ->. eapply unary_op; eauto. eapply Fa_wf; eauto. Qed.
#[local] Hint Resolve update_f cur_unary_f : fs.
Lemma unary_f : fs (parse_unary_expr E n h) (fun p a q => spn a p q).
Proof.
  fgo parse_unary_expr; try assumption. subst. eapply S_unary; [|eassumption]. eapply eats_op; eauto.
Qed.
#[local] Hint Resolve unary_f : fs.
Lemma exp_f : fs (parse_exponentiation_expr E n h) (fun p a q => spn a p q).
Proof.
  fgo parse_exponentiation_expr; subst; try assumption. eapply S_binary; [eassumption| |eassumption].
  match goal with H : eats (is_p Pow) _ _ |- _ => destruct H as [? [? ?]] end. eapply eats_op; eauto.
Qed.
#[local] Hint Resolve exp_f : fs.
Lemma climb_inner_f k op : forall e, fs (climb_inner h k op e) (fun p a q => forall p0, spn e p0 p -> spn a p0 q).
Proof.
  pose proof (hs_climb HS) as HC. induction k as [|k IH]; intros e s p H; [exact I|]. cbn [climb_inner]. fwalk; intros p' K; eauto.
Qed.
#[local] Hint Resolve climb_inner_f : fs.
Lemma climb_f k : forall e prec, fs (climb E n h k e prec) (fun p a q => forall p0, spn e p0 p -> spn a p0 q).
Proof.
  induction k as [|k IH]; intros e prec s p H; [exact I|]. cbn [climb]. fwalk; intros p' K; [|assumption].
  match goal with H : forall p0, spells (T_Node (BinaryExpression _ _ _ _ _)) _ _ -> _ |- _ => apply H end.
  match goal with H : _ && _ = true |- _ => apply andb_true_iff in H; destruct H as [Hm _]; apply bin_op in Hm end.
  eapply S_binary; [eassumption|eapply eats_op; eauto|]. eauto.
Qed.
Lemma climbing_f e prec : fs (precedence_climbing E n h e prec) (fun p a q => forall p0, spn e p0 p -> spn a p0 q).
Proof. apply climb_f. Qed.
#[local] Hint Resolve climbing_f : fs.
Lemma binary_f : fs (parse_binary_expr E n h) (fun p a q => spn a p q).
Proof. fgo parse_binary_expr; auto. Qed.
#[local] Hint Resolve binary_f : fs.
Lemma conditional_f : fs (parse_conditional_expr E n h) (fun p a q => spn a p q).
Proof. fgo parse_conditional_expr; try assumption. eapply S_conditional; eassumption. Qed.
Lemma yield_f : fs (parse_yield_expr E n h) (fun p a q => spn a p q).
Proof.
  fgo parse_yield_expr.
  - eapply S_yield_star; [eassumption| |eauto with sp|eassumption]. apply broken_not. apply negb_true_iff. assumption.
  - match goal with H : forall p0, eats _ p0 _ -> _, K : eats _ _ _ |- _ => apply H; destruct K as [K1 [K2 K3]] end. split; [assumption|]. split; auto.
  - eapply S_yield; [eassumption| |eassumption]. apply broken_not. apply negb_true_iff. assumption.
  - eapply S_yield_nothing; [eassumption| |fat HAt]. apply broken_later. apply negb_false_iff. assumption.
Qed.
Lemma maybe_arrow_f e : fs (maybe_arrow E n h e) (fun p a q => forall p0, spn e p0 p -> spn a p0 q).
Proof. fgo maybe_arrow; intros p' K; try assumption. apply inv_identifier in K. destruct K. auto. Qed.
Lemma assignment_tail_f e : fs (assignment_tail E h e) (fun p a q => forall p0, spn e p0 p -> spn a p0 q).
Proof.
  fgo assignment_tail; intros p' K; try assumption.
  - apply to_assignment_pattern_spells in K. match goal with H : to_assignment_pattern _ _ = _ |- _ => rewrite H in K; cbn in K end.
    eapply S_assign; [eassumption| |eassumption]. split; [assumption|]. exists Assign. split; [apply tok_punc_eq; assumption|reflexivity].
  - eapply S_assign; [eassumption| |eassumption]. split; [assumption|].
    match goal with H : _ && _ = true |- _ => apply andb_true_iff in H; destruct H as [Hm _]; apply tok_is_eq in Hm end.
    match goal with H : v_punc (tval ?t) = Some ?x |- _ => exists x; split; [split; auto; destruct (tval t); try discriminate H; injection H as ->; reflexivity|reflexivity] end.
Qed.
#[local] Hint Resolve conditional_f yield_f maybe_arrow_f assignment_tail_f : fs.
Lemma assignment_f : fs (parse_assignment_expr E n h) (fun p a q => spn a p q).
Proof. fgo parse_assignment_expr; auto. Qed.
#[local] Hint Resolve assignment_f : fs.
Lemma comma_then_f A (m : PM A) R : fs m R -> fs (comma_then E m) (fun p a q => exists p', eats (is_p Comma) p p' /\ R p' a q).
Proof. intros Hm s p H. unfold comma_then. fwalk. eauto. Qed.
Lemma expression_f : fs (parse_expression E n h) (fun p a q => spn a p q).
Proof.
  pose proof (@fs_while E src first L LB _ _ _ n Comma (comma_then_f (hs_assign HS))) as HL.
  fgo parse_expression; try assumption.
  match goal with H : many _ ?l _ _ |- _ => assert (K : many (fun x p r => exists q, eats (is_p Comma) p q /\ spells (T_Node x) q r) l x x0) by
    (eapply many_impl; [|exact H]; cbv beta; tauto) end.
  apply S_sequence; [eapply many_commas1; eassumption|].
  match goal with H : many _ ?l _ _ |- _ => destruct l; [exfalso; inversion K; subst|cbn; auto with arith] end.
  match goal with H1 : matches_punc ?t Comma = true, H2 : tok_punc ?t Comma = false |- _ => apply mp_tp in H1; [congruence|] end.
  eapply Fa_wf; eauto.
Qed.
End Pass.
