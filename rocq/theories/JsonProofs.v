(** * JsonProofs: lemmas about the JSON form. *)
From Verif Require Import Base Punct Token Ast ParserBase Parser Json.
From Verif Require Import SpecParse SpecTree SpecJson SpecForm Valid TreeProofs ParseProofs.

(** ** Induction over parts *)
Definition child (y x : part) : Prop := exists r, In (r, y) (children x).
Definition kids (P : part -> Prop) (l : list (role * part)) : Prop := forall r y, In (r, y) l -> P y.
Lemma kids_nil P : kids P [].
Proof. intros r y []. Qed.
Lemma kids_app P l1 l2 : kids P (l1 ++ l2) <-> kids P l1 /\ kids P l2.
Proof.
  split.
  - intros H. split; intros r y Hi; apply (H r), in_or_app; auto.
  - intros [H1 H2] r y Hi. apply in_app_or in Hi. destruct Hi; [eapply H1|eapply H2]; eauto.
Qed.
Lemma kids_one P r x : kids P (one r x) <-> P x.
Proof. split; [intros H; apply (H r); cbn; auto|intros H r' y [[= <- <-]|[]]; auto]. Qed.
Lemma kids_on P r A (T : A -> part) l : kids P (on r T l) <-> Forall (fun x => P (T x)) l.
Proof.
  rewrite Forall_forall. split.
  - intros H x Hx. apply (H r). unfold on. apply in_map_iff. eauto.
  - intros H r' y Hi. unfold on in Hi. apply in_map_iff in Hi. destruct Hi as (x & [= <- <-] & Hx). auto.
Qed.
Lemma kids_opt P r A (T : A -> part) o : kids P (opt r T o) <-> (forall x, o = Some x -> P (T x)).
Proof.
  split.
  - intros H x ->. apply (H r). cbn. auto.
  - intros H r' y Hi. destruct o as [x|]; [|destruct Hi]. destruct Hi as [[= <- <-]|[]]. auto.
Qed.
Lemma kids_opts P r A (T : A -> part) l : kids P (opts r T l) <-> Forall (fun o => forall x, o = Some x -> P (T x)) l.
Proof.
  induction l as [|[x|] l IH]; cbn.
  - split; [constructor|intros _; apply kids_nil].
  - split.
    + intros H. constructor.
      * intros z [= <-]. apply (H r). cbn; auto.
      * apply IH. intros r' y Hi. apply (H r'). cbn; auto.
    + intros H. inversion_clear H. intros r' y [[= <- <-]|Hi]; [auto|]. apply IH in H1. eapply H1; eauto.
  - split.
    + intros H. constructor; [discriminate|]. apply IH; auto.
    + intros H. inversion_clear H. apply IH; auto.
Qed.
Ltac kids_split := unfold function_children; repeat first [apply kids_nil | rewrite kids_app | rewrite kids_one | rewrite kids_on | rewrite kids_opt | rewrite kids_opts].
Ltac kids_in H := unfold function_children in H; repeat first [rewrite kids_app in H | rewrite kids_one in H | rewrite kids_on in H | rewrite kids_opt in H | rewrite kids_opts in H].

Lemma acc_kids x : kids (Acc child) (children x) -> Acc child x.
Proof. intros H. constructor. intros y (r & Hi). eapply H; eauto. Qed.

Fixpoint acc_node (n : node) {struct n} : Acc child (T_Node n)
with acc_elem (n : arr_elem) {struct n} : Acc child (T_Elem n)
with acc_bind (n : binding) {struct n} : Acc child (T_Bind n)
with acc_apat (n : arr_pat) {struct n} : Acc child (T_APat n)
with acc_aapat (n : arr_apat) {struct n} : Acc child (T_AAPat n)
with acc_key (n : prop_key) {struct n} : Acc child (T_Key n)
with acc_val (n : prop_value) {struct n} : Acc child (T_Val n)
with acc_opat (n : obj_pat) {struct n} : Acc child (T_OPat n)
with acc_param (n : func_param) {struct n} : Acc child (T_Param n)
with acc_arg (n : arg_elem) {struct n} : Acc child (T_Arg n)
with acc_prop (n : obj_prop) {struct n} : Acc child (T_Prop n)
with acc_meth (n : method_def) {struct n} : Acc child (T_Meth n)
with acc_fn (n : fn_expr) {struct n} : Acc child (T_Fn n)
with acc_case (n : switch_case) {struct n} : Acc child (T_Case n)
with acc_decl (n : var_declarator) {struct n} : Acc child (T_Decl n)
with acc_catch (n : catch_clause) {struct n} : Acc child (T_Catch n).
Proof.
  all: destruct n; apply acc_kids; cbn [children]; kids_split; repeat match goal with |- _ /\ _ => split end; try exact I;
    repeat match goal with
    | |- Forall _ ?l => induction l as [|? ? IHl]; constructor; [|exact IHl]
    | |- forall x, ?o = Some x -> _ => destruct o as [?|]; [intros ? [= <-]|discriminate]
    end; auto.
Qed.
Lemma acc_part x : Acc child x.
Proof. destruct x; auto using acc_node, acc_elem, acc_bind, acc_apat, acc_aapat, acc_key, acc_val, acc_opat, acc_param, acc_arg, acc_prop, acc_meth, acc_fn, acc_case, acc_decl, acc_catch. Qed.
Lemma part_induction (P : part -> Prop) : (forall x, kids P (children x) -> P x) -> forall x, P x.
Proof. intros H x. induction (acc_part x) as [x _ IH]. apply H. intros r y Hi. apply IH. exists r; auto. Qed.

(** ** Objects *)
Definition typed (k : json) : Prop :=
  match k with
  | JObj fs => (exists ty fs', fs = ("type"%string, JStr (s2l ty)) :: fs' /\ In ty emitted_types) /\ NoDup (map fst fs)
  | _ => True
  end.
Definition all_typed (j : json) : Prop := forall k, within j k -> typed k.
Fixpoint distinctb (l : list string) : bool :=
  match l with [] => true | x :: l' => negb (existsb (String.eqb x) l') && distinctb l' end.
Lemma distinct_NoDup l : distinctb l = true -> NoDup l.
Proof.
  induction l as [|x l IH]; cbn; [constructor|]. intros H. apply andb_true_iff in H. destruct H as [H1 H2]. constructor; auto.
  intros Hi. apply negb_true_iff in H1. assert (existsb (String.eqb x) l = true) as Hx by (apply existsb_exists; exists x; split; auto; apply String.eqb_refl). congruence.
Qed.
Definition emitted_type (ty : string) : bool := existsb (String.eqb ty) emitted_types.
Lemma emitted_In ty : emitted_type ty = true -> In ty emitted_types.
Proof. intros H. apply existsb_exists in H. destruct H as (x & Hx & He). apply String.eqb_eq in He. subst. exact Hx. Qed.
Lemma at_leaf j : (forall l, j <> JArr l) -> (forall fs, j <> JObj fs) -> all_typed j.
Proof. intros H1 H2 k W. inversion W; subst; try (exfalso; eapply H1; reflexivity); try (exfalso; eapply H2; reflexivity). destruct k; cbn; auto. exfalso; eapply H2; reflexivity. Qed.
Lemma at_tagged ty fs : emitted_type ty = true -> distinctb ("type"%string :: map fst fs) = true -> Forall (fun f => all_typed (snd f)) fs -> all_typed (tagged ty fs).
Proof.
  intros He Hd F k W. inversion W; subst; [|].
  - cbn [typed]. split; [eexists _, _; split; [reflexivity|apply emitted_In; exact He]|]. exact (distinct_NoDup _ Hd).
  - match goal with Hn : In _ (_ :: _), Hw : within _ k |- _ => destruct Hn as [[= <- <-]|Hi]; [revert k W Hw; intros k _; apply at_leaf; discriminate|] end.
    rewrite Forall_forall in F. match goal with Hw : within ?y k |- _ => exact (F _ Hi _ Hw) end.
Qed.
Lemma at_jarr A (f : A -> json) l : Forall (fun x => all_typed (f x)) l -> all_typed (jarr f l).
Proof.
  intros F k W. inversion W; subst; cbn; auto. match goal with Hn : In _ (map _ _), Hw : within _ k |- _ => apply in_map_iff in Hn; destruct Hn as (y & <- & Hy); rewrite Forall_forall in F; exact (F _ Hy _ Hw) end.
Qed.
Lemma at_jopt A (f : A -> json) o : (forall x, o = Some x -> all_typed (f x)) -> all_typed (jopt f o).
Proof. destruct o; cbn; auto. intros _. apply at_leaf; discriminate. Qed.
Lemma at_jarro A (f : A -> json) l : Forall (fun o => forall x, o = Some x -> all_typed (f x)) l -> all_typed (jarro f l).
Proof.
  intros F. apply (@at_jarr _ (fun o => match o with Some x => f x | None => JNull end)). rewrite Forall_forall in *.
  intros [x|] Hx; [eapply F; eauto|apply at_leaf; discriminate].
Qed.
Ltac leaf := apply at_leaf; intros ?; discriminate.
Ltac object := apply at_tagged; [reflexivity|reflexivity|cbn [snd]; repeat (apply Forall_cons; cbn [snd]); try apply Forall_nil].
Lemma at_value v : not_punct v -> all_typed (j_value v).
Proof. destruct v; cbn; intros H; try leaf. contradiction. Qed.
Lemma at_id i : all_typed (j_id i).
Proof. object; leaf. Qed.
Lemma at_lit i : not_punct (lit_value i) -> all_typed (j_lit i).
Proof. intros H. object; [apply at_value; auto|leaf]. Qed.
Lemma at_span s : all_typed (j_span s).
Proof. object; object; leaf. Qed.
Lemma at_regex r : all_typed (j_regex r).
Proof. object; [leaf|]. apply (@at_jarr _ (fun c => JStr [c])). rewrite Forall_forall. intros; leaf. Qed.
Lemma at_te r : all_typed (j_te r).
Proof. object; [object; leaf|leaf]. Qed.
Lemma at_import i : all_typed (j_import i).
Proof. destruct i; object; apply at_id. Qed.
Lemma at_export i : all_typed (j_export i).
Proof. object; apply at_id. Qed.
Lemma at_all A (f : A -> json) l : (forall x, all_typed (f x)) -> all_typed (jarr f l).
Proof. intros H. apply at_jarr. rewrite Forall_forall; auto. Qed.

Lemma typed_step c x : local_other c x -> kids (fun y => all_typed (j_part y)) (children x) -> all_typed (j_part x).
Proof.
  intros L K.
  destruct x as [n|n|n|n|n|n|n|n|n|n|n|n|n|n|n|n]; destruct n; cbn [local_other local_node] in L; try contradiction;
    cbn [children] in K; kids_in K; cbn [j_part] in K;
    cbn [j_part j_node j_elem j_bind j_apat j_aapat j_key j_val j_opat j_param j_arg j_prop j_meth j_fn j_case j_decl j_catch];
    repeat match goal with H : _ /\ _ |- _ => destruct H end; auto;
    repeat first [progress object | leaf | assumption | apply at_jopt; assumption | apply at_jarr; assumption | apply at_jarro; assumption
                 | apply at_span | apply at_id | apply at_regex | apply at_value; assumption | apply at_lit; assumption
                 | apply at_all; first [apply at_te | apply at_import | apply at_export]].
  - apply (@at_jarr _ (fun c => JStr [c])). rewrite Forall_forall. intros; leaf.
  - destruct source; cbn [jopt]; [apply at_lit; auto|leaf].
Qed.
Lemma tree_typed E src t : tree_of E src t -> all_typed (j_node t).
Proof.
  intros HT. assert (H : forall x path, occurs (T_Node t) path x -> all_typed (j_part x)).
  { intros x. induction x as [x IH] using part_induction. intros path Ho. eapply typed_step; [eapply tree_local; eauto|].
    intros r y Hi. eapply IH; [exact Hi|]. econstructor; eauto. }
  apply (H (T_Node t) []). constructor.
Qed.

(** ** Positions *)
Definition strip (x : part) : part :=
  match x with
  | T_Node x => T_Node (strip_node x) | T_Elem x => T_Elem (strip_elem x) | T_Bind x => T_Bind (strip_bind x)
  | T_APat x => T_APat (strip_apat x) | T_AAPat x => T_AAPat (strip_aapat x) | T_Key x => T_Key (strip_key x)
  | T_Val x => T_Val (strip_val x) | T_OPat x => T_OPat (strip_opat x) | T_Param x => T_Param (strip_param x)
  | T_Arg x => T_Arg (strip_arg x) | T_Prop x => T_Prop (strip_prop x) | T_Meth x => T_Meth (strip_meth x)
  | T_Fn x => T_Fn (strip_fn x) | T_Case x => T_Case (strip_case x) | T_Decl x => T_Decl (strip_decl x)
  | T_Catch x => T_Catch (strip_catch x)
  end.
Lemma jarr_map A (f : A -> json) g l : Forall (fun x => f (g x) = f x) l -> jarr f (map g l) = jarr f l.
Proof. intros H. unfold jarr. rewrite map_map. f_equal. apply map_ext_Forall. exact H. Qed.
Lemma jopt_map A (f : A -> json) g o : (forall x, o = Some x -> f (g x) = f x) -> jopt f (option_map g o) = jopt f o.
Proof. destruct o; cbn; auto. Qed.
Lemma jarro_map A (f : A -> json) g l : Forall (fun o => forall x, o = Some x -> f (g x) = f x) l -> jarro f (map (option_map g) l) = jarro f l.
Proof. intros H. unfold jarro. rewrite map_map. f_equal. apply map_ext_Forall. eapply Forall_impl; [|exact H]. intros [x|] Hx; cbn; auto. Qed.
Lemma jarr_all A (f : A -> json) g l : (forall x, f (g x) = f x) -> jarr f (map g l) = jarr f l.
Proof. intros H. apply jarr_map. rewrite Forall_forall. auto. Qed.
Lemma strip_import_j x : j_import (strip_import x) = j_import x.
Proof. destruct x; reflexivity. Qed.
Lemma strip_json x : j_part (strip x) = j_part x.
Proof.
  induction x as [x IH] using part_induction.
  destruct x as [n|n|n|n|n|n|n|n|n|n|n|n|n|n|n|n]; destruct n; cbn [children] in IH; kids_in IH; cbn [strip j_part] in IH;
    cbn [strip strip_node strip_elem strip_bind strip_apat strip_aapat strip_key strip_val strip_opat strip_param strip_arg strip_prop strip_meth strip_fn strip_case strip_decl strip_catch];
    cbn [j_part j_node j_elem j_bind j_apat j_aapat j_key j_val j_opat j_param j_arg j_prop j_meth j_fn j_case j_decl j_catch];
    repeat match goal with H : _ /\ _ |- _ => destruct H end; auto;
    repeat match goal with
    | |- context [jarr ?f (map ?g ?l)] => rewrite (@jarr_map _ f g l) by assumption
    | |- context [jopt ?f (option_map ?g ?l)] => rewrite (@jopt_map _ f g l) by assumption
    | |- context [jarro ?f (map (option_map ?g) ?l)] => rewrite (@jarro_map _ f g l) by assumption
    | H : ?a = ?b |- context [?a] => rewrite H
    end; auto.
  - rewrite jarr_all by reflexivity. destruct source; reflexivity.
  - rewrite jarr_all by apply strip_import_j. reflexivity.
Qed.
Lemma same_strip t1 t2 : strip_node t1 = strip_node t2 -> j_node t1 = j_node t2.
Proof. intros H. pose proof (strip_json (T_Node t1)) as H1. pose proof (strip_json (T_Node t2)) as H2. cbn in *. congruence. Qed.

(** ** Every part is represented *)
Lemma w_jarr A (f : A -> json) l x : In x l -> within (jarr f l) (f x).
Proof. intros H. eapply w_arr; [|constructor]. apply in_map; auto. Qed.
Lemma w_jarro A (f : A -> json) l x : In (Some x) l -> within (jarro f l) (f x).
Proof. intros H. eapply w_arr; [|constructor]. apply (in_map (fun o => match o with Some x => f x | None => JNull end)) in H. exact H. Qed.
Lemma within_trans a b c : within a b -> within b c -> within a c.
Proof. intros H. induction H; intros; auto; econstructor; eauto. Qed.
Ltac inner := first [apply w_here | apply w_jarr; assumption | apply w_jarro; assumption].
Ltac pick tac := first
  [ eapply w_obj; [right; left; reflexivity|tac]
  | eapply w_obj; [right; right; left; reflexivity|tac]
  | eapply w_obj; [right; right; right; left; reflexivity|tac]
  | eapply w_obj; [right; right; right; right; left; reflexivity|tac] ].
Lemma represented_step x : kids (fun y => within (j_part x) (j_part y)) (children x).
Proof.
  destruct x as [n|n|n|n|n|n|n|n|n|n|n|n|n|n|n|n]; destruct n; cbn [children]; kids_split;
    repeat match goal with |- _ /\ _ => split end; try exact I;
    cbn [j_part j_node j_elem j_bind j_apat j_aapat j_key j_val j_opat j_param j_arg j_prop j_meth j_fn j_case j_decl j_catch];
    try rewrite Forall_forall; intros; subst; cbn [jopt]; first [apply w_here | pick inner | pick ltac:(pick inner)].
Qed.
Lemma represented t path x : occurs t path x -> within (j_part t) (j_part x).
Proof. induction 1; [constructor|]. eapply within_trans; [eassumption|]. eapply represented_step; eauto. Qed.

(** ** The whole program *)
Lemma script_json E src t : parse_script E src = Ok t ->
  exists body, j_node t = JObj [("type", JStr (s2l "Program")); ("body", JArr body); ("sourceType", JStr (s2l "script"))]%string.
Proof. intros H. destruct (script_program _ _ H) as (l & sp & ->). eexists. reflexivity. Qed.
Lemma module_json E src t : parse_module E src = Ok t ->
  exists body, j_node t = JObj [("type", JStr (s2l "Program")); ("body", JArr body); ("sourceType", JStr (s2l "module"))]%string.
Proof. intros H. destruct (module_program _ _ H) as (l & sp & ->). eexists. reflexivity. Qed.

(** ** The table of forms *)
Lemma shown_parts A (T : A -> part) (f : A -> json) l : (forall x, f x = j_part (T x)) -> JArr (map f l) = shown (parts T l).
Proof. intros H. cbn. rewrite map_map. f_equal. apply map_ext. exact H. Qed.
Lemma shown_opt A (T : A -> part) (f : A -> json) o : (forall x, f x = j_part (T x)) -> jopt f o = shown (opt_part T o).
Proof. intros H. destruct o; cbn; auto. Qed.
Lemma shown_holes A (T : A -> part) (f : A -> json) l : (forall x, f x = j_part (T x)) -> jarro f l = shown (holes T l).
Proof. intros H. cbn. rewrite map_map. unfold jarro. f_equal. apply map_ext. intros [x|]; cbn; auto. Qed.
Lemma shown_all A (g : A -> content) (f : A -> json) l : (forall x, f x = shown (g x)) -> JArr (map f l) = shown (CList (map g l)).
Proof. intros H. cbn. rewrite map_map. f_equal. apply map_ext. exact H. Qed.
Lemma shown_value v : j_value v = shown (CValue v).
Proof. destruct v; reflexivity. Qed.
Lemma shown_lit l : j_lit l = shown (literal_form l).
Proof. unfold j_lit, literal_form. cbn [shown map fst snd]. rewrite shown_value. reflexivity. Qed.
Lemma shown_import l : j_import l = shown (import_form l).
Proof. destruct l; reflexivity. Qed.
Lemma shown_regex l : j_regex l = shown (regex_form l).
Proof. unfold j_regex, regex_form, tagged. cbn [shown map fst snd]. rewrite map_map. reflexivity. Qed.
Lemma shown_one ty fs gs : fs = map (fun f => (fst f, shown (snd f))) gs -> tagged ty fs = shown (COne ty gs).
Proof. intros ->. reflexivity. Qed.
Lemma one_field (f : string) a b l l' : a = b -> l = l' -> (f, a : json) :: l = (f, b) :: l'.
Proof. congruence. Qed.
Ltac field := first
  [ reflexivity | apply shown_opt; reflexivity | apply shown_parts; reflexivity | apply shown_holes; reflexivity | apply shown_value | apply shown_lit | apply shown_regex
  | apply shown_all; first [apply shown_import | reflexivity]
  | apply shown_one; cbn [map fst snd]; repeat (apply one_field; [field|]); reflexivity ].
Lemma table x c : shape x = Some c -> j_part x = shown c.
Proof.
  destruct x as [n|n|n|n|n|n|n|n|n|n|n|n|n|n|n|n]; destruct n; cbn [shape]; try discriminate; intros [= <-];
    unfold function_form; cbn [j_part j_node j_elem j_bind j_apat j_aapat j_key j_val j_opat j_param j_arg j_prop j_meth j_fn j_case j_decl j_catch]; try solve [field].
  apply shown_one. cbn [map fst snd]. repeat (apply one_field; [first [field | destruct source; [apply shown_lit|reflexivity]]|]). reflexivity.
Qed.
Lemma table_alias x y : alias x = Some y -> j_part x = j_part y.
Proof. destruct x as [n|n|n|n|n|n|n|n|n|n|n|n|n|n|n|n]; destruct n; cbn [alias]; try discriminate; intros [= <-]; reflexivity. Qed.
Lemma table_total x : (exists c, shape x = Some c) \/ (exists y, alias x = Some y).
Proof. destruct x as [n|n|n|n|n|n|n|n|n|n|n|n|n|n|n|n]; destruct n; cbn [alias shape]; eauto. Qed.
