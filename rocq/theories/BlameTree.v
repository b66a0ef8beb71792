(** * BlameTree: goodness of a tree is inherited by its parts (proofs for C51). *)
From Verif Require Import Base Punct Token Ast Scanner SpecLex SpecTree SpecSpell SpecBlame Rel BlameBase.
Set Implicit Arguments.

Section Tree.
Context (E : env) (src : str).
Notation sp_ok := (sp_ok E src).
Definition good (a : part) : Prop :=
  match a with
  | T_Node x => r_node sp_ok eq x x | T_Elem x => r_elem sp_ok eq x x | T_Bind x => r_bind sp_ok eq x x | T_APat x => r_apat sp_ok eq x x | T_AAPat x => r_aapat sp_ok eq x x
  | T_Key x => r_key sp_ok eq x x | T_Val x => r_val sp_ok eq x x | T_OPat x => r_opat sp_ok eq x x | T_Param x => r_param sp_ok eq x x | T_Arg x => r_arg sp_ok eq x x
  | T_Prop x => r_prop sp_ok eq x x | T_Meth x => r_meth sp_ok eq x x | T_Fn x => r_fn sp_ok eq x x | T_Case x => r_case sp_ok eq x x
  | T_Decl x => r_decl sp_ok eq x x | T_Catch x => r_catch sp_ok eq x x
  end.
Lemma good_one r x r0 y : In (r0, y) (one r x) -> good x -> good y.
Proof. intros [[= _ <-]|[]]. auto. Qed.
Lemma good_on A (R : A -> A -> Prop) r (F : A -> part) l r0 y : (forall x, R x x -> good (F x)) -> In (r0, y) (on r F l) -> Forall2 R l l -> good y.
Proof. intros H K G. apply diag_Forall in G. unfold on in K. apply in_map_iff in K. destruct K as (x & [= _ <-] & K). rewrite Forall_forall in G. auto. Qed.
Lemma good_opt A (R : A -> A -> Prop) r (F : A -> part) l r0 y : (forall x, R x x -> good (F x)) -> In (r0, y) (opt r F l) -> orel R l l -> good y.
Proof. intros H K G. inversion G; subst; cbn in K; [destruct K|]. destruct K as [[= _ <-]|[]]. auto. Qed.
Lemma good_opts A (R : A -> A -> Prop) r (F : A -> part) l r0 y : (forall x, R x x -> good (F x)) -> In (r0, y) (opts r F l) -> Forall2 (orel R) l l -> good y.
Proof.
  intros H K G. apply diag_Forall in G. induction G as [|o l Ho _ IH]; [destruct K|]. cbn in K. destruct o; [destruct K as [[= _ <-]|K]|]; auto. inversion Ho; subst. auto.
Qed.
Lemma good_child x r y : good x -> In (r, y) (children x) -> good y.
Proof.
  intros H K. unfold children, function_children in K.
  destruct x as [x|x|x|x|x|x|x|x|x|x|x|x|x|x|x|x]; destruct x; try (destruct K; fail); cbn [good] in H; inversion H; subst; clear H;
  repeat match goal with
  | K : In _ (_ ++ _) |- _ => apply in_app_or in K; destruct K as [K|K]
  end;
  first [ eapply good_one; [exact K|assumption]
        | eapply good_on; [|exact K|eassumption]; cbn [good]; auto; fail
        | eapply good_opt; [|exact K|eassumption]; cbn [good]; auto; fail
        | eapply good_opts; [|exact K|eassumption]; cbn [good]; auto; fail ].
Qed.
Lemma good_spans x sp : good x -> In sp (own_spans x) -> covers E src sp.
Proof.
  intros H K. unfold own_spans in K.
  destruct x as [x|x|x|x|x|x|x|x|x|x|x|x|x|x|x|x]; destruct x; try (destruct K; fail); cbn [good] in H; inversion H; subst; clear H;
  repeat match goal with H : r_id _ _ _ |- _ => destruct H as [_ ?] | H : r_lit _ _ _ |- _ => destruct H as (_ & _ & ?) end;
  try (cbn [In] in K; repeat match goal with K : _ \/ _ |- _ => destruct K as [K|K] | K : False |- _ => destruct K end; subst; match goal with H : sp_ok ?a ?a |- covers _ _ ?a => exact (proj2 H) end).
  all: apply in_app_or in K; destruct K as [K|K].
  all: try (apply in_app_or in K; destruct K as [K|K]).
  all: try (cbn [In] in K; repeat match goal with K : _ \/ _ |- _ => destruct K as [K|K] | K : False |- _ => destruct K end; subst; match goal with H : sp_ok ?a ?a |- covers _ _ ?a => exact (proj2 H) end).
  - apply in_flat_map in K. destruct K as (z & Kz & K). match goal with H : Forall2 (r_export _) _ _ |- _ => apply diag_Forall in H; rewrite Forall_forall in H; specialize (H _ Kz); destruct H as [[_ H1] [_ H2]] end.
    destruct K as [<-|[<-|[]]]; [exact (proj2 H1)|exact (proj2 H2)].
  - match goal with H : orel (r_lit _) _ _ |- _ => inversion H; subst end; [destruct K|]. cbn in K. destruct K as [<-|[]].
    match goal with H : r_lit _ _ _ |- _ => destruct H as (_ & _ & H); exact (proj2 H) end.
  - apply in_flat_map in K. destruct K as (z & Kz & K). match goal with H : Forall2 (r_import _) _ _ |- _ => apply diag_Forall in H; rewrite Forall_forall in H; specialize (H _ Kz); inversion H; subst end;
    repeat match goal with H : r_id _ _ _ |- _ => destruct H as [_ ?] end;
    cbn [In import_spans] in K; repeat match goal with K : _ \/ _ |- _ => destruct K as [K|K] | K : False |- _ => destruct K end; subst; match goal with H : sp_ok ?a ?a |- covers _ _ ?a => exact (proj2 H) end.
Qed.
Lemma good_occurs t path x : good t -> occurs t path x -> good x.
Proof. intros H K. induction K as [|path x r y K IH C]; [exact H|]. eapply good_child; eassumption. Qed.
End Tree.
