(** * TouchProofs: JSON does not show marks (lemmas for C47 and C48). *)
From Verif Require Import Base Punct Token Ast SpecTree SpecTouch Json SpecJson JsonProofs.
Set Implicit Arguments.

Section Touch.
Context (f : span -> span) (g : att -> att) (Hf : forall s, f s = s).
Definition touch (x : part) : part :=
  match x with
  | T_Node x => T_Node (touch_node f g x) | T_Elem x => T_Elem (touch_elem f g x) | T_Bind x => T_Bind (touch_bind f g x)
  | T_APat x => T_APat (touch_apat f g x) | T_AAPat x => T_AAPat (touch_aapat f g x) | T_Key x => T_Key (touch_key f g x)
  | T_Val x => T_Val (touch_val f g x) | T_OPat x => T_OPat (touch_opat f g x) | T_Param x => T_Param (touch_param f g x)
  | T_Arg x => T_Arg (touch_arg f g x) | T_Prop x => T_Prop (touch_prop f g x) | T_Meth x => T_Meth (touch_meth f g x)
  | T_Fn x => T_Fn (touch_fn f g x) | T_Case x => T_Case (touch_case f g x) | T_Decl x => T_Decl (touch_decl f g x)
  | T_Catch x => T_Catch (touch_catch f g x)
  end.
Lemma touch_json x : j_part (touch x) = j_part x.
Proof.
  induction x as [x IH] using part_induction.
  destruct x as [n|n|n|n|n|n|n|n|n|n|n|n|n|n|n|n]; destruct n; cbn [children] in IH; kids_in IH; cbn [touch j_part] in IH;
    cbn [touch touch_node touch_elem touch_bind touch_apat touch_aapat touch_key touch_val touch_opat touch_param touch_arg touch_prop touch_meth touch_fn touch_case touch_decl touch_catch];
    fold (touch_node f g) (touch_elem f g) (touch_bind f g) (touch_apat f g) (touch_aapat f g) (touch_key f g) (touch_val f g) (touch_opat f g) (touch_param f g) (touch_arg f g) (touch_prop f g) (touch_meth f g) (touch_fn f g) (touch_case f g) (touch_decl f g) (touch_catch f g);
    cbn [j_part j_node j_elem j_bind j_apat j_aapat j_key j_val j_opat j_param j_arg j_prop j_meth j_fn j_case j_decl j_catch];
    repeat match goal with H : _ /\ _ |- _ => destruct H end; auto;
    repeat match goal with
    | |- context [jarr ?f (map ?g ?l)] => rewrite (@jarr_map _ f g l) by assumption
    | |- context [jopt ?f (option_map ?g ?l)] => rewrite (@jopt_map _ f g l) by assumption
    | |- context [jarro ?f (map (option_map ?g) ?l)] => rewrite (@jarro_map _ f g l) by assumption
    | H : ?a = ?b |- context [?a] => rewrite H
    end; auto.
  - rewrite jarr_all by reflexivity. destruct source; reflexivity.
  - rewrite jarr_all by (intros []; reflexivity). reflexivity.
  - rewrite Hf. reflexivity.
  - rewrite Hf. reflexivity.
Qed.
Lemma touch_node_json x : j_node (touch_node f g x) = j_node x.
Proof. exact (touch_json (T_Node x)). Qed.
End Touch.

(** ** Functions that agree *)
Section Ext.
Context (f : span -> span) (g : att -> att) (Hf : forall s, f s = s) (Hg : forall a, g a = a).
Lemma touch_lit_id l : touch_lit f l = l. Proof. destruct l. unfold touch_lit. cbn. rewrite Hf. reflexivity. Qed.
Lemma touch_id_id l : touch_id f l = l. Proof. destruct l. unfold touch_id. cbn. rewrite Hf. reflexivity. Qed.
Lemma map_same A (h : A -> A) l : Forall (fun x => h x = x) l -> map h l = l.
Proof. induction 1; cbn; congruence. Qed.
Lemma map_all A (h : A -> A) l : (forall x, h x = x) -> map h l = l.
Proof. intros H. apply map_same. rewrite Forall_forall. auto. Qed.
Lemma omap_same A (h : A -> A) o : (forall x, o = Some x -> h x = x) -> option_map h o = o.
Proof. destruct o; cbn; intros H; [rewrite H|]; auto. Qed.
Lemma hmap_same A (h : A -> A) l : Forall (fun o => forall x, o = Some x -> h x = x) l -> map (option_map h) l = l.
Proof. intros H. apply map_same. rewrite Forall_forall in *. intros o Ho. apply omap_same. exact (H o Ho). Qed.
Definition idle (x : part) : Prop :=
  match x with
  | T_Node x => touch_node f g x = x
  | T_Elem x => touch_elem f g x = x
  | T_Bind x => touch_bind f g x = x
  | T_APat x => touch_apat f g x = x
  | T_AAPat x => touch_aapat f g x = x
  | T_Key x => touch_key f g x = x
  | T_Val x => touch_val f g x = x
  | T_OPat x => touch_opat f g x = x
  | T_Param x => touch_param f g x = x
  | T_Arg x => touch_arg f g x = x
  | T_Prop x => touch_prop f g x = x
  | T_Meth x => touch_meth f g x = x
  | T_Fn x => touch_fn f g x = x
  | T_Case x => touch_case f g x = x
  | T_Decl x => touch_decl f g x = x
  | T_Catch x => touch_catch f g x = x
  end.
Lemma idle_all x : idle x.
Proof.
  induction x as [x IH] using part_induction.
  destruct x as [n|n|n|n|n|n|n|n|n|n|n|n|n|n|n|n]; destruct n; cbn [children] in IH; kids_in IH; cbn [idle] in IH;
    cbn [idle touch_node touch_elem touch_bind touch_apat touch_aapat touch_key touch_val touch_opat touch_param touch_arg touch_prop touch_meth touch_fn touch_case touch_decl touch_catch];
    fold (touch_node f g) (touch_elem f g) (touch_bind f g) (touch_apat f g) (touch_aapat f g) (touch_key f g) (touch_val f g) (touch_opat f g) (touch_param f g) (touch_arg f g) (touch_prop f g) (touch_meth f g) (touch_fn f g) (touch_case f g) (touch_decl f g) (touch_catch f g);
    repeat match goal with H : _ /\ _ |- _ => destruct H end; rewrite ?Hf, ?Hg, ?touch_lit_id, ?touch_id_id; auto;
    repeat match goal with
    | |- context [map (option_map ?h) ?l] => rewrite (@hmap_same _ h l) by assumption
    | |- context [map ?h ?l] => rewrite (@map_same _ h l) by assumption
    | |- context [option_map ?h ?l] => rewrite (@omap_same _ h l) by assumption
    | H : ?a = ?b |- context [?a] => rewrite H
    end; auto.
  - rewrite map_all by (intros [[] []]; unfold touch_export, touch_id; cbn; rewrite !Hf; reflexivity).
    rewrite omap_same by (intros; apply touch_lit_id). reflexivity.
  - rewrite map_all by (intros []; cbn; rewrite ?touch_id_id; reflexivity). reflexivity.
Qed.
Lemma touch_idle x : touch_node f g x = x.
Proof. exact (idle_all (T_Node x)). Qed.
End Ext.
