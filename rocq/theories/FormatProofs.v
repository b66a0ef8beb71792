(** * FormatProofs: what is told is a program (C64). *)
From Verif Require Import Base Punct Token Ast Scanner ParserBase Parser Json.
From Verif Require Import SpecTree SpecLex SpecJson SpecBare SpecLayout SpecGrammar SpecPrint SpecPrintMod SpecUnparse SpecUnparseMod.
From Verif Require Import PrintProofs PrintModProofs UnparseProofs UnparseModProofs.
Open Scope list_scope.

Section Told.
Context (E : env).
Ltac conjs := repeat match goal with H : _ /\ _ |- _ => destruct H end.
Lemma assignable_told e : assignable e -> assignable (told_exp e).
Proof. destruct e; cbn; auto. Qed.
Lemma plain_told s : plain_stm s -> plain_stm (told s).
Proof. destruct s as [|[]| | | | | | | | | | | | | | | | | | | |]; cbn; auto. Qed.
Lemma all_map A B (f : A -> B) (Q R : A -> Prop) (S : B -> Prop) l : (forall x, Q x -> R x -> S (f x)) -> Forall Q l -> all R l -> all S (map f l).
Proof. intros H. induction 1 as [|x l Hx Hl IH]; cbn; auto. intros [H1 H2]. auto. Qed.
Lemma opt_map A B (f : A -> B) (Q R : A -> Prop) (S : B -> Prop) o : (forall x, Q x -> R x -> S (f x)) -> opt Q o -> opt R o -> opt S (option_map f o).
Proof. destruct o; cbn; auto. Qed.
Lemma map_some A B (f : A -> B) l : l <> [] -> map f l <> [].
Proof. destruct l; [auto|discriminate]. Qed.
Lemma proper_told_all : (forall e, proper E e -> proper E (told_exp e)) /\ (forall f, fproper E f -> fproper E (told_fn f)) /\
  (forall s c, sproper E c s -> sproper E c (told s)).
Proof.
  assert (He : forall es, Forall (fun e => proper E e -> proper E (told_exp e)) es -> all (proper E) es -> all (proper E) (map told_exp es))
    by (intros es H1 H2; eapply all_map; [|exact H1|exact H2]; auto).
  assert (Hs : forall c ss, Forall (fun s => forall c, sproper E c s -> sproper E c (told s)) ss -> all (sproper E c) ss -> all (sproper E c) (map told ss))
    by (intros c ss H1 H2; eapply all_map; [|exact H1|exact H2]; auto).
  assert (Ho : forall o, opt (fun e => proper E e -> proper E (told_exp e)) o -> opt (proper E) o -> opt (proper E) (option_map told_exp o))
    by (intros es H1 H2; eapply opt_map; [|exact H1|exact H2]; auto).
  apply syntax_ind; intros; cbn [proper told_exp fproper told_fn sproper told] in *; conjs;
    repeat match goal with |- _ /\ _ => split end; auto using assignable_told, plain_told, map_some.
  - eapply all_map; [|exact H|exact H0]. cbn. intros [x0 e0] G1 [G2 G3]. cbn in *. auto.
  - match goal with K : Forall _ ms, K' : all _ ms |- _ => eapply all_map; [|exact K|exact K'] end. cbn. intros [x0 o] G1 (G2 & G3 & G4). cbn in *. auto.
  - eapply all_map; [|exact H|exact H1]. cbn. intros [x0 o] G1 (G2 & G3 & G4). cbn in *. split; auto. split; auto.
    intros G. specialize (G4 G). destruct o; [discriminate|congruence].
  - destruct s' as [s'|]; cbn in *; conjs; [split; auto using plain_told|auto].
  - discriminate.
  - destruct ss2 as [l|]; cbn in *; eauto.
  - match goal with K : (length (filter default cs) <= 1)%nat |- _ => revert K end.
    assert (G : length (filter default (map (fun a => (option_map told_exp (fst a), map told (snd a))) cs)) = length (filter default cs)).
    { clear. induction cs as [|[[e|] ss] cs IH]; cbn in *; auto. }
    rewrite G. auto.
  - match goal with K : Forall _ cs, K' : all _ cs |- _ => eapply all_map; [|exact K|exact K'] end. cbn. intros [x0 o] [G1 G1'] [G2 G3]. cbn in *. auto.
  - match goal with K : Forall _ ms, K' : all _ ms |- _ => eapply all_map; [|exact K|exact K'] end. cbn. intros [x0 o] G1 (G2 & G3 & G4). cbn in *. auto.
Qed.
Lemma told_proper c ss : all (sproper E c) ss -> all (sproper E c) (map told ss).
Proof. intros H. eapply all_map with (Q := fun _ => True); [|apply Forall_forall; auto|exact H]. intros s _. apply proper_told_all. Qed.

(** ** Items *)
Lemma full_proper xs : all (fun p => opt (a_prop E) (fst p) /\ a_name E (snd p)) xs -> all (fun p => opt (a_prop E) (fst p) /\ a_name E (snd p)) (map full xs).
Proof.
  intros H. eapply all_map with (Q := fun _ => True); [|apply Forall_forall; auto|exact H]. cbn. intros [[y|] x] _ [H1 H2]; cbn in *; split; auto.
  split; apply H2.
Qed.
Lemma item_told m : mproper E m -> mproper E (told_item m).
Proof.
  destruct proper_told_all as (He & Hf & Hs).
  destruct m as [s|x w|g w|x g w|w|s|e|x f|x sup ms]; cbn [told_item mproper]; auto.
  - intros H. split; [|exact I]. cbn. split; [split; apply H|exact H].
  - destruct g as [x|xs]; cbn [told_group gproper]; auto using full_proper.
  - intros [H1 H2]. destruct g as [y|xs]; cbn [mproper gproper] in *; auto. split; [|apply full_proper; auto]. cbn. split; [split; apply H1|exact H1].
  - intros [H1 H2]. split; auto. destruct s; try contradiction; auto.
  - intros [H1 H2]. auto.
  - intros H. exact (Hs (SClass x sup ms) top_place H).
Qed.
Lemma items_told ms : all (mproper E) ms -> all (mproper E) (map told_item ms).
Proof. intros H. eapply all_map with (Q := fun _ => True); [|apply Forall_forall; auto|exact H]. intros s _. apply item_told. Qed.
Lemma exports_told ex : xproper E ex -> xproper E (told_exports ex).
Proof.
  destruct ex as [xs|]; auto. unfold xproper. cbn. intros H. eapply all_map with (Q := fun _ => True); [|apply Forall_forall; auto|exact H].
  cbn. intros [x [y|]] _ [H1 H2]; cbn in *; auto.
Qed.
End Told.
