(** * FindPart: finding an occurrence by computation, for the non-vacuity
    examples and the refutations (definitions and their soundness). *)
From Verif Require Import Base Codepoint Punct Token Scanner Ast ParserBase Parser.
From Verif Require Import SpecLex SpecParse SpecTree Witness.

(** All occurrences down to depth [n]. *)
Fixpoint occurrences (n : nat) (path : list (part * role)) (x : part) : list (list (part * role) * part) :=
  match n with
  | O => []
  | S n' => (path, x) :: flat_map (fun '(r, y) => occurrences n' ((x, r) :: path) y) (children x)
  end.
Lemma occurrences_sound t : forall n path x, occurs t path x -> forall p y, In (p, y) (occurrences n path x) -> occurs t p y.
Proof.
  induction n as [|n IH]; cbn; [intros path x H p y []|]. intros path x H p y [[= <- <-]|Hi]; auto.
  apply in_flat_map in Hi. destruct Hi as ([r z] & Hz & Hi). eapply IH; [|exact Hi]. constructor; auto.
Qed.
(** The tree contains an occurrence satisfying [P]. *)
Definition holds_in (r : outcome) (P : list (part * role) -> part -> bool) : Prop :=
  exists t path x, r = Ok t /\ occurs (T_Node t) path x /\ P path x = true.
Definition found (r : outcome) (P : list (part * role) -> part -> bool) : bool :=
  match r with Ok t => existsb (fun '(p, x) => P p x) (occurrences 60 [] (T_Node t)) | _ => false end.
Lemma found_sound r P : found r P = true -> holds_in r P.
Proof.
  unfold found. destruct r; try discriminate. intros H. apply existsb_exists in H. destruct H as ([p x] & Hi & Hp).
  exists ast, p, x. split; auto. split; auto. eapply occurrences_sound; [constructor|exact Hi].
Qed.
Definition insideb (P : part -> role -> bool) (path : list (part * role)) : bool := existsb (fun '(x, r) => P x r) path.
Lemma insideb_inside P path : insideb P path = true <-> inside P path.
Proof.
  unfold insideb, inside. rewrite existsb_exists. split.
  - intros ([x r] & H & Hp). eauto.
  - intros (x & r & H & Hp). exists (x, r). auto.
Qed.
Lemma insideb_not P path : insideb P path = false -> ~ inside P path.
Proof. intros H Hi. apply insideb_inside in Hi. congruence. Qed.
