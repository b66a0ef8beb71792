(** * Hoare: weakest preconditions for the state monad of Base.v (proof device). *)
From Verif Require Import Base.
Set Implicit Arguments.

#[global] Arguments N.add : simpl never.
#[global] Arguments N.sub : simpl never.
#[global] Arguments N.mul : simpl never.
#[global] Arguments N.eqb : simpl never.
#[global] Arguments N.ltb : simpl never.
#[global] Arguments N.leb : simpl never.

(** What is promised about executions that do not return normally. *)
Record exc := mkExc { xE : error -> Prop; xP : panic -> Prop; xF : Prop }.

Definition wp {S A} (X : exc) (m : M S A) (Q : A -> S -> Prop) (s : S) : Prop :=
  match m s with
  | ROk a s' => Q a s'
  | RErr e => xE X e
  | RPanic p => xP X p
  | RFuel => xF X
  end.

#[global] Arguments wp : simpl never.

Section Rules.
Context {S A B : Type} (X : exc).
Implicit Types (Q : A -> S -> Prop) (s : S).

Lemma wp_ret (a : A) Q s : Q a s -> wp X (ret a) Q s.
Proof. exact (fun H => H). Qed.
Lemma wp_bind (m : M S A) (k : A -> M S B) (Q : B -> S -> Prop) s :
  wp X m (fun a s' => wp X (k a) Q s') s -> wp X (bind m k) Q s.
Proof. unfold wp, bind; destruct (m s); auto. Qed.
Lemma wp_conseq (m : M S A) (P Q : A -> S -> Prop) s :
  wp X m P s -> (forall a s', P a s' -> Q a s') -> wp X m Q s.
Proof. unfold wp; destruct (m s); auto. Qed.
Lemma wp_fail e Q s : xE X e -> wp X (fail e) Q s.
Proof. exact (fun H => H). Qed.
Lemma wp_crash p Q s : xP X p -> wp X (crash p) Q s.
Proof. exact (fun H => H). Qed.
Lemma wp_nofuel Q s : xF X -> wp X nofuel Q s.
Proof. exact (fun H => H). Qed.
Lemma wp_gets (f : S -> A) Q s : Q (f s) s -> wp X (gets f) Q s.
Proof. exact (fun H => H). Qed.
Lemma wp_modify (f : S -> S) (Q : unit -> S -> Prop) s : Q tt (f s) -> wp X (modify f) Q s.
Proof. exact (fun H => H). Qed.
Lemma wp_unwrap p (o : option A) Q s :
  (forall a, o = Some a -> Q a s) -> (o = None -> xP X p) -> wp X (unwrap p o) Q s.
Proof. unfold wp; destruct o; cbn; auto. Qed.
Lemma wp_and (m : M S A) (P Q : A -> S -> Prop) s :
  wp X m P s -> wp X m Q s -> wp X m (fun a s' => P a s' /\ Q a s') s.
Proof. unfold wp; destruct (m s); auto. Qed.
End Rules.

Lemma wp_weaken {S A} (X Y : exc) (m : M S A) (Q : A -> S -> Prop) s :
  wp X m Q s -> (forall e, xE X e -> xE Y e) -> (forall p, xP X p -> xP Y p) -> (xF X -> xF Y) ->
  wp Y m Q s.
Proof. unfold wp; destruct (m s); auto. Qed.

(** Using a triple on an execution known to return. *)
Lemma wp_ok {S A} (X : exc) (m : M S A) (Q : A -> S -> Prop) s a s' :
  wp X m Q s -> m s = ROk a s' -> Q a s'.
Proof. unfold wp; intros H Hm; rewrite Hm in H; exact H. Qed.

(** The exception specification that promises nothing. *)
Definition xAny : exc := mkExc (fun _ => True) (fun _ => True) True.

Ltac splits := repeat match goal with |- _ /\ _ => split end.
