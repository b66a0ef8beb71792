(** * Witness: a concrete environment for the non-vacuity examples and the
    refutations.  Only definitions. *)
From Verif Require Import Base Codepoint Punct Token Scanner SpecLex SpecScan.

(** An environment whose Unicode tables know no character outside ASCII, with
    overflow checks and 64-bit usize. *)
Definition E0 : env := mkEnv (fun _ => false) (fun _ => false) (fun _ => s2l "num") true 18446744073709551615.
(** The same without overflow checks (release build). *)
Definition E1 : env := mkEnv (fun _ => false) (fun _ => false) (fun _ => s2l "num") false 18446744073709551615.

(** The tokens of a text, all requested with one goal. *)
Definition tokens (g : lexgoal) (n : nat) (src : string) : res sst (list token) :=
  s_nexts E0 (repeat g n) (s_new (s2l src)).
Definition kinds (r : res sst (list token)) : list (tokentype * value) :=
  match r with ROk ts _ => map (fun t => (ttype t, tval t)) ts | _ => [] end.

Lemma E0_sane : ucd_sane E0.
Proof. constructor; cbn; discriminate. Qed.
