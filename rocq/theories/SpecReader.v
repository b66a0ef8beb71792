(** * SpecReader: what a history of reader operations should answer. *)
From Verif Require Import Base Reader.

(** How many [next] calls a history contains. *)
Fixpoint nexts (ops : list r_op) : nat :=
  match ops with [] => O | Next :: ops' => S (nexts ops') | Look _ :: ops' => nexts ops' end.

(** The answer the operation [o] should get after the operations [past]. *)
Definition expected (src : str) (past : list r_op) (o : r_op) : option N :=
  match o with
  | Next => nth_error src (nexts past)
  | Look n => nth_error src (nexts past + n)
  end.

(** The characters handed out by the [next] calls of a history, in order. *)
Fixpoint handed (ops : list r_op) (answers : list (option N)) : str :=
  match ops, answers with
  | Next :: ops', Some c :: as' => c :: handed ops' as'
  | _ :: ops', _ :: as' => handed ops' as'
  | _, _ => []
  end.
