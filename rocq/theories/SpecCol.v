(** * SpecCol: columns (C52).  Only definitions. *)
From Verif Require Import Base Punct Token SpecLex.

(** The column after the text [l], which begins in column [c] and is followed by [r]. *)
Fixpoint column (c : N) (l r : str) : N :=
  match l with
  | [] => c
  | x :: l' => column (if line_terminatorb x && negb ((x =? CR) && match l' ++ r with d :: _ => d =? LF | [] => false end) then 1 else c + 1) l' r
  end.
