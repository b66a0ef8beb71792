(** * SpecSize: the number of parts of a tree.  Only definitions; nothing of the
    parser is used. *)
From Verif Require Import Base Punct Token Ast SpecTree.

(** A part, with the pieces of its text if it is a template, and the names it
    imports or exports. *)
Definition own (x : part) : nat :=
  1 + match x with
      | T_Node (TemplateLiteral qs _ _ _) | T_Node (TaggedTemplateExpression _ qs _ _) => length qs
      | T_Node (ImportDeclaration l _ _) => length l
      | T_Node (ExportNamedDeclaration _ l _ _) => length l
      | _ => 0
      end.
(** The number of parts of [x] down to the given depth below it. *)
Fixpoint parts_to (depth : nat) (x : part) : nat :=
  own x + match depth with
          | O => 0
          | S d => list_sum (map (fun c => parts_to d (snd c)) (children x))
          end.
