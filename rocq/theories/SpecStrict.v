(** * SpecStrict: what "strict mode only rejects" means (C47). *)
From Verif Require Import Base Ast SpecTouch.

(** A statement that only a module may contain *)
Definition module_only (x : node) : bool :=
  match x with
  | ImportDeclaration _ _ _ | ExportAllDeclaration _ _ | ExportDefaultDeclaration _ _ | ExportNamedDeclaration _ _ _ _ => true
  | _ => false
  end.
(** The mark of a name that strict code may not assign to becomes the ordinary one. *)
Definition relax (a : att) : att := match a with AStrict => ASimple | _ => a end.
(** Two trees that differ in these marks only *)
Definition same_but_marks (x y : node) : Prop := touch_node (fun s => s) relax x = touch_node (fun s => s) relax y.
