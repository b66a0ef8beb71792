(** * PropsSize: trees are not larger than their sources (C59). *)
From Verif Require Import Base Punct Token Ast Scanner Parser.
From Verif Require Import SpecParse SpecTree SpecSize SizeProofs Witness.
From Coq Require Import Lia.
Local Open Scope nat_scope.

(** ** C59 *)
(** A tree has at most three parts per character of the source, and one more,
    down to whatever depth they are counted, *)
Theorem C59_size : forall E src t depth, tree_of E src t -> parts_to depth (T_Node t) <= 3 * length src + 1.
Proof. intros E src t d H. exact (size_bound d H). Qed.
(** no part of it lies deeper than that, *)
Theorem C59_depth : forall E src t path x, tree_of E src t -> occurs (T_Node t) path x -> length path <= 3 * length src.
Proof. intros E src t path x H O. exact (depth_bound H O). Qed.
(** so that all its parts are counted. *)
Theorem C59_all : forall E src t more, tree_of E src t ->
  parts_to (3 * length src + more) (T_Node t) = parts_to (3 * length src) (T_Node t).
Proof. intros E src t k H. apply parts_all. intros path y O. exact (depth_bound H O). Qed.

(** Ten parts from ten characters, the deepest at depth 5 (so counting to
    depth 4 misses some); one part from no characters. *)
Example C59_witness : exists t, tree_of E0 (s2l "({a,b});c;") t /\
  map (fun d => parts_to d (T_Node t)) [0; 1; 2; 3; 4; 5; 6; 30] = [1; 3; 5; 6; 8; 10; 10; 10].
Proof. eexists. split; [left; vm_compute; reflexivity|vm_compute; reflexivity]. Qed.
Example C59_witness_empty : exists t, tree_of E1 [] t /\ parts_to 0 (T_Node t) = 1.
Proof. eexists. split; [left; vm_compute; reflexivity|vm_compute; reflexivity]. Qed.
Print Assumptions C59_size.
Print Assumptions C59_depth.
Print Assumptions C59_all.
