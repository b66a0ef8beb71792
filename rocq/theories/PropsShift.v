(** * PropsShift: white space and comments before a program (C48). *)
From Verif Require Import Base Codepoint Punct Token Scanner Ast Convert ParserBase ParserExpr ParserStmt Parser.
From Verif Require Import SpecLex SpecTouch SpecShift Witness LexProofs ShiftProofs.

(** ** C48 *)
(** White space, line breaks and comments put before an accepted source move the
    positions in the tree and change nothing else. *)
Theorem C48_script : forall E w src t, trivia w src -> parse_script E src = Ok t -> parse_script E (w ++ src) = Ok (moved_by w src t).
Proof. exact script_leading. Qed.
Theorem C48_module : forall E w src t, trivia w src -> parse_module E src = Ok t -> parse_module E (w ++ src) = Ok (moved_by w src t).
Proof. exact module_leading. Qed.
(** Nothing is accepted thanks to them, except (in builds with overflow checks, which
    panic on the empty source) a source without any token. *)
Theorem C48_script_converse : forall E w src t, trivia w src -> (src = [] -> checked E = false) ->
  parse_script E (w ++ src) = Ok t -> exists u, parse_script E src = Ok u /\ t = moved_by w src u.
Proof. exact script_leading_converse. Qed.
Theorem C48_module_converse : forall E w src t, trivia w src -> (src = [] -> checked E = false) ->
  parse_module E (w ++ src) = Ok t -> exists u, parse_module E src = Ok u /\ t = moved_by w src u.
Proof. exact module_leading_converse. Qed.
(** ... which does happen: *)
Theorem C48_empty_refuted : checked E0 = true /\ parse_script E0 [] = Panicked P_EofUnderflow /\ exists t, parse_script E0 ([32] ++ []) = Ok t.
Proof. split; [reflexivity|]. split; [vm_compute; reflexivity|]. eexists. vm_compute. reflexivity. Qed.
Definition c48_trivia : str := s2l " /* x */" ++ [10] ++ s2l "// y" ++ [10].
Example C48_witness : exists t, trivia c48_trivia (s2l "/r/.f(a => `x${a}y`);") /\ parse_script E0 (s2l "/r/.f(a => `x${a}y`);") = Ok t /\
  parse_script E0 (c48_trivia ++ s2l "/r/.f(a => `x${a}y`);") = Ok (moved 2 14 t) /\ moved 2 14 t <> t.
Proof.
  destruct (parse_script E0 (s2l "/r/.f(a => `x${a}y`);")) as [t| | |] eqn:H; vm_compute in H; try discriminate H. injection H as <-.
  eexists. split; [|split; [reflexivity|split; [vm_compute; reflexivity|vm_compute; congruence]]].
  unfold c48_trivia. apply tv_space; [unfold white_space; cbn; tauto|].
  apply (tv_block (s2l " x ") ([10] ++ s2l "// y" ++ [10])); [reflexivity|].
  apply tv_line; [unfold line_terminator, LF; auto|].
  apply (tv_comment (s2l " y") [10]).
  - repeat constructor; unfold line_terminator, LF, CR; cbn; intros [|[|[|]]]; discriminate.
  - cbn. unfold line_terminator, LF; auto.
  - apply tv_line; [unfold line_terminator, LF; auto|]. constructor.
Qed.

(** ** C54 *)
(** Put before a rejected source they move the place of the error and change neither
    its kind nor its column. *)
Theorem C54_script : forall E w src e, trivia w src -> parse_script E src = Err e -> parse_script E (w ++ src) = Err (moved_error (breaks w src) e).
Proof. exact script_leading_err. Qed.
Theorem C54_module : forall E w src e, trivia w src -> parse_module E src = Err e -> parse_module E (w ++ src) = Err (moved_error (breaks w src) e).
Proof. exact module_leading_err. Qed.
(** Nothing is rejected because of them ... *)
Theorem C54_script_converse : forall E w src e, trivia w src -> (src = [] -> checked E = false) ->
  parse_script E (w ++ src) = Err e -> exists d, parse_script E src = Err d /\ e = moved_error (breaks w src) d.
Proof. exact script_leading_err_converse. Qed.
Theorem C54_module_converse : forall E w src e, trivia w src -> (src = [] -> checked E = false) ->
  parse_module E (w ++ src) = Err e -> exists d, parse_module E src = Err d /\ e = moved_error (breaks w src) d.
Proof. exact module_leading_err_converse. Qed.
(** ... and a panic stays a panic. *)
Theorem C54_script_panic : forall E w src p, trivia w src -> (src = [] -> checked E = false) -> parse_script E src = Panicked p -> exists q, parse_script E (w ++ src) = Panicked q.
Proof. exact script_leading_panic. Qed.
Theorem C54_module_panic : forall E w src p, trivia w src -> (src = [] -> checked E = false) -> parse_module E src = Panicked p -> exists q, parse_module E (w ++ src) = Panicked q.
Proof. exact module_leading_panic. Qed.
Example C54_witness : trivia [32; 10] (s2l "f(a" ++ [10] ++ s2l "b)") /\ exists k,
  parse_script E0 (s2l "f(a" ++ [10] ++ s2l "b)") = Err (mkError 2 2 k) /\
  parse_script E0 ([32; 10] ++ s2l "f(a" ++ [10] ++ s2l "b)") = Err (mkError 3 2 k).
Proof.
  split; [apply tv_space; [unfold white_space; cbn; tauto|apply tv_line; [unfold line_terminator, LF; auto|constructor]]|].
  eexists. split; vm_compute; reflexivity.
Qed.
Example C54_witness_panic : trivia [32] (s2l "async (x) => x") /\ (exists p, parse_script E0 (s2l "async (x) => x") = Panicked p).
Proof. split; [apply tv_space; [unfold white_space; cbn; tauto|constructor]|]. eexists. vm_compute. reflexivity. Qed.
Print Assumptions C48_script.
Print Assumptions C48_module.
Print Assumptions C48_script_converse.
Print Assumptions C48_module_converse.
Print Assumptions C54_script.
Print Assumptions C54_module.
Print Assumptions C54_script_converse.
Print Assumptions C54_module_converse.
Print Assumptions C54_script_panic.
Print Assumptions C54_module_panic.
