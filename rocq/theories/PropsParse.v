(** * PropsParse: termination, consumption, panics, context, semicolons
    (C14, C15, C16, C26, C27, C28). *)
From Verif Require Import Base Codepoint Punct Token Scanner Ast Convert ParserBase ParserExpr ParserStmt Parser.
From Verif Require Import SpecLex SpecScan SpecParse Witness ParseProofs.

(** ** C14: recursion depth and loop iterations never exceed length + 2, and a
    larger bound changes nothing. *)
Theorem C14_script_terminates : forall E src n, (length src + 2 <= n)%nat ->
  parse_within script n E src = parse_script E src /\ parse_script E src <> OutOfFuel.
Proof. exact within_script. Qed.
Theorem C14_module_terminates : forall E src n, (length src + 2 <= n)%nat ->
  parse_within module_ n E src = parse_module E src /\ parse_module E src <> OutOfFuel.
Proof. exact within_module. Qed.
Example C14_witness : parse_within script 3 E0 (s2l "((((1))))") = OutOfFuel.
Proof. vm_compute. reflexivity. Qed.

(** ** C15 *)
Theorem C15_script_reads_everything : forall E src ast, parse_script E src = Ok ast ->
  exists s, final script E src ast s /\ all_read s.
Proof. exact script_all_read. Qed.
Theorem C15_module_reads_everything : forall E src ast, parse_module E src = Ok ast ->
  exists s, final module_ E src ast s /\ all_read s.
Proof. exact module_all_read. Qed.
Example C15_witness : exists body sp, parse_script E0 (s2l "a(1); b /* c */ + d") = Ok (Program body "script" sp) /\ length body = 2%nat.
Proof. eexists. eexists. split; [vm_compute; reflexivity|reflexivity]. Qed.
Example C15_witness_rejected : exists e, parse_script E0 (s2l "a(1); b }") = Err e.
Proof. eexists. vm_compute. reflexivity. Qed.

(** ** C16 *)
Theorem C16_script_root : forall E src ast, parse_script E src = Ok ast -> exists body sp, ast = Program body "script" sp.
Proof. exact script_program. Qed.
Theorem C16_module_root : forall E src ast, parse_module E src = Ok ast -> exists body sp, ast = Program body "module" sp.
Proof. exact module_program. Qed.
Example C16_witness : exists body sp, parse_module E0 (s2l "export default 1; import {a} from 'b'") = Ok (Program body "module" sp) /\ length body = 2%nat.
Proof. eexists. eexists. split; [vm_compute; reflexivity|reflexivity]. Qed.

(** ** C26 *)
Theorem C26_expressions_keep_context : forall E n k, let h := run E k in
  preserves (parse_primary_expr E n h) /\ preserves (parse_left_hand_side_expr E n h) /\ preserves (parse_update_expr E n h) /\
  preserves (parse_unary_expr E n h) /\ preserves (parse_exponentiation_expr E n h) /\ preserves (parse_binary_expr E n h) /\
  preserves (parse_conditional_expr E n h) /\ preserves (parse_assignment_expr E n h) /\ preserves (parse_expression E n h) /\
  (forall b, preserves (parse_function_expr E n h b)) /\ preserves (parse_class_expr E n h) /\ preserves (parse_arrow_body E n h) /\
  preserves (parse_object_lit_expr E n h) /\ preserves (parse_binding_id_or_pat E n h) /\ preserves (parse_formal_params E n h) /\
  preserves (parse_function_body E n h).
Proof. exact expressions_preserve. Qed.
Theorem C26_statements_keep_context : forall E n k, let h := run E k in
  preserves (parse_statement E n h) /\ preserves (parse_stmt_list_item E n h) /\ preserves (parse_block_stmt E n h) /\
  preserves (parse_if_stmt E n h) /\ preserves (parse_for_stmt E n h) /\ preserves (parse_while_stmt E n h) /\
  preserves (parse_do_while_stmt E n h) /\ preserves (parse_switch_stmt E n h) /\ preserves (parse_with_stmt E n h) /\
  preserves (parse_try_stmt E n h) /\ (forall a g, preserves (parse_function_dclr E n h a g)) /\ preserves (parse_class_dclr E n h) /\
  (forall b, preserves (parse_variable_stmt E n h b)) /\ preserves (parse_lexical_dclr E n h) /\ preserves (parse_module_item E n h).
Proof. exact statements_preserve. Qed.
(** The contexts do change in between: the same text is accepted after, and
    rejected inside, a strict function / a loop / a function. *)
Definition accepted (r : outcome) : bool := match r with Ok _ => true | _ => false end.
Example C26_witness : map (fun x => accepted (parse_script E0 (s2l x)))
  ["function f(){'use strict'; a} with(a){}"; "function f(){'use strict'; with(a){}}";
   "while(a) b; c"; "while(a) break"; "while(a) b; break"; "function f(){return;} a"; "function f(){} return"]%string
  = [true; false; true; true; false; true; false].
Proof. vm_compute. reflexivity. Qed.

(** ** C27 *)
Theorem C27_semicolon_insertion : forall E g s,
  (at_semicolon s -> consume_semicolon E g s = bind (advance E g) (fun _ => ret tt) s) /\
  (~ at_semicolon s -> terminator s -> consume_semicolon E g s = ROk tt s) /\
  (~ terminator s -> forall s', consume_semicolon E g s <> ROk tt s').
Proof. exact semicolon_exact. Qed.
(** Advancing replaces the current token by the next one of the scanner; the
    line flag compares the two tokens' lines. *)
Theorem C27_advance : forall E g s t s', advance E g s = ROk t s' ->
  t = cur s /\ s_next E g (scn s) = ROk (cur s') (scn s') /\ has_lt s' = (tline (cur s) <? tline (cur s')).
Proof. exact advance_effect. Qed.
Example C27_witness : map (fun x => accepted (parse_script E0 x))
  [s2l "a b"; s2l "a; b"; s2l "a" ++ [10] ++ s2l "b"; s2l "{a}"; s2l "a"; s2l "throw" ++ [10] ++ s2l "b"]
  = [false; true; true; true; true; false].
Proof. vm_compute. reflexivity. Qed.

(** ** C28 *)
Theorem C28_script_panics : forall E src p, parse_script E src = Panicked p -> live_panic E p.
Proof. exact script_panics. Qed.
Theorem C28_module_panics : forall E src p, parse_module E src = Panicked p -> live_panic E p.
Proof. exact module_panics. Qed.
(** Every panic of the list does occur, so the list cannot be shortened. *)
Example C28_witness :
  map (fun x => parse_script E0 (s2l x))
    ["@"; ""; "`b"; "a;'\u{fffffffff}'"; "async(x)"; "'use strict'; function 5"; "let {[a]} = b"; "([]) => x";
     "[class A{}] = b"; "class A extends new B {}"]%string
  = map Panicked [P_FirstToken; P_EofUnderflow; P_UnterminatedTemplate; P_EscapeOverflow; P_AsyncBacktick; P_ToStr;
                  P_ValueToKey; P_PatternUnderflow; P_ExprSpan; P_Marker]
  /\ parse_module E0 (s2l "import 'm'") = Panicked P_ImportString.
Proof. vm_compute. auto. Qed.

Print Assumptions C14_script_terminates.
Print Assumptions C14_module_terminates.
Print Assumptions C15_script_reads_everything.
Print Assumptions C15_module_reads_everything.
Print Assumptions C16_script_root.
Print Assumptions C16_module_root.
Print Assumptions C26_expressions_keep_context.
Print Assumptions C26_statements_keep_context.
Print Assumptions C27_semicolon_insertion.
Print Assumptions C27_advance.
Print Assumptions C28_script_panics.
Print Assumptions C28_module_panics.
