(** * PropsProgram: printed programs are read back (C58). *)
From Verif Require Import Base Punct Token Ast Scanner Parser.
From Verif Require Import SpecLex SpecJson SpecBare SpecLayout SpecGrammar SpecPrint PrintProofs Witness GramWitness.

(** ** C58 *)
(** A program is printed, with the parentheses and braces it needs, and read back. *)
Theorem C58_script : forall E ds ss, ucd_sane E -> ucd_continue E 0x20 = false -> all (sproper E top_place) ss -> ds <> [] \/ ss <> [] ->
  exists t, parse_script E (print_program ds (map sparens ss)) = Ok t /\
    bare_node t = Program (map (directive E) ds ++ map (stree E) (map sparens ss)) "script" nowhere.
Proof.
  intros E ds ss H1 H2 H3 H4. destruct (stmts_ok E H2 _ ss H3) as [H5 H6]. apply program_round_trip; auto.
  destruct H4; auto. destruct ss; [contradiction|right; discriminate].
Qed.
Theorem C58_module : forall E ds ss, ucd_sane E -> ucd_continue E 0x20 = false -> all (sproper E top_place) ss -> ds <> [] \/ ss <> [] ->
  exists t, parse_module E (print_program ds (map sparens ss)) = Ok t /\
    bare_node t = Program (map (directive E) ds ++ map (stree E) (map sparens ss)) "module" nowhere.
Proof.
  intros E ds ss H1 H2 H3 H4. destruct (stmts_ok E H2 _ ss H3) as [H5 H6]. apply program_round_trip_module; auto.
  destruct H4; auto. destruct ss; [contradiction|right; discriminate].
Qed.
(** Only parentheses, and braces around single statements, were added, *)
Theorem C58_only_parens : forall ss, map bare_stm (map sparens ss) = map bare_stm ss.
Proof. intros ss. apply map_comp. induction ss; constructor; auto. apply bare_all. Qed.
(** and none where they are not needed. *)
Theorem C58_no_parens : forall s, sfits s -> sparens s = s.
Proof. apply fits_all. Qed.
(** Programs that are printed alike have the same tree. *)
Theorem C58_unambiguous : forall E ds ss ds' ss', ucd_sane E -> ucd_continue E 0x20 = false ->
  all (sproper E top_place) ss -> all sfits ss -> all (sproper E top_place) ss' -> all sfits ss' ->
  print_program ds ss = print_program ds' ss' ->
  map (directive E) ds ++ map (stree E) ss = map (directive E) ds' ++ map (stree E) ss'.
Proof. exact unambiguous. Qed.

Definition C58_example : list stm :=
  let x := s2l "x" in let y := s2l "y" in let z := s2l "zed" in
  let X := XId x in let Y := XId y in
  [ SDecl DVar [(x, None); (y, Some (XObj [(s2l "new", XNum 1); (z, XFun None (Fn [y] [] [SReturn (Some Y)]))]))];
    SExp (XObj []);
    SExp (XStr (s2l "not a directive"));
    SIf X (SIf Y SEmpty None) (Some (SBlock [SDecl DLet [(x, Some (XPost X Inc))]; SExp (XAssign Assign X (XNew (XCall X []) [Y]))]));
    SFun z (Fn [x; y] [s2l "use strict"] [SIf X (SReturn None) None; SThrow (XSeq X [Y])]);
    SFor (Some (XBin (KW "in") X Y)) None (Some (XPre Dec Y)) (SWhile X (SSwitch X [(Some Y, [SBreak None]); (None, []); (Some X, [SContinue None; SDebugger])]));
    SForDecl DConst z (Some (XNum 3)) (Some X) None (SDo (SLabel x (SBreak (Some x))) Y);
    SForIn DVar x Y (SForOf DLet y X SEmpty);
    STry [SExp X] (Some y) [SExp Y] (Some []);
    STry [] None [] None; STryFinally [] [SExp Y];
    SClass z (Some (XBin (KP LogicalOr) X Y)) [(s2l "constructor", Fn [x] [] []); (s2l "delete", Fn [] [] [SReturn (Some (XArrow [x; y] (XObj [])))])];
    SExp (XCall (XLam [x] [s2l "use strict"] [SIf X (SReturn None) None]) [XLam [] [] []]);
    SExp (XDot (XClass y (Some (XClass y None [])) [(x, Fn [] [] [SDebugger])]) z) ].
Example C58_witness : all (sproper E0 top_place) C58_example /\
  print_program [s2l "hello"] (map sparens C58_example) =
  s2l """hello"" ; var x , y = { new : 1 , zed : function ( y ) { return y ; } } ; ( { } ) ; ( ""not a directive"" ) ; if ( x ) { if ( y ) ; } else { let x = x ++ ; x = new ( x ( ) ) ( y ) ; } function zed ( x , y ) { ""use strict"" ; if ( x ) return ; throw ( x , y ) ; } for ( ( x in y ) ; ; -- y ) while ( x ) switch ( x ) { case y : break ; default : case x : continue ; debugger ; } for ( const zed = 3 ; x ; ) do x : break x ; while ( y ) ; for ( var x in y ) for ( let y of x ) ; try { x ; } catch ( y ) { y ; } finally { } try { } catch { } try { } finally { y ; } class zed extends ( x || y ) { constructor ( x ) { } delete ( ) { return ( x , y ) => ( { } ) ; } } ( ( x ) => { ""use strict"" ; if ( x ) return ; } ) ( ( ) => { } ) ; ( class y extends ( class y { } ) { x ( ) { debugger ; } } ) . zed ; ".
Proof.
  split; [|vm_compute; reflexivity].
  assert (W : forall x, forallb letterb x = true -> x <> [] -> writable E0 x) by exact letters_writable.
  unfold C58_example. cbn -[s2l In reserved_words ident literal_word writable level update_op unary_op assign_op key_name]. unfold a_name, a_prop.
  repeat split; try (apply W; [vm_compute; reflexivity|discriminate]); try idt; try (vm_compute; intuition discriminate); try discriminate.
  all: vm_compute; auto 20.
Qed.
Print Assumptions C58_script.
Print Assumptions C58_module.
Print Assumptions C58_only_parens.
Print Assumptions C58_no_parens.
Print Assumptions C58_unambiguous.
