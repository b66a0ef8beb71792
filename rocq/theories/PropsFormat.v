(** * PropsFormat: source text formatted through the JSON form (C64). *)
From Verif Require Import Base Punct Token Ast Scanner Parser Errors Json.
From Verif Require Import SpecLex SpecJson SpecBare SpecLayout SpecGrammar SpecPrint SpecPrintMod SpecUnparse SpecUnparseMod.
From Verif Require Import PrintProofs PrintModProofs UnparseProofs UnparseModProofs FormatProofs Witness GramWitness PropsProgram PropsModule PropsUnparse PropsUnparseMod.

(** ** C64 *)
(** A source (in whatever layout) is parsed, its JSON form is written out as text, and
    the text is parsed: the tree is the same up to positions, and the text is written
    out as itself. *)
Theorem C64_script : forall F E src t ds ss, ucd_sane E -> ucd_continue E 0x20 = false ->
  parse_script E src = Ok t -> bare_node t = Program (map (directive E) ds ++ map (stree E) ss) "script" nowhere ->
  all (sproper E top_place) ss -> all sfits (map told ss) -> ds <> [] \/ ss <> [] ->
  exists t', wasm_parse_script F E (spaced (unparse (j_node t))) = Some (j_node t') /\
    bare_node t' = bare_node t /\ unparse (j_node t') = unparse (j_node t).
Proof.
  intros F E src t ds ss H1 H2 H3 H4 H5 H6 H7. rewrite (@program_unparsed E ds ss _ _ _ H4).
  destruct (@program_round_trip E H1 H2 ds (map told ss) (@told_proper E _ ss H5) H6) as (t' & Ht & Hb); [destruct H7; auto using map_some|].
  exists t'. unfold wasm_parse_script. rewrite Ht. split; [reflexivity|]. rewrite told_trees in Hb. assert (G : bare_node t' = bare_node t) by congruence.
  split; [exact G|]. rewrite unparse_bare, G, <- unparse_bare. reflexivity.
Qed.
Theorem C64_module : forall F E src t ds ms ex, ucd_sane E -> ucd_continue E 0x20 = false ->
  parse_module E src = Ok t -> bare_node t = Program (module_tree E ds ms ex) "module" nowhere ->
  all (mproper E) ms -> all mfits ms -> all mfits (map told_item ms) -> xproper E ex -> ds <> [] \/ ms <> [] \/ ex <> None ->
  exists t', wasm_parse_module F E (spaced (unparse (j_node t))) = Some (j_node t') /\
    bare_node t' = bare_node t /\ unparse (j_node t') = unparse (j_node t).
Proof.
  intros F E src t ds ms ex H1 H2 H3 H4 H5 H6 H7 H8 H9. rewrite (@module_unparsed E H1 ds ms ex t H5 H6 H4).
  destruct (@module_round_trip E H1 H2 ds (map told_item ms) (told_exports ex) (@items_told E ms H5) H7 (@exports_told E ex H8)) as (t' & Ht & Hb).
  { destruct H9 as [H9|[H9|H9]]; auto using map_some. right; right. destruct ex; [discriminate|congruence]. }
  exists t'. unfold wasm_parse_module. rewrite Ht. split; [reflexivity|]. rewrite C63_untold in Hb. assert (G : bare_node t' = bare_node t) by congruence.
  split; [exact G|]. rewrite unparse_bare, G, <- unparse_bare. reflexivity.
Qed.
(** So printed programs and modules come out of it as they are told, and stay so. *)
Theorem C64_printed_script : forall F E ds ss, ucd_sane E -> ucd_continue E 0x20 = false ->
  all (sproper E top_place) ss -> all sfits (map told (map sparens ss)) -> ds <> [] \/ ss <> [] ->
  exists v v', wasm_parse_script F E (print_program ds (map sparens ss)) = Some v /\
    spaced (unparse v) = print_program ds (map told (map sparens ss)) /\
    wasm_parse_script F E (spaced (unparse v)) = Some v' /\ unparse v' = unparse v.
Proof.
  intros F E ds ss H1 H2 H3 H4 H5. destruct (@C58_script E ds ss H1 H2 H3 H5) as (t & Ht & Hb). destruct (stmts_ok E H2 _ ss H3) as [H6 _].
  destruct (@C64_script F E _ t ds (map sparens ss) H1 H2 Ht Hb H6 H4) as (t' & G1 & _ & G2); [destruct H5; auto using map_some|].
  exists (j_node t), (j_node t'). unfold wasm_parse_script at 1. rewrite Ht. repeat split; auto. eapply program_unparsed; eauto.
Qed.
Theorem C64_printed_module : forall F E ds ms ex, ucd_sane E -> ucd_continue E 0x20 = false ->
  all (mproper E) ms -> all mfits (map told_item (map mparens ms)) -> xproper E ex -> ds <> [] \/ ms <> [] \/ ex <> None ->
  exists v v', wasm_parse_module F E (print_module ds (map mparens ms) ex) = Some v /\
    spaced (unparse v) = print_module ds (map told_item (map mparens ms)) (told_exports ex) /\
    wasm_parse_module F E (spaced (unparse v)) = Some v' /\ unparse v' = unparse v.
Proof.
  intros F E ds ms ex H1 H2 H3 H4 H5 H6. destruct (@C62_module E ds ms ex H1 H2 H3 H5 H6) as (t & Ht & Hb). destruct (@items_ok E H2 ms H3) as [H7 H8].
  destruct (@C64_module F E _ t ds (map mparens ms) ex H1 H2 Ht Hb H7 H8 H4 H5) as (t' & G1 & _ & G2); [destruct H6 as [H6|[H6|H6]]; auto using map_some|].
  exists (j_node t), (j_node t'). unfold wasm_parse_module at 1. rewrite Ht. repeat split; auto. eapply module_unparsed; eauto.
Qed.
(** The exception: a statement that begins with [true] or [false] is told as one that begins with a string,
    and at the beginning of a program it is read as a directive, with "in" not allowed. *)
Theorem C64_boolean_refuted : exists t e, parse_script E0 (s2l "true in x;") = Ok t /\
  spaced (unparse (j_node t)) = s2l """true"" in x ; " /\ parse_script E0 (spaced (unparse (j_node t))) = Err e.
Proof. do 2 eexists. split; [vm_compute; reflexivity|]. split; vm_compute; reflexivity. Qed.
(** The hypotheses hold of printed programs without statements that begin with [true] or [false], *)
Example C64_witness_printed : all (sproper E0 top_place) C61_example /\ all sfits (map told (map sparens C61_example)) /\
  all (mproper E0) C62_example /\ all mfits (map told_item (map mparens C62_example)) /\ xproper E0 C62_exports.
Proof.
  split; [apply C61_witness|]. split; [|split; [apply C63_witness|split; [|apply C63_witness]]]; vm_compute; intuition discriminate.
Qed.
(** and of sources in another layout. *)
Definition C64_source : str := s2l "'use strict' // as usual
  x/* a */=[y,true]
  for(const zed of y){if(x)y--;else{f(x)}}
  loop:while(!x)continue loop
  for(let x in y)(function(){return;})(x)".
Definition C64_program : list stm :=
  let x := XId (s2l "x") in let y := XId (s2l "y") in
  [ SExp (XAssign Assign x (XArr [y; XBool true]));
    SForOf DConst (s2l "zed") y (SBlock [SIf x (SExp (XPost y Dec)) (Some (SBlock [SExp (XCall (XId (s2l "f")) [x])]))]);
    SLabel (s2l "loop") (SWhile (XUn (KP Bang) x) (SContinue (Some (s2l "loop"))));
    SForIn DLet (s2l "x") y (SExp (XCall (XPar (XFun None (Fn [] [] [SReturn None]))) [x])) ].
Definition C64_text : str :=
  s2l """use strict"" ; x = [ y , ""true"" ] ; for ( let zed of y ) { if ( x ) y -- ; else { f ( x ) ; } } loop : while ( ! x ) continue loop ; for ( var x in y ) ( function ( ) { return ; } ) ( x ) ; ".
Example C64_witness : exists t, parse_script E0 C64_source = Ok t /\
  bare_node t = Program (map (directive E0) [s2l "use strict"] ++ map (stree E0) C64_program) "script" nowhere /\
  all (sproper E0 top_place) C64_program /\ all sfits (map told C64_program) /\ spaced (unparse (j_node t)) = C64_text.
Proof.
  eexists. split; [vm_compute; reflexivity|]. split; [vm_compute; reflexivity|]. split; [|split; [vm_compute; repeat split; try discriminate; auto|vm_compute; reflexivity]].
  assert (W : forall x, forallb letterb x = true -> x <> [] -> writable E0 x) by exact letters_writable.
  unfold C64_program. cbn -[s2l In reserved_words ident literal_word writable level update_op unary_op assign_op key_name]. unfold a_name, a_prop.
  repeat split; try (apply W; [vm_compute; reflexivity|discriminate]); try idt; try (vm_compute; intuition discriminate); try discriminate.
  all: vm_compute; auto 20.
Qed.
Print Assumptions C64_script.
Print Assumptions C64_module.
Print Assumptions C64_printed_script.
Print Assumptions C64_printed_module.
