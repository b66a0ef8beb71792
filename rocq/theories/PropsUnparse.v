(** * PropsUnparse: source text from the JSON form (C61). *)
From Verif Require Import Base Punct Token Ast Scanner Parser Errors Json.
From Verif Require Import SpecLex SpecJson SpecBare SpecLayout SpecGrammar SpecPrint SpecUnparse PrintProofs UnparseProofs Witness GramWitness PropsProgram.

(** ** C61 *)
(** What the WebAssembly entry points return for a printed program is a JSON value from
    which the text of the program is read off, up to what [told] says is not told. *)
Theorem C61_script : forall F E ds ss, ucd_sane E -> ucd_continue E 0x20 = false -> all (sproper E top_place) ss -> ds <> [] \/ ss <> [] ->
  exists v, wasm_parse_script F E (print_program ds (map sparens ss)) = Some v /\
    spaced (unparse v) = print_program ds (map told (map sparens ss)).
Proof.
  intros F E ds ss H1 H2 H3 H4. destruct (@C58_script E ds ss H1 H2 H3 H4) as (t & Ht & Hb). exists (j_node t).
  split; [unfold wasm_parse_script; rewrite Ht; reflexivity|]. eapply program_unparsed; eauto.
Qed.
Theorem C61_module : forall F E ds ss, ucd_sane E -> ucd_continue E 0x20 = false -> all (sproper E top_place) ss -> ds <> [] \/ ss <> [] ->
  exists v, wasm_parse_module F E (print_program ds (map sparens ss)) = Some v /\
    spaced (unparse v) = print_program ds (map told (map sparens ss)).
Proof.
  intros F E ds ss H1 H2 H3 H4. destruct (@C58_module E ds ss H1 H2 H3 H4) as (t & Ht & Hb). exists (j_node t).
  split; [unfold wasm_parse_module; rewrite Ht; reflexivity|]. eapply program_unparsed; eauto.
Qed.
(** So different programs have different forms. *)
Theorem C61_different : forall F E ds ss ds' ss', ucd_sane E -> ucd_continue E 0x20 = false ->
  all (sproper E top_place) ss -> ds <> [] \/ ss <> [] -> all (sproper E top_place) ss' -> ds' <> [] \/ ss' <> [] ->
  wasm_parse_script F E (print_program ds (map sparens ss)) = wasm_parse_script F E (print_program ds' (map sparens ss')) ->
  print_program ds (map told (map sparens ss)) = print_program ds' (map told (map sparens ss')).
Proof.
  intros F E ds ss ds' ss' H1 H2 H3 H4 H5 H6 H. destruct (@C61_script F E ds ss H1 H2 H3 H4) as (v & Hv & <-), (@C61_script F E ds' ss' H1 H2 H5 H6) as (v' & Hv' & <-).
  congruence.
Qed.
(** What is not told is not in the tree: a program and the program as told denote the same. *)
Theorem C61_untold : forall E ss, map (stree E) (map told ss) = map (stree E) ss.
Proof. exact told_trees. Qed.
(** Examples of that: these sources have equal forms. *)
Theorem C61_boolean_refuted : forall F, exists v, wasm_parse_script F E0 (s2l "x = true;") = Some v /\ wasm_parse_script F E0 (s2l "x = ""true"";") = Some v.
Proof. intros F. eexists. split; vm_compute; reflexivity. Qed.
Theorem C61_for_refuted : forall F, exists v, wasm_parse_script F E0 (s2l "for (const x in y) ;") = Some v /\ wasm_parse_script F E0 (s2l "for (var x in y) ;") = Some v.
Proof. intros F. eexists. split; vm_compute; reflexivity. Qed.

Definition C61_example : list stm :=
  SForIn DConst (s2l "x") (XCond (XId (s2l "y")) (XBool true) XNull) SEmpty :: C58_example.
Example C61_witness : all (sproper E0 top_place) C61_example /\
  map told (map sparens C61_example) = SForIn DVar (s2l "x") (XCond (XId (s2l "y")) (XStr (s2l "true")) XNull) SEmpty :: map sparens C58_example.
Proof.
  split; [|vm_compute; reflexivity]. unfold C61_example. cbn [all fold_right]. split; [|apply C58_witness].
  assert (W : forall x, forallb letterb x = true -> x <> [] -> writable E0 x) by exact letters_writable.
  cbn [sproper proper]. unfold a_name. repeat split; try (apply W; [vm_compute; reflexivity|discriminate]); try idt; try (vm_compute; intuition discriminate).
Qed.
Print Assumptions C61_script.
Print Assumptions C61_module.
Print Assumptions C61_different.
Print Assumptions C61_untold.
