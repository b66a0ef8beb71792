(** * PropsUnparseMod: source text of modules from the JSON form (C63). *)
From Verif Require Import Base Punct Token Ast Scanner Parser Errors Json.
From Verif Require Import SpecLex SpecJson SpecBare SpecLayout SpecGrammar SpecPrint SpecPrintMod SpecUnparse SpecUnparseMod.
From Verif Require Import PrintProofs PrintModProofs UnparseProofs UnparseModProofs Witness GramWitness PropsProgram PropsModule.

(** ** C63 *)
(** What [parseModule] returns for a printed module is a JSON value from which the text
    of the module is read off, up to what [told_item] says is not told. *)
Theorem C63_module : forall F E ds ms ex, ucd_sane E -> ucd_continue E 0x20 = false ->
  all (mproper E) ms -> xproper E ex -> ds <> [] \/ ms <> [] \/ ex <> None ->
  exists v, wasm_parse_module F E (print_module ds (map mparens ms) ex) = Some v /\
    spaced (unparse v) = print_module ds (map told_item (map mparens ms)) (told_exports ex).
Proof.
  intros F E ds ms ex H1 H2 H3 H4 H5. destruct (@C62_module E ds ms ex H1 H2 H3 H4 H5) as (t & Ht & Hb). exists (j_node t).
  split; [unfold wasm_parse_module; rewrite Ht; reflexivity|]. destruct (@items_ok E H2 ms H3). eapply module_unparsed; eauto.
Qed.
(** So different modules have different forms. *)
Theorem C63_different : forall F E ds ms ex ds' ms' ex', ucd_sane E -> ucd_continue E 0x20 = false ->
  all (mproper E) ms -> xproper E ex -> ds <> [] \/ ms <> [] \/ ex <> None ->
  all (mproper E) ms' -> xproper E ex' -> ds' <> [] \/ ms' <> [] \/ ex' <> None ->
  wasm_parse_module F E (print_module ds (map mparens ms) ex) = wasm_parse_module F E (print_module ds' (map mparens ms') ex') ->
  print_module ds (map told_item (map mparens ms)) (told_exports ex) = print_module ds' (map told_item (map mparens ms')) (told_exports ex').
Proof.
  intros F E ds ms ex ds' ms' ex' H1 H2 H3 H4 H5 H6 H7 H8 H.
  destruct (@C63_module F E ds ms ex H1 H2 H3 H4 H5) as (v & Hv & <-), (@C63_module F E ds' ms' ex' H1 H2 H6 H7 H8) as (v' & Hv' & <-).
  congruence.
Qed.
(** What is not told is not in the tree: a module and the module as told denote the same. *)
Theorem C63_untold : forall E ds ms ex, module_tree E ds (map told_item ms) (told_exports ex) = module_tree E ds ms ex.
Proof.
  intros E ds ms ex. unfold module_tree. rewrite told_exports_tree, map_map. do 2 f_equal. apply map_ext. apply told_item_tree.
Qed.
(** An example of that: the default import is not told from the import of a name. *)
Theorem C63_default_refuted : forall F, exists v,
  wasm_parse_module F E0 (s2l "import x from ""a"";") = Some v /\ wasm_parse_module F E0 (s2l "import {x} from ""a"";") = Some v.
Proof. intros F. eexists. split; vm_compute; reflexivity. Qed.
Example C63_witness : all (mproper E0) C62_example /\ xproper E0 C62_exports /\
  print_module [s2l "use strict"] (map told_item (firstn 15 (map mparens C62_example))) (told_exports C62_exports) = s2l """use strict"" ; import { x as x } from ""a"" ; import * as y from ""b"" ; import { } from ""c"" ; import { x as x , y as y , default as zed } from ""d"" ; import x , * as y from ""e"" ; export * from ""f"" ; export var x = 1 ; export function x ( ) { } export class zed { m ( ) { return this ; } } export const zed = null ; export default ( function ( x ) { } ) ( y ) ; export default ( class y { } ) . zed ; export default function ( x ) { x ; } export default function y ( ) { } export default class x extends y { } export { x as x , y as default } ".
Proof. split; [apply C62_witness|split; [apply C62_witness|vm_compute; reflexivity]]. Qed.
Print Assumptions C63_module.
Print Assumptions C63_different.
Print Assumptions C63_untold.
