(** * PropsModule: printed modules are read back (C62). *)
From Verif Require Import Base Punct Token Ast Scanner Parser.
From Verif Require Import SpecLex SpecJson SpecBare SpecLayout SpecGrammar SpecPrint SpecPrintMod PrintProofs PrintModProofs Witness GramWitness PropsProgram.

(** ** C62 *)
(** A module, with its imports and exports, is printed with the parentheses and braces
    it needs and read back. *)
Theorem C62_module : forall E ds ms ex, ucd_sane E -> ucd_continue E 0x20 = false ->
  all (mproper E) ms -> xproper E ex -> ds <> [] \/ ms <> [] \/ ex <> None ->
  exists t, parse_module E (print_module ds (map mparens ms) ex) = Ok t /\
    bare_node t = Program (module_tree E ds (map mparens ms) ex) "module" nowhere.
Proof.
  intros E ds ms ex H1 H2 H3 H4 H5. destruct (@items_ok E H2 ms H3) as [H6 H7]. apply module_round_trip; auto.
  destruct H5 as [H5|[H5|H5]]; auto. right. left. destruct ms; [contradiction|discriminate].
Qed.
(** Only parentheses, and braces around single statements, were added, *)
Theorem C62_only_parens : forall ms, map bare_item (map mparens ms) = map bare_item ms.
Proof. intros ms. rewrite map_map. apply map_ext. exact item_bare. Qed.
(** and none where they are not needed. *)
Theorem C62_no_parens : forall m, mfits m -> mparens m = m.
Proof. exact item_fits. Qed.
(** Modules that are printed alike have the same tree. *)
Theorem C62_unambiguous : forall E ds ms ex ds' ms' ex', ucd_sane E -> ucd_continue E 0x20 = false ->
  all (mproper E) ms -> all mfits ms -> xproper E ex -> all (mproper E) ms' -> all mfits ms' -> xproper E ex' ->
  print_module ds ms ex = print_module ds' ms' ex' -> module_tree E ds ms ex = module_tree E ds' ms' ex'.
Proof. exact unambiguous_module. Qed.

Definition C62_example : list item :=
  let x := s2l "x" in let y := s2l "y" in let z := s2l "zed" in
  [ MImport x (s2l "a"); MImportGroup (GAll y) (s2l "b"); MImportGroup (GNames []) (s2l "c");
    MImportBoth x (GNames [(None, y); (Some (s2l "default"), z)]) (s2l "d"); MImportBoth x (GAll y) (s2l "e");
    MExportAll (s2l "f"); MExport (SDecl DVar [(x, Some (XNum 1))]); MExport (SFun x (Fn [] [] []));
    MExport (SClass z None [(s2l "m", Fn [] [] [SReturn (Some XThis)])]); MExport (SDecl DConst [(z, Some XNull)]);
    MDefault (XCall (XFun None (Fn [x] [] [])) [XId y]); MDefault (XDot (XClass y None []) z);
    MDefaultFun None (Fn [x] [] [SExp (XId x)]); MDefaultFun (Some y) (Fn [] [] []); MDefaultClass x (Some (XId y)) [] ] ++ map MStm C58_example.
Definition C62_exports : exports := Some [(s2l "x", None); (s2l "y", Some (s2l "default"))].
Example C62_witness : all (mproper E0) C62_example /\ xproper E0 C62_exports /\
  print_module [s2l "use strict"] (firstn 15 (map mparens C62_example)) C62_exports = s2l """use strict"" ; import x from ""a"" ; import * as y from ""b"" ; import { } from ""c"" ; import x , { y , default as zed } from ""d"" ; import x , * as y from ""e"" ; export * from ""f"" ; export var x = 1 ; export function x ( ) { } export class zed { m ( ) { return this ; } } export const zed = null ; export default ( function ( x ) { } ) ( y ) ; export default ( class y { } ) . zed ; export default function ( x ) { x ; } export default function y ( ) { } export default class x extends y { } export { x , y as default } ".
Proof.
  split; [|split; [|vm_compute; reflexivity]].
  - unfold C62_example. assert (W : forall x, forallb letterb x = true -> x <> [] -> writable E0 x) by exact letters_writable.
    assert (K : forall l l', all (mproper E0) l -> all (mproper E0) l' -> all (mproper E0) (l ++ l')).
    { induction l; cbn; intuition auto. }
    apply K.
    + cbn -[s2l In reserved_words ident literal_word writable level update_op unary_op assign_op key_name]. unfold a_name, a_prop.
      repeat split; try (apply W; [vm_compute; reflexivity|discriminate]); try idt; try (vm_compute; intuition discriminate); try discriminate.
    + destruct C58_witness as [H _]. revert H. generalize C58_example. induction l; cbn; intuition auto.
  - assert (W : forall x, forallb letterb x = true -> x <> [] -> writable E0 x) by exact letters_writable.
    cbn -[s2l In reserved_words literal_word writable]. unfold a_prop.
    repeat split; try (apply W; [vm_compute; reflexivity|discriminate]); try (vm_compute; intuition discriminate).
Qed.
Print Assumptions C62_module.
Print Assumptions C62_only_parens.
Print Assumptions C62_no_parens.
Print Assumptions C62_unambiguous.
