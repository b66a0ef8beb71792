(** * SpecPrintMod: modules as abstract syntax, their printed form and the tree they
    denote.  Only definitions; nothing here refers to the parser. *)
From Verif Require Import Base Punct Token Ast.
From Verif Require Import SpecLex SpecJson SpecLayout SpecGrammar SpecPrint.

(** ** Modules *)
Inductive group :=
| GAll (x : str)                                  (* * as x *)
| GNames (xs : list (option str * str)).          (* {x, y as z} *)
Inductive item :=
| MStm (s : stm)                                  (* a statement or a declaration *)
| MImport (x : str) (w : str)                     (* import x from "w"; *)
| MImportGroup (g : group) (w : str)              (* import {x} from "w"; *)
| MImportBoth (x : str) (g : group) (w : str)     (* import x, {y} from "w"; *)
| MExportAll (w : str)                            (* export * from "w"; *)
| MExport (s : stm)                               (* export var x = e; export function x() {...} ... *)
| MDefault (e : exp)                              (* export default e; *)
| MDefaultFun (x : option str) (f : fn)           (* export default function x(...) {...} *)
| MDefaultClass (x : str) (sup : option exp) (ms : list (str * fn)). (* export default class x {...} *)
(** The names exported at the end: export {x, y as z} *)
Definition exports := option (list (str * option str)).

(** What may be exported as a declaration. *)
Definition exportable (s : stm) : Prop :=
  match s with SDecl DVar _ | SDecl DConst _ | SFun _ _ | SClass _ _ _ => True | _ => False end.
Definition gproper (E : env) (g : group) : Prop :=
  match g with
  | GAll x => a_name E x
  | GNames xs => all (fun p => opt (a_prop E) (fst p) /\ a_name E (snd p)) xs
  end.
Definition mproper (E : env) (m : item) : Prop :=
  match m with
  | MStm s => sproper E top_place s
  | MImport x _ => a_name E x
  | MImportGroup g _ => gproper E g
  | MImportBoth x g _ => a_name E x /\ gproper E g
  | MExportAll _ => True
  | MExport s => sproper E top_place s /\ exportable s
  | MDefault e => proper E e
  | MDefaultFun x f => opt (a_name E) x /\ fproper E f
  | MDefaultClass x sup ms => sproper E top_place (SClass x sup ms)
  end.
Definition xproper (E : env) (ex : exports) : Prop :=
  opt (all (fun p => a_prop E (fst p) /\ opt (a_prop E) (snd p))) ex.

(** Parentheses around an exported expression that would be taken for a function or a class. *)
Definition fun_first : exp -> bool :=
  begins (fun e => match e with XFun _ _ | XClass _ _ _ => true | _ => false end).
Definition default_exp (e : exp) : exp := if fun_first e then XPar e else e.
Definition mparens (m : item) : item :=
  match m with
  | MStm s => MStm (sparens s)
  | MExport s => MExport (sparens s)
  | MDefault e => MDefault (default_exp (parens e))
  | MDefaultFun x f => MDefaultFun x (fparens f)
  | MDefaultClass x sup ms =>
      MDefaultClass x (option_map (fun e => at_least 15 (parens e)) sup) (map (fun m => (fst m, fparens (snd m))) ms)
  | MImport _ _ | MImportGroup _ _ | MImportBoth _ _ _ | MExportAll _ => m
  end.
Definition mfits (m : item) : Prop :=
  match m with
  | MStm s | MExport s => sfits s
  | MDefault e => fits e /\ fun_first e = false
  | MDefaultFun _ f => ffits f
  | MDefaultClass x sup ms => sfits (SClass x sup ms)
  | MImport _ _ | MImportGroup _ _ | MImportBoth _ _ _ | MExportAll _ => True
  end.
(** The item without its parentheses, and without braces around single statements. *)
Definition bare_item (m : item) : item :=
  match m with
  | MStm s => MStm (bare_stm s)
  | MExport s => MExport (bare_stm s)
  | MDefault e => MDefault (bare_exp e)
  | MDefaultFun x f => MDefaultFun x (SpecPrint.bare_fn f)
  | MDefaultClass x sup ms =>
      MDefaultClass x (option_map bare_exp sup) (map (fun m => (fst m, SpecPrint.bare_fn (snd m))) ms)
  | MImport _ _ | MImportGroup _ _ | MImportBoth _ _ _ | MExportAll _ => m
  end.

(** ** The printed form *)
Definition gwords (g : group) : list str :=
  match g with
  | GAll x => [s2l "*"; s2l "as"; x]
  | GNames xs => s2l "{" :: commas (map (fun p => maybe (fun y => [y; s2l "as"]) (fst p) ++ [snd p]) xs) ++ [s2l "}"]
  end.
Definition from_words (w : str) : list str := [s2l "from"; quoted 0x22 w; s2l ";"].
Definition mwords (m : item) : list str :=
  match m with
  | MStm s => swords s
  | MImport x w => s2l "import" :: x :: from_words w
  | MImportGroup g w => s2l "import" :: gwords g ++ from_words w
  | MImportBoth x g w => s2l "import" :: x :: s2l "," :: gwords g ++ from_words w
  | MExportAll w => s2l "export" :: s2l "*" :: from_words w
  | MExport s => s2l "export" :: swords s
  | MDefault e => s2l "export" :: s2l "default" :: words e ++ [s2l ";"]
  | MDefaultFun x f => s2l "export" :: s2l "default" :: s2l "function" :: maybe (fun x => [x]) x ++ fwords f
  | MDefaultClass x sup ms => s2l "export" :: s2l "default" :: swords (SClass x sup ms)
  end.
Definition xwords (ex : exports) : list str :=
  maybe (fun xs => s2l "export" :: s2l "{" :: commas (map (fun p => fst p :: maybe (fun y => [s2l "as"; y]) (snd p)) xs) ++ [s2l "}"]) ex.
Definition module_words (ds : list str) (ms : list item) (ex : exports) : list str :=
  flat_map (fun w => [quoted 0x22 w; s2l ";"]) ds ++ flat_map mwords ms ++ xwords ex.
Definition print_module (ds : list str) (ms : list item) (ex : exports) : str := spaced (module_words ds ms ex).

(** ** The tree *)
Section Tree.
Context (E : env).
Notation at_ := nowhere (only parsing).
(** The default import is not told from a named one. *)
Definition gtree (g : group) : list import_spec :=
  match g with
  | GAll x => [ImportNamespace (name_id x)]
  | GNames xs => map (fun p => ImportSpec (name_id (snd p)) (name_id (match fst p with Some y => y | None => snd p end))) xs
  end.
Definition mtree (m : item) : node :=
  match m with
  | MStm s => stree E s
  | MImport x w => ImportDeclaration [ImportSpec (name_id x) (name_id x)] (from_tree w) at_
  | MImportGroup g w => ImportDeclaration (gtree g) (from_tree w) at_
  | MImportBoth x g w => ImportDeclaration (ImportSpec (name_id x) (name_id x) :: gtree g) (from_tree w) at_
  | MExportAll w => ExportAllDeclaration (from_tree w) at_
  | MExport s => ExportNamedDeclaration (Some (stree E s)) [] None at_
  | MDefault e => ExportDefaultDeclaration (tree_of E e) at_
  | MDefaultFun x f => ExportDefaultDeclaration (FunctionDeclaration (option_map name_tree x) (fparams f) (ftree E f) false false false at_) at_
  | MDefaultClass x sup ms => ExportDefaultDeclaration (stree E (SClass x sup ms)) at_
  end.
(** "export {x as y}": the first name is the field [exported]. *)
Definition xtree (ex : exports) : list node :=
  match ex with
  | None => []
  | Some xs => [ExportNamedDeclaration None (map (fun p => mkExport (name_id (fst p)) (name_id (match snd p with Some y => y | None => fst p end))) xs) None at_]
  end.
Definition module_tree (ds : list str) (ms : list item) (ex : exports) : list node :=
  map (directive E) ds ++ map mtree ms ++ xtree ex.
End Tree.
