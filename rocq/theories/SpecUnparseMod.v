(** * SpecUnparseMod: what the JSON form of a module does not tell.  Only definitions. *)
From Verif Require Import Base Punct Token Ast.
From Verif Require Import SpecLex SpecPrint SpecPrintMod SpecUnparse.

(** "x" in braces is "x as x"; a default import is the import of a name, unless
    everything is imported as well. *)
Definition full (p : option str * str) : option str * str :=
  (Some (match fst p with Some y => y | None => snd p end), snd p).
Definition told_group (g : group) : group :=
  match g with GAll x => GAll x | GNames xs => GNames (map full xs) end.
Definition told_item (m : item) : item :=
  match m with
  | MStm s => MStm (told s)
  | MImport x w => MImportGroup (GNames [(Some x, x)]) w
  | MImportGroup g w => MImportGroup (told_group g) w
  | MImportBoth x (GAll y) w => MImportBoth x (GAll y) w
  | MImportBoth x (GNames xs) w => MImportGroup (GNames ((Some x, x) :: map full xs)) w
  | MExportAll w => MExportAll w
  | MExport s => MExport (told s)
  | MDefault e => MDefault (told_exp e)
  | MDefaultFun x f => MDefaultFun x (told_fn f)
  | MDefaultClass x sup ms => MDefaultClass x (option_map told_exp sup) (map (fun m => (fst m, told_fn (snd m))) ms)
  end.
Definition told_exports (ex : exports) : exports :=
  option_map (map (fun p => (fst p, Some (match snd p with Some y => y | None => fst p end)))) ex.
