(** * PropsSpell: the tree is a reading of the source (C44), and where its parts are (C53). *)
From Verif Require Import Base Codepoint Punct Token Scanner Ast ParserBase Parser.
From Verif Require Import SpecLex SpecTree SpecSpell Witness SpellTop.

(** ** C44 *)
Theorem C44_script : forall E src t, parse_script E src = Ok t -> reads_as E src t.
Proof. exact script_reads. Qed.
Theorem C44_module : forall E src t, parse_module E src = Ok t -> reads_as E src t.
Proof. exact module_reads. Qed.
(** Not every tree is a reading of a given source. *)
Example C44_not_empty : forall ty sp, ~ reads_as E0 (s2l "a;") (Program [] ty sp).
Proof. exact not_empty. Qed.
Example C44_not_swapped : forall a1 a2 a3 s1 s2 s3 s4 ty sp, ~ reads_as E0 (s2l "x-y") (Program [ExpressionStatement
  (BinaryExpression (s2l "-") (Identifier (s2l "y") a1 s1) (Identifier (s2l "x") a2 s2) a3 s3) s4] ty sp).
Proof. exact not_swapped. Qed.
Definition accepted (r : outcome) : bool := match r with Ok _ => true | _ => false end.
Example C44_witness_script : accepted (parse_script E0 (s2l
  "'use strict'; for (let [a, {b: c = 1}] of [d,, ...e]) if (x) { y: while (!z++) continue y } else throw new f(g.h`i${j}k`, (l, m) => ({get n() { return /o/g }, p, ['q']: r}))")) = true.
Proof. vm_compute. reflexivity. Qed.
Example C44_witness_module : accepted (parse_module E0 (s2l
  "import a, {b as c} from 'd'; export {e as f}; export default class A extends g { *h(i = 1, ...j) { yield* k } }")) = true.
Proof. vm_compute. reflexivity. Qed.
Print Assumptions C44_script.
Print Assumptions C44_module.

(** ** C53 *)
(** Names, literals and the other simple parts have exactly the spans of their tokens. *)
Theorem C53_script : forall E src t, parse_script E src = Ok t -> reads_at E src t.
Proof. exact script_reads_at. Qed.
Theorem C53_module : forall E src t, parse_module E src = Ok t -> reads_at E src t.
Proof. exact module_reads_at. Qed.
(** A name is not located elsewhere. *)
Example C53_not_elsewhere : forall n a sp s1 ty s2, mk_idx (sp_start sp) <> 0 ->
  ~ reads_at E0 (s2l "a;") (Program [ExpressionStatement (Identifier n a sp) s1] ty s2).
Proof. exact not_elsewhere. Qed.
Definition place_of (r : outcome) : option (N * N) :=
  match r with
  | Ok (Program [LabeledStatement l (ExpressionStatement (Identifier _ _ sp) _) _] _ _) => Some (mk_idx (sp_start (id_span l)), mk_idx (sp_start sp))
  | Ok (Program [IfStatement (Identifier _ _ sp1) _ _ sp2] _ _) => Some (mk_idx (sp_start sp1), mk_idx (sp_start sp2))
  | _ => None
  end.
Example C53_witness : place_of (parse_script E0 (s2l " here : b")) = Some (1, 8).
Proof. vm_compute. reflexivity. Qed.
Example C53_witness_module : accepted (parse_module E0 (s2l
  "import a, {b as c} from 'd'; export {e as f}; x: for (;;) { if (this.y) break x; continue }")) = true.
Proof. vm_compute. reflexivity. Qed.
(** Statements and expressions with parts are not located so (a defect): this if
    statement "begins" at [bcd]. *)
Example C53_compound : place_of (parse_script E0 (s2l "if (a) bcd;")) = Some (4, 7).
Proof. vm_compute. reflexivity. Qed.
Print Assumptions C53_script.
Print Assumptions C53_module.
