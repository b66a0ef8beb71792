(** * SpecBuild: builds of the library (C56).  Only definitions. *)
From Verif Require Import Base Token Ast Parser.

(** The same Unicode tables and the same formatting of numbers; only overflow checks
    and the size of a machine word may differ. *)
Definition same_source (E E' : env) : Prop :=
  ucd_start E' = ucd_start E /\ ucd_continue E' = ucd_continue E /\ f64_show E' = f64_show E.
(** Panics because of an overflow check. *)
Inductive overflow : panic -> Prop :=
| of_eof : overflow P_EofUnderflow
| of_escape : overflow P_EscapeOverflow
| of_pattern : overflow P_PatternUnderflow.
