(** * SpecUcd: what a parse may ask of the Unicode tables (C57).  Only definitions. *)
From Verif Require Import Base Token Ast Parser.
Local Open Scope N_scope.

Definition ascii (c : N) : Prop := c < 128.
Definition ascii_letter (c : N) : Prop := 65 <= c <= 90 \/ 97 <= c <= 122.
Definition ascii_digit (c : N) : Prop := 48 <= c <= 57.
(** The tables are right about ASCII: nothing but letters begins a name, nothing but
    letters, digits and the underscore goes on with one (the code itself knows letters,
    digits, $, _ and \). *)
Definition ascii_right (E : env) : Prop :=
  (forall c, ascii c -> ~ ascii_letter c -> ucd_start E c = false) /\
  (forall c, ascii c -> ~ ascii_letter c -> ~ ascii_digit c -> c <> 95 -> ucd_continue E c = false).
(** The same build with other Unicode tables. *)
Definition same_but_tables (E E' : env) : Prop :=
  f64_show E' = f64_show E /\ checked E' = checked E /\ usize_max E' = usize_max E.
(** Two tables say the same about the characters of a text beyond ASCII. *)
Definition agree_on (E E' : env) (src : str) : Prop :=
  forall c, In c src -> ~ ascii c -> ucd_start E' c = ucd_start E c /\ ucd_continue E' c = ucd_continue E c.
