(** * SimTop: scripts and modules run in lock step (proofs). *)
From Verif Require Import Base Codepoint Punct Token Scanner Ast Convert ParserBase ParserExpr ParserStmt Parser Rel SimBase SimTac SimConv SimExpr SimStmt.
Set Implicit Arguments.

Section Top.
Context (E : env) (sl : bool) (RM : marker -> marker -> Prop) (n : nat) (h : handler).
Hypothesis RM_line : line_rel RM.
Hypothesis Hh : sim_h E sl RM h.
Let H0 I g := @sim_advance E sl RM RM_line I g.
Let H0' I := @sim_look E sl RM I.
Let H1 := sh_bindpat Hh. Let H2 := sh_lhs Hh. Let H3 := sh_new Hh. Let H4 := sh_unary Hh. Let H5 := sh_exp Hh.
Let H5' := sh_climb Hh. Let H6 := sh_assign Hh. Let H7 := sh_expression Hh. Let H8 := sh_statement Hh. Let H9 := sh_item Hh.
#[local] Hint Resolve H0 H0' H1 H2 H3 H4 H5 H5' H6 H7 H8 H9 : sim.

Lemma s_import_binding : forall (I : Type), sim E sl RM (r_id (RS RM)) (import_binding E) (fun i : I => import_binding E).
Proof. intros. unfold import_binding. sims. Qed.
#[local] Hint Resolve s_import_binding : sim.
Lemma s_namespace_import_specifiers : forall (I : Type), sim E sl RM (Forall2 (r_import (RS RM))) (namespace_import_specifiers E) (fun i : I => namespace_import_specifiers E).
Proof. intros. unfold namespace_import_specifiers. sims. Qed.
#[local] Hint Resolve s_namespace_import_specifiers : sim.
Lemma s_named_import_specifier : forall (I : Type), sim E sl RM (r_import (RS RM)) (named_import_specifier E) (fun i : I => named_import_specifier E).
Proof. intros. unfold named_import_specifier. sims. Qed.
#[local] Hint Resolve s_named_import_specifier : sim.
Lemma s_named_import_specifiers : forall (I : Type), sim E sl RM (Forall2 (r_import (RS RM))) (named_import_specifiers E n) (fun i : I => named_import_specifiers E n).
Proof. intros. unfold named_import_specifiers. sims. Qed.
#[local] Hint Resolve s_named_import_specifiers : sim.
Lemma s_parse_module_specifier : forall (I : Type), sim E sl RM (r_lit (RS RM)) (parse_module_specifier E) (fun i : I => parse_module_specifier E).
Proof. intros. unfold parse_module_specifier. sims. Qed.
#[local] Hint Resolve s_parse_module_specifier : sim.
Lemma s_parse_import_from_dclr : forall (I : Type) x1 (x1' : I -> list import_spec), (forall i, Forall2 (r_import (RS RM)) x1 (x1' i)) -> sim E sl RM (r_node (RS RM) (RA sl)) (parse_import_from_dclr E x1) (fun i : I => parse_import_from_dclr E (x1' i)).
Proof. intros. unfold parse_import_from_dclr. sims. Qed.
#[local] Hint Resolve s_parse_import_from_dclr : sim.
Lemma s_parse_import_dclr : forall (I : Type), sim E sl RM (r_node (RS RM) (RA sl)) (parse_import_dclr E n) (fun i : I => parse_import_dclr E n).
Proof. intros. unfold parse_import_dclr. sims. Qed.
#[local] Hint Resolve s_parse_import_dclr : sim.
Lemma s_named_export_specifier : forall (I : Type), sim E sl RM (r_export (RS RM)) (named_export_specifier E) (fun i : I => named_export_specifier E).
Proof. intros. unfold named_export_specifier. sims. Qed.
#[local] Hint Resolve s_named_export_specifier : sim.
Lemma s_named_export_specifiers : forall (I : Type), sim E sl RM (Forall2 (r_export (RS RM))) (named_export_specifiers E n) (fun i : I => named_export_specifiers E n).
Proof. intros. unfold named_export_specifiers. sims. Qed.
#[local] Hint Resolve s_named_export_specifiers : sim.
Lemma s_export_default : forall (I : Type), sim E sl RM (r_node (RS RM) (RA sl)) (export_default E n h) (fun i : I => export_default E n h).
Proof. intros. unfold export_default. sims. Qed.
#[local] Hint Resolve s_export_default : sim.
Lemma s_parse_export_dclr : forall (I : Type), sim E sl RM (r_node (RS RM) (RA sl)) (parse_export_dclr E n h) (fun i : I => parse_export_dclr E n h).
Proof. intros. unfold parse_export_dclr. sims. Qed.
#[local] Hint Resolve s_parse_export_dclr : sim.
Lemma s_parse_module_item : forall (I : Type), sim E sl RM (r_node (RS RM) (RA sl)) (parse_module_item E n h) (fun i : I => parse_module_item E n h).
Proof. intros. unfold parse_module_item. sims. Qed.
#[local] Hint Resolve s_parse_module_item : sim.
Lemma s_script : forall (I : Type), sim E sl RM (r_node (RS RM) (RA sl)) (script E n h) (fun i : I => script E n h).
Proof. intros. unfold script. sims. Qed.
#[local] Hint Resolve s_script : sim.
Lemma s_module_ : forall (I : Type), sim E sl RM (r_node (RS RM) (RA sl)) (module_ E n h) (fun i : I => module_ E n h).
Proof. intros. unfold module_. sims. Qed.
#[local] Hint Resolve s_module_ : sim.

Lemma sim_step : sim_h E sl RM (step E n h).
Proof. constructor; cbn [step h_bindpat h_lhs h_new h_unary h_exp h_climb h_assign h_expression h_statement h_item]; intros; eauto with sim. Qed.

End Top.
#[export] Hint Resolve s_import_binding s_namespace_import_specifiers s_named_import_specifier s_named_import_specifiers s_parse_module_specifier s_parse_import_from_dclr s_parse_import_dclr s_named_export_specifier s_named_export_specifiers s_export_default s_parse_export_dclr s_parse_module_item s_script s_module_ : sim.
