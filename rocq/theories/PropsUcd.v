(** * PropsUcd: the Unicode tables (C57). *)
From Verif Require Import Base Codepoint Punct Token Scanner Ast Parser.
From Verif Require Import SpecUcd Witness UcdProofs.
From Coq Require Import Lia.
Local Open Scope N_scope.

(** ** C57 *)
(** Two Unicode tables (both right about ASCII) give the same result on every source on
    whose characters beyond ASCII they agree. *)
Theorem C57_script : forall E E' src, same_but_tables E E' -> ascii_right E -> ascii_right E' -> agree_on E E' src ->
  parse_script E' src = parse_script E src.
Proof. exact script_tables. Qed.
Theorem C57_module : forall E E' src, same_but_tables E E' -> ascii_right E -> ascii_right E' -> agree_on E E' src ->
  parse_module E' src = parse_module E src.
Proof. exact module_tables. Qed.
(** The result on an ASCII source is the same with all tables. *)
Theorem C57_ascii_script : forall E E' src, same_but_tables E E' -> ascii_right E -> ascii_right E' -> Forall ascii src ->
  parse_script E' src = parse_script E src.
Proof. intros E E' src S A A' H. apply script_tables; auto. intros c Hc N. rewrite Forall_forall in H. destruct (N (H c Hc)). Qed.
Theorem C57_ascii_module : forall E E' src, same_but_tables E E' -> ascii_right E -> ascii_right E' -> Forall ascii src ->
  parse_module E' src = parse_module E src.
Proof. intros E E' src S A A' H. apply module_tables; auto. intros c Hc N. rewrite Forall_forall in H. destruct (N (H c Hc)). Qed.

(** Tables with e-acute and those without. *)
Definition E0e : env := mkEnv (fun c => c =? 233) (fun c => c =? 233) (f64_show E0) (checked E0) (usize_max E0).
Lemma E0_right : ascii_right E0 /\ ascii_right E0e.
Proof.
  split; split; cbn; auto; intros c A _; unfold ascii in A; intros; destruct (N.eqb_spec c 233); try reflexivity; exfalso; lia.
Qed.
(** A source with e-acute and an escaped e-acute inside a string (which the tables are
    not asked about, although C57 would allow it): the same tree. *)
Definition c57_src : str := s2l "a = /b/g, '\u00e9" ++ [233] ++ s2l "';".
Example C57_witness : same_but_tables E0 E0e /\ ascii_right E0 /\ ascii_right E0e /\ ~ Forall ascii c57_src /\
  exists t, parse_script E0 c57_src = Ok t /\ parse_script E0e c57_src = Ok t.
Proof.
  split; [repeat split|]. split; [apply E0_right|]. split; [apply E0_right|]. split.
  - intros H. rewrite Forall_forall in H. specialize (H 233). unfold ascii in H. assert (In 233 c57_src) by (vm_compute; tauto). specialize (H H0). lia.
  - eexists. split; vm_compute; reflexivity.
Qed.
Example C57_witness_agree : agree_on E0 E0e (s2l "f(x => " ++ [246] ++ s2l ");") /\ exists e, parse_script E0e (s2l "f(x => " ++ [246] ++ s2l ");") = Err e.
Proof.
  split; [|eexists; vm_compute; reflexivity]. intros c Hc N. assert (c = 246) as ->; [|split; reflexivity].
  cbn in Hc. unfold ascii in N. repeat (destruct Hc as [<-|Hc]; [try reflexivity; exfalso; apply N; lia|]). destruct Hc.
Qed.
(** Agreement is needed: a name with e-acute. *)
Theorem C57_disagree_refuted : same_but_tables E0 E0e /\ ascii_right E0 /\ ascii_right E0e /\
  (exists t, parse_script E0e (s2l "a" ++ [233] ++ s2l ";") = Ok t) /\ (exists e, parse_script E0 (s2l "a" ++ [233] ++ s2l ";") = Err e).
Proof.
  split; [repeat split|]. split; [apply E0_right|]. split; [apply E0_right|]. split; eexists; vm_compute; reflexivity.
Qed.
Print Assumptions C57_script.
Print Assumptions C57_module.
Print Assumptions C57_ascii_script.
Print Assumptions C57_ascii_module.
