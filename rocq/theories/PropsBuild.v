(** * PropsBuild: builds with and without overflow checks (C56). *)
From Verif Require Import Base Codepoint Punct Token Scanner Ast Parser.
From Verif Require Import SpecParse SpecBuild Witness ParseProofs BuildProofs.

(** ** C56 *)
(** A build with overflow checks and any other build, of any word size, give the same
    result on every source, unless the former panics because of an overflow. *)
Theorem C56_script : forall E E' src, same_source E E' -> checked E = true ->
  (exists p, overflow p /\ parse_script E src = Panicked p) \/ parse_script E' src = parse_script E src.
Proof. exact script_builds. Qed.
Theorem C56_module : forall E E' src, same_source E E' -> checked E = true ->
  (exists p, overflow p /\ parse_module E src = Panicked p) \/ parse_module E' src = parse_module E src.
Proof. exact module_builds. Qed.
(** A tree or an error got with overflow checks is got in every build. *)
Theorem C56_tested_script : forall E E' src r, same_source E E' -> checked E = true ->
  parse_script E src = r -> (forall p, overflow p -> r <> Panicked p) -> parse_script E' src = r.
Proof. intros E E' src r S C H N. destruct (script_builds src S C) as [(p & O & K)|K]; [|congruence]. exfalso. apply (N p O). congruence. Qed.
Theorem C56_tested_module : forall E E' src r, same_source E E' -> checked E = true ->
  parse_module E src = r -> (forall p, overflow p -> r <> Panicked p) -> parse_module E' src = r.
Proof. intros E E' src r S C H N. destruct (module_builds src S C) as [(p & O & K)|K]; [|congruence]. exfalso. apply (N p O). congruence. Qed.
(** Builds without overflow checks never panic because of an overflow. *)
Theorem C56_release_script : forall E src p, checked E = false -> overflow p -> parse_script E src <> Panicked p.
Proof. intros E src p C O H. apply script_panics in H. destruct O; cbn in H; congruence. Qed.
Theorem C56_release_module : forall E src p, checked E = false -> overflow p -> parse_module E src <> Panicked p.
Proof. intros E src p C O H. apply module_panics in H. destruct O; cbn in H; congruence. Qed.

(** The exception is needed: each overflow does occur, and the build without checks
    accepts these sources. *)
Theorem C56_differ_refuted : same_source E0 E1 /\ checked E0 = true /\
  map (fun x => parse_script E0 (s2l x)) [""; "'\u{100000041}';"; "([]) => x"]%string = map Panicked [P_EofUnderflow; P_EscapeOverflow; P_PatternUnderflow] /\
  forall x, In x [""; "'\u{100000041}';"; "([]) => x"]%string -> exists t, parse_script E1 (s2l x) = Ok t.
Proof.
  split; [repeat split|]. split; [reflexivity|]. split; [vm_compute; reflexivity|].
  intros x [<-|[<-|[<-|[]]]]; eexists; vm_compute; reflexivity.
Qed.
(** A 16-bit build without checks: a tree, an error and a panic of another kind. *)
Definition E16 : env := mkEnv (ucd_start E0) (ucd_continue E0) (f64_show E0) false 65535.
Example C56_witness : same_source E0 E16 /\ checked E0 = true /\
  (exists t, parse_script E0 (s2l "f(([a, ...b], {c}) => '\u{41}');") = Ok t /\ parse_script E16 (s2l "f(([a, ...b], {c}) => '\u{41}');") = Ok t) /\
  (exists e, parse_script E0 (s2l "f(a b);") = Err e /\ parse_script E16 (s2l "f(a b);") = Err e) /\
  parse_script E16 (s2l "async (x) => x") = Panicked P_AsyncBacktick.
Proof.
  split; [repeat split|]. split; [reflexivity|]. split; [|split].
  - eexists. split; vm_compute; reflexivity.
  - eexists. split; vm_compute; reflexivity.
  - vm_compute. reflexivity.
Qed.
Print Assumptions C56_script.
Print Assumptions C56_module.
Print Assumptions C56_tested_script.
Print Assumptions C56_tested_module.
Print Assumptions C56_release_script.
Print Assumptions C56_release_module.
