(** * PropsNames: reading expressions as patterns keeps the names (C33). *)
From Verif Require Import Base Codepoint Punct Token Scanner Ast Convert ParserBase ParserExpr Parser.
From Verif Require Import SpecLex SpecTree SpecNames Witness FindPart NamesProofs.

(** ** C33 *)
(** An expression turned into a binding: exactly its names, in order. *)
Theorem C33_names : forall E m x b, to_strict_binding E m x = COk b -> cover_names false x = Some (binding_names b).
Proof. intros E m x b H. pose proof (strict_binding_ok E m x) as K. rewrite H in K. exact K. Qed.
(** What cannot be read as a pattern is rejected; everything else is accepted. *)
Theorem C33_rejects : forall E m x, cover_names false x = None -> forall b, to_strict_binding E m x <> COk b.
Proof. intros E m x H b K. apply C33_names in K. congruence. Qed.
Theorem C33_accepts : forall E m x ns, cover_names false x = Some ns ->
  (exists b, to_strict_binding E m x = COk b) \/ checked E = true /\ to_strict_binding E m x = CPanic P_PatternUnderflow.
Proof. exact binding_accepts. Qed.
(** The same for the parenthesised list before "=>". *)
Theorem C33_parameters : forall E l s ps s', seq_to_arrow_params E l s = ROk ps s' -> cover_params l = Some (flat_map param_names ps).
Proof. intros E l s ps s' H. pose proof (arrow_params_names E l s) as K. rewrite H in K. exact K. Qed.
Theorem C33_parameters_rejected : forall E l s, cover_params l = None -> forall ps s', seq_to_arrow_params E l s <> ROk ps s'.
Proof. intros E l s H ps s' K. apply C33_parameters in K. congruence. Qed.
Theorem C33_parameters_accepted : forall E l s ns, cover_params l = Some ns ->
  (exists ps s', seq_to_arrow_params E l s = ROk ps s') \/ checked E = true /\ seq_to_arrow_params E l s = RPanic P_PatternUnderflow.
Proof. exact params_accepts. Qed.
(** Literals, calls and member accesses are no patterns, wherever they stand. *)
Example C33_no_pattern : forall v raw a sp f args o p q i j,
  cover_names true (NLiteral v raw a sp) = None /\ cover_names true (CallExpression f args a sp) = None /\
  cover_names true (StaticMemberExpression o p q a sp) = None /\
  cover_names true (ArrayExpression [Some (AE_Expr i); Some (AE_Expr (ObjectExpression [OE_Prop (PK_Expr j) true (Some (PV_Expr (CallExpression f args a sp))) "init" false false sp] a sp))] a sp) = None.
Proof. intros. repeat split; try reflexivity. cbn. destruct i; try reflexivity; destruct (cover_names _ _); reflexivity. Qed.
Definition arrow_names (ns : list string) (x : part) : bool :=
  match x with
  | T_Node (ArrowFunctionExpression _ ps _ _ _ _ _ _) => if list_eq_dec (list_eq_dec N.eq_dec) (flat_map param_names ps) (map s2l ns) then true else false
  | _ => false
  end.
Example C33_witness : holds_in (parse_script E0 (s2l "([a, [b = 1], ...c], {d, e: {f: f}, [g]: h = 3, ...i}, j = k, ...[l]) => m"))
  (fun _ => arrow_names ["a"; "b"; "c"; "d"; "f"; "h"; "i"; "j"; "l"]%string).
Proof. apply found_sound. vm_compute. reflexivity. Qed.
(** The defects: {a = b} declares b instead of a, ... *)
Theorem C33_default_refuted : holds_in (parse_script E0 (s2l "({a = b}) => c")) (fun _ => arrow_names ["b"]%string).
Proof. apply found_sound. vm_compute. reflexivity. Qed.
(** ... so {a = 1} is rejected; ... *)
Theorem C33_literal_default_refuted : exists e, parse_script E0 (s2l "({a = 1}) => c") = Err e.
Proof. eexists. vm_compute. reflexivity. Qed.
(** ... an object pattern with a default value may contain any assignment target, ... *)
Theorem C33_member_refuted : holds_in (parse_script E0 (s2l "({a: b.c} = d) => e")) (fun _ => arrow_names []).
Proof. apply found_sound. vm_compute. reflexivity. Qed.
(** ... and an array pattern with a default value is rejected. *)
Theorem C33_array_default_refuted : exists e, parse_script E0 (s2l "([a] = b) => c") = Err e.
Proof. eexists. vm_compute. reflexivity. Qed.
Print Assumptions C33_names.
Print Assumptions C33_accepts.
Print Assumptions C33_parameters.
Print Assumptions C33_parameters_accepted.
