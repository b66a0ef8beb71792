(** * PropsJson: properties of the JSON form (C30), of giron-wasm (C43) and of error texts (C46). *)
From Verif Require Import Base Errors Codepoint Punct Token Scanner Ast ParserBase Parser Json.
From Verif Require Import SpecParse SpecTree SpecJson SpecForm Witness FindPart JsonProofs ErrorsProofs.

(** ** C30: JSON form *)
(** Every object in the JSON form of a returned tree has "type" as its first
    field, with a name from [emitted_types], and no field twice. *)
Theorem C30_objects : forall E src t fs, tree_of E src t -> within (j_node t) (JObj fs) ->
  (exists ty fs', fs = ("type"%string, JStr (s2l ty)) :: fs' /\ In ty emitted_types) /\ NoDup (map fst fs).
Proof. intros E src t fs HT W. exact (tree_typed _ _ _ HT _ W). Qed.
(** Trees that differ only in positions outside object-literal properties have the same form. *)
Theorem C30_positions : forall t1 t2, strip_node t1 = strip_node t2 -> j_node t1 = j_node t2.
Proof. exact same_strip. Qed.
(** Nothing is left out: the form of every part of a tree is part of the tree's form. *)
Theorem C30_complete : forall t path x, occurs (T_Node t) path x -> within (j_node t) (j_part x).
Proof. intros t path x H. exact (represented _ _ _ H). Qed.
(** The form of every part is the one in the table of SpecForm: which type name, which
    fields in which order, and which child or value is in which field. *)
Theorem C30_form : forall x c, shape x = Some c -> j_part x = shown c.
Proof. exact table. Qed.
Theorem C30_alias : forall x y, alias x = Some y -> j_part x = j_part y.
Proof. exact table_alias. Qed.
Theorem C30_table_total : forall x, (exists c, shape x = Some c) \/ (exists y, alias x = Some y).
Proof. exact table_total. Qed.
Theorem C30_script : forall E src t, parse_script E src = Ok t ->
  exists body, j_node t = JObj [("type", JStr (s2l "Program")); ("body", JArr body); ("sourceType", JStr (s2l "script"))]%string.
Proof. exact script_json. Qed.
Theorem C30_module : forall E src t, parse_module E src = Ok t ->
  exists body, j_node t = JObj [("type", JStr (s2l "Program")); ("body", JArr body); ("sourceType", JStr (s2l "module"))]%string.
Proof. exact module_json. Qed.

Definition json_of (r : outcome) : option json := match r with Ok t => Some (j_node t) | _ => None end.
Example C30_witness : json_of (parse_script E0 (s2l "if (a) b"))
  = Some (tagged "Program" [("body", JArr [tagged "IfStatement"
      [("test", tagged "Identifier" [("name", JStr (s2l "a"))]);
       ("consequent", tagged "ExpressionStatement" [("expression", tagged "Identifier" [("name", JStr (s2l "b"))])]);
       ("alternate", JNull)]]); ("sourceType", JStr (s2l "script"))]%string).
Proof. vm_compute. reflexivity. Qed.
(** Layout moves positions but not the form, here and there. *)
Example C30_witness_positions : exists t1 t2, parse_script E0 (s2l "a+b;") = Ok t1 /\ parse_script E0 (s2l "
 a  + /* c */ b ;") = Ok t2 /\ t1 <> t2 /\ strip_node t1 = strip_node t2.
Proof. eexists. eexists. split; [vm_compute; reflexivity|]. split; [vm_compute; reflexivity|]. split; [discriminate|reflexivity]. Qed.
Example C30_witness_complete : holds_in (parse_script E0 (s2l "class a { b(c) {} }"))
  (fun _ x => match x with T_Param _ => true | _ => false end).
Proof. apply found_sound; vm_compute; reflexivity. Qed.
(** The positions of properties of object literals do show. *)
Theorem C30_property_positions_refuted :
  json_of (parse_script E0 (s2l "({a})")) <> json_of (parse_script E0 (s2l " ({a})")).
Proof. vm_compute. discriminate. Qed.
(** The boolean literal true and the string literal 'true' have the same form. *)
Theorem C30_boolean_refuted : exists j, json_of (parse_script E0 (s2l "true")) = Some j /\ json_of (parse_script E0 (s2l "'true'")) = Some j.
Proof. eexists. split; vm_compute; reflexivity. Qed.

(** ** C43: the WebAssembly entry points *)
(** An object is returned exactly for the accepted sources and is the JSON form of the
    tree; a string exactly for syntax errors, and it determines the error; there is
    no other result.  All this whatever characters the standard library escapes ([F]). *)
Theorem C43_script : forall F E src v, wasm_parse_script F E src = Some v ->
  (exists t, parse_script E src = Ok t /\ v = j_node t /\ exists fs, v = JObj fs) \/
  (exists e s, parse_script E src = Err e /\ v = JStr s /\
     forall src' e', parse_script E src' = Err e' -> (wasm_parse_script F E src' = Some (JStr s) <-> e' = e)).
Proof.
  intros F E src v. unfold wasm_parse_script, wasm. destruct (parse_script E src) eqn:H; try discriminate; intros [= <-].
  - left. destruct (script_json _ _ _ H) as (b & Hb). exists ast. rewrite Hb. eauto.
  - right. eexists _, _. split; [reflexivity|]. split; [reflexivity|]. intros src' e' He. rewrite He. split; [|intros ->; reflexivity].
    intros G. apply wasm_text in G. auto.
Qed.
Theorem C43_module : forall F E src v, wasm_parse_module F E src = Some v ->
  (exists t, parse_module E src = Ok t /\ v = j_node t /\ exists fs, v = JObj fs) \/
  (exists e s, parse_module E src = Err e /\ v = JStr s /\
     forall src' e', parse_module E src' = Err e' -> (wasm_parse_module F E src' = Some (JStr s) <-> e' = e)).
Proof.
  intros F E src v. unfold wasm_parse_module, wasm. destruct (parse_module E src) eqn:H; try discriminate; intros [= <-].
  - left. destruct (module_json _ _ _ H) as (b & Hb). exists ast. rewrite Hb. eauto.
  - right. eexists _, _. split; [reflexivity|]. split; [reflexivity|]. intros src' e' He. rewrite He. split; [|intros ->; reflexivity].
    intros G. apply wasm_text in G. auto.
Qed.
(** Every source that is accepted or rejected with an error has a result. *)
Theorem C43_answers : forall F E src,
  (forall t, parse_script E src = Ok t -> wasm_parse_script F E src = Some (j_node t)) /\
  (forall e, parse_script E src = Err e -> exists s, wasm_parse_script F E src = Some (JStr s)) /\
  (forall t, parse_module E src = Ok t -> wasm_parse_module F E src = Some (j_node t)) /\
  (forall e, parse_module E src = Err e -> exists s, wasm_parse_module F E src = Some (JStr s)).
Proof.
  intros F E src. unfold wasm_parse_script, wasm_parse_module, wasm.
  split; [intros t ->; auto|]. split; [intros e ->; eauto|]. split; [intros t ->; auto|intros e ->; eauto].
Qed.
Definition F0 : rustfmt := mkFmt (fun c => (32 <=? c) && (c <? 127)) true false.
Example C43_witness : exists fs, wasm_parse_script F0 E0 (s2l "a") = Some (JObj fs) /\
  wasm_parse_module F0 E0 (s2l "a b") = Some (JStr (s2l "Error { line: 1, col: 2, errortype: UnexpectedToken(""b"") }")).
Proof. eexists. split; vm_compute; reflexivity. Qed.

(** ** C46: error texts *)
(** The text shown for an error tells its kind and the token complained about (and
    not the position). *)
Theorem C46_display : forall e1 e2, display e1 = display e2 <-> err_type e1 = err_type e2.
Proof. exact display_type. Qed.
(** The debug text tells everything about the error: two errors with the same text
    agree in line, column, kind and token, however odd the token's characters. *)
Theorem C46_debug : forall F e1 e2, debug F e1 = debug F e2 ->
  err_line e1 = err_line e2 /\ err_col e1 = err_col e2 /\ err_type e1 = err_type e2.
Proof. intros F e1 e2 H. apply debug_inj in H. subst. auto. Qed.
(** The quoted token can be cut out of the debug text unambiguously: inside the quotes
    no unescaped quote occurs, so the first one that is not escaped ends it. *)
Theorem C46_quoted : forall F s s' r r', debug_str F s ++ r = debug_str F s' ++ r' -> s = s' /\ r = r'.
Proof. intros F s s' r r' H. unfold debug_str in H. cbn [app] in H. injection H as H. rewrite <- !app_assoc in H. exact (debug_str_inj _ _ _ _ _ H). Qed.
(** What is shown for a rejected source: the kind is the parser's, and for an
    unexpected token the text ends in the text of the token. *)
Example C46_witness : exists e, parse_script E0 (s2l "a 'x""\n\u0007'") = Err e /\
  display e = s2l "Unexpected token x" ++ [34; 10; 7] /\
  debug F0 e = s2l "Error { line: 1, col: 13, errortype: UnexpectedToken(""x\""\n\u{7}"") }".
Proof. eexists. split; [vm_compute; reflexivity|]. split; vm_compute; reflexivity. Qed.
(** Display does not tell the position. *)
Theorem C46_display_position_refuted : exists e1 e2, parse_script E0 (s2l "a b") = Err e1 /\ parse_script E0 (s2l "a
;a b") = Err e2 /\ e1 <> e2 /\ display e1 = display e2.
Proof. eexists. eexists. split; [vm_compute; reflexivity|]. split; [vm_compute; reflexivity|]. split; [discriminate|reflexivity]. Qed.

Print Assumptions C30_objects.
Print Assumptions C30_positions.
Print Assumptions C30_complete.
Print Assumptions C30_form.
Print Assumptions C30_alias.
Print Assumptions C30_table_total.
Print Assumptions C30_script.
Print Assumptions C30_module.
Print Assumptions C43_script.
Print Assumptions C43_module.
Print Assumptions C43_answers.
Print Assumptions C46_display.
Print Assumptions C46_debug.
Print Assumptions C46_quoted.
Print Assumptions C46_display_position_refuted.
