(** * PropsStrict: a module without imports and exports is a script (C47). *)
From Verif Require Import Base Codepoint Punct Token Scanner Ast Convert ParserBase ParserExpr ParserStmt Parser Json.
From Verif Require Import SpecTouch SpecStrict Witness StrictProofs TouchProofs.

(** ** C47 *)
(** What the module entry point accepts, the script entry point accepts too, with the
    same tree but for the marks on "eval" and "arguments", whenever no item at the top
    level is an import or an export. *)
Theorem C47_module_is_script : forall E src body ty sp,
  parse_module E src = Ok (Program body ty sp) -> Forall (fun x => module_only x = false) body ->
  exists body', parse_script E src = Ok (Program body' "script" sp) /\ Forall2 same_but_marks body body'.
Proof. exact module_is_script. Qed.
(** The JSON of the statements is the same. *)
Theorem C47_same_json : forall E src body ty sp,
  parse_module E src = Ok (Program body ty sp) -> Forall (fun x => module_only x = false) body ->
  exists body', parse_script E src = Ok (Program body' "script" sp) /\ map j_node body' = map j_node body.
Proof.
  intros E src body ty sp H F. destruct (module_is_script E src H F) as (l & K & G). exists l. split; [exact K|].
  clear - G. induction G as [|x y l l' H G IH]; [reflexivity|]. cbn [map]. f_equal; [|exact IH].
  rewrite <- (touch_node_json (fun s => s) relax (fun s => eq_refl) x), <- (touch_node_json (fun s => s) relax (fun s => eq_refl) y). f_equal. symmetry. exact H.
Qed.
(** A program the script entry point does not accept is no module either, except by its
    imports and exports. *)
Theorem C47_rejected_script : forall E src body ty sp, (forall t, parse_script E src <> Ok t) ->
  parse_module E src = Ok (Program body ty sp) -> Exists (fun x => module_only x = true) body.
Proof.
  intros E src body ty sp H K. destruct (Forall_Exists_dec (fun x => module_only x = false) (fun x => Bool.bool_dec (module_only x) false) body) as [F|F].
  - destruct (module_is_script E src K F) as (l & G & _). destruct (H _ G).
  - eapply Exists_impl; [|exact F]. cbn. intros x. destruct (module_only x); congruence.
Qed.
(** The claim is not empty, and the marks do differ: *)
Definition c47_sample : str := s2l "function f(a, b) { if (a) return b + 1; while (b--) { f(a = [b, ...a], arguments) } } class C extends f { m(x) { return super.m(`t${x}`) } } f(1).g;".
Example C47_witness : exists body sp body', parse_module E0 c47_sample = Ok (Program body "module" sp) /\
  Forall (fun x => module_only x = false) body /\ length body = 3%nat /\
  parse_script E0 c47_sample = Ok (Program body' "script" sp) /\ body <> body'.
Proof.
  destruct (parse_module E0 c47_sample) as [t| | |] eqn:H; vm_compute in H; try discriminate H. injection H as <-.
  do 3 eexists. split; [reflexivity|]. split; [repeat constructor|]. split; [reflexivity|]. split; [vm_compute; reflexivity|].
  vm_compute. congruence.
Qed.
(** The converse fails, as the language demands: a script may use "with", octal ... *)
Theorem C47_converse_refuted : (exists t, parse_script E0 (s2l "with (a) b;") = Ok t) /\ (exists e, parse_module E0 (s2l "with (a) b;") = Err e).
Proof. split; eexists; vm_compute; reflexivity. Qed.
(** ... and an import makes the difference. *)
Example C47_import : (exists t, parse_module E0 (s2l "import a from 'b';") = Ok t) /\ (exists e, parse_script E0 (s2l "import a from 'b';") = Err e).
Proof. split; eexists; vm_compute; reflexivity. Qed.
Print Assumptions C47_module_is_script.
Print Assumptions C47_same_json.
Print Assumptions C47_rejected_script.
