(** * PropsGrammar: every program of the core grammar is parsed to the tree the
    grammar gives it (C45); printed expressions are read back (C37). *)
From Verif Require Import Base Punct Token Ast Scanner Parser.
From Verif Require Import SpecLex SpecJson SpecBare SpecLayout SpecGrammar SpecPrint Witness FindPart GramTop GramMod PrintProofs GramWitness.

(** ** C45 *)
Theorem C45_script : forall E ts text ss, ucd_sane E ->
  source_of E ts text -> program E false ts ss -> (checked E = true -> text <> []) ->
  exists t, parse_script E text = Ok t /\ bare_node t = Program ss "script" nowhere.
Proof. intros E ts text ss H. apply script_parses; auto. Qed.
Theorem C45_module : forall E ts text ss, ucd_sane E ->
  source_of E ts text -> program E true ts ss -> (checked E = true -> text <> []) ->
  exists t, parse_module E text = Ok t /\ bare_node t = Program ss "module" nowhere.
Proof. intros E ts text ss H. apply module_parses; auto. Qed.
(** The grammar gives a text one meaning: however it is divided into tokens and
    derived, the trees are the same. *)
Theorem C45_one_meaning : forall E st ts ts' text ss ss', ucd_sane E -> text <> [] ->
  source_of E ts text -> program E st ts ss -> source_of E ts' text -> program E st ts' ss' -> ss = ss'.
Proof.
  intros E [] ts ts' text ss ss' H Ht H1 H2 H3 H4.
  { destruct (C45_module E ts text ss H H1 H2 (fun _ => Ht)) as (t & T1 & T2).
    destruct (C45_module E ts' text ss' H H3 H4 (fun _ => Ht)) as (t' & T3 & T4). congruence. }
  destruct (C45_script E ts text ss H H1 H2 (fun _ => Ht)) as (t & T1 & T2).
  destruct (C45_script E ts' text ss' H H3 H4 (fun _ => Ht)) as (t' & T3 & T4). congruence.
Qed.

(** A program with a function, a loop, automatic semicolons, a conditional, an
    array with a hole, an object and an arrow function. *)
Definition C45_gaps : list (str * str) := map (fun p => (s2l (fst p), s2l (snd p)))
  [(" ", "function"); (" ", "f"); ("", "("); ("", "a"); ("", ")"); (" ", "{"); ("
  ", "while"); (" ", "("); ("", "a"); ("", ")"); (" ", "return"); (" ", "a"); ("", "."); ("", "x"); ("", "+"); ("", "1"); ("
", "}"); ("
", "var"); (" ", "y"); (" ", "="); (" ", "f"); ("", "("); ("", "3"); ("", ")"); ("", "?"); ("", "["); ("", "1"); ("", ","); ("", ","); ("", "'z'");
   ("", "]"); ("", ":"); ("", "{"); ("", "k"); ("", ":"); (" ", "b"); ("", "=>"); ("", "b"); ("", "}"); ("
", "")]%string.
Definition C45_tokens : list tok :=
  [W false "function"; Id false (s2l "f"); P false LParen; Id false (s2l "a"); P false RParen; P false LBrace; W true "while"; P false LParen;
   Id false (s2l "a"); P false RParen; W false "return"; Id false (s2l "a"); P false Dot; Id false (s2l "x"); P false Plus;
   T false (KNum (mkNum 1 0)); P true RBrace; W true "var"; Id false (s2l "y"); P false Assign; Id false (s2l "f"); P false LParen;
   T false (KNum (mkNum 3 0)); P false RParen; P false Question; P false LBracket; T false (KNum (mkNum 1 0)); P false Comma; P false Comma;
   T false (KStr (s2l "z")); P false RBracket; P false Colon; P false LBrace; Id false (s2l "k"); P false Colon; Id false (s2l "b");
   P false FatArrow; Id false (s2l "b"); P false RBrace; T true KEof].
Example C45_witness_source : source_of E0 C45_tokens (s2l " function f(a) {
  while (a) return a.x+1
}
var y = f(3)?[1,,'z']:{k: b=>b}
").
Proof. change (source_of E0 C45_tokens (text_of C45_gaps)). apply sourceb_ok; [vm_compute; reflexivity|discriminate]. Qed.
Example C45_witness : exists ss, program E0 false C45_tokens ss.
Proof.
  eexists. apply (g_program E0 true (firstn 39 C45_tokens)). cbv [C45_tokens firstn]. apply g_body; [discriminate|].
  cut [(0, 17)]%nat. eapply g_stmts_cons.
  - cut [(2, 3)]%nat. eapply g_item_function; [idt| |].
    + cut [(1, 1)]%nat. eapply g_formals, g_params_last, g_bind_plain, g_bind_id. idt.
    + cut [(1, 10)]%nat. eapply g_funbody, g_body; [discriminate|]. cut [(0, 10)]%nat. eapply g_stmts_cons; [|apply g_stmts_nil].
      apply g_item_stmt. cut [(2, 1)]%nat. eapply g_stmt_while.
      * apply assign_expr, exp_assign; [reflexivity|]; apply member_exp, g_member_primary, g_id. idt.
      * cut [(1, 5)]%nat. eapply g_stmt_return_expr; [reflexivity|reflexivity| |eapply semi_brace; reflexivity].
        apply assign_expr, g_assign_cond; [discriminate|]. eapply g_cond_bin. apply (bin_down E0 _ true 8); [lia|].
        cut [(0, 3)]%nat. eapply (g_bin_op E0 _ true 9 false false); [reflexivity|lia|reflexivity| |].
        { apply (exp_bin E0 _ true 3); [lia|]. apply member_exp. cut [(0, 1)]%nat. eapply g_member_dot; [|apply nm_id|reflexivity]. apply g_member_primary, g_id. idt. }
        { apply (exp_bin E0 _ true 2); [lia|]. apply member_exp, g_member_primary, g_num. }
  - cut [(0, 22)]%nat. eapply g_stmts_cons; [|apply g_stmts_nil]. apply g_item_stmt. cut [(1, 21)]%nat.
    eapply g_stmt_var; [|eapply semi_eof; reflexivity]. apply g_decls_one. cut [(0, 1)]%nat. eapply g_decl_init; [apply g_bind_id; idt|]. apply g_assign_cond; [discriminate|].
    cut [(0, 4); (1, 6)]%nat. eapply g_cond.
    + apply (exp_bin E0 _ true 11); [lia|]. apply call_exp. cut [(0, 1)]%nat. eapply g_call_member.
      * apply g_member_primary, g_id. idt.
      * cut [(1, 1)]%nat. apply g_args, g_arglist_last, exp_assign; [reflexivity|]; apply member_exp, g_member_primary, g_num.
    + apply exp_assign; [reflexivity|]; apply member_exp, g_member_primary. cut [(1, 4)]%nat. apply g_array. cut [(0, 1)]%nat. apply g_elems_more.
      * apply exp_assign; [reflexivity|]; apply member_exp, g_member_primary, g_num.
      * apply g_elems_hole, g_elems_last, exp_assign; [reflexivity|]; apply member_exp, g_member_primary, g_str.
    + apply exp_assign; [reflexivity|]; apply member_exp, g_member_primary. cut [(1, 5)]%nat. apply g_object; [split; reflexivity|]. apply g_props_last.
      apply g_prop_init; [apply nm_id|right; split; reflexivity|]. apply g_arrow_one; [idt|]. apply g_arrow_body_expr; [reflexivity|].
      apply exp_assign; [reflexivity|]; apply member_exp, g_member_primary, g_id. idt.
Qed.
(** A class with a constructor taking a pattern and a generator method; an async
    arrow function. *)
Definition C45_class_gaps : list (str * str) := map (fun p => (s2l (fst p), s2l (snd p)))
  [("", "class"); (" ", "A"); (" ", "extends"); (" ", "B"); (" ", "{"); (" ", "constructor"); ("", "("); ("", "{"); ("", "a"); ("", ","); (" ", "b"); ("", ":");
   (" ", "["); ("", "c"); (" ", "="); (" ", "1"); ("", "]"); ("", "}"); ("", ")"); (" ", "{"); (" ", "super"); ("", "("); ("", "a"); ("", ")"); (" ", "}");
   (" ", "*"); ("", "g"); ("", "("); ("", ")"); (" ", "{"); (" ", "yield"); (" ", "c"); (" ", "}"); (" ", "}"); ("
", "async"); (" ", "x"); (" ", "=>"); (" ", "await"); (" ", "x"); ("", "")]%string.
Definition C45_class_tokens : list tok :=
  [W false "class"; Id false (s2l "A"); W false "extends"; Id false (s2l "B"); P false LBrace; Id false (s2l "constructor"); P false LParen; P false LBrace;
   Id false (s2l "a"); P false Comma; Id false (s2l "b"); P false Colon; P false LBracket; Id false (s2l "c"); P false Assign; T false (KNum (mkNum 1 0));
   P false RBracket; P false RBrace; P false RParen; P false LBrace; W false "super"; P false LParen; Id false (s2l "a"); P false RParen; P false RBrace;
   P false Star; Id false (s2l "g"); P false LParen; P false RParen; P false LBrace; W false "yield"; Id false (s2l "c"); P false RBrace; P false RBrace;
   Id true (s2l "async"); Id false (s2l "x"); P false FatArrow; W false "await"; Id false (s2l "x"); T false KEof].
Example C45_class_source : source_of E0 C45_class_tokens (s2l "class A extends B { constructor({a, b: [c = 1]}) { super(a) } *g() { yield c } }
async x => await x").
Proof. change (source_of E0 C45_class_tokens (text_of C45_class_gaps)). apply sourceb_ok; [vm_compute; reflexivity|discriminate]. Qed.
Example C45_class_witness : exists ss, program E0 false C45_class_tokens ss.
Proof.
  eexists. apply (g_program E0 false (firstn 39 C45_class_tokens)). cbv [C45_class_tokens firstn]. apply g_body; [discriminate|].
  cut [(0, 34)]%nat. eapply g_stmts_cons.
  - cut [(2, 32)]%nat. eapply g_item_class; [idt|]. cut [(1, 1); (1, 28)]%nat. eapply g_class_extends.
    + apply g_left_member, g_member_primary, g_id. idt.
    + cut [(0, 20)]%nat. eapply g_class_cons.
      * cut [(0, 1); (0, 13)]%nat. eapply g_method; [intros b x l K; injection K as <- <- <-; vm_compute; intuition discriminate|apply g_key_name, nm_id| |].
        -- cut [(1, 11)]%nat. eapply g_formals, g_params_last, g_bind_plain. cut [(1, 9)]%nat. eapply g_bind_object; [split; reflexivity|].
           cut [(0, 1)]%nat. eapply g_pat_props_more; [apply g_pat_prop_short; idt|]. apply g_pat_props_last. eapply g_pat_prop_name; [apply nm_id|].
           apply g_bind_plain. cut [(1, 3)]%nat. apply g_bind_array; [split; reflexivity|]. apply g_pat_elems_last. cut [(0, 1)]%nat.
           apply g_bind_init; [apply g_bind_id; idt|]. apply exp_assign; [reflexivity|]. apply member_exp, g_member_primary, g_num.
        -- cut [(1, 4)]%nat. eapply g_funbody, g_body; [discriminate|]. cut [(0, 4)]%nat. eapply g_stmts_cons; [|apply g_stmts_nil].
           apply g_item_stmt. cut [(0, 4)]%nat. apply g_stmt_expr; [reflexivity|reflexivity|reflexivity|intros b l K; discriminate K| |eapply semi_brace; reflexivity].
           apply assign_expr, exp_assign; [reflexivity|]. apply call_exp. apply g_call_super; [reflexivity|]. cut [(1, 1)]%nat. apply g_args, g_arglist_last.
           apply exp_assign; [reflexivity|]. apply member_exp, g_member_primary, g_id. idt.
      * cut [(0, 8)]%nat. eapply g_class_cons; [|apply g_class_nil].
        cut [(1, 1); (0, 2)]%nat. eapply (g_method_gen E0 _ _ false [Id false (s2l "g")]); [|apply g_key_name, nm_id| |]; [reflexivity| |].
        -- cut [(1, 0)]%nat. apply g_formals, g_params_nil.
        -- cut [(1, 2)]%nat. eapply g_funbody, g_body; [discriminate|]. cut [(0, 2)]%nat. eapply g_stmts_cons; [|apply g_stmts_nil].
           apply g_item_stmt. cut [(0, 2)]%nat. apply g_stmt_expr; [reflexivity|reflexivity|reflexivity|intros b l K; discriminate K| |eapply semi_brace; reflexivity].
           apply assign_expr, g_yield_arg; [reflexivity|reflexivity|]. apply g_assign_cond; [intros _; exact I|]. eapply g_cond_bin.
           apply (exp_bin E0 _ true 11); [lia|]. apply member_exp, g_member_primary, g_id. idt.
  - cut [(0, 5)]%nat. eapply g_stmts_cons; [|apply g_stmts_nil]. apply g_item_stmt. cut [(0, 5)]%nat.
    apply g_stmt_expr; [reflexivity|reflexivity|reflexivity|intros b l K; injection K as <- <-; eauto| |eapply semi_eof; reflexivity].
    apply assign_expr. apply g_arrow_async; [idt|]. apply g_arrow_body_expr; [reflexivity|]. apply exp_assign; [reflexivity|].
    apply g_exp_unary, g_unary_await; [reflexivity|]. apply g_unary_update, g_update_left, g_left_member, g_member_primary, g_id. idt.
Qed.
(** Destructuring assignments, and an arrow function with patterns, a default
    value and a rest parameter. *)
Definition C45_pattern_gaps : list (str * str) := map (fun p => (s2l (fst p), s2l (snd p)))
  [("", "["); ("", "a"); ("", ","); (" ", "b"); ("", "."); ("", "c"); (" ", "="); (" ", "1"); ("", "]"); (" ", "="); (" ", "x"); ("", ";"); (" ", "f"); (" ", "=");
   (" ", "("); ("", "{"); ("", "p"); ("", ","); (" ", "q"); ("", ":"); (" ", "["); ("", "r"); (" ", "="); (" ", "2"); ("", "]"); ("", "}"); ("", ","); (" ", "s");
   (" ", "="); (" ", "t"); ("", ","); (" ", "..."); ("", "u"); ("", ")"); (" ", "=>"); (" ", "p"); ("", "")]%string.
Definition C45_pattern_tokens : list tok :=
  [P false LBracket; Id false (s2l "a"); P false Comma; Id false (s2l "b"); P false Dot; Id false (s2l "c"); P false Assign; T false (KNum (mkNum 1 0)); P false RBracket;
   P false Assign; Id false (s2l "x"); P false Semicolon; Id false (s2l "f"); P false Assign; P false LParen; P false LBrace; Id false (s2l "p"); P false Comma;
   Id false (s2l "q"); P false Colon; P false LBracket; Id false (s2l "r"); P false Assign; T false (KNum (mkNum 2 0)); P false RBracket; P false RBrace; P false Comma;
   Id false (s2l "s"); P false Assign; Id false (s2l "t"); P false Comma; P false Ellipsis; Id false (s2l "u"); P false RParen; P false FatArrow; Id false (s2l "p"); T false KEof].
Example C45_pattern_source : source_of E0 C45_pattern_tokens (s2l "[a, b.c = 1] = x; f = ({p, q: [r = 2]}, s = t, ...u) => p").
Proof. change (source_of E0 C45_pattern_tokens (text_of C45_pattern_gaps)). apply sourceb_ok; [vm_compute; reflexivity|discriminate]. Qed.
Example C45_pattern_witness : exists ss, program E0 false C45_pattern_tokens ss.
Proof.
  assert (I : forall M b x nt, in_generator M = false -> ident x -> gr E0 M (Assignment true) [Id b x] nt (id_tree x)).
  { intros. apply exp_assign; auto. apply member_exp, g_member_primary, g_id. auto. }
  eexists. apply (g_program E0 false (firstn 36 C45_pattern_tokens)). cbv [C45_pattern_tokens firstn]. apply g_body; [discriminate|].
  cut [(0, 12)]%nat. eapply g_stmts_cons.
  - apply g_item_stmt. cut [(0, 11)]%nat. apply g_stmt_expr; [reflexivity|reflexivity|reflexivity|intros b l K; discriminate K| |apply semi_yes].
    apply assign_expr. cut [(0, 9)]%nat. eapply (g_assign E0 _ true false); [discriminate| | |apply I; [reflexivity|idt]].
    + apply g_left_member, g_member_primary. cut [(1, 7)]%nat. apply g_array. cut [(0, 1)]%nat. apply g_elems_more; [apply I; [reflexivity|idt]|]. apply g_elems_last.
      cut [(0, 3)]%nat. eapply (g_assign E0 _ true false); [discriminate| | |].
      * apply g_left_member. cut [(0, 1)]%nat. eapply g_member_dot; [|apply nm_id|reflexivity]. apply g_member_primary, g_id. idt.
      * apply ap_target; reflexivity.
      * apply exp_assign; [reflexivity|]. apply member_exp, g_member_primary, g_num.
    + apply ap_array, ae_item; [apply ai_plain, ap_target; reflexivity|]. apply ae_item; [apply ai_default|apply ae_nil].
  - cut [(0, 24)]%nat. eapply g_stmts_cons; [|apply g_stmts_nil]. apply g_item_stmt. cut [(0, 24)]%nat.
    apply g_stmt_expr; [reflexivity|reflexivity|reflexivity|intros b l K; discriminate K| |eapply semi_eof; reflexivity].
    apply assign_expr. cut [(0, 1)]%nat. eapply (g_assign E0 _ true false); [discriminate|apply g_left_member, g_member_primary, g_id; idt|apply ap_target; reflexivity|].
    cut [(1, 18)]%nat. eapply g_arrow.
    + cut [(0, 11)]%nat. eapply g_arrow_more.
      * apply exp_assign; [reflexivity|]. apply member_exp, g_member_primary. cut [(1, 9)]%nat. apply g_object; [split; reflexivity|].
        cut [(0, 1)]%nat. apply g_props_more; [apply g_prop_short; [idt|right; split; reflexivity]|]. apply g_props_last, g_prop_init; [apply nm_id|right; split; reflexivity|].
        apply exp_assign; [reflexivity|]. apply member_exp, g_member_primary. cut [(1, 3)]%nat. apply g_array, g_elems_last.
        cut [(0, 1)]%nat. eapply (g_assign E0 _ true false); [discriminate|apply g_left_member, g_member_primary, g_id; idt|apply ap_target; reflexivity|].
        apply exp_assign; [reflexivity|]. apply member_exp, g_member_primary, g_num.
      * apply bi_plain, bp_object, bpr_short, bpr_item; [|apply bpr_nil]. apply bi_plain, bp_array; [discriminate|]. apply be_item; [apply bi_default|apply be_nil].
      * cut [(0, 3)]%nat. eapply g_arrow_more.
        -- cut [(0, 1)]%nat. eapply (g_assign E0 _ true false); [discriminate|apply g_left_member, g_member_primary, g_id; idt|apply ap_target; reflexivity|].
           apply I; [reflexivity|idt].
        -- apply bi_default.
        -- apply g_arrow_rest, g_bind_id. idt.
    + apply g_arrow_body_expr; [reflexivity|]. apply I; [reflexivity|idt].
Qed.
(** A regular expression, a tagged template with two substitutions (and a line
    feed in its text), a template and a division. *)
Definition C45_template_gaps : list (str * str) := map (fun p => (s2l (fst p), s2l (snd p)))
  [("", "x"); (" ", "="); (" ", "/ab/g"); ("", ";"); (" ", "y"); (" ", "="); (" ", "f"); ("", "`see ${"); ("", "{"); ("", "a"); (" ", "}"); ("", "} and
${"); ("", "b"); ("", "/"); ("", "c"); (" ", "} too`"); (" ", "+"); (" ", "`q`"); ("", "")]%string.
Definition C45_template_tokens : list tok :=
  [Id false (s2l "x"); P false Assign; T false (KRegex (s2l "ab") (s2l "g")); P false Semicolon; Id false (s2l "y"); P false Assign; Id false (s2l "f");
   T false (KTempl true false (s2l "see ") (s2l "see ")); P false LBrace; Id false (s2l "a"); P false RBrace; T true (KTempl false false (s2l " and
") (s2l " and
")); Id false (s2l "b"); P false Slash; Id false (s2l "c"); T false (KTempl false true (s2l " too") (s2l " too")); P false Plus;
   T false (KTempl true true (s2l "q") (s2l "q")); T false KEof].
Example C45_template_source : source_of E0 C45_template_tokens (s2l "x = /ab/g; y = f`see ${{a }} and
${b/c } too` + `q`").
Proof. change (source_of E0 C45_template_tokens (text_of C45_template_gaps)). apply sourceb_ok; [vm_compute; reflexivity|discriminate]. Qed.
Example C45_template_witness : exists ss, program E0 false C45_template_tokens ss.
Proof.
  assert (I : forall M b x nt, ident x -> gr E0 M Member [Id b x] nt (id_tree x)) by (intros; apply g_member_primary, g_id; auto).
  eexists. apply (g_program E0 false (firstn 18 C45_template_tokens)). cbv [C45_template_tokens firstn]. apply g_body; [discriminate|].
  cut [(0, 4)]%nat. eapply g_stmts_cons.
  - apply g_item_stmt. cut [(0, 3)]%nat. apply g_stmt_expr; [reflexivity|reflexivity|reflexivity|intros b l K; discriminate K| |apply semi_yes].
    apply assign_expr. cut [(0, 1)]%nat. eapply (g_assign E0 _ true false); [discriminate|apply g_left_member, I; idt|apply ap_target; reflexivity|].
    apply exp_assign; [reflexivity|]. apply member_exp, g_member_primary, g_regexp.
  - cut [(0, 14)]%nat. eapply g_stmts_cons; [|apply g_stmts_nil]. apply g_item_stmt. cut [(0, 14)]%nat.
    apply g_stmt_expr; [reflexivity|reflexivity|reflexivity|intros b l K; discriminate K| |eapply semi_eof; reflexivity].
    apply assign_expr. cut [(0, 1)]%nat. eapply (g_assign E0 _ true false); [discriminate|apply g_left_member, I; idt|apply ap_target; reflexivity|].
    apply g_assign_cond; [discriminate|]. eapply g_cond_bin. apply (bin_down E0 _ true 8); [lia|].
    cut [(0, 10)]%nat. eapply (g_bin_op E0 _ true 9 false false); [reflexivity|lia|reflexivity| |].
    + apply (exp_bin E0 _ true 3); [lia|]. apply member_exp. cut [(0, 1)]%nat. eapply g_member_template; [apply I; idt|].
      cut [(1, 8)]%nat. apply g_template_head. cut [(0, 3)]%nat. eapply g_template_more.
      * apply assign_expr, exp_assign; [reflexivity|]. apply member_exp, g_member_primary. cut [(1, 1)]%nat. apply g_object; [split; reflexivity|].
        apply g_props_last, g_prop_short; [idt|left; vm_compute; intuition discriminate].
      * cut [(0, 3)]%nat. apply g_template_last. apply assign_expr, g_assign_cond; [discriminate|]. eapply g_cond_bin. apply (bin_down E0 _ true 9); [lia|].
        cut [(0, 1)]%nat. eapply (g_bin_op E0 _ true 10 false false); [reflexivity|lia|reflexivity| |].
        -- apply (exp_bin E0 _ true 2); [lia|]. apply member_exp, I. idt.
        -- apply (exp_bin E0 _ true 0); [lia|]. apply member_exp, I. idt.
    + apply (exp_bin E0 _ true 2); [lia|]. apply member_exp, g_member_primary, g_template, g_template_one.
Qed.
(** A module with imports and exports. *)
Definition C45_module_gaps : list (str * str) := map (fun p => (s2l (fst p), s2l (snd p)))
  [("", "import"); (" ", "d"); ("", ","); (" ", "{"); ("", "x"); (" ", "as"); (" ", "y"); ("", ","); (" ", "z"); ("", ","); ("", "}"); (" ", "from"); (" ", """m"""); ("", ";");
   (" ", "export"); (" ", "*"); (" ", "from"); (" ", "'n'"); ("
", "export"); (" ", "{"); ("", "d"); ("", ","); (" ", "y"); (" ", "as"); (" ", "default"); ("", "}"); ("
", "export"); (" ", "const"); (" ", "a"); (" ", "="); (" ", "1"); ("", ";"); (" ", "export"); (" ", "default"); (" ", "function"); ("", "*"); (" ", "("); ("", ")"); (" ", "{"); ("", "}"); ("", "")]%string.
Definition C45_module_tokens : list tok :=
  [W false "import"; Id false (s2l "d"); P false Comma; P false LBrace; Id false (s2l "x"); Id false (s2l "as"); Id false (s2l "y"); P false Comma; Id false (s2l "z");
   P false Comma; P false RBrace; Id false (s2l "from"); T false (KStr (s2l "m")); P false Semicolon;
   W false "export"; P false Star; Id false (s2l "from"); T false (KStr (s2l "n"));
   W true "export"; P false LBrace; Id false (s2l "d"); P false Comma; Id false (s2l "y"); Id false (s2l "as"); W false "default"; P false RBrace;
   W true "export"; W false "const"; Id false (s2l "a"); P false Assign; T false (KNum (mkNum 1 0)); P false Semicolon;
   W false "export"; W false "default"; W false "function"; P false Star; P false LParen; P false RParen; P false LBrace; P false RBrace; T false KEof].
Example C45_module_source : source_of E0 C45_module_tokens (s2l "import d, {x as y, z,} from ""m""; export * from 'n'
export {d, y as default}
export const a = 1; export default function* () {}").
Proof. change (source_of E0 C45_module_tokens (text_of C45_module_gaps)). apply sourceb_ok; [vm_compute; reflexivity|discriminate]. Qed.
Example C45_module_witness : exists ss, program E0 true C45_module_tokens ss.
Proof.
  eexists. apply (g_module E0 false (firstn 40 C45_module_tokens)). cbv [C45_module_tokens firstn]. apply mb_items; [discriminate|].
  cut [(0, 14)]%nat. eapply ms_cons.
  { cut [(1, 10)]%nat. apply mi_import; [|apply semi_yes]. apply ic_both; [idt|]. cut [(1, 6)]%nat. apply ig_names.
    cut [(0, 3)]%nat. apply ls_more; [apply in_as; [apply nm_id|idt]|]. cut [(0, 1)]%nat. apply ls_more; [apply in_same; idt|apply ls_nil]. }
  cut [(0, 4)]%nat. eapply ms_cons.
  { apply mi_export_all. apply semi_line; try reflexivity; discriminate. }
  cut [(0, 8)]%nat. eapply ms_cons.
  { cut [(2, 5)]%nat. apply mi_export_names; [|left; reflexivity|reflexivity].
    cut [(0, 1)]%nat. apply ls_more; [apply en_same, nm_id|]. apply ls_last. apply en_as; [apply nm_id|apply nm_kw]. vm_compute; tauto. }
  cut [(0, 6)]%nat. eapply ms_cons.
  { apply mi_export_decl; [vm_compute; tauto|]. cut [(1, 3)]%nat. eapply g_item_const; [| |apply semi_yes].
    2: { apply g_decls_one. cut [(0, 1)]%nat. apply g_decl_init; [apply g_bind_id; idt|]. apply exp_assign; [reflexivity|]. apply member_exp, g_member_primary, g_num. }
    intros d [<-|[]]; eauto. }
  cut [(0, 8)]%nat. eapply ms_cons; [|apply ms_nil].
  cut [(3, 1); (0, 0); (0, 2)]%nat. eapply mi_default_function; [apply os_star|apply on_none| |].
  - cut [(1, 0)]%nat. apply g_formals, g_params_nil.
  - cut [(1, 0)]%nat. apply g_funbody, g_body; [discriminate|]. apply g_stmts_nil.
Qed.
(** Of modules, outside the fragment: the semicolon after an export list becomes
    a statement, *)
Theorem C45_export_list_refuted : exists t x sp, parse_module E0 (s2l "export {a};") = Ok t /\
  bare_node t = Program [x; EmptyStatement sp] "module" nowhere.
Proof. eexists _, _, _. split; [vm_compute; reflexivity|]. vm_compute. reflexivity. Qed.
(** the two names of a renamed export are swapped (the grammar follows the
    parser here), *)
Theorem C45_export_as_refuted : exists t, parse_module E0 (s2l "export {a as b}") = Ok t /\
  bare_node t = Program [ExportNamedDeclaration None [{| ex_exported := name_id (s2l "a"); ex_local := name_id (s2l "b") |}] None nowhere] "module" nowhere.
Proof. eexists. split; [vm_compute; reflexivity|]. vm_compute. reflexivity. Qed.
(** a list exported from another module, a let declaration and an anonymous
    class are rejected, *)
Theorem C45_export_from_refuted : exists e e1 e2, parse_module E0 (s2l "export {a} from ""b"";") = Err e /\ parse_module E0 (s2l "export let a = 1;") = Err e1 /\
  parse_module E0 (s2l "export default class {}") = Err e2.
Proof. eexists _, _, _. split; [|split]; vm_compute; reflexivity. Qed.
(** and an import of nothing crashes the parser. *)
Theorem C45_bare_import_refuted : exists p, parse_module E0 (s2l "import ""b"";") = Panicked p.
Proof. eexists. vm_compute. reflexivity. Qed.
(** Outside the fragment: a chain of operators with several postfix operands may
    crash the parser, although it is a correct program. *)
Theorem C45_postfix_refuted : exists p, parse_script E0 (s2l "a++ | b++ & c++ + d++ * e++;") = Panicked p.
Proof. eexists. vm_compute. reflexivity. Qed.
(** A division after a brace or a postfix operator is taken for the start of a
    regular expression, *)
Theorem C45_slash_refuted : exists e e', parse_script E0 (s2l "x = a++ / 2;") = Err e /\ parse_script E0 (s2l "x = {} / 2;") = Err e'.
Proof. eexists _, _. split; vm_compute; reflexivity. Qed.
(** "return" before a brace needs a semicolon, *)
Theorem C45_return_refuted : exists e, parse_script E0 (s2l "function f() { return }") = Err e.
Proof. eexists. vm_compute. reflexivity. Qed.
(** and a switch statement needs a case. *)
Theorem C45_switch_refuted : exists e, parse_script E0 (s2l "switch (a) {}") = Err e.
Proof. eexists. vm_compute. reflexivity. Qed.

(** ** C37 *)
(** An expression whose operands bind tightly enough is read back exactly. *)
Theorem C37_round_trip : forall E e, ucd_sane E -> ucd_continue E 0x20 = false -> proper E e ->
  exists t, parse_script E (print (statement (parens e))) = Ok t /\
    bare_node t = Program [ExpressionStatement (tree_of E (statement (parens e))) nowhere] "script" nowhere.
Proof. intros E e H1 H2 H3. destruct (parens_ok E H2 e H3). apply round_trip; auto. Qed.
Theorem C37_round_trip_module : forall E e, ucd_sane E -> ucd_continue E 0x20 = false -> proper E e ->
  exists t, parse_module E (print (statement (parens e))) = Ok t /\
    bare_node t = Program [ExpressionStatement (tree_of E (statement (parens e))) nowhere] "module" nowhere.
Proof. intros E e H1 H2 H3. destruct (parens_ok E H2 e H3). apply round_trip_module; auto. Qed.
(** Only parentheses were added. *)
Theorem C37_only_parens : forall e, bare_exp (statement (parens e)) = bare_exp e.
Proof. intros e. rewrite bare_statement. apply bare_parens. Qed.
(** ... and none where they were not needed. *)
Theorem C37_no_parens : forall e, fits e -> parens e = e.
Proof. exact parens_fits. Qed.
(** (1 + a.b[2]) * "x" - -c ** ..., with a string in front and assignments inside. *)
Definition C37_example : exp :=
  XCond (XBin (KP Star) (XStr (s2l "x")) (XBin (KP Plus) (XNum 120) (XIndex (XDot (XId (s2l "a")) (s2l "new")) (XNum 2))))
    (XPow (XUn (KP Minus) (XId (s2l "c"))) (XPow (XNum 0) (XCall (XBin (KW "in") (XThis) XNull) [XAssign PlusAssign (XId (s2l "d")) (XBool true); XArr []])))
    (XBin (KP Mod) (XBin (KP Slash) (XId (s2l "e")) (XPre Inc (XId (s2l "f")))) (XBin (KP LogicalOr) (XNum 1) (XNum 2))).
Example C37_witness : proper E0 C37_example /\
  print (statement (parens C37_example)) =
  s2l "( ""x"" * ( 120 + a . new [ 2 ] ) ? ( - c ) ** 0 ** ( this in null ) ( d += true , [ ] ) : ( e / ++ f ) % ( 1 || 2 ) ) ; ".
Proof.
  split; [|vm_compute; reflexivity].
  assert (W : forall x, forallb letterb x = true -> x <> [] -> writable E0 x) by exact letters_writable.
  unfold C37_example; cbn -[s2l In reserved_words ident literal_word writable level update_op unary_op assign_op]; unfold a_name, a_prop.
  repeat split; try (apply W; [vm_compute; reflexivity|discriminate]); try idt; try (vm_compute; intuition discriminate); try discriminate.
  all: vm_compute; auto 20.
Qed.
Print Assumptions C45_script.
Print Assumptions C45_module.
Print Assumptions C45_one_meaning.
Print Assumptions C37_round_trip.
Print Assumptions C37_round_trip_module.
