(** * PropsRename: names are opaque (C60). *)
From Verif Require Import Base Codepoint Punct Token Scanner Ast Convert ParserBase ParserExpr ParserStmt Parser.
From Verif Require Import SpecLex SpecTouch SpecRelay SpecRename Witness PropsRelay RenProofs RenErrors.

(** ** C60 *)
(** An accepted source is a sequence of tokens with gaps between them, and every source
    in which each identifier is renamed by [rho] is accepted, with the renamed tree on
    the same lines. *)
Theorem C60_script : forall E rho src x, ucd_sane E -> keeps_special rho E -> parse_script E src = Ok x ->
  exists ts ps fin, src = text ps fin /\ cut E (trivia fin []) fin ts ps /\
    forall ps' fin', renamed rho E (same_gap fin fin') fin fin' ts ps ps' -> text ps' fin' <> [] ->
      exists y, parse_script E (text ps' fin') = Ok y /\ lines_only y = lines_only (ren_node rho x).
Proof. exact script_renames. Qed.
Theorem C60_module : forall E rho src x, ucd_sane E -> keeps_special rho E -> parse_module E src = Ok x ->
  exists ts ps fin, src = text ps fin /\ cut E (trivia fin []) fin ts ps /\
    forall ps' fin', renamed rho E (same_gap fin fin') fin fin' ts ps ps' -> text ps' fin' <> [] ->
      exists y, parse_module E (text ps' fin') = Ok y /\ lines_only y = lines_only (ren_node rho x).
Proof. exact module_renames. Qed.

(** A rejected source begins with tokens, and every source that begins with the renamed
    tokens is rejected with the same error on the same line, with the name it quotes
    renamed.  (What may follow is as in C55.) *)
Theorem C60_script_error : forall E rho src e, ucd_sane E -> keeps_special rho E -> parse_script E src = Err e ->
  exists k ts ps fin, src = text ps fin /\ cut E (stops E k e fin) fin ts ps /\
    forall ps' fin', renamed rho E (restops k fin fin') fin fin' ts ps ps' -> text ps' fin' <> [] ->
      exists e', parse_script E (text ps' fin') = Err e' /\ err_type e' = ren_error rho (err_type e) /\ err_line e' = err_line e.
Proof. exact script_ren_err. Qed.
Theorem C60_module_error : forall E rho src e, ucd_sane E -> keeps_special rho E -> parse_module E src = Err e ->
  exists k ts ps fin, src = text ps fin /\ cut E (stops E k e fin) fin ts ps /\
    forall ps' fin', renamed rho E (restops k fin fin') fin fin' ts ps ps' -> text ps' fin' <> [] ->
      exists e', parse_module E (text ps' fin') = Err e' /\ err_type e' = ren_error rho (err_type e) /\ err_line e' = err_line e.
Proof. exact module_ren_err. Qed.

(** The condition on [rho] is needed: in strict code [eval] cannot be assigned to. *)
Theorem C60_special_refuted : (exists t, parse_script E0 (s2l "eval + 1") = Ok t) /\ (exists t, parse_script E0 (s2l "'use strict'; x = 1") = Ok t) /\
  (exists e, parse_script E0 (s2l "'use strict'; eval = 1") = Err e).
Proof. repeat split; eexists; vm_compute; reflexivity. Qed.

(** [f(a)] with [a] and [bc] exchanged. *)
Definition swap (x : str) : str := if str_eqb x (s2l "a") then s2l "bc" else if str_eqb x (s2l "bc") then s2l "a" else x.
Lemma swap_keeps : keeps_special swap E0.
Proof.
  split; [|split; [intros; reflexivity|intros []; reflexivity]].
  intros w Hw x.
  assert (N : str_eqb w (s2l "a") = false /\ str_eqb w (s2l "bc") = false).
  { assert (K : forallb (fun w => negb (str_eqb w (s2l "a")) && negb (str_eqb w (s2l "bc"))) (map s2l (reserved_words ++ contextual_words)) = true) by (vm_compute; reflexivity).
    rewrite forallb_forall in K. specialize (K _ Hw). apply andb_true_iff in K. destruct K as [K1 K2]. apply negb_true_iff in K1, K2. auto. }
  destruct N as [N1 N2]. unfold swap.
  assert (X : forall a b : str, str_eqb a b = true <-> a = b) by exact RenTac.str_eqb_eq'.
  destruct (str_eqb x (s2l "a")) eqn:A; [|destruct (str_eqb x (s2l "bc")) eqn:B].
  - apply X in A. subst x. split; intros <-; [rewrite (proj2 (X _ _) eq_refl) in N2|rewrite (proj2 (X _ _) eq_refl) in N1]; discriminate.
  - apply X in B. subst x. split; intros <-; [rewrite (proj2 (X _ _) eq_refl) in N1|rewrite (proj2 (X _ _) eq_refl) in N2]; discriminate.
  - tauto.
Qed.
Definition c60_new : list piece := [([32], s2l "f"); ([], s2l "("); ([], s2l "bc"); ([], s2l ")")].
Lemma c60_words : forall w, In w [s2l "f"; s2l "bc"] -> plain_word E0 w /\ ~ reserved w /\ ~ In w [s2l "null"; s2l "true"; s2l "false"].
Proof.
  assert (Y : forall c, In c (s2l "fbc") -> ascii_letter c /\ c <> backslash) by (intros c [<-|[<-|[<-|[]]]]; vm_compute; intuition congruence).
    intros w [<-|[<-|[]]].
    - split; [exists (chr "f"), []; split; [reflexivity|]; split; [do 2 right; left; apply Y; cbn; auto|]; split; [constructor|repeat constructor; vm_compute; discriminate]|].
      split; [intros (k & Hk & Hw); cbn in Hk; intuition (subst k; discriminate)|vm_compute; intuition discriminate].
    - split; [exists (chr "b"), [chr "c"]; split; [reflexivity|]; split; [do 2 right; left; apply Y; cbn; auto|]; split; [constructor; [do 2 right; left; apply Y; cbn; auto|constructor]|repeat constructor; vm_compute; discriminate]|].
      split; [intros (k & Hk & Hw); cbn in Hk; intuition (subst k; discriminate)|vm_compute; intuition discriminate].
Qed.
Example C60_witness : exists x y, text c49_old [10] = s2l "f(a)" ++ [10] /\ ucd_sane E0 /\ keeps_special swap E0 /\ parse_script E0 (text c49_old [10]) = Ok x /\
  cut E0 (trivia [10] []) [10] c49_tokens c49_old /\ renamed swap E0 (same_gap [10] [10]) [10] [10] c49_tokens c49_old c60_new /\
  text c60_new [10] = s2l " f(bc)" ++ [10] /\ parse_script E0 (text c60_new [10]) = Ok y /\ lines_only y = lines_only (ren_node swap x) /\ lines_only y <> lines_only x.
Proof.
  destruct (parse_script E0 (text c49_old [10])) as [x| | |] eqn:Hx; vm_compute in Hx; try discriminate Hx.
  destruct (parse_script E0 (text c60_new [10])) as [y| | |] eqn:Hy; vm_compute in Hy; try discriminate Hy.
  injection Hx as <-. injection Hy as <-.
  eexists _, _. split; [reflexivity|]. split; [exact E0_sane|]. split; [exact swap_keeps|]. split; [reflexivity|]. split; [destruct C49_witness as (_ & _ & _ & K & _); exact K|].
  split; [|split; [reflexivity|split; [reflexivity|split; [vm_compute; reflexivity|vm_compute; discriminate]]]].
  assert (L : forall r : str, trivia [10] r) by (intros; apply tv_line; [unfold line_terminator, LF; auto|constructor]).
  pose proof c60_words as W.
  unfold c49_tokens, c49_old, c60_new. constructor; [apply spaces|reflexivity|reflexivity| |].
  { left. exists (s2l "f"). destruct (W (s2l "f")) as (W1 & W2 & W3); [cbn; auto|]. repeat split; auto; vm_compute; intuition congruence. }
  constructor; [constructor|reflexivity|reflexivity| |].
  { right. repeat split; try discriminate. right. split; [reflexivity|]. split; eexists _, _; (split; [reflexivity|]); do 2 right; left; vm_compute; intuition congruence. }
  constructor; [constructor|reflexivity|reflexivity| |].
  { left. exists (s2l "a"). destruct (W (s2l "bc")) as (W1 & W2 & W3); [cbn; auto|]. split; [reflexivity|]. split; [reflexivity|]. split; [reflexivity|]. split; [exact W1|]. split; [exact W2|]. split; [exact W3|]. vm_compute; intuition congruence. }
  constructor; [constructor|reflexivity|reflexivity| |].
  { right. repeat split; try discriminate. left. apply kept. cbn. tauto. }
  constructor. split; [apply L|reflexivity].
Qed.
(** [(f a) c] and [(f bc) c]: the error quotes the name. *)
Definition c60_err_old : list piece := [([], s2l "("); ([], s2l "f"); ([32], s2l "a"); ([], s2l ")")].
Definition c60_err_new : list piece := [([], s2l "("); ([], s2l "f"); ([32], s2l "bc"); ([], s2l ")")].
Definition c60_err_tokens : list token := [punc LParen 0; PropsRelay.name "f" 1; PropsRelay.name "a" 3; punc RParen 4].
Example C60_witness_error :
  let e := c55_error (s2l "(f a) c") in
  parse_script E0 (s2l "(f a) c") = Err e /\ err_type e = UnexpectedToken (s2l "a") /\ text c60_err_old (s2l " c") = s2l "(f a) c" /\
  cut E0 (stops E0 AtToken e (s2l " c")) (s2l " c") c60_err_tokens c60_err_old /\
  renamed swap E0 (restops AtToken (s2l " c") (s2l " 08")) (s2l " c") (s2l " 08") c60_err_tokens c60_err_old c60_err_new /\
  exists e', parse_script E0 (s2l "(f bc) 08") = Err e' /\ err_type e' = UnexpectedToken (s2l "bc").
Proof.
  cbv zeta. split; [vm_compute; reflexivity|]. split; [vm_compute; reflexivity|]. split; [reflexivity|]. split; [|split; [|eexists; split; vm_compute; reflexivity]].
  - unfold c60_err_tokens, c60_err_old. constructor; [constructor|apply (@lx_punct E0 _ LParen); reflexivity|discriminate|].
    constructor; [constructor|apply one_letter; try reflexivity; vm_compute; intuition congruence|discriminate|].
    constructor; [apply spaces|apply one_letter; try reflexivity; vm_compute; intuition congruence|discriminate|].
    constructor; [constructor|apply (@lx_punct E0 _ RParen); reflexivity|discriminate|]. constructor. exact I.
  - pose proof c60_words as W. unfold c60_err_tokens, c60_err_old, c60_err_new. constructor; [constructor|reflexivity|reflexivity| |].
    { right. repeat split; try discriminate. right. split; [reflexivity|]. split; eexists _, _; (split; [reflexivity|]); do 2 right; left; vm_compute; intuition congruence. }
    constructor; [constructor|reflexivity|reflexivity| |].
    { left. exists (s2l "f"). destruct (W (s2l "f")) as (W1 & W2 & W3); [cbn; auto|]. repeat split; auto; vm_compute; intuition congruence. }
    constructor; [apply spaces|reflexivity|reflexivity| |].
    { left. exists (s2l "a"). destruct (W (s2l "bc")) as (W1 & W2 & W3); [cbn; auto|]. split; [reflexivity|]. split; [reflexivity|]. split; [reflexivity|]. split; [exact W1|]. split; [exact W2|]. split; [exact W3|]. vm_compute; intuition congruence. }
    constructor; [constructor|reflexivity|reflexivity| |].
    { right. repeat split; try discriminate. left. apply kept. cbn. tauto. }
    constructor. exact I.
Qed.
Print Assumptions C60_script_error.
Print Assumptions C60_module_error.
Print Assumptions C60_script.
Print Assumptions C60_module.
