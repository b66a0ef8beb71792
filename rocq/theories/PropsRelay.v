(** * PropsRelay: the same program, laid out differently (C49, C55). *)
From Verif Require Import Base Codepoint Punct Token Scanner Ast Convert ParserBase ParserExpr ParserStmt Parser.
From Verif Require Import SpecLex SpecTouch SpecRelay Witness RelayProofs.

(** ** C49 *)
(** An accepted source is a sequence of tokens with gaps between them, and every
    source with the same token texts and other gaps (as many line breaks, tokens kept
    apart) is accepted with the same tree, on the same lines and columns. *)
Theorem C49_script : forall E src x, parse_script E src = Ok x ->
  exists ts ps fin, src = text ps fin /\ cut E (trivia fin []) fin ts ps /\
    forall ps' fin', relaid E (same_gap fin fin') fin fin' ps ps' -> text ps' fin' <> [] ->
      exists y, parse_script E (text ps' fin') = Ok y /\ spots_only y = spots_only x.
Proof. exact script_relay. Qed.
Theorem C49_module : forall E src x, parse_module E src = Ok x ->
  exists ts ps fin, src = text ps fin /\ cut E (trivia fin []) fin ts ps /\
    forall ps' fin', relaid E (same_gap fin fin') fin fin' ps ps' -> text ps' fin' <> [] ->
      exists y, parse_module E (text ps' fin') = Ok y /\ spots_only y = spots_only x.
Proof. exact module_relay. Qed.

(** The conditions are needed.  Tokens must not run together: [x+ +y], [x++y]. *)
Theorem C49_joined_refuted : (exists t, parse_script E0 (s2l "x+ +y") = Ok t) /\ (exists e, parse_script E0 (s2l "x++y") = Err e).
Proof. split; eexists; vm_compute; reflexivity. Qed.
(** The number of line breaks in a gap matters even where there is one already: after
    a look-ahead lines are counted from the wrong one (a defect). *)
Theorem C49_breaks_refuted :
  (exists t, parse_script E0 (s2l "async" ++ [10] ++ s2l "x" ++ [10; 10] ++ s2l "y") = Ok t) /\
  (exists e, parse_script E0 (s2l "async" ++ [10; 10] ++ s2l "x" ++ [10; 10] ++ s2l "y") = Err e).
Proof. split; eexists; vm_compute; reflexivity. Qed.

(** ** C55 *)
(** A rejected source begins with tokens, and every source that begins with the same
    tokens (in gaps with as many line breaks) is rejected with the same error.  What
    follows these tokens
    - does not matter, or
    - is only white space and comments (the end of the text was met), or
    - begins with a text that is not a token, and that text matters. *)
Theorem C55_script : forall E src e, parse_script E src = Err e ->
  exists k ts ps fin, src = text ps fin /\ cut E (stops E k e fin) fin ts ps /\
    forall ps' fin', relaid E (restops k fin fin') fin fin' ps ps' -> text ps' fin' <> [] -> parse_script E (text ps' fin') = Err e.
Proof. exact script_relay_err. Qed.
Theorem C55_module : forall E src e, parse_module E src = Err e ->
  exists k ts ps fin, src = text ps fin /\ cut E (stops E k e fin) fin ts ps /\
    forall ps' fin', relaid E (restops k fin fin') fin fin' ps ps' -> text ps' fin' <> [] -> parse_module E (text ps' fin') = Err e.
Proof. exact module_relay_err. Qed.

Lemma spaces r : trivia [32] r. Proof. apply tv_space; [unfold white_space; cbn; tauto|constructor]. Qed.
Lemma one_letter c t : ascii_letter c -> ttype t = TIdentifier -> tval t = VStr [c] -> lexeme E0 t [c].
Proof.
  intros Hc Ht Hv. refine (@lx_word E0 t c [c] [] [] _ _ _); [constructor|constructor|].
  - unfold id_start; auto.
  - unfold ascii_letter, backslash in *. intros ->. revert Hc. vm_compute. intuition congruence.
  - rewrite Ht, Hv. constructor; try discriminate. intros (k & Hk & Hw). cbn in Hk. intuition (subst k; discriminate).
Qed.
Lemma kept l r c x : In c (32 :: 10 :: s2l "()") -> after E0 l r (c :: x).
Proof.
  intros Hc. left. exists c, x. split; [reflexivity|]. split.
  - destruct Hc as [<-|[<-|[<-|[<-|[]]]]]; [left; unfold white_space; cbn; tauto|right; left; unfold line_terminator, LF; auto|right; right; cbn; tauto|right; right; cbn; tauto].
  - destruct Hc as [<-|[<-|[<-|[<-|[]]]]]; vm_compute; intuition congruence.
Qed.
Definition name (c : ascii) (a : N) : token := mkToken TIdentifier (VStr [chr c]) None None None None None None 1 a a a.
Definition punc (p : punct) (a : N) : token := mkToken TPunctuator (VPunc p) None None None None None None 1 a a a.

Definition c49_old : list piece := [([], s2l "f"); ([], s2l "("); ([], s2l "a"); ([], s2l ")")].
Definition c49_new : list piece := [(s2l "/*x*/", s2l "f"); ([32], s2l "("); ([], s2l "a"); ([32], s2l ")")].
Definition c49_tokens : list token := [name "f" 0; punc LParen 1; name "a" 2; punc RParen 3].
Example C49_witness : exists x y, text c49_old [10] = s2l "f(a)" ++ [10] /\ cut E0 (trivia [10] []) [10] c49_tokens c49_old /\
  parse_script E0 (text c49_old [10]) = Ok x /\ text c49_new [32; 10] = s2l "/*x*/f (a ) " ++ [10] /\
  relaid E0 (same_gap [10] [32; 10]) [10] [32; 10] c49_old c49_new /\ parse_script E0 (text c49_new [32; 10]) = Ok y /\ spots_only x = spots_only y /\ x <> y.
Proof.
  destruct (parse_script E0 (text c49_old [10])) as [x| | |] eqn:Hx; vm_compute in Hx; try discriminate Hx.
  destruct (parse_script E0 (text c49_new [32; 10])) as [y| | |] eqn:Hy; vm_compute in Hy; try discriminate Hy.
  injection Hx as <-. injection Hy as <-.
  assert (L : forall r : str, trivia [10] r) by (intros; apply tv_line; [unfold line_terminator, LF; auto|constructor]).
  eexists _, _. split; [reflexivity|]. split; [|split; [reflexivity|split; [reflexivity|split; [|split; [reflexivity|split; [vm_compute; reflexivity|congruence]]]]]].
  - unfold c49_tokens, c49_old. repeat (constructor; [constructor| |discriminate|]); try constructor; auto; try reflexivity; try (apply one_letter; try reflexivity; vm_compute; intuition congruence).
    apply (@lx_punct E0 _ LParen); reflexivity. apply (@lx_punct E0 _ RParen); reflexivity.
  - unfold c49_old, c49_new. constructor; [apply (tv_block (s2l "x") []); [reflexivity|constructor]|reflexivity|reflexivity|apply kept; cbn; tauto|].
    constructor; [apply spaces|reflexivity|reflexivity|right; split; [reflexivity|intros [K _]; discriminate K]|].
    constructor; [constructor|reflexivity|reflexivity|apply kept; cbn; tauto|].
    constructor; [apply spaces|reflexivity|reflexivity|apply kept; cbn; tauto|].
    constructor. split; [apply tv_space; [unfold white_space; cbn; tauto|apply L]|reflexivity].
Qed.
Print Assumptions C49_script.
Print Assumptions C49_module.

(** The three ways: [(a b)], where any text may follow; [a(]; and [a @].  (An error
    at a token is reported after the next token is read, so [(a b @] is another error.) *)
Definition c55_old : list piece := [([], s2l "("); ([], s2l "a"); ([32], s2l "b"); ([], s2l ")")].
Definition c55_new : list piece := [([32], s2l "("); ([32], s2l "a"); ([32; 32], s2l "b"); ([32], s2l ")")].
Definition c55_tokens : list token := [punc LParen 0; name "a" 1; name "b" 3; punc RParen 4].
Definition c55_error (src : str) : error := match parse_script E0 src with Err e => e | _ => mkError 0 0 InvalidOrUnexpectedToken end.
Example C55_witness :
  let e := c55_error (s2l "(a b) c") in
  text c55_old (s2l " c") = s2l "(a b) c" /\ parse_script E0 (s2l "(a b) c") = Err e /\
  cut E0 (stops E0 AtToken e (s2l " c")) (s2l " c") c55_tokens c55_old /\
  text c55_new (s2l " @ 08 /*") = s2l " ( a  b ) @ 08 /*" /\
  relaid E0 (restops AtToken (s2l " c") (s2l " @ 08 /*")) (s2l " c") (s2l " @ 08 /*") c55_old c55_new /\
  parse_script E0 (s2l " ( a  b ) @ 08 /*") = Err e /\ parse_script E0 (s2l "(a b @") <> Err e.
Proof.
  cbv zeta. split; [reflexivity|]. split; [vm_compute; reflexivity|]. split; [|split; [reflexivity|split; [|split; vm_compute; [reflexivity|discriminate]]]].
  - unfold c55_tokens, c55_old. constructor; [constructor|apply (@lx_punct E0 _ LParen); reflexivity|discriminate|].
    constructor; [constructor|apply one_letter; try reflexivity; vm_compute; intuition congruence|discriminate|].
    constructor; [apply spaces|apply one_letter; try reflexivity; vm_compute; intuition congruence|discriminate|].
    constructor; [constructor|apply (@lx_punct E0 _ RParen); reflexivity|discriminate|]. constructor. exact I.
  - unfold c55_old, c55_new. constructor; [apply spaces|reflexivity|reflexivity|apply kept; cbn; tauto|].
    constructor; [apply spaces|reflexivity|reflexivity|apply kept; cbn; tauto|].
    constructor; [apply tv_space; [unfold white_space; cbn; tauto|apply spaces]|reflexivity|reflexivity|apply kept; cbn; tauto|].
    constructor; [apply spaces|reflexivity|reflexivity|apply kept; cbn; tauto|]. constructor. exact I.
Qed.
Example C55_witness_end :
  let e := c55_error (s2l "a(") in
  parse_script E0 (s2l "a(") = Err e /\ cut E0 (stops E0 AtEnd e []) [] [name "a" 0; punc LParen 1] [([], s2l "a"); ([], s2l "(")] /\
  relaid E0 (restops AtEnd [] [32]) [] [32] [([], s2l "a"); ([], s2l "(")] [([32], s2l "a"); ([], s2l "(")] /\
  parse_script E0 (s2l " a( ") = Err e.
Proof.
  cbv zeta. split; [vm_compute; reflexivity|]. split; [|split; [|vm_compute; reflexivity]].
  - constructor; [constructor|apply one_letter; try reflexivity; vm_compute; intuition congruence|discriminate|].
    constructor; [constructor|apply (@lx_punct E0 _ LParen); reflexivity|discriminate|]. constructor. constructor.
  - constructor; [apply spaces|reflexivity|reflexivity|apply kept; cbn; tauto|].
    constructor; [constructor|reflexivity|reflexivity|apply kept; cbn; tauto|]. constructor. split; [apply spaces|reflexivity].
Qed.
Example C55_witness_text :
  let e := c55_error (s2l "a @") in
  parse_script E0 (s2l "a @") = Err e /\ cut E0 (stops E0 (BadText (s2l "@")) e (s2l " @")) (s2l " @") [name "a" 0] [([], s2l "a")] /\
  relaid E0 (restops (BadText (s2l "@")) (s2l " @") (s2l "  @")) (s2l " @") (s2l "  @") [([], s2l "a")] [([32], s2l "a")] /\
  parse_script E0 (s2l " a  @") = Err e.
Proof.
  cbv zeta. split; [vm_compute; reflexivity|]. split; [|split; [|vm_compute; reflexivity]].
  - constructor; [constructor|apply one_letter; try reflexivity; vm_compute; intuition congruence|discriminate|].
    constructor. split; [exists [32]; split; [reflexivity|apply spaces]|]. exists GRegExp, []. eexists. split; [vm_compute; reflexivity|split; vm_compute; reflexivity].
  - constructor; [apply spaces|reflexivity|reflexivity|apply kept; cbn; tauto|].
    constructor. exists [32], [32; 32]. split; [reflexivity|]. split; [reflexivity|]. split; [apply tv_space; [unfold white_space; cbn; tauto|apply spaces]|reflexivity].
Qed.
Print Assumptions C55_script.
Print Assumptions C55_module.
