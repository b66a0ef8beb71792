(** * PropsBlame: errors, spans and columns refer to tokens (C50, C51, C52). *)
From Verif Require Import Base Codepoint Punct Token Scanner Ast ParserBase Parser.
From Verif Require Import SpecLex SpecScan SpecTree SpecSpell SpecBlame SpecCol SpecParse Witness BlameProofs.

(** ** C50 *)
(** Every error is explained by a token of the source (at whose place it is reported),
    by text that is not a token, or by an expression that is not a pattern. *)
Theorem C50_errors : forall E src e, error_of E src e -> reported E src e.
Proof. exact errors_reported. Qed.
Example C50_witness : exists c, error_of E0 (s2l "a b") (mkError 1 c (UnexpectedToken (s2l "b"))).
Proof. eexists. left. vm_compute. reflexivity. Qed.
Example C50_witness_scanner : exists c, error_of E0 (LF :: s2l "a + @") (mkError 2 c InvalidOrUnexpectedToken).
Proof. eexists. left. vm_compute. reflexivity. Qed.
Example C50_witness_pattern : exists c, error_of E0 (LF :: s2l "[a, 2] = 1") (mkError 2 c InvalidLhsInAssignment).
Proof. eexists. left. vm_compute. reflexivity. Qed.
(** Errors with another text, at another place or of another kind are not explained. *)
Example C50_not_text : forall c, ~ reported E0 (s2l "a b") (mkError 1 c (UnexpectedToken (s2l "c"))).
Proof. exact not_text. Qed.
(** The line is wrong after a look-ahead (a defect): the [y] is in line 3. *)
Example C50_look_ahead : exists c, error_of E0 (s2l "async" ++ [LF; LF] ++ s2l "x y") (mkError 1 c (UnexpectedToken (s2l "y"))).
Proof. eexists. left. vm_compute. reflexivity. Qed.

(** ** C51 *)
(** Every span in a tree begins at a token and ends behind the same or a later token. *)
Theorem C51_spans : forall E src t x sp, tree_of E src t -> part_of t x -> In sp (own_spans x) -> covers E src sp.
Proof. exact spans_cover. Qed.
Example C51_witness : exists t, tree_of E0 (LF :: s2l "f(a, 1); class A { b() {} }") t.
Proof. eexists. left. vm_compute. reflexivity. Qed.
(** The end of a span is behind the token after the part, and a binary expression
    begins at its right operand (defects). *)
Example C51_too_long : exists a b s1 s2 s3, tree_of E0 (s2l "a + b") (Program [ExpressionStatement (BinaryExpression (s2l "+")
   (Identifier (s2l "a") ASimple (mkSpan (mkMarker 1 a 0) (mkMarker 1 b 3))) (Identifier (s2l "b") ASimple s1)
   AInvalid (mkSpan (mkMarker 1 a 4) s2)) s3] "script" s3).
Proof. do 5 eexists. left. vm_compute. reflexivity. Qed.

(** ** C52 *)
(** The column of a token is that of its end, counted from its own beginning. *)
Theorem C52_tokens : forall E src gs ts s t, s_nexts E gs (s_new src) = ROk ts s -> In t ts ->
  exists before l after, src = before ++ l ++ after /\ lexeme E t l /\ tstart t = N.of_nat (length before) /\
    tline t = 1 + breaks (before ++ l) after /\ tcol t = column 1 l after.
Proof. exact token_columns. Qed.
(** An error of the scanner is reported where reading stopped: in the right line, and
    in the column counted from the beginning of the token. *)
Theorem C52_errors : forall E src gs ts s g e, s_nexts E gs (s_new src) = ROk ts s -> s_next E g s = RErr e ->
  exists before l after k, src = before ++ l ++ after /\ err_line e = 1 + breaks (before ++ l) after /\
    err_col e = column 1 l after + k /\ (after <> [] -> k = 0) /\
    exists b tr, before = b ++ tr /\ tr ++ l ++ after = rest s /\ trivia tr (l ++ after).
Proof. exact error_columns. Qed.
(** For a token without line breaks it is one more than its length, wherever it is. *)
Theorem C52_length : forall l r, breaks l r = 0 -> column 1 l r = 1 + N.of_nat (length l).
Proof. exact column_length. Qed.
(** So columns do not tell where in the line a token is (a defect): [b] begins in column 3. *)
Example C52_not_in_line : exists t u s, s_nexts E0 [GRegExp; GRegExp] (s_new (s2l "a b")) = ROk [t; u] s /\ tstart u = 2 /\ tcol t = 2 /\ tcol u = 2.
Proof. do 3 eexists. split; [vm_compute; reflexivity|]. vm_compute. auto. Qed.
Example C52_witness_error : exists ts s e, s_nexts E0 [GRegExp] (s_new (s2l "a @")) = ROk ts s /\ s_next E0 GRegExp s = RErr e.
Proof. do 3 eexists. split; [vm_compute; reflexivity|]. vm_compute. reflexivity. Qed.
Print Assumptions C50_errors.
Print Assumptions C51_spans.
Print Assumptions C52_tokens.
Print Assumptions C52_errors.
Print Assumptions C52_length.
