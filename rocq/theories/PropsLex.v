(** * PropsLex: the lexical properties C01-C13 and C38. *)
From Verif Require Import Base Codepoint Punct Token Reader Scanner SpecReader SpecLex SpecScan Witness.
From Verif Require Import ReaderFacts LexProofs.

(** ** C01 *)
Theorem C01_reader_answers : forall src ops i o, nth_error ops i = Some o ->
  nth_error (fst (r_run ops (r_new src))) i = Some (expected src (firstn i ops) o).
Proof. exact reader_answers. Qed.
Theorem C01_reader_hands_out_source : forall src ops,
  handed ops (fst (r_run ops (r_new src))) = firstn (nexts ops) src.
Proof. exact reader_hands_out. Qed.
Example C01_witness : fst (r_run [Look 1; Next; Look 5; Next; Look 0; Next; Next] (r_new (s2l "abc")))
  = [Some (chr "b"); Some (chr "a"); None; Some (chr "b"); Some (chr "c"); Some (chr "c"); None].
Proof. reflexivity. Qed.

(** ** C02 *)
Theorem C02_next_terminates : forall E src s g, reach E src s -> s_next E g s <> RFuel.
Proof. exact next_terminates. Qed.
Theorem C02_progress : forall E src s g t s', reach E src s -> fresh s -> s_next E g s = ROk t s' ->
  (ttype t <> TEof -> (length (rest s') < length (rest s))%nat) /\
  (ttype t = TEof -> rest s' = [] /\ trivia (rest s) []).
Proof. exact next_progress. Qed.
Theorem C02_eof_is_final : forall E src s g t s', reach E src s -> fresh s -> s_next E g s = ROk t s' -> ttype t = TEof ->
  forall gs, exists ts s'', s_nexts E gs s' = ROk ts s'' /\ length ts = length gs /\ Forall (fun t => ttype t = TEof) ts.
Proof. exact eof_final. Qed.
Example C02_witness : kinds (tokens GDiv 4 "a ; // x") =
  [(TIdentifier, VStr (s2l "a")); (TPunctuator, VPunc Semicolon); (TEof, VNull); (TEof, VNull)].
Proof. vm_compute. reflexivity. Qed.

(** ** C03, C04 *)
Theorem C03_offsets : forall E src gs ts s', s_nexts E gs (s_new src) = ROk ts s' -> laid E [] ts src (rest s').
Proof. exact offsets. Qed.
(** The layout in terms of single tokens: the slice between the offsets of the
    i-th token is its source text. *)
Theorem C03_slice : forall E src gs ts s' i t, s_nexts E gs (s_new src) = ROk ts s' -> nth_error ts i = Some t ->
  ttype t <> TEof ->
  lexeme E t (firstn (N.to_nat (tend t + 1 - tstart t)) (skipn (N.to_nat (tstart t)) src)) /\
  tstart t <= tend t < N.of_nat (length src).
Proof. exact slice. Qed.
Theorem C03_order : forall E src gs ts s' i j t u, s_nexts E gs (s_new src) = ROk ts s' ->
  (i < j)%nat -> nth_error ts i = Some t -> nth_error ts j = Some u -> ttype t <> TEof -> tend t < tstart u.
Proof. exact token_order. Qed.
Example C03_witness : match tokens GDiv 3 "ab + c" with
  | ROk ts _ => map (fun t => (tstart t, tend t)) ts | _ => [] end = [(0, 1); (3, 3); (5, 5)].
Proof. vm_compute. reflexivity. Qed.

Theorem C04_token_lines : forall E src gs ts s' i t, s_nexts E gs (s_new src) = ROk ts s' -> nth_error ts i = Some t ->
  exists before r, src = before ++ r /\ tline t = 1 + breaks before r /\
    (before <> [] -> N.of_nat (length before) = tend t + 1).
Proof. exact token_lines. Qed.
Theorem C04_error_lines : forall E src gs g ts s e, s_nexts E gs (s_new src) = ROk ts s -> s_next E g s = RErr e ->
  exists before l r, src = before ++ l ++ r /\ rest s = l ++ r /\ err_line e = 1 + breaks (before ++ l) r.
Proof. exact error_lines. Qed.
Example C04_witness : match s_nexts E0 [GDiv; GDiv; GDiv] (s_new (s2l "a" ++ [13; 10] ++ s2l "b" ++ [8232; 13] ++ s2l "c")) with
  | ROk ts _ => map tline ts | _ => [] end = [1; 2; 4].
Proof. vm_compute. reflexivity. Qed.

(** ** C05 *)
Theorem C05_trivia_is_irrelevant : forall E src s g tr, reach E src s -> fresh s -> trivia tr (rest s) ->
  (checked E = true -> ~ at_empty s) ->
  same_scan (s_next E g s) (s_next E g (with_input (tr ++ rest s) s)).
Proof. exact trivia_irrelevant. Qed.
Example C05_witness : trivia (s2l " /* x */" ++ [10] ++ s2l "// y" ++ [10]) (s2l "/r/").
Proof. exact trivia_example. Qed.

(** ** C06 *)
Theorem C06_longest_match : forall E src s g t s' p, reach E src s -> fresh s -> s_next E g s = ROk t s' -> tval t = VPunc p ->
  exists tr, rest s = tr ++ s2l (p_spell p) ++ rest s' /\ trivia tr (s2l (p_spell p) ++ rest s') /\
    longest_match p (s2l (p_spell p) ++ rest s').
Proof. exact punct_longest. Qed.
Example C06_witness : kinds (tokens GDiv 5 "=== >>>= ...** ?.") =
  [(TPunctuator, VPunc StrictEqual); (TPunctuator, VPunc ZRShiftAssign); (TPunctuator, VPunc Ellipsis);
   (TPunctuator, VPunc Pow); (TPunctuator, VPunc Question)].
Proof. vm_compute. reflexivity. Qed.
(** The shift assignment of the language is split in two. *)
Theorem C06_shift_assign_refuted : kinds (tokens GDiv 2 ">>=") = [(TPunctuator, VPunc RShift); (TPunctuator, VPunc Assign)].
Proof. vm_compute. reflexivity. Qed.

(** ** C07 *)
Theorem C07_round_trip : forall p, p_from (p_to_str p) = Some p /\ p_to_string p = p_to_str p.
Proof. exact punct_round_trip. Qed.
Theorem C07_from_spelling : forall w p, p_from w = Some p <-> p_to_str p = w.
Proof. exact punct_from. Qed.
Theorem C07_failure : forall w, p_from w = None <-> forall p, p_to_str p <> w.
Proof. exact punct_failure. Qed.

(** ** C08 *)
Theorem C08_words : forall E src s g tr w r, ucd_sane E -> reach E src s -> fresh s ->
  plain_word E w -> word_ends E r -> rest s = tr ++ w ++ r -> trivia tr (w ++ r) ->
  exists ty v, word_kind w ty v /\ scans_to E g s ty v r.
Proof. exact words. Qed.
(** Conversely a keyword token has one of the reserved words, an identifier token none. *)
Theorem C08_kinds : forall E src s g t s' w, reach E src s -> fresh s -> s_next E g s = ROk t s' -> tval t = VStr w ->
  (ttype t = TKeyword -> reserved w) /\ (ttype t = TIdentifier -> ~ reserved w).
Proof. exact word_kinds. Qed.
Example C08_witness : ucd_sane E0 /\ plain_word E0 (s2l "yield") /\ word_ends E0 (s2l "(") /\
  kinds (tokens GDiv 5 "yield( nullx null true") =
  [(TKeyword, VStr (s2l "yield")); (TPunctuator, VPunc LParen); (TIdentifier, VStr (s2l "nullx")); (TNull, VNull);
   (TBoolean, VStr (s2l "true"))].
Proof. exact words_example. Qed.

(** ** C09 *)
Theorem C09_quoted_text : forall E src s g tr q w r, ucd_sane E -> reach E src s -> fresh s ->
  q = 0x27 \/ q = 0x22 -> rest s = tr ++ quoted q w ++ r -> trivia tr (quoted q w ++ r) ->
  scans_to E g s TString (VStr w) r.
Proof. exact quoted_text. Qed.
Theorem C09_verbatim : forall E src s g tr q w r, ucd_sane E -> reach E src s -> fresh s ->
  q = 0x27 \/ q = 0x22 -> Forall (fun c => c <> q /\ c <> backslash /\ ~ line_terminator c) w ->
  rest s = tr ++ q :: w ++ q :: r -> trivia tr (q :: w ++ q :: r) ->
  scans_to E g s TString (VStr w) r.
Proof. exact verbatim_text. Qed.
Example C09_witness : quoted 0x22 (s2l "it's \" ++ [10; 0x22; 0x2028; 0x1F600]) = 0x22 :: s2l "it's \\\n\" ++ 0x22 :: s2l "\u2028" ++ [0x1F600; 0x22]
  /\ kinds (s_nexts E0 [GDiv] (s_new (quoted 0x22 (s2l "it's \" ++ [10; 0x22; 0x2028; 0x1F600])))) = [(TString, VStr (s2l "it's \" ++ [10; 0x22; 0x2028; 0x1F600]))].
Proof. vm_compute. auto. Qed.

(** ** C10 *)
Theorem C10_decimal : forall E src s g tr ip fl fp el z r, ucd_sane E -> reach E src s -> fresh s ->
  Forall (digit_of 10) ip -> fraction_part fl fp -> exponent_part el z -> ip ++ fp <> [] ->
  no_leading_zero ip -> (ip = [chr "0"] -> fl = [] -> el = []) -> decimal_ends fl el r ->
  rest s = tr ++ (ip ++ fl ++ el) ++ r -> trivia tr ((ip ++ fl ++ el) ++ r) ->
  scans_to E g s TNumeric (VNum (mkNum (positional 10 (ip ++ fp)) (z - Z.of_nat (length fp)))) r.
Proof. exact decimals. Qed.
Theorem C10_radix : forall E src s g tr p b ds r, ucd_sane E -> reach E src s -> fresh s ->
  In (p, b) [(chr "b", 2); (chr "B", 2); (chr "o", 8); (chr "O", 8); (chr "x", 16); (chr "X", 16)] ->
  ds <> [] -> Forall (digit_of b) ds -> positional b ds < 2 ^ 63 -> radix_ends r ->
  rest s = tr ++ (chr "0" :: p :: ds) ++ r -> trivia tr ((chr "0" :: p :: ds) ++ r) ->
  scans_to E g s TNumeric (VNum (mkNum (positional b ds) 0)) r.
Proof. exact radixes. Qed.
(** Every numeric token has the value of the literal it was made from. *)
Theorem C10_sound : forall E src s g t s', reach E src s -> fresh s -> s_next E g s = ROk t s' -> ttype t = TNumeric ->
  exists tr l x, rest s = tr ++ l ++ rest s' /\ trivia tr (l ++ rest s') /\ tval t = VNum x /\ number_lit l x.
Proof. exact numbers_sound. Qed.
Example C10_witness : kinds (tokens GDiv 4 "12.50e-3 0xFf .5 017") =
  [(TNumeric, VNum (mkNum 1250 (-5))); (TNumeric, VNum (mkNum 255 0)); (TNumeric, VNum (mkNum 5 (-1))); (TNumeric, VNum (mkNum 15 0))].
Proof. vm_compute. reflexivity. Qed.
(** The decimal literal 0e5 is not scanned as one number. *)
Theorem C10_zero_exponent_refuted : kinds (tokens GDiv 2 "0e5") = [(TNumeric, VNum (mkNum 0 0)); (TIdentifier, VStr (s2l "e5"))].
Proof. vm_compute. reflexivity. Qed.

(** ** C11 *)
Theorem C11_template_pieces : forall E src s g t s', reach E src s -> fresh s -> s_next E g s = ROk t s' -> ttype t = TTemplate ->
  exists tr raw cooked parts (head tail : bool),
    rest s = tr ++ ((if head then chr "`" else chr "}") :: raw ++ (if tail then [chr "`"] else [chr "$"; chr "{"])) ++ rest s' /\
    trivia tr ((if head then chr "`" else chr "}") :: raw ++ (if tail then [chr "`"] else [chr "$"; chr "{"]) ++ rest s') /\
    tval t = VStr raw /\ thead t = Some head /\ ttail t = Some tail /\ tcooked t = Some cooked /\
    raw = concat parts /\ template_body E cooked parts (if tail then [chr "`"] else [chr "$"; chr "{"]).
Proof. exact template_pieces. Qed.
Theorem C11_matching_brace : forall E src gs ts s' i t, s_nexts E gs (s_new src) = ROk ts s' -> nth_error ts i = Some t ->
  (ttype t = TTemplate -> thead t = Some false -> hd_error (open_after [] (firstn i ts)) = Some Substitution) /\
  (tval t = VPunc RBrace -> hd_error (open_after [] (firstn i ts)) <> Some Substitution).
Proof. exact matching_brace. Qed.
Example C11_witness : match tokens GDiv 8 "`a${ {b} }c${`d`}e`" with
  | ROk ts _ => map (fun t => (tval t, thead t, ttail t)) ts | _ => [] end =
  [(VStr (s2l "a"), Some true, Some false); (VPunc LBrace, None, None); (VStr (s2l "b"), None, None); (VPunc RBrace, None, None);
   (VStr (s2l "c"), Some false, Some false); (VStr (s2l "d"), Some true, Some true); (VStr (s2l "e"), Some false, Some true); (VNull, None, None)].
Proof. vm_compute. reflexivity. Qed.

(** ** C12 *)
Theorem C12_regexp : forall E src s g t s', reach E src s -> fresh s -> s_next E g s = ROk t s' -> ttype t = TRegExp ->
  exists tr parts flags fls, rest s = tr ++ (chr "/" :: concat parts ++ chr "/" :: concat fls) ++ rest s' /\
    trivia tr ((chr "/" :: concat parts ++ chr "/" :: concat fls) ++ rest s') /\
    Forall regexp_part parts /\ tpattern t = Some (concat parts) /\
    tflags t = Some flags /\ Forall2 (ident_piece E) flags fls.
Proof. exact regexps. Qed.
Example C12_witness : match tokens GRegExp 1 "/a[/]\/b/gi x" with
  | ROk ts _ => map (fun t => (tpattern t, tflags t)) ts | _ => [] end = [(Some (s2l "a[/]\/b"), Some (s2l "gi"))].
Proof. vm_compute. reflexivity. Qed.

(** ** C13 *)
Theorem C13_panics_confined : forall E src s g p, reach E src s -> s_next E g s = RPanic p ->
  (p = P_UnterminatedTemplate /\ unterminated_template E (rest s)) \/
  (p = P_EscapeOverflow /\ checked E = true /\ overlong_escape (rest s)) \/
  (p = P_EofUnderflow /\ checked E = true /\ at_empty s).
Proof. exact panics_confined. Qed.
Example C13_witness : tokens GDiv 1 "`abc" = RPanic P_UnterminatedTemplate /\
  tokens GDiv 1 "" = RPanic P_EofUnderflow /\ tokens GDiv 1 "'\u{100000000}'" = RPanic P_EscapeOverflow.
Proof. vm_compute. auto. Qed.

(** ** C38 *)
Theorem C38_token_attributes : forall E src s g t s', reach E src s -> fresh s -> s_next E g s = ROk t s' -> token_wf t.
Proof. exact token_attributes. Qed.
Example C38_witness : match tokens GRegExp 2 "/x/g `y`" with
  | ROk ts _ => map (fun t => (ttype t, tpattern t, tflags t, tcooked t)) ts | _ => [] end =
  [(TRegExp, Some (s2l "x"), Some (s2l "g"), None); (TTemplate, None, None, Some (s2l "y"))].
Proof. vm_compute. reflexivity. Qed.

Print Assumptions C01_reader_answers. Print Assumptions C01_reader_hands_out_source.
Print Assumptions C02_next_terminates. Print Assumptions C02_progress. Print Assumptions C02_eof_is_final.
Print Assumptions C03_offsets. Print Assumptions C03_slice. Print Assumptions C03_order.
Print Assumptions C04_token_lines. Print Assumptions C04_error_lines.
Print Assumptions C05_trivia_is_irrelevant. Print Assumptions C06_longest_match. Print Assumptions C06_shift_assign_refuted.
Print Assumptions C07_round_trip. Print Assumptions C07_from_spelling. Print Assumptions C07_failure.
Print Assumptions C08_words. Print Assumptions C08_kinds. Print Assumptions C09_quoted_text. Print Assumptions C09_verbatim.
Print Assumptions C10_decimal. Print Assumptions C10_radix. Print Assumptions C10_sound. Print Assumptions C10_zero_exponent_refuted.
Print Assumptions C11_template_pieces. Print Assumptions C11_matching_brace. Print Assumptions C12_regexp.
Print Assumptions C13_panics_confined. Print Assumptions C38_token_attributes.
