(** * SpecLex: vocabulary of the lexical properties.  Only definitions; nothing
    here refers to the scanner model (types of tokens aside). *)
From Verif Require Import Base Punct Token.

(** Line terminators of ECMAScript: LF, CR, LS, PS. *)
Definition LF : N := 0xA.
Definition CR : N := 0xD.
Definition line_terminator (c : N) : Prop := c = LF \/ c = CR \/ c = 0x2028 \/ c = 0x2029.
Definition line_terminatorb (c : N) : bool := (c =? LF) || (c =? CR) || (c =? 0x2028) || (c =? 0x2029).

(** White space of ECMAScript: TAB VT FF SP NBSP ZWNBSP and the Unicode space separators. *)
Definition white_space (c : N) : Prop :=
  c = 0x9 \/ c = 0xB \/ c = 0xC \/ c = 0x20 \/ c = 0xA0 \/ c = 0xFEFF \/ c = 0x1680
  \/ (0x2000 <= c /\ c <= 0x200A) \/ c = 0x202F \/ c = 0x205F \/ c = 0x3000.

(** [breaks l r]: the number of line breaks completed by the text [l] when it is
    followed by [r].  A CR directly followed by LF is not counted (the LF is). *)
Fixpoint breaks (l r : str) : N :=
  match l with
  | [] => 0
  | c :: l' =>
    (if line_terminatorb c && negb ((c =? CR) && match l' ++ r with d :: _ => d =? LF | [] => false end)
     then 1 else 0) + breaks l' r
  end.

(** [has_close b]: the text contains "*/". *)
Fixpoint has_close (b : str) : bool :=
  match b with
  | c :: b' => ((c =? chr "*") && match b' with d :: _ => d =? chr "/" | [] => false end) || has_close b'
  | [] => false
  end.

Definition starts_line (r : str) : Prop :=
  match r with [] => True | c :: _ => line_terminator c end.

(** [trivia l r]: [l], followed by [r], is a sequence of white space, line
    terminators and comments.  The last constructor is the (non-standard) comment
    that is never closed. *)
Inductive trivia : str -> str -> Prop :=
| tv_nil r : trivia [] r
| tv_space c l r : white_space c -> trivia l r -> trivia (c :: l) r
| tv_line c l r : line_terminator c -> trivia l r -> trivia (c :: l) r
| tv_comment b l r : Forall (fun c => ~ line_terminator c) b -> starts_line (l ++ r) ->
    trivia l r -> trivia (chr "/" :: chr "/" :: b ++ l) r
| tv_block b l r : has_close (b ++ [chr "*"]) = false -> trivia l r ->
    trivia (chr "/" :: chr "*" :: b ++ chr "*" :: chr "/" :: l) r
| tv_open b : has_close b = false -> trivia (chr "/" :: chr "*" :: b) [].

(** The input does not start with trivia. *)
Definition no_trivia (r : str) : Prop :=
  match r with
  | [] => True
  | c :: r' => ~ white_space c /\ ~ line_terminator c /\
      (c = chr "/" -> match r' with d :: _ => d <> chr "/" /\ d <> chr "*" | [] => True end)
  end.

(** ** Digits *)

(** The value of a digit character in bases up to 16. *)
Definition digit_value (c : N) : option N :=
  if (chr "0" <=? c) && (c <=? chr "9") then Some (c - chr "0")
  else if (chr "a" <=? c) && (c <=? chr "f") then Some (c - chr "a" + 10)
  else if (chr "A" <=? c) && (c <=? chr "F") then Some (c - chr "A" + 10)
  else None.
(** [c] is a digit of base [b]. *)
Definition digit_of (b c : N) : Prop := exists d, digit_value c = Some d /\ d < b.
(** Positional value of a digit string. *)
Fixpoint positional_acc (b acc : N) (ds : str) : N :=
  match ds with
  | [] => acc
  | d :: ds' => positional_acc b (acc * b + match digit_value d with Some v => v | None => 0 end) ds'
  end.
Definition positional (b : N) (ds : str) : N := positional_acc b 0 ds.

(** Unicode scalar values. *)
Definition scalar (v : N) : Prop := v < 0x110000 /\ ~ (0xD800 <= v /\ v <= 0xDFFF).

(** ** Identifiers *)
Definition ascii_letter (c : N) : Prop :=
  (chr "a" <= c /\ c <= chr "z") \/ (chr "A" <= c /\ c <= chr "Z").
Definition ascii_digit (c : N) : Prop := chr "0" <= c /\ c <= chr "9".
Definition id_start (E : env) (c : N) : Prop :=
  c = chr "$" \/ c = chr "_" \/ ascii_letter c \/ ucd_start E c = true.
Definition id_continue (E : env) (c : N) : Prop :=
  c = chr "$" \/ c = chr "_" \/ ascii_letter c \/ ascii_digit c \/ ucd_continue E c = true.

(** ** Escapes and the pieces of literals *)
Definition backslash : N := 0x5C.

(** [unicode_escape E l v]: [l] is [\uHHHH] or [\u{H...}] denoting [v].  In the
    braced form the code computes modulo 2^32 in builds without overflow checks. *)
Inductive unicode_escape (E : env) : str -> N -> Prop :=
| ue_four ds : length ds = 4%nat -> Forall (digit_of 16) ds -> scalar (positional 16 ds) ->
    unicode_escape E (backslash :: chr "u" :: ds) (positional 16 ds)
| ue_braced ds v : Forall (digit_of 16) ds -> v = positional 16 ds mod 2 ^ 32 ->
    (checked E = true -> positional 16 ds < 2 ^ 32) -> scalar v ->
    unicode_escape E (backslash :: chr "u" :: chr "{" :: ds ++ [chr "}"]) v.

(** [hex_escape l v]: [l] is [\xHH] denoting [v]. *)
Inductive hex_escape : str -> N -> Prop :=
| he_two ds : length ds = 2%nat -> Forall (digit_of 16) ds ->
    hex_escape (backslash :: chr "x" :: ds) (positional 16 ds).

(** One part of an identifier or of regular-expression flags: an identifier
    character, or (quirk of the code) a backslash followed by a unicode escape. *)
Inductive ident_piece (E : env) : N -> str -> Prop :=
| ip_char c : id_continue E c -> c <> backslash -> ident_piece E c [c]
| ip_escape v l : unicode_escape E l v -> ident_piece E v (backslash :: l).

(** The first part of a word.  The escaped form is reached only if the [ucd]
    crate takes the backslash for an identifier start (it does not). *)
Inductive ident_head (E : env) : N -> str -> Prop :=
| ih_char c : id_start E c -> c <> backslash -> ident_head E c [c]
| ih_escape v l : ucd_start E backslash = true -> unicode_escape E l v -> id_start E v -> ident_head E v l.

(** The meaning of a one-letter escape. *)
Inductive letter_escape : N -> N -> Prop :=
| le_b : letter_escape (chr "b") 8
| le_t : letter_escape (chr "t") 9
| le_n : letter_escape (chr "n") 10
| le_v : letter_escape (chr "v") 11
| le_f : letter_escape (chr "f") 12
| le_r : letter_escape (chr "r") 13.

(** One piece of a string literal with the character it denotes and the "octal
    escape" mark.  [sp_kept]: an unknown escape keeps the backslash (the next
    character is a piece of its own).  [sp_cont]: a line continuation denotes
    nothing, and belongs to the piece after it. *)
Inductive string_piece (E : env) : N * bool -> str -> Prop :=
| sp_char c : c <> backslash -> ~ line_terminator c -> string_piece E (c, false) [c]
| sp_kept : string_piece E (backslash, false) [backslash]
| sp_letter e v : letter_escape e v -> string_piece E (v, false) [backslash; e]
| sp_self c : c = 0x27 \/ c = 0x22 \/ c = backslash -> string_piece E (c, false) [backslash; c]
| sp_hex l v : hex_escape l v -> string_piece E (v, false) l
| sp_unicode l v : unicode_escape E l v -> string_piece E (v, false) l
| sp_octal ds v : ds <> [] -> Forall (digit_of 8) ds -> positional 8 ds < 2 ^ 63 ->
    v = positional 8 ds mod 2 ^ 32 -> scalar v -> string_piece E (v, true) (backslash :: ds)
| sp_cont n x l : n = [CR; LF] \/ (exists c, n = [c] /\ line_terminator c) ->
    string_piece E x l -> string_piece E x (backslash :: n ++ l).

(** One piece of a template with the cooked character: a line continuation
    cooks to NUL (quirk), line terminators cook to LF. *)
Inductive template_piece_of (E : env) : N -> str -> Prop :=
| tp_char c : c <> backslash -> c <> chr "`" -> ~ line_terminator c -> template_piece_of E c [c]
| tp_line c : line_terminator c -> template_piece_of E LF [c]
| tp_cont n : n = [CR; LF] \/ (exists c, n = [c] /\ line_terminator c) ->
    template_piece_of E 0 (backslash :: n)
| tp_letter e v : letter_escape e v -> template_piece_of E v [backslash; e]
| tp_hex l v : hex_escape l v -> template_piece_of E v l
| tp_unicode l v : unicode_escape E l v -> template_piece_of E v l
| tp_other c : template_piece_of E c [backslash; c]
| tp_last : template_piece_of E backslash [backslash].

(** The text [x] starts with the end of a template piece. *)
Definition template_ends (x : str) : Prop :=
  exists y, x = chr "`" :: y \/ x = chr "$" :: chr "{" :: y.
(** [template_body E vs ls r]: the pieces [ls] denote [vs], and no piece, followed
    by the later ones and by [r], starts with a piece end. *)
Inductive template_body (E : env) : str -> list str -> str -> Prop :=
| tb_nil r : template_body E [] [] r
| tb_cons v l vs ls r : template_piece_of E v l -> ~ template_ends (l ++ concat ls ++ r) ->
    template_body E vs ls r -> template_body E (v :: vs) (l :: ls) r.

(** One part of a regular expression body: a character, an escape or a class
    (quirk: escapes are not recognised inside a class). *)
Inductive regexp_part : str -> Prop :=
| rp_char c : c <> chr "/" -> c <> backslash -> c <> chr "[" -> regexp_part [c]
| rp_escape c : regexp_part [backslash; c]
| rp_class cs : Forall (fun c => c <> chr "]") cs -> regexp_part (chr "[" :: cs ++ [chr "]"]).

(** ** Numbers *)

(** Equality of exact decimals [m * 10^e] is equality of the represented
    rational numbers: compare after scaling to the smaller exponent. *)
Definition num_equiv (a b : num) : Prop :=
  (Z.of_N (mant a) * 10 ^ (expo a - Z.min (expo a) (expo b)) =
   Z.of_N (mant b) * 10 ^ (expo b - Z.min (expo a) (expo b)))%Z.

(** The exponent part of a decimal literal and its value. *)
Inductive exponent_part : str -> Z -> Prop :=
| ep_none : exponent_part [] 0
| ep_plain e ds : e = chr "e" \/ e = chr "E" -> ds <> [] -> Forall (digit_of 10) ds ->
    exponent_part (e :: ds) (Z.of_N (positional 10 ds))
| ep_plus e ds : e = chr "e" \/ e = chr "E" -> ds <> [] -> Forall (digit_of 10) ds ->
    exponent_part (e :: chr "+" :: ds) (Z.of_N (positional 10 ds))
| ep_minus e ds : e = chr "e" \/ e = chr "E" -> ds <> [] -> Forall (digit_of 10) ds ->
    exponent_part (e :: chr "-" :: ds) (- Z.of_N (positional 10 ds)).
(** The fraction part: nothing, or a dot and any number of digits. *)
Inductive fraction_part : str -> str -> Prop :=
| fp_none : fraction_part [] []
| fp_dot ds : Forall (digit_of 10) ds -> fraction_part (chr "." :: ds) ds.

(** [number_lit l x]: the text [l] is a numeric literal and its exact value is [x]. *)
Inductive number_lit : str -> num -> Prop :=
| nl_radix p b ds :
    In (p, b) [(chr "b", 2); (chr "B", 2); (chr "o", 8); (chr "O", 8); (chr "x", 16); (chr "X", 16)] ->
    ds <> [] -> Forall (digit_of b) ds -> positional b ds < 2 ^ 63 ->
    number_lit (chr "0" :: p :: ds) (mkNum (positional b ds) 0)
| nl_octal ds : Forall (digit_of 8) ds -> positional 8 ds < 2 ^ 63 ->
    number_lit (chr "0" :: ds) (mkNum (positional 8 ds) 0)
| nl_leading_zero ds : Forall (digit_of 10) ds -> ~ Forall (digit_of 8) ds -> positional 10 ds < 2 ^ 63 ->
    number_lit (chr "0" :: ds) (mkNum (positional 10 ds) 0)
| nl_decimal ip fl fp el z : Forall (digit_of 10) ip -> fraction_part fl fp -> exponent_part el z ->
    ip ++ fp <> [] ->
    number_lit (ip ++ fl ++ el) (mkNum (positional 10 (ip ++ fp)) (z - Z.of_nat (length fp))).

(** ** Tokens *)

(** The reserved words of the language (ECMAScript, with enum, await, yield). *)
Definition reserved_words : list string :=
  ["await"; "break"; "case"; "catch"; "class"; "const"; "continue"; "debugger"; "default"; "delete";
   "do"; "else"; "enum"; "export"; "extends"; "finally"; "for"; "function"; "if"; "import"; "in";
   "instanceof"; "new"; "return"; "super"; "switch"; "this"; "throw"; "try"; "typeof"; "var"; "void";
   "while"; "with"; "yield"]%string.
Definition reserved (w : str) : Prop := exists k, In k reserved_words /\ w = s2l k.

(** The token kind and value of a word. *)
Inductive word_kind (w : str) : tokentype -> value -> Prop :=
| wk_null : w = s2l "null" -> word_kind w TNull VNull
| wk_bool : w = s2l "true" \/ w = s2l "false" -> word_kind w TBoolean (VStr w)
| wk_keyword : reserved w -> word_kind w TKeyword (VStr w)
| wk_ident : w <> s2l "null" -> w <> s2l "true" -> w <> s2l "false" -> ~ reserved w ->
    word_kind w TIdentifier (VStr w).

(** Which attributes a token of each kind carries. *)
Definition token_wf (t : token) : Prop :=
  match ttype t with
  | TIdentifier => exists w, tval t = VStr w /\ ~ reserved w
  | TKeyword => exists w, tval t = VStr w /\ reserved w
  | TBoolean => tval t = VStr (s2l "true") \/ tval t = VStr (s2l "false")
  | TNull | TEof => tval t = VNull
  | TNumeric => exists x, tval t = VNum x
  | TString => exists w, tval t = VStr w
  | TPunctuator => exists p, tval t = VPunc p
  | TRegExp => (exists w, tval t = VStr w) /\ (exists p, tpattern t = Some p) /\ (exists f, tflags t = Some f)
  | TTemplate => (exists w, tval t = VStr w) /\ (exists c, tcooked t = Some c)
      /\ (exists b, thead t = Some b) /\ (exists b, ttail t = Some b)
  end.

(** [lexeme E t l]: [l] is the source text of the token [t]. *)
Inductive lexeme (E : env) (t : token) : str -> Prop :=
| lx_eof : ttype t = TEof -> tval t = VNull -> lexeme E t []
| lx_word c l v ls : ident_head E c l -> Forall2 (ident_piece E) v ls ->
    word_kind (c :: v) (ttype t) (tval t) -> lexeme E t (l ++ concat ls)
| lx_punct p : ttype t = TPunctuator -> tval t = VPunc p -> lexeme E t (s2l (p_spell p))
| lx_number l x : ttype t = TNumeric -> tval t = VNum x -> number_lit l x -> lexeme E t l
| lx_string q vs ls : q = 0x27 \/ q = 0x22 -> ttype t = TString ->
    Forall2 (string_piece E) vs ls -> Forall (fun l => hd_error l <> Some q) ls -> tval t = VStr (map fst vs) ->
    toctal t = Some (existsb snd vs) -> lexeme E t (q :: concat ls ++ [q])
| lx_regexp ps f ls : ttype t = TRegExp -> tval t = VStr [] -> Forall regexp_part ps ->
    Forall2 (ident_piece E) f ls -> tpattern t = Some (concat ps) -> tflags t = Some f ->
    lexeme E t (chr "/" :: concat ps ++ chr "/" :: concat ls)
| lx_template (head tail : bool) vs ls : ttype t = TTemplate ->
    template_body E vs ls (if tail then [chr "`"] else [chr "$"; chr "{"]) -> tval t = VStr (concat ls) -> tcooked t = Some vs ->
    thead t = Some head -> ttail t = Some tail ->
    lexeme E t ((if head then chr "`" else chr "}") :: concat ls ++ (if tail then [chr "`"] else [chr "$"; chr "{"])).

(** ** Texts on which the scanner panics *)

(** Somewhere in the text an opening of a template piece is never closed. *)
Definition unterminated_template (E : env) (text : str) : Prop :=
  exists pre op vs ls, text = pre ++ op :: concat ls /\ (op = chr "`" \/ op = chr "}") /\ template_body E vs ls [].
(** Somewhere in the text there is a braced unicode escape of a number over 2^32. *)
Definition overlong_escape (text : str) : Prop :=
  exists pre ds post, text = pre ++ [backslash; chr "u"; chr "{"] ++ ds ++ post /\ Forall (digit_of 16) ds /\
    2 ^ 32 <= positional 16 ds.

(** ** Longest match *)
Definition is_prefix (a b : str) : Prop := exists r, b = a ++ r.
(** Spellings the scanner never produces as one token: the optional-chaining and
    nullish operators and the shift-assignment [>>=]; [instanceof] is a word. *)
Definition never_scanned (p : punct) : Prop :=
  p = QMarkDot \/ p = DoubleQMark \/ p = RShiftAssign \/ p = Instanceof.
(** [p] is the longest (scannable) punctuator that starts the input. *)
Definition longest_match (p : punct) (input : str) : Prop :=
  ~ never_scanned p /\ is_prefix (s2l (p_spell p)) input /\
  forall q, ~ never_scanned q -> is_prefix (s2l (p_spell q)) input ->
    (String.length (p_spell q) <= String.length (p_spell p))%nat.

(** ** Layout of a token sequence in its source *)

(** [laid E before ts text]: the tokens [ts], read in order from [text] when
    [before] has been read already, were made from consecutive disjoint parts of
    the source, separated by trivia only; [start] is the offset of the first
    character, [end] of the last one, [line] one plus the line breaks passed. *)
Inductive laid (E : env) : str -> list token -> str -> str -> Prop :=
| laid_nil before text : laid E before [] text text
| laid_cons before t ts tr l r final :
    trivia tr (l ++ r) -> lexeme E t l ->
    tstart t = N.of_nat (length (before ++ tr)) ->
    (before ++ tr ++ l <> [] -> tend t = N.of_nat (length (before ++ tr ++ l)) - 1) ->
    tline t = 1 + breaks (before ++ tr ++ l) r ->
    laid E (before ++ tr ++ l) ts r final ->
    laid E before (t :: ts) (tr ++ l ++ r) final.

(** The braces that are open after a sequence of tokens: plain ones and those of
    template substitutions.  Innermost first. *)
Inductive opener := Plain | Substitution.
Definition opens (t : token) (st : list opener) : list opener :=
  match ttype t, tval t with
  | TPunctuator, VPunc LBrace => Plain :: st
  | TPunctuator, VPunc RBrace => tl st
  | TTemplate, _ =>
    let st1 := match thead t with Some true => st | _ => tl st end in
    match ttail t with Some false => Substitution :: st1 | _ => st1 end
  | _, _ => st
  end.
Fixpoint open_after (st : list opener) (ts : list token) : list opener :=
  match ts with [] => st | t :: ts' => open_after (opens t st) ts' end.

(** What a token says, positions aside. *)
Definition same_token (a b : token) : Prop :=
  ttype a = ttype b /\ tval a = tval b /\ tpattern a = tpattern b /\ tflags a = tflags b /\
  toctal a = toctal b /\ tcooked a = tcooked b /\ thead a = thead b /\ ttail a = ttail b.

(** ** Texts written by a user (for the "this text scans to that token" direction) *)

(** What is assumed of the [ucd] crate's tables: of the ASCII characters only
    letters start identifiers, and neither white space nor line terminators do. *)
Record ucd_sane (E : env) : Prop := mkUcdSane {
  us_ascii : forall c, c < 0x80 -> ucd_start E c = true -> ascii_letter c;
  us_space : forall c, ucd_start E c = true -> ~ white_space c /\ ~ line_terminator c
}.

(** A run of identifier characters, without escapes. *)
Definition plain_word (E : env) (w : str) : Prop :=
  exists c v, w = c :: v /\ id_start E c /\ Forall (id_continue E) v /\ Forall (fun c => c <> backslash) w.
(** The text does not continue a word. *)
Definition word_ends (E : env) (r : str) : Prop :=
  match r with [] => True | c :: _ => ~ id_continue E c /\ c <> backslash end.

(** A quoted spelling of a text: quote, backslash and line terminators are escaped. *)
Definition quote_char (q c : N) : str :=
  if (c =? q) || (c =? backslash) then [backslash; c]
  else if c =? LF then [backslash; chr "n"]
  else if c =? CR then [backslash; chr "r"]
  else if c =? 0x2028 then backslash :: s2l "u2028"
  else if c =? 0x2029 then backslash :: s2l "u2029"
  else [c].
Definition quoted (q : N) (w : str) : str := q :: flat_map (quote_char q) w ++ [q].

(** What may follow a decimal literal with fraction text [fl] and exponent text
    [el]: not a letter or digit, and a dot only after a fraction or an exponent. *)
Definition decimal_ends (fl el r : str) : Prop :=
  match r with
  | [] => True
  | c :: _ => ~ ascii_letter c /\ ~ ascii_digit c /\ (c = chr "." -> fl ++ el <> [])
  end.
(** No superfluous leading zero. *)
Definition no_leading_zero (ip : str) : Prop :=
  match ip with c :: _ :: _ => c <> chr "0" | _ => True end.
(** What may follow a 0b/0o/0x literal. *)
Definition radix_ends (r : str) : Prop :=
  match r with [] => True | c :: _ => ~ digit_of 16 c end.
