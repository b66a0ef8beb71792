(** * SpecLayout: tokens, and the layouts of token sequences as source text.  Only
    definitions; nothing here refers to the parser or to the scanner. *)
From Verif Require Import Base Punct Token Ast.
From Verif Require Import SpecLex SpecJson.

(** ** Tokens *)
Inductive tk :=
| KP (p : punct)        (* punctuator *)
| KW (w : string)       (* reserved word *)
| KI (x : str)          (* identifier *)
| KNum (x : num)        (* numeric literal *)
| KStr (w : str)        (* string literal *)
| KNull | KBool (b : bool)
| KRegex (p f : str)    (* regular expression: pattern and flags *)
| KTempl (head tail : bool) (raw cooked : str)
                        (* piece of a template: the first one, the last one *)
| KEof.                 (* end of the source *)
(** A token and whether a line terminator stands before it (or in it: templates). *)
Record tok := T { nl : bool; knd : tk }.
Notation P b p := (T b (KP p)).
Notation W b w := (T b (KW w)).
Notation Id b x := (T b (KI x)).

(** ** Layout: token sequences as text *)

(** Parts of regular expressions, and the pieces of templates with the characters
    they denote; [r]: what follows the piece. *)
Inductive regexp_text : str -> Prop :=
| rt_char c : c <> chr "/" -> c <> backslash -> c <> chr "[" -> ~ line_terminator c -> regexp_text [c]
| rt_escape c : ~ line_terminator c -> regexp_text [backslash; c]
| rt_class cs : Forall (fun c => c <> chr "]" /\ c <> backslash /\ ~ line_terminator c) cs -> regexp_text (chr "[" :: cs ++ [chr "]"]).
Inductive template_text : str -> str -> str -> Prop :=
| tt_nil r : template_text [] [] r
| tt_char c v w r : c <> chr "`" -> c <> backslash -> ~ In c [CR; 0x2028; 0x2029] -> (c = chr "$" -> hd_error (w ++ r) <> Some (chr "{")) ->
    template_text v w r -> template_text (c :: v) (c :: w) r
| tt_escape c v w r : ~ In c (s2l "bfnrtvxu0123456789") -> ~ line_terminator c ->
    template_text v w r -> template_text (c :: v) (backslash :: c :: w) r
| tt_letter e x v w r : letter_escape e x -> template_text v w r -> template_text (x :: v) (backslash :: e :: w) r.
Definition template_close (tail : bool) : str := if tail then [chr "`"] else [chr "$"; chr "{"].

(** [spelled E k l r]: the text [l], followed by [r], is one spelling of the token [k]. *)
Inductive spelled (E : env) : tk -> str -> str -> Prop :=
| sl_punct p r :
    longest_match p (s2l (p_spell p) ++ r) -> no_trivia (s2l (p_spell p) ++ r) ->
    (p = Dot -> match r with c :: _ => ~ ascii_digit c | [] => True end) ->
    (r = [] -> In p [RBrace; RParen; RBracket; Semicolon; Inc; Dec]) ->
    spelled E (KP p) (s2l (p_spell p)) r
| sl_word w r : In w reserved_words -> word_ends E r -> spelled E (KW w) (s2l w) r
| sl_ident x r : plain_word E x -> Forall (fun c => ~ line_terminator c) x -> ~ reserved x -> ~ In x [s2l "null"; s2l "true"; s2l "false"] -> word_ends E r ->
    spelled E (KI x) x r
| sl_null r : word_ends E r -> spelled E KNull (s2l "null") r
| sl_true r : word_ends E r -> spelled E (KBool true) (s2l "true") r
| sl_false r : word_ends E r -> spelled E (KBool false) (s2l "false") r
| sl_decimal ip fl fp el z r :
    Forall (digit_of 10) ip -> fraction_part fl fp -> exponent_part el z -> ip ++ fp <> [] ->
    no_leading_zero ip -> (ip = [chr "0"] -> fl = [] -> el = []) -> decimal_ends fl el r ->
    spelled E (KNum (mkNum (positional 10 (ip ++ fp)) (z - Z.of_nat (length fp)))) (ip ++ fl ++ el) r
| sl_radix p b ds r :
    In (p, b) [(chr "b", 2); (chr "B", 2); (chr "o", 8); (chr "O", 8); (chr "x", 16); (chr "X", 16)] ->
    ds <> [] -> Forall (digit_of b) ds -> positional b ds < 2 ^ 63 -> radix_ends r ->
    spelled E (KNum (mkNum (positional b ds) 0)) (chr "0" :: p :: ds) r
| sl_string q w r : q = 0x27 \/ q = 0x22 -> spelled E (KStr w) (quoted q w) r
| sl_regexp ps f r : Forall regexp_text ps -> ps <> [] -> hd_error (concat ps) <> Some (chr "*") ->
    Forall (fun c => id_continue E c /\ c <> backslash /\ ~ line_terminator c) f -> word_ends E r ->
    spelled E (KRegex (concat ps) f) (chr "/" :: concat ps ++ chr "/" :: f) r
| sl_template head tail v w r : template_text v w (template_close tail) ->
    spelled E (KTempl head tail w v) ((if head then chr "`" else chr "}") :: w ++ template_close tail) r
| sl_eof : spelled E KEof [] [].

(** A slash begins a regular expression only after punctuators other than ")" and
    "]", and after reserved words other than "this" and "super". *)
Definition before_regexp (k : tk) : bool :=
  match k with
  | KP RParen | KP RBracket => false
  | KP _ => true
  | KW w => negb (String.eqb w "this" || String.eqb w "super")
  | _ => false
  end.
Definition is_regexp (t : tok) : bool := match knd t with KRegex _ _ => true | _ => false end.
Definition regexp_ok (k : tk) (ts : list tok) : Prop :=
  match ts with t :: _ => is_regexp t = true -> before_regexp k = true | [] => True end.

(** [lay E ts text]: the source text [text] is a layout of the tokens [ts]: white
    space, line terminators and comments in the gaps, and the flags tell which
    gaps contain a line terminator. *)
Inductive lay (E : env) : list tok -> str -> Prop :=
| lay_nil : lay E [] []
| lay_cons b k tr l r ts :
    trivia tr (l ++ r) -> (b = true <-> Exists line_terminator (tr ++ l)) ->
    spelled E k l r -> regexp_ok k ts -> lay E ts r -> lay E (T b k :: ts) (tr ++ l ++ r).
(** A whole source: the flag of the first token is [false] whatever precedes it,
    and the end-of-source token closes the sequence. *)
Inductive source_of (E : env) : list tok -> str -> Prop :=
| src_of k tr l r ts : trivia tr (l ++ r) -> spelled E k l r -> regexp_ok k ts -> lay E ts r -> source_of E (T false k :: ts) (tr ++ l ++ r).

(** ** Kinds of tokens *)
Definition is_p (t : tok) (p : punct) : bool := match knd t with KP q => punct_eqb q p | _ => false end.
Definition is_w (t : tok) (w : string) : bool := match knd t with KW v => String.eqb v w | _ => false end.
Definition no_slash (t : tok) : Prop := is_p t Slash = false /\ is_p t SlashAssign = false.
