(** * Scanner: the lexical analyser (scanner/scanner.rs).

    The scanner's reader is represented by the list [rest] of characters not yet
    handed out; Reader.v models the real buffered reader and ReaderProofs.v
    proves that it behaves exactly like that list. *)
From Verif Require Import Base Codepoint Punct Token.

(** scanner.rs:11-15 *)
Inductive lexgoal := GDiv | GRegExp.

(** scanner.rs:17-21 *)
Inductive brace := BTemplate | BLBrace.

(** scanner.rs:23-31 *)
Record saved := mkSaved {
  sv_start : N; sv_current : N; sv_line : N; sv_col : N; sv_newline : bool;
  sv_raw : str; sv_curly : list brace }.

(** scanner.rs:33-45.  [curly] has the top of the stack at its head. *)
Record sst := mkS {
  start : N; current : N; line : N; col : N; newline : bool;
  rest : str; record_raw : bool; raw_string : str;
  curly : list brace; unscanned : option token; sstate : option saved }.

(** scanner.rs:51-65 *)
Definition s_new (source : str) : sst :=
  mkS 0 0 1 1 false source false [] [] None None.

Definition SM := M sst.

(** Field updates (modelling device for Rust's assignments). *)
Definition set_rest (r : str) (s : sst) : sst :=
  mkS (start s) (current s) (line s) (col s) (newline s) r (record_raw s) (raw_string s) (curly s) (unscanned s) (sstate s).
Definition set_curly (c : list brace) (s : sst) : sst :=
  mkS (start s) (current s) (line s) (col s) (newline s) (rest s) (record_raw s) (raw_string s) c (unscanned s) (sstate s).
Definition set_newline (b : bool) (s : sst) : sst :=
  mkS (start s) (current s) (line s) (col s) b (rest s) (record_raw s) (raw_string s) (curly s) (unscanned s) (sstate s).
Definition set_raw (b : bool) (r : str) (s : sst) : sst :=
  mkS (start s) (current s) (line s) (col s) (newline s) (rest s) b r (curly s) (unscanned s) (sstate s).
Definition set_unscanned (t : option token) (s : sst) : sst :=
  mkS (start s) (current s) (line s) (col s) (newline s) (rest s) (record_raw s) (raw_string s) (curly s) t (sstate s).
Definition set_sstate (v : option saved) (s : sst) : sst :=
  mkS (start s) (current s) (line s) (col s) (newline s) (rest s) (record_raw s) (raw_string s) (curly s) (unscanned s) v.

(** scanner.rs:941-947 *)
Definition s_peek (s : sst) : option N := hd_error (rest s).
Definition s_peek2 (s : sst) : option N * option N := (hd_error (rest s), hd_error (tl (rest s))).

Definition peek : SM (option N) := gets s_peek.
Definition peek2 : SM (option N * option N) := gets s_peek2.

Definition is_c (c : N) (o : option N) : bool :=
  match o with Some x => x =? c | None => false end.

(** scanner.rs:958-966: does reading [cp] with [nxt] following start a new line? *)
Definition counts_line (cp : option N) (nxt : option N) : bool :=
  match cp with
  | Some c => if (c =? 0xD) && is_c 0xA nxt then false else is_line_terminator c
  | None => false
  end.

(** scanner.rs:949-968 *)
Definition s_consume (s : sst) : sst :=
  let cp := hd_error (rest s) in
  let rest' := tl (rest s) in
  let raw' := if record_raw s then match cp with Some c => raw_string s ++ [c] | None => raw_string s end
              else raw_string s in
  if counts_line cp (hd_error rest')
  then mkS (start s) (current s + 1) (line s + 1) 1 true rest' (record_raw s) raw' (curly s) (unscanned s) (sstate s)
  else mkS (start s) (current s + 1) (line s) (col s + 1) (newline s) rest' (record_raw s) raw' (curly s) (unscanned s) (sstate s).
Definition consume : SM (option N) := fun s => ROk (hd_error (rest s)) (s_consume s).

(** scanner.rs:970-973 *)
Definition s_start_new_token (s : sst) : sst :=
  mkS (current s) (current s) (line s) 1 (newline s) (rest s) (record_raw s) (raw_string s) (curly s) (unscanned s) (sstate s).

(** scanner.rs:1067-1073 *)
Definition s_error {A} (t : errtype) : SM A := fun s => RErr (mkError (line s) (col s) t).

(** [self.consume().ok_or(Error{line, col, ..})]: Rust evaluates the argument of
    [ok_or] after the receiver, so the position is the one after consuming. *)
Definition consume_or (t : errtype) : SM N :=
  o <- consume ;;
  match o with Some c => ret c | None => s_error t end.
(** [self.consume().unwrap()] *)
Definition consume_unwrap : SM N :=
  o <- consume ;; unwrap P_ScanUnwrap o.

Section WithEnv.
Context (E : env).

(** scanner.rs:984-1009 *)
Definition mk_token (ty : tokentype) (v : value) (pattern : option str) (flags : option (list N))
  (octal : option bool) (cooked : option str) (head tail : option bool) : SM token := fun s =>
  if current s =? 0 then
    if checked E then RPanic P_EofUnderflow
    else ROk (mkToken ty v pattern flags octal cooked head tail (line s) (col s) (start s) (usize_max E)) s
  else ROk (mkToken ty v pattern flags octal cooked head tail (line s) (col s) (start s) (current s - 1)) s.

(** scanner.rs:1011-1013 *)
Definition token_simple (ty : tokentype) (v : value) : SM token :=
  mk_token ty v None None None None None None.

(** scanner.rs:1015-1020 *)
Definition expect_c (c : N) : SM unit :=
  o <- consume ;;
  if is_c c o then ret tt else s_error InvalidOrUnexpectedToken.

(** scanner.rs:910-923; [read] may return more than the character (used for the
    captured [octal] flag of string literals).  [n] bounds the loop. *)
Fixpoint scan_until_n {B} (n : nat) (pred : N -> bool) (read : SM B) : SM (list B) :=
  match n with
  | O => nofuel
  | S n' =>
    o <- peek ;;
    match o with
    | Some c => if pred c then ret []
                else x <- read ;; xs <- scan_until_n n' pred read ;; ret (x :: xs)
    | None => ret []
    end
  end.
Definition scan_until {B} (pred : N -> bool) (read : SM B) : SM (list B) :=
  fun s => scan_until_n (S (length (rest s))) pred read s.

(** scanner.rs:925-939 *)
Fixpoint scan2_until_n {B} (n : nat) (pred : N -> option N -> bool) (read : SM B) : SM (list B) :=
  match n with
  | O => nofuel
  | S n' =>
    '(o1, o2) <- peek2 ;;
    match o1 with
    | Some c => if pred c o2 then ret []
                else x <- read ;; xs <- scan2_until_n n' pred read ;; ret (x :: xs)
    | None => ret []
    end
  end.
Definition scan2_until {B} (pred : N -> option N -> bool) (read : SM B) : SM (list B) :=
  fun s => scan2_until_n (S (length (rest s))) pred read s.

(** scanner.rs:114-126 (after the two slashes) *)
Fixpoint skip_line_n (n : nat) (s : sst) : option sst :=
  match n with
  | O => None
  | S n' =>
    match s_peek s with
    | Some c => if is_line_terminator c then Some s else skip_line_n n' (s_consume s)
    | None => Some s
    end
  end.
(** scanner.rs:128-144 (after the slash and star) *)
Fixpoint skip_block_n (n : nat) (s : sst) : option sst :=
  match n with
  | O => None
  | S n' =>
    match s_peek2 s with
    | (Some c1, o2) =>
      if (c1 =? chr "*") && is_c (chr "/") o2 then Some (s_consume (s_consume s))
      else skip_block_n n' (s_consume s)
    | (None, _) => Some s
    end
  end.
(** scanner.rs:94-112 *)
Fixpoint scan_comments_n (n : nat) (s : sst) : option sst :=
  match n with
  | O => None
  | S n' =>
    match s_peek2 s with
    | (Some c1, o2) =>
      if is_whitespace c1 then scan_comments_n n' (s_consume s)
      else if (c1 =? 0xD) && is_c 0xA o2 then scan_comments_n n' (s_consume (s_consume s))
      else if is_line_terminator c1 then scan_comments_n n' (s_consume s)
      else if (c1 =? chr "/") && is_c (chr "/") o2 then
        let s2 := s_consume (s_consume s) in
        match skip_line_n (S (length (rest s2))) s2 with
        | Some s3 => scan_comments_n n' s3 | None => None end
      else if (c1 =? chr "/") && is_c (chr "*") o2 then
        let s2 := s_consume (s_consume s) in
        match skip_block_n (S (length (rest s2))) s2 with
        | Some s3 => scan_comments_n n' s3 | None => None end
      else Some s
    | (None, _) => Some s
    end
  end.
Definition scan_comments : SM unit := fun s =>
  match scan_comments_n (S (length (rest s))) s with
  | Some s' => ROk tt s'
  | None => RFuel
  end.

(** scanner.rs:212: fold of hex digits into a u32 *)
Definition u32_max : N := 0xFFFFFFFF.
Fixpoint fold_hex_u32 (acc : N) (ds : str) : option N :=
  match ds with
  | [] => Some acc
  | d :: ds' =>
    let v := acc * 16 + match to_digit d with Some x => x | None => 0 end in
    if u32_max <? v then (if checked E then None else fold_hex_u32 (v mod 0x100000000) ds')
    else fold_hex_u32 v ds'
  end.

(** scanner.rs:222-229 and 536-543: [k] hex digits *)
Fixpoint scan_hex_k (k : nat) (acc : N) (t : errtype) : SM N :=
  match k with
  | O => ret acc
  | S k' =>
    o <- consume ;;
    match o with
    | Some c => if is_hex_digit c
                then scan_hex_k k' (acc * 16 + match to_digit c with Some x => x | None => 0 end) t
                else s_error t
    | None => s_error t
    end
  end.

Definition from_u32_or (t : errtype) (v : N) : SM N :=
  match char_from_u32 v with Some c => ret c | None => s_error t end.

(** scanner.rs:196-236 *)
Definition scan_unicode_esc_seq : SM N :=
  expect_c 0x5C ;;;
  expect_c (chr "u") ;;;
  o <- peek ;;
  if is_c (chr "{") o then
    consume ;;;
    ds <- scan_until (fun c => negb (is_hex_digit c)) (consume_or UnexpectedEOS) ;;
    match fold_hex_u32 0 ds with
    | None => crash P_EscapeOverflow
    | Some v => expect_c (chr "}") ;;; from_u32_or InvalidUnicodeEscapeSequence v
    end
  else
    v <- scan_hex_k 4 0 InvalidUnicodeEscapeSequence ;;
    from_u32_or InvalidOrUnexpectedToken v.

(** scanner.rs:532-549 *)
Definition scan_hex_esc_seq : SM N :=
  expect_c 0x5C ;;;
  expect_c (chr "x") ;;;
  v <- scan_hex_k 2 0 InvalidOrUnexpectedToken ;;
  from_u32_or InvalidOrUnexpectedToken v.

(** scanner.rs:239-275 (the length test is implied by the equality test) *)
Definition keywords : list string :=
  ["do"; "if"; "in"; "for"; "new"; "try"; "var"; "case"; "else"; "this"; "void"; "with"; "enum";
   "await"; "break"; "catch"; "class"; "const"; "super"; "throw"; "while"; "yield";
   "delete"; "export"; "import"; "return"; "switch"; "typeof";
   "default"; "extends"; "finally"; "continue"; "debugger"; "function"; "instanceof"]%string.
Definition is_keyword (v : str) : bool := existsb (fun k => str_eqb v (s2l k)) keywords.

(** scanner.rs:179-191 *)
Definition scan_identifier_start : SM N :=
  o <- peek ;;
  match o with
  | Some c0 =>
    c <- (if c0 =? 0x5C then scan_unicode_esc_seq else consume_unwrap) ;;
    if is_identifier_start E c then ret c else s_error InvalidOrUnexpectedToken
  | None => s_error UnexpectedEOS
  end.

(** scanner.rs:154-162 and 619-627 *)
Definition ident_stop (c : N) : bool := negb (c =? 0x5C) && negb (is_identifier_continue E c).
Definition scan_identifier_cp : SM N :=
  c <- consume_unwrap ;;
  if c =? 0x5C then scan_unicode_esc_seq else ret c.

(** scanner.rs:166-176 *)
Definition identifier_token (v : str) : SM token :=
  if str_eqb v (s2l "null") then token_simple TNull VNull
  else if str_eqb v (s2l "true") || str_eqb v (s2l "false") then token_simple TBoolean (VStr v)
  else if is_keyword v then token_simple TKeyword (VStr v)
  else token_simple TIdentifier (VStr v).

(** scanner.rs:150-177 *)
Definition scan_identifier : SM token :=
  c <- scan_identifier_start ;;
  part <- scan_until ident_stop scan_identifier_cp ;;
  identifier_token (c :: part).

(** Rust core [i64::from_str_radix] on a string of letters and digits (a sign
    cannot occur at the call sites). *)
Definition i64_max : N := 0x7FFFFFFFFFFFFFFF.
Fixpoint i64_digits (radix acc : N) (ds : str) : option N :=
  match ds with
  | [] => Some acc
  | d :: ds' =>
    match to_digit d with
    | Some x =>
      if x <? radix then
        let v := acc * radix + x in
        if i64_max <? v then None else i64_digits radix v ds'
      else None
    | None => None
    end
  end.
Definition i64_from_str_radix (radix : N) (ds : str) : option N :=
  match ds with [] => None | _ => i64_digits radix 0 ds end.

(** Rust core [str::parse::<f64>] on strings over digits, '.', 'e', 'E', '+', '-'
    starting with a digit or '.', without the final rounding. *)
Fixpoint take_digits (s : str) : str * str :=
  match s with
  | c :: s' => if is_decimal_digit c then let '(d, r) := take_digits s' in (c :: d, r) else ([], s)
  | [] => ([], [])
  end.
Definition dec_value (ds : str) : N := fold_left (fun v c => v * 10 + (c - chr "0")) ds 0.
Definition f64_parse (s : str) : option num :=
  let '(ip, r1) := take_digits s in
  let '(fp, r2) := match r1 with
                   | c :: r => if c =? chr "." then take_digits r else ([], r1)
                   | [] => ([], []) end in
  match ip ++ fp with
  | [] => None
  | m =>
    match r2 with
    | [] => Some (mkNum (dec_value m) (- Z.of_nat (length fp)))
    | c :: r3 =>
      if (c =? chr "e") || (c =? chr "E") then
        let '(sgn, r4) := match r3 with
                          | c' :: r => if c' =? chr "+" then (1%Z, r)
                                       else if c' =? chr "-" then ((-1)%Z, r) else (1%Z, r3)
                          | [] => (1%Z, []) end in
        let '(ep, r5) := take_digits r4 in
        match ep, r5 with
        | _ :: _, [] => Some (mkNum (dec_value m) (sgn * Z.of_N (dec_value ep) - Z.of_nat (length fp)))
        | _, _ => None
        end
      else None
    end
  end.

Definition some_or {A} (t : errtype) (o : option A) : SM A :=
  match o with Some a => ret a | None => s_error t end.

Definition not_digit (c : N) : bool := negb (is_decimal_digit c).

(** scanner.rs:361-383 *)
Definition scan_exponent : SM str :=
  o <- peek ;;
  if is_c (chr "e") o || is_c (chr "E") o then
    e <- consume_unwrap ;;
    o' <- peek ;;
    sg <- (if is_c (chr "+") o' || is_c (chr "-") o' then c <- consume_unwrap ;; ret [c] else ret []) ;;
    ds <- scan_until not_digit (consume_or InvalidOrUnexpectedToken) ;;
    ret (e :: sg ++ ds)
  else ret [].

(** scanner.rs:338-359 *)
Definition scan_fractional_part (v : str) : SM num :=
  expect_c (chr ".") ;;;
  fr <- scan_until not_digit (consume_or InvalidOrUnexpectedToken) ;;
  ex <- scan_exponent ;;
  some_or InvalidOrUnexpectedToken (f64_parse (v ++ chr "." :: fr ++ ex)).

(** scanner.rs:385-405 *)
Definition scan_radix_literal (radix : N) : SM num :=
  expect_c (chr "0") ;;;
  consume ;;;
  v <- scan_until (fun c => negb (is_hex_digit c)) (consume_or InvalidOrUnexpectedToken) ;;
  i <- some_or InvalidOrUnexpectedToken (i64_from_str_radix radix v) ;;
  ret (mkNum i 0).

(** scanner.rs:281-333 *)
Definition scan_number : SM num :=
  '(o1, o2) <- peek2 ;;
  if is_c (chr "0") o1 && (is_c (chr "b") o2 || is_c (chr "B") o2) then scan_radix_literal 2
  else if is_c (chr "0") o1 && (is_c (chr "o") o2 || is_c (chr "O") o2) then scan_radix_literal 8
  else if is_c (chr "0") o1 && (is_c (chr "x") o2 || is_c (chr "X") o2) then scan_radix_literal 16
  else if is_c (chr "0") o1 && match o2 with Some c => negb (c =? chr ".") | None => false end then
    v <- scan_until not_digit (consume_or UnexpectedEOS) ;;
    i <- some_or InvalidOrUnexpectedToken
           (match i64_from_str_radix 8 v with Some i => Some i | None => i64_from_str_radix 10 v end) ;;
    ret (mkNum i 0)
  else match o1 with
  | Some c =>
    if is_decimal_digit c then
      v <- scan_until not_digit (consume_or UnexpectedEOS) ;;
      o <- peek ;;
      if is_c (chr ".") o then scan_fractional_part v
      else ex <- scan_exponent ;;
           some_or InvalidOrUnexpectedToken (f64_parse (v ++ ex))
    else if c =? chr "." then scan_fractional_part []
    else s_error InvalidOrUnexpectedToken
  | None => s_error InvalidOrUnexpectedToken
  end.
(** scanner.rs:281-336 *)
Definition scan_numeric_literal : SM token :=
  v <- scan_number ;; token_simple TNumeric (VNum v).

(** scanner.rs:506-530; [i as u32] truncates *)
Definition scan_octal_esc_seq : SM N :=
  consume ;;;
  v <- scan_until (fun c => negb (is_octal_digit c)) (consume_or UnexpectedEOS) ;;
  i <- some_or InvalidOrUnexpectedToken (i64_from_str_radix 8 v) ;;
  from_u32_or InvalidOrUnexpectedToken (i mod 0x100000000).

(** scanner.rs:438-504; [n] bounds the loop over line continuations *)
Fixpoint scan_string_cp_n (n : nat) : SM (N * bool) :=
  match n with
  | O => nofuel
  | S n' =>
    '(o1, o2) <- peek2 ;;
    match o1 with
    | None => s_error InvalidOrUnexpectedToken
    | Some c1 =>
      match (if c1 =? 0x5C then o2 else None) with
      | Some c2 =>
        if is_single_escape_char c2 then
          consume ;;; c <- consume_or UnexpectedEOS ;; ret (unescape c, false)
        else if is_line_terminator c2 then
          consume ;;;
          '(p1, p2) <- peek2 ;;
          (if is_c 0xD p1 && is_c 0xA p2 then consume ;;; ret tt else ret tt) ;;;
          consume ;;;
          scan_string_cp_n n'
        else if c2 =? chr "x" then c <- scan_hex_esc_seq ;; ret (c, false)
        else if c2 =? chr "u" then c <- scan_unicode_esc_seq ;; ret (c, false)
        else if is_octal_digit c2 then c <- scan_octal_esc_seq ;; ret (c, true)
        else c <- consume_or UnexpectedEOS ;; ret (c, false)
      | None =>
        if is_line_terminator c1 then s_error InvalidOrUnexpectedToken
        else c <- consume_or UnexpectedEOS ;; ret (c, false)
      end
    end
  end.
Definition scan_string_literal_cp : SM (N * bool) :=
  fun s => scan_string_cp_n (S (length (rest s))) s.

(** scanner.rs:411-436 *)
Definition scan_string_literal : SM token :=
  o <- peek ;;
  if is_c 0x27 o || is_c 0x22 o then
    quote <- consume_unwrap ;;
    v <- scan_until (fun c => c =? quote) scan_string_literal_cp ;;
    expect_c quote ;;;
    mk_token TString (VStr (map fst v)) None None (Some (existsb snd v)) None None None
  else s_error InvalidOrUnexpectedToken.

(** scanner.rs:577-612; [n] bounds the loop *)
Fixpoint scan_regexp_loop (n : nat) : SM str :=
  match n with
  | O => nofuel
  | S n' =>
    o <- peek ;;
    match o with
    | Some c =>
      if c =? chr "[" then
        g <- scan_until (fun c => c =? chr "]") (consume_or UnexpectedEOS) ;;
        r <- scan_regexp_loop n' ;; ret (g ++ r)
      else if c =? 0x5C then
        a <- consume_or UnexpectedEOS ;;
        b <- consume_or UnexpectedEOS ;;
        r <- scan_regexp_loop n' ;; ret (a :: b :: r)
      else if c =? chr "/" then ret []
      else
        a <- consume_or UnexpectedEOS ;;
        r <- scan_regexp_loop n' ;; ret (a :: r)
    | None => ret []
    end
  end.
(** scanner.rs:571-615 *)
Definition scan_regexp_body : SM str :=
  expect_c (chr "/") ;;;
  o <- peek ;;
  if is_c (chr "*") o then s_error InvalidOrUnexpectedToken
  else
    v <- (fun s => scan_regexp_loop (S (length (rest s))) s) ;;
    expect_c (chr "/") ;;;
    ret v.
(** scanner.rs:617-630 *)
Definition scan_regexp_flags : SM (list N) := scan_until ident_stop scan_identifier_cp.
(** scanner.rs:555-569 *)
Definition scan_regexp_literal : SM token :=
  p <- scan_regexp_body ;;
  f <- scan_regexp_flags ;;
  mk_token TRegExp (VStr []) (Some p) (Some f) None None None None.

(** scanner.rs:706-757 *)
Definition scan_template_char : SM N :=
  '(o1, o2) <- peek2 ;;
  match o1 with
  | None => s_error InvalidOrUnexpectedToken
  | Some c1 =>
    match (if c1 =? 0x5C then o2 else None) with
    | Some c2 =>
      if is_line_terminator c2 then
        consume ;;;
        '(p1, p2) <- peek2 ;;
        (if is_c 0xD p1 && is_c 0xA p2 then consume ;;; consume ;;; ret 0 else consume ;;; ret 0)
      else if (c2 =? chr "b") || (c2 =? chr "f") || (c2 =? chr "v") || (c2 =? chr "n")
              || (c2 =? chr "r") || (c2 =? chr "t") then
        consume ;;; c <- consume_or UnexpectedEOS ;; ret (unescape c)
      else if c2 =? chr "x" then scan_hex_esc_seq
      else if c2 =? chr "u" then scan_unicode_esc_seq
      else consume ;;; consume_or UnexpectedEOS
    | None =>
      if is_line_terminator c1 then consume ;;; ret 0xA
      else consume_or UnexpectedEOS
    end
  end.

(** scanner.rs:643 and 678 *)
Definition template_stop (c1 : N) (o2 : option N) : bool :=
  (c1 =? chr "`") || ((c1 =? chr "$") && is_c (chr "{") o2).

(** scanner.rs:975-982 *)
Definition start_recording : SM unit := modify (fun s => set_raw true (raw_string s) s).
Definition stop_recording : SM str := fun s => ROk (raw_string s) (set_raw false [] s).
Definition push_curly (b : brace) : SM unit := modify (fun s => set_curly (b :: curly s) s).
(** [Vec::pop], no effect on the empty stack *)
Definition pop_curly : SM unit := modify (fun s => set_curly (tl (curly s)) s).

(** scanner.rs:641-668 = 676-703 (the two functions differ in the opening
    character and the [head] flag only) *)
Definition scan_template_piece (opening : N) (head : bool) : SM token :=
  expect_c opening ;;;
  start_recording ;;;
  cooked <- scan2_until template_stop scan_template_char ;;
  raw <- stop_recording ;;
  '(o1, o2) <- peek2 ;;
  tail <- (if is_c (chr "$") o1 && is_c (chr "{") o2 then
             consume ;;; consume ;;; push_curly BTemplate ;;; ret false
           else if is_c (chr "`") o1 then consume ;;; ret true
           else crash P_UnterminatedTemplate) ;;
  mk_token TTemplate (VStr raw) None None (Some false) (Some cooked) (Some head) (Some tail).
(** scanner.rs:636-669 *)
Definition scan_template : SM token := scan_template_piece (chr "`") true.
(** scanner.rs:671-704 *)
Definition scan_template_substitution_tail : SM token := scan_template_piece (chr "}") false.

(** scanner.rs:891-904 *)
Definition punc0 (v : str) : SM token :=
  p <- unwrap P_BadPunctuator (p_from v) ;; token_simple TPunctuator (VPunc p).
Definition punc1 (v : str) : SM token :=
  consume ;;; p <- unwrap P_BadPunctuator (p_from v) ;; token_simple TPunctuator (VPunc p).
Definition punc2 (v : str) : SM token :=
  consume ;;; consume ;;; p <- unwrap P_BadPunctuator (p_from v) ;; token_simple TPunctuator (VPunc p).

(** scanner.rs:763-881 *)
Definition scan_punctuator : SM token :=
  '(o1, o2) <- peek2 ;;
  match o1 with
  | None => s_error InvalidOrUnexpectedToken
  | Some c1 =>
    if c1 =? chr "{" then push_curly BLBrace ;;; punc1 (s2l "{")
    else if c1 =? chr "}" then pop_curly ;;; punc1 (s2l "}")
    else if is_single_char_punctuator c1 then punc1 [c1]
    else if c1 =? chr "?" then
      consume ;;;
      '(p1, p2) <- peek2 ;;
      match (if is_c (chr ".") p1 then p2 else None) with
      | Some c => if is_decimal_digit c then punc0 (s2l "?") else punc1 (s2l "?.")
      | None => if is_c (chr "?") p1 then punc1 (s2l "??") else punc0 (s2l "?")
      end
    else if (c1 =? chr "+") && is_some o2 then
      if is_c (chr "=") o2 then punc2 (s2l "+=")
      else if is_c (chr "+") o2 then punc2 (s2l "++") else punc1 (s2l "+")
    else if (c1 =? chr "-") && is_some o2 then
      if is_c (chr "=") o2 then punc2 (s2l "-=")
      else if is_c (chr "-") o2 then punc2 (s2l "--") else punc1 (s2l "-")
    else if (c1 =? chr "&") && is_some o2 then
      if is_c (chr "=") o2 then punc2 (s2l "&=")
      else if is_c (chr "&") o2 then punc2 (s2l "&&") else punc1 (s2l "&")
    else if (c1 =? chr "|") && is_some o2 then
      if is_c (chr "=") o2 then punc2 (s2l "|=")
      else if is_c (chr "|") o2 then punc2 (s2l "||") else punc1 (s2l "|")
    else if (c1 =? chr "%") && is_some o2 then
      if is_c (chr "=") o2 then punc2 (s2l "%=") else punc1 (s2l "%")
    else if (c1 =? chr "^") && is_some o2 then
      if is_c (chr "=") o2 then punc2 (s2l "^=") else punc1 (s2l "^")
    else if c1 =? chr "." then
      consume ;;;
      '(p1, p2) <- peek2 ;;
      if is_c (chr ".") p1 && is_c (chr ".") p2 then punc2 (s2l "...") else punc0 (s2l ".")
    else if c1 =? chr "<" then
      consume ;;;
      '(p1, p2) <- peek2 ;;
      if is_c (chr "<") p1 && is_c (chr "=") p2 then punc2 (s2l "<<=")
      else if is_c (chr "<") p1 then punc1 (s2l "<<")
      else if is_c (chr "=") p1 then punc1 (s2l "<=")
      else punc0 (s2l "<")
    else if c1 =? chr "!" then
      consume ;;;
      '(p1, p2) <- peek2 ;;
      if is_c (chr "=") p1 && is_c (chr "=") p2 then punc2 (s2l "!==")
      else if is_c (chr "=") p1 then punc1 (s2l "!=")
      else punc0 (s2l "!")
    else if c1 =? chr "*" then
      consume ;;;
      '(p1, p2) <- peek2 ;;
      if is_c (chr "*") p1 && is_c (chr "=") p2 then punc2 (s2l "**=")
      else if is_c (chr "*") p1 then punc1 (s2l "**")
      else if is_c (chr "=") p1 then punc1 (s2l "*=")
      else punc0 (s2l "*")
    else if c1 =? chr "=" then
      consume ;;;
      '(p1, p2) <- peek2 ;;
      if is_c (chr "=") p1 && is_c (chr "=") p2 then punc2 (s2l "===")
      else if is_c (chr "=") p1 then punc1 (s2l "==")
      else if is_c (chr ">") p1 then punc1 (s2l "=>")
      else punc0 (s2l "=")
    else if c1 =? chr ">" then
      consume ;;;
      '(p1, p2) <- peek2 ;;
      if is_c (chr "=") p1 then punc1 (s2l ">=")
      else if is_c (chr ">") p1 && is_c (chr ">") p2 then
        consume ;;;
        '(q1, q2) <- peek2 ;;
        if is_c (chr ">") q1 && is_c (chr "=") q2 then punc2 (s2l ">>>=") else punc1 (s2l ">>>")
      else if is_c (chr ">") p1 then punc1 (s2l ">>")
      else punc0 (s2l ">")
    else s_error InvalidOrUnexpectedToken
  end.

(** scanner.rs:883-889 *)
Definition scan_div_punctuator : SM token :=
  '(o1, o2) <- peek2 ;;
  if is_c (chr "/") o1 && is_c (chr "=") o2 then punc2 (s2l "/=")
  else if is_c (chr "/") o1 then punc1 (s2l "/")
  else s_error InvalidOrUnexpectedToken.

(** scanner.rs:77-91 *)
Definition scan_token (goal : lexgoal) : SM token := fun s =>
  (match s_peek2 s with
   | (Some c, o2) =>
     if is_identifier_start E c then scan_identifier
     else if (c =? 0x22) || (c =? 0x27) then scan_string_literal
     else if (c =? chr ".") && match o2 with Some d => is_decimal_digit d | None => false end
          then scan_numeric_literal
     else if is_decimal_digit c then scan_numeric_literal
     else if c =? chr "`" then scan_template
     else if (c =? chr "}") && match curly s with BTemplate :: _ => true | _ => false end
          then pop_curly ;;; scan_template_substitution_tail
     else if c =? chr "/" then
       match goal with GDiv => scan_div_punctuator | GRegExp => scan_regexp_literal end
     else scan_punctuator
   | (None, _) => token_simple TEof VNull
   end) s.

(** scanner.rs:67-92 *)
Definition s_next (goal : lexgoal) : SM token := fun s =>
  match unscanned s with
  | Some t => ROk t (set_unscanned None s)
  | None =>
    (scan_comments ;;;
     modify s_start_new_token ;;;
     scan_token goal) (set_newline false s)
  end.

(** A sequence of calls of [next] (modelling device). *)
Fixpoint s_nexts (gs : list lexgoal) : SM (list token) :=
  match gs with
  | [] => ret []
  | g :: gs' => t <- s_next g ;; ts <- s_nexts gs' ;; ret (t :: ts)
  end.

(** scanner.rs:1029-1048 *)
Definition save_state : SM unit := modify (fun s =>
  set_sstate (Some (mkSaved (start s) (current s) (line s) (col s) (newline s) (raw_string s) (curly s))) s).

(** scanner.rs:1050-1065 (the reader is not restored) *)
Definition restore_state (t : token) : SM unit := fun s =>
  match sstate s with
  | Some v => ROk tt (mkS (sv_start v) (sv_current v) (sv_line v) (sv_col v) (sv_newline v) (rest s)
                          (record_raw s) (sv_raw v) (sv_curly v) (Some t) None)
  | None => RPanic P_UnsavedState
  end.

End WithEnv.
