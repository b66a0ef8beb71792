(** * Codepoint: character classes (codepoint/codepoint.rs). *)
From Verif Require Import Base.

(** codepoint.rs:18-26 *)
Definition whitespace_list : list N :=
  [0x9; 0xB; 0xC; 0x20; 0xA0; 0xFEFF; 0x1680; 0x2000; 0x2001; 0x2002; 0x2003;
   0x2004; 0x2005; 0x2006; 0x2007; 0x2008; 0x2009; 0x200A; 0x202F; 0x205F; 0x3000].
Definition is_whitespace (c : N) : bool := existsb (N.eqb c) whitespace_list.

(** codepoint.rs:28-33 *)
Definition is_line_terminator (c : N) : bool :=
  (c =? 0xA) || (c =? 0xD) || (c =? 0x2028) || (c =? 0x2029).

Definition in_range (lo hi c : N) : bool := (lo <=? c) && (c <=? hi).

Section WithEnv.
Context (E : env).

(** codepoint.rs:35-41 *)
Definition is_identifier_start (c : N) : bool :=
  if (c =? chr "$") || (c =? chr "_") || in_range (chr "A") (chr "Z") c || in_range (chr "a") (chr "z") c
  then true else ucd_start E c.

(** codepoint.rs:43-48 ('\u{005C}' is the backslash) *)
Definition is_identifier_continue (c : N) : bool :=
  if (c =? chr "$") || (c =? chr "_") || in_range (chr "A") (chr "Z") c || in_range (chr "a") (chr "z") c
     || in_range (chr "0") (chr "9") c || (c =? 0x5C)
  then true else ucd_continue E c.
End WithEnv.

(** codepoint.rs:50-76 *)
Definition is_decimal_digit (c : N) : bool := in_range (chr "0") (chr "9") c.
Definition is_octal_digit (c : N) : bool := in_range (chr "0") (chr "7") c.
Definition is_hex_digit (c : N) : bool :=
  in_range (chr "0") (chr "9") c || in_range (chr "a") (chr "f") c || in_range (chr "A") (chr "F") c.

(** codepoint.rs:78-83: apostrophe, quote, backslash, b f n r t v *)
Definition is_single_escape_char (c : N) : bool :=
  (c =? 0x27) || (c =? 0x22) || (c =? 0x5C) || (c =? chr "b") || (c =? chr "f") || (c =? chr "n")
  || (c =? chr "r") || (c =? chr "t") || (c =? chr "v").

(** codepoint.rs:85-95 *)
Definition unescape (c : N) : N :=
  if c =? chr "b" then 0x8 else
  if c =? chr "f" then 0xC else
  if c =? chr "n" then 0xA else
  if c =? chr "r" then 0xD else
  if c =? chr "t" then 0x9 else
  if c =? chr "v" then 0xB else c.

(** codepoint.rs:97-102 *)
Definition is_single_char_punctuator (c : N) : bool :=
  (c =? chr "{") || (c =? chr "(") || (c =? chr "[") || (c =? chr ";") || (c =? chr ",")
  || (c =? chr "]") || (c =? chr ":") || (c =? chr "?") || (c =? chr "~") || (c =? chr ")").

(** Rust core [char::to_digit(16)] (also used by [i64::from_str_radix]). *)
Definition to_digit (c : N) : option N :=
  if in_range (chr "0") (chr "9") c then Some (c - chr "0") else
  if in_range (chr "a") (chr "f") c then Some (c - chr "a" + 10) else
  if in_range (chr "A") (chr "F") c then Some (c - chr "A" + 10) else None.

(** Rust core [char::from_u32]: Unicode scalar values only. *)
Definition char_from_u32 (v : N) : option N :=
  if (v <? 0x110000) && negb (in_range 0xD800 0xDFFF v) then Some v else None.
