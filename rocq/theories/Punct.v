(** * Punct: punctuators (token/punctuators.rs). *)
From Verif Require Import Base.

(** punctuators.rs:5-62 *)
Inductive punct :=
| LBrace | LParen | RParen | LBracket | RBracket | Dot | Ellipsis | Semicolon | Comma
| LAngle | RAngle | LEqual | GEqual | Equal | NEqual | StrictEqual | StrictNEqual
| Plus | Minus | Star | Mod | Pow | Inc | Dec | LShift | RShift | ZRShift
| BitAnd | BitOr | BitXor | Bang | Tilde | LogicalAnd | LogicalOr | Question | Colon
| Assign | PlusAssign | MinusAssign | StarAssign | ModAssign | PowAssign
| LShiftAssign | RShiftAssign | ZRShiftAssign | BitAndAssign | BitOrAssign | BitXorAssign
| FatArrow | Slash | SlashAssign | RBrace | Instanceof | QMarkDot | DoubleQMark.

Definition punct_eq_dec (a b : punct) : {a = b} + {a <> b}.
Proof. decide equality. Defined.
Definition punct_eqb (a b : punct) : bool := if punct_eq_dec a b then true else false.

(** punctuators.rs:95-154 [to_str] *)
Definition p_spell (p : punct) : string :=
  match p with
  | LBrace => "{"
  | LParen => "("
  | RParen => ")"
  | LBracket => "["
  | RBracket => "]"
  | Dot => "."
  | Ellipsis => "..."
  | Semicolon => ";"
  | Comma => ","
  | LAngle => "<"
  | RAngle => ">"
  | LEqual => "<="
  | GEqual => ">="
  | Equal => "=="
  | NEqual => "!="
  | StrictEqual => "==="
  | StrictNEqual => "!=="
  | Plus => "+"
  | Minus => "-"
  | Star => "*"
  | Mod => "%"
  | Pow => "**"
  | Inc => "++"
  | Dec => "--"
  | LShift => "<<"
  | RShift => ">>"
  | ZRShift => ">>>"
  | BitAnd => "&"
  | BitOr => "|"
  | BitXor => "^"
  | Bang => "!"
  | Tilde => "~"
  | LogicalAnd => "&&"
  | LogicalOr => "||"
  | Question => "?"
  | Colon => ":"
  | Assign => "="
  | PlusAssign => "+="
  | MinusAssign => "-="
  | StarAssign => "*="
  | ModAssign => "%="
  | PowAssign => "**="
  | LShiftAssign => "<<="
  | RShiftAssign => ">>="
  | ZRShiftAssign => ">>>="
  | BitAndAssign => "&="
  | BitOrAssign => "|="
  | BitXorAssign => "^="
  | FatArrow => "=>"
  | Slash => "/"
  | SlashAssign => "/="
  | RBrace => "}"
  | Instanceof => "instanceof"
  | QMarkDot => "?."
  | DoubleQMark => "??"
  end%string.
Definition p_to_str (p : punct) : str := s2l (p_spell p).

(** punctuators.rs:156-215 [to_string] (a second, separate table) *)
Definition p_to_string (p : punct) : str :=
  s2l match p with
  | LBrace => "{"
  | LParen => "("
  | RParen => ")"
  | LBracket => "["
  | RBracket => "]"
  | Dot => "."
  | Ellipsis => "..."
  | Semicolon => ";"
  | Comma => ","
  | LAngle => "<"
  | RAngle => ">"
  | LEqual => "<="
  | GEqual => ">="
  | Equal => "=="
  | NEqual => "!="
  | StrictEqual => "==="
  | StrictNEqual => "!=="
  | Plus => "+"
  | Minus => "-"
  | Star => "*"
  | Mod => "%"
  | Pow => "**"
  | Inc => "++"
  | Dec => "--"
  | LShift => "<<"
  | RShift => ">>"
  | ZRShift => ">>>"
  | BitAnd => "&"
  | BitOr => "|"
  | BitXor => "^"
  | Bang => "!"
  | Tilde => "~"
  | LogicalAnd => "&&"
  | LogicalOr => "||"
  | Question => "?"
  | Colon => ":"
  | Assign => "="
  | PlusAssign => "+="
  | MinusAssign => "-="
  | StarAssign => "*="
  | ModAssign => "%="
  | PowAssign => "**="
  | LShiftAssign => "<<="
  | RShiftAssign => ">>="
  | ZRShiftAssign => ">>>="
  | BitAndAssign => "&="
  | BitOrAssign => "|="
  | BitXorAssign => "^="
  | FatArrow => "=>"
  | Slash => "/"
  | SlashAssign => "/="
  | RBrace => "}"
  | Instanceof => "instanceof"
  | QMarkDot => "?."
  | DoubleQMark => "??"
  end%string.

(** punctuators.rs:218-280 [From<&str>]; [None] models the panic. *)
Definition p_table : list (string * punct) :=
  [ ("{"%string, LBrace);
    ("("%string, LParen);
    (")"%string, RParen);
    ("["%string, LBracket);
    ("]"%string, RBracket);
    ("."%string, Dot);
    ("..."%string, Ellipsis);
    (";"%string, Semicolon);
    (","%string, Comma);
    ("<"%string, LAngle);
    (">"%string, RAngle);
    ("<="%string, LEqual);
    (">="%string, GEqual);
    ("=="%string, Equal);
    ("!="%string, NEqual);
    ("==="%string, StrictEqual);
    ("!=="%string, StrictNEqual);
    ("+"%string, Plus);
    ("-"%string, Minus);
    ("*"%string, Star);
    ("%"%string, Mod);
    ("**"%string, Pow);
    ("++"%string, Inc);
    ("--"%string, Dec);
    ("<<"%string, LShift);
    (">>"%string, RShift);
    (">>>"%string, ZRShift);
    ("&"%string, BitAnd);
    ("|"%string, BitOr);
    ("^"%string, BitXor);
    ("!"%string, Bang);
    ("~"%string, Tilde);
    ("&&"%string, LogicalAnd);
    ("||"%string, LogicalOr);
    ("?"%string, Question);
    (":"%string, Colon);
    ("="%string, Assign);
    ("+="%string, PlusAssign);
    ("-="%string, MinusAssign);
    ("*="%string, StarAssign);
    ("%="%string, ModAssign);
    ("**="%string, PowAssign);
    ("<<="%string, LShiftAssign);
    (">>="%string, RShiftAssign);
    (">>>="%string, ZRShiftAssign);
    ("&="%string, BitAndAssign);
    ("|="%string, BitOrAssign);
    ("^="%string, BitXorAssign);
    ("=>"%string, FatArrow);
    ("/"%string, Slash);
    ("/="%string, SlashAssign);
    ("}"%string, RBrace);
    ("instanceof"%string, Instanceof);
    ("?."%string, QMarkDot);
    ("??"%string, DoubleQMark) ].
Fixpoint p_lookup (s : str) (t : list (string * punct)) : option punct :=
  match t with
  | [] => None
  | (k, p) :: t' => if str_eqb s (s2l k) then Some p else p_lookup s t'
  end.
Definition p_from (s : str) : option punct := p_lookup s p_table.

(** punctuators.rs:66-83 and syntax.rs:70-87 (the same list; note [Equal]). *)
Definition p_is_assign_op (p : punct) : bool :=
  match p with
  | PlusAssign | MinusAssign | StarAssign | ModAssign | PowAssign | LShiftAssign | RShiftAssign
  | ZRShiftAssign | BitAndAssign | BitOrAssign | BitXorAssign | SlashAssign => true
  | Equal => true
  | _ => false
  end.
