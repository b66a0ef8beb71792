(** * SpecRelay: the same program, laid out differently (C49, C55).  Only definitions. *)
From Verif Require Import Base Punct Token Scanner Ast SpecLex SpecTouch.

(** A source text as a sequence of pieces, each a gap and the text of a token, and a
    last gap. *)
Definition piece := (str * str)%type.
Fixpoint text (ps : list piece) (last : str) : str :=
  match ps with [] => last | (g, l) :: ps' => g ++ l ++ text ps' last end.

(** White space, comments and line breaks in the gaps; each token has its text; [Z]
    holds of what is left, [last]. *)
Inductive cut (E : env) (Z : Prop) (last : str) : list token -> list piece -> Prop :=
| cut_nil : Z -> cut E Z last [] []
| cut_cons t ts g l ps : trivia g (l ++ text ps last) -> lexeme E t l -> l <> [] -> cut E Z last ts ps ->
    cut E Z last (t :: ts) ((g, l) :: ps).

(** Characters that end every token before them. *)
Definition separator (E : env) (c : N) : Prop :=
  (white_space c \/ line_terminator c \/ In c (s2l "()[]{};,:~`'" ++ [0x22])) /\ ~ id_continue E c.
(** What may follow the token text [l] when [r] did: text that begins with a
    separator, or with the same character (except for a dot after a dot). *)
Definition after (E : env) (l r r' : str) : Prop :=
  (exists c x, r' = c :: x /\ separator E c) \/
  (hd_error r' = hd_error r /\ ~ (l = [chr "."] /\ hd_error r = Some (chr "."))).

(** The same token texts with other gaps: as many line breaks in each gap and in each
    token, and no two tokens run into each other; [Z] holds of what is left. *)
Inductive relaid (E : env) (Z : Prop) (last last' : str) : list piece -> list piece -> Prop :=
| relaid_nil : Z -> relaid E Z last last' [] []
| relaid_cons g g' l ps ps' : trivia g' (l ++ text ps' last') ->
    breaks g' (l ++ text ps' last') = breaks g (l ++ text ps last) -> breaks l (text ps' last') = breaks l (text ps last) ->
    after E l (text ps last) (text ps' last') -> relaid E Z last last' ps ps' ->
    relaid E Z last last' ((g, l) :: ps) ((g', l) :: ps').

(** What is left after the last token: nothing that counts. *)
Definition same_gap (last last' : str) : Prop := trivia last' [] /\ breaks last' [] = breaks last [].

(** The tree, with the lines and columns of its parts but not their offsets.  (Columns
    count from the beginning of a token, C52.) *)
Definition spot (m : marker) : marker := mkMarker (mk_line m) (mk_col m) 0.
Definition spots_only (x : node) : node :=
  touch_node (fun s => mkSpan (spot (sp_start s)) (spot (sp_end s))) (fun a => a) x.

(** Why a parse stopped with an error:
    - because the text ended,
    - because of the tokens read, or
    - because the text [bad], which is next, does not begin with a token. *)
Inductive stop := AtEnd | AtToken | BadText (bad : str).
(** [last] is the text not read when the parse stopped with the error [e]. *)
Definition stops (E : env) (k : stop) (e : error) (last : str) : Prop :=
  match k with
  | AtEnd => trivia last []
  | AtToken => True
  | BadText bad => (exists g, last = g ++ bad /\ trivia g bad) /\
      exists gl c e', s_next E gl (set_curly c (s_new (32 :: bad))) = RErr e' /\ err_type e' = err_type e /\ err_col e' = err_col e
  end.
(** What may be left instead of it: white space and comments; anything; the same text
    after other white space and comments. *)
Definition restops (k : stop) (last last' : str) : Prop :=
  match k with
  | AtEnd => same_gap last last'
  | AtToken => True
  | BadText bad => exists g g', last = g ++ bad /\ last' = g' ++ bad /\ trivia g' bad /\ breaks g' bad = breaks g bad
  end.
