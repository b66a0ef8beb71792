(** * SpecParse: vocabulary for the parser-level properties.  Only definitions. *)
From Verif Require Import Base Punct Token Scanner Ast ParserBase ParserExpr Parser.
From Verif Require Import SpecLex.

(** The panic sites that some input reaches (see the [_reachable] examples in
    PropsParse.v); all others are claimed to be dead code. *)
Definition live_panic (E : env) (p : panic) : Prop :=
  match p with
  | P_FirstToken | P_UnterminatedTemplate | P_ImportString | P_AsyncBacktick
  | P_ToStr | P_ValueToKey | P_Marker | P_ExprSpan => True
  (* arithmetic overflow: only in builds with overflow checks *)
  | P_EofUnderflow | P_EscapeOverflow | P_PatternUnderflow => checked E = true
  | _ => False
  end.

(** The parser run with an explicit bound [n] on recursion depth and on the
    iterations of each loop. *)
Definition parse_within (go : env -> nat -> handler -> PM node) (n : nat) (E : env) (source : str) : outcome :=
  match s_next E GRegExp (s_new source) with
  | ROk t sc =>
    match go E n (run E n) (init_pst t sc) with
    | ROk ast _ => Ok ast
    | RErr e => Err e
    | RPanic p => Panicked p
    | RFuel => OutOfFuel
    end
  | RErr _ => Panicked P_FirstToken
  | RPanic p => Panicked p
  | RFuel => OutOfFuel
  end.

(** [final go E src ast s]: the run on [src] ends in state [s] with tree [ast]. *)
Definition final (go : env -> nat -> handler -> PM node) (E : env) (src : str) (ast : node) (s : pst) : Prop :=
  exists t sc, s_next E GRegExp (s_new src) = ROk t sc /\
    go E (fuel_for src) (run E (fuel_for src)) (init_pst t sc) = ROk ast s.

(** The whole input has been read: nothing left unread, no token pushed back,
    and the current token is the end of input. *)
Definition all_read (s : pst) : Prop :=
  rest (scn s) = [] /\ ttype (cur s) = TEof /\
  forall t, unscanned (scn s) = Some t -> ttype t = TEof.

(** [preserves m]: whenever [m] returns, strictness, the in-function/in-loop/
    in-switch flags, the in/await/yield/return/default permissions and the
    stack of saved permissions are exactly what they were. *)
Definition preserves {A} (m : PM A) : Prop :=
  forall s a s', m s = ROk a s' -> ctx s' = ctx s /\ prm s' = prm s /\ pstack s' = pstack s.

(** ** Automatic semicolon insertion *)
(** What may stand where a statement terminator is required: the token after
    the statement is ";", or it is "}" , or it is the end of input, or a line
    break lies between the two tokens. *)
Inductive terminator (s : pst) : Prop :=
| tm_semicolon : ttype (cur s) = TPunctuator -> tval (cur s) = VPunc Semicolon -> terminator s
| tm_brace : ttype (cur s) = TPunctuator -> tval (cur s) = VPunc RBrace -> terminator s
| tm_eof : ttype (cur s) = TEof -> terminator s
| tm_line : has_lt s = true -> terminator s.
(** [at_semicolon s]: the current token is ";". *)
Definition at_semicolon (s : pst) : Prop := ttype (cur s) = TPunctuator /\ tval (cur s) = VPunc Semicolon.

(** ** Results *)
(** [tree_of E src t]: parsing [src] as a script or as a module returns [t]. *)
Definition tree_of (E : env) (src : str) (t : node) : Prop := parse_script E src = Ok t \/ parse_module E src = Ok t.
Definition error_of (E : env) (src : str) (e : error) : Prop := parse_script E src = Err e \/ parse_module E src = Err e.
