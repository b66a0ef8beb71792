(** * ParserBase: parser state and utility functions (parser/parser.rs:27-103,
    3888-4141). *)
From Verif Require Import Base Codepoint Punct Token Scanner Ast Convert.

(** parser.rs:32-37.  [in_function] is written but never read; kept. *)
Record pctx := mkCtx { strict : bool; in_function : bool; in_iteration : bool; in_switch : bool }.

(** parser.rs:41-48 ([has_tagged] is never used and dropped) *)
Record params := mkParams {
  has_in : bool; has_await : bool; has_yield : bool; has_return : bool; has_default : bool }.

(** parser.rs:69-78 ([goal] is written but never read and dropped).
    [marks] and [pstack] have the top at the head. *)
Record pst := mkP {
  scn : sst;
  has_lt : bool;
  cur : token;
  ctx : pctx;
  prm : params;
  pstack : list params;
  marks : list marker }.

Definition PM := M pst.

Definition set_scn (x : sst) (s : pst) : pst := mkP x (has_lt s) (cur s) (ctx s) (prm s) (pstack s) (marks s).
Definition set_ctx (x : pctx) (s : pst) : pst := mkP (scn s) (has_lt s) (cur s) x (prm s) (pstack s) (marks s).
Definition set_prm (x : params) (s : pst) : pst := mkP (scn s) (has_lt s) (cur s) (ctx s) x (pstack s) (marks s).
Definition set_pstack (x : list params) (s : pst) : pst := mkP (scn s) (has_lt s) (cur s) (ctx s) (prm s) x (marks s).
Definition set_marks (x : list marker) (s : pst) : pst := mkP (scn s) (has_lt s) (cur s) (ctx s) (prm s) (pstack s) x.
Definition set_cur (t : token) (lt : bool) (s : pst) : pst := mkP (scn s) lt t (ctx s) (prm s) (pstack s) (marks s).

Definition ctx_strict (b : bool) (c : pctx) : pctx := mkCtx b (in_function c) (in_iteration c) (in_switch c).
Definition ctx_in_function (b : bool) (c : pctx) : pctx := mkCtx (strict c) b (in_iteration c) (in_switch c).
Definition ctx_in_iteration (b : bool) (c : pctx) : pctx := mkCtx (strict c) (in_function c) b (in_switch c).
Definition ctx_in_switch (b : bool) (c : pctx) : pctx := mkCtx (strict c) (in_function c) (in_iteration c) b.

Definition set_in (b : bool) (p : params) : params := mkParams b (has_await p) (has_yield p) (has_return p) (has_default p).
Definition set_await (b : bool) (p : params) : params := mkParams (has_in p) b (has_yield p) (has_return p) (has_default p).
Definition set_yield (b : bool) (p : params) : params := mkParams (has_in p) (has_await p) b (has_return p) (has_default p).
Definition set_return (b : bool) (p : params) : params := mkParams (has_in p) (has_await p) (has_yield p) b (has_default p).
Definition set_default (b : bool) (p : params) : params := mkParams (has_in p) (has_await p) (has_yield p) (has_return p) b.

(** Run a scanner operation on the embedded scanner. *)
Definition lift_s {A} (m : SM A) : PM A := fun s =>
  match m (scn s) with
  | ROk a sc => ROk a (set_scn sc s)
  | RErr e => RErr e
  | RPanic p => RPanic p
  | RFuel => RFuel
  end.
(** Use the result of a conversion ([?]). *)
Definition lift_c {A} (c : cres A) : PM A := fun s =>
  match c with COk a => ROk a s | CErr e => RErr e | CPanic p => RPanic p end.

Definition getcur : PM token := gets cur.
Definition upd_ctx (f : pctx -> pctx) : PM unit := modify (fun s => set_ctx (f (ctx s)) s).

(** Tests on the current token. [cur_punc p]: type Punctuator and value [p]
    (the guard [TokenType::Punctuator if self.current.matches_punc(..)]). *)
Definition tok_punc (t : token) (p : punct) : bool := tt_eqb (ttype t) TPunctuator && matches_punc t p.
Definition tok_kw (t : token) (k : string) : bool := tt_eqb (ttype t) TKeyword && matches_str t k.
Definition tok_id (t : token) (k : string) : bool := tt_eqb (ttype t) TIdentifier && matches_str t k.
Definition tok_is (t : token) (ty : tokentype) : bool := tt_eqb (ttype t) ty.

Section WithEnv.
Context (E : env).

(** parser.rs:4020-4025 *)
Definition advance (g : lexgoal) : PM token := fun s =>
  match s_next E g (scn s) with
  | ROk t sc => ROk (cur s) (set_cur t (tline (cur s) <? tline t) (set_scn sc s))
  | RErr e => RErr e
  | RPanic p => RPanic p
  | RFuel => RFuel
  end.

(** parser.rs:4114-4120 *)
Definition error_tok {A} (t : token) (e : errtype) : PM A := fail (mkError (tline t) (tcol t) e).
(** parser.rs:4122-4125 *)
Definition error_current {A} (e : errtype) : PM A := t <- advance GRegExp ;; error_tok t e.
(** parser.rs:4127-4135 *)
Definition unexpected {A} (t : token) : PM A := error_tok t (UnexpectedToken (value_show E (tval t))).
(** parser.rs:4137-4140 *)
Definition unexpected_current {A} : PM A := t <- advance GRegExp ;; unexpected t.

(** parser.rs:4027-4033 *)
Definition consume_p (p : punct) (g : lexgoal) : PM token :=
  t <- getcur ;;
  if matches_punc t p then advance g else unexpected_current.
(** parser.rs:4035-4040 *)
Definition consume_kw (k : string) (g : lexgoal) : PM token :=
  t <- getcur ;;
  if tok_kw t k then advance g else unexpected_current.
(** parser.rs:4042-4047 *)
Definition consume_id (k : string) (g : lexgoal) : PM token :=
  t <- getcur ;;
  if tok_id t k then advance g else unexpected_current.
(** parser.rs:4049-4062 *)
Definition consume_semicolon (g : lexgoal) : PM unit :=
  t <- getcur ;;
  lt <- gets has_lt ;;
  if tok_punc t Semicolon then advance g ;;; ret tt
  else if negb lt then
    if tok_punc t RBrace then ret tt
    else if tok_is t TEof then ret tt
    else unexpected_current
  else ret tt.

(** parser.rs:4064-4066 *)
Definition save_params : PM unit := modify (fun s => set_pstack (prm s :: pstack s) s).
(** parser.rs:4068-4070 *)
Definition restore_params : PM unit := fun s =>
  match pstack s with
  | p :: st => ROk tt (set_prm p (set_pstack st s))
  | [] => RPanic P_RestoreParams
  end.
Definition upd_prm (f : params -> params) : PM unit := modify (fun s => set_prm (f (prm s)) s).

(** parser.rs:3954-4018: [with_params] and its variants; [f] computes the new
    parameters from the current ones.  (Simplification: on an error the Rust
    code also pops the stack; the state after an error is unobservable.) *)
Definition with_prm {A} (f : params -> params) (m : PM A) : PM A :=
  save_params ;;; upd_prm f ;;; a <- m ;; restore_params ;;; ret a.
Definition with_in {A} (b : bool) (m : PM A) : PM A := with_prm (set_in b) m.
Definition with_default {A} (b : bool) (m : PM A) : PM A := with_prm (set_default b) m.

(** parser.rs:4072-4078 *)
Definition start_span : PM unit := modify (fun s =>
  set_marks (mkMarker (tline (cur s)) (tcol (cur s)) (tstart (cur s)) :: marks s) s).
Definition here (s : pst) : marker := mkMarker (line (scn s)) (col (scn s)) (current (scn s)).
(** parser.rs:4080-4093 *)
Definition end_span : PM span := fun s =>
  match marks s with
  | m :: ms => ROk (mkSpan m (here s)) (set_marks ms s)
  | [] => RPanic P_Marker
  end.
(** parser.rs:4095-4108 *)
Definition peek_span : PM span := fun s =>
  match marks s with
  | m :: _ => ROk (mkSpan m (here s)) s
  | [] => RPanic P_Marker
  end.

(** Loops; [k] bounds the number of iterations. *)
(** parser.rs:3892-3905 *)
Fixpoint parse_while_punc {A} (k : nat) (p : punct) (f : PM A) : PM (list A) :=
  match k with
  | O => nofuel
  | S k' =>
    t <- getcur ;;
    if tok_punc t p then x <- f ;; xs <- parse_while_punc k' p f ;; ret (x :: xs) else ret []
  end.
(** parser.rs:3907-3920 *)
Fixpoint parse_until_punc {A} (k : nat) (p : punct) (f : PM A) : PM (list A) :=
  match k with
  | O => nofuel
  | S k' =>
    t <- getcur ;;
    if tok_punc t p then ret [] else x <- f ;; xs <- parse_until_punc k' p f ;; ret (x :: xs)
  end.
(** parser.rs:3922-3939 *)
Fixpoint parse_until_punc_or_rest {A} (k : nat) (p : punct) (f : PM A) : PM (list A) :=
  match k with
  | O => nofuel
  | S k' =>
    t <- getcur ;;
    if tok_punc t p then ret []
    else if tok_punc t Ellipsis then x <- f ;; ret [x]
    else x <- f ;; xs <- parse_until_punc_or_rest k' p f ;; ret (x :: xs)
  end.
(** parser.rs:3941-3952 *)
Fixpoint parse_until_eof {A} (k : nat) (f : PM A) : PM (list A) :=
  match k with
  | O => nofuel
  | S k' =>
    t <- getcur ;;
    if tok_is t TEof then ret [] else x <- f ;; xs <- parse_until_eof k' f ;; ret (x :: xs)
  end.

(** [self.ctx.strict && self.current.is_strict_reserved_kw()] (parser.rs:3806, 3853) *)
Definition strict_reserved : PM bool :=
  c <- gets ctx ;; t <- getcur ;;
  if strict c then unwrap P_ToStr (is_strict_reserved_kw t) else ret false.

(** [self.advance(goal)?.to_string()] *)
Definition advance_string (g : lexgoal) : PM str :=
  t <- advance g ;; unwrap P_ToString (t_to_string t).

(** parser.rs:3798-3847 *)
Definition parse_id_reference : PM node :=
  start_span ;;;
  r <- strict_reserved ;;
  if r then error_current UnexpectedStrictReserved else
  t <- getcur ;;
  p <- gets prm ;;
  if tok_is t TIdentifier then
    name <- advance_string GDiv ;;
    c <- gets ctx ;;
    sp <- end_span ;;
    ret (Identifier name
      (if (str_eqb name (s2l "eval") || str_eqb name (s2l "arguments")) && strict c then AStrict else ASimple) sp)
  else if tok_kw t "yield" then
    if has_yield p then error_current YieldInParameter
    else name <- advance_string GDiv ;; sp <- end_span ;; ret (Identifier name ASimple sp)
  else if tok_kw t "await" then
    if has_await p then error_current AwaitExpressionFormalParameter
    else name <- advance_string GDiv ;; sp <- end_span ;; ret (Identifier name ASimple sp)
  else unexpected_current.

(** parser.rs:3849-3876 *)
Definition parse_binding_id : PM binding :=
  start_span ;;;
  r <- strict_reserved ;;
  if r then error_current UnexpectedStrictReserved else
  t <- getcur ;;
  if tok_is t TIdentifier || tok_kw t "yield" || tok_kw t "await" then
    name <- advance_string GDiv ;; sp <- end_span ;; ret (B_Id name sp)
  else unexpected_current.

(** parser.rs:3878-3886 *)
Definition parse_id_name (g : lexgoal) : PM str :=
  t <- getcur ;;
  if tok_is t TIdentifier || tok_is t TKeyword then
    t' <- advance g ;; unwrap P_TokenUnwrap (v_string (tval t'))
  else unexpected_current.

End WithEnv.
