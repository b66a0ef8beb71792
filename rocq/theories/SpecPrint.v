(** * SpecPrint: expressions and statements as abstract syntax, their printed form
    and the tree they denote.  Only definitions; nothing here refers to the parser. *)
From Verif Require Import Base Punct Token Ast.
From Verif Require Import SpecLex SpecJson SpecLayout SpecGrammar.

(** ** Programs *)
Inductive dkind := DVar | DLet | DConst.
Inductive exp :=
| XId (x : str) | XNum (n : N) | XStr (w : str) | XNull | XBool (b : bool) | XThis
| XPar (e : exp)                          (* ( e ) *)
| XArr (es : list exp)                    (* [e, ..., e] *)
| XDot (e : exp) (x : str)                (* e.x *)
| XIndex (e i : exp)                      (* e[i] *)
| XCall (e : exp) (args : list exp)       (* e(e, ..., e) *)
| XPre (p : punct) (e : exp)              (* ++e, --e *)
| XUn (k : tk) (e : exp)                  (* -e, typeof e, ... *)
| XPow (e e' : exp)                       (* e ** e' *)
| XBin (k : tk) (e e' : exp)              (* e + e', e in e', ... *)
| XCond (e e1 e2 : exp)                   (* e ? e1 : e2 *)
| XAssign (p : punct) (e e' : exp)        (* e = e', e += e', ... *)
| XSeq (e : exp) (es : list exp)          (* (e, e, ..., e) *)
| XObj (ps : list (str * exp))            (* {x: e, ..., x: e} *)
| XNew (e : exp) (args : list exp)        (* new e(e, ..., e) *)
| XPost (e : exp) (p : punct)             (* e++, e-- *)
| XArrow (xs : list str) (e : exp)        (* (x, ..., x) => e *)
| XFun (name : option str) (f : fn)       (* function x(...) {...} *)
| XLam (xs ds : list str) (body : list stm) (* (x, ..., x) => {...} *)
| XClass (x : str) (sup : option exp) (ms : list (str * fn)) (* class x extends e {x(...) {...} ...} *)
(** Parameters, directives, statements. *)
with fn := Fn (xs : list str) (ds : list str) (body : list stm)
with stm :=
| SExp (e : exp)                                          (* e; *)
| SDecl (k : dkind) (ds : list (str * option exp))        (* var x = e, ..., x; *)
| SEmpty                                                  (* ; *)
| SBlock (ss : list stm)                                  (* {s ... s} *)
| SIf (e : exp) (s : stm) (s' : option stm)               (* if (e) s else s *)
| SWhile (e : exp) (s : stm)                              (* while (e) s *)
| SDo (s : stm) (e : exp)                                 (* do s while (e); *)
| SFor (i t u : option exp) (s : stm)                     (* for (e; e; e) s *)
| SForDecl (k : dkind) (x : str) (i t u : option exp) (s : stm) (* for (var x = e; e; e) s *)
| SForIn (k : dkind) (x : str) (e : exp) (s : stm)        (* for (var x in e) s *)
| SForOf (k : dkind) (x : str) (e : exp) (s : stm)        (* for (let x of e) s *)
| SContinue (x : option str) | SBreak (x : option str)    (* continue x; break x; *)
| SReturn (e : option exp) | SThrow (e : exp) | SDebugger (* return e; throw e; debugger; *)
| STry (ss : list stm) (x : option str) (ss1 : list stm) (ss2 : option (list stm)) (* try {...} catch (x) {...} finally {...} *)
| STryFinally (ss ss2 : list stm)                         (* try {...} finally {...} *)
| SSwitch (e : exp) (cs : list (option exp * list stm))   (* switch (e) {case e: ... default: ...} *)
| SLabel (x : str) (s : stm)                              (* x: s *)
| SFun (x : str) (f : fn)                                 (* function x(...) {...} *)
| SClass (x : str) (sup : option exp) (ms : list (str * fn)). (* class x extends e {x(...) {...} ...} *)

(** What may be assigned to. *)
Definition assignable (e : exp) : Prop :=
  match e with
  | XId x => x <> s2l "eval" /\ x <> s2l "arguments"
  | XDot _ _ | XIndex _ _ => True
  | _ => False
  end.
(** The identifier can be written down: its characters are those of a name. *)
Definition writable (E : env) (x : str) : Prop :=
  plain_word E x /\ Forall (fun c => ~ line_terminator c) x.
Definition literal_word (x : str) : Prop := In x [s2l "null"; s2l "true"; s2l "false"].
Definition a_name (E : env) (x : str) : Prop := writable E x /\ ident x /\ ~ literal_word x.
Definition a_prop (E : env) (x : str) : Prop := writable E x /\ ~ literal_word x.
(** Statements that are not declarations, which may follow "if (e)" etc. *)
Definition plain_stm (s : stm) : Prop :=
  match s with SDecl DLet _ | SDecl DConst _ | SFun _ _ | SClass _ _ _ => False | _ => True end.

Definition all {A} (Q : A -> Prop) : list A -> Prop := fold_right (fun x P => Q x /\ P) True.
Definition opt {A} (Q : A -> Prop) (o : option A) : Prop := match o with Some x => Q x | None => True end.
Definition is_none {A} (o : option A) : bool := match o with None => true | Some _ => false end.
Definition default (c : option exp * list stm) : bool := is_none (fst c).

(** The programs of the property: identifiers are identifiers, operators are
    operators, targets of assignments are assignable, statements stand where they
    may stand. *)
Fixpoint proper (E : env) (e : exp) : Prop :=
  match e with
  | XId x => a_name E x
  | XNum _ | XStr _ | XNull | XBool _ | XThis => True
  | XPar e => proper E e
  | XArr es => all (proper E) es
  | XDot e x => proper E e /\ a_prop E x
  | XIndex e i => proper E e /\ proper E i
  | XCall e args => proper E e /\ all (proper E) args
  | XPre p e => update_op p /\ assignable e /\ proper E e
  | XUn k e => unary_op k /\ proper E e
  | XPow e e' => proper E e /\ proper E e'
  | XBin k e e' => level true k <> 0 /\ proper E e /\ proper E e'
  | XCond e e1 e2 => proper E e /\ proper E e1 /\ proper E e2
  | XAssign p e e' => (p = Assign \/ assign_op p) /\ assignable e /\ proper E e /\ proper E e'
  | XSeq e es => proper E e /\ all (proper E) es
  | XObj ps => all (fun p => a_prop E (fst p) /\ proper E (snd p)) ps
  | XNew e args => proper E e /\ all (proper E) args
  | XPost e p => update_op p /\ assignable e /\ proper E e
  | XArrow xs e => all (a_name E) xs /\ proper E e
  | XFun x f => opt (a_name E) x /\ fproper E f
  | XLam xs ds ss => all (a_name E) xs /\ all (sproper E fun_place) ss
  | XClass x sup ms => a_name E x /\ opt (proper E) sup /\ all (fun m => a_prop E (fst m) /\ key_name (fst m) /\ fproper E (snd m)) ms
  end
with fproper (E : env) (f : fn) : Prop :=
  match f with Fn xs ds ss => all (a_name E) xs /\ all (sproper E fun_place) ss end
with sproper (E : env) (c : place) (s : stm) : Prop :=
  match s with
  | SExp e | SThrow e => proper E e
  | SDecl k ds => ds <> [] /\ all (fun d => a_name E (fst d) /\ opt (proper E) (snd d) /\ (k = DConst -> snd d <> None)) ds
  | SEmpty | SDebugger => True
  | SBlock ss => all (sproper E c) ss
  | SIf e s s' => proper E e /\ sproper E c s /\ plain_stm s /\ opt (fun s' => sproper E c s' /\ plain_stm s') s'
  | SWhile e s | SDo s e => proper E e /\ sproper E (loop_place c) s /\ plain_stm s
  | SFor i t u s => opt (proper E) i /\ opt (proper E) t /\ opt (proper E) u /\ sproper E (loop_place c) s /\ plain_stm s
  | SForDecl k x i t u s => a_name E x /\ opt (proper E) i /\ opt (proper E) t /\ opt (proper E) u /\ sproper E (loop_place c) s /\ plain_stm s
  | SForIn k x e s => a_name E x /\ proper E e /\ sproper E (loop_place c) s /\ plain_stm s
  | SForOf k x e s => k <> DVar /\ a_name E x /\ proper E e /\ sproper E (loop_place c) s /\ plain_stm s
  | SContinue x => opt (a_name E) x /\ (x = None -> in_loop c = true)
  | SBreak x => opt (a_name E) x /\ (x = None -> in_loop c || in_sw c = true)
  | SReturn e => opt (proper E) e /\ in_fun c = true
  | STry ss x ss1 ss2 => all (sproper E c) ss /\ opt (a_name E) x /\ all (sproper E c) ss1 /\ opt (all (sproper E c)) ss2
  | STryFinally ss ss2 => all (sproper E c) ss /\ all (sproper E c) ss2
  | SSwitch e cs => proper E e /\ cs <> [] /\ (length (filter default cs) <= 1)%nat /\
      all (fun a => opt (proper E) (fst a) /\ all (sproper E (switch_place c)) (snd a)) cs
  | SLabel x s => a_name E x /\ sproper E c s /\ plain_stm s
  | SFun x f => a_name E x /\ fproper E f
  | SClass x sup ms => a_name E x /\ opt (proper E) sup /\ all (fun m => a_prop E (fst m) /\ key_name (fst m) /\ fproper E (snd m)) ms
  end.

(** ** Parentheses and braces *)
(** How tightly the outermost operator binds. *)
Definition tight (e : exp) : N :=
  match e with
  | XAssign _ _ _ | XCond _ _ _ | XObj _ | XNew _ _ | XPost _ _ | XArrow _ _ | XFun _ _ | XLam _ _ _ | XClass _ _ _ => 0
  | XBin k _ _ => level true k
  | XPow _ _ => 12
  | XUn _ _ => 13
  | XPre _ _ => 14
  | _ => 15
  end.
Definition at_least (q : N) (e : exp) : exp := if tight e <? q then XPar e else e.
(** The operand of "new": no calls. *)
Fixpoint newable (e : exp) : bool :=
  match e with
  | XDot e _ | XIndex e _ => newable e
  | XCall _ _ => false
  | _ => 15 <=? tight e
  end.
Definition callee (e : exp) : exp := if newable e then e else XPar e.
(** The first word of an expression is a string literal (which would be taken for a
    directive), an opening brace, "function" or "class". *)
Fixpoint begins (w : exp -> bool) (e : exp) : bool :=
  w e ||
  match e with
  | XDot e _ | XIndex e _ | XCall e _ | XPow e _ | XBin _ e _ | XCond e _ _ | XAssign _ e _ | XPost e _ => begins w e
  | _ => false
  end.
Definition brace_first : exp -> bool := begins (fun e => match e with XObj _ => true | _ => false end).
Definition odd_first : exp -> bool := begins (fun e => match e with XObj _ | XFun _ _ | XClass _ _ _ | XStr _ => true | _ => false end).
Definition statement (e : exp) : exp := if odd_first e then XPar e else e.
Definition arrow_body (e : exp) : exp := if brace_first e then XPar e else e.
(** The operator "in" outside parentheses. *)
Definition is_in (k : tk) : bool := match k with KW w => String.eqb w "in" | _ => false end.
Fixpoint open_in (e : exp) : bool :=
  match e with
  | XBin k e e' => is_in k || open_in e || open_in e'
  | XCond e _ e2 => open_in e || open_in e2
  | XAssign _ _ e | XArrow _ e => open_in e
  | _ => false
  end.
Definition for_head (e : exp) : exp := if open_in e then XPar e else e.
(** An "else" after the statement would belong to it. *)
Fixpoint open_if (s : stm) : bool :=
  match s with
  | SIf _ _ None => true
  | SIf _ _ (Some s) | SWhile _ s | SFor _ _ _ s | SForDecl _ _ _ _ _ s | SForIn _ _ _ s | SForOf _ _ _ s | SLabel _ s => open_if s
  | _ => false
  end.
Definition closed (s : stm) : stm := if open_if s then SBlock [s] else s.

(** Parentheses where an operand binds less tightly than its place requires, and
    braces around the statement between "if" and "else" if it would take the "else". *)
Fixpoint parens (e : exp) : exp :=
  match e with
  | XPar e => XPar (parens e)
  | XArr es => XArr (map parens es)
  | XDot e x => XDot (at_least 15 (parens e)) x
  | XIndex e i => XIndex (at_least 15 (parens e)) (parens i)
  | XCall e args => XCall (at_least 15 (parens e)) (map parens args)
  | XPre p e => XPre p (parens e)
  | XUn k e => XUn k (at_least 13 (parens e))
  | XPow e e' => XPow (at_least 14 (parens e)) (at_least 12 (parens e'))
  | XBin k e e' => XBin k (at_least (level true k) (parens e)) (at_least (right_level (level true k)) (parens e'))
  | XCond e e1 e2 => XCond (at_least 1 (parens e)) (parens e1) (parens e2)
  | XAssign p e e' => XAssign p (parens e) (parens e')
  | XSeq e es => XSeq (parens e) (map parens es)
  | XObj ps => XObj (map (fun p => (fst p, parens (snd p))) ps)
  | XNew e args => XNew (callee (parens e)) (map parens args)
  | XPost e p => XPost (parens e) p
  | XArrow xs e => XArrow xs (arrow_body (parens e))
  | XFun x f => XFun x (fparens f)
  | XLam xs ds ss => XLam xs ds (map sparens ss)
  | XClass x sup ms => XClass x (option_map (fun e => at_least 15 (parens e)) sup) (map (fun m => (fst m, fparens (snd m))) ms)
  | XId _ | XNum _ | XStr _ | XNull | XBool _ | XThis => e
  end
with fparens (f : fn) : fn :=
  match f with Fn xs ds ss => Fn xs ds (map sparens ss) end
with sparens (s : stm) : stm :=
  match s with
  | SExp e => SExp (statement (parens e))
  | SDecl k ds => SDecl k (map (fun d => (fst d, option_map parens (snd d))) ds)
  | SBlock ss => SBlock (map sparens ss)
  | SIf e s s' => SIf (parens e) (match s' with None => sparens s | Some _ => closed (sparens s) end) (option_map sparens s')
  | SWhile e s => SWhile (parens e) (sparens s)
  | SDo s e => SDo (sparens s) (parens e)
  | SFor i t u s => SFor (option_map (fun e => for_head (parens e)) i) (option_map parens t) (option_map parens u) (sparens s)
  | SForDecl k x i t u s => SForDecl k x (option_map (fun e => for_head (parens e)) i) (option_map parens t) (option_map parens u) (sparens s)
  | SForIn k x e s => SForIn k x (parens e) (sparens s)
  | SForOf k x e s => SForOf k x (parens e) (sparens s)
  | SReturn e => SReturn (option_map parens e)
  | SThrow e => SThrow (parens e)
  | STry ss x ss1 ss2 => STry (map sparens ss) x (map sparens ss1) (option_map (map sparens) ss2)
  | STryFinally ss ss2 => STryFinally (map sparens ss) (map sparens ss2)
  | SSwitch e cs => SSwitch (parens e) (map (fun a => (option_map parens (fst a), map sparens (snd a))) cs)
  | SLabel x s => SLabel x (sparens s)
  | SFun x f => SFun x (fparens f)
  | SClass x sup ms => SClass x (option_map (fun e => at_least 15 (parens e)) sup) (map (fun m => (fst m, fparens (snd m))) ms)
  | SEmpty | SContinue _ | SBreak _ | SDebugger => s
  end.
(** Nothing is missing. *)
Fixpoint fits (e : exp) : Prop :=
  match e with
  | XPar e => fits e
  | XArr es => all fits es
  | XDot e _ => fits e /\ 15 <= tight e
  | XIndex e i => fits e /\ fits i /\ 15 <= tight e
  | XCall e args => fits e /\ all fits args /\ 15 <= tight e
  | XPre _ e => fits e
  | XUn _ e => fits e /\ 13 <= tight e
  | XPow e e' => fits e /\ fits e' /\ 14 <= tight e /\ 12 <= tight e'
  | XBin k e e' => fits e /\ fits e' /\ level true k <= tight e /\ right_level (level true k) <= tight e'
  | XCond e e1 e2 => fits e /\ fits e1 /\ fits e2 /\ 1 <= tight e
  | XAssign _ e e' => fits e /\ fits e'
  | XSeq e es => fits e /\ all fits es
  | XObj ps => all (fun p => fits (snd p)) ps
  | XNew e args => fits e /\ all fits args /\ newable e = true
  | XPost e _ => fits e
  | XArrow _ e => fits e /\ brace_first e = false
  | XFun _ f => ffits f
  | XLam _ _ ss => all sfits ss
  | XClass _ sup ms => opt (fun e => fits e /\ 15 <= tight e) sup /\ all (fun m => ffits (snd m)) ms
  | XId _ | XNum _ | XStr _ | XNull | XBool _ | XThis => True
  end
with ffits (f : fn) : Prop :=
  match f with Fn _ _ ss => all sfits ss end
with sfits (s : stm) : Prop :=
  match s with
  | SExp e => fits e /\ odd_first e = false
  | SThrow e => fits e
  | SDecl _ ds => all (fun d => opt fits (snd d)) ds
  | SBlock ss => all sfits ss
  | SIf e s s' => fits e /\ sfits s /\ opt sfits s' /\ (s' <> None -> open_if s = false)
  | SWhile e s | SDo s e | SForIn _ _ e s | SForOf _ _ e s => fits e /\ sfits s
  | SFor i t u s | SForDecl _ _ i t u s => opt (fun e => fits e /\ open_in e = false) i /\ opt fits t /\ opt fits u /\ sfits s
  | SReturn e => opt fits e
  | STry ss _ ss1 ss2 => all sfits ss /\ all sfits ss1 /\ opt (all sfits) ss2
  | STryFinally ss ss2 => all sfits ss /\ all sfits ss2
  | SSwitch e cs => fits e /\ all (fun a => opt fits (fst a) /\ all sfits (snd a)) cs
  | SLabel _ s => sfits s
  | SFun _ f => ffits f
  | SClass _ sup ms => opt (fun e => fits e /\ 15 <= tight e) sup /\ all (fun m => ffits (snd m)) ms
  | SEmpty | SContinue _ | SBreak _ | SDebugger => True
  end.

(** The expression without its parentheses, and without braces around single statements. *)
Fixpoint bare_exp (e : exp) : exp :=
  match e with
  | XPar e => bare_exp e
  | XArr es => XArr (map bare_exp es)
  | XDot e x => XDot (bare_exp e) x
  | XIndex e i => XIndex (bare_exp e) (bare_exp i)
  | XCall e args => XCall (bare_exp e) (map bare_exp args)
  | XPre p e => XPre p (bare_exp e)
  | XUn k e => XUn k (bare_exp e)
  | XPow e e' => XPow (bare_exp e) (bare_exp e')
  | XBin k e e' => XBin k (bare_exp e) (bare_exp e')
  | XCond e e1 e2 => XCond (bare_exp e) (bare_exp e1) (bare_exp e2)
  | XAssign p e e' => XAssign p (bare_exp e) (bare_exp e')
  | XSeq e es => XSeq (bare_exp e) (map bare_exp es)
  | XObj ps => XObj (map (fun p => (fst p, bare_exp (snd p))) ps)
  | XNew e args => XNew (bare_exp e) (map bare_exp args)
  | XPost e p => XPost (bare_exp e) p
  | XArrow xs e => XArrow xs (bare_exp e)
  | XFun x f => XFun x (bare_fn f)
  | XLam xs ds ss => XLam xs ds (map bare_stm ss)
  | XClass x sup ms => XClass x (option_map bare_exp sup) (map (fun m => (fst m, bare_fn (snd m))) ms)
  | XId _ | XNum _ | XStr _ | XNull | XBool _ | XThis => e
  end
with bare_fn (f : fn) : fn :=
  match f with Fn xs ds ss => Fn xs ds (map bare_stm ss) end
with bare_stm (s : stm) : stm :=
  match s with
  | SExp e => SExp (bare_exp e)
  | SDecl k ds => SDecl k (map (fun d => (fst d, option_map bare_exp (snd d))) ds)
  | SBlock ss => match ss with [s] => bare_stm s | _ => SBlock (map bare_stm ss) end
  | SIf e s s' => SIf (bare_exp e) (bare_stm s) (option_map bare_stm s')
  | SWhile e s => SWhile (bare_exp e) (bare_stm s)
  | SDo s e => SDo (bare_stm s) (bare_exp e)
  | SFor i t u s => SFor (option_map bare_exp i) (option_map bare_exp t) (option_map bare_exp u) (bare_stm s)
  | SForDecl k x i t u s => SForDecl k x (option_map bare_exp i) (option_map bare_exp t) (option_map bare_exp u) (bare_stm s)
  | SForIn k x e s => SForIn k x (bare_exp e) (bare_stm s)
  | SForOf k x e s => SForOf k x (bare_exp e) (bare_stm s)
  | SReturn e => SReturn (option_map bare_exp e)
  | SThrow e => SThrow (bare_exp e)
  | STry ss x ss1 ss2 => STry (map bare_stm ss) x (map bare_stm ss1) (option_map (map bare_stm) ss2)
  | STryFinally ss ss2 => STryFinally (map bare_stm ss) (map bare_stm ss2)
  | SSwitch e cs => SSwitch (bare_exp e) (map (fun a => (option_map bare_exp (fst a), map bare_stm (snd a))) cs)
  | SLabel x s => SLabel x (bare_stm s)
  | SFun x f => SFun x (bare_fn f)
  | SClass x sup ms => SClass x (option_map bare_exp sup) (map (fun m => (fst m, bare_fn (snd m))) ms)
  | SEmpty | SContinue _ | SBreak _ | SDebugger => s
  end.

(** ** The printed form *)
Fixpoint uint_text (u : Decimal.uint) : str :=
  match u with
  | Decimal.Nil => []
  | Decimal.D0 u => chr "0" :: uint_text u | Decimal.D1 u => chr "1" :: uint_text u
  | Decimal.D2 u => chr "2" :: uint_text u | Decimal.D3 u => chr "3" :: uint_text u
  | Decimal.D4 u => chr "4" :: uint_text u | Decimal.D5 u => chr "5" :: uint_text u
  | Decimal.D6 u => chr "6" :: uint_text u | Decimal.D7 u => chr "7" :: uint_text u
  | Decimal.D8 u => chr "8" :: uint_text u | Decimal.D9 u => chr "9" :: uint_text u
  end.
Definition decimal (n : N) : str := uint_text (N.to_uint n).
Definition kind_text (k : dkind) : string := match k with DVar => "var" | DLet => "let" | DConst => "const" end.
(** The words of an expression and of a statement, in order. *)
Fixpoint commas (l : list (list str)) : list str :=
  match l with
  | [] => []
  | [x] => x
  | x :: l' => x ++ s2l "," :: commas l'
  end.
Definition maybe {A} (f : A -> list str) (o : option A) : list str := match o with Some x => f x | None => [] end.
Fixpoint words (e : exp) : list str :=
  match e with
  | XId x => [x]
  | XNum n => [decimal n]
  | XStr w => [quoted 0x22 w]
  | XNull => [s2l "null"]
  | XBool b => [s2l (if b then "true" else "false")]
  | XThis => [s2l "this"]
  | XPar e => s2l "(" :: words e ++ [s2l ")"]
  | XArr es => s2l "[" :: commas (map words es) ++ [s2l "]"]
  | XDot e x => words e ++ [s2l "."; x]
  | XIndex e i => words e ++ s2l "[" :: words i ++ [s2l "]"]
  | XCall e args => words e ++ s2l "(" :: commas (map words args) ++ [s2l ")"]
  | XPre p e => s2l (p_spell p) :: words e
  | XUn k e => op_text k :: words e
  | XPow e e' => words e ++ s2l "**" :: words e'
  | XBin k e e' => words e ++ op_text k :: words e'
  | XCond e e1 e2 => words e ++ s2l "?" :: words e1 ++ s2l ":" :: words e2
  | XAssign p e e' => words e ++ s2l (p_spell p) :: words e'
  | XSeq e es => s2l "(" :: commas (words e :: map words es) ++ [s2l ")"]
  | XObj ps => s2l "{" :: commas (map (fun p => fst p :: s2l ":" :: words (snd p)) ps) ++ [s2l "}"]
  | XNew e args => s2l "new" :: words e ++ s2l "(" :: commas (map words args) ++ [s2l ")"]
  | XPost e p => words e ++ [s2l (p_spell p)]
  | XArrow xs e => s2l "(" :: commas (map (fun x => [x]) xs) ++ s2l ")" :: s2l "=>" :: words e
  | XFun x f => s2l "function" :: maybe (fun x => [x]) x ++ fwords f
  | XLam xs ds ss => s2l "(" :: commas (map (fun x => [x]) xs) ++ s2l ")" :: s2l "=>" :: s2l "{" ::
      flat_map (fun w => [quoted 0x22 w; s2l ";"]) ds ++ flat_map swords ss ++ [s2l "}"]
  | XClass x sup ms => s2l "class" :: x :: maybe (fun e => s2l "extends" :: words e) sup ++
      s2l "{" :: flat_map (fun m => fst m :: fwords (snd m)) ms ++ [s2l "}"]
  end
with fwords (f : fn) : list str :=
  match f with
  | Fn xs ds ss => s2l "(" :: commas (map (fun x => [x]) xs) ++ s2l ")" :: s2l "{" ::
      flat_map (fun w => [quoted 0x22 w; s2l ";"]) ds ++ flat_map swords ss ++ [s2l "}"]
  end
with swords (s : stm) : list str :=
  match s with
  | SExp e => words e ++ [s2l ";"]
  | SDecl k ds => s2l (kind_text k) :: commas (map (fun d => fst d :: maybe (fun e => s2l "=" :: words e) (snd d)) ds) ++ [s2l ";"]
  | SEmpty => [s2l ";"]
  | SBlock ss => s2l "{" :: flat_map swords ss ++ [s2l "}"]
  | SIf e s s' => s2l "if" :: s2l "(" :: words e ++ s2l ")" :: swords s ++ maybe (fun s' => s2l "else" :: swords s') s'
  | SWhile e s => s2l "while" :: s2l "(" :: words e ++ s2l ")" :: swords s
  | SDo s e => s2l "do" :: swords s ++ s2l "while" :: s2l "(" :: words e ++ [s2l ")"; s2l ";"]
  | SFor i t u s => s2l "for" :: s2l "(" :: maybe words i ++ s2l ";" :: maybe words t ++ s2l ";" :: maybe words u ++ s2l ")" :: swords s
  | SForDecl k x i t u s => s2l "for" :: s2l "(" :: s2l (kind_text k) :: (x :: maybe (fun e => s2l "=" :: words e) i) ++
      s2l ";" :: maybe words t ++ s2l ";" :: maybe words u ++ s2l ")" :: swords s
  | SForIn k x e s => s2l "for" :: s2l "(" :: s2l (kind_text k) :: x :: s2l "in" :: words e ++ s2l ")" :: swords s
  | SForOf k x e s => s2l "for" :: s2l "(" :: s2l (kind_text k) :: x :: s2l "of" :: words e ++ s2l ")" :: swords s
  | SContinue x => s2l "continue" :: maybe (fun x => [x]) x ++ [s2l ";"]
  | SBreak x => s2l "break" :: maybe (fun x => [x]) x ++ [s2l ";"]
  | SReturn e => s2l "return" :: maybe words e ++ [s2l ";"]
  | SThrow e => s2l "throw" :: words e ++ [s2l ";"]
  | SDebugger => [s2l "debugger"; s2l ";"]
  | STry ss x ss1 ss2 => s2l "try" :: (s2l "{" :: flat_map swords ss ++ [s2l "}"]) ++
      s2l "catch" :: maybe (fun x => [s2l "("; x; s2l ")"]) x ++ (s2l "{" :: flat_map swords ss1 ++ [s2l "}"]) ++
      maybe (fun ss2 => s2l "finally" :: s2l "{" :: flat_map swords ss2 ++ [s2l "}"]) ss2
  | STryFinally ss ss2 => s2l "try" :: (s2l "{" :: flat_map swords ss ++ [s2l "}"]) ++
      s2l "finally" :: s2l "{" :: flat_map swords ss2 ++ [s2l "}"]
  | SSwitch e cs => s2l "switch" :: s2l "(" :: words e ++ s2l ")" :: s2l "{" ::
      flat_map (fun a => match fst a with Some e => s2l "case" :: words e | None => [s2l "default"] end ++
        s2l ":" :: flat_map swords (snd a)) cs ++ [s2l "}"]
  | SLabel x s => x :: s2l ":" :: swords s
  | SFun x f => s2l "function" :: x :: fwords f
  | SClass x sup ms => s2l "class" :: x :: maybe (fun e => s2l "extends" :: words e) sup ++
      s2l "{" :: flat_map (fun m => fst m :: fwords (snd m)) ms ++ [s2l "}"]
  end.
(** The text: the words, a space after each. *)
Definition spaced (l : list str) : str := flat_map (fun w => w ++ s2l " ") l.
Definition print (e : exp) : str := spaced (words e ++ [s2l ";"]).
(** ... of a program: its directives and its statements *)
Definition print_program (ds : list str) (ss : list stm) : str :=
  spaced (flat_map (fun w => [quoted 0x22 w; s2l ";"]) ds ++ flat_map swords ss).

(** ** The tree *)
Section Tree.
Context (E : env).
Notation at_ := nowhere (only parsing).
Definition fparams (f : fn) : list func_param := match f with Fn xs _ _ => map FP_Id xs end.
Definition name_tree (x : str) : node := NBindingIdentifier x at_.
Definition directive (w : str) : node := ExpressionStatement (lit_tree E (VStr w)) at_.
Definition block (ss : list node) : node := BlockStatement ss at_.
Fixpoint tree_of (e : exp) : node :=
  match e with
  | XId x => id_tree x
  | XNum n => lit_tree E (VNum (mkNum n 0))
  | XStr w => lit_tree E (VStr w)
  | XNull => lit_tree E VNull
  | XBool b => lit_tree E (VStr (s2l (if b then "true" else "false")))
  | XThis => ThisExpression ASimple at_
  | XPar e => SequenceExpression [tree_of e] ASimple at_
  | XArr es => ArrayExpression (map (fun e => Some (AE_Expr (tree_of e))) es) ASimple at_
  | XDot e x => StaticMemberExpression false (tree_of e) (id_tree x) ASimple at_
  | XIndex e i => ComputedMemberExpression true (tree_of e) (tree_of i) ASimple at_
  | XCall e args => CallExpression (tree_of e) (map (fun e => AR_Expr (tree_of e)) args) ASimple at_
  | XPre p e => UpdateExpression (s2l (p_spell p)) (tree_of e) true ASimple at_
  | XUn k e => UnaryExpression (op_text k) (tree_of e) true ASimple at_
  | XPow e e' => BinaryExpression (s2l "**") (tree_of e) (tree_of e') ASimple at_
  | XBin k e e' => BinaryExpression (op_text k) (tree_of e) (tree_of e') ASimple at_
  | XCond e e1 e2 => ConditionalExpression (tree_of e) (tree_of e1) (tree_of e2) at_
  | XAssign p e e' => AssignmentExpression (p_spell p) (tree_of e) (tree_of e') ASimple at_
  | XSeq e es => SequenceExpression (tree_of e :: map tree_of es) ASimple at_
  | XObj ps => ObjectExpression (map (fun p => OE_Prop (key_tree (fst p)) false (Some (PV_Expr (tree_of (snd p)))) "init" false false at_) ps) ASimple at_
  | XNew e args => NewExpression (tree_of e) (map (fun e => AR_Expr (tree_of e)) args) ASimple at_
  | XPost e p => UpdateExpression (s2l (p_spell p)) (tree_of e) false ASimple at_
  | XArrow xs e => ArrowFunctionExpression None (map FP_Id xs) (tree_of e) false true false ASimple at_
  | XFun x f => FunctionExpression (option_map id_tree x) (fparams f) (ftree f) false false false ASimple at_
  | XLam xs ds ss => ArrowFunctionExpression None (map FP_Id xs) (block (map directive ds ++ map stree ss)) false false false ASimple at_
  | XClass x sup ms => ClassDeclaration (Some (name_tree x)) (option_map tree_of sup)
      (map (fun m => MethodDef (id_tree (fst m)) false (Some (FnExpr None (fparams (snd m)) (ftree (snd m)) false false false))
         (if str_eqb (fst m) (s2l "constructor") then "constructor" else "method") false) ms) at_
  end
with ftree (f : fn) : node :=
  match f with Fn _ ds ss => block (map directive ds ++ map stree ss) end
with stree (s : stm) : node :=
  match s with
  | SExp e => ExpressionStatement (tree_of e) at_
  | SDecl k ds => VariableDeclaration (map (fun d => VarDeclarator (B_Id (fst d) at_) (option_map tree_of (snd d))) ds) (kind_text k) at_
  | SEmpty => EmptyStatement at_
  | SBlock ss => block (map stree ss)
  | SIf e s s' => IfStatement (tree_of e) (stree s) (option_map stree s') at_
  | SWhile e s => WhileStatement (tree_of e) (stree s) at_
  | SDo s e => DoWhileStatement (stree s) (tree_of e) at_
  | SFor i t u s => ForStatement (option_map (fun e => SequenceExpression [tree_of e] ASimple at_) i) (option_map tree_of t) (option_map tree_of u) (stree s) at_
  | SForDecl k x i t u s => ForStatement (Some (VariableDeclaration [VarDeclarator (B_Id x at_) (option_map tree_of i)] (kind_text k) at_))
      (option_map tree_of t) (option_map tree_of u) (stree s) at_
  | SForIn _ x e s => ForInStatement (name_tree x) (tree_of e) (stree s) false at_
  | SForOf _ x e s => ForOfStatement (name_tree x) (tree_of e) (stree s) at_
  | SContinue x => ContinueStatement (option_map id_tree x) at_
  | SBreak x => BreakStatement (option_map id_tree x) at_
  | SReturn e => ReturnStatement (option_map tree_of e) at_
  | SThrow e => ThrowStatement (tree_of e) at_
  | SDebugger => DebuggerStatement at_
  | STry ss x ss1 ss2 => TryStatement (block (map stree ss)) (Some (CatchClause (option_map (fun x => B_Id x at_) x) (block (map stree ss1))))
      (option_map (fun ss2 => block (map stree ss2)) ss2) at_
  | STryFinally ss ss2 => TryStatement (block (map stree ss)) None (Some (block (map stree ss2))) at_
  | SSwitch e cs => SwitchStatement (tree_of e) (map (fun a => SwitchCase (option_map tree_of (fst a)) (map stree (snd a))) cs) at_
  | SLabel x s => LabeledStatement (mkId x at_) (stree s) at_
  | SFun x f => FunctionDeclaration (Some (name_tree x)) (fparams f) (ftree f) false false false at_
  | SClass x sup ms => ClassDeclaration (Some (name_tree x)) (option_map tree_of sup)
      (map (fun m => MethodDef (id_tree (fst m)) false (Some (FnExpr None (fparams (snd m)) (ftree (snd m)) false false false))
         (if str_eqb (fst m) (s2l "constructor") then "constructor" else "method") false) ms) at_
  end.
End Tree.
