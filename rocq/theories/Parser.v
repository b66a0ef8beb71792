(** * Parser: closing the recursion, modules, entry points
    (parser/parser.rs:80-505, lib.rs:23-34). *)
From Verif Require Import Base Codepoint Punct Token Scanner Ast Convert ParserBase ParserExpr ParserStmt.

Definition no_handler : handler :=
  mkHandler nofuel nofuel nofuel nofuel nofuel (fun _ _ => nofuel) nofuel nofuel nofuel nofuel.

(** One level of recursion: loops may iterate [n] times. *)
Definition step (E : env) (n : nat) (h : handler) : handler :=
  mkHandler
    (parse_binding_id_or_pat E n h)
    (parse_left_hand_side_expr E n h)
    (parse_new_expr E n h)
    (parse_unary_expr E n h)
    (parse_exponentiation_expr E n h)
    (precedence_climbing E n h)
    (parse_assignment_expr E n h)
    (parse_expression E n h)
    (parse_statement E n h)
    (parse_stmt_list_item E n h).

(** The recursive parser with recursion depth at most [n]. *)
Fixpoint run (E : env) (n : nat) : handler :=
  match n with
  | O => no_handler
  | S n' => step E n (run E n')
  end.

Section Top.
Context (E : env) (n : nat) (h : handler).

Notation adv := (advance E GRegExp).
Notation eat p := (consume_p E p GRegExp).
Notation kw k := (consume_kw E k GRegExp).
Notation semi := (consume_semicolon E GRegExp).
Notation unexp := (unexpected_current E).

(** Params { has_yield: false, has_await: false, has_return: false, ..self.params } *)
Definition module_params (p : params) : params := set_yield false (set_await false (set_return false p)).

(** [with_params({yield, await: false}, parse_binding_id)?.to_id()?]
    (parser.rs:207-216, 246-255, 271-280) *)
Definition import_binding : PM identifier :=
  b <- with_prm (ya false false) (parse_binding_id E) ;;
  lift_c (binding_to_id b).

(** parser.rs:243-259 *)
Definition namespace_import_specifiers : PM (list import_spec) :=
  eat Star ;;;
  consume_id E "as" GRegExp ;;;
  local <- import_binding ;;
  ret [ImportNamespace local].

(** parser.rs:263-306, one specifier *)
Definition named_import_specifier : PM import_spec :=
  start_span ;;;
  name <- parse_id_name E GRegExp ;;
  sp <- end_span ;;
  t <- getcur ;;
  if tok_id t "as" then
    adv ;;;
    local <- import_binding ;;
    comma_unless E RBrace ;;;
    ret (ImportSpec local (mkId name sp))
  else if is_keyword name then
    tok <- adv ;; error_tok tok UnexpectedReserved
  else
    comma_unless E RBrace ;;;
    ret (ImportSpec (mkId name sp) (mkId name sp)).

(** parser.rs:261-309 *)
Definition named_import_specifiers : PM (list import_spec) :=
  eat LBrace ;;;
  specifiers <- parse_until_punc n RBrace named_import_specifier ;;
  eat RBrace ;;;
  ret specifiers.

(** parser.rs:325-339 *)
Definition parse_module_specifier : PM literal :=
  t <- getcur ;;
  if tok_is t TString then
    start_span ;;;
    t' <- adv ;;
    sp <- end_span ;;
    ret (mkLit (tval t') (value_show E (tval t')) sp)
  else unexp.

(** parser.rs:311-323 *)
Definition parse_import_from_dclr (specifiers : list import_spec) : PM node :=
  consume_id E "from" GRegExp ;;;
  source <- parse_module_specifier ;;
  semi ;;;
  sp <- end_span ;;
  ret (ImportDeclaration specifiers source sp).

(** parser.rs:193-241 *)
Definition parse_import_dclr : PM node :=
  start_span ;;;
  kw "import" ;;;
  t <- getcur ;;
  if tok_punc t Star then sp <- namespace_import_specifiers ;; parse_import_from_dclr sp
  else if tok_punc t LBrace then sp <- named_import_specifiers ;; parse_import_from_dclr sp
  else if tok_is t TIdentifier || tok_is t TKeyword then
    local <- import_binding ;;
    t' <- getcur ;;
    if tok_punc t' Comma then
      adv ;;;
      t'' <- getcur ;;
      if tok_punc t'' Star then
        sp <- namespace_import_specifiers ;; parse_import_from_dclr (ImportSpec local local :: sp)
      else if tok_punc t'' LBrace then
        sp <- named_import_specifiers ;; parse_import_from_dclr (ImportSpec local local :: sp)
      else unexp
    else parse_import_from_dclr [ImportSpec local local]
  else if tok_is t TString then crash P_ImportString
  else unexp.

(** parser.rs:469-502, one specifier (473-487: [exported] is the name BEFORE "as") *)
Definition named_export_specifier : PM export_spec :=
  start_span ;;;
  name <- parse_id_name E GRegExp ;;
  t <- getcur ;;
  if tok_id t "as" then
    sp <- end_span ;;
    adv ;;;
    start_span ;;;
    local <- parse_id_name E GRegExp ;;
    sp' <- end_span ;;
    comma_unless E RBrace ;;;
    ret (mkExport (mkId name sp) (mkId local sp'))
  else
    sp <- end_span ;;
    comma_unless E RBrace ;;;
    ret (mkExport (mkId name sp) (mkId name sp)).

(** parser.rs:467-505 *)
Definition named_export_specifiers : PM (list export_spec) :=
  eat LBrace ;;;
  specifiers <- parse_until_punc n RBrace named_export_specifier ;;
  eat RBrace ;;;
  ret specifiers.

(** parser.rs:346-398 *)
Definition export_default : PM node :=
  adv ;;;
  t <- getcur ;;
  declaration <-
    (if (tok_is t TIdentifier || tok_is t TKeyword) && is_hoistable_dclr_kw t then
       with_prm (fun p => set_default true (ya false false p)) (parse_hoistable_dclr E n h)
     else if tok_kw t "class" then
       with_prm (fun p => set_default true (ya false false p)) (parse_class_dclr E n h)
     else
       e <- with_prm (fun p => set_in true (ya false false p)) (parse_assignment_expr E n h) ;;
       semi ;;;
       ret e) ;;
  sp <- end_span ;;
  ret (ExportDefaultDeclaration declaration sp).

(** parser.rs:341-465 *)
Definition parse_export_dclr : PM node :=
  start_span ;;;
  kw "export" ;;;
  t <- getcur ;;
  if tok_kw t "default" then export_default
  else if tok_kw t "var" then
    d <- with_prm (ya false false) (parse_variable_stmt E n h true) ;;
    sp <- end_span ;;
    ret (ExportNamedDeclaration (Some d) [] None sp)
  else if tok_is t TKeyword && is_dclr_kw t then
    d <- with_prm (ya false false) (parse_declaration E n h) ;;
    sp <- end_span ;;
    ret (ExportNamedDeclaration (Some d) [] None sp)
  else if tok_punc t LBrace then
    specifiers <- named_export_specifiers ;;
    t' <- getcur ;;
    if tok_kw t' "from" then
      adv ;;;
      source <- parse_module_specifier ;;
      semi ;;;
      sp <- end_span ;;
      ret (ExportNamedDeclaration None specifiers (Some source) sp)
    else
      sp <- end_span ;;
      ret (ExportNamedDeclaration None specifiers None sp)
  else if tok_punc t Star then
    adv ;;;
    consume_id E "from" GRegExp ;;;
    source <- parse_module_specifier ;;
    semi ;;;
    sp <- end_span ;;
    ret (ExportAllDeclaration source sp)
  else unexp.

(** parser.rs:172-191 *)
Definition parse_module_item : PM node :=
  t <- getcur ;;
  if tok_kw t "import" then parse_import_dclr
  else if tok_kw t "export" then parse_export_dclr
  else with_prm module_params (parse_stmt_list_item E n h).

(** parser.rs:110-121 *)
Definition script : PM node :=
  start_span ;;;
  directives <- directive_prologues E h n ;;
  body <- parse_until_eof n (parse_stmt_list_item E n h) ;;
  sp <- end_span ;;
  ret (Program (directives ++ body) "script" sp).

(** parser.rs:124-144 *)
Definition module_ : PM node :=
  start_span ;;;
  upd_ctx (ctx_strict true) ;;;
  directives <- with_prm module_params (directive_prologues E h n) ;;
  body <- parse_until_eof n parse_module_item ;;
  sp <- end_span ;;
  ret (Program (directives ++ body) "module" sp).

End Top.

(** What a caller of the library observes. *)
Inductive outcome := Ok (ast : node) | Err (e : error) | Panicked (p : panic) | OutOfFuel.

(** parser.rs:80-103, [Parser::new] on the first token *)
Definition init_pst (t : token) (sc : sst) : pst :=
  mkP sc false t (mkCtx false false false false) (mkParams false false false false false) [] [].

(** Enough recursion depth for any source of that length (proved in TermProofs.v). *)
Definition fuel_for (source : str) : nat := S (S (length source)).

(** lib.rs:23-34 with parser.rs:80-103: [Parser::new] unwraps the first token *)
Definition parse_with (go : env -> nat -> handler -> PM node) (E : env) (source : str) : outcome :=
  match s_next E GRegExp (s_new source) with
  | ROk t sc =>
    match go E (fuel_for source) (run E (fuel_for source)) (init_pst t sc) with
    | ROk ast _ => Ok ast
    | RErr e => Err e
    | RPanic p => Panicked p
    | RFuel => OutOfFuel
    end
  | RErr _ => Panicked P_FirstToken
  | RPanic p => Panicked p
  | RFuel => OutOfFuel
  end.

Definition parse_script : env -> str -> outcome := parse_with script.
Definition parse_module : env -> str -> outcome := parse_with module_.
