(** * SpecSpell: which sequences of tokens a syntax tree stands for.

    A grammar for the trees of Ast.v, read off the language (and, where giron
    departs from it, off giron; these places are marked "defect").  Only
    definitions; nothing of the parser is used.

    [spells E x p q]: the tokens from position [p] to position [q] are a
    spelling of the part [x] of a tree. *)
From Verif Require Import Base Punct Token Ast SpecLex SpecCol SpecTree.

(** ** The tokens of a source text *)

(** [tiles E ts text final]: [text] consists of the source texts of the tokens
    [ts], in order, with only white space, line breaks and comments in front of
    each of them, followed by [final]. *)
Inductive tiles (E : env) : list token -> str -> str -> Prop :=
| tl_nil text : tiles E [] text text
| tl_cons t ts tr l r final : trivia tr (l ++ r) -> lexeme E t l -> tiles E ts r final ->
    tiles E (t :: ts) (tr ++ l ++ r) final.

(** ** Positions *)
(** The tokens before the position, latest first, and the token at the position. *)
Record pos := mkPos { before : list token; next : token }.

(** One token, with a property, from [p] to [q]. *)
Definition eats (P : token -> Prop) (p q : pos) : Prop := before q = next p :: before p /\ P (next p).

Definition is_p (x : punct) (t : token) : Prop := ttype t = TPunctuator /\ tval t = VPunc x.
(** A reserved word; a word with a meaning only in some places ("of", "get"). *)
Definition is_k (w : string) (t : token) : Prop := ttype t = TKeyword /\ tval t = VStr (s2l w).
Definition is_w (w : string) (t : token) : Prop := ttype t = TIdentifier /\ tval t = VStr (s2l w).
(** An identifier; [yield] and [await] may serve as identifiers. *)
Definition is_ref (n : str) (t : token) : Prop :=
  tval t = VStr n /\ (ttype t = TIdentifier \/ ttype t = TKeyword /\ (n = s2l "yield" \/ n = s2l "await")).
(** Any name, reserved or not. *)
Definition is_name (n : str) (t : token) : Prop := tval t = VStr n /\ (ttype t = TIdentifier \/ ttype t = TKeyword).
Definition is_literal_tok (v : value) (t : token) : Prop :=
  tval t = v /\ (ttype t = TNumeric \/ ttype t = TString \/ ttype t = TBoolean \/ ttype t = TNull).
Definition is_string_tok (v : value) (t : token) : Prop := tval t = v /\ ttype t = TString.
(** An operator, given by its text. *)
Definition is_op (w : str) (t : token) : Prop :=
  ttype t = TKeyword /\ tval t = VStr w \/ exists x, ttype t = TPunctuator /\ tval t = VPunc x /\ w = s2l (p_spell x).

(** The next token is on a later line than the token before the position
    (according to the line numbers of the tokens). *)
Definition later_line (p : pos) : Prop := match before p with u :: _ => tline u < tline (next p) | [] => False end.

(** A statement terminator: a semicolon, or nothing before "}", at the end of
    the input and before a token on a later line. *)
Inductive semi (p q : pos) : Prop :=
| semi_there : eats (is_p Semicolon) p q -> semi p q
| semi_absent : p = q -> is_p RBrace (next p) \/ ttype (next p) = TEof \/ later_line p -> semi p q.

(** A token that is there exactly if the flag is set. *)
Definition flag (b : bool) (P : token -> Prop) (p q : pos) : Prop := if b then eats P p q else p = q.

(** ** Lists *)
Section Lists.
Context {A : Type} (R : A -> pos -> pos -> Prop).
(** One after the other. *)
Inductive many : list A -> pos -> pos -> Prop :=
| many_nil p : many [] p p
| many_cons x l p q r : R x p q -> many l q r -> many (x :: l) p r.
(** Separated by commas, a comma after the last one is allowed. *)
Inductive commas : list A -> pos -> pos -> Prop :=
| commas_nil p : commas [] p p
| commas_last x p q : R x p q -> commas [x] p q
| commas_more x l p q r s : R x p q -> eats (is_p Comma) q r -> commas l r s -> commas (x :: l) p s.
(** At least one, separated by commas, no further comma. *)
Inductive commas1 : list A -> pos -> pos -> Prop :=
| commas1_one x p q : R x p q -> commas1 [x] p q
| commas1_more x l p q r s : R x p q -> eats (is_p Comma) q r -> commas1 l r s -> commas1 (x :: l) p s.
(** Separated by commas, elements may be left out. *)
Inductive holes : list (option A) -> pos -> pos -> Prop :=
| holes_nil p : holes [] p p
| holes_hole l p q r : eats (is_p Comma) p q -> holes l q r -> holes (None :: l) p r
| holes_last x p q : R x p q -> holes [Some x] p q
| holes_more x l p q r s : R x p q -> eats (is_p Comma) q r -> holes l r s -> holes (Some x :: l) p s.
Inductive maybe : option A -> pos -> pos -> Prop :=
| maybe_none p : maybe None p p
| maybe_some x p q : R x p q -> maybe (Some x) p q.
(** Class bodies: semicolons between the elements are skipped. *)
Inductive class_items : list A -> pos -> pos -> Prop :=
| ci_nil p : class_items [] p p
| ci_semi l p q r : eats (is_p Semicolon) p q -> class_items l q r -> class_items l p r
| ci_item x l p q r : R x p q -> class_items l q r -> class_items (x :: l) p r.
(** Object literals: [R] separated by commas; no comma follows a generator
    method [L] (defect). *)
Context (L : A -> pos -> pos -> Prop).
Inductive properties : list A -> pos -> pos -> Prop :=
| pr_nil p : properties [] p p
| pr_last x p q : R x p q -> properties [x] p q
| pr_more x l p q r s : R x p q -> eats (is_p Comma) q r -> properties l r s -> properties (x :: l) p s
| pr_loose x l p q r : L x p q -> properties l q r -> properties (x :: l) p r.
End Lists.

(** The words after which the parser looks ahead; the positions of the tokens after
    such a look-ahead are wrong (a defect). *)
Definition peeked (t : token) : Prop := is_w "async" t \/ is_w "get" t \/ is_w "set" t.
(** The tokens [ts] have their right offsets, lines and columns, up to the token after
    the first of these words. *)
Definition placed (E : env) (src : str) (ts : list token) : Prop :=
  forall us t vs, ts = us ++ t :: vs -> Forall (fun u => ~ peeked u) us ->
  exists r, laid E [] (us ++ [t]) src r /\ exists l, lexeme E t l /\ tcol t = column 1 l r.

Section Grammar.
(** [At sp p q]: what is claimed about the recorded source span [sp] of a name, literal
    or other simple part that stands for the tokens from [p] to [q]; see [reads_as] and
    [reads_at]. *)
Context (E : env) (At : span -> pos -> pos -> Prop).

(** The text of a piece of a template. *)
Definition is_piece (te : template_element) (t : token) : Prop :=
  ttype t = TTemplate /\ tval t = VStr (te_raw te) /\ tcooked t = Some (te_cooked te) /\ ttail t = Some (te_tail te).
Definition is_head_piece (te : template_element) (t : token) : Prop := is_piece te t /\ thead t = Some true.

Section Rec.
(** Constructs that occur in several places, for a given spelling [R] of parts. *)
Context (R : part -> pos -> pos -> Prop).
Inductive block (open close : punct) (inner : pos -> pos -> Prop) (p s : pos) : Prop :=
| block_intro q r : eats (is_p open) p q -> inner q r -> eats (is_p close) r s -> block open close inner p s.
(** "(" parameters ")" body *)
Inductive function (ps : list func_param) (body : node) (p r : pos) : Prop :=
| function_intro q : block LParen RParen (commas (fun x => R (T_Param x)) ps) p q -> R (T_Node body) q r -> function ps body p r.
(** The pieces of a template after its first one. *)
Inductive template_tail : list template_element -> list node -> pos -> pos -> Prop :=
| tt_end p : template_tail [] [] p p
| tt_more te e tes es p q r s : R (T_Node e) p q -> eats (is_piece te) q r ->
    (te_tail te = true <-> tes = []) -> template_tail tes es r s -> template_tail (te :: tes) (e :: es) p s.
Inductive template : list template_element -> list node -> pos -> pos -> Prop :=
| template_intro te tes es p q r : eats (is_head_piece te) p q -> (te_tail te = true <-> tes = []) ->
    template_tail tes es q r -> template (te :: tes) es p r.
(** Property names: key and "computed".  (The raw text of a literal name is
    taken from the token after it, a defect.) *)
Inductive key : prop_key -> bool -> pos -> pos -> Prop :=
| key_name i p q : eats (is_name (id_name i)) p q -> At (id_span i) p q -> key (PK_Id i) false p q
| key_lit l p q : eats (fun t => (ttype t = TString \/ ttype t = TNumeric) /\ tval t = lit_value l) p q ->
    lit_raw l = value_show E (tval (next q)) -> At (lit_span l) p q -> key (PK_Lit l) false p q
| key_expr e p q : block LBracket RBracket (R (T_Node e)) p q -> key (PK_Expr e) true p q.
(** Names of class members. *)
Inductive member_name : node -> bool -> pos -> pos -> Prop :=
| mn_name n sp p q : eats (is_name n) p q -> At sp p q -> member_name (Identifier n AInvalid sp) false p q
| mn_expr e p q : block LBracket RBracket (R (T_Node e)) p q -> member_name e true p q.
(** Property names in the patterns of declarations and parameters: before ":"
    names are kept as literals (defect) ... *)
Definition key_token (v : value) (t : token) : Prop :=
  tval t = v /\ (ttype t = TIdentifier \/ ttype t = TKeyword \/ ttype t = TString \/ ttype t = TNumeric).
Inductive pattern_key : prop_key -> bool -> pos -> pos -> Prop :=
| pk_lit l p q : eats (key_token (lit_value l)) p q -> lit_raw l = value_show E (lit_value l) -> At (lit_span l) p q -> pattern_key (PK_Lit l) false p q
| pk_expr e p q : block LBracket RBracket (R (T_Node e)) p q -> pattern_key (PK_Expr e) true p q.
(** What precedes the name of a property that is not a method.  The word "get"
    or "set" only shows in the kind, "async" not at all (defects). *)
Inductive prefix : string -> pos -> pos -> Prop :=
| pf_none p : prefix "init" p p
| pf_get p q : eats (is_w "get") p q -> prefix "get" p q
| pf_set p q : eats (is_w "set") p q -> prefix "set" p q
| pf_async p q : eats (is_w "async") p q -> prefix "init" p q.
(** The word that introduces a declaration. *)
Definition is_kind (k : string) (t : token) : Prop :=
  k = "var"%string /\ is_k "var" t \/ k = "const"%string /\ is_k "const" t \/ k = "let"%string /\ is_w "let" t.
Inductive declarations (ds : list var_declarator) (kind : string) (p r : pos) : Prop :=
| declarations_intro q : eats (is_kind kind) p q -> commas1 (fun x => R (T_Decl x)) ds q r -> declarations ds kind p r.
(** The first part of a for statement.  (An expression is always wrapped in a
    sequence, even a single one: defect.) *)
Inductive for_init : option node -> pos -> pos -> Prop :=
| fi_none p : for_init None p p
| fi_decl ds kind sp p q : declarations ds kind p q -> for_init (Some (VariableDeclaration ds kind sp)) p q
| fi_expr es sp p q : commas1 (fun x => R (T_Node x)) es p q -> for_init (Some (SequenceExpression es AInvalid sp)) p q.
(** The target of a for-in/of statement; the declaration word is lost (defect). *)
Inductive for_target (declared : bool) (l : node) (p r : pos) : Prop :=
| ft_plain : declared = false -> R (T_Node l) p r -> for_target declared l p r
| ft_decl kind q : declared = true -> eats (is_kind kind) p q -> R (T_Node l) q r -> for_target declared l p r.
Inductive clause (w : string) (x : part) (p r : pos) : Prop :=
| clause_intro q : eats (is_k w) p q -> R x q r -> clause w x p r.
End Rec.

(** ** Imports and exports *)
Inductive import_item : import_spec -> pos -> pos -> Prop :=
| ii_as l i p q r s : eats (is_name (id_name i)) p q -> At (id_span i) p q -> eats (is_w "as") q r ->
    eats (is_ref (id_name l)) r s -> At (id_span l) r s ->
    import_item (ImportSpec l i) p s
| ii_name l p q : eats (is_name (id_name l)) p q -> At (id_span l) p q -> ~ reserved (id_name l) -> import_item (ImportSpec l l) p q.
Inductive import_rest : list import_spec -> pos -> pos -> Prop :=
| ir_namespace l p q r s : eats (is_p Star) p q -> eats (is_w "as") q r -> eats (is_ref (id_name l)) r s -> At (id_span l) r s ->
    import_rest [ImportNamespace l] p s
| ir_named l p q : block LBrace RBrace (commas import_item l) p q -> import_rest l p q.
(** A default import is not distinguished from the import of that name (defect). *)
Inductive import_clause : list import_spec -> pos -> pos -> Prop :=
| ic_rest l p q : import_rest l p q -> import_clause l p q
| ic_default x p q : eats (is_ref (id_name x)) p q -> At (id_span x) p q -> import_clause [ImportSpec x x] p q
| ic_both x l p q r s : eats (is_ref (id_name x)) p q -> At (id_span x) p q -> eats (is_p Comma) q r -> import_rest l r s ->
    import_clause (ImportSpec x x :: l) p s.
(** [exported] is the name before "as", [local] the one after it (defect). *)
Inductive export_item : export_spec -> pos -> pos -> Prop :=
| ei_as x p q r s : eats (is_name (id_name (ex_exported x))) p q -> At (id_span (ex_exported x)) p q -> eats (is_w "as") q r ->
    eats (is_name (id_name (ex_local x))) r s -> At (id_span (ex_local x)) r s -> export_item x p s
| ei_name i p q : eats (is_name (id_name i)) p q -> At (id_span i) p q -> export_item (mkExport i i) p q.
Definition module_name (l : literal) (p q : pos) : Prop :=
  eats (is_string_tok (lit_value l)) p q /\ lit_raw l = value_show E (lit_value l) /\ At (lit_span l) p q.

Definition is_declared (n : node) : bool :=
  match n with FunctionDeclaration _ _ _ _ _ _ _ | ClassDeclaration _ _ _ _ => true | _ => false end.

(** ** Everything *)
Inductive spells : part -> pos -> pos -> Prop :=
(** Names and literals.  [a] and [sp] (here and below): assignability and the
    source span. *)
| S_id n a sp p q : eats (is_ref n) p q -> At sp p q -> spells (T_Node (Identifier n a sp)) p q
| S_binding_id n sp p q : eats (is_ref n) p q -> At sp p q -> spells (T_Node (NBindingIdentifier n sp)) p q
| S_literal v raw a sp p q : eats (is_literal_tok v) p q -> raw = value_show E v -> At sp p q -> spells (T_Node (NLiteral v raw a sp)) p q
(* value and raw text are those of the token after the regular expression (defect) *)
| S_regex v raw rx a sp p q : eats (fun t => ttype t = TRegExp /\ tpattern t = Some (rx_pattern rx) /\ tflags t = Some (rx_flags rx)) p q ->
    v = value_show E (tval (next q)) -> raw = v -> At sp p q -> spells (T_Node (RegexLiteral v raw rx a sp)) p q
| S_this a sp p q : eats (is_k "this") p q -> At sp p q -> spells (T_Node (ThisExpression a sp)) p q
| S_super a sp p q : eats (is_k "super") p q -> At sp p q -> spells (T_Node (Super a sp)) p q
| S_template tes es a sp p q : template spells tes es p q -> (es = [] -> At sp p q) -> spells (T_Node (TemplateLiteral tes es a sp)) p q
(* the name [target] has the span of [new] (defect) *)
| S_new_target a b c d e f p q r s : eats (is_k "new") p q -> At b p q -> eats (is_p Dot) q r -> eats (is_w "target") r s -> At d p q -> At f p s ->
    spells (T_Node (MetaProperty (Identifier (s2l "new") a b) (Identifier (s2l "target") c d) e f)) p s
(** Operators *)
| S_binary op l r a sp p q s t : spells (T_Node l) p q -> eats (is_op op) q s -> spells (T_Node r) s t ->
    spells (T_Node (BinaryExpression op l r a sp)) p t
| S_unary op e a sp p q r : eats (is_op op) p q -> spells (T_Node e) q r -> spells (T_Node (UnaryExpression op e true a sp)) p r
| S_prefix op e a sp p q r : eats (is_op op) p q -> spells (T_Node e) q r -> spells (T_Node (UpdateExpression op e true a sp)) p r
| S_postfix op e a sp p q r : spells (T_Node e) p q -> ~ later_line q -> eats (is_op op) q r ->
    spells (T_Node (UpdateExpression op e false a sp)) p r
| S_assign op l r a sp p q s t : spells (T_Node l) p q -> eats (fun u => exists x, is_p x u /\ op = p_spell x) q s -> spells (T_Node r) s t ->
    spells (T_Node (AssignmentExpression op l r a sp)) p t
| S_conditional t c e sp p0 p1 p2 p3 p4 p5 : spells (T_Node t) p0 p1 -> eats (is_p Question) p1 p2 -> spells (T_Node c) p2 p3 ->
    eats (is_p Colon) p3 p4 -> spells (T_Node e) p4 p5 -> spells (T_Node (ConditionalExpression t c e sp)) p0 p5
| S_yield e a sp p q r : eats (is_k "yield") p q -> ~ later_line q -> spells (T_Node e) q r ->
    spells (T_Node (YieldExpression (Some e) false a sp)) p r
| S_yield_star e a sp p q r s : eats (is_k "yield") p q -> ~ later_line q -> eats (is_p Star) q r -> spells (T_Node e) r s ->
    spells (T_Node (YieldExpression (Some e) true a sp)) p s
| S_yield_nothing a sp p q : eats (is_k "yield") p q -> later_line q -> At sp p q -> spells (T_Node (YieldExpression None false a sp)) p q
| S_sequence es a sp p q : commas1 (fun x => spells (T_Node x)) es p q -> (2 <= length es)%nat ->
    spells (T_Node (SequenceExpression es a sp)) p q
(* parentheses appear as a sequence of any length, even without elements (defect) *)
| S_parens es a sp p q : block LParen RParen (fun r s => es = [] /\ r = s \/ commas1 (fun x => spells (T_Node x)) es r s) p q ->
    spells (T_Node (SequenceExpression es a sp)) p q
(** Member access, calls *)
| S_member o x a sp p q r : spells (T_Node o) p q -> block LBracket RBracket (spells (T_Node x)) q r ->
    spells (T_Node (ComputedMemberExpression true o x a sp)) p r
(* the span begins at the dot (defect) *)
| S_dot o n b sp' a sp p q r s : spells (T_Node o) p q -> eats (is_p Dot) q r -> eats (is_name n) r s -> At sp' r s -> At sp q s ->
    spells (T_Node (StaticMemberExpression false o (Identifier n b sp') a sp)) p s
(* the span is that of the template (defect) *)
| S_tagged e tes es sp p q r : spells (T_Node e) p q -> template spells tes es q r -> (es = [] -> At sp q r) ->
    spells (T_Node (TaggedTemplateExpression e tes es sp)) p r
| S_call c l a sp p q r : spells (T_Node c) p q -> block LParen RParen (commas (fun x => spells (T_Arg x)) l) q r ->
    spells (T_Node (CallExpression c l a sp)) p r
| S_new c l a sp p q r s : eats (is_k "new") p q -> spells (T_Node c) q r ->
    block LParen RParen (commas (fun x => spells (T_Arg x)) l) r s -> spells (T_Node (NewExpression c l a sp)) p s
| S_new_bare c a sp p q r : eats (is_k "new") p q -> spells (T_Node c) q r -> spells (T_Node (NewExpression c [] a sp)) p r
| S_arg e p q : spells (T_Node e) p q -> spells (T_Arg (AR_Expr e)) p q
| S_arg_spread e sp p q r : eats (is_p Ellipsis) p q -> spells (T_Node e) q r -> spells (T_Arg (AR_Spread e sp)) p r
(** Arrays and objects *)
| S_array es a sp p q : block LBracket RBracket (holes (fun x => spells (T_Elem x)) es) p q -> spells (T_Node (ArrayExpression es a sp)) p q
| S_elem e p q : spells (T_Node e) p q -> spells (T_Elem (AE_Expr e)) p q
| S_elem_spread e sp p q r : eats (is_p Ellipsis) p q -> spells (T_Node e) q r -> spells (T_Elem (AE_Spread e sp)) p r
| S_object ps a sp p q : block LBrace RBrace (properties (fun x => spells (T_Prop x)) (fun x p q =>
      exists k c f sp r s, x = OE_Prop k c (Some (PV_Fn f)) "init" true false sp /\
        eats (is_p Star) p r /\ key spells k c r s /\ exists ps b, f = FnExpr None ps b true false false /\ function spells ps b s q) ps) p q ->
    spells (T_Node (ObjectExpression ps a sp)) p q
| S_prop_spread e sp p q r : eats (is_p Ellipsis) p q -> spells (T_Node e) q r -> spells (T_Prop (OE_Spread e sp)) p r
| S_prop k c e kind sp p q r s t : prefix kind p q -> key spells k c q r -> eats (is_p Colon) r s -> spells (T_Node e) s t ->
    spells (T_Prop (OE_Prop k c (Some (PV_Expr e)) kind false false sp)) p t
| S_prop_default k c e kind sp p q r s t : prefix kind p q -> key spells k c q r -> eats (is_p Assign) r s -> spells (T_Node e) s t ->
    spells (T_Prop (OE_Prop k c (Some (PV_Expr e)) kind false true sp)) p t
| S_prop_short k c kind sp p q r : prefix kind p q -> key spells k c q r -> (c = false -> At sp p r) ->
    spells (T_Prop (OE_Prop k c None kind false true sp)) p r
| S_prop_method k c ps b sp p q r : key spells k c p q -> function spells ps b q r ->
    spells (T_Prop (OE_Prop k c (Some (PV_Fn (FnExpr None ps b false false false))) "init" true false sp)) p r
| S_prop_async k c ps b sp p q r s : eats (is_w "async") p q -> key spells k c q r -> function spells ps b r s ->
    spells (T_Prop (OE_Prop k c (Some (PV_AsyncFn None ps b false false true)) "init" true false sp)) p s
| S_prop_get k c b sp p q r s : eats (is_w "get") p q -> key spells k c q r -> function spells [] b r s ->
    spells (T_Prop (OE_Prop k c (Some (PV_Fn (FnExpr None [] b false false false))) "get" true false sp)) p s
| S_prop_set k c ps b sp p q r s : eats (is_w "set") p q -> key spells k c q r -> function spells ps b r s ->
    spells (T_Prop (OE_Prop k c (Some (PV_Fn (FnExpr None ps b false false false))) "set" true false sp)) p s
(** Functions *)
| S_function id ps b async a sp p q r s t : flag async (is_w "async") p q -> eats (is_k "function") q r ->
    maybe (fun x => spells (T_Node x)) id r s -> function spells ps b s t ->
    spells (T_Node (FunctionExpression id ps b false false async a sp)) p t
| S_arrow_name n b ex a sp p q r s : eats (is_ref n) p q -> eats (is_p FatArrow) q r -> spells (T_Node b) r s ->
    spells (T_Node (ArrowFunctionExpression None [FP_Id n] b false ex false a sp)) p s
| S_arrow ps b ex a sp p q r s : block LParen RParen (commas (fun x => spells (T_Param x)) ps) p q -> eats (is_p FatArrow) q r ->
    spells (T_Node b) r s -> spells (T_Node (ArrowFunctionExpression None ps b false ex false a sp)) p s
| S_async_arrow n b ex a sp p q r s t : eats (is_w "async") p q -> ~ later_line q -> eats (is_ref n) q r -> ~ later_line r ->
    eats (is_p FatArrow) r s -> spells (T_Node b) s t ->
    spells (T_Node (AsyncArrowFunctionExpression None [FP_Id n] b false ex true a sp)) p t
| S_function_declaration id ps b gen async sp p0 p1 p2 p3 p4 p5 : flag async (is_w "async") p0 p1 -> eats (is_k "function") p1 p2 ->
    flag gen (is_p Star) p2 p3 -> maybe (fun x => spells (T_Node x)) id p3 p4 -> function spells ps b p4 p5 ->
    spells (T_Node (FunctionDeclaration id ps b gen false async sp)) p0 p5
| S_param_default b e p q r s : spells (T_Bind b) p q -> eats (is_p Assign) q r -> spells (T_Node e) r s ->
    spells (T_Param (FP_Assign b e)) p s
| S_param_id n p q : eats (is_ref n) p q -> spells (T_Param (FP_Id n)) p q
| S_param_array es p q : block LBracket RBracket (holes (fun x => spells (T_APat x)) es) p q -> spells (T_Param (FP_Array es)) p q
| S_param_object ps p q : block LBrace RBrace (commas (fun x => spells (T_OPat x)) ps) p q -> spells (T_Param (FP_Object ps)) p q
| S_param_rest b p q r : eats (is_p Ellipsis) p q -> spells (T_Bind b) q r -> spells (T_Param (FP_Rest b)) p r
(** Classes *)
| S_class id sup ms sp p q r s t : eats (is_k "class") p q -> maybe (fun x => spells (T_Node x)) id q r ->
    maybe (fun x => clause spells "extends" (T_Node x)) sup r s ->
    block LBrace RBrace (class_items (fun x => spells (T_Meth x)) ms) s t ->
    spells (T_Node (ClassDeclaration id sup ms sp)) p t
| S_method n c ps b kind p q r : member_name spells n c p q -> function spells ps b q r ->
    (kind = "constructor"%string /\ c = false /\ (exists a sp, n = Identifier (s2l "constructor") a sp) \/
     kind = "method"%string /\ (c = false -> forall a sp, n <> Identifier (s2l "constructor") a sp)) ->
    spells (T_Meth (MethodDef n c (Some (FnExpr None ps b false false false)) kind false)) p r
| S_method_get n c b p q r s : eats (is_w "get") p q -> member_name spells n c q r -> function spells [] b r s ->
    spells (T_Meth (MethodDef n c (Some (FnExpr None [] b false false false)) "get" false)) p s
| S_method_set n c ps b p q r s : eats (is_w "set") p q -> member_name spells n c q r -> function spells ps b r s ->
    spells (T_Meth (MethodDef n c (Some (FnExpr None ps b false false false)) "set" false)) p s
| S_method_gen n c ps b p q r s : eats (is_p Star) p q -> member_name spells n c q r -> function spells ps b r s ->
    spells (T_Meth (MethodDef n c (Some (FnExpr None ps b true false false)) "method" false)) p s
| S_method_async n c ps b gen p q r s t : eats (is_w "async") p q -> flag gen (is_p Star) q r -> member_name spells n c r s ->
    function spells ps b s t ->
    spells (T_Meth (MethodDef n c (Some (FnExpr None ps b gen false true)) "method" false)) p t
(** Patterns *)
| S_array_pattern es a sp p q : block LBracket RBracket (holes (fun x => spells (T_APat x)) es) p q -> spells (T_Node (NArrayPattern es a sp)) p q
| S_array_target es a sp p q : block LBracket RBracket (holes (fun x => spells (T_AAPat x)) es) p q -> spells (T_Node (ArrayAssignmentPattern es a sp)) p q
| S_object_pattern ps a sp p q : block LBrace RBrace (commas (fun x => spells (T_OPat x)) ps) p q -> spells (T_Node (NObjectPattern ps a sp)) p q
| S_assignment_pattern b e sp p q r s : spells (T_Bind b) p q -> eats (is_p Assign) q r -> spells (T_Node e) r s ->
    spells (T_Node (NAssignmentPattern b e sp)) p s
| S_bind_id n sp p q : eats (is_ref n) p q -> At sp p q -> spells (T_Bind (B_Id n sp)) p q
| S_bind_array es sp p q : block LBracket RBracket (holes (fun x => spells (T_APat x)) es) p q -> spells (T_Bind (B_Array es sp)) p q
| S_bind_object ps sp p q : block LBrace RBrace (commas (fun x => spells (T_OPat x)) ps) p q -> spells (T_Bind (B_Object ps sp)) p q
| S_bind_expr e p q : spells (T_Node e) p q -> spells (T_Bind (B_Expr e)) p q
| S_apat_default b e p q r s : spells (T_Bind b) p q -> eats (is_p Assign) q r -> spells (T_Node e) r s ->
    spells (T_APat (AP_Assign b e)) p s
| S_apat_id n p q : eats (is_ref n) p q -> spells (T_APat (AP_Id n)) p q
| S_apat_array es p q : block LBracket RBracket (holes (fun x => spells (T_APat x)) es) p q -> spells (T_APat (AP_Array es)) p q
| S_apat_object ps p q : block LBrace RBrace (commas (fun x => spells (T_OPat x)) ps) p q -> spells (T_APat (AP_Object ps)) p q
| S_apat_rest b p q r : eats (is_p Ellipsis) p q -> spells (T_Bind b) q r -> spells (T_APat (AP_Rest b)) p r
| S_aapat e p q : spells (T_Node e) p q -> spells (T_AAPat (AA_Expr e)) p q
| S_opat_rest b p q r : eats (is_p Ellipsis) p q -> spells (T_Bind b) q r -> spells (T_OPat (OP_Rest b)) p r
(* declared patterns; also strings and numbers pass as names (defect) *)
| S_opat_name v i p q : eats (key_token v) p q -> id_name i = value_show E v -> At (id_span i) p q ->
    spells (T_OPat (OP_Prop (PK_Id i) false None "init" false true)) p q
| S_opat_default n i sp e p q r s : eats (key_token (VStr n)) p q -> id_name i = n -> At (id_span i) p q -> At sp p q -> eats (is_p Assign) q r -> spells (T_Node e) r s ->
    spells (T_OPat (OP_Prop (PK_Id i) false (Some (PV_Assign (B_Id n sp) e)) "init" false true)) p s
| S_opat_pair k c v p q r s : pattern_key spells k c p q -> eats (is_p Colon) q r -> spells (T_Val v) r s ->
    spells (T_OPat (OP_Prop k c (Some v) "init" false false)) p s
(* patterns made from object literals *)
| S_opat_lit k c v kind p q r s t : prefix kind p q -> key spells k c q r -> eats (is_p Colon) r s -> spells (T_Val v) s t ->
    spells (T_OPat (OP_Prop k c (Some v) kind false false)) p t
(* here [v] is the default value turned into a target (defect) *)
| S_opat_lit_default k c v kind p q r s t : prefix kind p q -> key spells k c q r -> eats (is_p Assign) r s -> spells (T_Val v) s t ->
    spells (T_OPat (OP_Prop k c (Some v) kind false true)) p t
| S_opat_lit_short k c kind p q r : prefix kind p q -> key spells k c q r ->
    spells (T_OPat (OP_Prop k c None kind false true)) p r
| S_val_default b e p q r s : spells (T_Bind b) p q -> eats (is_p Assign) q r -> spells (T_Node e) r s ->
    spells (T_Val (PV_Assign b e)) p s
| S_val_id n sp p q : eats (is_ref n) p q -> At sp p q -> spells (T_Val (PV_BindId n sp)) p q
| S_val_array es p q : block LBracket RBracket (holes (fun x => spells (T_APat x)) es) p q -> spells (T_Val (PV_ArrayPat es)) p q
| S_val_object ps p q : block LBrace RBrace (commas (fun x => spells (T_OPat x)) ps) p q -> spells (T_Val (PV_ObjectPat ps)) p q
| S_val_expr e p q : spells (T_Node e) p q -> spells (T_Val (PV_Expr e)) p q
(** Statements *)
| S_expression e sp p q r : spells (T_Node e) p q -> semi q r -> spells (T_Node (ExpressionStatement e sp)) p r
| S_block l sp p q : block LBrace RBrace (many (fun x => spells (T_Node x)) l) p q -> spells (T_Node (BlockStatement l sp)) p q
| S_empty sp p q : eats (is_p Semicolon) p q -> At sp p q -> spells (T_Node (EmptyStatement sp)) p q
| S_debugger sp p q r : eats (is_k "debugger") p q -> semi q r -> At sp p r -> spells (T_Node (DebuggerStatement sp)) p r
| S_declaration ds kind sp p q r : declarations spells ds kind p q -> semi q r -> spells (T_Node (VariableDeclaration ds kind sp)) p r
| S_declarator b p q : spells (T_Bind b) p q -> spells (T_Decl (VarDeclarator b None)) p q
| S_declarator_init b e p q r s : spells (T_Bind b) p q -> eats (is_p Assign) q r -> spells (T_Node e) r s ->
    spells (T_Decl (VarDeclarator b (Some e))) p s
| S_if t c sp p q r s : eats (is_k "if") p q -> block LParen RParen (spells (T_Node t)) q r -> spells (T_Node c) r s ->
    ~ is_k "else" (next s) -> spells (T_Node (IfStatement t c None sp)) p s
| S_if_else t c e sp p0 p1 p2 p3 p4 : eats (is_k "if") p0 p1 -> block LParen RParen (spells (T_Node t)) p1 p2 -> spells (T_Node c) p2 p3 ->
    clause spells "else" (T_Node e) p3 p4 -> spells (T_Node (IfStatement t c (Some e) sp)) p0 p4
| S_for i t u b sp p0 p1 p2 p3 : eats (is_k "for") p0 p1 -> block LParen RParen (fun q0 q5 => exists q1 q2 q3 q4,
      for_init spells i q0 q1 /\ eats (is_p Semicolon) q1 q2 /\ maybe (fun x => spells (T_Node x)) t q2 q3 /\
      eats (is_p Semicolon) q3 q4 /\ maybe (fun x => spells (T_Node x)) u q4 q5) p1 p2 ->
    spells (T_Node b) p2 p3 -> spells (T_Node (ForStatement i t u b sp)) p0 p3
| S_for_in l r b d sp p0 p1 p2 p3 : eats (is_k "for") p0 p1 -> block LParen RParen (fun q0 q3 => exists q1 q2,
      for_target spells d l q0 q1 /\ eats (is_k "in") q1 q2 /\ spells (T_Node r) q2 q3) p1 p2 ->
    spells (T_Node b) p2 p3 -> spells (T_Node (ForInStatement l r b false sp)) p0 p3
| S_for_of l r b sp p0 p1 p2 p3 : eats (is_k "for") p0 p1 -> block LParen RParen (fun q0 q3 => exists q1 q2,
      for_target spells true l q0 q1 /\ eats (is_w "of") q1 q2 /\ spells (T_Node r) q2 q3) p1 p2 ->
    spells (T_Node b) p2 p3 -> spells (T_Node (ForOfStatement l r b sp)) p0 p3
| S_while t b sp p q r s : eats (is_k "while") p q -> block LParen RParen (spells (T_Node t)) q r -> spells (T_Node b) r s ->
    spells (T_Node (WhileStatement t b sp)) p s
| S_do b t sp p0 p1 p2 p3 p4 p5 : eats (is_k "do") p0 p1 -> spells (T_Node b) p1 p2 -> eats (is_k "while") p2 p3 ->
    block LParen RParen (spells (T_Node t)) p3 p4 -> semi p4 p5 -> spells (T_Node (DoWhileStatement b t sp)) p0 p5
| S_switch d cs sp p q r s : eats (is_k "switch") p q -> block LParen RParen (spells (T_Node d)) q r ->
    block LBrace RBrace (many (fun x => spells (T_Case x)) cs) r s -> spells (T_Node (SwitchStatement d cs sp)) p s
| S_case e l p q r s : clause spells "case" (T_Node e) p q -> eats (is_p Colon) q r -> many (fun x => spells (T_Node x)) l r s ->
    spells (T_Case (SwitchCase (Some e) l)) p s
| S_default l p q r s : eats (is_k "default") p q -> eats (is_p Colon) q r -> many (fun x => spells (T_Node x)) l r s ->
    spells (T_Case (SwitchCase None l)) p s
| S_continue l sp p q r s : eats (is_k "continue") p q -> maybe (fun x => spells (T_Node x)) l q r ->
    (l <> None -> ~ later_line q) -> semi r s -> At sp p s -> spells (T_Node (ContinueStatement l sp)) p s
| S_break l sp p q r s : eats (is_k "break") p q -> maybe (fun x => spells (T_Node x)) l q r ->
    (l <> None -> ~ later_line q) -> semi r s -> At sp p s -> spells (T_Node (BreakStatement l sp)) p s
| S_return e sp p q r s : eats (is_k "return") p q -> maybe (fun x => spells (T_Node x)) e q r ->
    (e <> None -> ~ later_line q) -> semi r s -> (e = None -> At sp p s) -> spells (T_Node (ReturnStatement e sp)) p s
| S_throw e sp p q r s : eats (is_k "throw") p q -> ~ later_line q -> spells (T_Node e) q r -> semi r s ->
    spells (T_Node (ThrowStatement e sp)) p s
| S_with o b sp p q r s : eats (is_k "with") p q -> block LParen RParen (spells (T_Node o)) q r -> spells (T_Node b) r s ->
    spells (T_Node (WithStatement o b sp)) p s
| S_labelled l b sp p q r s : eats (is_ref (id_name l)) p q -> At (id_span l) p q -> eats (is_p Colon) q r -> spells (T_Node b) r s ->
    spells (T_Node (LabeledStatement l b sp)) p s
| S_try b h f sp p q r s t : eats (is_k "try") p q -> spells (T_Node b) q r -> maybe (fun x => spells (T_Catch x)) h r s ->
    maybe (fun x => clause spells "finally" (T_Node x)) f s t -> spells (T_Node (TryStatement b h f sp)) p t
| S_catch b p q r : eats (is_k "catch") p q -> spells (T_Node b) q r -> spells (T_Catch (CatchClause None b)) p r
| S_catch_param x b p q r s : eats (is_k "catch") p q -> block LParen RParen (spells (T_Bind x)) q r -> spells (T_Node b) r s ->
    spells (T_Catch (CatchClause (Some x) b)) p s
(** Modules *)
| S_import l m sp p0 p1 p2 p3 p4 p5 : eats (is_k "import") p0 p1 -> import_clause l p1 p2 -> eats (is_w "from") p2 p3 ->
    module_name m p3 p4 -> semi p4 p5 -> At sp p0 p5 -> spells (T_Node (ImportDeclaration l m sp)) p0 p5
| S_export_all m sp p0 p1 p2 p3 p4 p5 : eats (is_k "export") p0 p1 -> eats (is_p Star) p1 p2 -> eats (is_w "from") p2 p3 ->
    module_name m p3 p4 -> semi p4 p5 -> At sp p0 p5 -> spells (T_Node (ExportAllDeclaration m sp)) p0 p5
(* no terminator is required after the list (defect) *)
| S_export_list l sp p q r : eats (is_k "export") p q -> block LBrace RBrace (commas export_item l) q r -> At sp p r ->
    spells (T_Node (ExportNamedDeclaration None l None sp)) p r
| S_export_declaration d sp p q r : eats (is_k "export") p q -> spells (T_Node d) q r ->
    spells (T_Node (ExportNamedDeclaration (Some d) [] None sp)) p r
| S_export_default d sp p q r s : eats (is_k "export") p q -> eats (is_k "default") q r -> spells (T_Node d) r s ->
    is_declared d = true -> spells (T_Node (ExportDefaultDeclaration d sp)) p s
| S_export_default_expr e sp p q r s t : eats (is_k "export") p q -> eats (is_k "default") q r -> spells (T_Node e) r s -> semi s t ->
    spells (T_Node (ExportDefaultDeclaration e sp)) p t
| S_program l ty sp p q : many (fun x => spells (T_Node x)) l p q -> ttype (next q) = TEof ->
    spells (T_Node (Program l ty sp)) p q.

(** [reads_when src t]: the source is a sequence of tokens, up to its end, that
    spells the tree [t]. *)
Definition reads_when (src : str) (t : node) : Prop :=
  exists ts eof first, tiles E (ts ++ [eof]) src [] /\ placed E src (ts ++ [eof]) /\ hd_error (ts ++ [eof]) = Some first /\
    spells (T_Node t) (mkPos [] first) (mkPos (rev ts) eof).
End Grammar.

(** Spans are disregarded. *)
Definition reads_as (E : env) (src : str) (t : node) : Prop := reads_when E (fun _ _ _ => True) src t.

(** ** Places *)
(** The place where a token begins, and the one behind it. *)
Definition place (t : token) : marker := mkMarker (tline t) (tcol t) (tstart t).
Definition behind (t : token) : marker := mkMarker (tline t) (tcol t) (tend t + 1).
(** A span from [p] to [q]: it begins at the first token and ends behind the token
    *after* the last one (defect).  After a look-ahead it ends earlier: behind the word
    that caused the look-ahead. *)
Definition exact (sp : span) (p q : pos) : Prop :=
  sp_start sp = place (next p) /\
  exists us u vs, next q :: before q = us ++ u :: vs /\ sp_end sp = behind u /\
    (us = [] \/ Forall peeked (tl us ++ [u])).
(** [reads_at E src t]: the source is read as [t], with these spans. *)
Definition reads_at (E : env) (src : str) (t : node) : Prop := reads_when E exact src t.
