(** * Convert: reinterpretation of expressions as patterns (cover grammar),
    estree.rs:108-136, 199-216, 327-339, 1045-1407. *)
From Verif Require Import Base Punct Token Ast.

(** Result of a conversion: no state is involved. *)
Inductive cres (A : Type) := COk (a : A) | CErr (e : error) | CPanic (p : panic).
Arguments COk {A}. Arguments CErr {A}. Arguments CPanic {A}.
Definition cbind {A B} (m : cres A) (k : A -> cres B) : cres B :=
  match m with COk a => k a | CErr e => CErr e | CPanic p => CPanic p end.

(** estree.rs:1400-1406 [Node::error] *)
Definition node_error {A} (t : errtype) (m : marker) : cres A := CErr (mkError (mk_line m) (mk_col m) t).

(** estree.rs:109-126 [Binding::to_node] *)
Definition binding_to_node (b : binding) : cres node :=
  match b with
  | B_Id name sp => COk (NBindingIdentifier name sp)
  | B_Array es sp => COk (NArrayPattern es ASimple sp)
  | B_Object ps sp => COk (NObjectPattern ps ASimple sp)
  | B_Expr _ => CPanic P_ToNode
  end.

(** estree.rs:128-135 [Binding::to_id] *)
Definition binding_to_id (b : binding) : cres identifier :=
  match b with B_Id name sp => COk (mkId name sp) | _ => CPanic P_ToId end.

(** estree.rs:200-215 [PropertyKey::as_node] *)
Definition key_as_node (k : prop_key) : node :=
  match k with
  | PK_Id i => Identifier (id_name i) AInvalid (id_span i)
  | PK_Lit l => NLiteral (lit_value l) (lit_raw l) AInvalid (lit_span l)
  | PK_Expr e => e
  end.

(** estree.rs:328-338 [ArgumentListElement::as_node] *)
Definition arg_as_node (a : arg_elem) : node :=
  match a with AR_Expr e => e | AR_Spread e sp => NSpreadElement e sp end.

Section WithEnv.
Context (E : env).

(** estree.rs:1063-1074: second half of [to_strict_binding], applied to the
    result of [to_binding_pattern] *)
Definition strict_binding_of (m : marker) (n : node) : cres binding :=
  match n with
  | NBindingIdentifier name sp => COk (B_Id name sp)
  | NArrayPattern es _ sp => COk (B_Array es sp)
  | NObjectPattern ps _ sp => COk (B_Object ps sp)
  | _ => node_error InvalidOrUnexpectedToken m
  end.

(** estree.rs:1291-1320: second half of [to_array_pattern_element] *)
Definition array_pattern_element_of (is_last : bool) (n : node) : cres arr_pat :=
  match n with
  | NAssignmentPattern l r _ => COk (AP_Assign l r)
  | NBindingIdentifier name _ => COk (AP_Id name)
  | NObjectPattern ps _ _ => COk (AP_Object ps)
  | NArrayPattern es _ _ => COk (AP_Array es)
  | NRestElement b sp => if is_last then COk (AP_Rest b) else node_error ParamAfterRest (sp_start sp)
  | _ => match expr_span n with
         | Some sp => node_error InvalidOrUnexpectedToken (sp_start sp)
         | None => CPanic P_ExprSpan
         end
  end.

(** estree.rs:1345-1369: property value of an object pattern, from the result
    of [to_binding_pattern] *)
Definition pattern_value_of (m : marker) (n : node) : cres prop_value :=
  match n with
  | NAssignmentPattern l r _ => COk (PV_Assign l r)
  | NBindingIdentifier name sp => COk (PV_BindId name sp)
  | NObjectPattern ps _ _ => COk (PV_ObjectPat ps)
  | NArrayPattern es _ _ => COk (PV_ArrayPat es)
  | _ => node_error InvalidOrUnexpectedToken m
  end.

(** estree.rs:1265, 1182, 1332 style index of the last element; [None] is the
    checked-build underflow, the unchecked build wraps to usize::MAX (which no
    index reaches). *)
Definition last_index (len : nat) : option N :=
  match len with
  | O => if checked E then None else Some (usize_max E)
  | S k => Some (N.of_nat k)
  end.

(** estree.rs:1237-1261 [to_binding_pattern] with 1263-1287 [array_to_pattern]
    and 1323-1398 [object_to_pattern] inlined as local loops. *)
Fixpoint to_binding_pattern (n : node) : cres node :=
  match n with
  | Identifier name _ sp => COk (NBindingIdentifier name sp)
  | ArrayExpression elements _ sp =>
    match last_index (length elements) with
    | None => CPanic P_PatternUnderflow
    | Some last_idx =>
      cbind ((fix loop (i : N) (l : list (option arr_elem)) : cres (list (option arr_pat)) :=
        match l with
        | [] => COk []
        | x :: l' =>
          cbind (match x with
                 | Some (AE_Expr e) =>
                   cbind (to_binding_pattern e) (fun p =>
                   cbind (array_pattern_element_of (i =? last_idx) p) (fun q => COk (Some q)))
                 | Some (AE_Spread e esp) =>
                   if negb (i =? last_idx) then node_error ParamAfterRest (sp_start esp)
                   else cbind (to_binding_pattern e) (fun p =>
                        cbind (strict_binding_of (sp_start esp) p) (fun b => COk (Some (AP_Rest b))))
                 | None => COk None
                 end) (fun y =>
          cbind (loop (i + 1) l') (fun ys => COk (y :: ys)))
        end) 0 elements) (fun es => COk (NArrayPattern es ASimple sp))
    end
  | ObjectExpression properties _ sp =>
    let last_idx := N.of_nat (length properties - 1) in
    cbind ((fix loop (i : N) (l : list obj_prop) : cres (list obj_pat) :=
      match l with
      | [] => COk []
      | x :: l' =>
        cbind (match x with
               | OE_Prop key computed v kind method shorthand psp =>
                 cbind (match v with
                        | Some (PV_Expr e) =>
                          cbind (to_binding_pattern e) (fun p =>
                          cbind (pattern_value_of (sp_start psp) p) (fun q => COk (Some q)))
                        | None => COk None
                        | Some _ => node_error InvalidOrUnexpectedToken (sp_start psp)
                        end) (fun v' => COk (OP_Prop key computed v' kind method shorthand))
               | OE_Spread e psp =>
                 if i =? last_idx
                 then cbind (to_binding_pattern e) (fun p =>
                      cbind (strict_binding_of (sp_start psp) p) (fun b => COk (OP_Rest b)))
                 else node_error InvalidOrUnexpectedToken (sp_start psp)
               end) (fun y =>
        cbind (loop (i + 1) l') (fun ys => COk (y :: ys)))
      end) 0 properties) (fun ps => COk (NObjectPattern ps ASimple sp))
  | AssignmentExpression op lhs rhs a sp =>
    if String.eqb op "="
    then cbind (to_binding_pattern lhs) (fun p =>
         cbind (strict_binding_of (sp_start sp) p) (fun b => COk (NAssignmentPattern b rhs sp)))
    else COk n
  | NSpreadElement e sp =>
    cbind (to_binding_pattern e) (fun p =>
    cbind (strict_binding_of (sp_start sp) p) (fun b => COk (NRestElement b sp)))
  | _ => COk n
  end.

(** estree.rs:1061-1075 *)
Definition to_strict_binding (m : marker) (n : node) : cres binding :=
  cbind (to_binding_pattern n) (strict_binding_of m).

(** estree.rs:1045-1059 *)
Definition to_binding (n : node) : cres binding :=
  cbind (to_binding_pattern n) (fun p =>
  match p with
  | NBindingIdentifier name sp => COk (B_Id name sp)
  | NArrayPattern es _ sp => COk (B_Array es sp)
  | NObjectPattern ps _ sp => COk (B_Object ps sp)
  | _ => COk (B_Expr p)
  end).

(** estree.rs:1133-1158: second half of [as_assignment_element] *)
Definition assignment_element_of (n : node) : cres node :=
  let other :=
    if negb (att_eqb (assign_target_type n) ASimple)
    then match expr_span n with
         | Some sp => node_error InvalidLhsInAssignment (sp_start sp)
         | None => CPanic P_ExprSpan
         end
    else COk n in
  match n with
  | AssignmentExpression op lhs rhs _ sp =>
    if String.eqb op "="
    then if negb (att_eqb (assign_target_type lhs) ASimple)
         then node_error InvalidLhsInAssignment (sp_start sp)
         else COk (NAssignmentPattern (B_Expr lhs) rhs sp)
    else other
  | _ => other
  end.

(** estree.rs:1105-1119 and 1214-1226: the argument of a rest element; [t] is
    the error reported for a literal pattern *)
Definition assign_rest_argument (t : errtype) (e : node) (sp : span) : cres binding :=
  match e with
  | ArrayExpression _ _ sp' | ObjectExpression _ _ sp' => node_error t (sp_start sp')
  | _ =>
    if negb (att_eqb (assign_target_type e) ASimple)
    then node_error InvalidLhsInAssignment (sp_start sp)
    else to_binding e
  end.

(** estree.rs:1077-1087 [to_assignment_pattern] with 1089-1129
    [array_to_assign_pattern], 1131-1159 [as_assignment_element] and 1161-1235
    [object_to_assign_pattern] inlined.  Note 1094: [last_idx = elements.len()]. *)
Fixpoint to_assignment_pattern (n : node) : cres node :=
  match n with
  | ArrayExpression elements _ sp =>
    let last_idx := N.of_nat (length elements) in
    cbind ((fix loop (i : N) (l : list (option arr_elem)) : cres (list (option arr_apat)) :=
      match l with
      | [] => COk []
      | x :: l' =>
        cbind (match x with
               | Some (AE_Expr e) =>
                 cbind (to_assignment_pattern e) (fun p =>
                 cbind (assignment_element_of p) (fun q => COk (Some (AA_Expr q))))
               | Some (AE_Spread e esp) =>
                 if negb (i =? last_idx) then node_error ParamAfterRest (sp_start esp)
                 else cbind (assign_rest_argument InvalidRestBindingPattern e esp) (fun b =>
                      COk (Some (AA_Rest b)))
               | None => COk None
               end) (fun y =>
        cbind (loop (i + 1) l') (fun ys => COk (y :: ys)))
      end) 0 elements) (fun es => COk (ArrayAssignmentPattern es ASimple sp))
  | ObjectExpression properties _ sp =>
    let last_idx := N.of_nat (length properties - 1) in
    cbind ((fix loop (i : N) (l : list obj_prop) : cres (list obj_pat) :=
      match l with
      | [] => COk []
      | x :: l' =>
        cbind (match x with
               | OE_Prop key computed v kind method shorthand psp =>
                 cbind (match v with
                        | Some (PV_Expr e) =>
                          cbind (to_assignment_pattern e) (fun p =>
                          cbind (assignment_element_of p) (fun q => COk (Some (PV_Expr q))))
                        | None => COk None
                        | Some _ => node_error InvalidOrUnexpectedToken (sp_start psp)
                        end) (fun v' => COk (OP_Prop key computed v' kind method shorthand))
               | OE_Spread e psp =>
                 if negb (i =? last_idx) then node_error ParamAfterRest (sp_start psp)
                 else cbind (assign_rest_argument InvalidLhsInAssignment e psp) (fun b =>
                      COk (OP_Rest b))
               end) (fun y =>
        cbind (loop (i + 1) l') (fun ys => COk (y :: ys)))
      end) 0 properties) (fun ps => COk (NObjectPattern ps ASimple sp))
  | _ => COk n
  end.

End WithEnv.
