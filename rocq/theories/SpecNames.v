(** * SpecNames: the names a pattern declares, and the names an expression would
    declare if it were read as a pattern (cover grammar).  Only definitions;
    nothing of the conversions is used. *)
From Verif Require Import Base Punct Token Ast.

(** ** Patterns *)
Definition key_names (k : prop_key) : list str := match k with PK_Id i => [id_name i] | _ => [] end.
(** The names in binding positions, in source order.  Initialisers and computed
    keys declare nothing. *)
Fixpoint node_names (x : node) : list str :=
  match x with
  | Identifier n _ _ | NBindingIdentifier n _ => [n]
  | NArrayPattern es _ _ => flat_map (fun o => match o with Some y => apat_names y | None => [] end) es
  | ArrayAssignmentPattern es _ _ => flat_map (fun o => match o with Some y => aapat_names y | None => [] end) es
  | NObjectPattern ps _ _ => flat_map opat_names ps
  | NAssignmentPattern b _ _ | NRestElement b _ => binding_names b
  | _ => []
  end
with binding_names (b : binding) : list str :=
  match b with
  | B_Id n _ => [n]
  | B_Array es _ => flat_map (fun o => match o with Some y => apat_names y | None => [] end) es
  | B_Object ps _ => flat_map opat_names ps
  | B_Expr e => node_names e
  end
with apat_names (y : arr_pat) : list str :=
  match y with
  | AP_Assign b _ | AP_Rest b => binding_names b
  | AP_Id n => [n]
  | AP_Array es => flat_map (fun o => match o with Some y => apat_names y | None => [] end) es
  | AP_Object ps => flat_map opat_names ps
  end
with aapat_names (y : arr_apat) : list str :=
  match y with AA_Expr e => node_names e | AA_Rest b => binding_names b end
with opat_names (y : obj_pat) : list str :=
  match y with
  | OP_Prop k _ None _ _ _ => key_names k
  | OP_Prop _ _ (Some v) _ _ _ => value_names v
  | OP_Rest b => binding_names b
  end
with value_names (v : prop_value) : list str :=
  match v with
  | PV_Assign b _ => binding_names b
  | PV_BindId n _ => [n]
  | PV_ArrayPat es => flat_map (fun o => match o with Some y => apat_names y | None => [] end) es
  | PV_ObjectPat ps => flat_map opat_names ps
  | PV_Expr e => node_names e
  | PV_Fn _ | PV_AsyncFn _ _ _ _ _ _ => []
  end.
Definition param_names (y : func_param) : list str :=
  match y with
  | FP_Assign b _ | FP_Rest b => binding_names b
  | FP_Id n => [n]
  | FP_Array es => flat_map (fun o => match o with Some y => apat_names y | None => [] end) es
  | FP_Object ps => flat_map opat_names ps
  end.

(** ** Expressions read as patterns *)
Definition cat {A} (a b : option (list A)) : option (list A) :=
  match a, b with Some x, Some y => Some (x ++ y) | _, _ => None end.

(** [cover_names element x]: the names [x] declares when it is read as a pattern,
    [None] if it cannot be read as a pattern.  [element]: with an optional default value. *)
Fixpoint cover_names (element : bool) (x : node) : option (list str) :=
  match x with
  | Identifier n _ _ => Some [n]
  | ArrayExpression es _ _ =>
    (fix go (l : list (option arr_elem)) : option (list str) :=
       match l with
       | [] => Some []
       | o :: l' =>
         cat (match o with
              | None => Some []
              (* the next two do not occur in expressions *)
              | Some (AE_Expr (NRestElement b _)) => match l' with [] => Some (binding_names b) | _ => None end
              | Some (AE_Expr (NSpreadElement e _)) => match l' with [] => cover_names false e | _ => None end
              | Some (AE_Expr e) => cover_names true e
              | Some (AE_Spread e _) => match l' with [] => cover_names false e | _ => None end
              end) (go l')
       end) es
  | ObjectExpression ps _ _ =>
    (fix go (l : list obj_prop) : option (list str) :=
       match l with
       | [] => Some []
       | o :: l' =>
         cat (match o with
              | OE_Prop k _ None _ _ _ _ => Some (key_names k)
              (* also for {a = e}, which should declare a (defect) *)
              | OE_Prop _ _ (Some (PV_Expr e)) _ _ _ _ => cover_names true e
              | OE_Prop _ _ (Some _) _ _ _ _ => None
              | OE_Spread e _ => match l' with [] => cover_names false e | _ => None end
              end) (go l')
       end) ps
  | AssignmentExpression op l _ _ _ => if element && String.eqb op "=" then cover_names false l else None
  (* Patterns are left as they are: NObjectPattern is the left side of an
     assignment, the others do not occur in expressions. *)
  | NBindingIdentifier n _ => Some [n]
  | NArrayPattern _ _ _ | NObjectPattern _ _ _ => Some (node_names x)
  | NAssignmentPattern _ _ _ => if element then Some (node_names x) else None
  | _ => None
  end.
(** A parenthesised list read as parameters. *)
Fixpoint cover_params (l : list node) : option (list str) :=
  match l with
  | [] => Some []
  | x :: l' =>
    cat (match x with
         | NSpreadElement e _ => match l' with [] => cover_names false e | _ => None end
         | NRestElement b _ => match l' with [] => Some (binding_names b) | _ => None end
         | _ => cover_names true x
         end) (cover_params l')
  end.
