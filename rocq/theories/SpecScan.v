(** * SpecScan: the histories of the scanner the lexical properties talk about. *)
From Verif Require Import Base Punct Token Scanner.
From Verif Require SpecLex.

(** [reach E src s]: [s] is a state of the scanner after some sequence of
    successful calls of its public operations on a scanner made for [src]. *)
Inductive reach (E : env) (src : str) : sst -> Prop :=
| reach_new : reach E src (s_new src)
| reach_next s g t s' : reach E src s -> s_next E g s = ROk t s' -> reach E src s'
| reach_save s u s' : reach E src s -> save_state s = ROk u s' -> reach E src s'
| reach_restore s t u s' : reach E src s -> restore_state t s = ROk u s' -> reach E src s'.

(** No token has been pushed back: the next token comes from the input. *)
Definition fresh (s : sst) : Prop := unscanned s = None.

(** The state with another remaining input. *)
Definition with_input (r : str) (s : sst) : sst := set_rest r s.

(** The same scanning result, positions aside. *)
Definition same_scan (r1 r2 : res sst token) : Prop :=
  match r1, r2 with
  | ROk t1 s1, ROk t2 s2 => SpecLex.same_token t1 t2 /\ rest s1 = rest s2
  | RErr e1, RErr e2 => err_type e1 = err_type e2
  | RPanic p1, RPanic p2 => p1 = p2
  | _, _ => False
  end.

(** The end-of-input token is requested before anything was read (the case in
    which the overflow-checked build panics). *)
Definition at_empty (s : sst) : Prop := current s = 0 /\ rest s = [].

(** [scans_to E g s ty v r]: the next token has this kind and value, and leaves [r]. *)
Definition scans_to (E : env) (g : lexgoal) (s : sst) (ty : tokentype) (v : value) (r : str) : Prop :=
  exists t s', s_next E g s = ROk t s' /\ ttype t = ty /\ tval t = v /\ rest s' = r.
