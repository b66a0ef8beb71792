(** * SpecShift: moving a tree in its source (C48). *)
From Verif Require Import Base Ast SpecLex SpecTouch.

(** [dl] lines and [dk] characters further; columns count from the start of a token
    and stay (C04). *)
Definition moved_marker (dl dk : N) (m : marker) : marker := mkMarker (mk_line m + dl) (mk_col m) (mk_idx m + dk).
Definition moved_span (dl dk : N) (s : span) : span := mkSpan (moved_marker dl dk (sp_start s)) (moved_marker dl dk (sp_end s)).
(** The same tree, all its positions moved *)
Definition moved (dl dk : N) (x : node) : node := touch_node (moved_span dl dk) (fun a => a) x.
(** ... by the text [w] put before [src] *)
Definition moved_by (w src : str) (x : node) : node := moved (breaks w src) (N.of_nat (length w)) x.

(** The same error, [dl] lines further *)
Definition moved_error (dl : N) (e : error) : error := mkError (err_line e + dl) (err_col e) (err_type e).
