(** * Reader: the buffered look-ahead reader (scanner/reader.rs). *)
From Verif Require Import Base.

(** reader.rs:3-6: [source] is the not yet pulled part of the character
    iterator, [buf] the look-ahead buffer (front first). *)
Record reader := mkReader { r_source : str; r_buf : str }.

(** reader.rs:12-17 *)
Definition r_new (source : str) : reader := mkReader source [].

(** reader.rs:20-25: pull [k] items from the source into the buffer; [false] if
    the iterator ran out ([return None]). *)
Fixpoint r_fill (k : nat) (r : reader) : bool * reader :=
  match k with
  | O => (true, r)
  | S k' =>
    match r_source r with
    | c :: src => r_fill k' (mkReader src (r_buf r ++ [c]))
    | [] => (false, r)
    end
  end.

(** reader.rs:19-28: [for _ in buf.len()..(n+1)] makes [n + 1 - buf.len()]
    iterations (none if negative). *)
Definition r_lookahead (n : nat) (r : reader) : option N * reader :=
  let '(ok, r') := r_fill (S n - length (r_buf r)) r in
  if ok then (nth_error (r_buf r') n, r') else (None, r').

(** reader.rs:37-39 *)
Definition r_next (r : reader) : option N * reader :=
  match r_buf r with
  | c :: b => (Some c, mkReader (r_source r) b)
  | [] =>
    match r_source r with
    | c :: src => (Some c, mkReader src [])
    | [] => (None, r)
    end
  end.

(** One public operation and a history of them. *)
Inductive r_op := Look (n : nat) | Next.

Definition r_step (o : r_op) (r : reader) : option N * reader :=
  match o with Look n => r_lookahead n r | Next => r_next r end.

Fixpoint r_run (ops : list r_op) (r : reader) : list (option N) * reader :=
  match ops with
  | [] => ([], r)
  | o :: ops' =>
    let '(x, r1) := r_step o r in
    let '(xs, r2) := r_run ops' r1 in
    (x :: xs, r2)
  end.
