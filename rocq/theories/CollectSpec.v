(** What the documentation of CochainMessagePassing promises about the arguments of the message
    functions (docstrings at mp/cell_mp.py:394-421): a tensor given to [propagate] under the name f
    is mapped to the cells i and j of every message by appending _i or _j. *)
From Coq Require Import String List Arith.
Import ListNotations.

(** A column of an index tensor has a sender and a receiver; [forth]: row 0 sends. *)
Definition sender (forth : bool) (c : nat * nat) : nat := if forth then fst c else snd c.
Definition receiver (forth : bool) (c : nat * nat) : nat := if forth then snd c else fst c.

(** [r] holds the rows of [l] at the given cells, in order. *)
Definition rows_at {V} (l : list V) (cells : list nat) (r : list V) : Prop :=
  Forall2 (fun c v => nth_error l c = Some v) cells r.

(** The parameter that asks for tensor [f] along adjacency [a] at the end [e] ("_i" or "_j"). *)
Definition asks (a f e : string) : string := (a ++ "_" ++ f ++ e)%string.
