(** What the width theorems assume about the data and the arguments. *)
From Coq Require Import List Arith.
From Verif Require Import WidthModel.
Import ListNotations.

(** Every cochain of the batch has features with [w] columns. *)
Definition featured (w : nat) (K : list wco) : Prop :=
  forall c, In c K -> w_x c = Some w.

(** There are vertices, and vertices have no lower neighbours and no
    boundaries. *)
Definition grounded (K : list wco) : Prop :=
  match K with [] => False | v :: _ => w_down v = false /\ w_bnd v = false end.

(** The cells of positive dimension have boundaries. *)
Definition bounded (K : list wco) : Prop :=
  forall d c, nth_error K (S d) = Some c -> w_bnd c = true.

(** The jump modes that the networks can be built with. *)
Definition jumps (jm : option wjump) : Prop := jm <> Some JLstm.

(** Some dimension is read out. *)
Definition reads (dims : option (list nat)) (max_dim : nat) : Prop :=
  match dims with None => True | Some ds => exists d, In d ds /\ d <= max_dim end.

(** The input of an embedding network: the vertices carry columns that the
    encoder knows, the edges carry none or - if edges are embedded - columns
    that the encoder knows.  What the other cells carry does not matter. *)
Definition atom_columns (e : wenc) (w : nat) : Prop :=
  match e with EEmb => w = 1 | EOgb => 1 <= w <= 9 end.
Definition bond_columns (e : wenc) (w : nat) : Prop :=
  match e with EEmb => w = 1 | EOgb => 1 <= w <= 3 end.
Definition molecular (e : wenc) (embed_edge : bool) (K : list wco) : Prop :=
  (exists v w, nth_error K 0 = Some v /\ w_x v = Some w /\ atom_columns e w) /\
  (forall c w, nth_error K 1 = Some c -> w_x c = Some w ->
     embed_edge = true /\ bond_columns e w).
