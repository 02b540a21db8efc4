(** Specification: complexes that consist of selected cells of another. *)
From Coq Require Import List Arith.
From Verif Require Import Base ScatterModel ComplexModel BatchSpec BatchSpec2 MPIso BlindSpec.
Import ListNotations.

(** Cell [i] of [k0] is cell [at_ d i] of [k]: same features, same boundary.  The cells of [k0] are those of [k] that [keep]
    selects by dimension and number of boundary cells. *)
Record selected {V} (keep : nat -> nat -> bool) (k0 : complex V) (sz0 : nat -> nat) (k : complex V) (sz : nat -> nat)
    (at_ : nat -> nat -> nat) : Prop := {
  se_cell : forall d i, i < sz0 d -> at_ d i < sz d /\ keep d (length (faces k d (at_ d i))) = true;
  se_once : forall d i j, i < sz0 d -> j < sz0 d -> at_ d i = at_ d j -> i = j;
  se_all : forall d t, t < sz d -> keep d (length (faces k d t)) = true -> exists i, i < sz0 d /\ at_ d i = t;
  se_faces : forall d i g, i < sz0 (S d) ->
    (In (g, at_ (S d) i) (boundary_of k (S d)) <-> exists f, at_ d f = g /\ In (f, i) (boundary_of k0 (S d)));
  se_row : forall d i, i < sz0 d -> nth_error (content (attr c_x d k0)) i = nth_error (content (attr c_x d k)) (at_ d i)
}.
