(** Specification: complexes whose adjacencies are read off the boundary relation, and complexes with the same
    cells whose features are encoded. *)
From Coq Require Import List Arith ZArith.
From Verif Require Import Base ScatterModel ComplexModel BatchSpec BatchSpec2 MPIso.
Import ListNotations.

(** Upper adjacency is having a common coboundary cell, once for each; lower adjacency (if there: [down]) is having
    a common boundary cell, once for each; cells other than vertices have two boundary cells at least. *)
Record cellular {V} (down : bool) (k : complex V) (sz : nat -> nat) : Prop := {
  cl_once : forall d, NoDup (boundary_of k d);
  cl_two : forall d t, 0 < d -> t < sz d ->
    exists f f', f <> f' /\ In (f, t) (boundary_of k d) /\ In (f', t) (boundary_of k d);
  cl_up : forall d a b t, In ((a, b), t) (upper_of k d) <->
    a <> b /\ In (a, t) (boundary_of k (d + 1)) /\ In (b, t) (boundary_of k (d + 1));
  cl_up_once : forall d, NoDup (upper_of k d);
  cl_low : forall d a b f, In ((a, b), f) (lower_of k d) <->
    down = true /\ a <> b /\ In (f, a) (boundary_of k d) /\ In (f, b) (boundary_of k d);
  cl_low_once : forall d, NoDup (lower_of k d)
}.

(** [kv] is [k] with row [code d x] for feature [x] of a [d]-cell. *)
Record encoded {W V} (code : nat -> W -> V) (k : complex W) (kv : complex V) : Prop := {
  en_dim : k_dim kv = k_dim k;
  en_up : forall d, upper_of kv d = upper_of k d;
  en_low : forall d, lower_of kv d = lower_of k d;
  en_bnd : forall d, boundary_of kv d = boundary_of k d;
  en_x : forall d, content (attr c_x d kv) = map (code d) (content (attr c_x d k))
}.
