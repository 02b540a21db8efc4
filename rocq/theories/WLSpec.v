(** Specification: colour refinement on graphs (the Weisfeiler-Lehman test) and complexes whose vertices
    and edges are those of a graph. *)
From Coq Require Import List Arith Lia ZArith Bool Permutation.
From Verif Require Import Base ScatterModel ScatterSpec ComplexModel BatchSpec BatchSpec2 LiftSpec GraphNetModel GraphNetSpec.
Import ListNotations.

Section WL.
Context {V C : Type} (init : V -> C) (hash : C -> list C -> C).
(** The colour of node [i] after [l] rounds. *)
Fixpoint wl_colour (es : list (nat * nat)) (X : nat -> V) (l i : nat) : C :=
  match l with
  | 0 => init (X i)
  | S l' => hash (wl_colour es X l' i) (map (fun e => wl_colour es X l' (fst e)) (into es i))
  end.
Definition wl_colours (es : list (nat * nat)) (X : nat -> V) (n l : nat) : list C := map (wl_colour es X l) (seq 0 n).

(** Different multisets get different colours. *)
Definition wl_faithful : Prop :=
  (forall v v', init v = init v' -> v = v') /\
  (forall c u c' u', hash c u = hash c' u' -> c = c' /\ Permutation u u').
(** Equal multisets get equal colours. *)
Definition wl_symmetric : Prop := forall c u u', Permutation u u' -> hash c u = hash c u'.
End WL.

(** Undirected graphs without self-loops and multiple edges, both directions listed. *)
Record simple (es : list (nat * nat)) (n : nat) : Prop := {
  si_ok : graph_ok es n;
  si_loops : loop_free es;
  si_once : NoDup es;
  si_sym : forall u v, In (u, v) es -> In (v, u) es
}.

(** Vertices and edges of the complex are those of the graph. *)
Record graph_cells (es : list (nat * nat)) (n : nat) (cells : nat -> list (list nat)) : Prop := {
  gc_vertices : length (cells 0) = n;
  gc_vertex : forall v, v < n -> names cells 0 v [v];
  gc_edge : forall s, In s (cells 1) <-> exists u v, u < v /\ s = [u; v] /\ adjacent es u v;
  gc_once : forall i j s, names cells 1 i s -> names cells 1 j s -> i = j
}.
