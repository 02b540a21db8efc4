(** Specification of disjoint unions of graphs and of families of cells. *)
From Coq Require Import List Arith ZArith Bool.
From Verif Require Import Base ComplexModel BatchSpec BatchSpec2 LiftModel LiftSpec.
Import ListNotations.

(** The number of cells in every dimension of the members. *)
Definition sizes_of (cs : list (nat -> list (list nat))) : list (nat -> nat) :=
  map (fun c d => length (c d)) cs.

(** The cells of the disjoint union: those of the members one after the other, the vertices of a
    member coming after those of the members before. *)
Definition union_cells (cs : list (nat -> list (list nat))) (d : nat) : list (list nat) :=
  concat (mapi (fun i c => map (map (fun v => v + off (sizes_of cs) i 0)) (c d)) cs).

Section Graphs.
Context {V : Type}.

(** The number of nodes of the graphs before the [i]-th one. *)
Definition nodes_before (gs : list (graph V)) (i : nat) : nat := list_sum (map g_n (firstn i gs)).

(** The disjoint union: the nodes, edges and attributes of the graphs one after the other, the ends of
    the edges shifted; there are edge attributes if all graphs have them. *)
Definition union_edges (gs : list (graph V)) : list (nat * nat) :=
  concat (mapi (fun i g => map (fun e => (fst e + nodes_before gs i, snd e + nodes_before gs i)) (g_edges g)) gs).
Definition union_attr (gs : list (graph V)) : option (list V) :=
  if forallb (fun g => isSome (g_attr g)) gs then Some (concat (map (fun g => content (g_attr g)) gs)) else None.
Definition union_graph (gs : list (graph V)) (y : option (list Z)) : graph V :=
  mkGraph (concat (map g_x gs)) (union_edges gs) (union_attr gs) (list_sum (map g_n gs)) y.

(** Either all graphs have edge attributes or none has. *)
Definition uniform_attr (gs : list (graph V)) : Prop :=
  (forall g, In g gs -> g_attr g <> None) \/ (forall g, In g gs -> g_attr g = None).
End Graphs.
