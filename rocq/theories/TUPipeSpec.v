(** What the network should predict for a document of a TU text file (C81). *)
From Coq Require Import List Arith ZArith Bool.
From Verif Require Import Base ScatterModel ComplexModel MPModel LiftModel LiftSpec TUModel TUSpec PermLift.
Import ListNotations.

(** No node is its own neighbour. *)
Definition no_loops (d : doc) : Prop := forall u, ~ mentions d u u.

Section Spec.
Context {V : Type} (o : ops V) (veqb : V -> V -> bool) (row : list Z -> V).

(** A graph of the document: its nodes, its edges in any order and in one or both directions, and for node [v] the indicator row of
    column [code v] among [k] columns. *)
Record doc_graph (k : nat) (code : nat -> nat) (d : doc) (g : LiftModel.graph V) : Prop := {
  dg_n : LiftModel.g_n g = length (d_nodes d);
  dg_len : length (LiftModel.g_x g) = length (d_nodes d);
  dg_x : forall v a, nth_error (LiftModel.g_x g) v = Some a -> exists l, hot_at k (code v) l /\ a = row l;
  dg_in : forall u v, In (u, v) (LiftModel.g_edges g) -> linked d u v;
  dg_all : forall u v, linked d u v -> In (u, v) (LiftModel.g_edges g) \/ In (v, u) (LiftModel.g_edges g);
  dg_attr : LiftModel.g_attr g = None;
  dg_y : exists z, LiftModel.g_y g = Some [z]
}.

(** The complex of a graph: its induced cycles up to a size, or its cliques up to a dimension. *)
Definition lift_one (lib : list (list nat) -> simplex_tree) (isos : list (nat * nat) -> nat -> list (list nat)) (set_order : list (list nat) -> list (list nat))
    (ring : option nat) (r : reduce) (max_dim : nat) (down : bool) (g : LiftModel.graph V) : result (complex V) :=
  match ring with
  | Some max_ring => compute_ring_2complex o veqb lib isos set_order r (LiftModel.g_x g) (LiftModel.g_edges g) None (LiftModel.g_n g) (LiftModel.g_y g)
                       max_ring down true true
  | None => compute_clique_complex o lib r (LiftModel.g_x g) (LiftModel.g_edges g) (LiftModel.g_n g) max_dim (LiftModel.g_y g) down
  end.

(** [v] is the output of the network for the document: for any graph of the document, lifted by any gudhi and any graph-tool, and
    no other complex in the batch. *)
Definition output_for (m : net V) (ring : option nat) (r : reduce) (max_dim : nat) (down : bool) (k : nat) (code : nat -> nat) (d : doc) (v : V) : Prop :=
  forall lib isos set_order g, good_lib lib -> good_isos isos (length (d_nodes d)) -> good_set set_order -> doc_graph k code d g ->
  exists K b b', lift_one lib isos set_order ring r max_dim down g = Ok K /\ from_complex_list [K] max_dim = Ok b /\
    net_forward o m b = Ok ([v], b').
End Spec.
