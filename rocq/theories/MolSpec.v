(** Specification of the prediction for a raw graph and of data sets that differ by the writing of the graphs. *)
From Coq Require Import List Arith ZArith Bool.
From Verif Require Import Base ScatterModel ComplexModel LiftModel LiftSpec LiftRingProps LiftIso LiftDataset EmbedModel EmbedProps.
Import ListNotations.

Section Spec.
Context {V : Type} (o : ops V) (veqb : V -> V -> bool) (width : V -> nat).
Variables (lib : list (list nat) -> simplex_tree) (isos : list (nat * nat) -> nat -> list (list nat)) (set_order : list (list nat) -> list (list nat)).
Variables (r : reduce) (max_ring : nat) (down : bool).

(** A raw graph of a labelled data set with [w] columns per node and [wa] per edge. *)
Definition sample (w : nat) (wa : option nat) (g : LiftModel.graph V) : Prop :=
  ring_graph lib isos set_order max_ring g /\ widths width w wa g /\ exists z, LiftModel.g_y g = Some [z].

(** The network's output on the complex of the graph alone: the graph is lifted and no other complex is in the batch. *)
Definition predicted (m : enet V) (g : LiftModel.graph V) (v : V) : Prop :=
  exists K b b', compute_ring_2complex o veqb lib isos set_order r (LiftModel.g_x g) (LiftModel.g_edges g) (LiftModel.g_attr g) (LiftModel.g_n g)
      (LiftModel.g_y g) max_ring down true false = Ok K /\
    from_complex_list [K] 2 = Ok b /\ embed_forward o m b = Ok ([v], b').

(** The label of a graph. *)
Definition label (g : LiftModel.graph V) : list Z := match LiftModel.g_y g with Some l => l | None => [] end.

(** The same graph with its nodes renumbered by [sigma] and its edges listed in another order, features and attributes going along. *)
Definition renumbered (g g' : LiftModel.graph V) : Prop :=
  LiftModel.g_n g' = LiftModel.g_n g /\ LiftModel.g_y g' = LiftModel.g_y g /\ exists sigma,
    graph_iso sigma (LiftModel.g_n g) (LiftModel.g_edges g) (LiftModel.g_edges g') (LiftModel.g_x g) (LiftModel.g_x g') /\
    attr_iso sigma (LiftModel.g_edges g) (LiftModel.g_edges g') (LiftModel.g_attr g) (LiftModel.g_attr g').
End Spec.
