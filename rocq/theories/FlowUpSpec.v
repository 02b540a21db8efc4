(** Specification for networks that do not use coboundary features: which part of a complex they can see, and
    complexes lifted from graphs. *)
From Coq Require Import List Arith Lia ZArith Bool Permutation.
From Verif Require Import Base ScatterModel ScatterSpec ComplexModel BatchSpec BatchSpec2 LiftSpec MPModel MPSpec
  GraphNetModel GraphNetSpec WLSpec.
Import ListNotations.

Section Spec.
Context {V : Type}.

(** Two complexes agree up to dimension [d]: the same features, boundaries and upper adjacencies of the cells of
    dimension at most [d].  Nothing is required of the features, lower adjacencies and boundaries of higher cells
    (not even that they exist), nor of labels and masks. *)
Record agree_up_to (d : nat) (k k' : complex V) : Prop := {
  ag_x : forall e, e <= d -> attr c_x e k = attr c_x e k';
  ag_bnd : forall e, e <= d -> content (attr c_bidx e k) = content (attr c_bidx e k');
  ag_up : forall e, e <= d -> content (attr c_upper e k) = content (attr c_upper e k')
}.

(** Messages along upper adjacencies that look at the neighbour only: [use_coboundaries='False'],
    mp/layers.py:290-297. *)
Definition ignores_coboundary (m : msg V) : Prop := exists f, m = MsgFst f.

(** A complex over the vertices and edges of a simple graph carrying its node features, with some features on
    all its cells. *)
Definition lifted_from (g : graph V) (k : complex V) : Prop :=
  simple (g_edges g) (length (g_x g)) /\ g_x g <> [] /\
  exists cells down FX, graph_cells (g_edges g) (length (g_x g)) cells /\ has_cells cells down FX k /\
    FX 0 = Some (g_x g) /\ forall d, d <= k_dim k -> FX d <> None.

(** The SparseCIN layer that imitates a GIN layer: neighbours are passed on as they are, the update network of upper
    messages is the network of the GIN layer, and combining keeps the first of the two updates. *)
Record imitates (l : gin_layer V) (s : sparse_level V) : Prop := {
  im_msg : sp_up s = MsgFst (fun v => v);
  im_scale : forall v, sp_s1 s v = gc_scale l v;
  im_out : forall u b, sp_comb s (sp_upd_up s u) b = gc_act l (gc_nn l u)
}.
End Spec.
