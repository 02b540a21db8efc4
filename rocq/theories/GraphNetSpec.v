(** Specification of graph networks node by node, and of the masked readout of the ring tasks.
    Only the records of the models are used. *)
From Coq Require Import List Arith Lia ZArith Bool.
From Verif Require Import Base ScatterModel ScatterSpec ComplexModel BatchSpec BatchSpec2 MPModel MPSpec LiftSpec
  GraphNetModel.
Import ListNotations.

Section Spec.
Context {V : Type} (o : ops V).

Definition into (es : list (nat * nat)) (i : nat) : list (nat * nat) := filter (fun e => snd e =? i) es.

(** One layer at node [i]: the features of the sources of the edges into [i] are summed. *)
Definition gin_step (l : gin_layer V) (es : list (nat * nat)) (X : nat -> V) : nat -> V :=
  fun i => gc_act l (gc_nn l (vadd o (reduce_rows o RAdd (map (fun e => X (fst e)) (into es i)))
                                     (gc_scale l (X i)))).

(** The features after every layer. *)
Fixpoint gin_history (ls : list (gin_layer V)) (es : list (nat * nat)) (X : nat -> V) : list (nat -> V) :=
  match ls with
  | [] => []
  | l :: r => let Y := gin_step l es X in Y :: gin_history r es Y
  end.

Definition node_feats (g : graph V) : nat -> V := fun i => nth i (g_x g) (vzero o).

(** What RingGIN answers for one graph: one row for each marked node. *)
Definition marked (mask : list bool) : list nat := filter (fun i => nth i mask false) (seq 0 (length mask)).

Definition ring_gin_answers (m : ring_gin V) (g : graph V) : list V :=
  let X := fun i => rg_init m (node_feats g i) in
  let F := last (gin_history (rg_first m :: rg_rest m) (g_edges g) X) X in
  map (fun i => rg_lin1 m (F i)) (marked (content (g_mask g))).

(** What the graph networks with pooling predict for one graph. *)
Definition gin_predict (m : gin_net V) (g : graph V) : V :=
  let X := node_feats g in
  let h := gin_history (gn_first m :: gn_rest m) (g_edges g) X in
  let F := match gn_jump m with None => last h X | Some j => fun i => j (map (fun Y => Y i) h) end in
  gn_head m (reduce_rows o (gn_pool m) (map F (seq 0 (length (g_x g))))).

Definition pgraph_ok (g : graph V) : Prop := graph_ok (g_edges g) (length (g_x g)).
Definition mask_ok (g : graph V) : Prop := exists m, g_mask g = Some m /\ length m = length (g_x g).

(** [walk es n i k]: a message needs [n] hops from [k] to [i]. *)
Inductive walk (es : list (nat * nat)) : nat -> nat -> nat -> Prop :=
| walk_here i : walk es 0 i i
| walk_hop n i j k : In (j, i) es -> walk es n j k -> walk es (S n) i k.

(** ** The masked readout of RingSparseCIN *)
(** Node features go through the initial layer, the others stay. *)
Definition init_nodes (f : V -> V) (X : feats V) : feats V := fun d i => if d =? 0 then f (X d i) else X d i.

Definition mask_of (k : complex V) : list bool := content (attr c_mask 0 k).
Definition masked (k : complex V) (sz : nat -> nat) : Prop :=
  exists m, attr c_mask 0 k = Some m /\ length m = sz 0.

End Spec.
