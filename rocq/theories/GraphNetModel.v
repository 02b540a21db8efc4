(** Model of the baselines on graphs, mp/graph_models.py and RingGIN of mp/ring_exp_models.py, and of
    RingSparseCIN and MessagePassingAgnostic.

    As in MPModel, networks are arbitrary row functions (evaluation mode, dropout is the identity). *)
From Coq Require Import List Arith Lia ZArith Bool.
From Verif Require Import Base ScatterModel ComplexModel MPModel.
Import ListNotations.

(** [x[mask]] for a boolean mask; torch raises IndexError when the lengths differ. *)
Definition mask_select {A} (mask : list bool) (x : list A) : result (list A) :=
  if length mask =? length x then Ok (map snd (filter fst (combine mask x))) else Err IndexError.

Section Graphs.
Context {V : Type} (o : ops V).

(** A torch_geometric Data object with node features, edges (source, target) and an optional mask. *)
Record graph := mkGraph {
  g_x : list V;
  g_edges : list (nat * nat);
  g_mask : option (list bool)
}.

(** torch_geometric's Batch.from_data_list as used by its DataLoader (exp/run_exp.py:59-67): features
    and masks are concatenated, edges are shifted by the number of nodes before, [gb_batch] holds the
    graph of every node.  All graphs of a dataset have the same attributes, so there is a mask if the
    first graph has one (KeyError if another one lacks it). *)
Record gbatch := mkGBatch { gb_graph : graph; gb_batch : list nat }.

Definition shift_edges (n : nat) (es : list (nat * nat)) : list (nat * nat) :=
  map (fun e => (fst e + n, snd e + n)) es.

Fixpoint batch_edges (n : nat) (gs : list graph) : list (nat * nat) :=
  match gs with
  | [] => []
  | g :: r => shift_edges n (g_edges g) ++ batch_edges (n + length (g_x g)) r
  end.

Fixpoint batch_vector (i : nat) (gs : list graph) : list nat :=
  match gs with
  | [] => []
  | g :: r => repeat i (length (g_x g)) ++ batch_vector (S i) r
  end.

Definition batch_mask (gs : list graph) : result (option (list bool)) :=
  match gs with
  | [] => Err IndexError
  | g :: _ =>
      match g_mask g with
      | None => Ok None
      | Some _ => let* ms := mapM (fun h => of_option KeyError (g_mask h)) gs in Ok (Some (concat ms))
      end
  end.

Definition batch_graphs (gs : list graph) : result gbatch :=
  let* m := batch_mask gs in
  Ok (mkGBatch (mkGraph (concat (map g_x gs)) (batch_edges 0 gs) m) (batch_vector 0 gs)).

(** torch_geometric's GINConv: nn(sum of x_j over the edges (j, i) + (1 + eps) x_i), followed by an
    activation ([gc_act] is the identity except for the first layer of RingGIN,
    ring_exp_models.py:121). *)
Record gin_layer := mkGin { gc_nn : V -> V; gc_scale : V -> V; gc_act : V -> V }.

Definition gin_conv (l : gin_layer) (es : list (nat * nat)) (x : list V) : result (list V) :=
  let* s := message_and_aggregate o (MsgFst (fun v => v)) RAdd es x None (length x) in
  Ok (map (gc_act l) (map (gc_nn l) (addt o s (map (gc_scale l) x)))).

Fixpoint gin_convs (ls : list gin_layer) (es : list (nat * nat)) (x : list V)
  : result (list (list V)) :=
  match ls with
  | [] => Ok []
  | l :: r => let* y := gin_conv l es x in let* ys := gin_convs r es y in Ok (y :: ys)
  end.

(** mp/ring_exp_models.py:117-127  RingGIN.forward: the first layer always exists.  A missing mask
    raises AttributeError. *)
Record ring_gin := mkRingGin {
  rg_init : V -> V;                (* init_linear *)
  rg_first : gin_layer;            (* conv1 and act *)
  rg_rest : list gin_layer;        (* convs *)
  rg_lin1 : V -> V
}.
Definition ring_gin_forward (m : ring_gin) (b : gbatch) : result (list V) :=
  let g := gb_graph b in
  let* xs := gin_convs (rg_first m :: rg_rest m) (g_edges g) (map (rg_init m) (g_x g)) in
  let* mask := of_option AttributeError (g_mask g) in
  let* x := mask_select mask (last xs []) in
  Ok (map (rg_lin1 m) x).

(** mp/graph_models.py:69-80 (GIN0), 131-146 (GIN0WithJK), 189-200 (GIN), 251-266 (GINWithJK): the
    forward passes differ only in [jump].  Pooling is torch_geometric's global_add_pool or
    global_mean_pool, whose size is [batch.max() + 1]. *)
Record gin_net := mkGinNet {
  gn_first : gin_layer;
  gn_rest : list gin_layer;
  gn_jump : option (list V -> V);
  gn_pool : reduce;
  gn_head : V -> V                 (* lin2 (nonlinearity (lin1 x)) *)
}.
Definition gin_forward (m : gin_net) (b : gbatch) : result (list V) :=
  let g := gb_graph b in
  let* xs := gin_convs (gn_first m :: gn_rest m) (g_edges g) (g_x g) in
  let x := match gn_jump m with None => last xs [] | Some j => jump_rows o j xs end in
  let* sz := list_max_err (gb_batch b) in
  let* p := scatter o (gn_pool m) (Some (S sz)) (gb_batch b) x in
  Ok (map (gn_head m) p).

(** ** RingSparseCIN *)
(** mp/ring_exp_models.py:46-73.  [data.nodes.x = ...] has the effect of set_xs with one matrix.
    Without layers [xs] stays None and subscripting it raises TypeError. *)
Record ring_cin := mkRingCin {
  rc_max_dim : nat;
  rc_init : V -> V;                               (* init_layer *)
  rc_layers : list (nat -> sparse_level V);
  rc_lin1 : V -> V
}.
Definition ring_cin_forward (m : ring_cin) (b : kbatch V) : result (list V * kbatch V) :=
  let* c0 := of_option KeyError (nth_error (k_cochains (kb_complex b)) 0) in
  let* x0 := of_option TypeError (c_x c0) in
  let* k0 := set_xs (kb_complex b) [map (rc_init m) x0] in
  let* (k, hist) := run_convs (rc_max_dim m) (rc_max_dim m) true false
      (map (fun l => (map (fun d => sparse_forward o (l d)) (seq 0 (rc_max_dim m + 1)), None)) (rc_layers m)) k0 in
  let* xs := final_xs o None hist in
  let* x := get xs 0 in
  let* c := of_option KeyError (nth_error (k_cochains k) 0) in
  let* mask := of_option AttributeError (c_mask c) in
  let* y := mask_select mask x in
  Ok (map (rc_lin1 m) y, mkKBatch k (kb_batch b) (kb_ptr b) (kb_num b)).

(** ** MessagePassingAgnostic *)
(** mp/models.py:641-658.  [ag_lin0 d] is act . lin0s[d]; [ag_lin1] is act . lin1, the same for all
    dimensions.  A None feature matrix raises TypeError inside the linear layer. *)
Record agnostic := mkAgnostic {
  ag_max_dim : nat;
  ag_lin0 : nat -> V -> V;
  ag_pool : reduce;
  ag_lin1 : V -> V;
  ag_lin2 : V -> V
}.
Definition agnostic_forward (m : agnostic) (b : kbatch V) : result (list V) :=
  let* ps := get_all_cochain_params (kb_complex b) (ag_max_dim m) true false true in
  let* xs := mapM (fun dp => let* x := of_option TypeError (p_x (snd dp)) in
                             Ok (map (ag_lin0 m (fst dp)) x))
                  (combine (seq 0 (length ps)) ps) in
  let* pooled := pool_complex o xs (kb_batch b) (ag_max_dim m) (ag_pool m) in
  let n := match pooled with p :: _ => length p | [] => 0 end in
  Ok (map (ag_lin2 m) (stack_rows o false n (map (map (ag_lin1 m)) pooled))).

End Graphs.
Arguments graph V : clear implicits.
Arguments gbatch V : clear implicits.
Arguments gin_layer V : clear implicits.
Arguments ring_gin V : clear implicits.
Arguments gin_net V : clear implicits.
Arguments ring_cin V : clear implicits.
Arguments agnostic V : clear implicits.
