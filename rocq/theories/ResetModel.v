(** [reset_parameters] of the networks and layers. *)
From Coq Require Import List Arith Bool.
From Verif Require Import Base.
Import ListNotations.

(** A torch module, as far as its parameters and its method
    [reset_parameters] are concerned.  Parameters have names of any type. *)
Inductive tmod (N : Type) :=
| TLeaf (ps : list N)
  (* Linear, BatchNorm1d, LayerNorm, Embedding: parameters and the method. *)
| TBare
  (* Activations, Identity, lambdas: neither. *)
| TGroup (cs : list (tmod N))
  (* Sequential, ModuleList, Catter, and every class of the repository that does
     not define the method (torch.nn.Module has none): children only. *)
| TConv (cs : list (tmod N)) (own : list N) (missed : list N).
  (* A class whose method calls [torch_geometric.nn.inits.reset] on each of the
     modules [cs] and fills its own parameters [own] (the eps).  [missed] are the
     parameters, its own and those of its other modules, that the method does not
     touch. *)
Arguments TLeaf {N} ps. Arguments TBare {N}. Arguments TGroup {N} cs. Arguments TConv {N} cs own missed.

Section Reset.
  Context {N : Type}.
  Notation tmod := (tmod N).

  (** [m.parameters()] *)
  Fixpoint tparams (m : tmod) : list N :=
    match m with
    | TLeaf ps => ps
    | TBare => []
    | TGroup cs => flat_map tparams cs
    | TConv cs own missed => flat_map tparams cs ++ own ++ missed
    end.

  (** [hasattr(m, 'reset_parameters')] *)
  Definition thas (m : tmod) : bool :=
    match m with TLeaf _ | TConv _ _ _ => true | _ => false end.

  (** [m.reset_parameters()], if there is one: the parameters that are set.
      [reset] of torch-geometric 1.6.3 goes to the children of a module with
      children and to the module itself otherwise, and skips what has no method;
      it looks one level deep. *)
  Fixpoint tset (m : tmod) : list N :=
    match m with
    | TLeaf ps => ps
    | TBare => []
    | TGroup _ => []
    | TConv cs own _ =>
        flat_map (fun c =>
          match c with
          | TGroup (d :: ds) => flat_map tset (d :: ds)
          | TConv (d :: ds) _ _ => flat_map tset (d :: ds)
          | _ => tset c
          end) cs ++ own
    end.

  Definition tcall (m : tmod) : result (list N) :=
    if thas m then Ok (tset m) else Err AttributeError.

  (** A sequence of calls. *)
  Definition tcalls (ms : list tmod) : result (list N) :=
    let* l := mapM tcall ms in Ok (concat l).

  (** * The layers *)

  (** The sequential networks of the layers are lists of [Linear], norms and
      activations.  [SparseCINConv], [CINppConv] (mp/layers.py:271-427), [CINConv]
      (106-124) and [EdgeCINConv] (127-151) do not define the method; their levels
      do (88-92, 201-208). *)
  Definition level (nets : list tmod) (eps : list N) : tmod := TConv nets eps [].
  (** [CINppCochainConv] (216-238) adds two networks and [eps3] and inherits the
      method of [SparseCINCochainConv]. *)
  Definition cinpp_level (nets down_nets : list tmod) (eps eps3 : list N) : tmod :=
    TConv nets eps (flat_map tparams down_nets ++ eps3).
  Definition cell_conv (levels : list tmod) : tmod := TGroup [TGroup levels].

  (** [JumpingKnowledge('cat')] and ['max']: a method, no parameters. *)
  Definition jump_mod (jump : bool) : list tmod := if jump then [TConv [] [] []] else [].

  (** * The networks: what [reset_parameters] calls, in this order, and the
      modules whose parameters the network has. *)

  (** CIN0, mp/models.py:58-64; RingSparseCIN, mp/ring_exp_models.py:41-45 (with
      [init_layer] in front and [lin1] only). *)
  Definition cin0_reset (convs : list tmod) (jump : bool) (lin1 lin2 : tmod) :=
    tcalls (convs ++ jump_mod jump ++ [lin1; lin2]).
  Definition ring_reset (init : tmod) (convs : list tmod) (lin1 : tmod) :=
    tcalls ([init] ++ convs ++ [lin1]).

  (** EdgeCIN0, mp/models.py:358-366: the networks for the top features are
      [Sequential]s. *)
  Definition edge_cin0_reset (convs : list tmod) (jump : bool) (lin1 lin2 : tmod)
    (top_nns : list tmod) :=
    tcalls (convs ++ jump_mod jump ++ [lin1; lin2] ++ top_nns).

  (** SparseCIN and CINpp, mp/models.py:163-169: [self.lin1s] is a ModuleList. *)
  Definition sparse_reset (convs : list tmod) (jump : bool) (lin1s : list tmod) (lin2 : tmod) :=
    tcalls (convs ++ jump_mod jump ++ [TGroup lin1s; lin2]).

  (** The embedding networks, mp/molec_models.py:74-81, 265-272, 438-443.
      [init] is [AbstractEmbedVEWithReduce], mp/layers.py:545-547. *)
  Definition embed_init (v_embed : tmod) (e_embed : option tmod) : tmod :=
    TConv (v_embed :: match e_embed with Some e => [e] | None => [] end) [] [].
  Definition embed_reset (convs : list tmod) (jump : bool) (init : tmod) (lin1s : list tmod)
    (lin2 : tmod) :=
    tcalls (convs ++ jump_mod jump ++ [init; TGroup lin1s; lin2]).

  (** [AtomEncoder] and [BondEncoder] of OGB: one ModuleList of embeddings, no
      method. *)
  Definition ogb_encoder (embeddings : list tmod) : tmod := TGroup [TGroup embeddings].

  (** EmbedGIN, mp/molec_models.py:554-559 *)
  Definition embed_gin_reset (convs : list tmod) (init lin1 lin2 : tmod) :=
    tcalls (convs ++ [init; lin1; lin2]).

  (** EdgeOrient and EdgeMPNN, mp/models.py:509-515, 581-587; the convolutions are
      [OrientedConv]s, mp/layers.py:456-459. *)
  Definition edge_reset (convs : list tmod) (jump : bool) (lin1 lin2 : tmod) :=
    tcalls (convs ++ jump_mod jump ++ [lin1; lin2]).

  (** MessagePassingAgnostic, mp/models.py:638-642; Dummy, mp/models.py:441-442. *)
  Definition agnostic_reset (lin0s : list tmod) (lin1 lin2 : tmod) :=
    tcalls (lin0s ++ [lin1; lin2]).
  Definition dummy_reset (lin : tmod) := tcalls [lin].

  (** RingGIN, mp/ring_exp_models.py:110-115 *)
  Definition ring_gin_reset (init conv1 : tmod) (convs : list tmod) (lin1 : tmod) :=
    tcalls ([init; conv1] ++ convs ++ [lin1]).

  (** GIN0, GIN and their variants with jumping knowledge, mp/graph_models.py:65-70,
      124-130, 183-188, 242-248. *)
  Definition gin_reset (conv1 : tmod) (convs : list tmod) (jump : bool) (lin1 lin2 : tmod) :=
    tcalls ([conv1] ++ convs ++ jump_mod jump ++ [lin1; lin2]).

  (** * How the convolutions are built *)
  Definition is_leaf (m : tmod) : bool := match m with TLeaf _ => true | _ => false end.
  Definition is_plain (m : tmod) : bool := match m with TLeaf _ | TBare => true | _ => false end.

  (** [GINConv(Sequential(...), train_eps)], [GINEConv(...)]. *)
  Definition gin_conv (mlp : list tmod) (eps : list N) : tmod := TConv [TGroup mlp] eps [].
  (** [OrientedConv]: three linear layers, or two and a lambda. *)
  Definition oriented_conv (up down own : tmod) : tmod := TConv [up; down; own] [] [].
End Reset.
