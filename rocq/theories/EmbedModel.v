(** Model of the initial embedding of cells and of the molecular networks: mp/layers.py:473-593,
    mp/molec_models.py and mp/ring_exp_models.py.

    Embedding tables are arbitrary row functions (categorical codes inside the table; torch raises
    IndexError outside).  The assertions on the width of feature rows are not modelled.  Dropout is
    the identity (evaluation mode). *)
From Coq Require Import List Arith Lia ZArith Bool.
From Verif Require Import Base ScatterModel ComplexModel MPModel.
Import ListNotations.

Section Embed.
Context {V : Type} (o : ops V).
Notation params := (params V).
Notation complex := (complex V).

(** mp/layers.py:473-487  InitReduceConv.forward; [max()] of an empty tensor raises. *)
Definition init_reduce (r : reduce) (boundary_x : list V) (boundary_index : list (nat * nat))
  : result (list V) :=
  let* features := index_select boundary_x (map fst boundary_index) in
  let* m := list_max_err (map snd boundary_index) in
  scatter o r (Some (S m)) (map snd boundary_index) features.

Record embedder := mkEmb {
  em_v : V -> V;                (* v_embed_layer *)
  em_e : option (V -> V);       (* e_embed_layer *)
  em_red : reduce               (* init_reduce *)
}.

(** mp/layers.py:511-543  AbstractEmbedVEWithReduce.forward with 552-593.  Subscripting a None
    boundary index raises TypeError. *)
Definition embed_ve (e : embedder) (ps : list params) : result (list (list V)) :=
  let* _ := assert_ ((1 <=? length ps) && (length ps <=? 3)) in
  match ps with
  | [] => Err AssertionError
  | v :: rest =>
    match p_x v with
    | None => Err AssertionError
    | Some x0 =>
      let vx := map (em_v e) x0 in
      match rest with
      | [] => Ok [vx]
      | ep :: rest' =>
        match p_bidx ep with
        | None => Err TypeError
        | Some bi =>
          let* reduced_ex := init_reduce (em_red e) vx bi in
          let* ex := match p_x ep with
                     | None => Ok reduced_ex
                     | Some x1 => match em_e e with
                                  | Some f => Ok (map f x1)
                                  | None => Err AssertionError
                                  end
                     end in
          match rest' with
          | [] => Ok [vx; ex]
          | c :: _ =>
            match p_bidx c with
            | None => Err TypeError
            | Some ci =>
              let* cx := init_reduce (em_red e) reduced_ex ci in
              Ok [vx; ex; map (fun v => vdivn o v 2) cx]
            end
          end
        end
      end
    end
  end.

(** A network whose input is embedded first: [en_dim] is the max_dim handed to
    get_all_cochain_params for the embedding. *)
Record enet := mkENet { en_emb : embedder; en_dim : nat; en_net : net V }.

(** mp/molec_models.py:90-161 (EmbedSparseCIN), 281-349 (OGBEmbedSparseCIN), 445-500, 562-599. *)
Definition embed_forward (m : enet) (b : kbatch V) : result (list V * kbatch V) :=
  match nth_error (k_cochains (kb_complex b)) 0 with
  | None => Err KeyError
  | Some _ =>
    let* ps := get_all_cochain_params (kb_complex b) (en_dim m) true false true in
    let* xs := embed_ve (en_emb m) ps in
    let* k := set_xs (kb_complex b) xs in
    net_forward o (en_net m) (mkKBatch k (kb_batch b) (kb_ptr b) (kb_num b))
  end.

(** mp/molec_models.py:12-161 EmbedSparseCIN, 201-349 OGBEmbedSparseCIN *)
Definition embed_sparse_cin (e : embedder) (max_dim : nat) (layers : list (nat -> sparse_level V))
    (jump : option (list V -> V)) (pool : reduce) (readout_dims : list nat)
    (lin1 : nat -> V -> V) (mean : bool) (lin2 : V -> V) : enet :=
  mkENet e max_dim (sparse_cin o max_dim layers jump pool readout_dims lin1 mean lin2).

(** mp/molec_models.py:167-199 EmbedCINpp, 355-384 OGBEmbedCINpp *)
Definition embed_cinpp (e : embedder) (max_dim : nat) (layers : list (nat -> cinpp_level V))
    (jump : option (list V -> V)) (pool : reduce) (readout_dims : list nat)
    (lin1 : nat -> V -> V) (mean : bool) (lin2 : V -> V) : enet :=
  mkENet e max_dim (cinpp o max_dim layers jump pool readout_dims lin1 mean lin2).

(** mp/molec_models.py:455-458, 470-471: the upper index of the edges is removed. *)
Definition no_up (p : params) : params :=
  mkParams (p_x p) None (p_down p) (p_up_attr p) (p_down_attr p) (p_battr p) (p_bidx p).

(** mp/molec_models.py:386-503  EmbedSparseCINNoRings *)
Definition embed_no_rings (e : embedder) (layers : list (nat -> sparse_level V)) (pool : reduce)
    (lin1 : nat -> V -> V) (mean : bool) (lin2 : V -> V) : enet :=
  mkENet e 1
    (mkNet 1 1 true false
       (map (fun l => ([sparse_forward o (l 0); fun p => sparse_forward o (l 1) (no_up p)], None)) layers)
       None pool [0; 1] lin1 mean lin2).

(** torch_geometric GINEConv on the vertices: nn((1 + eps) x_i + sum relu(x_j + e_ji)). *)
Record gine_level := mkGine { gi_nn : V -> V; gi_scale : V -> V; gi_relu : V -> V }.

Definition gine_forward (l : gine_level) (p : params) : result (list V) :=
  let* (up, _, _) :=
    propagate o (mkCfg false false RAdd RAdd RAdd (MsgCat (fun x e => gi_relu l (vadd o x e)))
                   (MsgFst (fun v => v)) (fun v => v)) p in
  Ok (map (gi_nn l) (addt o up (map (gi_scale l) (the_x p)))).

(** mp/molec_models.py:506-603  EmbedGIN.  The node features of the layers stay local in the code;
    here they are also written back to the batch, which only affects the returned batch. *)
Definition embed_gin (e : embedder) (layers : list gine_level) (pool : reduce)
    (lin1 lin2 : V -> V) : enet :=
  mkENet e 1
    (mkNet 0 0 true false (map (fun l => ([gine_forward l], None)) layers)
       None pool [0] (fun _ => lin1) false lin2).

End Embed.
Arguments embedder V : clear implicits.
Arguments enet V : clear implicits.
Arguments gine_level V : clear implicits.
