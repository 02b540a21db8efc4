(** Networks in training mode: batch normalisation with the statistics of the batch.
    mp/layers.py:62-103, 154-260, 271-427, mp/models.py:12-57, mp/nn.py:39-47. *)
From Coq Require Import List Arith Lia ZArith Bool.
From Verif Require Import Base ScatterModel ComplexModel MPModel.
Import ListNotations.

Section Norm.
Context {V : Type} (o : ops V) {St : Type}.
Notation params := (params V).

(** A layer of a torch.nn.Sequential.  [RowFun]: Linear, the nonlinearities, LayerNorm and Identity act
    row by row.  [BatchNorm st f]: torch.nn.BatchNorm1d in training mode; [st] computes mean and
    variance of the columns of the whole input, [f] normalises a row with them (and applies the affine
    map).  The running averages it updates do not enter the output in training mode and are not
    modelled. *)
Inductive nn_layer :=
| RowFun (f : V -> V)
| BatchNorm (st : list V -> St) (f : St -> V -> V).

(** BatchNorm1d refuses a single row (torch: "Expected more than 1 value per channel when training");
    an input without rows passes. *)
Definition apply_nn_layer (l : nn_layer) (t : list V) : result (list V) :=
  match l with
  | RowFun f => Ok (map f t)
  | BatchNorm st f => if length t =? 1 then Err ValueError else Ok (map (f (st t)) t)
  end.

(** torch.nn.Sequential *)
Fixpoint apply_nn (ls : list nn_layer) (t : list V) : result (list V) :=
  match ls with
  | [] => Ok t
  | l :: ls' => let* t' := apply_nn_layer l t in apply_nn ls' t'
  end.

(** mp/layers.py:154-214 with the networks of 302-325: SparseCINCochainConv.  [ts_cat] is the first
    layer of combine_nn, Linear on the concatenation; the message networks (290-300) have no
    normalisation. *)
Record tsparse_level := mkTSparse {
  ts_up : msg V;
  ts_bnd : V -> V;
  ts_upd_up : list nn_layer;
  ts_upd_bnd : list nn_layer;
  ts_cat : V -> V -> V;
  ts_comb : list nn_layer;
  ts_s1 : V -> V;
  ts_s2 : V -> V
}.

Definition tsparse_forward (l : tsparse_level) (p : params) : result (list V) :=
  let* (up, _, bnd) := propagate o (mkCfg false true RAdd RAdd RAdd (ts_up l) (MsgFst (fun v => v)) (ts_bnd l)) p in
  let up := addt o up (map (ts_s1 l) (the_x p)) in
  let bnd := addt o bnd (map (ts_s2 l) (the_x p)) in
  let* up := apply_nn (ts_upd_up l) up in
  let* bnd := apply_nn (ts_upd_bnd l) bnd in
  apply_nn (ts_comb l) (zipw (ts_cat l) up bnd).

(** mp/layers.py:216-260 with the networks of 385-421: CINppCochainConv (lower messages are off,
    see MPModel.cinpp_cfg). *)
Record tcinpp_level := mkTCinpp {
  tp_up : msg V;
  tp_down : msg V;
  tp_bnd : V -> V;
  tp_upd_up : list nn_layer;
  tp_upd_down : list nn_layer;
  tp_upd_bnd : list nn_layer;
  tp_cat : V -> V -> V -> V;
  tp_comb : list nn_layer;
  tp_s1 : V -> V;
  tp_s2 : V -> V;
  tp_s3 : V -> V
}.

Definition tcinpp_forward (l : tcinpp_level) (p : params) : result (list V) :=
  let* (up, down, bnd) := propagate o (mkCfg false true RAdd RAdd RAdd (tp_up l) (tp_down l) (tp_bnd l)) p in
  let up := addt o up (map (tp_s1 l) (the_x p)) in
  let down := addt o down (map (tp_s2 l) (the_x p)) in
  let bnd := addt o bnd (map (tp_s3 l) (the_x p)) in
  let* up := apply_nn (tp_upd_up l) up in
  let* down := apply_nn (tp_upd_down l) down in
  let* bnd := apply_nn (tp_upd_bnd l) bnd in
  apply_nn (tp_comb l) (zipw (fun ud b => tp_cat l (fst ud) (snd ud) b) (combine up down) bnd).

(** mp/layers.py:62-103 with the networks of mp/models.py:32-46: CINCochainConv, whose message
    networks normalise over all messages.  [tc_up_g], [tc_up_f], [tc_down_f]: the first layer of the
    message networks, on x_j or on the concatenation. *)
Record tcin_level := mkTCin {
  tc_up_g : V -> V;
  tc_up_f : V -> V -> V;
  tc_up : list nn_layer;
  tc_down_f : V -> V -> V;
  tc_down : list nn_layer;
  tc_update : list nn_layer;
  tc_scale : V -> V
}.

(** mp/cell_mp.py:324-355 with a message function that ends in the network [ls]. *)
Definition tmessage_and_aggregate (m : msg V) (ls : list nn_layer) (index : list (nat * nat))
    (data : list V) (attr : option (list V)) (n : nat) : result (list V) :=
  let* xj := index_select data (map fst index) in
  let* out := apply_msg m xj attr in
  let* out := apply_nn ls out in
  scatter o RAdd (Some n) (map snd index) out.

Definition tcin_forward (l : tcin_level) (p : params) : result (list V) :=
  match p_x p with
  | None => Err AttributeError
  | Some x =>
    let n := length x in
    let* up := match p_up p with
               | Some u => tmessage_and_aggregate (MsgOpt (tc_up_g l) (tc_up_f l)) (tc_up l) u x (p_up_attr p) n
               | None => Ok (zeros o n)
               end in
    let* down := match p_down p with
                 | Some u => tmessage_and_aggregate (MsgCat (tc_down_f l)) (tc_down l) u x (p_down_attr p) n
                 | None => Ok (zeros o n)
                 end in
    let up := addt o up (map (tc_scale l) x) in
    let down := addt o down (map (tc_scale l) x) in
    apply_nn (tc_update l) (addt o up down)
  end.

(** The networks of mp/models.py in training mode with dropout rate 0 (dropout multiplies by a random
    mask otherwise): as MPModel.sparse_cin, cinpp, cin0. *)
Definition tsparse_cin (max_dim : nat) (layers : list (nat -> tsparse_level))
    (jump : option (list V -> V)) (pool : reduce) (readout_dims : list nat)
    (lin1 : nat -> V -> V) (mean : bool) (lin2 : V -> V) : net V :=
  mkNet max_dim max_dim true false
    (map (fun l => (map (fun d => tsparse_forward (l d)) (seq 0 (max_dim + 1)), None)) layers)
    jump pool (filter (fun d => d <=? max_dim) readout_dims) lin1 mean lin2.

Definition tcinpp (max_dim : nat) (layers : list (nat -> tcinpp_level))
    (jump : option (list V -> V)) (pool : reduce) (readout_dims : list nat)
    (lin1 : nat -> V -> V) (mean : bool) (lin2 : V -> V) : net V :=
  mkNet max_dim max_dim true false
    (map (fun l => (map (fun d => tcinpp_forward (l d)) (seq 0 (max_dim + 1)), None)) layers)
    jump pool (filter (fun d => d <=? max_dim) readout_dims) lin1 mean lin2.

Definition tcin0 (max_dim : nat) (layers : list (nat -> tcin_level)) (jump : option (list V -> V))
    (pool : reduce) (head : V -> V) : net V :=
  mkNet max_dim max_dim true true
    (map (fun l => (map (fun d => tcin_forward (l d)) (seq 0 (max_dim + 1)), None)) layers)
    jump pool (seq 0 (max_dim + 1)) (fun _ v => v) false head.

End Norm.
Arguments nn_layer V St : clear implicits.
Arguments tsparse_level V St : clear implicits.
Arguments tcinpp_level V St : clear implicits.
Arguments tcin_level V St : clear implicits.
