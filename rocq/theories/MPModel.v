(** Model of cellular message passing: mp/cell_mp.py, mp/layers.py, mp/nn.py and the forward
    passes of mp/models.py.

    Networks (torch.nn.Sequential etc.) are arbitrary functions on rows, i.e. evaluation mode.
    Concatenation of rows followed by a network is a function of the rows concatenated.
    [(1 + eps) * x] is an arbitrary row function. *)
From Coq Require Import List Arith Lia ZArith Bool.
From Verif Require Import Base ScatterModel ComplexModel.
Import ListNotations.

Section MP.
Context {V : Type} (o : ops V).
Notation params := (params V).
Notation complex := (complex V).

(** A message function on (x_j, attribute of the shared cell).
    [MsgFst]: the attribute is not used (cell_mp.py:394-412; layers.py:298,369,379
    [lambda xs: xs[0]]; layers.py:213-214 for boundaries).
    [MsgCat]: it is required (layers.py:23-31 addition; 101-103, 290-295 concatenation, where a
    None raises TypeError).
    [MsgOpt]: used if there (layers.py:94-99). *)
Inductive msg :=
| MsgFst (f : V -> V)
| MsgCat (f : V -> V -> V)
| MsgOpt (g : V -> V) (f : V -> V -> V).

Definition zipw {A B C} (f : A -> B -> C) (a : list A) (b : list B) : list C :=
  map (fun p => f (fst p) (snd p)) (combine a b).

Definition zip_checked (f : V -> V -> V) (a b : list V) : result (list V) :=
  if length a =? length b then Ok (zipw f a b) else Err RuntimeError.

Definition apply_msg (m : msg) (xj : list V) (attr : option (list V)) : result (list V) :=
  match m with
  | MsgFst f => Ok (map f xj)
  | MsgCat f => match attr with Some a => zip_checked f xj a | None => Err TypeError end
  | MsgOpt g f => match attr with Some a => zip_checked f xj a | None => Ok (map g xj) end
  end.

(** mp/cell_mp.py:324-355 with 195-282 and 423-479: messages along the columns (j, i) of [index],
    row 0 being the source and row 1 the target (flow 'source_to_target', the only one used),
    aggregated per target by scatter with [n] targets.  SparseTensor adjacencies and fused
    message_and_aggregate are not modelled (nowhere used). *)
Definition message_and_aggregate (m : msg) (r : reduce) (index : list (nat * nat))
    (data : list V) (attr : option (list V)) (n : nat) : result (list V) :=
  let* xj := index_select data (map fst index) in
  let* out := apply_msg m xj attr in
  scatter o r (Some n) (map snd index) out.

(** mp/cell_mp.py:81-112  the configuration of a CochainMessagePassing object. *)
Record mpcfg := mkCfg {
  g_down : bool;               (* use_down_msg *)
  g_bnd : bool;                (* use_boundary_msg *)
  g_aggr_up : reduce;
  g_aggr_down : reduce;
  g_aggr_bnd : reduce;
  g_msg_up : msg;
  g_msg_down : msg;
  g_msg_bnd : V -> V
}.

Definition zeros (n : nat) : list V := repeat (vzero o) n.

(** mp/cell_mp.py:357-392 [propagate] and 511-524 [update]. A None feature matrix fails on the
    first access to it (AttributeError here). *)
Definition propagate (c : mpcfg) (p : params) : result (list V * list V * list V) :=
  match p_x p with
  | None => Err AttributeError
  | Some x =>
    let n := length x in
    let* up := match p_up p with
               | Some u => message_and_aggregate (g_msg_up c) (g_aggr_up c) u x (p_up_attr p) n
               | None => Ok (zeros n)
               end in
    let* down := if g_down c then
                   match p_down p with
                   | Some u => message_and_aggregate (g_msg_down c) (g_aggr_down c) u x (p_down_attr p) n
                   | None => Ok (zeros n)
                   end
                 else Ok (zeros n) in
    let* bnd := if g_bnd c then
                  match p_battr p with
                  | Some ba =>
                      match p_bidx p with
                      | Some bi => message_and_aggregate (MsgFst (g_msg_bnd c)) (g_aggr_bnd c) bi ba None n
                      | None => Err TypeError
                      end
                  | None => Ok (zeros n)
                  end
                else Ok (zeros n) in
    Ok (up, down, bnd)
  end.

Definition addt (a b : list V) : list V := zipw (vadd o) a b.

Definition the_x (p : params) : list V := match p_x p with Some x => x | None => [] end.

(** mp/layers.py:14-40  DummyCochainMessagePassing *)
Definition dummy_cfg (use_bnd use_down : bool) : mpcfg :=
  mkCfg use_down use_bnd RAdd RAdd RAdd (MsgCat (vadd o)) (MsgCat (vadd o)) (fun v => v).

Definition dummy_forward (use_bnd use_down : bool) (p : params) : result (list V) :=
  let* (up, down, bnd) := propagate (dummy_cfg use_bnd use_down) p in
  Ok (addt (addt (addt (the_x p) up) down) bnd).

(** mp/layers.py:62-103  CINCochainConv.  The message networks are shared between concatenated and
    plain input, hence [MsgOpt] for the upper messages. *)
Record cin_level := mkCinLevel {
  ci_up_g : V -> V;              (* msg_up_nn on x_j *)
  ci_up_f : V -> V -> V;         (* msg_up_nn on cat(x_j, up_attr) *)
  ci_down_f : V -> V -> V;       (* msg_down_nn *)
  ci_update : V -> V;            (* update_nn *)
  ci_scale : V -> V              (* (1 + eps) * x *)
}.

Definition cin_cfg (l : cin_level) : mpcfg :=
  mkCfg true false RAdd RAdd RAdd (MsgOpt (ci_up_g l) (ci_up_f l)) (MsgCat (ci_down_f l)) (fun v => v).

Definition cin_forward (l : cin_level) (p : params) : result (list V) :=
  let* (up, down, _) := propagate (cin_cfg l) p in
  let up := addt up (map (ci_scale l) (the_x p)) in
  let down := addt down (map (ci_scale l) (the_x p)) in
  Ok (map (ci_update l) (addt up down)).

(** mp/layers.py:154-214  SparseCINCochainConv *)
Record sparse_level := mkSparseLevel {
  sp_up : msg;                   (* msg_up_nn *)
  sp_bnd : V -> V;               (* msg_boundaries_nn *)
  sp_upd_up : V -> V;            (* update_up_nn *)
  sp_upd_bnd : V -> V;           (* update_boundaries_nn *)
  sp_comb : V -> V -> V;         (* combine_nn on the concatenation *)
  sp_s1 : V -> V;                (* (1 + eps1) * x *)
  sp_s2 : V -> V                 (* (1 + eps2) * x *)
}.

Definition sparse_cfg (l : sparse_level) : mpcfg :=
  mkCfg false true RAdd RAdd RAdd (sp_up l) (MsgFst (fun v => v)) (sp_bnd l).

Definition sparse_forward (l : sparse_level) (p : params) : result (list V) :=
  let* (up, _, bnd) := propagate (sparse_cfg l) p in
  let up := addt up (map (sp_s1 l) (the_x p)) in
  let bnd := addt bnd (map (sp_s2 l) (the_x p)) in
  let up := map (sp_upd_up l) up in
  let bnd := map (sp_upd_bnd l) bnd in
  Ok (zipw (sp_comb l) up bnd).

(** mp/layers.py:216-260  CINppCochainConv.  It inherits [use_down_msg=False] from
    SparseCINCochainConv (line 166-167), so the lower messages are always zero. *)
Record cinpp_level := mkCinppLevel {
  pp_up : msg;
  pp_down : msg;
  pp_bnd : V -> V;
  pp_upd_up : V -> V;
  pp_upd_down : V -> V;
  pp_upd_bnd : V -> V;
  pp_comb : V -> V -> V -> V;
  pp_s1 : V -> V;
  pp_s2 : V -> V;
  pp_s3 : V -> V
}.

Definition cinpp_cfg (l : cinpp_level) : mpcfg :=
  mkCfg false true RAdd RAdd RAdd (pp_up l) (pp_down l) (pp_bnd l).

Definition cinpp_forward (l : cinpp_level) (p : params) : result (list V) :=
  let* (up, down, bnd) := propagate (cinpp_cfg l) p in
  let up := addt up (map (pp_s1 l) (the_x p)) in
  let down := addt down (map (pp_s2 l) (the_x p)) in
  let bnd := addt bnd (map (pp_s3 l) (the_x p)) in
  let up := map (pp_upd_up l) up in
  let down := map (pp_upd_down l) down in
  let bnd := map (pp_upd_bnd l) bnd in
  Ok (zipw (fun ud b => pp_comb l (fst ud) (snd ud) b) (combine up down) bnd).

(** mp/layers.py:53-59, 118-124, 145-151, 331-342  the forward of a complex convolution: one
    cochain convolution per dimension ([start_to_process] is always 0, models.py:201). *)
Definition level := params -> result (list V).

Fixpoint apply_levels (ls : list level) (ps : list params) {struct ps} : result (list (list V)) :=
  match ps with
  | [] => Ok []
  | p :: ps' =>
      match ls with
      | [] => Err IndexError
      | l :: ls' => let* x := l p in let* xs := apply_levels ls' ps' in Ok (x :: xs)
      end
  end.

Definition conv_forward (max_dim : nat) (ls : list level) (ps : list params)
  : result (list (list V)) :=
  let* _ := assert_ (length ps <=? max_dim + 1) in apply_levels ls ps.

(** mp/models.py:66-75, 171-185, 450-466; mp/nn.py:50-60  pooling of every dimension. *)
Definition pool_complex (xs : list (list V)) (batch : list (option (list nat))) (max_dim : nat)
    (r : reduce) : result (list (list V)) :=
  match nth_error batch 0 with
  | Some (Some b0) =>
      let* m := list_max_err b0 in
      let size := S m in
      if max_dim + 1 <? length xs then Err IndexError else
      mapM (fun i => match nth_error xs i with
                     | Some x => match nth_error batch i with
                                 | Some (Some b) => scatter o r (Some size) b x
                                 | Some None => Err TypeError
                                 | None => Err KeyError
                                 end
                     | None => Ok (zeros size)
                     end) (seq 0 (max_dim + 1))
  | Some None => Err AttributeError
  | None => Err KeyError
  end.

(** Row [k] of a stack of matrices reduced over the stack: [torch.stack(xs).sum(0)] / [.mean(0)]. *)
Definition sum_rows (l : list V) : V := fold_left (vadd o) l (vzero o).
Definition stack_rows (mean : bool) (n : nat) (ls : list (list V)) : list V :=
  map (fun k => let col := map (fun l => nth k l (vzero o)) ls in
                if mean then vdivn o (sum_rows col) (length ls) else sum_rows col)
      (seq 0 n).

(** A network: mp/models.py CIN0 (12-109), SparseCIN (112-257), CINpp (259-284),
    EdgeCIN0 (286-419), Dummy (422-473).  Dropout is the identity in evaluation mode.
    [n_convs]: per layer the cochain convolutions of the dimensions and, for EdgeCIN0, the network
    updating the top features after the layer.  [n_lin1 d] is applied to the pooled rows of
    dimension [d] before summing (averaging) over [n_dims], [n_lin2] to the result. *)
Record net := mkNet {
  n_max_dim : nat;
  n_pdim : nat;                            (* max_dim handed to get_all_cochain_params *)
  n_top : bool;                            (* include_top_features *)
  n_down : bool;                           (* include_down_features *)
  n_convs : list (list level * option (V -> V));
  n_jump : option (list V -> V);           (* JumpingKnowledge, row by row *)
  n_pool : reduce;
  n_dims : list nat;
  n_lin1 : nat -> V -> V;
  n_mean : bool;                           (* final_readout == 'mean' *)
  n_lin2 : V -> V
}.

(** mp/models.py:84-98, 194-221, 386-409, 443-448: the loop over the layers.  [data] is modified in
    place by set_xs, hence returned.  The history lists the outputs of the layers. *)
Fixpoint run_convs (max_dim pdim : nat) (top down : bool) (cs : list (list level * option (V -> V)))
    (k : complex) : result (complex * list (list (list V))) :=
  match cs with
  | [] => Ok (k, [])
  | (ls, utop) :: cs' =>
      let* ps := get_all_cochain_params k pdim top down true in
      let* xs := conv_forward max_dim ls ps in
      let* xs' := match utop, nth_error (k_cochains k) 2 with
                  | Some f, Some c2 =>
                      match c_x c2 with
                      | Some x2 => Ok (xs ++ [map f x2])
                      | None => Err TypeError
                      end
                  | _, _ => Ok xs
                  end in
      let* k' := set_xs k xs' in
      let* (kf, hist) := run_convs max_dim pdim top down cs' k' in
      Ok (kf, xs :: hist)
  end.

(** mp/models.py:77-82, 187-192  jump_complex for one dimension: [hist] holds the outputs of the
    layers for this dimension. *)
Definition jump_rows (jump : list V -> V) (hist : list (list V)) : list V :=
  map (fun r => jump (map (fun x => nth r x (vzero o)) hist)) (seq 0 (length (hd [] hist))).

Definition final_xs (jump : option (list V -> V)) (hist : list (list (list V)))
  : result (list (list V)) :=
  match rev hist with
  | [] => Err TypeError
  | last :: _ =>
      match jump with
      | None => Ok last
      | Some j => Ok (map (fun d => jump_rows j (map (fun xs => nth d xs []) hist))
                          (seq 0 (length (hd [] hist))))
      end
  end.

(** mp/models.py:99-106, 222-254, 410-416, 466-470: pooling and the final layers. *)
Definition readout (m : net) (xs : list (list V)) (batch : list (option (list nat)))
  : result (list V) :=
  let* pooled := pool_complex xs batch (n_max_dim m) (n_pool m) in
  let* sel := mapM (get pooled) (n_dims m) in
  match sel with
  | [] => Err RuntimeError
  | x0 :: _ =>
      let new := zipw (fun d x => map (n_lin1 m d) x) (n_dims m) sel in
      Ok (map (n_lin2 m) (stack_rows (n_mean m) (length x0) new))
  end.

(** The forward pass; returns the predictions and the modified batch. *)
Definition net_forward (m : net) (b : kbatch V) : result (list V * kbatch V) :=
  let* (k, hist) := run_convs (n_max_dim m) (n_pdim m) (n_top m) (n_down m) (n_convs m) (kb_complex b) in
  let* xs := final_xs (n_jump m) hist in
  let* out := readout m xs (kb_batch b) in
  Ok (out, mkKBatch k (kb_batch b) (kb_ptr b) (kb_num b)).

(** mp/models.py:20-57  CIN0: all dimensions are read out by summation, then
    lin2(nonlinearity(lin1 x)). *)
Definition cin0 (max_dim : nat) (layers : list (nat -> cin_level)) (jump : option (list V -> V))
    (pool : reduce) (head : V -> V) : net :=
  mkNet max_dim max_dim true true
    (map (fun l => (map (fun d => cin_forward (l d)) (seq 0 (max_dim + 1)), None)) layers)
    jump pool (seq 0 (max_dim + 1)) (fun _ v => v) false head.

(** mp/models.py:120-162, 194-254  SparseCIN; [readout_dims] are filtered by <= max_dim. *)
Definition sparse_cin (max_dim : nat) (layers : list (nat -> sparse_level))
    (jump : option (list V -> V)) (pool : reduce) (readout_dims : list nat)
    (lin1 : nat -> V -> V) (mean : bool) (lin2 : V -> V) : net :=
  mkNet max_dim max_dim true false
    (map (fun l => (map (fun d => sparse_forward (l d)) (seq 0 (max_dim + 1)), None)) layers)
    jump pool (filter (fun d => d <=? max_dim) readout_dims) lin1 mean lin2.

(** mp/models.py:259-284  CINpp inherits the forward pass of SparseCIN. *)
Definition cinpp (max_dim : nat) (layers : list (nat -> cinpp_level))
    (jump : option (list V -> V)) (pool : reduce) (readout_dims : list nat)
    (lin1 : nat -> V -> V) (mean : bool) (lin2 : V -> V) : net :=
  mkNet max_dim max_dim true false
    (map (fun l => (map (fun d => cinpp_forward (l d)) (seq 0 (max_dim + 1)), None)) layers)
    jump pool (filter (fun d => d <=? max_dim) readout_dims) lin1 mean lin2.

(** mp/models.py:286-416  EdgeCIN0: two levels (layers.py:127-151); [tops]: one update network per
    layer but the last one when update_top_features, None otherwise. *)
Definition edge_cin0 (include_top : bool) (layers : list (cin_level * cin_level))
    (tops : list (option (V -> V))) (jump : option (list V -> V)) (pool : reduce)
    (head : V -> V) : net :=
  mkNet 1 1 include_top true
    (zipw (fun l t => ([cin_forward (fst l); cin_forward (snd l)], t)) layers tops)
    jump pool (seq 0 2) (fun _ v => v) false head.

(** mp/models.py:422-470  Dummy; [get_all_cochain_params()] has default max_dim 2. *)
Definition dummy_net (max_dim : nat) (layers : nat) (pool : reduce) (lin : V -> V) : net :=
  mkNet max_dim 2 true true
    (repeat (map (fun _ => dummy_forward false true) (seq 0 (max_dim + 1)), None) layers)
    None pool (seq 0 (max_dim + 1)) (fun _ v => v) false lin.

End MP.
Arguments msg V : clear implicits.
Arguments mpcfg V : clear implicits.
Arguments cin_level V : clear implicits.
Arguments sparse_level V : clear implicits.
Arguments cinpp_level V : clear implicits.
Arguments net V : clear implicits.
Arguments level V : clear implicits.
