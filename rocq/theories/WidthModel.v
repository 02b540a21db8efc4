(** The widths of the tensors that flow through the networks.

    A matrix of features is represented by its number of columns; the number
    of rows and the entries play no role here.  Every constructor builds the
    same [Linear], [BatchNorm1d] and [LayerNorm] modules as the code, with the
    widths written in the code, and every [forward] runs them on the widths of
    the data.  A width that does not fit raises, as torch does. *)
From Coq Require Import List Arith Lia Bool.
From Verif Require Import Base.
Import ListNotations.

(** * torch *)

(** [Linear(i, o)], [BatchNorm1d(n)] or [LayerNorm(n)], and modules that keep
    every width: the activations, [Identity], dropout. *)
Inductive wmod := WLin (i o : nat) | WNorm (n : nat) | WKeep.

Definition wrun1 (m : wmod) (w : nat) : result nat :=
  match m with
  | WLin i o => if w =? i then Ok o else Err RuntimeError
  | WNorm n => if w =? n then Ok n else Err RuntimeError
  | WKeep => Ok w
  end.

(** [Sequential(...)] *)
Definition wrun (ms : list wmod) (w : nat) : result nat :=
  foldM (fun w m => wrun1 m w) w ms.

(** [a + b], [a * b]: equal widths, or one of them a single column that is
    broadcast. *)
Definition wadd (a b : nat) : result nat :=
  if a =? b then Ok a else if a =? 1 then Ok b else if b =? 1 then Ok a
  else Err RuntimeError.

(** [a += b]: the result has to fit into [a]. *)
Definition wiadd (a b : nat) : result nat :=
  let* c := wadd a b in if c =? a then Ok a else Err RuntimeError.

(** [buffer[i, :, :] = b], with [a] columns in the buffer. *)
Definition wassign (a b : nat) : result nat :=
  if (b =? a) || (b =? 1) then Ok a else Err RuntimeError.

(** [torch.stack(xs)] followed by a reduction over the new axis: all widths
    agree and there is at least one matrix. *)
Definition wstack (xs : list nat) : result nat :=
  match xs with
  | [] => Err RuntimeError
  | w :: r => if forallb (Nat.eqb w) r then Ok w else Err RuntimeError
  end.

(** [torch.cat(xs, dim=-1)] *)
Definition wcat (xs : list nat) : result nat :=
  match xs with [] => Err RuntimeError | _ => Ok (list_sum xs) end.

(** [get_graph_norm], mp/nn.py:39-47. *)
Inductive gnorm := GBatch | GLayer | GIdentity.
Definition wnorm (g : gnorm) (n : nat) : wmod :=
  match g with GBatch | GLayer => WNorm n | GIdentity => WKeep end.

(** [JumpingKnowledge(mode)] of torch-geometric 1.6.3; mode "lstm" asserts
    that a number of channels is given, which no network of the repository
    does. *)
Inductive wjump := JCat | JMax | JLstm.
Definition wjump_init (j : option wjump) : result unit :=
  match j with Some JLstm => Err AssertionError | _ => Ok tt end.
Definition wjump_run (j : wjump) (xs : list nat) : result nat :=
  match j with
  | JCat => wcat xs
  | JMax => wstack xs
  | JLstm => Err AssertionError
  end.

(** * The data *)

(** A cochain: the width of [x] and which of the indices are there. *)
Record wco := { w_x : option nat; w_up : bool; w_down : bool; w_bnd : bool }.

Record wparams := {
  p_x : option nat;
  p_up : bool;   p_ua : option nat;
  p_down : bool; p_da : option nat;
  p_bnd : bool;  p_ba : option nat }.

Definition wx_of (K : list wco) (d : nat) : option nat :=
  match nth_error K d with Some c => w_x c | None => None end.

(** [get_cochain_params], data/complex.py:548-602, for a batch with the
    cochains [K] of the dimensions [0 .. length K - 1].  Selecting rows keeps
    the width. *)
Definition wparams_of (K : list wco) (d max_dim : nat) (top down : bool) : result wparams :=
  match nth_error K d with
  | None => Err NotImplementedError
  | Some c =>
      let up := w_up c && (S d <? length K) in
      let ua := if up && ((d <? max_dim) || top) then wx_of K (S d) else None in
      let dn := down && w_down c in
      let lower := match d with 0 => None | S e => wx_of K e end in
      Ok {| p_x := w_x c; p_up := up; p_ua := ua;
            p_down := dn; p_da := if dn then lower else None;
            p_bnd := w_bnd c; p_ba := if w_bnd c then lower else None |}
  end.

(** [get_all_cochain_params], data/complex.py:604-626;
    [min(max_dim, dimension) + 1] of them. *)
Definition wall_params (K : list wco) (max_dim : nat) (top down : bool)
  : result (list wparams) :=
  mapM (fun d => wparams_of K d max_dim top down) (seq 0 (Nat.min (S max_dim) (length K))).

(** [set_xs], data/complex.py:644-648: the first cochains get new features,
    the others keep theirs. *)
Definition wput (c : wco) (x : nat) : wco :=
  {| w_x := Some x; w_up := w_up c; w_down := w_down c; w_bnd := w_bnd c |}.
Fixpoint wzip_put (K : list wco) (xs : list nat) : list wco :=
  match K, xs with
  | c :: K', x :: xs' => wput c x :: wzip_put K' xs'
  | _, _ => K
  end.
Definition wset_xs (K : list wco) (xs : list nat) : result (list wco) :=
  let* _ := assert_ (length xs <=? length K) in Ok (wzip_put K xs).

(** * Message passing, mp/cell_mp.py *)

(** One direction of [propagate]: without an index the messages are zeros of
    the size given to the constructor, mp/cell_mp.py:517-522. *)
Definition wprop (used : bool) (index : bool) (size : nat) (msg : result nat) : result nat :=
  if used && index then msg else Ok size.

Definition wneed (x : option nat) : result nat := of_option AttributeError x.

(** * CINConv and EdgeCINConv, mp/layers.py:62-151 *)
Record cin_level := {
  cl_up_size : nat; cl_down_size : nat;
  cl_msg_up : list wmod; cl_msg_down : option (list wmod); cl_update : list wmod }.

(** [message_up], mp/layers.py:94-99 *)
Definition cin_msg_up (l : cin_level) (x : nat) (ua : option nat) : result nat :=
  match ua with
  | Some a => let* c := wcat [x; a] in wrun (cl_msg_up l) c
  | None => wrun (cl_msg_up l) x
  end.

(** [message_down], mp/layers.py:101-103; the vertices of an [EdgeCINConv]
    have [lambda *args: None] here, whose result cannot be aggregated. *)
Definition cin_msg_down (l : cin_level) (x : nat) (da : option nat) : result nat :=
  let* a := of_option TypeError da in
  let* c := wcat [x; a] in
  match cl_msg_down l with Some m => wrun m c | None => Err AttributeError end.

(** [CINCochainConv.forward], mp/layers.py:78-86 *)
Definition cin_level_fwd (l : cin_level) (p : wparams) : result nat :=
  let* x := wneed (p_x p) in
  let* up := wprop true (p_up p) (cl_up_size l) (cin_msg_up l x (p_ua p)) in
  let* dn := wprop true (p_down p) (cl_down_size l) (cin_msg_down l x (p_da p)) in
  let* up := wiadd up x in
  let* dn := wiadd dn x in
  let* s := wadd up dn in
  wrun (cl_update l) s.

(** A convolution: one level per dimension.  [forward], mp/layers.py:118-124
    and its copies: at most as many parameters as levels. *)
Definition wconv {L} (fwd : L -> wparams -> result nat) (levels : list L)
  (ps : list wparams) : result (list nat) :=
  let* _ := assert_ (length ps <=? length levels) in
  mapM (fun lp => fwd (fst lp) (snd lp)) (combine levels ps).

(** * SparseCINConv and CINppConv, mp/layers.py:154-427 *)
Record sp_level := {
  sl_up_size : nat; sl_down_size : nat; sl_bnd_size : nat;
  (* [None] is [lambda xs: xs[0]]; [Some m] starts with [Catter()]. *)
  sl_msg_up : option (list wmod);
  sl_update_up : list wmod; sl_update_bnd : list wmod;
  (* [Some] in the levels of a CINppConv. *)
  sl_update_down : option (list wmod);
  sl_combine : list wmod }.

(** [message_up], mp/layers.py:210-211 *)
Definition sp_msg_up (l : sp_level) (x : nat) (ua : option nat) : result nat :=
  match sl_msg_up l with
  | None => Ok x
  | Some m => let* a := of_option TypeError ua in
              let* c := wcat [x; a] in wrun m c
  end.

(** [message_boundary], mp/layers.py:213-214: the identity on the boundary
    features. *)
Definition sp_msg_bnd (ba : option nat) : result nat := of_option TypeError ba.

(** [SparseCINCochainConv.forward], mp/layers.py:184-199, and
    [CINppCochainConv.forward], mp/layers.py:243-260.  Both are built with
    [use_down_msg=False] (line 168): the third matrix of CIN++ is always the
    zeros of [down_msg_size]. *)
Definition sp_level_fwd (l : sp_level) (p : wparams) : result nat :=
  let* x := wneed (p_x p) in
  let* up := wprop true (p_up p) (sl_up_size l) (sp_msg_up l x (p_ua p)) in
  let* dn := wprop false (p_down p) (sl_down_size l) (Ok x) in
  let* bd := wprop true (p_bnd p) (sl_bnd_size l) (sp_msg_bnd (p_ba p)) in
  let* up := wiadd up x in
  match sl_update_down l with
  | None =>
      let* bd := wiadd bd x in
      let* up := wrun (sl_update_up l) up in
      let* bd := wrun (sl_update_bnd l) bd in
      let* c := wcat [up; bd] in
      wrun (sl_combine l) c
  | Some u =>
      let* dn := wiadd dn x in
      let* bd := wiadd bd x in
      let* up := wrun (sl_update_up l) up in
      let* dn := wrun u dn in
      let* bd := wrun (sl_update_bnd l) bd in
      let* c := wcat [up; dn; bd] in
      wrun (sl_combine l) c
  end.

(** The default update networks, mp/layers.py:301-321 and 386-417. *)
Definition sp_update (g : gnorm) (layer_dim hidden : nat) : list wmod :=
  [WLin layer_dim hidden; wnorm g hidden; WKeep; WLin hidden hidden; wnorm g hidden; WKeep].

(** [SparseCINConv.__init__], mp/layers.py:277-331 ([pp = false]) and
    [CINppConv.__init__], mp/layers.py:347-427 ([pp = true]), as every network
    of the repository calls them: without networks of its own and with the
    three sizes equal to [layer_dim]. *)
Definition sp_conv (pp cob : bool) (g : gnorm) (layer_dim hidden max_dim : nat)
  : list sp_level :=
  map (fun _ =>
    {| sl_up_size := layer_dim; sl_down_size := layer_dim; sl_bnd_size := layer_dim;
       sl_msg_up := if cob then Some [WLin (layer_dim * 2) layer_dim; WKeep] else None;
       sl_update_up := sp_update g layer_dim hidden;
       sl_update_bnd := sp_update g layer_dim hidden;
       sl_update_down := if pp then Some (sp_update g layer_dim hidden) else None;
       sl_combine := [WLin (hidden * (if pp then 3 else 2)) hidden; wnorm g hidden; WKeep] |})
    (seq 0 (S max_dim)).

(** * The loop over the convolutions *)

(** [layer_dim = num_input_features if i == 0 else hidden] *)
Definition layer_dim (first hidden i : nat) : nat := if i =? 0 then first else hidden.

(** [for i, x in enumerate(xs): jump_xs[i] += [x]] *)
Fixpoint wpush (jx : list (list nat)) (xs : list nat) : list (list nat) :=
  match jx, xs with
  | j :: jx', x :: xs' => (j ++ [x]) :: wpush jx' xs'
  | _, _ => jx
  end.

(** The loop of every [forward], for example mp/models.py:86-96; [step] is its
    body up to [set_xs].  The lists for the jumping knowledge are kept in any
    case; they are only read if there is a jump mode. *)
Fixpoint wloop {C} (step : C -> list wco -> result (list nat * list wco)) (cs : list C)
  (K : list wco) (xs : option (list nat)) (jx : option (list (list nat)))
  : result (list wco * option (list nat) * option (list (list nat))) :=
  match cs with
  | [] => Ok (K, xs, jx)
  | c :: cs' =>
      let* (xs', K') := step c K in
      let j := match jx with None => map (fun _ => []) xs' | Some j => j end in
      wloop step cs' K' (Some xs') (Some (wpush j xs'))
  end.

(** [if self.jump_mode is not None: xs = self.jump_complex(jump_xs)],
    mp/models.py:98-99; iterating over [None] is a TypeError. *)
Definition wjumped (jm : option wjump) (xs : option (list nat)) (jx : option (list (list nat)))
  : result (list nat) :=
  match jm with
  | None => of_option TypeError xs
  | Some j => let* jx := of_option TypeError jx in mapM (wjump_run j) jx
  end.

(** [pool_complex], mp/models.py:66-75 and mp/nn.py:50-60: a buffer of
    [max_dim + 1] matrices as wide as the first one. *)
Definition wpool (max_dim : nat) (xs : list nat) : result nat :=
  match xs with
  | [] => Err IndexError
  | w :: _ =>
      if length xs <=? S max_dim
      then let* _ := mapM (wassign w) xs in Ok w
      else Err IndexError
  end.

(** [lin1] of the networks with a jump mode, for example mp/models.py:52-55. *)
Definition lin1_in (jm : option wjump) (num_layers hidden : nat) : nat :=
  match jm with Some JCat => num_layers * hidden | _ => hidden end.

(** * CIN0, mp/models.py:12-106 *)
Definition cin0_conv (layer_dim hidden max_dim : nat) : list cin_level :=
  map (fun _ =>
    {| cl_up_size := layer_dim; cl_down_size := layer_dim;
       cl_msg_up := [WLin (layer_dim * 2) layer_dim; WKeep; WNorm layer_dim];
       cl_msg_down := Some [WLin (layer_dim * 2) layer_dim; WKeep; WNorm layer_dim];
       cl_update := [WLin layer_dim hidden; WKeep; WLin hidden hidden; WKeep; WNorm hidden] |})
    (seq 0 (S max_dim)).

Definition cin0 (n_in n_out num_layers hidden max_dim : nat) (jm : option wjump) (K : list wco)
  : result nat :=
  let convs := map (fun i => cin0_conv (layer_dim n_in hidden i) hidden max_dim)
                   (seq 0 num_layers) in
  let* _ := wjump_init jm in
  let* (_, xs, jx) := wloop (fun conv K =>
      let* ps := wall_params K max_dim true true in
      let* xs := wconv cin_level_fwd conv ps in
      let* K := wset_xs K xs in Ok (xs, K)) convs K None None in
  let* xs := wjumped jm xs jx in
  let* x := wpool max_dim xs in
  let* x := wrun1 (WLin (lin1_in jm num_layers hidden) hidden) x in
  wrun1 (WLin hidden n_out) x.

(** * SparseCIN and CINpp, mp/models.py:112-284 *)

(** [readout_dims], mp/models.py:129-132 *)
Definition wreadout (readout_dims : option (list nat)) (max_dim : nat) : list nat :=
  match readout_dims with
  | Some ds => filter (fun d => d <=? max_dim) ds
  | None => seq 0 (S max_dim)
  end.

(** The end of [forward], mp/models.py:219-249: jump, pool, one linear layer
    per dimension that is read out, stack, reduce, [lin2]. *)
Definition sp_head (n_out num_layers hidden mult max_dim : nat) (jm : option wjump)
  (dims : list nat) (xs : option (list nat)) (jx : option (list (list nat))) : result nat :=
  let lin1s := map (fun _ => WLin (lin1_in jm num_layers hidden) (mult * hidden))
                   (seq 0 (S max_dim)) in
  let* xs := wjumped jm xs jx in
  let* w := wpool max_dim xs in
  let* new := mapM (fun d => let* l := get lin1s d in wrun1 l w) dims in
  let* x := wstack new in
  wrun1 (WLin (mult * hidden) n_out) x.

Definition sp_step (max_dim : nat) (conv : list sp_level) (K : list wco)
  : result (list nat * list wco) :=
  let* ps := wall_params K max_dim true false in
  let* xs := wconv sp_level_fwd conv ps in
  let* K := wset_xs K xs in Ok (xs, K).

Definition sp_convs (pp cob : bool) (g : gnorm) (first num_layers hidden max_dim : nat)
  : list (list sp_level) :=
  map (fun i => sp_conv pp cob g (layer_dim first hidden i) hidden max_dim) (seq 0 num_layers).

(** [pp = false]: SparseCIN, [pp = true]: CINpp. *)
Definition sparse_cin (pp cob : bool) (g : gnorm) (n_in n_out num_layers hidden mult max_dim : nat)
  (jm : option wjump) (readout_dims : option (list nat)) (K : list wco) : result nat :=
  let* _ := wjump_init jm in
  let* (_, xs, jx) := wloop (sp_step max_dim)
      (sp_convs pp cob g n_in num_layers hidden max_dim) K None None in
  sp_head n_out num_layers hidden mult max_dim jm (wreadout readout_dims max_dim) xs jx.

(** * EdgeCIN0, mp/models.py:286-416 *)
Definition edge_conv (top : bool) (layer_dim hidden : nat) : list cin_level :=
  let upd := [WLin layer_dim hidden; WKeep; WLin hidden hidden; WKeep; WNorm hidden] in
  let two := [WLin (layer_dim * 2) layer_dim; WKeep; WNorm layer_dim] in
  [ {| cl_up_size := layer_dim; cl_down_size := layer_dim;
       cl_msg_up := two; cl_msg_down := None; cl_update := upd |};
    {| cl_up_size := layer_dim; cl_down_size := layer_dim;
       cl_msg_up := [WLin (if top then layer_dim * 2 else layer_dim) layer_dim; WKeep;
                     WNorm layer_dim];
       cl_msg_down := Some two; cl_update := upd |} ].

(** The network that updates the features of the 2-cells, one for every layer
    but the last, mp/models.py:342-349. *)
Definition edge_top_nn (layer_dim hidden : nat) : list wmod :=
  [WLin layer_dim hidden; WKeep; WLin hidden hidden; WKeep; WNorm hidden].

Definition edge_step (top update : bool) (conv : list cin_level * option (list wmod))
  (K : list wco) : result (list nat * list wco) :=
  let* ps := wall_params K 1 top true in
  let* xs := wconv cin_level_fwd (fst conv) ps in
  match (if (update && (2 <? length K))%bool then snd conv else None) with
  | Some nn =>
      let* x2 := wneed (wx_of K 2) in
      let* t := wrun nn x2 in
      let* K := wset_xs K (xs ++ [t]) in Ok (xs, K)
  | None => let* K := wset_xs K xs in Ok (xs, K)
  end.

Definition edge_cin0 (n_in n_out num_layers hidden : nat) (jm : option wjump)
  (top update_top : bool) (K : list wco) : result nat :=
  let update := top && update_top in
  let convs := map (fun i =>
      (edge_conv top (layer_dim n_in hidden i) hidden,
       if S i <? num_layers then Some (edge_top_nn (layer_dim n_in hidden i) hidden) else None))
      (seq 0 num_layers) in
  let* _ := wjump_init jm in
  let* (_, xs, jx) := wloop (edge_step top update) convs K None None in
  let* xs := wjumped jm xs jx in
  let* x := wpool 1 xs in
  let* x := wrun1 (WLin (lin1_in jm num_layers hidden) hidden) x in
  wrun1 (WLin hidden n_out) x.

(** * Dummy, mp/models.py:422-470 and mp/layers.py:14-59 *)

(** [DummyCochainMessagePassing.forward] with [input_dim = 1], whatever the
    width of the features is; no boundary messages. *)
Definition dummy_level_fwd (_ : unit) (p : wparams) : result nat :=
  let* x := wneed (p_x p) in
  let* up := wprop true (p_up p) 1
      (let* a := of_option TypeError (p_ua p) in wadd x a) in
  let* dn := wprop true (p_down p) 1
      (let* a := of_option TypeError (p_da p) in wadd x a) in
  let* bd := wprop false (p_bnd p) 1 (of_option TypeError (p_ba p)) in
  let* s := wadd x up in
  let* s := wadd s dn in
  wadd s bd.

(** [get_all_cochain_params()] is called with its default [max_dim=2]. *)
Definition dummy (n_in n_out num_layers max_dim : nat) (K : list wco) : result nat :=
  let* (_, xs, _) := wloop (fun conv K =>
      let* ps := wall_params K 2 true true in
      let* xs := wconv dummy_level_fwd conv ps in
      let* K := wset_xs K xs in Ok (xs, K))
      (repeat (repeat tt (S max_dim)) num_layers) K None None in
  let* xs := of_option TypeError xs in
  let* x := wpool max_dim xs in
  wrun1 (WLin n_in n_out) x.

(** * MessagePassingAgnostic, mp/models.py:618-658 *)
Definition mp_agnostic (n_in n_out hidden max_dim : nat) (K : list wco) : result nat :=
  let lin0s := map (fun _ => WLin n_in hidden) (seq 0 (S max_dim)) in
  let* ps := wall_params K max_dim true false in
  let* xs := mapM (fun dp => let* l := get lin0s (fst dp) in
                             let* x := wneed (p_x (snd dp)) in wrun1 l x)
                  (combine (seq 0 (length ps)) ps) in
  let* w := wpool max_dim xs in
  let* w := wrun1 (WLin hidden hidden) w in
  wrun1 (WLin hidden n_out) w.

(** * EdgeOrient and EdgeMPNN, mp/models.py:476-612, mp/layers.py:430-470 *)

(** [OrientedConv.forward]; the orientations are one column.  [update_up] is
    [None] for [lambda x: 0] of EdgeMPNN: the number 0 is added. *)
Definition oriented_fwd (orient : bool) (layer_dim hidden : nat) (up_nn : bool) (x : nat)
  : result nat :=
  let* msg := if orient then wadd x 1 else Ok x in
  let* down := wrun1 (WLin layer_dim hidden) msg in
  let* own := wrun1 (WLin layer_dim hidden) x in
  let* s := (if up_nn then let* up := wrun1 (WLin layer_dim hidden) msg in wadd own up
             else Ok own) in
  wadd s down.

(** [up_nn = true]: EdgeOrient, [up_nn = false]: EdgeMPNN.  [lin1] takes
    [hidden] columns for every jump mode, and the jump is never applied. *)
Definition edge_net (up_nn orient : bool) (n_in n_out num_layers hidden : nat)
  (jm : option wjump) (x : nat) : result nat :=
  let* _ := wjump_init jm in
  match num_layers with
  | 0 => Err NameError
  | _ =>
      let* x := foldM (fun x i => oriented_fwd orient (layer_dim n_in hidden i) hidden up_nn x)
                      x (seq 0 num_layers) in
      let* x := wrun1 (WLin hidden hidden) x in
      wrun1 (WLin hidden n_out) x
  end.

(** * The embedding networks, mp/layers.py:490-593, mp/molec_models.py *)

(** How an input column layout is turned into embeddings.  [EEmb]: one column
    ([Embedding], mp/layers.py:558-570).  [EOgb]: the encoders of OGB look up
    one table per column, 9 for atoms and 3 for bonds; without columns there
    is nothing to return but the number 0. *)
Inductive wenc := EEmb | EOgb.
Definition enc_v (e : wenc) (dim w : nat) : result nat :=
  match e with
  | EEmb => let* _ := assert_ (w =? 1) in Ok dim
  | EOgb => if w =? 0 then Err AttributeError else if w <=? 9 then Ok dim else Err IndexError
  end.
Definition enc_e (e : wenc) (dim w : nat) : result nat :=
  match e with
  | EEmb => let* _ := assert_ (w =? 1) in Ok dim
  | EOgb => if w =? 0 then Err AttributeError else if w <=? 3 then Ok dim else Err IndexError
  end.

(** [AbstractEmbedVEWithReduce.forward], mp/layers.py:516-543; [init_reduce]
    needs a boundary index and keeps the width. *)
Definition winit (e : wenc) (dim : nat) (embed_edge : bool) (ps : list wparams)
  : result (list nat) :=
  let reduce (w : nat) (p : wparams) := if p_bnd p then Ok w else Err TypeError in
  match ps with
  | [] => Err AssertionError
  | v :: rest =>
      let* _ := assert_ (length ps <=? 3) in
      let* xv := of_option AssertionError (p_x v) in
      let* vx := enc_v e dim xv in
      match rest with
      | [] => Ok [vx]
      | ep :: rest' =>
          let* red := reduce vx ep in
          let* ex := match p_x ep with
                     | None => Ok red
                     | Some xe =>
                         let* _ := assert_ embed_edge in
                         let* ex := enc_e e dim xe in
                         let* _ := assert_ (ex =? vx) in Ok ex
                     end in
          match rest' with
          | [] => Ok [vx; ex]
          | cp :: _ => let* cx := reduce red cp in Ok [vx; ex; cx]
          end
      end
  end.

(** [embed_dim] if given, otherwise [hidden], mp/molec_models.py:34-35. *)
Definition wembed (embed_dim : option nat) (hidden : nat) : nat :=
  match embed_dim with Some d => d | None => hidden end.

(** "Check input node/edge features are scalars", mp/molec_models.py:95-98;
    the OGB networks do not check. *)
Definition wscalar (e : wenc) (K : list wco) : result unit :=
  match e with
  | EOgb => Ok tt
  | EEmb =>
      let* x := wneed (wx_of K 0) in
      let* _ := assert_ (x =? 1) in
      match wx_of K 1 with Some y => assert_ (y =? 1) | None => Ok tt end
  end.

(** EmbedSparseCIN (mp/molec_models.py:12-161), EmbedCINpp (167-199),
    OGBEmbedSparseCIN (201-353) and OGBEmbedCINpp (355-384). *)
Definition embed_sparse_cin (e : wenc) (pp cob : bool) (g : gnorm) (embed_edge : bool)
  (embed_dim : option nat) (n_out num_layers hidden mult max_dim : nat)
  (jm : option wjump) (readout_dims : option (list nat)) (K : list wco) : result nat :=
  let emb := wembed embed_dim hidden in
  let* _ := wjump_init jm in
  let* _ := wscalar e K in
  let* ps := wall_params K max_dim true false in
  let* xs := winit e emb embed_edge ps in
  let* K := wset_xs K xs in
  let* (_, xs, jx) := wloop (sp_step max_dim)
      (sp_convs pp cob g emb num_layers hidden max_dim) K (Some xs) None in
  sp_head n_out num_layers hidden mult max_dim jm (wreadout readout_dims max_dim) xs jx.

(** EmbedSparseCINNoRings, mp/molec_models.py:386-500: [params[1].up_index] is
    overwritten with [None]. *)
Definition wno_up1 (ps : list wparams) : list wparams :=
  match ps with
  | v :: ep :: rest =>
      v :: {| p_x := p_x ep; p_up := false; p_ua := p_ua ep; p_down := p_down ep;
              p_da := p_da ep; p_bnd := p_bnd ep; p_ba := p_ba ep |} :: rest
  | _ => ps
  end.

Definition embed_no_rings (cob : bool) (g : gnorm) (embed_edge : bool) (embed_dim : option nat)
  (n_out num_layers hidden mult : nat) (K : list wco) : result nat :=
  let emb := wembed embed_dim hidden in
  let* _ := wscalar EEmb K in
  let* ps := wall_params K 1 true false in
  let* xs := winit EEmb emb embed_edge (wno_up1 ps) in
  let* K := wset_xs K xs in
  let* (_, xs, jx) := wloop (fun conv K =>
      let* ps := wall_params K 1 true false in
      let* xs := wconv sp_level_fwd conv (wno_up1 ps) in
      let* K := wset_xs K xs in Ok (xs, K))
      (sp_convs false cob g emb num_layers hidden 1) K (Some xs) None in
  sp_head n_out num_layers hidden mult 1 None [0; 1] xs jx.

(** [GINConv] and [GINEConv] of torch-geometric 1.6.3: the messages are as wide
    as the features; GINEConv asserts that the edge features are as well. *)
Definition gin_fwd (nn : list wmod) (x : nat) : result nat :=
  let* s := wadd x x in wrun nn s.
Definition gine_fwd (nn : list wmod) (edge_attr : nat) (x : nat) : result nat :=
  let* _ := assert_ (x =? edge_attr) in
  let* m := wadd x edge_attr in
  let* s := wadd m x in wrun nn s.

(** EmbedGIN, mp/molec_models.py:506-603.  Without edges the edge features are
    one row of as many zeros as the node features have columns (line 586). *)
Definition embed_gin (embed_edge : bool) (embed_dim : option nat)
  (n_out num_layers hidden : nat) (K : list wco) : result nat :=
  let emb := wembed embed_dim hidden in
  let nn i := [WLin (layer_dim emb hidden i) hidden; WNorm hidden; WKeep;
               WLin hidden hidden; WNorm hidden; WKeep] in
  let* _ := wscalar EEmb K in
  let* ps := wall_params K 1 true false in
  let* xs := winit EEmb emb embed_edge ps in
  let* K := wset_xs K xs in
  let* p := wparams_of K 0 0 true false in
  let* x := wneed (p_x p) in
  let* ea := if p_up p then of_option AssertionError (p_ua p) else Ok x in
  let* x := foldM (fun x i => gine_fwd (nn i) ea x) x (seq 0 num_layers) in
  let* x := wrun1 (WLin hidden hidden) x in
  wrun1 (WLin hidden n_out) x.

(** * The ring networks, mp/ring_exp_models.py *)

(** RingSparseCIN, mp/ring_exp_models.py:10-70: the node features pass
    [init_layer] first, those of the other cells do not. *)
Definition ring_sparse_cin (cob : bool) (g : gnorm) (n_in n_out num_layers hidden max_dim : nat)
  (K : list wco) : result nat :=
  let* x0 := wneed (wx_of K 0) in
  let* y0 := wrun1 (WLin n_in n_in) x0 in
  let* K := wset_xs K [y0] in
  let* (_, xs, _) := wloop (sp_step max_dim)
      (sp_convs false cob g n_in num_layers hidden max_dim) K None None in
  let* xs := of_option TypeError xs in
  let* x := get xs 0 in
  wrun1 (WLin hidden n_out) x.

Definition gin_nn (g : gnorm) (i hidden : nat) : list wmod :=
  [WLin i hidden; wnorm g hidden; WKeep; WLin hidden hidden; wnorm g hidden; WKeep].

(** [conv1] and the [num_layers - 1] others; [range] of a negative number is
    empty, as is the truncated difference. *)
Definition gin_convs (g : gnorm) (n_in num_layers hidden : nat) : list (list wmod) :=
  gin_nn g n_in hidden :: repeat (gin_nn g hidden hidden) (num_layers - 1).

(** RingGIN, mp/ring_exp_models.py:76-127 *)
Definition ring_gin (g : gnorm) (n_in num_layers hidden n_out : nat) (x : nat) : result nat :=
  let* x := wrun1 (WLin n_in n_in) x in
  let* x := foldM (fun x nn => gin_fwd nn x) x (gin_convs g n_in num_layers hidden) in
  wrun1 (WLin hidden n_out) x.

(** * The baselines, mp/graph_models.py *)

(** GIN0 (33-82) and GIN (151-200) differ in [train_eps] only. *)
Definition gin (n_in num_layers hidden n_out : nat) (x : nat) : result nat :=
  let* x := foldM (fun x nn => gin_fwd nn x) x (gin_convs GBatch n_in num_layers hidden) in
  let* x := wrun1 (WLin hidden hidden) x in
  wrun1 (WLin hidden n_out) x.

(** GIN0WithJK (88-145) and GINWithJK (206-263). *)
Definition gin_jk (n_in num_layers hidden n_out : nat) (mode : wjump) (x : nat) : result nat :=
  let* _ := wjump_init (Some mode) in
  let* (_, xs) := foldM (fun s nn => let* y := gin_fwd nn (fst s) in Ok (y, snd s ++ [y]))
                        (x, []) (gin_convs GBatch n_in num_layers hidden) in
  let* x := wjump_run mode xs in
  let* x := wrun1 (WLin (lin1_in (Some mode) num_layers hidden) hidden) x in
  wrun1 (WLin hidden n_out) x.
