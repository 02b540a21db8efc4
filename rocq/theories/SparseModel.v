(** Sparse adjacency matrices in mp/cell_mp.py: [propagate] accepts a [torch_sparse.SparseTensor] in place
    of each index tensor.  MPModel and CollectModel cover index tensors; this file covers both kinds for the
    layers of the project (their message functions ask for the rows of the senders and the attribute
    of the shared cell, C60).

    Simplifications: no fused functions (no class of the project implements them). *)
From Coq Require Import List Arith Lia ZArith Bool.
From Verif Require Import Base ScatterModel ComplexModel MPModel CollectModel.
Import ListNotations.
Open Scope nat_scope.

Section Sparse.
Context {V : Type} (o : ops V).

(** torch_sparse's SparseStorage: entries (row, column) in the order of rows, values in the same order. *)
Record sparse := mkSparse { s_size0 : nat; s_size1 : nat; s_entries : list (nat * nat); s_value : option (list V) }.
Definition sp_row (s : sparse) : list nat := map fst (s_entries s).
Definition sp_col (s : sparse) : list nat := map snd (s_entries s).
(** [storage.rowptr()]: torch_sparse's ind2ptr, the number of entries before each row. *)
Definition sp_rowptr (s : sparse) : list nat :=
  map (fun r => length (filter (fun i => i <? r) (sp_row s))) (seq 0 (S (s_size0 s))).

(** [Adj]: mp/cell_mp.py:30 (an index tensor or a sparse tensor). *)
Inductive adj := AIndex (l : list (nat * nat)) | ASparse (s : sparse).

(** mp/cell_mp.py:153-184  [__check_input_separately__] without an explicit size. *)
Definition check_adj (forth : bool) (a : option adj) : result sizes :=
  match a with
  | Some (ASparse s) => if forth then Ok (Some (s_size1 s), Some (s_size0 s)) else Err ValueError
  | _ => Ok (None, None)
  end.
(** mp/cell_mp.py:146-151  [__check_input_together__]; the sizes are lists, never None. *)
Definition check_adjs (up down : option adj) (s t : sizes) : result unit :=
  match up, down with
  | Some _, Some _ => let* _ := assert_ (eq_on (fst s) (fst t)) in assert_ (eq_on (snd s) (snd t))
  | _, _ => Ok tt
  end.

(** mp/cell_mp.py:195-207  [__lift__] for the senders: row 0 of an index tensor, the columns of a sparse tensor. *)
Definition lift_senders (forth : bool) (src : list V) (a : adj) : result (list V) :=
  match a with
  | AIndex l => index_select src (row (if forth then 0 else 1) l)
  | ASparse s => index_select src (sp_col s)
  end.

(** torch_scatter's segment_csr: row r of the result reduces the inputs from ptr[r] to ptr[r+1]; the mean of no rows
    is 0/1, the maximum 0. *)
Definition reduce_slice (r : reduce) (l : list V) : V :=
  let sum := fold_left (vadd o) l (vzero o) in
  match r with
  | RAdd => sum
  | RMean => vdivn o sum (Nat.max (length l) 1)
  | RMax => opt_zero o (fold_left (opt_step (vmax o)) l None)
  | RMin => opt_zero o (fold_left (opt_step (vmin o)) l None)
  end.
Definition segment_csr (r : reduce) (inputs : list V) (ptr : list nat) : list V :=
  map (fun p => reduce_slice r (firstn (snd p - fst p) (skipn (fst p) inputs))) (combine ptr (tl ptr)).

(** mp/cell_mp.py:209-282 and 324-355 with 423-479, for one adjacency.  [x] gives the number of cells (the
    [size_data] of lines 224, 227 and 233), [data] the rows of the senders, [attr] the keyword argument of the attribute.
    Lines 269-271: the values of a sparse tensor replace the attribute. *)
Definition message_and_aggregate_adj (forth : bool) (m : msg V) (r : reduce) (a : adj) (size : sizes) (x data : list V) (attr : option (list V))
  : result (list V) :=
  let* size := set_size size 0 (PRows x) in
  let* xj := lift_senders forth data a in
  let attr := match a with AIndex _ => attr | ASparse s => s_value s end in
  let* out := apply_msg m xj attr in
  match a with
  | AIndex l => scatter o r (py_or (snd size) (fst size)) (row (if forth then 1 else 0) l) out
  | ASparse s => Ok (segment_csr r out (sp_rowptr s))
  end.

(** CochainMessagePassingParams with adjacencies of both kinds (mp/cell_mp.py:527-550). *)
Record aparams := mkAParams { a_x : option (list V); a_up : option adj; a_down : option adj;
  a_up_attr : option (list V); a_down_attr : option (list V); a_battr : option (list V); a_bidx : option adj }.

(** mp/cell_mp.py:357-392  [propagate] and 511-524 [update]. *)
Definition propagate_adj (forth : bool) (c : mpcfg V) (p : aparams) : result (list V * list V * list V) :=
  match a_x p with
  | None => Err AttributeError
  | Some x =>
    let n := length x in
    let* us := check_adj forth (a_up p) in
    let* ds := check_adj forth (a_down p) in
    let* bs := check_adj forth (a_bidx p) in
    let* _ := check_adjs (a_up p) (a_down p) us ds in
    let* up := match a_up p with
               | Some u => message_and_aggregate_adj forth (g_msg_up c) (g_aggr_up c) u us x x (a_up_attr p)
               | None => Ok (zeros o n)
               end in
    let* down := if g_down c then
                   match a_down p with
                   | Some u => message_and_aggregate_adj forth (g_msg_down c) (g_aggr_down c) u ds x x (a_down_attr p)
                   | None => Ok (zeros o n)
                   end
                 else Ok (zeros o n) in
    let* bnd := if g_bnd c then
                  match a_battr p with
                  | Some ba =>
                      match a_bidx p with
                      | Some bi => message_and_aggregate_adj forth (MsgFst (g_msg_bnd c)) (g_aggr_bnd c) bi bs x ba None
                      | None => Err TypeError
                      end
                  | None => Ok (zeros o n)
                  end
                else Ok (zeros o n) in
    Ok (up, down, bnd)
  end.
End Sparse.
Arguments sparse : clear implicits.
Arguments adj : clear implicits.
Arguments aparams : clear implicits.
