(** Networks in training mode together with the running averages of their batch
    normalisations, and in evaluation mode with them. *)
From Coq Require Import List Arith Bool QArith.
From Verif Require Import Base ScatterModel ComplexModel MPModel NormModel.
Import ListNotations.

Section Run.
Context {V St : Type} (o : ops V).
(** [upd n b r]: the running statistics [r] after a batch of [n] rows with statistics [b]. *)
Variable upd : nat -> St -> St -> St.
Notation params := (params V).
Notation nn := (list (nn_layer V St)).

(** torch.nn.Sequential in training mode.  One entry of [ss] per layer; the entries of layers
    without statistics are not read.  A BatchNorm1d without rows returns its input and updates
    nothing, with one row it raises. *)
Fixpoint run_nn (ls : nn) (ss : list St) (t : list V) : result (list V * list St) :=
  match ls, ss with
  | [], _ => Ok (t, ss)
  | RowFun f :: ls, s :: ss =>
      let* (t', ss') := run_nn ls ss (map f t) in Ok (t', s :: ss')
  | BatchNorm st f :: ls, s :: ss =>
      if length t =? 1 then Err ValueError else
      let* (t', ss') := run_nn ls ss (map (f (st t)) t) in
      Ok (t', (if length t =? 0 then s else upd (length t) (st t) s) :: ss')
  | _ :: _, [] => Err IndexError
  end.

(** The same in evaluation mode: normalisation with the running statistics, which stay. *)
Fixpoint eval_nn (ls : nn) (ss : list St) (v : V) : V :=
  match ls, ss with
  | RowFun f :: ls, _ :: ss => eval_nn ls ss (f v)
  | BatchNorm st f :: ls, s :: ss => eval_nn ls ss (f s v)
  | _, _ => v
  end.

(** mp/layers.py:78-103, CINCochainConv, and mp/cell_mp.py:324-355. *)
Record cin_state := mkCinState { cs_up : list St; cs_down : list St; cs_update : list St }.

Definition run_message_and_aggregate (m : msg V) (ls : nn) (ss : list St) (index : list (nat * nat))
    (data : list V) (attr : option (list V)) (n : nat) : result (list V * list St) :=
  let* xj := index_select data (map fst index) in
  let* out := apply_msg m xj attr in
  let* (out, ss') := run_nn ls ss out in
  let* r := scatter o RAdd (Some n) (map snd index) out in
  Ok (r, ss').

Definition run_cin_level (l : tcin_level V St) (s : cin_state) (p : params)
    : result (list V * cin_state) :=
  match p_x p with
  | None => Err AttributeError
  | Some x =>
    let n := length x in
    let* (up, su) := match p_up p with
        | Some u => run_message_and_aggregate (MsgOpt (tc_up_g l) (tc_up_f l)) (tc_up l) (cs_up s) u x (p_up_attr p) n
        | None => Ok (zeros o n, cs_up s)
        end in
    let* (down, sd) := match p_down p with
        | Some u => run_message_and_aggregate (MsgCat (tc_down_f l)) (tc_down l) (cs_down s) u x (p_down_attr p) n
        | None => Ok (zeros o n, cs_down s)
        end in
    let up := addt o up (map (tc_scale l) x) in
    let down := addt o down (map (tc_scale l) x) in
    let* (out, sp) := run_nn (tc_update l) (cs_update s) (addt o up down) in
    Ok (out, mkCinState su sd sp)
  end.

(** mp/layers.py:106-124, CINConv: the levels of all dimensions share the three networks. *)
Fixpoint run_cin_conv (l : tcin_level V St) (s : cin_state) (ps : list params)
    : result (list (list V) * cin_state) :=
  match ps with
  | [] => Ok ([], s)
  | p :: ps =>
      let* (out, s') := run_cin_level l s p in
      let* (outs, s'') := run_cin_conv l s' ps in
      Ok (out :: outs, s'')
  end.

(** A convolution over the steps of a training: its weights change from step to step
    (exp/train_utils.py:36-73), the running statistics are carried along. *)
Fixpoint run_cin_steps (steps : list (tcin_level V St * list params)) (s : cin_state)
    : result cin_state :=
  match steps with
  | [] => Ok s
  | (l, ps) :: steps => let* (_, s') := run_cin_conv l s ps in run_cin_steps steps s'
  end.

(** mp/layers.py:184-199 and 332-341: SparseCINCochainConv and SparseCINConv, where every
    dimension has networks of its own.  [fst]: the level of a dimension, [snd]: its state. *)
Record sparse_state := mkSparseState { ss_up : list St; ss_bnd : list St; ss_comb : list St }.

Definition run_sparse_level (l : tsparse_level V St) (s : sparse_state) (p : params)
    : result (list V * sparse_state) :=
  let* (up, _, bnd) := propagate o (mkCfg false true RAdd RAdd RAdd (ts_up l) (MsgFst (fun v => v)) (ts_bnd l)) p in
  let up := addt o up (map (ts_s1 l) (the_x p)) in
  let bnd := addt o bnd (map (ts_s2 l) (the_x p)) in
  let* (up, s1) := run_nn (ts_upd_up l) (ss_up s) up in
  let* (bnd, s2) := run_nn (ts_upd_bnd l) (ss_bnd s) bnd in
  let* (out, s3) := run_nn (ts_comb l) (ss_comb s) (zipw (ts_cat l) up bnd) in
  Ok (out, mkSparseState s1 s2 s3).

Fixpoint run_sparse_conv (lss : list (tsparse_level V St * sparse_state)) (ps : list params)
    : result (list (list V) * list sparse_state) :=
  match ps, lss with
  | [], _ => Ok ([], map snd lss)
  | p :: ps, (l, s) :: lss =>
      let* (out, s') := run_sparse_level l s p in
      let* (outs, ss') := run_sparse_conv lss ps in
      Ok (out :: outs, s' :: ss')
  | _ :: _, [] => Err IndexError
  end.

(** As [run_cin_steps]: the levels of every step, one state per dimension carried along. *)
Fixpoint run_sparse_steps (steps : list (list (tsparse_level V St) * list params))
    (ss : list sparse_state) : result (list sparse_state) :=
  match steps with
  | [] => Ok ss
  | (ls, ps) :: steps =>
      let* (_, ss') := run_sparse_conv (combine ls ss) ps in run_sparse_steps steps ss'
  end.

End Run.
Arguments cin_state St : clear implicits.
Arguments sparse_state St : clear implicits.

(** * One column: torch.nn.BatchNorm1d with its defaults (momentum 0.1), mp/nn.py:39-47 *)
Local Open Scope Q_scope.

Definition qsum (t : list Q) : Q := fold_right Qplus 0 t.
Definition qlen {A} (t : list A) : Q := inject_Z (Z.of_nat (length t)).
Definition qmean (t : list Q) : Q := qsum t / qlen t.
(** The variance that normalises the batch (divided by n). *)
Definition qvar (t : list Q) : Q := qsum (map (fun x => (x - qmean t) * (x - qmean t)) t) / qlen t.
Definition bn_stats (t : list Q) : Q * Q := (qmean t, qvar t).
(** Running mean and variance start at 0 and 1; the variance that enters is the unbiased one. *)
Definition bn_init : Q * Q := (0, 1).
Definition bn_upd (n : nat) (b r : Q * Q) : Q * Q :=
  let nq := inject_Z (Z.of_nat n) in
  ((9 # 10) * fst r + (1 # 10) * fst b,
   (9 # 10) * snd r + (1 # 10) * (snd b * nq / (nq - 1))).

(** All columns: [col j] is the j-th entry of a row. *)
Section Columns.
Context {V : Type} (col : nat -> V -> Q).
Definition col_stats (t : list V) : nat -> Q * Q := fun j => bn_stats (map (col j) t).
Definition col_upd (n : nat) (b r : nat -> Q * Q) : nat -> Q * Q := fun j => bn_upd n (b j) (r j).
Definition col_init : nat -> Q * Q := fun _ => bn_init.
End Columns.

(** The levels in evaluation mode. *)
Section Eval.
Context {V St : Type}.
Definition eval_cin (l : tcin_level V St) (s : cin_state St) : cin_level V :=
  mkCinLevel (fun v => eval_nn (tc_up l) (cs_up s) (tc_up_g l v))
             (fun x y => eval_nn (tc_up l) (cs_up s) (tc_up_f l x y))
             (fun x y => eval_nn (tc_down l) (cs_down s) (tc_down_f l x y))
             (eval_nn (tc_update l) (cs_update s)) (tc_scale l).
Definition eval_sparse (l : tsparse_level V St) (s : sparse_state St) : sparse_level V :=
  mkSparseLevel (ts_up l) (ts_bnd l) (eval_nn (ts_upd_up l) (ss_up s))
                (eval_nn (ts_upd_bnd l) (ss_bnd s))
                (fun u w => eval_nn (ts_comb l) (ss_comb s) (ts_cat l u w)) (ts_s1 l) (ts_s2 l).
End Eval.
