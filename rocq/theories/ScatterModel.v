(** Model of torch_scatter's [scatter] and of the row algebra it works on. *)
From Coq Require Import List Arith Lia ZArith Bool.
From Verif Require Import Base.
Import ListNotations.

(** Operations on feature rows.  A row of a feature matrix is an element of an
    abstract type [V]; its width is not modelled.  Floats are idealised. *)
Record ops (V : Type) := mkOps {
  vzero : V;
  vadd : V -> V -> V;
  vdivn : V -> nat -> V;        (* division by a (positive) count *)
  vmax : V -> V -> V;
  vmin : V -> V -> V
}.
Arguments vzero {V} o.
Arguments vadd {V} o.
Arguments vdivn {V} o.
Arguments vmax {V} o.
Arguments vmin {V} o.

(** Laws, used as premises only where needed. *)
Record ops_ok {V} (o : ops V) : Prop := {
  add_comm : forall a b, vadd o a b = vadd o b a;
  add_assoc : forall a b c, vadd o a (vadd o b c) = vadd o (vadd o a b) c;
  add_0_l : forall a, vadd o (vzero o) a = a;
  div_0_1 : vdivn o (vzero o) 1 = vzero o;
  max_comm : forall a b, vmax o a b = vmax o b a;
  max_assoc : forall a b c, vmax o a (vmax o b c) = vmax o (vmax o a b) c;
  min_comm : forall a b, vmin o a b = vmin o b a;
  min_assoc : forall a b c, vmin o a (vmin o b c) = vmin o (vmin o a b) c
}.

(** The reductions accepted by [scatter(..., reduce=...)]; 'sum' is 'add'. *)
Inductive reduce := RAdd | RMean | RMax | RMin.

Section Scatter.
Context {V : Type} (o : ops V).

(** [out[idx[e]] = f(out[idx[e]], src[e])] for e = 0, 1, ... *)
Definition scatter_loop {A} (f : A -> V -> A) (init : list A) (idx : list nat) (src : list V)
  : result (list A) :=
  foldM (fun out p => upd out (fst p) (fun a => f a (snd p))) init (combine idx src).

(** torch_scatter 2.0.x scatter(src, index, dim=0, dim_size, reduce), as called at
    mp/cell_mp.py:439-440,458-459,478-479, mp/layers.py:487, data/utils.py:150-155 and by
    torch_geometric's global_add_pool/global_mean_pool (mp/nn.py:58).
    dim_size None means index.max()+1 (0 for an empty index).  mean = sum / clamp(count,1);
    max/min leave 0 where no entry is addressed. *)
Definition scatter_size (dim_size : option nat) (idx : list nat) : nat :=
  match dim_size with
  | Some n => n
  | None => match idx with [] => 0 | _ => S (list_max idx) end
  end.

Definition opt_step (f : V -> V -> V) (a : option V) (v : V) : option V :=
  match a with None => Some v | Some u => Some (f u v) end.

Definition opt_zero (a : option V) : V :=
  match a with None => vzero o | Some u => u end.

Definition scatter (r : reduce) (dim_size : option nat) (idx : list nat) (src : list V)
  : result (list V) :=
  if negb (length idx =? length src) then Err RuntimeError else
  let n := scatter_size dim_size idx in
  match r with
  | RAdd => scatter_loop (vadd o) (repeat (vzero o) n) idx src
  | RMean =>
      let* s := scatter_loop (vadd o) (repeat (vzero o) n) idx src in
      let* c := scatter_loop (fun k _ => S k) (repeat 0 n) idx src in
      Ok (map (fun p => vdivn o (fst p) (Nat.max (snd p) 1)) (combine s c))
  | RMax =>
      let* s := scatter_loop (opt_step (vmax o)) (repeat None n) idx src in
      Ok (map opt_zero s)
  | RMin =>
      let* s := scatter_loop (opt_step (vmin o)) (repeat None n) idx src in
      Ok (map opt_zero s)
  end.

End Scatter.

(** A concrete row algebra (rows of width one with integer entries), used by examples. *)
Definition Zops : ops Z := {|
  vzero := 0%Z; vadd := Z.add; vdivn := fun a n => Z.div a (Z.of_nat n);
  vmax := Z.max; vmin := Z.min |}.
