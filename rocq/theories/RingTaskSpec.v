(** Specification for the ring transfer task: rows of integers with entrywise addition, and the
    networks that solve the task. *)
From Coq Require Import List Arith Lia ZArith Bool Permutation.
From Verif Require Import Base ScatterModel ComplexModel MPModel LiftModel LiftSpec RingModel GraphNetModel.
Import ListNotations.

(** Any enumeration of the ring's simplices by gudhi, of its cycles by graph-tool and any iteration
    order of sets. *)
Record ring_oracles (lib : list (list nat) -> simplex_tree) (isos : list (nat * nat) -> nat -> list (list nat))
    (set_order : list (list nat) -> list (list nat)) (n : nat) : Prop := {
  ro_lib : let t := pyg_to_simplex_tree (ring_edges n) n in
           enumerates t (st_simplices (lib t)) (st_cofaces (lib t));
  ro_isos : forall k, 3 <= k <= n -> finds_cycles (ring_edges n) k (isos (ring_edges n) k);
  ro_set : forall l : list (list nat), NoDup l -> Permutation (set_order l) l
}.

(** Rows of [w] integers. *)
Definition zipz (f : Z -> Z -> Z) (w : nat) (a b : list Z) : list Z :=
  map (fun c => f (nth c a 0%Z) (nth c b 0%Z)) (seq 0 w).
Definition vec (w : nat) : ops (list Z) :=
  mkOps _ (repeat 0%Z w) (zipz Z.add w) (fun v n => map (fun z => (z / Z.of_nat n)%Z) v)
    (zipz Z.max w) (zipz Z.min w).
Definition relu (v : list Z) : list Z := map (Z.max 0) v.

(** RingGIN with identity matrices: linear layers are the identity, the nonlinearity is ReLU,
    eps = 0. *)
Definition id_gin (rest : nat) : ring_gin (list Z) :=
  mkRingGin (fun v => v) (mkGin (fun v => relu (relu v)) (fun v => v) relu)
    (repeat (mkGin (fun v => relu (relu v)) (fun v => v) (fun v => v)) rest) (fun v => v).

(** Levels of SparseCIN (layers.py:263-330) whose linear layers are identity, zero or selection
    matrices, with ReLU and eps = 0: keep the cell's own row; take the sum of the faces; add the
    upper neighbours; add the cofaces shared with the upper neighbours. *)
Definition level_of (w : nat) (up : list Z -> list Z -> list Z) (comb : list Z -> list Z -> list Z)
  : sparse_level (list Z) :=
  mkSparseLevel (MsgCat (fun x a => relu (up x a))) (fun v => v) (fun v => relu (relu v)) (fun v => relu (relu v))
    (fun u b => relu (comb u b)) (fun v => v) (fun v => v).
Definition keep w := level_of w (fun _ _ => repeat 0%Z w) (fun u _ => u).
Definition take_faces w := level_of w (fun _ _ => repeat 0%Z w) (fun _ b => b).
Definition add_neighbours w := level_of w (fun x _ => x) (fun u _ => u).
Definition add_cofaces w := level_of w (fun _ a => a) (fun u _ => u).

Definition three_layers (w : nat) : ring_cin (list Z) :=
  mkRingCin 2 (fun v => v)
    [ (fun d => if d =? 1 then take_faces w else keep w);
      (fun d => if d =? 1 then add_neighbours w else keep w);
      (fun d => if d =? 0 then add_cofaces w else keep w) ] (fun v => v).
