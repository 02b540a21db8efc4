(** Model of data/datasets/ring_utils.py: the synthetic ring tasks.  Feature entries are the integers
    0 and 1. *)
From Coq Require Import List Arith ZArith Bool.
From Verif Require Import Base.
Import ListNotations.

(** A torch_geometric Data object as the generators build it. *)
Record ring_graph := mkRing {
  r_x : list (list Z);
  r_edges : list (nat * nat);
  r_mask : list bool;
  r_y : list nat
}.

(** ring_utils.py:32-40 and 70-78  the edges of the ring ([nodes] at least 1). *)
Definition ring_edges (nodes : nat) : list (nat * nat) :=
  flat_map (fun i => [(i, i + 1); (i + 1, i)]) (seq 0 (nodes - 1)) ++ [(0, nodes - 1); (nodes - 1, 0)].

(** ring_utils.py:45-47 and 83-85. *)
Definition ring_mask (nodes : nat) : result (list bool) :=
  upd (repeat false nodes) 0 (fun _ => true).

(** [numpy.argmax]: position of the first largest entry; an empty array raises ValueError. *)
Fixpoint argmax_from (i best : nat) (m : Z) (l : list Z) : nat :=
  match l with
  | [] => best
  | z :: r => if (m <? z)%Z then argmax_from (S i) i z r else argmax_from (S i) best m r
  end.
Definition argmax (l : list Z) : result nat :=
  match l with [] => Err ValueError | z :: r => Ok (argmax_from 1 0 z r) end.

(** ring_utils.py:61-90  [generate_ring_transfer_graph]. *)
Definition ring_transfer (nodes : nat) (target : list Z) : result ring_graph :=
  let opposite := nodes / 2 in
  let ones := repeat (repeat 1%Z (length target)) nodes in
  let* x1 := upd ones 0 (fun _ => repeat 0%Z (length target)) in
  let* x := upd x1 opposite (fun _ => target) in
  let* mask := ring_mask nodes in
  let* y := argmax target in
  Ok (mkRing x (ring_edges nodes) mask [y]).

(** Floor division by a number that may be zero. *)
Definition div_err (a b : nat) : result nat := if b =? 0 then Err ZeroDivisionError else Ok (a / b).

(** ring_utils.py:93-103  [generate_ring_transfer_graph_dataset]. *)
Definition ring_transfer_dataset (nodes classes samples : nat) : result (list ring_graph) :=
  let* per := div_err samples classes in
  mapM (fun i =>
          let* label := div_err i per in
          let* target := upd (repeat 0%Z classes) label (fun _ => 1%Z) in
          ring_transfer nodes target) (seq 0 samples).

(** sklearn's LabelBinarizer fitted on [k] distinct labels: the row of the [c]-th label in sorted
    order.  Two labels give one column, a single label gives one column of zeros. *)
Definition one_hot (k c : nat) : list Z := map (fun j => if j =? c then 1%Z else 0%Z) (seq 0 k).
Definition binarize (k c : nat) : list Z :=
  match k with
  | 1 => [0%Z]
  | 2 => [if c =? 1 then 1%Z else 0%Z]
  | _ => one_hot k c
  end.

(** ring_utils.py:10-49  [generate_ring_lookup_graph].  [vals] is the result of
    [numpy.random.permutation(nodes - 1)] and [key_idx] the result of [random.randint(0, nodes - 2)].
    [keys] are 1..nodes-1, so the sorted position of the key of node [i+1] is [i]. *)
Definition ring_lookup (nodes : nat) (vals : list nat) (key_idx : nat) : result ring_graph :=
  let k := nodes - 1 in
  let* _ := (if k =? 0 then Err ValueError else Ok tt) in
  let oh_keys := map (binarize k) (seq 0 k) in
  let oh_vals := map (binarize k) vals in
  let oh_all := map (fun p => fst p ++ snd p) (combine oh_keys oh_vals) in
  let* val := get vals key_idx in
  let* key := get oh_keys key_idx in
  let width := length (binarize k 0) in
  let x0 := key ++ repeat 0%Z width in
  let* mask := ring_mask nodes in
  Ok (mkRing (x0 :: oh_all) (ring_edges nodes) mask [val]).

(** ring_utils.py:52-58  [generate_ringlookup_graph_dataset]; [draws] are the random outcomes. *)
Definition ring_lookup_dataset (nodes samples : nat) (draws : nat -> list nat * nat)
  : result (list ring_graph) :=
  mapM (fun i => ring_lookup nodes (fst (draws i)) (snd (draws i))) (seq 0 samples).

(** ringtransfer.py:47-57 ([process], up to the conversion) and 85-94 [load_ring_transfer_dataset]:
    the graphs, the training ids and the validation ids (there are no test ids). *)
Definition load_ring_transfer (nodes train test classes : nat)
  : result (list ring_graph * (list nat * list nat)) :=
  let* tr := ring_transfer_dataset nodes classes train in
  let* va := ring_transfer_dataset nodes classes test in
  Ok (tr ++ va, (seq 0 (length tr), seq (length tr) (length va))).
