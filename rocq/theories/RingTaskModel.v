(** Model of the ring transfer data set as complexes: data/datasets/ringtransfer.py [process], and of
    the same graphs as graphs (load_ring_transfer_dataset). *)
From Coq Require Import List Arith ZArith Bool.
From Verif Require Import Base ScatterModel ComplexModel MPModel LiftModel RingModel GraphNetModel.
Import ListNotations.

Section Task.
Context {V : Type} (o : ops V) (veqb : V -> V -> bool).

Definition set_mask (c : cochain V) (m : list bool) : cochain V :=
  mkCochain (c_dim c) (c_x c) (c_upper c) (c_lower c) (c_shb c) (c_shc c) (c_bidx c) (c_uor c) (c_lor c)
    (c_y c) (Some m) (c_n c) (c_nup c) (c_ndown c).

(** [c.x = torch.zeros_like(c.x)]; zeros_like of None raises TypeError. *)
Definition zero_x (c : cochain V) : result (cochain V) :=
  let* x := of_option TypeError (c_x c) in
  set_x c (Some (repeat (vzero o) (length x))).

(** ringtransfer.py:66-75: the mask of node 0 is attached to the vertices, the features of edges and
    rings are zeroed.  A complex without edges or rings has None there (AttributeError). *)
Definition ring_finish (k : complex V) : result (complex V) :=
  match k_cochains k with
  | c0 :: r =>
      let* n := num_cells c0 in
      let* n := of_option TypeError n in
      let* mask := upd (repeat false n) 0 (fun _ => true) in
      match r with
      | c1 :: c2 :: r' =>
          let* c1 := zero_x c1 in
          let* c2 := zero_x c2 in
          Ok (mkComplexRec (k_dim k) (set_mask c0 mask :: c1 :: c2 :: r') (k_y k))
      | _ => Err AttributeError
      end
  | [] => Err KeyError
  end.

(** One sample of [process] (ringtransfer.py:57-75).  [enc] turns a row of the features into a row of
    the network's type. *)
Definition ring_transfer_complex (lib : list cell -> simplex_tree)
    (isos : list (nat * nat) -> nat -> list cell) (set_order : list cell -> list cell) (r : reduce)
    (enc : list Z -> V) (nodes : nat) (target : list Z) : result (complex V) :=
  let* g := ring_transfer nodes target in
  let* k := compute_ring_2complex o veqb lib isos set_order r (map enc (r_x g)) (r_edges g) None nodes
              (Some (map Z.of_nat (r_y g))) nodes false true true in
  ring_finish k.

(** The graph of a sample (ringtransfer.py:85-94). *)
Definition ring_pgraph (enc : list Z -> V) (g : ring_graph) : GraphNetModel.graph V :=
  GraphNetModel.mkGraph (map enc (r_x g)) (r_edges g) (Some (r_mask g)).

End Task.
