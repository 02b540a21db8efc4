(** Specification for the expressive power of SparseCIN: hash functions of colour refinement, and the
    network that realises them with rows of one integer. *)
From Coq Require Import List Arith Lia ZArith Bool Permutation.
From Coq Require Cantor.
From Verif Require Import Base ScatterModel ComplexModel BatchSpec BatchSpec2 MPModel.
Import ListNotations.

(** A hash that separates exactly different multisets. *)
Definition ideal_hash {C : Type} (hash : C -> list (C * C) -> list C -> C) : Prop :=
  forall c u b c' u' b', hash c u b = hash c' u' b' <-> c = c' /\ Permutation u u' /\ Permutation b b'.
Definition ideal_init {C V : Type} (col0 : nat -> V -> C) : Prop :=
  forall d v v', col0 d v = col0 d v' <-> v = v'.

(** Complexes with non-negative integer features below [F] and at most [M] cells and entries of the
    relations per dimension. *)
Record bounded (F M : nat) (k : complex Z) (sz : nat -> nat) : Prop := {
  bd_cells : forall d, sz d <= M;
  bd_upper : forall d, length (content (attr c_upper d k)) <= M;
  bd_bidx : forall d, length (content (attr c_bidx d k)) <= M;
  bd_feats : forall d v, In v (content (attr c_x d k)) -> (0 <= v < Z.of_nat F)%Z
}.

(** The functions of the network: numbers are coded in the exponents of powers of [B].  eps is 0 and
    the update networks are the identity. *)
Definition pair_code (a b : nat) : nat := Cantor.to_nat (a, b).
Definition exp_row (B e : nat) : Z := Z.of_nat (B ^ e).
Definition out_row (B : nat) (u b : Z) : Z := exp_row B (2 * pair_code (Z.to_nat u) (Z.to_nat b)).

(** First layer: rows between 0 and [F]. *)
Definition first_level (B F : nat) : sparse_level Z :=
  mkSparseLevel (MsgCat (fun x a => Z.of_nat (F * B ^ (pair_code (Z.to_nat x) (Z.to_nat a)))))
    (fun x => Z.of_nat (F * B ^ (Z.to_nat x))) (fun v => v) (fun v => v) (out_row B) (fun v => v) (fun v => v).
(** Later layers: rows are even powers of [B], messages odd powers. *)
Definition next_level (B : nat) : sparse_level Z :=
  mkSparseLevel (MsgCat (fun x a => exp_row B (2 * pair_code (Z.to_nat x) (Z.to_nat a) + 1)))
    (fun x => exp_row B (2 * Z.to_nat x + 1)) (fun v => v) (fun v => v) (out_row B) (fun v => v) (fun v => v).
Definition code_level (B F l : nat) (d : nat) : sparse_level Z := if l =? 0 then first_level B F else next_level B.
Definition code_layers (B F L : nat) : list (nat -> sparse_level Z) := map (code_level B F) (seq 0 L).

(** Readout: rows are summed per dimension and the sums again coded as exponents. *)
Definition code_net (B F L max_dim : nat) (dims : list nat) : net Z :=
  sparse_cin Zops max_dim (code_layers B F L) None RAdd dims (fun d v => exp_row B (pair_code d (Z.to_nat v))) false (fun v => v).
