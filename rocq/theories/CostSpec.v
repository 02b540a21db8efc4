(** How many messages a layer computes: one per column of each index it uses (C82). *)
From Coq Require Import List Arith Bool.
From Verif Require Import Base ComplexModel BatchSpec.
Import ListNotations.

Section Spec.
Context {V : Type}.
(** Messages along an attribute of dimension [d]. *)
Definition columns (get : cochain V -> option (list (nat * nat))) (d : nat) (k : complex V) : nat :=
  length (match attr get d k with Some l => l | None => [] end).
(** Messages of a layer that uses upper adjacencies and boundaries up to dimension [D]. *)
Definition messages (D : nat) (k : complex V) : nat :=
  list_sum (map (fun d => columns c_upper d k + columns c_bidx d k) (seq 0 (S D))).
End Spec.

(** The cells of dimension [d+1] that contain the nodes [s]. *)
Definition above (cells : nat -> list (list nat)) (d : nat) (s : list nat) : list (list nat) :=
  filter (fun t => forallb (fun v => existsb (Nat.eqb v) t) s) (cells (S d)).
