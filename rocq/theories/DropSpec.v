(** Expectations over independent bits and the function a head computes without dropout. *)
From Coq Require Import List Arith ZArith QArith.
From Verif Require Import Base.
Import ListNotations.
Local Open Scope Q_scope.

(** All tapes of [n] bits; a bit is [true] with probability 1 - p. *)
Fixpoint tapes (n : nat) : list (list bool) :=
  match n with
  | O => [[]]
  | S n => map (cons true) (tapes n) ++ map (cons false) (tapes n)
  end.
Definition prob (p : Q) (t : list bool) : Q :=
  fold_right Qmult 1 (map (fun b : bool => if b then 1 - p else p) t).
Definition sigma {A} (l : list A) (f : A -> Q) : Q := fold_right Qplus 0 (map f l).
Definition expectation (p : Q) (n : nat) (f : list bool -> Q) : Q :=
  sigma (tapes n) (fun t => prob p t * f t).

(** Entry [k] of a vector and entry [j,k] of a matrix. *)
Definition at1 (v : list Q) (k : nat) : Q := nth k v 0.
Definition at2 (m : list (list Q)) (j k : nat) : Q := at1 (nth j m []) k.

(** The hidden unit [k] of dimension [i], given the weights W, the biases B and the inputs X. *)
Definition unit_ (act : Q -> Q) (W : list (list (list Q))) (B X : list (list Q)) (i k : nat) : Q :=
  act (sigma (seq 0 (length (nth i X []))) (fun l => at2 (nth i W []) k l * at2 X i l) + at2 B i k).

(** Entry [j] of an output; runs that raise count as 0 (the theorems show that none does). *)
Definition entry (j : nat) (r : result (list Q)) : Q :=
  match r with Ok v => at1 v j | Err _ => 0 end.
Definition legal_rate (p : Q) : Prop := 0 <= p /\ p <= 1.
(** The weight of one of [N] dimensions in the final read-out. *)
Definition share (mean : bool) (N : nat) : Q := if mean then / inject_Z (Z.of_nat N) else 1.
Definition sq (x : Q) : Q := x * x.
