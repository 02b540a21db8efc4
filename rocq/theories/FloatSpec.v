(** Specification of aggregation over the real numbers, independent of rounding. *)
From Coq Require Import List Arith ZArith Reals.
From Flocq Require Import Core BinarySingleNaN.
From Verif Require Import FloatModel.
Import ListNotations.
Open Scope R_scope.

(** The real number that a float stands for (0 for an infinity or a not-a-number). *)
Definition val (a : float) : R := B2R a.
Definition finite (a : float) : Prop := is_finite a = true.

(** Sums and greatest elements of finite lists of real numbers. *)
Definition rsum (l : list R) : R := fold_right Rplus 0 l.
Definition rmass (l : list R) : R := rsum (map Rabs l).
Definition is_greatest (m : R) (l : list R) : Prop := In m l /\ Forall (fun x => x <= m) l.
Definition is_least (m : R) (l : list R) : Prop := In m l /\ Forall (fun x => m <= x) l.

(** Half the distance from 1 to the next float: 2^-24. *)
Definition unit_roundoff : R := / IZR (2 ^ 24).
(** The first power of two out of range: 2^128. *)
Definition overflow : R := IZR (2 ^ 128).
(** Half the least positive float: 2^-150. *)
Definition underflow : R := / IZR (2 ^ 150).

(** The factor by which [k] roundings in a row may err. *)
Definition drift (k : nat) : R := (1 + unit_roundoff) ^ k - 1.
