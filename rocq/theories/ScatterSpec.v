(** Specification of aggregation, independent of the scatter loops. *)
From Coq Require Import List Arith ZArith.
From Verif Require Import Base ScatterModel.
Import ListNotations.

Section Spec.
Context {V : Type} (o : ops V).

(** The messages addressed to target [i], in column order. *)
Definition messages_to (i : nat) (idx : list nat) (src : list V) : list V :=
  map snd (filter (fun p => fst p =? i) (combine idx src)).

(** Reduction of a finite list of rows. *)
Definition reduce_rows (r : reduce) (l : list V) : V :=
  match r with
  | RAdd => fold_left (vadd o) l (vzero o)
  | RMean => vdivn o (fold_left (vadd o) l (vzero o)) (Nat.max (length l) 1)
  | RMax => match l with [] => vzero o | v :: l' => fold_left (vmax o) l' v end
  | RMin => match l with [] => vzero o | v :: l' => fold_left (vmin o) l' v end
  end.

End Spec.
