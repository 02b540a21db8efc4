(** What a summary over independent runs means. *)
From Coq Require Import List Arith ZArith QArith.
Import ListNotations.
Local Open Scope Q_scope.

Definition total (l : list Q) : Q := fold_right Qplus 0 l.
Definition count {A} (l : list A) : Q := inject_Z (Z.of_nat (length l)).
Definition expect {A} (outcomes : list A) (f : A -> Q) : Q := total (map f outcomes) / count outcomes.

(** A run has the equally likely scores [P]: mean and variance. *)
Definition mu (P : list Q) : Q := expect P (fun x => x).
Definition sigma2 (P : list Q) : Q := expect P (fun x => (x - mu P) * (x - mu P)).

(** The scores of [n] independent runs: all n-tuples, equally likely. *)
Fixpoint tuples (P : list Q) (n : nat) : list (list Q) :=
  match n with
  | O => [[]]
  | S n => flat_map (fun x => map (cons x) (tuples P n)) P
  end.
