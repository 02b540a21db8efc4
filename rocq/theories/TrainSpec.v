(** Specification of a training epoch. *)
From Coq Require Import String List Arith Lia ZArith QArith Bool.
From Verif Require Import Base ComplexModel TrainModel.
Import ListNotations.
Open Scope nat_scope.

(** A chunk of complexes is used for a step if every dimension up to that of the batch holds at least two
    cells; [D] is the dimension of the batch, [szs] the sizes of the members. *)
Definition enough (szs : list (nat -> nat)) (D : nat) : Prop :=
  forall d, d <= D -> 2 <= list_sum (map (fun sz => sz d) szs).

(** The steps of an epoch: [step p b l p'] is one optimiser step, [ok b] says that [b] is used. *)
Section Epoch.
Context {P B : Type} (ok : B -> Prop) (step : P -> B -> option Q -> P -> Prop).
Inductive epoch : P -> list B -> list (option Q) -> P -> Prop :=
| E_nil p : epoch p [] [] p
| E_skip p b r c p' : ~ ok b -> epoch p r c p' -> epoch p (b :: r) c p'
| E_step p b r l p1 c p' : ok b -> step p b l p1 -> epoch p1 r c p' -> epoch p (b :: r) (l :: c) p'.
End Epoch.

(** Predictions paired with targets entry by entry; missing targets are left out. *)
Inductive paired {Y} (isnan : Y -> bool) : list (list Q) -> list Y -> list (list Q * Y) -> Prop :=
| Pd_nil : paired isnan [] [] []
| Pd_missing q qs y ys r : isnan y = true -> paired isnan qs ys r -> paired isnan (q :: qs) (y :: ys) r
| Pd_keep q qs y ys r : isnan y = false -> paired isnan qs ys r -> paired isnan (q :: qs) (y :: ys) ((q, y) :: r).
Definition entries (lk : loss_kind) (pred : list (list Q)) : list (list Q) :=
  match lk with CrossEntropy => pred | _ => map (fun q => [q]) (concat pred) end.

(** The loss of a task. *)
Definition task_losses : list (string * loss_kind) :=
  [("classification", CrossEntropy); ("bin_classification", BCEWithLogits); ("regression", L1);
   ("mse_regression", MSE)]%string.

(** A list dealt out in chunks of [n]: full chunks in order, and a last one that is not empty. *)
Inductive dealt {A} (n : nat) : list A -> list (list A) -> Prop :=
| Dl_nil : dealt n [] []
| Dl_last l : 1 <= length l <= n -> dealt n l [l]
| Dl_full h t r : length h = n -> t <> [] -> dealt n t r -> dealt n (h ++ t) (h :: r).
