(** One training epoch: exp/train_utils.py, train (lines 16-75). *)
From Coq Require Import String List Arith Lia ZArith QArith Bool.
From Verif Require Import Base ComplexModel InferModel.
Import ListNotations.
Open Scope nat_scope.

(** exp/train_utils.py:10-13 and 21-30: the loss belonging to a task type. *)
Inductive loss_kind := CrossEntropy | BCEWithLogits | L1 | MSE.
Definition loss_of_task (t : string) : result loss_kind :=
  if string_dec t "classification" then Ok CrossEntropy
  else if string_dec t "bin_classification" then Ok BCEWithLogits
  else if string_dec t "regression" then Ok L1
  else if string_dec t "mse_regression" then Ok MSE
  else Err NotImplementedError.

(** exp/train_utils.py:37-44: the number of samples of a batch.  [num_cells] may be None, which [min]
    does not accept. *)
Definition num_samples {V} (b : kbatch V) : result nat :=
  let* c0 := get (k_cochains (kb_complex b)) 0 in
  let* x := of_option AttributeError (c_x c0) in
  fold_left (fun acc d =>
      let* n := acc in
      let* c := get (k_cochains (kb_complex b)) d in
      let* m := num_cells c in
      let* m := of_option TypeError m in
      Ok (Nat.min n m))
    (seq 1 (k_dim (kb_complex b))) (Ok (length x)).

Section Train.
(** [P]: everything that training changes (parameters, buffers, the optimiser, random generators);
    [Bt]: batches (of complexes or graphs); [Y]: entries of the targets. *)
Context {P Bt Y : Type}.
Variable samples : Bt -> result nat.
Variable labels : Bt -> option (list Y).
Variable isnan : Y -> bool.
Variable fwd : P -> Bt -> result (list (list Q) * P).               (* model(batch), a row per complex *)
Variable learn : loss_kind -> P -> list (list Q * Y) -> option Q * P. (* loss, backward, optimizer.step *)

(** Lines 59-68: targets of the shape of the predictions, then the entries that are not NaN.  For
    cross entropy a target belongs to a row of predictions, otherwise to a single entry. *)
Definition masked (l : list (list Q * Y)) : list (list Q * Y) := filter (fun py => negb (isnan (snd py))) l.
Definition targets_of (lk : loss_kind) (pred : list (list Q)) (y : option (list Y)) : result (list (list Q * Y)) :=
  let* y := of_option AttributeError y in
  match lk with
  | CrossEntropy => if length pred =? length y then Ok (masked (combine pred y)) else Err IndexError
  | _ => let flat := map (fun q => [q]) (concat pred) in
         if length flat =? length y then Ok (masked (combine flat y)) else Err RuntimeError
  end.

(** Lines 32-75: the loop; [curve] and the state so far.  Logging (48-55) is left out. *)
Definition train_batch (lk : loss_kind) (acc : list (option Q) * P) (b : Bt) : result (list (option Q) * P) :=
  let (curve, p) := acc in
  let* n := samples b in
  if n <=? 1 then Ok (curve, p) else
  let* (pred, p1) := fwd p b in
  let* ts := targets_of lk pred (labels b) in
  let (loss, p2) := learn lk p1 ts in
  Ok (curve ++ [loss], p2).
Fixpoint train_loop (lk : loss_kind) (acc : list (option Q) * P) (bl : list Bt) : result (list (option Q) * P) :=
  match bl with
  | [] => Ok acc
  | b :: r => let* acc' := train_batch lk acc b in train_loop lk acc' r
  end.
Definition train (task : string) (p : P) (bl : list Bt) : result (list (option Q) * P) :=
  let* lk := loss_of_task task in train_loop lk ([], p) bl.
End Train.

(** The loop over a loader of complexes (batches are collated up to [max_dim]). *)
Definition train_complexes {P V} (isnan : Z -> bool) (fwd : P -> kbatch V -> result (list (list Q) * P))
  (learn : loss_kind -> P -> list (list Q * Z) -> option Q * P) (max_dim : nat) (task : string) (bs : nat) (p : P)
  (ks : list (complex V)) : result (list (option Q) * P) :=
  let* bl := loader bs ks in
  let* kb := mapM (fun c => from_complex_list c max_dim) bl in
  train num_samples (fun b => k_y (kb_complex b)) isnan fwd learn task p kb.
