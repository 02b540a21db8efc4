(** Evaluation of a network over a data loader: data/data_loading.py and exp/train_utils.py. *)
From Coq Require Import List Arith Lia ZArith QArith Bool.
From Verif Require Import Base ComplexModel DatasetModel ExpModel.
Import ListNotations.
Open Scope nat_scope.

(** ** data/data_loading.py: DataLoader, lines 84-111 *)

(** torch.utils.data.DataLoader groups the indices handed out by its sampler into batches of
    [batch_size], the last one possibly smaller (drop_last=False).  The order of the indices is the
    order of the list: 0, 1, ... without shuffling, an arbitrary permutation with it.
    batch_size = 0 raises ValueError. *)
Fixpoint chunks {A} (fuel bs : nat) (l : list A) : list (list A) :=
  match fuel, l with
  | _, [] => []
  | 0, _ => []
  | S f, _ => firstn bs l :: chunks f bs (skipn bs l)
  end.
Definition loader {A} (bs : nat) (l : list A) : result (list (list A)) :=
  if bs =? 0 then Err ValueError else Ok (chunks (length l) bs l).

Section Infer.
Context {V : Type}.
Variable fwd : kbatch V -> result (list V * kbatch V).   (* model(batch) in evaluation mode *)
Variable max_dim : nat.                                    (* of the Collater *)

(** Collater.collate on complexes (line 60), then the model. *)
Definition predict (ks : list (complex V)) : result (list V * option (list Z)) :=
  let* b := from_complex_list ks max_dim in
  let* (out, _) := fwd b in
  Ok (out, k_y (kb_complex b)).

(** exp/train_utils.py: infer, lines 77-89; [torch.cat] of an empty list raises. *)
Definition infer (bs : nat) (ks : list (complex V)) : result (list V) :=
  let* bl := loader bs ks in
  let* preds := mapM predict bl in
  match preds with
  | [] => Err RuntimeError
  | _ => Ok (concat (map fst preds))
  end.

(** The same reading the complexes from a stored dataset, batch by batch (the cache of the dataset
    is threaded through). *)
Fixpoint load_batches (ds : dataset V) (bl : list (list nat)) : result (list (list (complex V))) :=
  match bl with
  | [] => Ok []
  | idxs :: r =>
      let (rs, ds') := ds_gets ds idxs in
      let* ks := mapM (fun x => x) rs in
      let* rest := load_batches ds' r in
      Ok (ks :: rest)
  end.
Definition infer_dataset (bs : nat) (ds : dataset V) (order : list nat) : result (list V) :=
  let* bl := loader bs order in
  let* kss := load_batches ds bl in
  let* preds := mapM predict kss in
  match preds with
  | [] => Err RuntimeError
  | _ => Ok (concat (map fst preds))
  end.

(** exp/train_utils.py: eval, lines 92-144, for a task with labels: predictions and labels batch
    by batch; a batch without labels raises (None.view).  [loss_fn] is arbitrary (it includes the
    masking of missing targets).  Returns the predictions, the labels and the mean of the losses.
    Not modelled: the cast to double precision (114-118). *)
Variable loss_fn : list V -> list Z -> option Q.
Definition eval_batch (ks : list (complex V)) : result (list V * list Z * option Q) :=
  let* (out, y) := predict ks in
  let* y := of_option AttributeError y in
  Ok (out, y, loss_fn out y).
Definition eval_loader (bs : nat) (ks : list (complex V)) : result (list V * list Z * option Q) :=
  let* bl := loader bs ks in
  let* rs := mapM eval_batch bl in
  match rs with
  | [] => Err RuntimeError
  | _ => Ok (concat (map (fun r => fst (fst r)) rs), concat (map (fun r => snd (fst r)) rs),
             np_mean (map snd rs))
  end.
End Infer.

(** Evaluator._accuracy, lines 181-187: [np.argmax] of a row of scores is [top] (arbitrary).
    sklearn's accuracy_score raises when the lengths differ; of no samples it is NaN (None). *)
Definition accuracy {V} (top : V -> Z) (preds : list V) (ys : list Z) : result (option Q) :=
  if length preds =? length ys then
    Ok (np_mean (map (fun py => Some (if Z.eqb (top (fst py)) (snd py) then 1 else 0)%Q) (combine preds ys)))
  else Err ValueError.
