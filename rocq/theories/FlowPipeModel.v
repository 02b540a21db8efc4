(** The flow experiments as a whole: data/datasets/flow.py, flow_utils.py [load_flow_dataset] and the
    evaluation of an edge network on batches of edge cochains. *)
From Coq Require Import List Arith ZArith Bool.
From Verif Require Import Base ComplexModel ScatterModel MPModel FlowModel OrientModel InferModel OrientProps.
Import ListNotations.
Open Scope nat_scope.

Section FlowData.
Context {D : Type} (dlt : D -> D -> bool) (dist : nat -> nat -> D).
Context (npoints : nat) (in_start in_end in_bot in_top : nat -> bool).
Context (draw : nat -> nat -> nat) (coin : nat -> bool).
Context (order : list (nat * nat * Z) -> list (nat * nat * Z)).
Context (g : tgraph) (B1 B2 : mat) (tries : nat).

(** flow_utils.py:318-322 and 326-330: the [i]-th of [num] samples.  The class and the orientation
    are arguments of the job and are computed before it; [k i] is the state of the random generators
    of the worker when it starts with the job, [bits i] the signs drawn for its orientation. *)
Definition flow_job (num : nat) (ori : orientation) (bits : nat -> nat -> bool) (k : nat -> nat) (i : nat)
  : option (result (cochain Z)) :=
  match (let* cls := flow_class num i in
         let* T2 := orient_matrix (m_c B1) ori (bits i) in Ok (cls, T2)) with
  | Err e => Some (Err e)
  | Ok (cls, T2) =>
      flow_cochain dlt dist npoints in_start in_end in_bot in_top draw coin order g B1 B2 T2 cls tries (k i)
  end.

(** joblib's Parallel: the results in the order of the jobs.  None: some job does not end within the
    given number of attempts.  The exception of the first failing job stands for that of the run. *)
Fixpoint flow_jobs (num : nat) (ori : orientation) (bits : nat -> nat -> bool) (k : nat -> nat) (is : list nat)
  : option (result (list (cochain Z))) :=
  match is with
  | [] => Some (Ok [])
  | i :: r =>
      match flow_job num ori bits k i with
      | None => None
      | Some (Err e) => Some (Err e)
      | Some (Ok c) =>
          match flow_jobs num ori bits k r with
          | Some (Ok cs) => Some (Ok (c :: cs))
          | q => q
          end
      end
  end.

(** flow_utils.py:316-332 [load_flow_dataset] after the preparation: the training samples, then the
    test samples. *)
Definition flow_splits (ntr nte : nat) (otr ote : orientation) (bits bits' : nat -> nat -> bool) (k k' : nat -> nat)
  : option (result (list (cochain Z) * list (cochain Z))) :=
  match flow_jobs ntr otr bits k (seq 0 ntr) with
  | None => None
  | Some (Err e) => Some (Err e)
  | Some (Ok tr) =>
      match flow_jobs nte ote bits' k' (seq 0 nte) with
      | None => None
      | Some (Err e) => Some (Err e)
      | Some (Ok te) => Some (Ok (tr, te))
      end
  end.

End FlowData.

(** flow.py:26-38 and 48-62, ocean.py:31-44: the samples of a file and the positions of the splits; the flow data
    keep train + val in one file.  torch_geometric calls [process] only if the file is missing. *)
Record flow_ds := mkFlowDs { fd_list : list (cochain Z); fd_train : list nat; fd_val : list nat }.
Definition flow_dataset (stored : option (list (cochain Z))) (made : list (cochain Z) * list (cochain Z))
    (ntr nval : nat) : flow_ds :=
  mkFlowDs (match stored with Some l => l | None => fst made ++ snd made end) (seq 0 ntr) (seq ntr nval).
Definition ocean_dataset (made : list (cochain Z) * list (cochain Z)) : flow_ds :=
  mkFlowDs (fst made ++ snd made) (seq 0 (length (fst made))) (seq (length (fst made)) (length (snd made))).

(** flow.py:43-44: the folder of the file.  The numbers of samples are not part of it. *)
Definition flow_folder (npoints : nat) (otr ote : orientation) (ntr nval : nat) : nat * orientation * orientation :=
  (npoints, otr, ote).

(** dataset.py:101-106, 152-160, 364-372: the samples of a split, read by the loader one by one; a
    position behind the end of the list raises IndexError. *)
Definition flow_items (ids : list nat) (ds : flow_ds) : result (list (cochain Z)) :=
  mapM (fun i => of_option IndexError (nth_error (fd_list ds) i)) ids.

Section Infer.
Context {V : Type} (o : ops V) (sc : Z -> V -> V) (vabs : V -> V) (row : Z -> V).

(** data_loading.py:55-59 (Collater on cochains), then mp/models.py [EdgeOrient] or [EdgeMPNN];
    [row] is the conversion of a flow value to a feature row. *)
Definition edge_predict (m : omodel V) (cs : list (cochain Z)) : result (list V) :=
  let* b := from_cochain_list (map (recast row) cs) in
  let* (out, _) := edge_forward o sc vabs m b in
  Ok (fst out).

(** exp/train_utils.py:77-89 [infer] *)
Definition edge_infer (m : omodel V) (bs : nat) (cs : list (cochain Z)) : result (list V) :=
  let* bl := loader bs cs in
  let* preds := mapM (edge_predict m) bl in
  match preds with
  | [] => Err RuntimeError
  | _ => Ok (concat preds)
  end.

(** The predictions for a split. *)
Definition flow_predictions (m : omodel V) (bs : nat) (ids : list nat) (ds : flow_ds) : result (list V) :=
  let* cs := flow_items ids ds in edge_infer m bs cs.

End Infer.
