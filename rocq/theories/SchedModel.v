(** Learning-rate schedules and early stopping.  exp/run_exp.py:342-358, 368-421. *)
From Coq Require Import List Arith Lia ZArith QArith Qround Bool.
From Verif Require Import Base LiftModel ExpModel.
Import ListNotations.
Open Scope nat_scope.

(** [a < b] on floats; as in ExpModel finite floats are rationals and arithmetic is exact. *)
Definition Qltb (a b : Q) : bool := negb (Qle_bool b a).

(** exp/run_exp.py:345-358: args.lr_scheduler with its parameters. *)
Inductive scheduler :=
| Plateau (factor patience : Q)        (* 'ReduceLROnPlateau': decay_rate, patience (a float) *)
| StepLR (steps : Z) (gamma : Q)       (* 'StepLR': decay_steps, decay_rate *)
| NoScheduler.                         (* 'None' *)

(** [s_lr]: optimizer.param_groups[0]['lr']; [s_best], [s_bad]: best and num_bad_epochs of
    ReduceLROnPlateau (best None: still infinite); [s_last]: last_epoch of StepLR. *)
Record sched_state := mkSched { s_lr : Q; s_best : option Q; s_bad : nat; s_last : nat }.

(** torch.optim.lr_scheduler.ReduceLROnPlateau: a factor of 1 or more is refused. *)
Definition make_scheduler (s : scheduler) (lr : Q) : result sched_state :=
  match s with
  | Plateau factor _ => if Qle_bool 1 factor then Err ValueError else Ok (mkSched lr None 0 0)
  | _ => Ok (mkSched lr None 0 0)
  end.

(** ReduceLROnPlateau.is_better with the defaults threshold=1e-4, threshold_mode='rel'.  A NaN
    compares false; everything finite beats the initial infinity. *)
Definition threshold : Q := 1 # 10000.
Definition is_better (minimize : bool) (a : score) (best : option Q) : bool :=
  match a, best with
  | None, _ => false
  | Some _, None => true
  | Some v, Some b => if minimize then Qltb v (b * (1 - threshold))%Q else Qltb (b * (threshold + 1))%Q v
  end.

(** ReduceLROnPlateau._reduce_lr with the defaults min_lr=0, eps=1e-8. *)
Definition reduce_eps : Q := 1 # 100000000.
Definition reduce_lr (factor lr : Q) : Q :=
  let new := (if Qle_bool (lr * factor) 0 then 0 else lr * factor)%Q in
  if Qltb reduce_eps (lr - new)%Q then new else lr.

(** ReduceLROnPlateau.step with the default cooldown=0. *)
Definition plateau_step (minimize : bool) (factor patience : Q) (metric : score) (st : sched_state) : sched_state :=
  let better := is_better minimize metric (s_best st) in
  let best := if better then metric else s_best st in
  let bad := if better then 0 else S (s_bad st) in
  if Qltb patience (inject_Z (Z.of_nat bad))
  then mkSched (reduce_lr factor (s_lr st)) best 0 (s_last st)
  else mkSched (s_lr st) best bad (s_last st).

(** StepLR.step; the constructor has already counted epoch 0. *)
Definition step_lr (steps : Z) (gamma : Q) (st : sched_state) : result sched_state :=
  let last := S (s_last st) in
  if Z.eqb steps 0 then Err ZeroDivisionError else
  Ok (mkSched (if Z.eqb (Z.of_nat last mod steps) 0 then (s_lr st * gamma)%Q else s_lr st) (s_best st) (s_bad st) last).

(** exp/run_exp.py:398-408: the step after an epoch; the second component tells whether to break. *)
Definition decay (s : scheduler) (minimize early_stop : bool) (lr_min : Q) (metric : score) (st : sched_state)
  : result (sched_state * bool) :=
  match s with
  | Plateau factor patience =>
      let st' := plateau_step minimize factor patience metric st in
      Ok (st', early_stop && Qltb (s_lr st') lr_min)
  | StepLR steps gamma => let* st' := step_lr steps gamma st in Ok (st', false)
  | NoScheduler => Ok (st, false)
  end.

(** exp/run_exp.py:368-421 as ExpModel.epoch_loop, with the scheduler; [rates] are the learning rates the epochs
    were trained with. *)
Fixpoint sched_loop (s : scheduler) (lr_min : Q) (a : run_args) (h : history) (left epoch : nat) (st : loop_state)
    (sc : sched_state) (rates : list Q) : result (loop_state * nat * list Q) :=
  match left with
  | 0 => Ok (st, epoch - 1, rates)
  | S left' =>
      let rates := rates ++ [s_lr sc] in
      let* due := (if epoch =? 1 then Ok true else
                   let* m := py_mod epoch (r_period a) in Ok (m =? 0)) in
      let perf := if due then Some (h_train h epoch) else l_perf st in
      let* t := of_option NameError perf in
      let test_perf := match h_test h with Some f => f epoch | None => None end in
      let st' := mkLoop (l_train st ++ [t]) (l_val st ++ [h_val h epoch])
                        (l_test st ++ [test_perf]) perf in
      let* (sc', stop) := decay s (r_minimize a) (r_early_stop a) lr_min (h_val h epoch) sc in
      if stop then Ok (st', epoch, rates)
      else
        let* _ := py_mod epoch (r_period a) in
        sched_loop s lr_min a h left' (S epoch) st' sc' rates
  end.

(** exp/run_exp.py:342-452 as ExpModel.main. *)
Definition sched_main (s : scheduler) (lr lr_min : Q) (a : run_args) (h : history) : result (curves * list Q) :=
  let* sc := make_scheduler s lr in
  let* (st, last, best, rates) :=
    (if r_untrained a then Ok (mkLoop [None] [None] [None] None, 0, 0, [])
     else
       let* (st, last, rates) := sched_loop s lr_min a h (r_epochs a) 1 (mkLoop [] [] [] None) sc [] in
       let* best := (if r_minimize a then np_argmin (l_val st) else np_argmax (l_val st)) in
       Ok (st, last, best, rates)) in
  let lt := if r_sr a then None else h_train h last in
  let lv := if r_sr a then None else h_val h last in
  let ls := match h_test h with Some f => f last | None => None end in
  Ok (mkCurves (l_train st) (l_val st) (l_test st) lt lv ls best, rates).

(** A run of ExpModel.main (C44) with a given scheduler flag and given stopping epochs. *)
Definition with_plateau (b : bool) (a : run_args) : run_args :=
  mkRun (r_epochs a) (r_period a) (r_minimize a) (r_untrained a) (r_early_stop a) b (r_sr a).
Definition with_low (low : nat -> bool) (h : history) : history := mkHistory (h_train h) (h_val h) (h_test h) low.
