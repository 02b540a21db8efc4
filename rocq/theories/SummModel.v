(** The summaries that the experiment scripts print over seeds and folds. *)
From Coq Require Import List Arith Lia ZArith QArith Bool.
From Verif Require Import Base ExpModel.
Import ListNotations.

(** Standard deviations are represented by their squares. *)

(** The numbers of an array without NaN. *)
Fixpoint all_some (l : list (option Q)) : option (list Q) :=
  match l with
  | [] => Some []
  | Some q :: l => match all_some l with Some qs => Some (q :: qs) | None => None end
  | None :: _ => None
  end.

Definition nq (n : nat) : Q := inject_Z (Z.of_nat n).
Definition sumq (l : list Q) : Q := fold_right Qplus 0%Q l.

(** The square of [np.std(l, ddof)] (exp/run_mol_exp.py:56-60, exp/run_sr_exp.py:91, exp/run_tu_exp.py:39): NaN if there is a NaN or nothing to divide by. *)
Definition np_var (ddof : nat) (l : list (option Q)) : option Q :=
  match all_some l with
  | None => None
  | Some qs =>
      if length qs <=? ddof then None else
      let m := (sumq qs / nq (length qs))%Q in
      Some (sumq (map (fun q => (q - m) * (q - m)) qs) / (nq (length qs) - nq ddof))%Q
  end.

(** [np.min], [np.max] (exp/run_mol_exp.py:61-62,71-72, exp/run_sr_exp.py:92-93, exp/run_tu_exp.py:47): an empty array raises, a NaN wins. *)
Definition np_extreme (pick : Q -> Q -> Q) (l : list (option Q)) : result (option Q) :=
  match l with
  | [] => Err ValueError
  | _ => match all_some l with
         | None => Ok None
         | Some [] => Ok None
         | Some (q :: qs) => Ok (Some (fold_left pick qs q))
         end
  end.
Definition np_min := np_extreme (fun a b => if Qle_bool a b then a else b).
Definition np_max := np_extreme (fun a b => if Qle_bool a b then b else a).

(** [np.median] of a row (exp/run_tu_exp.py:52); NaN if the row has one. *)
Fixpoint insertq (q : Q) (l : list Q) : list Q :=
  match l with [] => [q] | x :: l' => if Qle_bool q x then q :: l else x :: insertq q l' end.
Definition sortq (l : list Q) : list Q := fold_right insertq [] l.
Definition np_median (l : list (option Q)) : option Q :=
  match all_some l with
  | None | Some [] => None
  | Some qs =>
      let s := sortq qs in let n := length s in
      if Nat.even n then Some ((nth (n / 2 - 1) s 0 + nth (n / 2) s 0) / 2)%Q else Some (nth (n / 2) s 0%Q)
  end.

(** ** exp/run_mol_exp.py:54-75: mean and deviation (ddof=1) of the scores at the best and at
    the last epoch; for the test scores also minimum and maximum. *)
Record summary := mkSummary { s_mean : option Q; s_var : option Q; s_min : option Q; s_max : option Q }.

Definition mol_summary (l : list (option Q)) : result summary :=
  let* a := np_min l in let* b := np_max l in
  Ok (mkSummary (np_mean l) (np_var 1 l) a b).

(** lines 46-75: the test scores, at the best epochs and at the last ones. *)
Definition mol_test_report (results : list curves) : result (summary * summary) :=
  let* bests := mapM (fun c => get (c_test c) (c_best c)) results in
  let* b := mol_summary bests in
  let* l := mol_summary (map c_last_test results) in
  Ok (b, l).

(** ** exp/run_sr_exp.py:87-95, one family: [s_var] is the square of the printed StdErr. *)
Definition sr_summary (start stop : nat) (l : list (option Q)) : result summary :=
  let* _ := assert_ (length l =? stop + 1 - start) in
  let err := match np_var 0 l with Some v => Some (v / (nq (length l) * nq (length l)))%Q | None => None end in
  let* a := np_min l in let* b := np_max l in
  Ok (mkSummary (np_mean l) err a b).

(** ** exp/run_tu_exp.py:36-66: the validation curves of the folds. *)
Record tu_summary := mkTu {
  t_best : nat;                     (* best_index *)
  t_mean : option Q;                (* mean_perf *)
  t_var : option Q;                 (* square of std_perf, ddof = 0 *)
  t_means : list (option Q);        (* per fold: mean over the epochs *)
  t_maxs : list (option Q);         (* maximum *)
  t_medians : list (option Q);      (* median *)
  t_at_best : list (option Q)       (* at the best epoch *)
}.

Definition tu_report (rows : list (list (option Q))) : result tu_summary :=
  let* avg := avg_curve rows in
  let* best := np_argmax avg in
  let* m := get avg best in
  let* maxs := mapM np_max rows in
  Ok (mkTu best m (np_var 0 (column rows best)) (map np_mean rows) maxs (map np_median rows) (column rows best)).
