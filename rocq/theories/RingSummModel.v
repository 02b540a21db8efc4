(** The summary that exp/run_ring_exp.py prints for each ring size. *)
From Coq Require Import List Arith ZArith QArith.
From Verif Require Import Base ExpModel SummModel.
Import ListNotations.

(** [results[fold].append(v)] on a dictionary with the keys 0, 1, ...: the values in the order of the keys. *)
Fixpoint append_at (d : list (list score)) (fold : nat) (v : score) : result (list (list score)) :=
  match d, fold with
  | [], _ => Err KeyError
  | l :: d, O => Ok ((l ++ [v]) :: d)
  | l :: d, S fold => let* d := append_at d fold v in Ok (l :: d)
  end.

(** exp/run_ring_exp.py:26-41, one seed: [run seed fold] are the curves that [main] returns for the
    arguments of C68_ring; the loop over the ring sizes fills both dictionaries. *)
Fixpoint ring_folds_loop (run : nat -> nat -> result curves) (seed : nat) (folds : list nat)
    (acc : list (list score) * list (list score)) : result (list (list score) * list (list score)) :=
  match folds with
  | [] => Ok acc
  | fold :: folds =>
      let* c := run seed fold in
      let* tr := append_at (fst acc) fold (c_last_train c) in
      let* va := append_at (snd acc) fold (c_last_val c) in
      ring_folds_loop run seed folds (tr, va)
  end.

(** line 23: the loop over the seeds. *)
Fixpoint ring_seeds_loop (run : nat -> nat -> result curves) (nfolds : nat) (seeds : list nat)
    (acc : list (list score) * list (list score)) : result (list (list score) * list (list score)) :=
  match seeds with
  | [] => Ok acc
  | seed :: seeds =>
      let* acc := ring_folds_loop run seed (seq 0 nfolds) acc in
      ring_seeds_loop run nfolds seeds acc
  end.

(** One printed line: ring size, mean and the square of the deviation (ddof = 0). *)
Record ring_line := mkLine { r_size : Z; r_mean : option Q; r_var : option Q }.

(** lines 49-52 and 56-59. *)
Definition ring_lines (sizes : list Z) (d : list (list score)) : list ring_line :=
  map (fun sl => mkLine (fst sl) (np_mean (snd sl)) (np_var 0 (snd sl))) (combine sizes d).

(** lines 21-59: the lines under "Train" and the lines under "Test". *)
Definition ring_summary (sizes : list Z) (run : nat -> nat -> result curves) (start stop : nat)
    : result (list ring_line * list ring_line) :=
  let empty := map (fun _ => []) (seq 0 (length sizes)) in
  let* (tr, va) := ring_seeds_loop run (length sizes) (seq start (stop + 1 - start)) (empty, empty) in
  Ok (ring_lines sizes tr, ring_lines sizes va).
