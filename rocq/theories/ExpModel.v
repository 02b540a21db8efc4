(** The experiment scripts: training loop and model selection, aggregation over seeds and folds,
    the isomorphism metric, the tuning grid, ring counting. *)
From Coq Require Import String List Arith Lia ZArith QArith Bool.
From Verif Require Import Base LiftModel.
Import ListNotations.
Open Scope nat_scope.

(** ** Scores *)

(** A floating point score; [None] is NaN.  Simplification: finite floats are rationals and sums
    are exact; infinities are not modelled. *)
Notation score := (option Q) (only parsing).

(** [np.argmax] / [np.argmin]: scan keeping the first best value; the scan stops at the first NaN,
    which it returns.  An empty array raises ValueError.  [better q b]: [q] replaces [b]. *)
Fixpoint arg_scan (better : Q -> Q -> bool) (bi : nat) (b : Q) (i : nat) (l : list score) : nat :=
  match l with
  | [] => bi
  | None :: _ => i
  | Some q :: l' => if better q b then arg_scan better i q (S i) l' else arg_scan better bi b (S i) l'
  end.

Definition np_arg (better : Q -> Q -> bool) (l : list score) : result nat :=
  match l with
  | [] => Err ValueError
  | None :: _ => Ok 0
  | Some q :: l' => Ok (arg_scan better 0 q 1 l')
  end.

Definition np_argmax := np_arg (fun q b => negb (Qle_bool q b)).
Definition np_argmin := np_arg (fun q b => negb (Qle_bool b q)).

(** ** exp/run_exp.py: main, lines 360-477 *)

(** The arguments read by the loop (exp/parser.py). *)
Record run_args := mkRun {
  r_epochs : nat;
  r_period : nat;        (* --train_eval_period *)
  r_minimize : bool;
  r_untrained : bool;
  r_early_stop : bool;   (* --early_stop, effective with ReduceLROnPlateau only *)
  r_plateau : bool;      (* args.lr_scheduler == 'ReduceLROnPlateau' *)
  r_sr : bool            (* args.dataset.startswith('sr') *)
}.

(** What training produces: [h_train e] is the result of [eval] on the train loader with the
    parameters after [e] epochs ([e] = 0: before training), and so on; [h_test] is None when
    there is no test loader; [h_low_lr e]: after the scheduler step of epoch [e] the learning rate
    is below args.lr_scheduler_min.  All are arbitrary. *)
Record history := mkHistory {
  h_train : nat -> score;
  h_val : nat -> score;
  h_test : option (nat -> score);
  h_low_lr : nat -> bool
}.

Record loop_state := mkLoop {
  l_train : list score; l_val : list score; l_test : list score;
  l_perf : option score   (* the variable train_perf; None: not yet assigned *)
}.

(** [epoch % period] for a period given on the command line. *)
Definition py_mod (e period : nat) : result nat :=
  if period =? 0 then Err ZeroDivisionError else Ok (e mod period).

(** lines 368-421; [left] epochs remain.  Returns the curves and the last executed epoch.
    Not modelled: printing, the loss curve, the parameter statistics (412-421) apart from the
    modulo on line 410. *)
Fixpoint epoch_loop (a : run_args) (h : history) (left epoch : nat) (st : loop_state)
  : result (loop_state * nat) :=
  match left with
  | 0 => Ok (st, epoch - 1)
  | S left' =>
      let* due := (if epoch =? 1 then Ok true else
                   let* m := py_mod epoch (r_period a) in Ok (m =? 0)) in
      let perf := if due then Some (h_train h epoch) else l_perf st in
      let* t := of_option NameError perf in
      let test_perf := match h_test h with Some f => f epoch | None => None end in
      let st' := mkLoop (l_train st ++ [t]) (l_val st ++ [h_val h epoch])
                        (l_test st ++ [test_perf]) perf in
      if r_plateau a && r_early_stop a && h_low_lr h epoch then Ok (st', epoch)
      else
        let* _ := py_mod epoch (r_period a) in
        epoch_loop a h left' (S epoch) st'
  end.

Record curves := mkCurves {
  c_train : list score; c_val : list score; c_test : list score;
  c_last_train : score; c_last_val : score; c_last_test : score;
  c_best : nat
}.

(** lines 360-452; the final evaluations use the parameters after the last executed epoch. *)
Definition main (a : run_args) (h : history) : result curves :=
  let* (st, last, best) :=
    (if r_untrained a then Ok (mkLoop [None] [None] [None] None, 0, 0)
     else
       let* (st, last) := epoch_loop a h (r_epochs a) 1 (mkLoop [] [] [] None) in
       let* best := (if r_minimize a then np_argmin (l_val st) else np_argmax (l_val st)) in
       Ok (st, last, best)) in
  let lt := if r_sr a then None else h_train h last in
  let lv := if r_sr a then None else h_val h last in
  let ls := match h_test h with Some f => f last | None => None end in
  Ok (mkCurves (l_train st) (l_val st) (l_test st) lt lv ls best).

(** lines 454-467: the numbers printed under "Best epoch". *)
Definition report (c : curves) : result (score * score * score) :=
  let* t := get (c_train c) (c_best c) in
  let* v := get (c_val c) (c_best c) in
  let* s := get (c_test c) (c_best c) in
  Ok (t, v, s).

(** ** exp/run_mol_exp.py: exp_main, lines 17-59 *)

(** lines 21-35: the runs, in order.  [folds] = None when --folds is not given. *)
Definition mol_runs (start_seed stop_seed : nat) (folds : option nat) (csl : bool)
  : result (list (nat * option nat)) :=
  let* _ := assert_ (start_seed <=? stop_seed) in
  let seeds := seq start_seed (stop_seed + 1 - start_seed) in
  match folds with
  | None => Ok (map (fun s => (s, None)) seeds)
  | Some n =>
      let* _ := assert_ csl in
      Ok (map (fun sf => (fst sf, Some (snd sf))) (list_prod seeds (seq 0 n)))
  end.

(** lines 38-53: [results[i]] read at its own best epoch. *)
Definition mol_best (results : list curves) : result (list (score * score * score)) :=
  mapM (fun c => let* t := get (c_train c) (c_best c) in
                 let* v := get (c_val c) (c_best c) in
                 let* s := get (c_test c) (c_best c) in Ok (t, v, s)) results.

(** [np.mean]: NaN if a value is NaN; the mean of nothing is NaN. *)
Fixpoint nan_sum (l : list score) : score :=
  match l with
  | [] => Some 0%Q
  | x :: l' => match x, nan_sum l' with Some a, Some b => Some (a + b)%Q | _, _ => None end
  end.

Definition np_mean (l : list score) : score :=
  match l with
  | [] => None
  | _ => match nan_sum l with
         | Some q => Some (q / inject_Z (Z.of_nat (List.length l)))%Q | None => None end
  end.

Definition mol_exp (start_seed stop_seed : nat) (folds : option nat) (csl : bool)
  (run : nat * option nat -> result curves) : result (score * score * score) :=
  let* rs := mol_runs start_seed stop_seed folds csl in
  let* results := mapM run rs in
  let* bests := mol_best results in
  Ok (np_mean (map (fun b => fst (fst b)) bests), np_mean (map (fun b => snd (fst b)) bests),
      np_mean (map snd bests)).

(** ** exp/run_tu_exp.py: exp_main, lines 28-40 *)

(** Column [e] of the array of curves. *)
Definition column (rows : list (list score)) (e : nat) : list score :=
  map (fun r => nth e r None) rows.

(** lines 37-40: [np.asarray(curves).mean(axis=0)].  Curves of different lengths make an array of
    Python lists, whose mean adds the lists and then divides a list by an int: TypeError. *)
Definition avg_curve (rows : list (list score)) : result (list score) :=
  match rows with
  | [] => Err TypeError
  | r :: rows' =>
      if forallb (fun r' => List.length r' =? List.length r) rows'
      then Ok (map (fun e => np_mean (column rows e)) (seq 0 (List.length r)))
      else Err TypeError
  end.

(** Returns (best_index, mean_perf). *)
Definition tu_exp (folds : nat) (run : nat -> result curves) : result (nat * score) :=
  let* results := mapM run (seq 0 folds) in
  let* avg := avg_curve (map c_val results) in
  let* best := np_argmax avg in
  let* m := get avg best in
  Ok (best, m).

(** ** exp/train_utils.py: Evaluator._isomorphism, lines 170-179 *)

(** [torch.pdist]: the distances of rows (0,1), (0,2), ..., (1,2), ... *)
Fixpoint row_pairs {A} (l : list A) : list (A * A) :=
  match l with
  | [] => []
  | a :: l' => map (fun b => (a, b)) l' ++ row_pairs l'
  end.

(** [d < eps]; NaN compares false. *)
Definition below (eps : Q) (d : score) : bool :=
  match d with Some q => negb (Qle_bool eps q) | None => false end.

(** [dist] is the p-norm distance of two rows, arbitrary here; [f64]: preds.dtype == np.float64. *)
Definition isomorphism_metric {A} (dist : A -> A -> score) (eps : Q) (f64 : bool) (preds : list A)
  : result Q :=
  let* _ := assert_ f64 in
  let mm := map (fun ab => dist (fst ab) (snd ab)) (row_pairs preds) in
  let wrong := List.length (filter (below eps) mm) in
  match List.length mm with
  | 0 => Err ZeroDivisionError
  | S n => Ok (Z.of_nat wrong # Pos.of_succ_nat n)%Q
  end.

(** ** exp/run_tu_tuning.py, lines 12-56; exp/prepare_tu_tuning.py *)

Definition max_devices : nat := 8.

(** [itertools.product]. *)
Fixpoint product {A} (vs : list (list A)) : list (list A) :=
  match vs with
  | [] => [[]]
  | v :: vs' => flat_map (fun x => map (cons x) (product vs')) v
  end.

Definition enumerate {A} (l : list A) : list (nat * A) := combine (seq 0 (List.length l)) l.

(** The yaml configuration: its keys in file order.  Simplification: the value of every key but
    'dataset' is a list, and the value of 'dataset' (a string) is kept apart. *)
Definition conf := list (string * list string).

(** lines 25-30. *)
Definition hypers (c : conf) : conf := filter (fun kv => negb (String.eqb (fst kv) "dataset")) c.

(** lines 31-35: the combinations given to device [idx] with their numbers. *)
Definition exp_queue {A} (idx : Z) (grid : list A) : list (nat * A) :=
  filter (fun hx => Z.eqb (Z.of_nat (fst hx) mod Z.of_nat max_devices) (idx mod Z.of_nat max_devices))
         (enumerate grid).

(** lines 45-55: number of the experiment (--exp_name) and the (name, value) arguments. *)
Definition tuning_runs (c : conf) (idx : Z) : list (nat * list (string * string)) :=
  map (fun hx => (fst hx, combine (map fst (hypers c)) (snd hx)))
      (exp_queue idx (product (map snd (hypers c)))).

(** [conf[key]] *)
Definition conf_get (c : conf) (key : string) : result (list string) :=
  of_option KeyError (option_map snd (find (fun kv => String.eqb (fst kv) key) c)).

(** prepare_tu_tuning.py lines 14-24: the (max_dim, max_ring_size, init_method) datasets built. *)
Definition prepared (c : conf) : result (list (string * string * string)) :=
  let* dims := conf_get c "max_dim" in
  let* rings := conf_get c "max_ring_size" in
  let* inits := conf_get c "init_method" in
  Ok (flat_map (fun d => flat_map (fun r => map (fun i => (d, r, i)) inits) rings) dims).

(** ** exp/count_rings.py *)

(** A dict from ring sizes to values. *)
Definition dict A := list (nat * A).

(** [d[k] = f(d[k])], KeyError for a missing key. *)
Fixpoint dict_upd {A} (d : dict A) (k : nat) (f : A -> A) : result (dict A) :=
  match d with
  | [] => Err KeyError
  | (k', v) :: d' => if k' =? k then Ok ((k', f v) :: d')
                     else let* r := dict_upd d' k f in Ok ((k', v) :: r)
  end.
Definition dict_get {A} (d : dict A) (k : nat) : result A :=
  of_option KeyError (option_map snd (find (fun kv => fst kv =? k) d)).

(** get_ring_count_for_graph, lines 19-25; [rings] is the result of get_rings. *)
Definition ring_count (rings : list cell) (keys : list nat) : result (dict nat) :=
  foldM (fun d ring => dict_upd d (List.length ring) S) (map (fun k => (k, 0)) keys) rings.

(** combine_all_cards, lines 28-35. *)
Definition combine_all_cards (cards : list (dict nat)) : result (dict (list nat)) :=
  let* c0 := get cards 0 in
  let keys := map fst c0 in
  foldM (fun acc card =>
           foldM (fun acc k => let* v := dict_get card k in dict_upd acc k (fun l => l ++ [v])) acc keys)
        (map (fun k => (k, [])) keys) cards.

(** get_ring_counts, lines 38-50; joblib returns the results in the order of the inputs.  [isos g]
    and [set_order] as in get_rings. *)
Definition get_ring_counts {G} (isos : G -> nat -> list cell) (set_order : list cell -> list cell)
  (graphs : list G) (max_ring : nat) : result (dict (list nat)) :=
  let keys := seq 3 (max_ring + 1 - 3) in
  let* cards := mapM (fun g => ring_count (get_rings (isos g) set_order max_ring) keys) graphs in
  combine_all_cards cards.

(** combine_all_counts, lines 53-63. *)
Definition combine_all_counts (stats : list (dict (list nat))) : result (dict (list nat)) :=
  let* s0 := get stats 0 in
  foldM (fun acc stat => foldM (fun acc kv => dict_upd acc (fst kv) (fun l => l ++ snd kv)) acc stat)
        (map (fun k => (k, [])) (map fst s0)) stats.
