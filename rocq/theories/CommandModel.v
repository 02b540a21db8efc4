(** Model of the command line and of the scripts that run several experiments: exp/parser.py:8-112
    [get_parser] with Python's argparse, exp/run_tu_exp.py, exp/run_mol_exp.py,
    exp/run_ring_exp.py, exp/run_sr_exp.py.

    Simplifications.  Texts are ASCII.  Whatever argparse cannot read ends the program (SystemExit),
    also the token "--", after which every token is positional (the parser has no positional
    arguments, and the scripts append options).  [int] and [float] are functions of an environment;
    floating-point numbers are rationals. *)
From Coq Require Import String Ascii List ZArith QArith Bool.
From Verif Require Import Base LaunchModel.
Import ListNotations.
Open Scope string_scope.

(** A value in the namespace, and how an option is read ([KInts]: nargs='+', type=int). *)
Inductive val :=
| VNone | VInt (z : Z) | VFloat (q : Q) | VStr (s : string) | VBool (b : bool) | VInts (l : list Z).
Inductive kind := KInt | KFloat | KStr | KChoice (l : list string) | KFlag | KInts | KHelp.

(** Python's [int], [float], ROOT_DIR joined with exp/results, and str(time.time()) when
    [get_parser] was called. *)
Record env := mkEnv {
  e_int : string -> option Z; e_float : string -> option Q; e_results : string; e_now : string }.

(** exp/parser.py:8-112  [get_parser], without the leading dashes. *)
Definition options (e : env) : list (string * (kind * val)) :=
  [("help", (KHelp, VNone));
   ("seed", (KInt, VInt 43)); ("start_seed", (KInt, VInt 0)); ("stop_seed", (KInt, VInt 9));
   ("device", (KInt, VInt 0)); ("model", (KStr, VStr "sparse_cin"));
   ("use_coboundaries", (KStr, VStr "False")); ("include_down_adj", (KFlag, VBool false));
   ("indrop_rate", (KFloat, VFloat 0)); ("drop_rate", (KFloat, VFloat 0));
   ("drop_position", (KStr, VStr "lin2")); ("nonlinearity", (KStr, VStr "relu"));
   ("readout", (KStr, VStr "sum")); ("final_readout", (KStr, VStr "sum"));
   ("readout_dims", (KInts, VInts [0; 1; 2]%Z)); ("jump_mode", (KStr, VNone));
   ("graph_norm", (KChoice ["bn"; "ln"; "id"], VStr "bn")); ("lr", (KFloat, VFloat (1 # 1000)));
   ("lr_scheduler", (KStr, VStr "StepLR")); ("lr_scheduler_decay_steps", (KInt, VInt 50));
   ("lr_scheduler_decay_rate", (KFloat, VFloat (1 # 2)));
   ("lr_scheduler_patience", (KFloat, VFloat 10)); ("lr_scheduler_min", (KFloat, VFloat (1 # 100000)));
   ("num_layers", (KInt, VInt 5)); ("emb_dim", (KInt, VInt 64)); ("batch_size", (KInt, VInt 32));
   ("epochs", (KInt, VInt 100)); ("num_workers", (KInt, VInt 0)); ("dataset", (KStr, VStr "PROTEINS"));
   ("task_type", (KStr, VStr "classification")); ("eval_metric", (KStr, VStr "accuracy"));
   ("iso_eps", (KInt, VFloat (1 # 100))); ("minimize", (KFlag, VBool false));
   ("max_dim", (KInt, VInt 2)); ("max_ring_size", (KInt, VNone));
   ("result_folder", (KStr, VStr (e_results e))); ("exp_name", (KStr, VStr (e_now e)));
   ("dump_curves", (KFlag, VBool false)); ("untrained", (KFlag, VBool false));
   ("fold", (KInt, VNone)); ("folds", (KInt, VNone)); ("init_method", (KStr, VStr "sum"));
   ("train_eval_period", (KInt, VInt 10)); ("tune", (KFlag, VBool false));
   ("flow_points", (KInt, VInt 400)); ("flow_classes", (KInt, VInt 3));
   ("train_orient", (KStr, VStr "default")); ("test_orient", (KStr, VStr "default"));
   ("fully_orient_invar", (KFlag, VBool false)); ("use_edge_features", (KFlag, VBool false));
   ("simple_features", (KFlag, VBool false)); ("early_stop", (KFlag, VBool false));
   ("paraid", (KInt, VInt 0)); ("preproc_jobs", (KInt, VInt 2))].

(** What argparse makes of one token (argparse.py [_parse_optional], [_get_option_tuples]): an argument,
    an option with the text after its "=", or an error (ambiguous, unknown, "--", a request for
    help). *)
Inductive token := TArg | TOpt (name : string) (k : kind) (explicit : option string) | TWrong.

(** [s.split('=', 1)] when there is a "=". *)
Fixpoint split_at (d : ascii) (s : string) : option (string * string) :=
  match s with
  | EmptyString => None
  | String c s' =>
      if Ascii.eqb c d then Some ("", s')
      else match split_at d s' with Some (p, q) => Some (String c p, q) | None => None end
  end.
Definition is_digit (c : ascii) : bool :=
  let n := nat_of_ascii c in (48 <=? n)%nat && (n <=? 57)%nat.
Fixpoint all_digits (s : string) : bool :=
  match s with EmptyString => true | String c s' => is_digit c && all_digits s' end.
(** The regular expression '^-\d+$|^-\d*\.\d+$'. *)
Definition negative_number (s : string) : bool :=
  match s with
  | String c r =>
      Ascii.eqb c "-" &&
      ((negb (r =? "") && all_digits r) ||
       match split_at "." r with
       | Some (p, q) => all_digits p && negb (q =? "") && all_digits q
       | None => false
       end)
  | EmptyString => false
  end.
Definition has (d : ascii) (s : string) : bool := isSome (split_at d s).

Definition exact (e : env) (s : string) : option (string * kind) :=
  match find (fun o => s =? "--" ++ fst o) (options e) with
  | Some (n, (k, _)) => Some (n, k)
  | None => None
  end.
Definition matching (e : env) (p : string) : list (string * kind) :=
  map (fun o => (fst o, fst (snd o))) (filter (fun o => startswith ("--" ++ fst o) p) (options e)).

Definition other (s : string) : token :=
  if negative_number s then TArg else if has " " s then TArg else TWrong.
Definition classify (e : env) (s : string) : token :=
  match s with
  | EmptyString => TArg
  | String c r =>
      if negb (Ascii.eqb c "-") then TArg
      else match exact e s with
      | Some (n, k) => TOpt n k None
      | None =>
          if r =? "" then TArg
          else if s =? "--" then TWrong
          else
            let cut := split_at "=" s in
            let full := match cut with Some (p, x) => match exact e p with
                                                    | Some (n, k) => Some (TOpt n k (Some x))
                                                    | None => None end
                        | None => None end in
            match full with
            | Some t => t
            | None =>
                if startswith s "--" then
                  let (p, x) := match cut with Some (p, x) => (p, Some x) | None => (s, None) end in
                  match matching e p with
                  | [(n, k)] => TOpt n k x
                  | [] => other s
                  | _ => TWrong
                  end
                else if startswith s "-h" then TWrong
                else other s
            end
      end
  end.

(** The namespace, by name of the destination. *)
Definition space := string -> val.
Definition set (ns : space) (n : string) (v : val) : space := fun m => if m =? n then v else ns m.
Definition default (e : env) : space :=
  fun n => match find (fun o => n =? fst o) (options e) with
           | Some (_, (_, v)) => v
           | None => VNone end.

(** argparse.py [_get_value], [_check_value]. *)
Definition convert (e : env) (k : kind) (s : string) : option val :=
  match k with
  | KInt => option_map VInt (e_int e s)
  | KFloat => option_map VFloat (e_float e s)
  | KStr => Some (VStr s)
  | KChoice l => if among s l then Some (VStr s) else None
  | _ => None
  end.

(** argparse.py [_parse_known_args]: what the next token may be. *)
Inductive pending := Idle | Want (n : string) (k : kind) | More (n : string) (l : list Z).

Definition read_token (e : env) (st : space * pending) (s : string) : result (space * pending) :=
  let (ns, p) := st in
  match classify e s with
  | TWrong => Err SystemExit
  | TArg =>
      match p with
      | Idle => Err SystemExit
      | Want n KInts =>
          let* z := of_option SystemExit (e_int e s) in Ok (set ns n (VInts [z]), More n [z])
      | Want n k =>
          let* v := of_option SystemExit (convert e k s) in Ok (set ns n v, Idle)
      | More n l =>
          let* z := of_option SystemExit (e_int e s) in
          Ok (set ns n (VInts (l ++ [z])), More n (l ++ [z]))
      end
  | TOpt n k x =>
      match p with
      | Want _ _ => Err SystemExit
      | _ =>
          match k, x with
          | KHelp, _ => Err SystemExit
          | KFlag, None => Ok (set ns n (VBool true), Idle)
          | KFlag, Some _ => Err SystemExit
          | KInts, Some t => let* z := of_option SystemExit (e_int e t) in Ok (set ns n (VInts [z]), Idle)
          | k, Some t => let* v := of_option SystemExit (convert e k t) in Ok (set ns n v, Idle)
          | k, None => Ok (ns, Want n k)
          end
      end
  end.

Fixpoint read_tokens (e : env) (st : space * pending) (l : list string) : result (space * pending) :=
  match l with
  | [] => Ok st
  | s :: l => let* st := read_token e st s in read_tokens e st l
  end.

(** [parser.parse_args(l)]. *)
Definition parse_args (e : env) (l : list string) : result space :=
  let* (ns, p) := read_tokens e (default e, Idle) l in
  match p with Want _ _ => Err SystemExit | _ => Ok ns end.

Definition as_int (v : val) : Z := match v with VInt z => z | _ => 0 end.
Definition as_str (v : val) : string := match v with VStr s => s | _ => "" end.
Definition str_eqb (v : val) (s : string) : bool := match v with VStr t => t =? s | _ => false end.

(** [range(a, b)]. *)
Definition range (a b : Z) : list Z := map (fun i => (a + Z.of_nat i)%Z) (seq 0 (Z.to_nat (b - a))).

(** exp/run_tu_exp.py:22-34, 76-81: the namespaces [main] is called with, in order. *)
Definition tu_runs (e : env) (l : list string) : result (list space) :=
  let* _ := assert_ (negb (among "fold" l)) in
  let* _ := parse_args e l in
  mapM (fun i => parse_args e (l ++ ["--fold"; show i])) (range 0 10).

(** exp/run_mol_exp.py:12-35, 101-105. *)
Definition mol_script (e : env) (l : list string) : result (list space) :=
  let* _ := assert_ (negb (among "--seed" l)) in
  let* _ := assert_ (negb (among "--fold" l)) in
  let* ns := parse_args e l in
  let first := as_int (ns "start_seed") in
  let last := as_int (ns "stop_seed") in
  let* _ := assert_ (first <=? last)%Z in
  match ns "folds" with
  | VInt k =>
      let* _ := assert_ (str_eqb (ns "dataset") "CSL") in
      mapM (fun sf : Z * Z => parse_args e (l ++ ["--seed"; show (fst sf)] ++ ["--fold"; show (snd sf)]))
           (list_prod (range first (last + 1)) (range 0 k))
  | _ => mapM (fun s => parse_args e (l ++ ["--seed"; show s])) (range first (last + 1))
  end.

(** exp/run_ring_exp.py:10: list(range(10, 32, 2)). *)
Definition ring_sizes : list Z := [10; 12; 14; 16; 18; 20; 22; 24; 26; 28; 30]%Z.

(** exp/run_ring_exp.py:13-38, 70-75. *)
Definition ring_script (e : env) (l : list string) : result (list space) :=
  let* _ := assert_ (negb (among "--fold" l)) in
  let* _ := assert_ (negb (among "--seed" l)) in
  let* ns := parse_args e l in
  let* _ := assert_ (match ns "max_ring_size" with VNone => true | _ => false end) in
  let folds := combine (range 0 (Z.of_nat (List.length ring_sizes))) ring_sizes in
  mapM (fun sf : Z * (Z * Z) =>
          let '(s, (fold, size)) := sf in
          let layers := if str_eqb (ns "model") "ring_sparse_cin" then 3%Z else (size / 2)%Z in
          let* p := parse_args e (l ++ ["--fold"; show fold] ++ ["--max_ring_size"; show size] ++
                                  ["--num_layers"; show layers] ++ ["--seed"; show s]) in
          let* _ := assert_ (match p "num_layers" with VInt z => (z =? layers)%Z | _ => false end) in
          Ok p)
       (list_prod (range (as_int (ns "start_seed")) (as_int (ns "stop_seed") + 1)) folds).

(** exp/run_sr_exp.py:16-37. *)
Definition sr_families : list (string * Z) :=
  [("sr16622", 3); ("sr251256", 4); ("sr261034", 3); ("sr281264", 6); ("sr291467", 4); ("sr351668", 4);
   ("sr351899", 6); ("sr361446", 3); ("sr401224", 3)]%Z.

(** [f'{v}'] of an optional integer. *)
Definition show_val (v : val) : string := match v with VInt z => show z | _ => "None" end.

(** exp/run_sr_exp.py:39-81. *)
Definition sr_script (e : env) (l : list string) : result (list space) :=
  let* _ := assert_ (negb (among "--seed" l)) in
  let* _ := assert_ (negb (among "--dataset" l)) in
  let* _ := assert_ (negb (among "--readout_dims" l)) in
  let* ns := parse_args e l in
  let name := "SR-" ++ as_str (ns "exp_name") in
  let name := if among "--max_ring_size" l then name ++ "-" ++ show_val (ns "max_ring_size") else name in
  let folder := path_join (as_str (ns "result_folder")) name in
  let l := (l ++ ["--result_folder"; folder])%list in
  mapM (fun fs : (string * Z) * Z =>
          let '((family, dim), s) := fs in
          let cur := (l ++ ["--dataset"; family; "--seed"; show s])%list in
          let* (cur, max_dim) :=
            if negb (among "--max_dim" l) then
              if negb (among "--max_ring_size" l) then Ok ((cur ++ ["--max_dim"; show dim])%list, dim)
              else Ok ((cur ++ ["--max_dim"; show 2])%list, 2%Z)
            else
              let* _ := assert_ (negb (among "--max_ring_size" l)) in
              Ok (cur, as_int (ns "max_dim")) in
          parse_args e (cur ++ "--readout_dims" :: map show (range 0 (max_dim + 1))))
       (list_prod sr_families (range (as_int (ns "start_seed")) (as_int (ns "stop_seed") + 1))).

(** The options [main] reads (see LaunchModel), from the namespace. *)
Definition opt_str (v : val) : option string := match v with VStr s => Some s | _ => None end.
Definition opt_int (v : val) : option Z := match v with VInt z => Some z | _ => None end.
Definition as_bool (v : val) : bool := match v with VBool b => b | _ => false end.
Definition args_of (ns : space) : args :=
  mkArgs (as_str (ns "dataset")) (as_str (ns "model")) (as_str (ns "task_type")) (as_str (ns "eval_metric"))
    (as_str (ns "lr_scheduler")) (as_str (ns "graph_norm")) (as_str (ns "nonlinearity"))
    (as_str (ns "readout")) (as_str (ns "final_readout")) (as_str (ns "init_method"))
    (as_str (ns "use_coboundaries")) (as_str (ns "train_orient")) (as_str (ns "test_orient"))
    (opt_str (ns "jump_mode")) (opt_int (ns "fold")) (opt_int (ns "max_ring_size"))
    (Z.to_nat (as_int (ns "max_dim"))) (Z.to_nat (as_int (ns "num_layers")))
    (Z.to_nat (as_int (ns "emb_dim"))) (as_int (ns "seed"))
    (as_str (ns "result_folder")) (as_str (ns "exp_name"))
    (as_bool (ns "include_down_adj")) (as_bool (ns "minimize")) (as_bool (ns "simple_features"))
    (as_bool (ns "untrained")) (as_bool (ns "use_edge_features")) (as_bool (ns "tune"))
    (match ns "drop_rate" with VFloat q => Qeq_bool q 0 | _ => false end).
