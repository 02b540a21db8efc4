(** The preparation of the strongly regular graphs (exp/prepare_sr_tests.py, data/sr_utils.py, data/datasets/sr.py) and the test
    that is to make sure that the experiments on them are sound (exp/test_sr.py). *)
From Coq Require Import String List Arith ZArith Bool.
From Verif Require Import Base ScatterModel ComplexModel MPModel LiftModel PermModel DatasetModel CacheModel.
Import ListNotations.
Open Scope string_scope.
Open Scope nat_scope.
Open Scope list_scope.

Section SelfIso.
Context {V : Type} (o : ops V) (veqb : V -> V -> bool) (width : V -> nat).
Variables (lib : list (list nat) -> simplex_tree) (isos : list (nat * nat) -> nat -> list (list nat)) (set_order : list (list nat) -> list (list nat)).
(** [torch.ones(1)]; the reduction that the name of an init_method stands for. *)
Variables (one : V) (reduction : string -> reduce).
(** Multiplication of a row by a number and the order of scipy's entries (PermModel). *)
Variables (smul : Z -> V -> V) (coo_order : list (nat * nat) -> list (nat * nat)).
(** The successive permutations of [n] drawn by [np.random.RandomState(seed)]. *)
Variable draws : nat -> nat -> list (list nat).

(** The files below datasets/SR_graphs: raw/{name}.g6 as networkx reads it (number of nodes, edges), raw/{name}.pkl
    (edge_index and number of nodes per graph), and the processed files by path. *)
Record store := mkStore {
  st_g6 : string -> option (list (nat * list (nat * nat)));
  st_pkl : string -> option (list (list (nat * nat) * nat));
  st_done : string -> option (collated V)
}.
Definition put {A} (f : string -> option A) (name : string) (a : A) : string -> option A :=
  fun n => if String.eqb n name then Some a else f n.

(** torch_geometric [to_undirected]: both directions of every edge, coalesced (sorted by row, then column, without
    repetitions). *)
Definition same_pair (p q : nat * nat) : bool := (fst p =? fst q) && (snd p =? snd q).
Definition to_undirected (edges : list (nat * nat)) : list (nat * nat) :=
  let all := edges ++ map (fun e => (snd e, fst e)) edges in
  let n := S (list_max (map fst all)) in
  filter (fun p => existsb (same_pair p) all) (list_prod (seq 0 n) (seq 0 n)).
(** data/sr_utils.py:6-15.  The tensor of an empty list of edges has one dimension and cannot be transposed. *)
Definition load_sr_dataset (nx_graphs : list (nat * list (nat * nat))) : result (list (list (nat * nat) * nat)) :=
  mapM (fun g => match snd g with [] => Err IndexError | _ => Ok (to_undirected (snd g), fst g) end) nx_graphs.
(** data/datasets/sr.py:23-43.  A missing file raises an exception, here KeyError. *)
Definition load_sr_graph_dataset (s : store) (name : string) (prefer_pkl : bool) : result (list (graph V)) :=
  let* data := match (if prefer_pkl then st_pkl s name else None) with
               | Some d => Ok d
               | None => match st_g6 s name with Some l => load_sr_dataset l | None => Err KeyError end
               end in
  Ok (map (fun d => mkGraph (repeat one (snd d)) (fst d) None (snd d) None) data).

(** data/datasets/sr.py:46-110 with max_dim=2 and max_ring_size given, data/data_loading.py:116-119: the processed file is
    read if there is one, otherwise made.  [convert_with_rings] returns the dimension plus one. *)
Definition sr_file (name : string) (max_dim : nat) (ring : nat) (init : string) : string :=
  sr_path (mkSR name max_dim init false (Some ring)).
Definition sr_dataset (co : collated V) (max_dim : nat) : dataset V :=
  let ids := Some (seq 0 (co_len co)) in mkDataset max_dim (Some co) None ids ids ids None.
Definition load_sr (s : store) (name : string) (ring : nat) (init : string) : result (dataset V * store) :=
  let* _ := assert_ (3 <? ring) in
  match st_done s (sr_file name 2 ring init) with
  | Some co => Ok (sr_dataset co 2, s)
  | None =>
      let* graphs := load_sr_graph_dataset s name true in
      let* r := convert_with_rings o veqb width lib isos set_order (reduction init) graphs ring false true true in
      let '(complexes, dim, _) := r in
      let* _ := assert_ (dim <=? 3) in
      let* co := collate complexes (pred dim) in
      Ok (sr_dataset co (pred dim), mkStore (st_g6 s) (st_pkl s) (put (st_done s) (sr_file name (pred dim) ring init) co))
  end.

(** exp/prepare_sr_tests.py:21-34 *)
Definition permuted_name (family : string) (seed : nat) : string := (family ++ "p" ++ dec seed)%string.
Definition permute_one (seed : nat) (g : graph V) : result (list (nat * nat) * nat) :=
  let* Ps := generate_permutation_matrices (draws seed (g_n g)) (g_n g) 1 in
  match Ps with
  | Some (P :: _) => let* g' := permute_graph o smul coo_order g P in Ok (g_edges g', g_n g')
  | _ => Err RuntimeError (* the draws do not suffice: the loop would go on *)
  end.
Definition prepare (s : store) (family : string) (ring : nat) (permute : bool) (init : string) (seed : nat) : result store :=
  let* r := load_sr s family ring init in
  if permute then
    let* graphs := load_sr_graph_dataset (snd r) family false in
    let* dumped := mapM (permute_one seed) graphs in
    let name := permuted_name family seed in
    let* r' := load_sr (mkStore (st_g6 (snd r)) (put (st_pkl (snd r)) name dumped) (st_done (snd r))) name ring init in
    Ok (snd r')
  else Ok (snd r).

(** exp/test_sr.py:54-77, exp/evaluate_sr_cwn_emb_mag.py:46-69: the batches of a data loader in order.  Making features
    double keeps their values but needs the cochains 0, 1, 2 and their features. *)
Definition double_x (b : kbatch V) (d : nat) : result unit :=
  match nth_error (k_cochains (kb_complex b)) d with
  | Some c => match c_x c with Some _ => Ok tt | None => Err AttributeError end
  | None => Err AttributeError
  end.
Fixpoint batches_of {A} (fuel size : nat) (l : list A) : list (list A) :=
  match fuel, l with
  | 0, _ | _, [] => []
  | S f, _ => firstn size l :: batches_of f size (skipn size l)
  end.
Definition embed_batch (forward : kbatch V -> result (list V)) (ks : list (complex V)) : result (list V) :=
  let* b := from_complex_list ks 2 in
  let* _ := double_x b 0 in let* _ := double_x b 1 in let* _ := double_x b 2 in
  forward b.
Definition embeddings (forward : kbatch V -> result (list V)) (batch_size : nat) (ds : dataset V) : result (list V) :=
  let* n := ds_len ds in
  let* ks := mapM (fun r => r) (fst (ds_gets ds (seq 0 n))) in
  let* outs := mapM (embed_batch forward) (batches_of n batch_size ks) in
  Ok (List.concat outs).

(** exp/test_sr.py:9-87 for one family and one seed of the weights ([forward]); [close] is [dist <= eps]. *)
Definition self_isomorphism (close : V -> V -> bool) (forward : kbatch V -> result (list V)) (s : store) (family : string) (ring : nat) (init : string) (seed : nat)
  : result (list V * list V * store) :=
  let* s1 := prepare s family ring true init seed in
  let* r := load_sr s1 family ring init in
  let* r' := load_sr (snd r) (permuted_name family seed) ring init in
  let* e := embeddings forward 8 (fst r) in
  let* e' := embeddings forward 8 (fst r') in
  let* _ := assert_ (length e =? length e') in
  let* _ := assert_ (forallb (fun p => close (fst p) (snd p)) (combine e e')) in
  Ok (e, e', snd r').

(** exp/evaluate_sr_cwn_emb_mag.py:23-69, 71-97: the heading and the name of the result file, and the magnitudes it lists, for
    every family and the seeds 0 to 4 of the weights; [compute_embeddings] is not given max_ring_size and sets it to 6. *)
Definition magnitudes (forward : nat -> kbatch V -> result (list V)) (magnitude : list V -> V) (s : store) (families : list string) (baseline : bool) (ring : nat)
  : result (string * string * list V) :=
  let* _ := assert_ (3 <? ring) in
  let* r := foldM (fun acc p =>
      let* s1 := prepare (fst acc) (fst p) 6 false "sum" 0 in
      let* r := load_sr s1 (fst p) 6 "sum" in
      let* e := embeddings (forward (snd p)) 8 (fst r) in
      Ok (snd r, snd acc ++ [magnitude e])) (s, []) (list_prod families (seq 0 5)) in
  Ok (("Model: " ++ (if baseline then "MLP-sum" else "CIN") ++ "(" ++ dec ring ++ ")")%string,
      ((if baseline then "sr-base-" else "sr-") ++ dec ring ++ ".txt")%string, snd r).
End SelfIso.
Arguments store V : clear implicits.
