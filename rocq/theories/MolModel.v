(** The molecular data sets and CSL from the raw graphs to the evaluation: data/datasets/zinc.py, ogb.py,
    peptides_functional.py, peptides_structural.py, csl.py and the loaders of exp/run_exp.py. *)
From Coq Require Import List Arith ZArith QArith Bool String.
From Verif Require Import Base ScatterModel ComplexModel LiftModel DatasetModel ExpModel InferModel.
Import ListNotations.
Open Scope nat_scope.
Open Scope list_scope.

Section Mol.
Context {V : Type} (o : ops V) (veqb : V -> V -> bool) (width : V -> nat).
Variables (lib : list (list nat) -> simplex_tree) (isos : list (nat * nat) -> nat -> list (list nat)) (set_order : list (list nat) -> list (list nat)).

(** data/datasets/zinc.py:22-30, ogb.py:19-25, peptides_functional.py:71-78, csl.py:28-42: the fields that __init__ sets from the
    stored files.  What is written to the files is read back unchanged (their names are in CacheModel). *)
Definition with_splits (co : collated V) (train val test : list nat) : dataset V :=
  mkDataset 2 (Some co) None (Some train) (Some val) (Some test) None.

(** zinc.py:51-96 and 15-28.  The initialisation method is the default of convert_graph_dataset_with_rings, 'sum'. *)
Definition zinc_dataset (max_ring : nat) (use_edge_features down : bool) (train val test : list (graph V)) : result (dataset V) :=
  let conv gs := convert_with_rings o veqb width lib isos set_order RAdd gs max_ring down use_edge_features false in
  let* a := conv train in
  let* b := conv val in
  let* c := conv test in
  let s := extend_splits [fst (fst a); fst (fst b); fst (fst c)] in
  let* co := collate (fst s) 2 in
  let* i := get (snd s) 0 in let* j := get (snd s) 1 in let* k := get (snd s) 2 in
  Ok (with_splits co i j k).

(** One list of graphs with given identifiers of the parts. *)
Definition indexed_dataset (r : reduce) (max_ring : nat) (use_edge_features down : bool) (gs : list (graph V)) (train val test : list nat)
  : result (dataset V) :=
  let* a := convert_with_rings o veqb width lib isos set_order r gs max_ring down use_edge_features false in
  let* co := collate (fst (fst a)) 2 in
  Ok (with_splits co train val test).

(** ogb.py:58-88.  [keep2] keeps the first two columns of a row; slicing a missing edge_attr raises TypeError. *)
Definition simple_graph (keep2 : V -> V) (g : graph V) : result (graph V) :=
  match g_attr g with
  | None => Err TypeError
  | Some a => Ok (mkGraph (map keep2 (g_x g)) (g_edges g) (Some (map keep2 a)) (g_n g) (g_y g))
  end.
Definition ogb_dataset (keep2 : V -> V) (r : reduce) (max_ring : nat) (use_edge_features down simple : bool) (gs : list (graph V)) (train val test : list nat)
  : result (dataset V) :=
  let* gs' := if simple then mapM (simple_graph keep2) gs else Ok gs in
  indexed_dataset r max_ring use_edge_features down gs' train val test.

(** peptides_functional.py:145-198 and peptides_structural.py:148-207: [molecules] are what smiles2graph returns (edge_index, edge_feat,
    node_feat, num_nodes) with the row of labels, read as one label.  Not modelled: the normalisation of the labels of the structural
    data set (156-158) and pre_transform. *)
Record molecule := mkMolecule {
  mo_edges : list (nat * nat);
  mo_edge_feat : list V;
  mo_node_feat : list V;
  mo_nodes : nat;
  mo_label : Z
}.
Definition molecule_graph (mo : molecule) : result (graph V) :=
  let* _ := assert_ (List.length (mo_edge_feat mo) =? List.length (mo_edges mo)) in
  let* _ := assert_ (List.length (mo_node_feat mo) =? mo_nodes mo) in
  Ok (mkGraph (mo_node_feat mo) (mo_edges mo) (Some (mo_edge_feat mo)) (mo_nodes mo) (Some [mo_label mo])).
Definition peptides_dataset (r : reduce) (max_ring : nat) (down : bool) (molecules : list molecule) (train val test : list nat) : result (dataset V) :=
  let* gs := mapM molecule_graph molecules in
  indexed_dataset r max_ring true down gs train val test.

(** csl.py:70-118 and 28-52.  [zero] is the row of zeros.  A graph of the raw data set: features, edges, attributes, number of nodes,
    labels; the rows of the three files of splits. *)
Record raw_graph := mkRaw {
  ra_x : option (list V);
  ra_edges : list (nat * nat);
  ra_attr : option (list V);
  ra_n : nat;
  ra_y : option (list Z)
}.
Definition remove_self_loops (edges : list (nat * nat)) : list (nat * nat) := filter (fun e => negb (fst e =? snd e)) edges.
Definition csl_graph (zero : V) (g : raw_graph) : graph V :=
  let edges := remove_self_loops (ra_edges g) in
  mkGraph (repeat zero (ra_n g)) edges (Some (repeat zero (List.length edges))) (ra_n g) (ra_y g).
Definition is_none {A} (a : option A) : bool := match a with None => true | Some _ => false end.
(** [max] of an empty list raises ValueError. *)
Definition below_150 (ids : list nat) : result unit :=
  match ids with [] => Err ValueError | _ => assert_ (list_max ids <? 150) end.
Definition csl_dataset (zero : V) (max_ring : nat) (raw : list raw_graph) (train val test : list (list nat)) (fold : nat) : result (dataset V) :=
  let* _ := assert_ (List.length raw =? 150) in
  let* g0 := get raw 0 in
  let* _ := assert_ (is_none (ra_x g0)) in
  let* _ := assert_ (is_none (ra_attr g0)) in
  let* a := convert_with_rings o veqb width lib isos set_order RAdd (map (csl_graph zero) raw) max_ring false true false in
  let* co := collate (fst (fst a)) 2 in
  let* _ := assert_ (fold <=? 4) in
  let* i := get train fold in let* j := get val fold in let* k := get test fold in
  let* _ := assert_ (List.length i =? 3 * List.length k) in
  let* _ := assert_ (List.length j =? List.length k) in
  let* _ := below_150 i in let* _ := below_150 j in let* _ := below_150 k in
  Ok (with_splits co i j k).

(** exp/run_exp.py:89-102 builds a loader for every split, exp/train_utils.py:77-144 evaluates it: predictions, labels and the mean of
    the losses.  Item [i] of the split is item [ids[i]] of the data set; the loaders of validation and test do not shuffle. *)
Section Eval.
Variable fwd : kbatch V -> result (list V * kbatch V).
Variable loss_fn : list V -> list Z -> option Q.
Definition eval_split (bs : nat) (ds : dataset V) (split : string) : result (list V * list Z * option Q) :=
  let* sub := get_split ds split in
  let* order := ds_indices sub in
  let* bl := loader bs order in
  let* kss := load_batches sub bl in
  let* rs := mapM (eval_batch fwd (d_max_dim ds) loss_fn) kss in
  match rs with
  | [] => Err RuntimeError
  | _ => Ok (List.concat (map (fun r => fst (fst r)) rs), List.concat (map (fun r => snd (fst r)) rs), np_mean (map snd rs))
  end.
Definition infer_split (bs : nat) (ds : dataset V) (split : string) : result (list V) :=
  let* sub := get_split ds split in
  let* order := ds_indices sub in
  infer_dataset fwd (d_max_dim ds) bs sub order.
End Eval.
End Mol.
Arguments molecule V : clear implicits.
Arguments raw_graph V : clear implicits.
