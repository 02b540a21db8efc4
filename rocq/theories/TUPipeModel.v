(** TU data sets from the text file to the data set that training uses: data/datasets/tu.py. *)
From Coq Require Import List Arith ZArith Bool.
From Verif Require Import Base ScatterModel ComplexModel LiftModel DatasetModel TUModel.
Import ListNotations.

Section Pipe.
Context {V : Type} (o : ops V) (veqb : V -> V -> bool) (width : V -> nat).
Variables (lib : list (list nat) -> simplex_tree) (isos : list (nat * nat) -> nat -> list (list nat)) (set_order : list (list nat) -> list (list nat)).
(** The tensor row that holds the numbers of a list. *)
Variable row : list Z -> V.

(** tu.py:94-105  a pickled graph of S2V_to_PyG as the conversions read it: there is no edge_attr. *)
Definition pyg_graph (p : pyg) : LiftModel.graph V :=
  mkGraph (map row (p_x p)) (p_edge_index p) None (p_num_nodes p) (Some (map Z.of_nat (p_y p))).

(** tu.py:107-119  the conversion; [ring] is max_ring_size. *)
Definition tu_convert (ring : option nat) (r : reduce) (max_dim : nat) (down : bool) (gs : list (LiftModel.graph V))
  : result (list (complex V) * nat * list (option nat)) :=
  match ring with
  | Some max_ring => convert_with_rings o veqb width lib isos set_order r gs max_ring down true true
  | None => convert_with_gudhi o width lib r gs max_dim down
  end.

(** tu_utils.py:233  [complex.y.item()].  Class numbers are not negative. *)
Definition label_item (k : complex V) : result nat :=
  match k_y k with Some [z] => Ok (Z.to_nat z) | Some _ => Err ValueError | None => Err AttributeError end.

(** tu.py:40-74, 94-121, tu_utils.py:229-239.  [files] are the identifiers in the two files of 10fold_idx if both exist; otherwise
    get_fold_indices reads all complexes of the data set (filling its cache) and splits by their labels.  The files in between
    (pickled graphs, processed complexes) are read back unchanged; their names are in CacheModel. *)
Definition tu_dataset (order : list nat -> list nat) (degree_as_tag : bool) (file : list line) (ring : option nat) (r : reduce) (max_dim : nat)
    (down : bool) (files : option (list nat * list nat)) (assign : list nat -> result (list nat)) (fold : Z) : result (dataset V) :=
  let* _ := assert_ (match ring with None => true | Some max_ring => 3 <? max_ring end) in
  let* _ := assert_ (match ring with None => true | Some _ => max_dim =? 2 end) in
  let* data := load_data order degree_as_tag file in
  let* a := tu_convert ring r max_dim down (map (fun g => pyg_graph (to_pyg g)) (fst data)) in
  let* co := collate (fst (fst a)) max_dim in
  let ds := mkDataset max_dim (Some co) None None None None None in
  match files with
  | Some (train, val) => Ok (mkDataset max_dim (Some co) None (Some train) (Some val) None None)
  | None =>
      let* n := ds_size ds in
      let (ks, ds1) := ds_gets ds (seq 0 n) in
      let* ks := mapM (fun k => k) ks in
      let* labels := mapM label_item ks in
      let* ids := get_fold_indices assign labels fold in
      Ok (mkDataset max_dim (Some co) (d_cache ds1) (Some (fst ids)) (Some (snd ids)) None None)
  end.
End Pipe.
