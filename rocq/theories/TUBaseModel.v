(** The TU data sets as the graph baselines read them: data/datasets/tu.py:12-34. *)
From Coq Require Import List Arith ZArith Bool.
From Verif Require Import Base TUModel.
Import ListNotations.

(** tu_utils.py:233  [complex.y.item()] for a graph. *)
Definition graph_item (p : pyg) : result nat :=
  match p_y p with [y] => Ok y | _ => Err ValueError end.

(** tu.py:24-33  the parts: the files of 10fold_idx if both exist, otherwise get_fold_indices with the labels of the graphs. *)
Definition tu_parts (files : option (list nat * list nat)) (assign : list nat -> result (list nat)) (fold : Z) (gs : list pyg)
  : result (list nat * list nat) :=
  match files with
  | Some p => Ok p
  | None => let* labels := mapM graph_item gs in get_fold_indices assign labels fold
  end.

(** tu.py:12-34 [load_tu_graph_dataset] without pickled graphs in the folder. *)
Definition tu_graphs (order : list nat -> list nat) (degree_as_tag : bool) (file : list line) (files : option (list nat * list nat))
    (assign : list nat -> result (list nat)) (fold : Z) : result (list pyg * (list nat * list nat)) :=
  let* data := load_data order degree_as_tag file in
  let gs := map to_pyg (fst data) in
  let* ids := tu_parts files assign fold gs in
  Ok (gs, ids).

(** tu.py:13-23  with the pickled graphs: one file for each value of degree_as_tag (the name of the data set is fixed).  The file
    is written before the parts are computed, so it stays if that raises. *)
Definition store := bool -> option (list pyg).
Definition put (s : store) (b : bool) (gs : list pyg) : store := fun b' => if Bool.eqb b b' then Some gs else s b'.
Definition tu_graphs_cached (order : list nat -> list nat) (file : list line) (s : store) (degree_as_tag : bool)
    (files : option (list nat * list nat)) (assign : list nat -> result (list nat)) (fold : Z)
  : result (list pyg * (list nat * list nat)) * store :=
  match s degree_as_tag with
  | Some gs => (let* ids := tu_parts files assign fold gs in Ok (gs, ids), s)
  | None =>
      match load_data order degree_as_tag file with
      | Err e => (Err e, s)
      | Ok data =>
          let gs := map to_pyg (fst data) in
          (let* ids := tu_parts files assign fold gs in Ok (gs, ids), put s degree_as_tag gs)
      end
  end.
(** Calls one after another, as by several runs. *)
Record call := mkCall { a_degree : bool; a_files : option (list nat * list nat); a_assign : list nat -> result (list nat); a_fold : Z }.
Fixpoint tu_calls (order : list nat -> list nat) (file : list line) (s : store) (cs : list call)
  : list (result (list pyg * (list nat * list nat))) * store :=
  match cs with
  | [] => ([], s)
  | c :: cs' =>
      let (r, s1) := tu_graphs_cached order file s (a_degree c) (a_files c) (a_assign c) (a_fold c) in
      let (rs, s2) := tu_calls order file s1 cs' in
      (r :: rs, s2)
  end.
