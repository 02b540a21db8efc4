(** Model of data/datasets/ocean_utils.py: the graph and incidence matrices of the ocean drifter
    data, cleaning of trajectories, flows, labels, train / test split.

    Reading the HDF5 file is not modelled: the edge list, the faces, the trajectories and the
    coordinates (integers here instead of floats) are inputs.  Plotting and printing are left out,
    except where a print can raise. *)
From Coq Require Import List Arith Lia ZArith Bool.
From Verif Require Import Base ComplexModel FlowModel.
Import ListNotations.

(** ocean_utils.py:198-199  nx.Graph with [add_edges_from]; edges are kept as (min, max). *)
Definition ocean_graph (elist : list (nat * nat)) : tgraph :=
  fold_left (fun g p => add_edge g (fst p) (snd p)) elist (mkTG [] []).

(** ocean_utils.py:201  V = sorted(G.nodes) *)
Definition sorted_nodes (g : tgraph) : list nat :=
  filter (fun v => mem_nat v (g_nodes g)) (seq 0 (S (list_max (g_nodes g)))).

(** [dict(zip(V, range(len(V))))[v]] of networkx's incidence_matrix *)
Fixpoint node_pos (V : list nat) (v : nat) : option nat :=
  match V with
  | [] => None
  | u :: V' => if u =? v then Some 0 else option_map S (node_pos V' v)
  end.

(** networkx [incidence_matrix(G, nodelist=V, edgelist=E, oriented=True)], called at
    ocean_utils.py:90: self loops give a zero column, an edge (u, v) has -1 at u and +1 at v. *)
Definition nx_incidence (V : list nat) (E : list (nat * nat)) : result mat :=
  foldM (fun M p =>
           let '(e, (u, v)) := p in
           if u =? v then Ok M else
           let* i := of_option NetworkXError (node_pos V u) in
           let* j := of_option NetworkXError (node_pos V v) in
           let* M := mset M i e (-1)%Z in
           mset M j e 1%Z)
        (mzeros (length V) (length E)) (combine (seq 0 (length E)) E).

(** ocean_utils.py:93-98  one face: the edges (f0, f1), (f1, f2) get +1, then (f0, f2) gets -1.
    [edge_to_idx] is the position in [E]. *)
Definition fill_face (E : list (nat * nat)) (M : mat) (p : nat * tri) : result mat :=
  let '(k, (a, b, c)) := p in
  let* e1 := lookup_edge E (a, b) in
  let* e2 := lookup_edge E (b, c) in
  let* e3 := lookup_edge E (a, c) in
  let* M := mset M e1 k 1%Z in
  let* M := mset M e2 k 1%Z in
  mset M e3 k (-1)%Z.

(** ocean_utils.py:77-99 [incidence_matrices] *)
Definition incidence_matrices (V : list nat) (E : list (nat * nat)) (faces : list tri)
  : result (mat * mat) :=
  let* B1 := nx_incidence V E in
  let* B2 := foldM (fill_face E) (mzeros (length E) (length faces))
               (combine (seq 0 (length faces)) faces) in
  Ok (B1, B2).

(** The consecutive pairs of a path. *)
Fixpoint steps (p : list nat) : list (nat * nat) :=
  match p with
  | a :: ((b :: _) as p') => (a, b) :: steps p'
  | _ => []
  end.

(** ocean_utils.py:57-74 [path_to_flow] *)
Definition path_to_flow (E : list (nat * nat)) (path : list nat) : result (list Z) :=
  foldM (fun f p =>
           let '(v0, v1) := p in
           if v0 <? v1
           then let* k := lookup_edge E (v0, v1) in upd f k (fun z => (z + 1)%Z)
           else let* k := lookup_edge E (v1, v0) in upd f k (fun z => (z - 1)%Z))
        (repeat 0%Z (length E)) (steps path).

(** ocean_utils.py:106-119 [strip_paths] for one path; [res] is kept in reverse. *)
Definition strip_step (res : list nat) (node : nat) : list nat :=
  match res with
  | last :: ((prev :: _) as below) => if node =? prev then below else node :: res
  | _ => node :: res
  end.
Definition strip_path (path : list nat) : list nat := rev (fold_left strip_step path []).

(** ocean_utils.py:215-222 *)
Definition last_node (p : list nat) : option nat := hd_error (rev p).
Definition open_path (p : list nat) : list nat :=
  match hd_error p, last_node p with
  | Some a, Some z => if z =? a then removelast p else p
  | _, _ => p
  end.
Definition ocean_paths (trajs : list (list nat)) : list (list nat) :=
  map open_path (filter (fun p => 5 <=? length p) (map strip_path trajs)).

(** ocean_utils.py:146-162 [orientation], over integer coordinates. *)
Definition cross (p1 p2 p3 : Z * Z) : Z :=
  ((snd p2 - snd p1) * (fst p3 - fst p2) - (fst p2 - fst p1) * (snd p3 - snd p2))%Z.
Definition turn (p1 p2 p3 : Z * Z) : result Z :=
  let val := cross p1 p2 p3 in
  if (0 <? val)%Z then Ok 0%Z else if (val <? 0)%Z then Ok 1%Z else Err ValueError.

(** ocean_utils.py:165-169 [extract_label]; the centre is an argument.  [path[0]] of an empty path
    raises IndexError. *)
Definition extract_label (center : Z * Z) (coords : list (Z * Z)) (path : list nat) : result Z :=
  let* a := of_option IndexError (hd_error path) in
  let* z := of_option IndexError (last_node path) in
  let* pa := get coords a in
  let* pz := get coords z in
  turn center pa pz.

(** Python's [round(a / b)]: to the nearest integer, ties to even.  [len(paths) * 0.8] is taken as
    the exact number 8n/10. *)
Definition round_div (a b : nat) : nat :=
  let q := a / b in
  match 2 * (a mod b) ?= b with
  | Lt => q
  | Gt => S q
  | Eq => if Nat.even q then q else S q
  end.

(** ocean_utils.py:236  the mask before shuffling *)
Definition train_mask (n : nat) : list bool :=
  repeat true (round_div (8 * n) 10) ++ repeat false (round_div (2 * n) 10).

(** ocean_utils.py:264-271  one sample.  [bits] are the random bits of its orientation matrix. *)
Definition ocean_sample (order : list (nat * nat * Z) -> list (nat * nat * Z)) (B1 B2 : mat)
    (edges : nat) (train_orient test_orient : orientation) (bits : nat -> nat -> bool)
    (i : nat) (train : bool) (flow : list Z) (label : Z) : result (bool * cochain Z) :=
  let* T2 := orient_matrix (m_c B1) (if train then train_orient else test_orient) (bits i) in
  let* c := build_cochain order B1 B2 T2 flow label (Some edges) in
  Ok (train, c).

(** ocean_utils.py:172-273 [load_ocean_dataset] without reading the file.  [sort] stands for the
    order of [sorted(G.edges)] (networkx stores an edge with its end points in the order of first
    appearance, so this need not be the order of the sorted pairs); [shuffle] is
    [np.random.shuffle].  [max] of an empty list (223) raises ValueError, [labels[100]] (242)
    raises IndexError when there are too few paths. *)
Definition load_ocean (sort : list (nat * nat) -> list (nat * nat))
    (order : list (nat * nat * Z) -> list (nat * nat * Z)) (shuffle : list bool -> list bool)
    (bits : nat -> nat -> bool) (train_orient test_orient : orientation)
    (elist : list (nat * nat)) (faces : list tri) (trajs : list (list nat))
    (center : Z * Z) (coords : list (Z * Z)) : result (list (cochain Z) * list (cochain Z)) :=
  let g := ocean_graph elist in
  let V := sorted_nodes g in
  let E := sort (g_edges g) in
  let* (B1, B2) := incidence_matrices V E faces in
  let paths := ocean_paths trajs in
  let* _ := match paths with [] => Err ValueError | _ => Ok tt end in
  let mask := shuffle (train_mask (length paths)) in
  let* flows := mapM (path_to_flow E) paths in
  let* labels := mapM (extract_label center coords) paths in
  let* _ := if length labels <=? 100 then Err IndexError else Ok tt in
  let* _ := assert_ (length labels =? length mask) in
  let* _ := assert_ (m_c B1 =? m_r B2) in
  let* samples := mapM (fun q => let '(i, (tr, (fl, lb))) := q in
                          ocean_sample order B1 B2 (length (g_edges g)) train_orient test_orient bits
                            i tr fl lb)
                    (combine (seq 0 (length flows)) (combine mask (combine flows labels))) in
  Ok (map snd (filter fst samples), map snd (filter (fun s => negb (fst s)) samples)).
