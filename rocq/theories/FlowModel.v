(** Model of data/datasets/flow_utils.py: triangulations with holes, their graph and boundary
    matrices, trajectories, signed adjacencies and the resulting cochains.

    numpy float matrices hold integers here (every modelled entry is a small integer, exact in
    floating point). A vertex of a triangle is a [nat]. *)
From Coq Require Import List Arith Lia ZArith Bool.
From Verif Require Import Base ComplexModel.
Import ListNotations.

(** ** Matrices *)

Record mat := mkMat { m_r : nat; m_c : nat; m_at : nat -> nat -> Z }.

(** np.zeros((r, c)) *)
Definition mzeros (r c : nat) : mat := mkMat r c (fun _ _ => 0%Z).

(** M[i, j] = v for non-negative indices. *)
Definition mset (M : mat) (i j : nat) (v : Z) : result mat :=
  if (i <? m_r M) && (j <? m_c M)
  then Ok (mkMat (m_r M) (m_c M)
            (fun a b => if (a =? i) && (b =? j) then v else m_at M a b))
  else Err IndexError.

Definition sumZ (n : nat) (f : nat -> Z) : Z :=
  fold_right (fun k s => (f k + s)%Z) 0%Z (seq 0 n).

(** scipy.sparse csr products; mismatched shapes raise ValueError. *)
Definition mmul (A B : mat) : result mat :=
  if m_c A =? m_r B
  then Ok (mkMat (m_r A) (m_c B)
            (fun i j => sumZ (m_c A) (fun k => (m_at A i k * m_at B k j)%Z)))
  else Err ValueError.

Definition mtr (A : mat) : mat := mkMat (m_c A) (m_r A) (fun i j => m_at A j i).

(** np.sum(np.abs(M), axis=-1)[i] and np.sum(np.abs(M), axis=0)[j], np.sum(M, axis=0)[j] *)
Definition row_abs (M : mat) (i : nat) : Z := sumZ (m_c M) (fun j => Z.abs (m_at M i j)).
Definition col_abs (M : mat) (j : nat) : Z := sumZ (m_r M) (fun i => Z.abs (m_at M i j)).
Definition col_sum (M : mat) (j : nat) : Z := sumZ (m_r M) (fun i => m_at M i j).

(** ** Holes *)

(** A row of the array of simplices. *)
Definition tri : Type := nat * nat * nat.
Definition verts (t : tri) : list nat := let '(a, b, c) := t in [a; b; c].
Definition tri_map (f : nat -> nat) (t : tri) : tri := let '(a, b, c) := t in (f a, f b, f c).

Definition mem_nat (a : nat) (l : list nat) : bool := existsb (Nat.eqb a) l.

Section Hole.
Context {P : Type}.

(** flow_utils.py:32-45  one pass over the triangles: the kept ones and the removed vertices
    (a set; a list here).  [points[simplex]] raises when a vertex is out of range.
    [inside] is [is_inside_rectangle(., hole)] (14-15). *)
Fixpoint hole_pass (inside : P -> bool) (points : list P) (ts : list tri)
  : result (list tri * list nat) :=
  match ts with
  | [] => Ok ([], [])
  | t :: ts' =>
      let* xs := index_select points (verts t) in
      let gone := map fst (filter (fun p => inside (snd p)) (combine (verts t) xs)) in
      let* r := hole_pass inside points ts' in
      Ok (match gone with [] => t :: fst r | _ => fst r end, gone ++ snd r)
  end.

(** np.delete(points, removed, axis=0) *)
Definition np_delete (points : list P) (removed : list nat) : list P :=
  map snd (filter (fun p => negb (mem_nat (fst p) removed))
             (combine (seq 0 (length points)) points)).

(** sorted(set, reverse=True): the members below [n] in decreasing order.  All members are
    indices of points. *)
Definition sorted_desc (n : nat) (s : list nat) : list nat :=
  filter (fun i => mem_nat i s) (rev (seq 0 n)).

(** flow_utils.py:27-62 [create_hole].  Indexing with an empty array of kept triangles (a float
    array) raises IndexError (48).  Renumbering (59-60) happens in place, vertex by vertex. *)
Definition create_hole (inside : P -> bool) (points : list P) (ts : list tri)
  : result (list P * list tri) :=
  let* r := hole_pass inside points ts in
  match fst r with
  | [] => Err IndexError
  | kept =>
      let unused := filter (fun i => negb (existsb (fun t => mem_nat i (verts t)) kept))
                      (seq 0 (length points)) in
      let removed := snd r ++ unused in
      Ok (np_delete points removed,
          fold_left (fun ts v => map (tri_map (fun a => if v <=? a then a - 1 else a)) ts)
            (sorted_desc (length points) removed) kept)
  end.

End Hole.

(** ** The graph of a triangulation *)

(** networkx graph: nodes in insertion order; edges in the order of their 'index', stored as
    (min, max), which is also [edge_to_tuple]; [tuple_to_edge] is the position in this list. *)
Record tgraph := mkTG { g_nodes : list nat; g_edges : list (nat * nat) }.

Definition edge_key (a b : nat) : nat * nat := (Nat.min a b, Nat.max a b).
Definition pair_eqb (p q : nat * nat) : bool := (fst p =? fst q) && (snd p =? snd q).
Definition has_edge (g : tgraph) (a b : nat) : bool := existsb (pair_eqb (edge_key a b)) (g_edges g).
Definition add_node (g : tgraph) (v : nat) : tgraph :=
  if mem_nat v (g_nodes g) then g else mkTG (g_nodes g ++ [v]) (g_edges g).
Definition add_edge (g : tgraph) (a b : nat) : tgraph :=
  let g' := add_node (add_node g a) b in
  if has_edge g' a b then g' else mkTG (g_nodes g') (g_edges g' ++ [edge_key a b]).

(** flow_utils.py:78-84  [itertools.combinations(vertices, 2)] *)
Definition tri_pairs (t : tri) : list (nat * nat) := let '(a, b, c) := t in [(a, b); (a, c); (b, c)].

Definition graph_vertex (npoints : nat) (t : tri) (g : tgraph) (v : nat) : result tgraph :=
  let* g1 := if mem_nat v (g_nodes g) then Ok g
             else if v <? npoints then Ok (add_node g v) else Err IndexError in
  foldM (fun g p =>
           let g' := if has_edge g (fst p) (snd p) then g else add_edge g (fst p) (snd p) in
           let* _ := assert_ (has_edge g' (snd p) (fst p)) in Ok g') g1 (tri_pairs t).

(** flow_utils.py:65-90 [create_graph_from_triangulation] *)
Definition create_graph (npoints : nat) (ts : list tri) : result tgraph :=
  foldM (fun g t => foldM (graph_vertex npoints t) g (verts t)) (mkTG [] []) ts.

(** [tuple_to_edge[(a, b)]] *)
Fixpoint find_pair (es : list (nat * nat)) (p : nat * nat) : option nat :=
  match es with
  | [] => None
  | q :: es' => if pair_eqb q p then Some 0 else option_map S (find_pair es' p)
  end.
Definition lookup_edge (es : list (nat * nat)) (p : nat * nat) : result nat :=
  of_option KeyError (find_pair es p).

(** ** Boundary matrices *)

(** flow_utils.py:99-105 *)
Definition fill_B1 (g : tgraph) : result mat :=
  foldM (fun M p =>
           let* M1 := mset M (Nat.min (fst (snd p)) (snd (snd p))) (fst p) (-1)%Z in
           mset M1 (Nat.max (fst (snd p)) (snd (snd p))) (fst p) 1%Z)
        (mzeros (length (g_nodes g)) (length (g_edges g)))
        (combine (seq 0 (length (g_edges g))) (g_edges g)).

(** flow_utils.py:111-124 [extract_edge_and_orientation] for the directed side (n1, n2). *)
Definition side (es : list (nat * nat)) (n1 n2 : nat) : result (nat * Z) :=
  let* e := lookup_edge es (edge_key n1 n2) in
  Ok (e, if n1 <? n2 then 1%Z else (-1)%Z).

(** flow_utils.py:127-135 *)
Definition fill_tri (es : list (nat * nat)) (M : mat) (p : nat * tri) : result mat :=
  let '(a, b, c) := snd p in
  let* s1 := side es a b in
  let* s2 := side es b c in
  let* s3 := side es c a in
  let* _ := assert_ (negb (fst s1 =? fst s2) && negb (fst s1 =? fst s3) && negb (fst s2 =? fst s3)) in
  let* M := mset M (fst s1) (fst p) (snd s1) in
  let* M := mset M (fst s2) (fst p) (snd s2) in
  mset M (fst s3) (fst p) (snd s3).

(** flow_utils.py:93-139 [extract_boundary_matrices] *)
Definition boundary_matrices (g : tgraph) (ts : list tri) : result (mat * mat) :=
  let* B1 := fill_B1 g in
  let* _ := assert_ (forallb (fun i => (0 <? row_abs B1 i)%Z) (seq 0 (m_r B1))) in
  let* _ := assert_ (forallb (fun j => (col_abs B1 j =? 2)%Z) (seq 0 (m_c B1))) in
  let* _ := assert_ (forallb (fun j => (col_sum B1 j =? 0)%Z) (seq 0 (m_c B1))) in
  let* B2 := foldM (fill_tri (g_edges g)) (mzeros (length (g_edges g)) (length ts))
               (combine (seq 0 (length ts)) ts) in
  let* _ := assert_ (forallb (fun j => (col_abs B2 j =? 3)%Z) (seq 0 (m_c B2))) in
  let* _ := assert_ (forallb (fun i => (0 <? row_abs B2 i)%Z) (seq 0 (m_r B2))) in
  Ok (B1, B2).

(** ** Trajectories *)

(** [G.neighbors(v)], in the order in which the edges were added. *)
Definition neighbors (g : tgraph) (v : nat) : result (list nat) :=
  if mem_nat v (g_nodes g) then
    Ok (flat_map (fun p => if fst p =? v then [snd p] else if snd p =? v then [fst p] else [])
          (g_edges g))
  else Err NetworkXError.

Section Trajectory.
(** Squared distances between points are values of an arbitrary type [D]; [dlt] is [<] on them.
    The points themselves are represented by their number and the three rectangle tests. *)
Context {D : Type} (dlt : D -> D -> bool) (dist : nat -> nat -> D).
Context (npoints : nat) (in_start in_end in_ckpt : nat -> bool).
(** The random number generators: the [k]-th draw.  [draw k n] is the index chosen among [n]
    elements ([random.choice], [np.random.choice]), [coin k] is [np.random.uniform() < 0.1]. *)
Context (draw : nat -> nat -> nat) (coin : nat -> bool).
Context (g : tgraph).

(** [np.argmin]: position of the first smallest element. *)
Fixpoint argmin_from (best : D) (at_ i : nat) (l : list D) : nat :=
  match l with
  | [] => at_
  | d :: l' => if dlt d best then argmin_from d i (S i) l' else argmin_from best at_ (S i) l'
  end.
Definition argmin (l : list D) : nat := match l with [] => 0 | d :: l' => argmin_from d 0 1 l' end.

(** flow_utils.py:18-24 [sample_point_from_rect]; [random.choice] of an empty list raises. *)
Definition sample (inside : nat -> bool) (k : nat) : result nat :=
  let samples := filter inside (seq 0 npoints) in
  match samples with [] => Err IndexError | _ => get samples (draw k (length samples)) end.

Inductive attempt :=
| Found (x : list Z) (path : list nat)
| Stuck (k : nat)              (* every neighbour explored: start again with the next draw *)
| Fuel
| Raised (e : exn).

Definition set_flow (x : list Z) (u v : nat) : result (list Z) :=
  if u <? v
  then let* e := lookup_edge (g_edges g) (u, v) in upd x e (fun _ => 1%Z)
  else let* e := lookup_edge (g_edges g) (v, u) in upd x e (fun _ => (-1)%Z).

(** flow_utils.py:161-196  the while loop.  [path] is kept in reverse. *)
Fixpoint walk (fuel k : nat) (goal ckpt vertex : nat) (explored : list nat) (reached : bool)
    (path : list nat) (x : list Z) : attempt :=
  if vertex =? goal then Found x (rev path) else
  match fuel with
  | 0 => Fuel
  | S fuel' =>
      let explored := vertex :: explored in
      let reached := reached || (vertex =? ckpt) in
      match neighbors g vertex with
      | Err e => Raised e
      | Ok ns =>
          match filter (fun v => negb (mem_nat v explored)) ns with
          | [] => Stuck k
          | nv =>
              if forallb (fun v => v <? npoints) nv then
                let ds := map (fun v => dist v (if reached then goal else ckpt)) nv in
                let pick := if coin k then draw (S k) (length ds) else argmin ds in
                match get nv pick with
                | Err e => Raised e
                | Ok v =>
                    match set_flow x vertex v with
                    | Err e => Raised e
                    | Ok x' => walk fuel' (S (S k)) goal ckpt v explored reached (v :: path) x'
                    end
                end
              else Raised IndexError
          end
      end
  end.

(** flow_utils.py:142-196 [generate_trajectory].  [tries] bounds the number of restarts; [None]
    means that the bound was reached. *)
Fixpoint trajectory (tries k : nat) : option (result (list Z * list nat)) :=
  match tries with
  | 0 => None
  | S tries' =>
      match (let* s := sample in_start k in
             let* e := sample in_end (k + 1) in
             let* c := sample in_ckpt (k + 2) in Ok (s, e, c)) with
      | Err e => Some (Err e)
      | Ok (s, e, c) =>
          match walk (S (length (g_nodes g))) (k + 3) e c s [] false [s]
                  (repeat 0%Z (length (g_edges g))) with
          | Found x path => Some (Ok (x, path))
          | Stuck k' => trajectory tries' k'
          | Fuel => None
          | Raised e => Some (Err e)
          end
      end
  end.

End Trajectory.

(** ** Signed adjacencies *)

(** The non-zero entries of a matrix, row by row. *)
Definition nonzeros (A : mat) : list (nat * nat * Z) :=
  flat_map (fun i => flat_map (fun j => if (m_at A i j =? 0)%Z then [] else [(i, j, m_at A i j)])
                       (seq 0 (m_c A))) (seq 0 (m_r A)).

(** flow_utils.py:212-227  [coo] enumerates (row, col, data). *)
Fixpoint adj_loop (coo : list (nat * nat * Z)) : result (list (nat * nat) * list Z) :=
  match coo with
  | [] => Ok ([], [])
  | (i, j, v) :: coo' =>
      if i <=? j then adj_loop coo' else
      let* _ := assert_ ((v =? 1)%Z || (v =? -1)%Z) in
      let* r := adj_loop coo' in
      Ok ((i, j) :: (j, i) :: fst r, Z.sgn v :: Z.sgn v :: snd r)
  end.

(** flow_utils.py:199-230 [extract_adj_from_boundary(B, G)].  [order] is the order in which scipy
    lists the entries of a sparse product; stored zeros are not modelled (for boundary matrices no
    cancellation happens, see [FlowProps]).  [edges] is [G.number_of_edges()] if a graph is given.
    The index has room for [connections] columns: more writes raise IndexError, fewer an
    AssertionError. *)
Definition extract_adj (order : list (nat * nat * Z) -> list (nat * nat * Z)) (B : mat)
    (edges : option nat) : result (list (nat * nat) * list Z) :=
  let* A := mmul (mtr B) B in
  let* _ := assert_ (match edges with Some n => m_r A =? n | None => true end) in
  let coo := nonzeros A in
  let diag := length (filter (fun i => negb (m_at A i i =? 0)%Z) (seq 0 (m_r A))) in
  let connections := length coo - diag in
  let* r := adj_loop (order coo) in
  if connections <? length (fst r) then Err IndexError else
  let* _ := assert_ (length (fst r) =? connections) in
  Ok r.

(** A one-column matrix from a list and back. *)
Definition column (x : list Z) : mat := mkMat (length x) 1 (fun i _ => nth i x 0%Z).
Definition of_column (M : mat) : list Z := map (fun i => m_at M i 0) (seq 0 (m_r M)).

(** flow_utils.py:233-252 [build_cochain] *)
Definition build_cochain (order : list (nat * nat * Z) -> list (nat * nat * Z))
    (B1 B2 T2 : mat) (x : list Z) (class_id : Z) (edges : option nat) : result (cochain Z) :=
  let* B1 := mmul B1 T2 in
  let* B2 := mmul T2 B2 in
  let* lo := extract_adj order B1 edges in
  let* up := extract_adj order (mtr B2) edges in
  let* x := mmul T2 (column x) in
  let c := mkCochain 1 (Some (of_column x)) (Some (fst up)) (Some (fst lo)) None None None
             (Some (snd up)) (Some (snd lo)) (Some [class_id]) None None None None in
  let* _ := init_checks c in
  Ok c.

(** flow_utils.py:271-279 [get_orient_matrix]: the identity or a random diagonal of +1 / -1;
    [bits] are the random bits.  Other names of orientations raise. *)
Inductive orientation := ODefault | ORandom | OOther.
Definition diag_mat (n : nat) (d : nat -> Z) : mat :=
  mkMat n n (fun i j => if i =? j then d i else 0%Z).
Definition orient_matrix (n : nat) (ori : orientation) (bits : nat -> bool) : result mat :=
  match ori with
  | ODefault => Ok (diag_mat n (fun _ => 1%Z))
  | ORandom => Ok (diag_mat n (fun i => if bits i then 1%Z else (-1)%Z))
  | OOther => Err ValueError
  end.

(** flow_utils.py:282-313 (the part of [load_flow_dataset] before the samples): two holes are cut
    into a triangulation [ts] of [points] (scipy's Delaunay is not modelled: any triangle list).
    The repeated tests that every point is in a triangle are asserts; np.min / np.max of an empty
    array cannot happen since [create_hole] never returns an empty list. *)
Section Prepare.
Context {P : Type}.

Definition all_used (points : list P) (ts : list tri) : bool :=
  forallb (fun i => existsb (fun t => mem_nat i (verts t)) ts) (seq 0 (length points)).

Definition prepare_flow (in1 in2 : P -> bool) (points : list P) (ts : list tri)
  : result (list P * list tri * tgraph * mat * mat) :=
  let* _ := assert_ (all_used points ts) in
  let* (p1, t1) := create_hole in1 points ts in
  let* _ := assert_ (all_used p1 t1) in
  let* (p2, t2) := create_hole in2 p1 t1 in
  let* _ := assert_ (all_used p2 t2) in
  let* _ := assert_ (mem_nat 0 (concat (map verts t2))) in
  let* _ := assert_ (list_max (concat (map verts t2)) =? length p2 - 1) in
  let* g := create_graph (length p2) t2 in
  let* _ := assert_ (length (g_nodes g) =? length p2) in
  let* (B1, B2) := boundary_matrices g t2 in
  let* _ := assert_ (m_c B1 =? m_r B2) in
  Ok (p2, t2, g, B1, B2).

End Prepare.

(** flow_utils.py:316-329  the class of the [i]-th of [num] samples. *)
Definition flow_class (num i : nat) : result nat :=
  match num / 2 with
  | 0 => Err ZeroDivisionError
  | spc => Ok (Nat.min (i / spc) 1)
  end.
Definition flow_classes (num : nat) : result (list nat) := mapM (flow_class num) (seq 0 num).

(** flow_utils.py:255-268 [generate_flow_cochain], with the rectangles as tests on the indices of
    points.  [k] is the state of the random generators. *)
Definition flow_cochain {D} (dlt : D -> D -> bool) (dist : nat -> nat -> D) (npoints : nat)
    (in_start in_end in_bot in_top : nat -> bool) (draw : nat -> nat -> nat) (coin : nat -> bool)
    (order : list (nat * nat * Z) -> list (nat * nat * Z))
    (g : tgraph) (B1 B2 T2 : mat) (class_id tries k : nat) : option (result (cochain Z)) :=
  if 1 <? class_id then Some (Err AssertionError) else
  match trajectory dlt dist npoints in_start in_end
          (if class_id =? 0 then in_bot else in_top) draw coin g tries k with
  | None => None
  | Some (Err e) => Some (Err e)
  | Some (Ok (x, _)) =>
      Some (build_cochain order B1 B2 T2 x (Z.of_nat class_id) (Some (length (g_edges g))))
  end.
