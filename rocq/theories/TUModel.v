(** Model of data/tu_utils.py: reading the text format of the TU data sets and splitting them. *)
From Coq Require Import List Arith ZArith Bool.
From Verif Require Import Base RingModel.
Import ListNotations.

(** ** Tokens and lines *)
(** A blank-separated word: one that [int] accepts, or one that only [float] accepts. *)
Inductive token := TInt (z : Z) | TFloat.
Definition line := list token.
Definition int_of (t : token) : result Z := match t with TInt z => Ok z | TFloat => Err ValueError end.

(** [f.readline().strip().split()]: at the end of the file an empty list. *)
Definition readline (f : list line) : line * list line :=
  match f with [] => ([], []) | r :: f' => (r, f') end.

(** [row[:t]] for a possibly negative [t]. *)
Definition upto {A} (row : list A) (t : Z) : list A :=
  if (t <? 0)%Z then firstn (length row - Z.to_nat (- t)) row else firstn (Z.to_nat t) row.

(** ** networkx.Graph: adjacency dictionaries in insertion order *)
Definition nxg := list (Z * list Z).
Definition mem (v : Z) (l : list Z) : bool := existsb (Z.eqb v) l.
Definition has_node (g : nxg) (u : Z) : bool := mem u (map fst g).
Definition add_node (g : nxg) (u : Z) : nxg := if has_node g u then g else g ++ [(u, [])].
Definition add_nbr (g : nxg) (u v : Z) : nxg :=
  map (fun p => if (fst p =? u)%Z then (fst p, if mem v (snd p) then snd p else snd p ++ [v]) else p) g.
Definition add_edge (g : nxg) (u v : Z) : nxg :=
  add_nbr (add_nbr (add_node (add_node g u) v) u v) v u.
(** [g.edges()]: each node in order with its neighbours that were not seen as first node before. *)
Fixpoint edges_from (seen : list Z) (g : nxg) : list (Z * Z) :=
  match g with
  | [] => []
  | (u, nb) :: r => map (pair u) (filter (fun v => negb (mem v seen)) nb) ++ edges_from (u :: seen) r
  end.
Definition nx_edges (g : nxg) : list (Z * Z) := edges_from [] g.
(** [list(dict(g.degree).values())]: in insertion order, a self-loop counts twice. *)
Definition nx_degrees (g : nxg) : list nat :=
  map (fun p => length (snd p) + (if mem (fst p) (snd p) then 1 else 0)) g.

(** ** Dictionaries mapping keys to their number of appearance *)
Definition dict := list (Z * nat).
Fixpoint find_key (d : dict) (k : Z) : option nat :=
  match d with [] => None | (k', v) :: r => if (k' =? k)%Z then Some v else find_key r k end.
(** tu_utils.py:74-76 and 91-93. *)
Definition number (d : dict) (k : Z) : dict :=
  match find_key d k with Some _ => d | None => d ++ [(k, length d)] end.
Definition lookup_key (d : dict) (k : Z) : result nat :=
  match find_key d k with Some v => Ok v | None => Err KeyError end.

(** ** tu_utils.py:83-90 and 100  one node line: its integers (tag, number of neighbours, neighbours).
    Trailing float attributes are parsed and dropped. *)
Definition parse_row (row : line) : result (list Z) :=
  let* t := get row 1 in
  let* deg := int_of t in
  let tmp := (deg + 2)%Z in
  if (tmp =? Z.of_nat (length row))%Z then mapM int_of row else mapM int_of (upto row tmp).

(** tu_utils.py:81-101  the nodes [j], ..., [j + m - 1] of a graph. *)
Fixpoint read_nodes (m : nat) (j : Z) (g : nxg) (tags : list nat) (feat : dict) (f : list line)
  : result (nxg * list nat * dict * list line) :=
  match m with
  | 0 => Ok (g, tags, feat, f)
  | S m' =>
      let g := add_node g j in
      let (row, f) := readline f in
      let* ints := parse_row row in
      let* tag := get ints 0 in
      let feat := number feat tag in
      let* t := lookup_key feat tag in
      let* _ := get ints 1 in
      let g := fold_left (fun g v => add_edge g j v) (skipn 2 ints) g in
      read_nodes m' (j + 1) g (tags ++ [t]) feat f
  end.

(** The fields of S2VGraph that are used (tu_utils.py:37-54). *)
Record s2v := mkS2V {
  s_g : nxg;
  s_label : Z;
  s_tags : list nat
}.

(** tu_utils.py:71-112  the graphs of the file. *)
Fixpoint read_graphs (m : nat) (labels feat : dict) (f : list line) : result (list s2v * dict) :=
  match m with
  | 0 => Ok ([], labels)
  | S m' =>
      let (row, f) := readline f in
      let* ints := mapM int_of row in
      match ints with
      | [n; l] =>
          let labels := number labels l in
          let* r := read_nodes (Z.to_nat n) 0 [] [] feat f in
          let '(g, tags, feat, f) := r in
          if (Z.of_nat (length g) =? n)%Z then
            let* rest := read_graphs m' labels feat f in
            Ok (mkS2V g l tags :: fst rest, snd rest)
          else Err AssertionError
      | _ => Err ValueError
      end
  end.

Definition read_file (f : list line) : result (list s2v * dict) :=
  let (row, f) := readline f in
  match row with
  | [t] => let* n := int_of t in read_graphs (Z.to_nat n) [] [] f
  | _ => Err ValueError
  end.

(** ** tu_utils.py:114-132  labels and edge matrix.  After the assertion of line 110 the nodes are
    0, ..., n-1, so they are used as positions from here on.  [max] of an empty list raises
    ValueError; transposing the one-dimensional tensor that an empty edge list gives raises
    IndexError. *)
Definition pos (e : Z * Z) : nat * nat := (Z.to_nat (fst e), Z.to_nat (snd e)).
Definition swap (e : nat * nat) : nat * nat := (snd e, fst e).
Fixpoint add_neighbours (nb : list (list nat)) (es : list (nat * nat)) : result (list (list nat)) :=
  match es with
  | [] => Ok nb
  | (i, j) :: r =>
      let* nb1 := upd nb i (fun l => l ++ [j]) in
      let* nb2 := upd nb1 j (fun l => l ++ [i]) in
      add_neighbours nb2 r
  end.
Record tu_graph := mkTUG {
  u_size : nat;
  u_label : nat;
  u_tags : list nat;
  u_max_neighbor : nat;
  u_edge_mat : list (nat * nat);
  u_x : list (list Z)
}.
Definition add_edge_mat (labels : dict) (g : s2v) : result tu_graph :=
  let n := length (s_g g) in
  let es := map pos (nx_edges (s_g g)) in
  let* nb := add_neighbours (repeat [] n) es in
  let* mx := (match nb with [] => Err ValueError | _ => Ok (list_max (map (@length nat) nb)) end) in
  let* l := lookup_key labels (s_label g) in
  let edges := es ++ map swap es in
  let* em := (match edges with [] => Err IndexError | _ => Ok edges end) in
  Ok (mkTUG n l (s_tags g) mx em []).

(** ** tu_utils.py:140-150  one-hot encoding of the tags; [order] is the iteration order of the set. *)
Fixpoint index_of (t : nat) (l : list nat) : option nat :=
  match l with [] => None | a :: r => if a =? t then Some 0 else option_map S (index_of t r) end.
Definition hot (l : list nat) (t : nat) : result (list Z) :=
  match index_of t l with Some i => Ok (one_hot (length l) i) | None => Err KeyError end.
Definition tag_features (order : list nat -> list nat) (gs : list tu_graph) : result (list tu_graph) :=
  let tagset := order (nodup Nat.eq_dec (flat_map u_tags gs)) in
  mapM (fun g => let* x := mapM (hot tagset) (u_tags g) in
                 Ok (mkTUG (u_size g) (u_label g) (u_tags g) (u_max_neighbor g) (u_edge_mat g) x)) gs.

(** ** tu_utils.py:157-175  the degree encoding *)
(** [torch_geometric.utils.degree(edge_index[0])]: one entry for each node up to the largest source. *)
Definition pyg_degree (edges : list (nat * nat)) : list nat :=
  map (fun v => length (filter (fun e => fst e =? v) edges)) (seq 0 (S (list_max (map fst edges)))).
Definition node_degrees (g : tu_graph) : list nat :=
  match u_edge_mat g with [] => repeat 0 (length (u_x g)) | es => pyg_degree es end.
(** [numpy.unique]: the distinct values in increasing order. *)
Definition unique (l : list nat) : list nat :=
  filter (fun d => existsb (Nat.eqb d) l) (seq 0 (S (list_max l))).
Fixpoint encode_degrees (uniques corrs : list nat) (gs : list tu_graph) : list tu_graph :=
  match gs with
  | [] => []
  | g :: r =>
      let n := length (u_x g) in
      mkTUG (u_size g) (u_label g) (u_tags g) (u_max_neighbor g) (u_edge_mat g)
        (map (one_hot (length uniques)) (firstn n corrs)) ::
      encode_degrees uniques (skipn n corrs) r
  end.
Definition degree_features (gs : list tu_graph) : result (list tu_graph) :=
  let degs := flat_map node_degrees gs in
  match gs with
  | [] => Err RuntimeError
  | _ =>
      let uniques := unique degs in
      let* corrs := mapM (fun d => match index_of d uniques with Some i => Ok i | None => Err KeyError end) degs in
      Ok (encode_degrees uniques corrs gs)
  end.

(** tu_utils.py:57-183  [load_data]. *)
Definition load_data (order : list nat -> list nat) (degree_as_tag : bool) (f : list line)
  : result (list tu_graph * nat) :=
  let* r := read_file f in
  let (ss, labels) := r in
  let* gs := mapM (add_edge_mat labels) ss in
  let gs := if degree_as_tag
            then map (fun p => mkTUG (u_size (snd p)) (u_label (snd p)) (nx_degrees (s_g (fst p)))
                                 (u_max_neighbor (snd p)) (u_edge_mat (snd p)) []) (combine ss gs)
            else gs in
  let* gs := tag_features order gs in
  let* gs := (if degree_as_tag then degree_features gs else Ok gs) in
  Ok (gs, length labels).

(** ** tu_utils.py:186-194  [S2V_to_PyG]. *)
Record pyg := mkPyG { p_edge_index : list (nat * nat); p_x : list (list Z); p_num_nodes : nat; p_y : list nat }.
Definition to_pyg (g : tu_graph) : pyg :=
  mkPyG (u_edge_mat g) (u_x g) (length (u_x g)) [u_label g].

(** ** Folds *)
(** sklearn's [StratifiedKFold.split] for one seed.  [assign labels] is the fold number it gives to
    every sample, or the exception it raises (too few members in every class, say).  Fold [i] tests
    the samples with number [i] and trains on the others, both in increasing order. *)
Definition kfold (k : nat) (test_folds : list nat) : list (list nat * list nat) :=
  map (fun i =>
         (map fst (filter (fun p => negb (snd p =? i)) (combine (seq 0 (length test_folds)) test_folds)),
          map fst (filter (fun p => snd p =? i) (combine (seq 0 (length test_folds)) test_folds)))) (seq 0 k).

(** tu_utils.py:229-239 [get_fold_indices], given the labels of the samples. *)
Definition get_fold_indices (assign : list nat -> result (list nat)) (labels : list nat) (fold : Z)
  : result (list nat * list nat) :=
  if ((0 <=? fold) && (fold <? 10))%Z then
    let* folds := assign labels in get (kfold 10 folds) (Z.to_nat fold)
  else Err AssertionError.
(** tu_utils.py:197-210 [separate_data]: the same indices, applied to the list. *)
Definition separate_data {A} (assign : list nat -> result (list nat)) (label : A -> nat) (gs : list A) (fold : Z)
  : result (list A * list A) :=
  let* p := get_fold_indices assign (map label gs) fold in
  let* tr := mapM (get gs) (fst p) in
  let* te := mapM (get gs) (snd p) in
  Ok (tr, te).
