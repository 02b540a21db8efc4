(** Model of data/utils.py: lifting graphs to clique complexes and ring complexes. *)
From Coq Require Import List Arith Lia ZArith Bool.
From Verif Require Import Base ScatterModel ComplexModel.
Import ListNotations.

(** A cell is the tuple of its vertices. *)
Notation cell := (list nat) (only parsing).
Definition ceqb (a b : cell) : bool := if list_eq_dec Nat.eq_dec a b then true else false.
Definition mem (s : cell) (l : list cell) : bool := existsb (ceqb s) l.

(** Python dictionaries with tuples as keys, in insertion order. *)
Definition dict (A : Type) := list (cell * A).
Fixpoint dget {A} (m : dict A) (k : cell) : option A :=
  match m with
  | [] => None
  | (k', a) :: m' => if ceqb k k' then Some a else dget m' k
  end.
Fixpoint dset {A} (m : dict A) (k : cell) (a : A) : dict A :=
  match m with
  | [] => [(k, a)]
  | (k', a') :: m' => if ceqb k k' then (k', a) :: m' else (k', a') :: dset m' k a
  end.
(** [if k not in m: m[k] = list()] followed by [m[k].append(a)]. *)
Definition dappend {A} (m : dict (list A)) (k : cell) (a : A) : dict (list A) :=
  dset m k (match dget m k with Some l => l | None => [] end ++ [a]).

(** [sorted]. *)
Fixpoint sinsert {A} (leb : A -> A -> bool) (a : A) (l : list A) : list A :=
  match l with
  | [] => [a]
  | b :: l' => if leb a b then a :: l else b :: sinsert leb a l'
  end.
Fixpoint sort {A} (leb : A -> A -> bool) (l : list A) : list A :=
  match l with [] => [] | a :: l' => sinsert leb a (sort leb l') end.
Fixpoint lex_leb (a b : cell) : bool :=
  match a, b with
  | [], _ => true
  | _ :: _, [] => false
  | x :: a', y :: b' => (x <? y) || ((x =? y) && lex_leb a' b')
  end.

(** [itertools.combinations(l, 2)]. *)
Fixpoint pairs {A} (l : list A) : list (A * A) :=
  match l with [] => [] | a :: l' => map (pair a) l' ++ pairs l' end.
(** [itertools.combinations(l, k)]. *)
Fixpoint combs {A} (k : nat) (l : list A) : list (list A) :=
  match k, l with
  | 0, _ => [[]]
  | S _, [] => []
  | S k', a :: l' => map (cons a) (combs k' l') ++ combs k l'
  end.

(** ** gudhi's simplex tree
    The set of simplices that a sequence of [insert]s followed by [expansion(k)] puts into the tree
    is computed here; in which order [get_simplices] and [get_cofaces] enumerate is left to an
    arbitrary function ([lib] below).  A simplex is a strictly increasing list. *)
Fixpoint sublists (l : cell) : list cell :=
  match l with [] => [[]] | a :: l' => map (cons a) (sublists l') ++ sublists l' end.
Definition add_new (tree : list cell) (s : cell) : list cell :=
  match s with [] => tree | _ => if mem s tree then tree else tree ++ [s] end.
(** SimplexTree.insert: the simplex on the set of the given vertices and all its faces. *)
Definition st_insert (tree : list cell) (s : cell) : list cell :=
  fold_left add_new (sublists (sort Nat.leb (nodup Nat.eq_dec s))) tree.

(** data/utils.py:19-37  ([edges] are the columns of edge_index). *)
Definition pyg_to_simplex_tree (edges : list (nat * nat)) (size : nat) : list cell :=
  fold_left st_insert (map (fun e => [fst e; snd e]) edges)
    (fold_left st_insert (map (fun v => [v]) (seq 0 size)) []).

(** SimplexTree.expansion(k): all simplices of dimension at most [k] whose edges are in the tree.
    (It does nothing for k <= 1.) *)
Definition extend (tree : list cell) (s : cell) : list cell :=
  map (fun v => v :: s)
    (filter (fun v => forallb (fun u => (v <? u) && mem [v; u] tree) s)
            (concat (filter (fun t => length t =? 1) tree))).
Fixpoint levels (tree : list cell) (l : list cell) (k : nat) : list cell :=
  match k with
  | 0 => []
  | S k' => let l' := flat_map (extend tree) l in l' ++ levels tree l' k'
  end.
Definition expansion (k : nat) (tree : list cell) : list cell :=
  tree ++ levels tree (filter (fun t => length t =? 2) tree) (k - 1).

(** What the code sees of a simplex tree. *)
Record simplex_tree := mkST {
  st_simplices : list cell;            (* get_simplices() *)
  st_cofaces : cell -> list cell       (* get_cofaces(s, codimension=1) *)
}.
(** [dimension() + 1]. *)
Definition st_levels (st : simplex_tree) : nat := list_max (map (@length nat) (st_simplices st)).

(** ** Tables *)
(** data/utils.py:45-65 *)
Definition table_step (tm : list (list cell) * list (dict nat)) (s : cell)
  : result (list (list cell) * list (dict nat)) :=
  let dim := length s - 1 in
  if dim =? 0 then Ok tm else
  let* t := get (fst tm) dim in
  let* maps := upd (snd tm) dim (fun m => dset m s (length t)) in
  let* tables := upd (fst tm) dim (fun t => t ++ [s]) in
  Ok (tables, maps).

Definition build_tables (st : simplex_tree) (size : nat)
  : result (list (list cell) * list (dict nat)) :=
  let n := st_levels st in
  let* tables := upd (repeat [] n) 0 (fun _ => map (fun v => [v]) (seq 0 size)) in
  let* maps := upd (repeat [] n) 0 (fun _ => map (fun v => ([v], v)) (seq 0 size)) in
  foldM table_step (tables, maps) (st_simplices st).

(** data/utils.py:40-42 *)
Definition get_simplex_boundaries (s : cell) : list cell := combs (length s - 1) s.

(** data/utils.py:68-100 *)
Record bmaps := mkB {
  b_tables : list (list (list nat));          (* boundaries_tables *)
  b_bnd : list (dict (list cell));            (* boundaries *)
  b_cob : list (dict (list cell))             (* coboundaries *)
}.

Definition key_get {A} (m : dict A) (k : cell) : result A := of_option KeyError (dget m k).

Definition cob_step (s : cell) (b : bmaps) (c : cell) : result bmaps :=
  let* _ := assert_ (length c =? length s + 1) in
  let* cob := upd (b_cob b) (length s - 1) (fun m => dappend m s c) in
  let* bnd := upd (b_bnd b) (length s - 1 + 1) (fun m => dappend m c s) in
  Ok (mkB (b_tables b) bnd cob).

Definition extract_step (st : simplex_tree) (id_maps : list (dict nat)) (b : bmaps) (s : cell)
  : result bmaps :=
  let dim := length s - 1 in
  let* b1 :=
    (if 0 <? dim then
       let* m := get id_maps (dim - 1) in
       let* ids := mapM (key_get m) (get_simplex_boundaries s) in
       let* t := upd (b_tables b) dim (fun t => t ++ [ids]) in
       Ok (mkB t (b_bnd b) (b_cob b))
     else Ok b) in
  foldM (cob_step s) b1 (st_cofaces st s).

(** [n] is the dimension of the complex plus one. *)
Definition extract_boundaries (st : simplex_tree) (id_maps : list (dict nat)) (n : nat) : result bmaps :=
  foldM (extract_step st id_maps) (mkB (repeat [] n) (repeat [] (n + 1)) (repeat [] (n + 1)))
    (st_simplices st).

(** data/utils.py:103-138.  The lists of one simplex are appended at once. *)
Record adjs := mkA {
  a_upper : list (list (nat * nat));
  a_lower : list (list (nat * nat));
  a_shb : list (list nat);
  a_shc : list (list nat)
}.

Definition id_pairs (m : dict nat) (l : list cell) : result (list (nat * nat)) :=
  mapM (fun p => let* i := key_get m (fst p) in let* j := key_get m (snd p) in Ok (i, j)) (pairs l).
Definition both_ways (l : list (nat * nat)) : list (nat * nat) :=
  flat_map (fun p => [(fst p, snd p); (snd p, fst p)]) l.

Definition adj_step (b : bmaps) (id_maps : list (dict nat)) (n : nat) (down : bool) (dim : nat)
    (a : adjs) (e : cell * nat) : result adjs :=
  let* a1 :=
    (if 0 <? dim then
       let* bm := get (b_bnd b) dim in
       let* bs := key_get bm (fst e) in
       let* m := get id_maps (dim - 1) in
       let* ps := id_pairs m bs in
       let* up := upd (a_upper a) (dim - 1) (fun l => l ++ both_ways ps) in
       let* shc := upd (a_shc a) (dim - 1) (fun l => l ++ repeat (snd e) (2 * length ps)) in
       Ok (mkA up (a_lower a) (a_shb a) shc)
     else Ok a) in
  if down && (dim + 1 <? n) then
    let* cm := get (b_cob b) dim in
    match dget cm (fst e) with
    | None => Ok a1
    | Some cs =>
        let* m := get id_maps (dim + 1) in
        let* ps := id_pairs m cs in
        let* lo := upd (a_lower a1) (dim + 1) (fun l => l ++ both_ways ps) in
        let* shb := upd (a_shb a1) (dim + 1) (fun l => l ++ repeat (snd e) (2 * length ps)) in
        Ok (mkA (a_upper a1) lo shb (a_shc a1))
    end
  else Ok a1.

Definition build_adj (b : bmaps) (id_maps : list (dict nat)) (n : nat) (down : bool) : result adjs :=
  foldM (fun a dim => let* m := get id_maps dim in foldM (adj_step b id_maps n down dim) a m)
    (mkA (repeat [] n) (repeat [] n) (repeat [] n) (repeat [] n)) (seq 0 n).

Section Features.
Context {V : Type} (o : ops V).

(** data/utils.py:141-155 *)
Definition level_features (r : reduce) (vx : list V) (cells : list cell) : result (list V) :=
  let aux1 := concat (mapi (fun c cell => repeat c (length cell)) cells) in
  let aux0 := concat cells in
  let* rows := index_select vx aux0 in
  scatter o r (Some (length cells)) aux1 rows.

Definition construct_features (r : reduce) (vx : list V) (tables : list (list cell)) : result (list (list V)) :=
  let* rest := mapM (level_features r vx) (tl tables) in Ok (vx :: rest).

(** data/utils.py:158-174  (labels of the vertices, label of the complex). *)
Definition extract_labels (y : option (list Z)) (size : nat) : result (option (list Z) * option (list Z)) :=
  match y with
  | None => Ok (None, None)
  | Some l =>
      if length l =? 1 then Ok (None, Some l)
      else let* _ := assert_ (length l =? size) in Ok (Some l, None)
  end.

Definition nonempty {A} (l : list A) : option (list A) := match l with [] => None | _ => Some l end.

(** data/utils.py:177-221 *)
Definition generate_cochain (dim : nat) (x : option (list V)) (a : adjs) (tables : list (list cell))
    (btables : list (list (list nat))) (n : nat) (y : option (list Z)) : result (cochain V) :=
  let* upper := get (a_upper a) dim in
  let* lower := get (a_lower a) dim in
  let* shb := get (a_shb a) dim in
  let* shc := get (a_shc a) dim in
  let* _ := (if dim =? 0 then
               let* _ := assert_ (length lower =? 0) in assert_ (length shb =? 0)
             else Ok tt) in
  let* ndown := (if 0 <? dim then let* t := get tables (dim - 1) in Ok (Some (length t)) else Ok None) in
  let* nup := (if dim + 1 <? n then let* t := get tables (dim + 1) in Ok (length t) else Ok 0) in
  let* bt := get btables dim in
  let bidx := nonempty bt in
  let* _ := (match ndown with None => assert_ (negb (isSome (nonempty shb))) | Some _ => Ok tt end) in
  let* _ := (if nup =? 0 then assert_ (negb (isSome (nonempty shc))) else Ok tt) in
  let* _ := (if isSome (nonempty upper) then
               match nonempty shc with
               | None => Err AttributeError
               | Some s =>
                   let* _ := assert_ (length upper =? length s) in
                   let* m := list_max_err s in
                   assert_ (nup =? m + 1)
               end
             else Ok tt) in
  let* _ := (if isSome (nonempty lower) then
               match nonempty shb with
               | None => Err AttributeError
               | Some s =>
                   let* _ := assert_ (length lower =? length s) in
                   let* m := list_max_err s in
                   match ndown with
                   | None => Err TypeError
                   | Some k => assert_ (m + 1 <=? k)
                   end
               end
             else Ok tt) in
  let c := mkCochain dim x (nonempty upper) (nonempty lower) (nonempty shb) (nonempty shc)
             (option_map (fun bt => concat (mapi (fun s bs => map (fun b => (b, s)) bs) bt)) bidx)
             None None y None None (Some (Some nup)) (Some ndown) in
  let* _ := init_checks c in
  Ok c.

(** data/utils.py:261-270, 488-496 *)
Definition assemble (xs : list (option (list V))) (a : adjs) (tables : list (list cell))
    (btables : list (list (list nat))) (n : nat) (v_y complex_y : option (list Z)) : result (complex V) :=
  let* cs := mapM (fun i =>
      let* x := get xs i in
      generate_cochain i x a tables btables n (if i =? 0 then v_y else None)) (seq 0 n) in
  mk_complex cs complex_y (Some (n - 1)).

(** data/utils.py:224-272.  [lib] is gudhi: given the set of simplices, how they are enumerated. *)
Definition compute_clique_complex (lib : list cell -> simplex_tree) (r : reduce) (x : list V)
    (edges : list (nat * nat)) (size k : nat) (y : option (list Z)) (down : bool) : result (complex V) :=
  let st := lib (expansion k (pyg_to_simplex_tree edges size)) in
  let n := st_levels st in
  let* tm := build_tables st size in
  let* b := extract_boundaries st (snd tm) n in
  let* a := build_adj b (snd tm) n down in
  let* xs := construct_features r x (fst tm) in
  let* ys := extract_labels y size in
  assemble (map Some xs) a (fst tm) (b_tables b) n (fst ys) (snd ys).

(** ** Rings *)
(** data/utils.py:300-330.  [isos k] are the embeddings of the [k]-cycle that
    [subgraph_isomorphism(induced=True)] yields for the graph, [set_order] the order in which the
    set [rings] is iterated. *)
Definition ring_step (rs : list cell * list cell) (iso : cell) : list cell * list cell :=
  if mem (sort Nat.leb iso) (snd rs) then rs
  else (fst rs ++ [iso], snd rs ++ [sort Nat.leb iso]).
Definition get_rings (isos : nat -> list cell) (set_order : list cell -> list cell) (max_k : nat) : list cell :=
  set_order (fst (fold_left (fun rs k => fold_left ring_step (isos k) rs) (seq 3 (max_k - 2)) ([], []))).

(** data/utils.py:333-352 *)
Definition ring_table_step (tm : list (list cell) * list (dict nat)) (c : cell)
  : result (list (list cell) * list (dict nat)) :=
  let* t := get (fst tm) 2 in
  let* maps := upd (snd tm) 2 (fun m => dset m c (length t)) in
  let* tables := upd (fst tm) 2 (fun t => t ++ [c]) in
  Ok (tables, maps).
Definition build_tables_with_rings (st : simplex_tree) (size : nat) (rings : list cell)
  : result (list (list cell) * list (dict nat)) :=
  let* tm := build_tables st size in
  match rings with
  | [] => Ok tm
  | _ =>
      let tm1 := (fst tm ++ [[]], snd tm ++ [[]]) in
      let* _ := assert_ (length (fst tm1) =? 3) in
      foldM ring_table_step tm1 rings
  end.

(** data/utils.py:355-367 *)
Definition get_ring_boundaries (ring : cell) : result (list cell) :=
  let* l := mapM (fun n =>
      let* a := get ring n in
      let* b := get ring (if n + 1 =? length ring then 0 else n + 1) in
      Ok (sort Nat.leb [a; b])) (seq 0 (length ring)) in
  Ok (sort lex_leb l).

(** data/utils.py:370-397 *)
Definition ring_boundary_step (m1 : dict nat) (c : cell) (b : bmaps) (e : cell) : result bmaps :=
  let* _ := assert_ (isSome (dget m1 e)) in
  let* bnd := upd (b_bnd b) 2 (fun m => dappend m c e) in
  let* cob := upd (b_cob b) 1 (fun m => dappend m e c) in
  let* id := key_get m1 e in
  let* t := get (b_tables b) 2 in
  let* t' := upd t (length t - 1) (fun row => row ++ [id]) in
  let* tables := upd (b_tables b) 2 (fun _ => t') in
  Ok (mkB tables bnd cob).
Definition ring_extract_step (m1 : dict nat) (b : bmaps) (c : cell) : result bmaps :=
  let* es := get_ring_boundaries c in
  let* bnd := upd (b_bnd b) 2 (fun m => dset m c []) in
  let* tables := upd (b_tables b) 2 (fun t => t ++ [[]]) in
  foldM (ring_boundary_step m1 c) (mkB tables bnd (b_cob b)) es.
Definition extract_boundaries_with_rings (st : simplex_tree) (id_maps : list (dict nat)) : result bmaps :=
  let* _ := assert_ (st_levels st <=? 2) in
  let* b := extract_boundaries st id_maps (st_levels st) in
  let* _ := assert_ (length id_maps <=? 3) in
  if length id_maps =? 3 then
    let* m1 := get id_maps 1 in
    let* m2 := get id_maps 2 in
    foldM (ring_extract_step m1) (mkB (b_tables b ++ [[]]) (b_bnd b ++ [[]]) (b_cob b ++ [[]])) (map fst m2)
  else Ok b.

(** data/utils.py:467-486: the feature rows of 1-cells from edge_attr.  [veqb] is torch.equal on
    rows. *)
Variable veqb : V -> V -> bool.
Fixpoint nget (m : list (nat * V)) (k : nat) : option V :=
  match m with [] => None | (k', v) :: m' => if k =? k' then Some v else nget m' k end.
Definition edge_feature_step (m1 : dict nat) (attr : list V) (ex : list (nat * V)) (e : nat * (nat * nat))
  : result (list (nat * V)) :=
  let* id := key_get m1 (sort Nat.leb [fst (snd e); snd (snd e)]) in
  let* f := get attr (fst e) in
  match nget ex id with
  | Some f' => let* _ := assert_ (veqb f' f) in Ok ex
  | None => Ok (ex ++ [(id, f)])
  end.
Definition edge_features (edges : list (nat * nat)) (attr : list V) (m1 : dict nat) (t1 : list cell)
  : result (list V) :=
  let* ex := foldM (edge_feature_step m1 attr) [] (mapi pair edges) in
  let* max_id := (match ex with [] => Err ValueError | _ => Ok (list_max (map fst ex)) end) in
  let* _ := assert_ (length t1 =? max_id + 1) in
  let* rows := mapM (fun id => of_option KeyError (nget ex id)) (seq 0 (max_id + 1)) in
  let* _ := assert_ (length rows =? length m1) in
  Ok rows.

(** data/utils.py:400-498.  Conversions between numpy and torch are the identity here. *)
Definition compute_ring_2complex (lib : list cell -> simplex_tree)
    (isos : list (nat * nat) -> nat -> list cell) (set_order : list cell -> list cell)
    (r : reduce) (x : list V) (edges : list (nat * nat)) (edge_attr : option (list V))
    (size : nat) (y : option (list Z)) (max_k : nat) (down init_edges init_rings : bool)
  : result (complex V) :=
  let st := lib (pyg_to_simplex_tree edges size) in
  let* _ := assert_ (st_levels st <=? 2) in
  let* _ := (if st_levels st =? 1 then assert_ (length edges =? 0) else Ok tt) in
  let* tm := build_tables_with_rings st size (get_rings (isos edges) set_order max_k) in
  let n := length (snd tm) in
  let* _ := assert_ (n <=? 3) in
  let* b := extract_boundaries_with_rings st (snd tm) in
  let* a := build_adj b (snd tm) n down in
  let* feats := construct_features r x (fst tm) in
  let* _ := (if st_levels st =? 1 then assert_ (length feats =? 1) else Ok tt) in
  let x2 := if init_rings then nth_error feats 2 else None in
  let* x1 :=
    (if init_edges && (2 <=? st_levels st) then
       match edge_attr with
       | None => let* f := get feats 1 in Ok (Some f)
       | Some attr =>
           let* m1 := get (snd tm) 1 in
           let* t1 := get (fst tm) 1 in
           let* f := edge_features edges attr m1 t1 in Ok (Some f)
       end
     else Ok None) in
  let* ys := extract_labels y size in
  assemble [Some x; x1; x2] a (fst tm) (b_tables b) n (fst ys) (snd ys).

(** ** Datasets *)
(** The graphs of a dataset (torch_geometric Data objects). *)
Record graph := mkGraph {
  g_x : list V;
  g_edges : list (nat * nat);
  g_attr : option (list V);
  g_n : nat;
  g_y : option (list Z)
}.

(** data/complex.py:234-239; [width] is the number of columns of a row (rows of one matrix have
    the same width; 1-dimensional x is not modelled). *)
Variable width : V -> nat.
Definition num_features (c : cochain V) : nat :=
  match c_x c with Some (v :: _) => width v | _ => 0 end.

(** data/utils.py:289-293, 527-533  bookkeeping of the number of features per dimension. *)
Definition check_features (nf : list (option nat)) (k : complex V) : result (list (option nat)) :=
  foldM (fun nf dim =>
      let* c := get (k_cochains k) dim in
      let* cur := get nf dim in
      match cur with
      | None => upd nf dim (fun _ => Some (num_features c))
      | Some m => let* _ := assert_ (m =? num_features c) in Ok nf
      end) nf (seq 0 (k_dim k + 1)).

(** data/utils.py:275-295.  The dimension is returned plus one. *)
Definition convert_with_gudhi (lib : list cell -> simplex_tree) (r : reduce) (dataset : list graph)
    (k : nat) (down : bool) : result (list (complex V) * nat * list (option nat)) :=
  let* res := foldM (fun acc g =>
      let* c := compute_clique_complex lib r (g_x g) (g_edges g) (g_n g) k (g_y g) down in
      let* nf := check_features (snd acc) c in
      Ok (fst (fst acc) ++ [c], Nat.max (snd (fst acc)) (k_dim c + 1), nf))
      ([], 0, repeat None (k + 1)) dataset in
  Ok (fst (fst res), snd (fst res), firstn (snd (fst res)) (snd res)).

Fixpoint list_eqb {A} (eqb : A -> A -> bool) (l l' : list A) : bool :=
  match l, l' with
  | [], [] => true
  | a :: l, b :: l' => eqb a b && list_eqb eqb l l'
  | _, _ => false
  end.

(** data/utils.py:501-545.  joblib returns the results in the order of the jobs, which are pure. *)
Definition ring_check (acc : nat * list (option nat)) (p : complex V * graph)
  : result (nat * list (option nat)) :=
  let '(c, g) := p in
  let* nf := check_features (snd acc) c in
  let* _ := (match k_y c with
             | None => assert_ (negb (isSome (g_y g)))
             | Some l => match g_y g with
                         | None => Err TypeError
                         | Some l' => assert_ (list_eqb Z.eqb l l')
                         end
             end) in
  let* c0 := get (k_cochains c) 0 in
  let* _ := (match c_x c0 with
             | None => Err TypeError
             | Some x => assert_ (list_eqb veqb x (g_x g))
             end) in
  let* _ := (if 1 <=? k_dim c then
               let* c1 := get (k_cochains c) 1 in
               match c_x c1 with
               | None => Err AttributeError
               | Some x => assert_ (length x =? length (g_edges g) / 2)
               end
             else Ok tt) in
  Ok (Nat.max (fst acc) (k_dim c + 1), nf).
Definition convert_with_rings (lib : list cell -> simplex_tree)
    (isos : list (nat * nat) -> nat -> list cell) (set_order : list cell -> list cell)
    (r : reduce) (dataset : list graph) (max_k : nat) (down init_edges init_rings : bool)
  : result (list (complex V) * nat * list (option nat)) :=
  let* ks := mapM (fun g => compute_ring_2complex lib isos set_order r (g_x g) (g_edges g) (g_attr g)
                      (g_n g) (g_y g) max_k down init_edges init_rings) dataset in
  let* res := foldM ring_check (0, [None; None; None]) (combine ks dataset) in
  Ok (ks, fst res, firstn (fst res) (snd res)).

End Features.
Arguments graph V : clear implicits.
