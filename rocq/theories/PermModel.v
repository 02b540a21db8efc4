(** Model of data/perm_utils.py. *)
From Coq Require Import List Arith Lia ZArith Bool Permutation.
From Verif Require Import Base ScatterModel ComplexModel LiftModel.
Import ListNotations.
Local Open Scope Z_scope.

(** Matrices with integer entries, as lists of rows of equal length (numpy arrays with ndim 2;
    other numbers of dimensions and non-integer entries are not modelled). *)
Definition matrix := list (list Z).
Definition entry (P : matrix) (i j : nat) : Z := nth j (nth i P []) 0.
Definition columns (P : matrix) : nat := length (nth 0 P []).
Definition column (P : matrix) (j : nat) : list Z := map (fun row => nth j row 0) P.

Definition zsum (l : list Z) : Z := fold_left Z.add l 0.
(** numpy's reductions max/min raise on empty input. *)
Definition zmax (l : list Z) : result Z := match l with [] => Err ValueError | a :: l' => Ok (fold_left Z.max l' a) end.
Definition zmin (l : list Z) : result Z := match l with [] => Err ValueError | a :: l' => Ok (fold_left Z.min l' a) end.

(** [np.all(v == np.full(n, c))] with broadcasting; incompatible shapes compare as False. *)
Definition all_equal (v : list Z) (n : nat) (c : Z) : bool :=
  if (length v =? n)%nat || (length v =? 1)%nat || (n =? 1)%nat then forallb (Z.eqb c) v else false.

Definition eye (n : nat) : matrix := map (fun i => map (fun j => if (i =? j)%nat then 1 else 0) (seq 0 n)) (seq 0 n).
Definition matrix_eqb (P Q : matrix) : bool := list_eqb (list_eqb Z.eqb) P Q.

(** data/perm_utils.py:45-57 *)
Definition is_valid_permutation_matrix (P : matrix) (n : nat) : result bool :=
  let cols := map (column P) (seq 0 (columns P)) in
  let v1 := (length P =? n)%nat in
  let v2 := all_equal (map zsum cols) n 1 in
  let v3 := all_equal (map zsum P) n 1 in
  let* m0 := mapM zmax cols in
  let* m1 := mapM zmax P in
  let v := v1 && v2 && v3 && all_equal m0 n 1 && all_equal m1 n 1 in
  if (1 <? n)%nat then
    let* l0 := mapM zmin cols in
    let* l1 := mapM zmin P in
    Ok (v && all_equal l0 n 0 && all_equal l1 n 0 && negb (matrix_eqb P (eye n)))
  else Ok v.

Section Permute.
Context {V : Type} (o : ops V).
(** Multiplication of a row by a number. *)
Variable smul : Z -> V -> V.
(** The order in which scipy's sparse product lists its non-zero entries. *)
Variable coo_order : list (nat * nat) -> list (nat * nat).

(** [P @ x] *)
Definition mat_rows (P : matrix) (x : list V) : list V :=
  map (fun row => fold_left (vadd o) (map (fun p => smul (fst p) (snd p)) (combine row x)) (vzero o)) P.
Definition mat_vec (P : matrix) (y : list Z) : list Z :=
  map (fun row => zsum (map (fun p => fst p * snd p) (combine row y))) P.

(** The entries of the (n,n) matrix with ones at the columns of edge_index, repeated columns being
    added up. *)
Definition adj_entry (edges : list (nat * nat)) (u v : nat) : Z :=
  Z.of_nat (length (filter (fun e => (fst e =? u)%nat && (snd e =? v)%nat) edges)).
(** Entry (a, b) of P A P^T. *)
Definition conj_entry (P : matrix) (edges : list (nat * nat)) (n a b : nat) : Z :=
  zsum (map (fun v => zsum (map (fun u => entry P a u * adj_entry edges u v) (seq 0 n)) * entry P b v) (seq 0 n)).

(** data/perm_utils.py:7-43.  The number of nodes of the new graph is that of its features. *)
Definition permute_graph (g : graph V) (P : matrix) : result (graph V) :=
  let* _ := assert_ (negb (isSome (g_attr g))) in
  let n := length (g_x g) in
  let* valid := is_valid_permutation_matrix P n in
  let* _ := assert_ valid in
  let x := mat_rows P (g_x g) in
  let y := match g_y g with
           | None => None
           | Some y => Some (if (length y =? n)%nat then mat_vec P y else y)
           end in
  let* edges :=
    (if (0 <? length (g_edges g))%nat then
       if forallb (fun e => (fst e <? n)%nat && (snd e <? n)%nat) (g_edges g) then
         Ok (coo_order (filter (fun p => negb (conj_entry P (g_edges g) n (fst p) (snd p) =? 0))
               (list_prod (seq 0 n) (seq 0 n))))
       else Err ValueError
     else Ok (g_edges g)) in
  Ok (mkGraph x edges None (length x) y).
End Permute.

(** [I[perm]] for the identity matrix I. *)
Definition perm_rows (n : nat) (perm : list nat) : matrix := map (fun p => nth p (eye n) []) perm.
(** data/perm_utils.py:59-72.  [draws] are the successive permutations of the random state; [None]
    when the given draws do not suffice (the loop would go on). *)
Fixpoint generate_permutation_matrices (draws : list (list nat)) (size amount : nat) : result (option (list matrix)) :=
  match amount with
  | O => Ok (Some [])
  | S a =>
      match draws with
      | [] => Ok None
      | perm :: draws' =>
          let P := perm_rows size perm in
          let* valid := is_valid_permutation_matrix P size in
          if valid then
            let* rest := generate_permutation_matrices draws' size a in
            Ok (option_map (cons P) rest)
          else generate_permutation_matrices draws' size amount
      end
  end.
