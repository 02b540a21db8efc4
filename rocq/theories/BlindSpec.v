(** Specification: cells of the same kind, and graphs whose cliques and rings are spread evenly. *)
From Coq Require Import List Arith Permutation.
From Verif Require Import Base ScatterModel ComplexModel BatchSpec BatchSpec2 LiftSpec MPIso.
Import ListNotations.

(** ** Kinds of cells *)
(** The boundary cells of [t], a cell of dimension [d]; the cells of dimension [d + 1] on whose boundary [f] is. *)
Definition faces {V} (k : complex V) (d t : nat) : list nat := map fst (filter (fun p => snd p =? t) (boundary_of k d)).
Definition cofaces {V} (k : complex V) (d f : nat) : list nat := map snd (filter (fun p => fst p =? f) (boundary_of k (S d))).

(** Up to dimension [D], cells of the same kind have the same features, boundary cells of the same kinds, and lie on
    cells of the same kinds; the two complexes have as many vertices of every kind. *)
Record equitable {V T} (D : nat) (k k' : complex V) (sz sz' : nat -> nat) (kind kind' : nat -> nat -> T) : Prop := {
  eq_row : forall d i i', d <= D -> i < sz d -> i' < sz' d -> kind d i = kind' d i' ->
    nth_error (content (attr c_x d k)) i = nth_error (content (attr c_x d k')) i';
  eq_faces : forall d i i', S d <= D -> i < sz (S d) -> i' < sz' (S d) -> kind (S d) i = kind' (S d) i' ->
    Permutation (map (kind d) (faces k (S d) i)) (map (kind' d) (faces k' (S d) i'));
  eq_cofaces : forall d i i', S d <= D -> i < sz d -> i' < sz' d -> kind d i = kind' d i' ->
    Permutation (map (kind (S d)) (cofaces k d i)) (map (kind' (S d)) (cofaces k' d i'));
  eq_nodes : Permutation (map (kind 0) (seq 0 (sz 0))) (map (kind' 0) (seq 0 (sz' 0)))
}.

(** ** Graphs *)
(** [n] nodes have the property. *)
Definition count_nodes (P : nat -> Prop) (n : nat) : Prop := exists l, NoDup l /\ length l = n /\ forall v, In v l <-> P v.

(** Every clique with [s] nodes, [s] at most [k], lies in exactly [deg s] cliques with one more node. *)
Definition clique_regular (edges : list (nat * nat)) (size k : nat) (deg : nat -> nat) : Prop :=
  forall s, clique edges size s -> length s <= k ->
    count_nodes (fun v => forall u, In u s -> adjacent edges u v) (deg (length s)).

(** Strongly regular graphs: [deg] neighbours, [lam] common neighbours of adjacent nodes, [mu] of the others. *)
Definition strongly_regular (edges : list (nat * nat)) (size deg lam mu : nat) : Prop :=
  (forall u, u < size -> count_nodes (adjacent edges u) deg) /\
  (forall u v, u < size -> v < size -> adjacent edges u v -> count_nodes (fun w => adjacent edges u w /\ adjacent edges v w) lam) /\
  (forall u v, u < size -> v < size -> u <> v -> ~ adjacent edges u v -> count_nodes (fun w => adjacent edges u w /\ adjacent edges v w) mu).

(** [L] lists the induced cycles with [k] nodes through [u] and [v], each once. *)
Definition cycles_through (edges : list (nat * nat)) (k u v : nat) (L : list (list nat)) : Prop :=
  (forall c, In c L -> induced_cycle edges c /\ length c = k /\ In u c /\ In v c) /\
  (forall c, induced_cycle edges c -> length c = k -> In u c -> In v c -> exists c', In c' L /\ same_set c c') /\
  (forall i j c c', nth_error L i = Some c -> nth_error L j = Some c' -> same_set c c' -> i = j).

(** Every node has [deg] neighbours and every edge lies on exactly [cyc k] induced cycles with [k] nodes, for [k] up to
    [max_k]. *)
Definition ring_regular (edges : list (nat * nat)) (size max_k deg : nat) (cyc : nat -> nat) : Prop :=
  (forall u, u < size -> count_nodes (adjacent edges u) deg) /\
  forall u v, adjacent edges u v -> forall k, 3 <= k <= max_k -> exists L, cycles_through edges k u v L /\ length L = cyc k.
