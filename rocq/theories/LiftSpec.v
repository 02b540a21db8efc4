(** Specification of lifted complexes: graphs, cliques, induced cycles, and what it means for a
    complex to have given cells.  Only the records of the model are used. *)
From Coq Require Import List Arith Lia ZArith Bool Permutation.
From Verif Require Import Base ScatterModel ScatterSpec ComplexModel BatchSpec BatchSpec2.
Import ListNotations.

(** ** Graphs *)
(** Two nodes of the undirected simple graph denoted by the columns of an edge_index. *)
Definition adjacent (edges : list (nat * nat)) (u v : nat) : Prop :=
  u <> v /\ (In (u, v) edges \/ In (v, u) edges).
Definition graph_ok (edges : list (nat * nat)) (size : nat) : Prop :=
  forall u v, In (u, v) edges -> u < size /\ v < size.
Definition loop_free (edges : list (nat * nat)) : Prop := forall u v, In (u, v) edges -> u <> v.

(** A set of nodes, given by a list without repetitions, whose members are pairwise adjacent. *)
Definition clique (edges : list (nat * nat)) (size : nat) (s : list nat) : Prop :=
  s <> [] /\ NoDup s /\ (forall v, In v s -> v < size) /\
  forall u v, In u s -> In v s -> u <> v -> adjacent edges u v.

Definition same_set (a b : list nat) : Prop := forall v, In v a <-> In v b.
Definition increasing (s : list nat) : Prop :=
  forall i j a b, nth_error s i = Some a -> nth_error s j = Some b -> i < j -> a < b.

(** The vertices of an induced (chordless) cycle in cyclic order. *)
Definition next_to (k i j : nat) : Prop := j = (i + 1) mod k \/ i = (j + 1) mod k.
Definition induced_cycle (edges : list (nat * nat)) (c : list nat) : Prop :=
  3 <= length c /\ NoDup c /\
  forall i j a b, nth_error c i = Some a -> nth_error c j = Some b ->
    (adjacent edges a b <-> i <> j /\ next_to (length c) i j).

(** ** The libraries *)
(** What gudhi promises about the enumerations of a tree holding the simplices [l]. *)
Definition enumerates (l : list (list nat)) (simplices : list (list nat))
    (cofaces : list nat -> list (list nat)) : Prop :=
  NoDup simplices /\ (forall s, In s simplices <-> In s l) /\
  forall s, In s l -> NoDup (cofaces s) /\
    forall c, In c (cofaces s) <-> In c l /\ length c = S (length s) /\ incl s c.

(** What graph-tool promises: only induced cycles of length [k] are reported and every one
    (as a set of vertices) is reported, in any order and any number of times. *)
Definition finds_cycles (edges : list (nat * nat)) (k : nat) (l : list (list nat)) : Prop :=
  (forall c, In c l -> induced_cycle edges c /\ length c = k) /\
  (forall c, induced_cycle edges c -> length c = k -> exists c', In c' l /\ same_set c c').

(** ** Complexes with given cells *)
Section Complexes.
Context {V : Type} (o : ops V).
Notation complex := (complex V).

(** Adjacencies together with the cell they are attributed to. *)
Definition triples (ix : option (list (nat * nat))) (sh : option (list nat)) : list ((nat * nat) * nat) :=
  combine (content ix) (content sh).

(** [cells d] lists the vertex sets of the [d]-cells in the order of their ids. *)
Definition names (cells : nat -> list (list nat)) (d id : nat) (s : list nat) : Prop :=
  nth_error (cells d) id = Some s.

Definition face_of (cells : nat -> list (list nat)) (d f c : nat) : Prop :=
  exists sf sc, names cells d f sf /\ names cells (S d) c sc /\ incl sf sc.

(** The boundary pairs of dimension [d+1] are exactly the codimension-1 faces, once each, grouped by
    cell in the order of the cells. *)
Record boundary_exact (cells : nat -> list (list nat)) (d : nat) (c : cochain V) : Prop := {
  be_iff : forall f t, In (f, t) (content (c_bidx c)) <-> face_of cells d f t;
  be_once : NoDup (content (c_bidx c));
  be_grouped : forall i j p q, nth_error (content (c_bidx c)) i = Some p ->
    nth_error (content (c_bidx c)) j = Some q -> i < j -> snd p <= snd q
}.

(** The upper adjacencies are exactly the pairs of distinct faces of a common cell, once for each
    common cell and direction. *)
Record upper_exact (cells : nat -> list (list nat)) (d : nat) (c : cochain V) : Prop := {
  ue_aligned : length (content (c_upper c)) = length (content (c_shc c));
  ue_iff : forall a b t, In ((a, b), t) (triples (c_upper c) (c_shc c)) <->
             a <> b /\ face_of cells d a t /\ face_of cells d b t;
  ue_once : NoDup (triples (c_upper c) (c_shc c))
}.

(** The lower adjacencies of dimension [d+1] are exactly the pairs of distinct cells with a common
    face, once for each common face and direction. *)
Record lower_exact (cells : nat -> list (list nat)) (d : nat) (c : cochain V) : Prop := {
  le_aligned : length (content (c_lower c)) = length (content (c_shb c));
  le_iff : forall a b f, In ((a, b), f) (triples (c_lower c) (c_shb c)) <->
             a <> b /\ face_of cells d f a /\ face_of cells d f b;
  le_once : NoDup (triples (c_lower c) (c_shb c))
}.

(** The row of a cell: the reduction of the rows of its vertices. *)
Definition cell_row (r : reduce) (vx : list V) (s : list nat) : V :=
  reduce_rows o r (map (fun v => nth v vx (vzero o)) s).

(** A complex with exactly the given cells and full adjacency; lower adjacency on request;
    features [X d]. *)
Record has_cells (cells : nat -> list (list nat)) (down : bool) (X : nat -> option (list V))
    (k : complex) : Prop := {
  hc_wf : wf_complex k (fun d => length (cells d));
  hc_occupied : forall d, d <= k_dim k -> cells d <> [];
  hc_x : forall d c, nth_error (k_cochains k) d = Some c -> c_x c = X d;
  hc_bnd0 : forall c, nth_error (k_cochains k) 0 = Some c -> c_bidx c = None /\ c_lower c = None /\ c_shb c = None;
  hc_bnd : forall d c, nth_error (k_cochains k) (S d) = Some c -> boundary_exact cells d c;
  hc_up : forall d c, nth_error (k_cochains k) d = Some c -> upper_exact cells d c;
  hc_low : forall d c, nth_error (k_cochains k) (S d) = Some c ->
    if down then lower_exact cells d c else c_lower c = None /\ c_shb c = None
}.

End Complexes.
