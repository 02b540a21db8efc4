(** Specification vocabulary for triangulations, boundary matrices, flows and signed adjacencies.
    Only the data types of [FlowModel] are used (matrices, triangles), none of its functions
    apart from the entries of a matrix and the finite sum. *)
From Coq Require Import List Arith ZArith Bool.
From Verif Require Import Base FlowModel.
Import ListNotations.
Local Open Scope Z_scope.

(** The indicator of a node. *)
Definition ind (v i : nat) : Z := if Nat.eqb i v then 1 else 0.

(** Two different corners of a common triangle. *)
Definition side_of (ts : list tri) (a b : nat) : Prop :=
  a <> b /\ exists t, In t ts /\ In a (verts t) /\ In b (verts t).

Definition corner (ts : list tri) (v : nat) : Prop := exists t, In t ts /\ In v (verts t).

(** Column [e] of a node-edge matrix is the edge from [a] to [b]. *)
Definition edge_col (B : mat) (e a b : nat) : Prop :=
  (a < b)%nat /\ (b < m_r B)%nat /\ forall i, m_at B i e = ind b i - ind a i.

(** How often the closed curve a -> b -> c -> a runs along u -> v, reversed steps counted
    negatively. *)
Definition step (p q u v : nat) : Z :=
  (if Nat.eqb p u && Nat.eqb q v then 1 else 0) - (if Nat.eqb p v && Nat.eqb q u then 1 else 0).
Definition runs (t : tri) (u v : nat) : Z :=
  let '(a, b, c) := t in step a b u v + step b c u v + step c a u v.

(** Three different corners. *)
Definition proper (t : tri) : Prop := let '(a, b, c) := t in a <> b /\ b <> c /\ a <> c.

(** [B1], [B2] are the boundary matrices of the triangles [ts] in the graph with edge relation
    [R]: one column of [B1] for every edge, oriented from the smaller to the larger node. *)
Record boundary_pair (R : nat -> nat -> Prop) (ts : list tri) (B1 B2 : mat) : Prop := {
  bp_rows : m_r B2 = m_c B1;
  bp_tris : m_c B2 = length ts;
  bp_cols : forall e, (e < m_c B1)%nat -> exists a b, R a b /\ edge_col B1 e a b;
  bp_each : forall a b, R a b -> (a < b)%nat ->
              exists e, (e < m_c B1)%nat /\ edge_col B1 e a b /\
                        forall e', (e' < m_c B1)%nat -> edge_col B1 e' a b -> e' = e;
  bp_runs : forall e a b k t, (e < m_c B1)%nat -> edge_col B1 e a b -> nth_error ts k = Some t ->
              m_at B2 e k = runs t a b;
  bp_proper : forall t, In t ts -> proper t;
  bp_sides : forall a b, side_of ts a b -> R a b
}.

(** The product of two matrices of matching shapes vanishes. *)
Definition product_zero (A B : mat) : Prop :=
  m_c A = m_r B /\
  forall i k, (i < m_r A)%nat -> (k < m_c B)%nat ->
    sumZ (m_c A) (fun j => m_at A i j * m_at B j k) = 0.

(** A column with one -1, one +1 and zeros. *)
Definition edge_like (B : mat) (j : nat) : Prop :=
  exists a b, (a < m_r B)%nat /\ (b < m_r B)%nat /\ m_at B a j = -1 /\ m_at B b j = 1 /\
    forall i, (i < m_r B)%nat -> i <> a -> i <> b -> m_at B i j = 0.

(** A column with exactly three non-zero entries, of absolute value one. *)
Definition triangle_like (B : mat) (j : nat) : Prop :=
  exists a b c, (a < m_r B)%nat /\ (b < m_r B)%nat /\ (c < m_r B)%nat /\
    a <> b /\ b <> c /\ a <> c /\
    Z.abs (m_at B a j) = 1 /\ Z.abs (m_at B b j) = 1 /\ Z.abs (m_at B c j) = 1 /\
    forall i, (i < m_r B)%nat -> i <> a -> i <> b -> i <> c -> m_at B i j = 0.

(** Nodes in their order along a walk, all steps being sides. *)
Fixpoint walk_along (R : nat -> nat -> Prop) (p : list nat) : Prop :=
  match p with
  | u :: ((v :: _) as p') => R u v /\ walk_along R p'
  | _ => True
  end.

(** Net number of times a walk runs along u -> v. *)
Fixpoint net (p : list nat) (u v : nat) : Z :=
  match p with
  | a :: ((b :: _) as p') => step a b u v + net p' u v
  | _ => 0
  end.

Definition starts (p : list nat) (v : nat) : Prop := hd_error p = Some v.
Definition ends (p : list nat) (v : nat) : Prop := hd_error (rev p) = Some v.

(** The divergence of an edge flow. *)
Definition outflow (B1 : mat) (x : list Z) (i : nat) : Z :=
  sumZ (m_c B1) (fun e => m_at B1 i e * nth e x 0).

(** Entry of the product of the transpose of [B] with [B]. *)
Definition gram (B : mat) (i j : nat) : Z := sumZ (m_r B) (fun k => m_at B k i * m_at B k j).

(** [adj] (with signs [sg]) lists every pair of different columns of [B] with a non-zero inner
    product exactly once, with the sign of the product. *)
Definition signed_adjacency (B : mat) (adj : list (nat * nat)) (sg : list Z) : Prop :=
  length adj = length sg /\ NoDup adj /\
  forall i j s, In (i, j, s) (combine adj sg) <->
    (i < m_c B)%nat /\ (j < m_c B)%nat /\ i <> j /\ gram B i j <> 0 /\ s = Z.sgn (gram B i j).

(** A change of orientation: +1 or -1 for every edge. *)
Definition signs (d : nat -> Z) : Prop := forall i, d i = 1 \/ d i = -1.
