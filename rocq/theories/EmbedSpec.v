(** Specification of the initial features, cell by cell. *)
From Coq Require Import List Arith ZArith Bool.
From Verif Require Import Base ScatterModel ScatterSpec ComplexModel BatchSpec BatchSpec2 MPSpec.
Import ListNotations.

Section Spec.
Context {V : Type} (o : ops V).

(** [ev], [ee]: embeddings of vertex and edge features; [r]: the reduction; [has_e]: do the edges
    carry features of their own? *)
Variables (ev : V -> V) (ee : V -> V) (r : reduce).

(** The reduction of the embedded endpoints of edge [i]. *)
Definition from_endpoints (S : skel) (X : feats V) (i : nat) : V :=
  reduce_rows o r (map (fun p => ev (X 0 (fst p))) (bnd_at S 1 i)).

Definition embed_feats (has_e : bool) (S : skel) (X : feats V) : feats V := fun d i =>
  match d with
  | 0 => ev (X 0 i)
  | 1 => if has_e then ee (X 1 i) else from_endpoints S X i
  | 2 => vdivn o (reduce_rows o r (map (fun p => from_endpoints S X (fst p)) (bnd_at S 2 i))) 2
  | _ => vzero o
  end.

(** The dimension of the complex is attained and every cell of positive dimension has a boundary. *)
Record bounded (k : complex V) (sz : nat -> nat) : Prop := {
  bd_pos : forall d, d <= k_dim k -> 0 < sz d;
  bd_face : forall d t, 0 < d <= k_dim k -> t < sz d -> exists f, In (f, t) (content (attr c_bidx d k))
}.

(** Do the edges of [k] carry features? *)
Definition edge_feats (k : complex V) : bool := isSome (attr c_x 1 k).

End Spec.
