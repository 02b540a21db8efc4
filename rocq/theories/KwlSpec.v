(** Specification: the k-dimensional Weisfeiler-Lehman test (in its folklore form: all entries of a tuple are replaced at
    once, which is as strong as the (k+1)-dimensional test that replaces one entry at a time). *)
From Coq Require Import List Arith Bool Permutation.
Import ListNotations.

(** The tuple [a] with entry [j] replaced by [w]. *)
Definition replace {N} (a : list N) (j : nat) (w : N) : list N := firstn j a ++ w :: skipn (S j) a.
(** All tuples of length [k]. *)
Fixpoint tuples {N} (nodes : list N) (k : nat) : list (list N) :=
  match k with 0 => [[]] | S k' => map (fun p => fst p :: snd p) (list_prod nodes (tuples nodes k')) end.

Section Test.
Context {N A C : Type} (init : A -> C) (hash : C -> list (list C) -> C) (nodes : list N) (atom : list N -> A).
(** The colour of a tuple after [l] rounds: its own colour and, for every node, the colours of the tuples in which this node
    replaces an entry. *)
Fixpoint kwl (l : nat) (a : list N) : C :=
  match l with
  | 0 => init (atom a)
  | S l' => hash (kwl l' a) (map (fun w => map (fun j => kwl l' (replace a j w)) (seq 0 (length a))) nodes)
  end.
End Test.

(** In a graph with labelled nodes: what is seen of a tuple at first are the labels, which entries are equal and which are
    joined by an edge. *)
Definition joined (es : list (nat * nat)) (u v : nat) : bool :=
  existsb (fun e => ((fst e =? u) && (snd e =? v)) || ((fst e =? v) && (snd e =? u))) es.
Definition pairs {N R} (f : N -> N -> R) (a : list N) : list R := map (fun p => f (fst p) (snd p)) (list_prod a a).
Definition tuple_atom {W} (es : list (nat * nat)) (x : nat -> W) (a : list nat) : list W * list bool * list bool :=
  (map x a, pairs Nat.eqb a, pairs (joined es) a).
Definition kwl_colours {W C} (init : list W * list bool * list bool -> C) (hash : C -> list (list C) -> C)
  (es : list (nat * nat)) (x : nat -> W) (n k l : nat) : list C :=
  map (kwl init hash (seq 0 n) (tuple_atom es x) l) (tuples (seq 0 n) k).

(** Equal multisets get equal colours; different ones different colours. *)
Definition kwl_symmetric {C} (hash : C -> list (list C) -> C) : Prop := forall c u u', Permutation u u' -> hash c u = hash c u'.
Definition kwl_faithful {A C} (init : A -> C) (hash : C -> list (list C) -> C) : Prop :=
  (forall a a', init a = init a' -> a = a') /\
  (forall c u c' u', hash c u = hash c' u' -> c = c' /\ Permutation u u').
