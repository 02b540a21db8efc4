(** What a TU text file says and how it should be read (C42), and cross-validation (C43). *)
From Coq Require Import List Arith ZArith Bool.
From Verif Require Import Base TUModel.
Import ListNotations.

(** ** Documents *)
(** A node: its tag, its neighbours and any further words. *)
Record node_line := mkNode { n_tag : Z; n_nbrs : list nat; n_attrs : list token }.
Record doc := mkDoc { d_label : Z; d_nodes : list node_line }.

Definition node_words (nd : node_line) : line :=
  TInt (n_tag nd) :: TInt (Z.of_nat (length (n_nbrs nd))) ::
  map (fun v => TInt (Z.of_nat v)) (n_nbrs nd) ++ n_attrs nd.
Definition doc_lines (d : doc) : list line :=
  [TInt (Z.of_nat (length (d_nodes d))); TInt (d_label d)] :: map node_words (d_nodes d).
Definition file_lines (ds : list doc) : list line :=
  [TInt (Z.of_nat (length ds))] :: flat_map doc_lines ds.

(** Node [u]'s line mentions [v]; the edge between [u] and [v] is mentioned at either end. *)
Definition mentions (d : doc) (u v : nat) : Prop :=
  exists nd, nth_error (d_nodes d) u = Some nd /\ In v (n_nbrs nd).
Definition linked (d : doc) (u v : nat) : Prop := mentions d u v \/ mentions d v u.

(** Neighbours are nodes of the graph and there is an edge. *)
Definition doc_ok (d : doc) : Prop :=
  (forall u v, mentions d u v -> v < length (d_nodes d)) /\ exists u v, mentions d u v.

(** ** Numbering by first appearance *)
Record numbered (raw : list Z) (num : list nat) (k : nat) : Prop := {
  nb_len : length num = length raw;
  nb_inj : forall i j a b m n, nth_error raw i = Some a -> nth_error raw j = Some b ->
    nth_error num i = Some m -> nth_error num j = Some n -> (a = b <-> m = n);
  nb_bound : forall i m, nth_error num i = Some m -> m < k;
  nb_first : forall i m m', nth_error num i = Some m -> m' < m -> exists j, j < i /\ nth_error num j = Some m';
  nb_all : forall m, m < k -> In m num
}.

(** ** Edges in both directions *)
Definition occurrences (e : nat * nat) (es : list (nat * nat)) : nat :=
  length (filter (fun e' => (fst e' =? fst e) && (snd e' =? snd e)) es).
(** An edge between different nodes is there once in each direction, a self-loop twice. *)
Record both_directions (d : doc) (es : list (nat * nat)) : Prop := {
  bd_edge : forall u v, linked d u v -> u <> v -> occurrences (u, v) es = 1;
  bd_loop : forall u, linked d u u -> occurrences (u, u) es = 2;
  bd_only : forall u v, In (u, v) es -> linked d u v
}.
(** Number of distinct neighbours, a self-loop counting twice. *)
Definition degree_is (d : doc) (v k : nat) : Prop :=
  exists nb, NoDup nb /\ (forall w, In w nb <-> linked d v w) /\
    ((linked d v v /\ k = length nb + 1) \/ (~ linked d v v /\ k = length nb)).

(** A row of length [k] with 1 at [i] and 0 elsewhere. *)
Definition hot_at (k i : nat) (row : list Z) : Prop :=
  length row = k /\ i < k /\ forall j z, nth_error row j = Some z -> z = (if j =? i then 1%Z else 0%Z).
