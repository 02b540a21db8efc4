(** Specification of the families of graphs and of the runs of the scripts, for C75. *)
From Coq Require Import String List Arith Permutation.
From Coq Require Import ZArith.
From Verif Require Import Base ScatterModel ComplexModel BatchSpec MPSpec LiftModel LiftSpec MPIso CacheProps.
From Verif Require Import SelfIsoModel.
Import ListNotations.

(** A graph of a .g6 file (number of nodes, edges): no loops, nodes in range, and at least one induced cycle of at most
    [ring] nodes. *)
Definition family_graph (ring : nat) (g : nat * list (nat * nat)) : Prop :=
  (forall u v, In (u, v) (snd g) -> u < fst g /\ v < fst g /\ u <> v) /\
  exists c, induced_cycle (snd g) c /\ length c <= ring.
Definition family_of (ring : nat) (l : list (nat * list (nat * nat))) : Prop := l <> [] /\ Forall (family_graph ring) l.

(** The draws of numpy: permutations, and one of them is not the identity (of one node there is only the identity). *)
Definition fair (draws : nat -> nat -> list (list nat)) (seed n : nat) : Prop :=
  Forall (fun p => Permutation p (seq 0 n)) (draws seed n) /\
  exists p, In p (draws seed n) /\ (1 < n -> p <> seq 0 n).

(** [d] (edge list, number of nodes) is a copy of the graph with its nodes renamed, and not by the identity if there is more
    than one. *)
Definition renamed_copy (g : nat * list (nat * nat)) (d : list (nat * nat) * nat) : Prop :=
  snd d = fst g /\ NoDup (fst d) /\
  exists sigma, (forall i, i < fst g -> sigma i < fst g) /\ (forall i j, i < fst g -> j < fst g -> sigma i = sigma j -> i = j) /\
    (1 < fst g -> exists i, i < fst g /\ sigma i <> i) /\
    forall a b, In (a, b) (fst d) <-> a < fst g /\ b < fst g /\ (In (sigma a, sigma b) (snd g) \/ In (sigma b, sigma a) (snd g)).

(** What the test needs of a network: on lists of isomorphic complexes with features in dimensions 0, 1 and 2 it gives the
    same outputs, one per complex. *)
Definition blind_to_names {V} (forward : kbatch V -> result (list V)) : Prop :=
  forall ks ks' szs, ks <> [] ->
    Forall2 wf_complex ks szs -> Forall2 wf_complex ks' szs ->
    Forall (has_features 2) ks -> Forall (has_features 2) ks' ->
    Forall (fun sz => 0 < sz 0) szs ->
    Forall2 (fun q k' => isomorphic (snd q) (fst q) k') (combine ks szs) ks' ->
    exists b b' out, from_complex_list ks 2 = Ok b /\ from_complex_list ks' 2 = Ok b' /\
      forward b = Ok out /\ forward b' = Ok out /\ length out = length ks.

(** The states of the data directory: in the beginning there are the .g6 files, and then come any runs of exp/prepare_sr_tests.py
    and any loading of data sets, with any options. *)
Section Runs.
Context {V : Type} (o : ops V) (veqb : V -> V -> bool) (width : V -> nat).
Variables (lib : list (list nat) -> simplex_tree) (isos : list (nat * nat) -> nat -> list (list nat)) (so : list (list nat) -> list (list nat)).
Variables (one : V) (reduction : string -> reduce) (smul : Z -> V -> V) (coo_order : list (nat * nat) -> list (nat * nat)).
Variable draws : nat -> nat -> list (list nat).
Variable g6 : string -> option (list (nat * list (nat * nat))).
Inductive reached : store V -> Prop :=
| r_start : reached (mkStore g6 (fun _ => None) (fun _ => None))
| r_prepare s family ring permute init seed s' : reached s -> word init ->
    prepare o veqb width lib isos so one reduction smul coo_order draws s family ring permute init seed = Ok s' -> reached s'
| r_load s name ring init ds s' : reached s -> word init ->
    load_sr o veqb width lib isos so one reduction s name ring init = Ok (ds, s') -> reached s'.
End Runs.
