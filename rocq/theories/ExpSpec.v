(** What the experiment scripts should report, stated without the scripts' helpers. *)
From Coq Require Import String List Arith Lia ZArith QArith Bool.
From Verif Require Import Base LiftSpec.
Import ListNotations.
Open Scope nat_scope.

(** [v] is at least as good as / strictly better than [w]. *)
Definition as_good (minimize : bool) (v w : Q) : Prop := if minimize then (v <= w)%Q else (w <= v)%Q.
Definition better (minimize : bool) (v w : Q) : Prop := if minimize then (v < w)%Q else (w < v)%Q.

(** Training stops after epoch [n]: the last one asked for, or the first at which [stop] holds. *)
Definition last_epoch (epochs : nat) (stop : nat -> bool) (n : nat) : Prop :=
  1 <= n <= epochs /\ (forall e, 1 <= e < n -> stop e = false) /\ (n = epochs \/ stop n = true).

(** Epoch [b] is the first of 1..n whose score is best. *)
Definition first_best (minimize : bool) (val : nat -> option Q) (n b : nat) : Prop :=
  1 <= b <= n /\ exists v, val b = Some v /\
  (forall e w, 1 <= e <= n -> val e = Some w -> as_good minimize v w) /\
  (forall e w, 1 <= e < b -> val e = Some w -> better minimize v w).

(** Epoch [t] is the last one up to [b] at which the train score is refreshed. *)
Definition last_refresh (period b t : nat) : Prop :=
  1 <= t <= b /\ (t = 1 \/ Nat.divide period t) /\
  (forall e, t < e <= b -> ~ Nat.divide period e).

(** The property of C44: one epoch, the first with the best validation score, and all three
    scores are its own. *)
Definition reports_best (minimize : bool) (epochs : nat) (stop : nat -> bool)
  (train val test : nat -> option Q) (r : option Q * option Q * option Q) : Prop :=
  exists n b, last_epoch epochs stop n /\ first_best minimize val n b /\
    r = (train b, val b, test b).

(** Number of unordered pairs of positions of a list related by [close]. *)
Definition close_pairs {A} (close : A -> A -> bool) (l : list A) : nat :=
  List.length (filter (fun ij => (fst ij <? snd ij) &&
      match nth_error l (fst ij), nth_error l (snd ij) with
      | Some a, Some b => close a b | _, _ => false end)
    (list_prod (seq 0 (List.length l)) (seq 0 (List.length l)))).

(** The vertex sets of the induced cycles with [k] vertices, each once, as sorted lists. *)
Definition cycle_sets (edges : list (nat * nat)) (k : nat) (L : list (list nat)) : Prop :=
  NoDup L /\
  (forall s, In s L -> exists c, induced_cycle edges c /\ List.length c = k /\ same_set s c) /\
  (forall c, induced_cycle edges c -> List.length c = k -> exists s, In s L /\ same_set s c) /\
  (forall s s', In s L -> In s' L -> same_set s s' -> s = s').
