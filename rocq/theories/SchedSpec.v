(** Learning-rate schedules, specification. *)
From Coq Require Import List Arith ZArith QArith Qround.
Import ListNotations.
Open Scope nat_scope.

(** [v] is better than [w] by more than one part in ten thousand. *)
Definition beats (minimize : bool) (v w : Q) : Prop :=
  if minimize then (v < w * (9999 # 10000))%Q else (w * (10001 # 10000) < v)%Q.

(** After epoch [e] the last improvement was at epoch [i] (0: none yet).  Only improvements count: a score is
    compared with that of the last improvement; NaN never improves. *)
Inductive last_improvement (minimize : bool) (val : nat -> option Q) : nat -> nat -> Prop :=
| li_start : last_improvement minimize val 0 0
| li_first e v : last_improvement minimize val e 0 -> val (S e) = Some v -> last_improvement minimize val (S e) (S e)
| li_better e i v w : last_improvement minimize val e i -> 0 < i -> val i = Some w -> val (S e) = Some v ->
    beats minimize v w -> last_improvement minimize val (S e) (S e)
| li_nan e i : last_improvement minimize val e i -> val (S e) = None -> last_improvement minimize val (S e) i
| li_worse e i v w : last_improvement minimize val e i -> 0 < i -> val i = Some w -> val (S e) = Some v ->
    ~ beats minimize v w -> last_improvement minimize val (S e) i.

(** The rate is due for a reduction after epoch [e]: the number of epochs since the last improvement is a positive
    multiple of [wait]. *)
Definition due (minimize : bool) (val : nat -> option Q) (wait e : nat) : Prop :=
  exists i, last_improvement minimize val e i /\ i < e /\ Nat.divide wait (e - i).

(** [k] is the number of epochs up to [e] after which a reduction was due. *)
Definition times_due (minimize : bool) (val : nat -> option Q) (wait e k : nat) : Prop :=
  exists l, NoDup l /\ length l = k /\ forall e', In e' l <-> 1 <= e' <= e /\ due minimize val wait e'.

(** Patience [p] means a reduction after the floor of [p], plus 1, epochs. *)
Definition wait_of (patience : Q) : nat := Z.to_nat (Qfloor patience + 1).

(** [lr] multiplied [j] times by [factor]. *)
Fixpoint scaled (lr factor : Q) (j : nat) : Q := match j with 0 => lr | S j' => (scaled lr factor j' * factor)%Q end.

(** Reductions by 1e-8 or less are left out. *)
Definition effective (lr factor : Q) (j : nat) : Prop := (1 # 100000000 < scaled lr factor j - scaled lr factor (S j))%Q.

(** The rate after [k] times of being due: multiplied by [factor] once each time, as long as that is effective. *)
Definition reduced (lr factor : Q) (k : nat) (r : Q) : Prop :=
  exists j, j <= k /\ (r == scaled lr factor j)%Q /\ (forall j', j' < j -> effective lr factor j') /\
    (j = k \/ ~ effective lr factor j).
