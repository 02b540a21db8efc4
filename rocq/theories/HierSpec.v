(** Two families of pairs of graphs, for C77: cycles, and graphs without (or with) a consistent choice of bits. *)
From Coq Require Import List Arith Bool.
Import ListNotations.

(** One cycle through [n] nodes from number [from] on. *)
Definition cycle_from (from n : nat) : list (nat * nat) := map (fun i => (from + i, from + (i + 1) mod n)) (seq 0 n).
Definition long_cycle (n : nat) : list (nat * nat) := cycle_from 0 (n + n).
Definition two_cycles (n : nat) : list (nat * nat) := cycle_from 0 n ++ cycle_from n n.

(** Node [(i, f)]: in place [i] of [r] there is a choice [f] of one bit for every other place, of even parity; in the twisted
    graph the parity is odd in place 0.  Nodes in different places are adjacent if they agree on the bit between them. *)
Definition parity (f : list bool) : bool := fold_right xorb false f.
Fixpoint vectors (m : nat) : list (list bool) :=
  match m with 0 => [[]] | S m' => map (cons false) (vectors m') ++ map (cons true) (vectors m') end.
Definition choices (r i : nat) (p : bool) : list (list bool) :=
  filter (fun f => negb (nth i f false) && eqb (parity f) p) (vectors r).
Definition spots (r : nat) (twist : bool) : list (nat * list bool) :=
  flat_map (fun i => map (pair i) (choices r i (twist && (i =? 0)))) (seq 0 r).
Definition agree (a b : nat * list bool) : bool :=
  negb (fst a =? fst b) && eqb (nth (fst b) (snd a) false) (nth (fst a) (snd b) false).
Definition spot (r : nat) (twist : bool) (u : nat) : nat * list bool := nth u (spots r twist) (0, []).
Definition bit_graph (r : nat) (twist : bool) : list (nat * nat) :=
  let n := length (spots r twist) in
  filter (fun e => (fst e <? snd e) && agree (spot r twist (fst e)) (spot r twist (snd e))) (list_prod (seq 0 n) (seq 0 n)).
