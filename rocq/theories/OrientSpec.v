(** Specification for oriented convolutions: what a layer computes at one cell, what it means to
    change the orientation (and the numbering) of the cells, and batches of oriented cochains.
    Nothing here uses the functions of OrientModel, only its records. *)
From Coq Require Import List Arith ZArith Bool Permutation.
From Verif Require Import Base ScatterModel ComplexModel OrientModel.
Import ListNotations.

Definition sign (s : Z) : Prop := s = 1%Z \/ s = (-1)%Z.

Section Spec.
Context {V : Type} (o : ops V) (sc : Z -> V -> V) (vabs : V -> V).
Notation cochain := (cochain V).

(** Laws of multiplying rows by signs, used as premises only where needed.  They hold exactly for
    floating point rows, too. *)
Record sign_ok : Prop := {
  sc_one : forall v, sc 1 v = v;
  sc_mul : forall s t v, sign s -> sc s (sc t v) = sc (s * t) v;
  sc_mul_r : forall s t v, sign s -> sc t (sc s v) = sc (t * s) v;
  sc_add : forall s a b, sign s -> sc s (vadd o a b) = vadd o (sc s a) (sc s b);
  sc_zero : forall s, sign s -> sc s (vzero o) = vzero o
}.
Definition abs_ok : Prop := forall s v, sign s -> vabs (sc s v) = vabs v.

Definition odd (f : V -> V) : Prop := forall v, f (sc (-1) v) = sc (-1) (f v).

(** A layer with oriented messages, odd activation and odd (e.g. bias-free linear) updates. *)
Record odd_layer (l : olayer V) : Prop := {
  od_orient : ol_orient l = true;
  od_up : odd (ol_up l);
  od_down : odd (ol_down l);
  od_upd : odd (ol_upd l);
  od_act : odd (ol_act l)
}.

(** The content of an oriented cochain. *)
Record oriented (c : cochain) (x : list V) (up : list (nat * nat)) (su : list Z)
    (lo : list (nat * nat)) (sl : list Z) : Prop := {
  or_x : c_x c = Some x;
  or_up : c_upper c = Some up;
  or_uor : c_uor c = Some su;
  or_lo : c_lower c = Some lo;
  or_lor : c_lor c = Some sl;
  or_len_up : length su = length up;
  or_len_lo : length sl = length lo;
  or_up_lt : forall j i, In (j, i) up -> j < length x /\ i < length x;
  or_lo_lt : forall j i, In (j, i) lo -> j < length x /\ i < length x;
  or_n : c_n c = None \/ c_n c = Some (Some (length x))
}.

(** Sum of the (signed) rows of the neighbours of cell [i]. *)
Definition inflow (orient : bool) (x : list V) (adj : list (nat * nat)) (sg : list Z) (i : nat) : V :=
  fold_left (vadd o)
    (map (fun e => let v := nth (fst (fst e)) x (vzero o) in
                   if orient then sc (snd e) v else v)
       (filter (fun e => snd (fst e) =? i) (combine adj sg)))
    (vzero o).

(** Value of a layer at cell [i]. *)
Definition layer_row (l : olayer V) (x : list V) up su lo sl (i : nat) : V :=
  ol_act l (vadd o (vadd o (ol_upd l (nth i x (vzero o)))
                           (ol_up l (inflow (ol_orient l) x up su i)))
                   (ol_down l (inflow (ol_orient l) x lo sl i))).

(** Rows [x'] are the rows [x], the [i]-th one at place [p i] and multiplied by [d i]. *)
Definition moved (p : nat -> nat) (d : nat -> Z) (x x' : list V) : Prop :=
  length x' = length x /\
  forall i, i < length x -> nth_error x' (p i) = option_map (sc (d i)) (nth_error x i).

Definition moved_adj (p : nat -> nat) (d : nat -> Z) (a : list (nat * nat)) (s : list Z)
    (a' : list (nat * nat)) (s' : list Z) : Prop :=
  Permutation (combine a' s')
    (map (fun e => ((p (fst (fst e)), p (snd (fst e))),
                    (d (fst (fst e)) * d (snd (fst e)) * snd e)%Z)) (combine a s)).

(** [c'] is [c] with the cells renumbered by the bijection [p] and the orientation of cell [i]
    multiplied by the sign [d i].  With [p] the identity this flips orientations only. *)
Definition resigned (p : nat -> nat) (d : nat -> Z) (c c' : cochain) : Prop :=
  (forall i, sign (d i)) /\
  exists x up su lo sl x' up' su' lo' sl',
    oriented c x up su lo sl /\ oriented c' x' up' su' lo' sl' /\
    (forall i, i < length x -> p i < length x) /\
    (forall i j, i < length x -> j < length x -> p i = p j -> i = j) /\
    moved p d x x' /\ moved_adj p d up su up' su' /\ moved_adj p d lo sl lo' sl'.

(** Same for batches: the assignment of cells to samples is renumbered, too. *)
Definition resigned_batch (p : nat -> nat) (d : nat -> Z) (b b' : cbatch V) : Prop :=
  resigned p d (cb_cochain b) (cb_cochain b') /\
  exists bt bt', cb_batch b = Some bt /\ cb_batch b' = Some bt' /\ length bt' = length bt /\
    (forall x, c_x (cb_cochain b) = Some x -> length bt = length x) /\
    forall i, i < length bt -> nth_error bt' (p i) = nth_error bt i.

End Spec.
