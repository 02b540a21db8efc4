(** Model of the oriented convolution and of the two edge-flow networks:
    mp/layers.py:430-470 (OrientedConv), mp/models.py:476-546 (EdgeOrient) and 549-615 (EdgeMPNN).

    A row of features is an element of [V]; multiplying a row by an integer orientation is [sc],
    taking absolute values of a row is [vabs].  Networks are arbitrary functions on rows. *)
From Coq Require Import List Arith Lia ZArith Bool.
From Verif Require Import Base ScatterModel ComplexModel MPModel.
Import ListNotations.

Section Orient.
Context {V : Type} (o : ops V) (sc : Z -> V -> V) (vabs : V -> V).
Notation cochain := (cochain V).

(** mp/layers.py:430-441  attributes of an OrientedConv. *)
Record olayer := mkOLayer {
  ol_up : V -> V;          (* update_up_nn *)
  ol_down : V -> V;        (* update_down_nn *)
  ol_upd : V -> V;         (* update_nn *)
  ol_act : V -> V;         (* act_fn *)
  ol_orient : bool
}.

(** An attribute that must not be None. *)
Definition need {A} (e : exn) (a : option A) : result A :=
  match a with Some v => Ok v | None => Err e end.

(** Both rows of an index tensor. *)
Definition ends (u : list (nat * nat)) : list nat := map fst u ++ map snd u.

(** mp/layers.py:449-450 with mp/cell_mp.py:357-392, 195-282, 423-459 and mp/layers.py:462-470:
    the rows of the first entries of the columns, times the orientations, summed at the second
    entries. *)
Definition oriented_aggregate (orient : bool) (index : list (nat * nat)) (x : list V)
    (sg : list Z) : result (list V) :=
  let* xj := index_select x (map fst index) in
  scatter o RAdd (Some (length x)) (map snd index) (if orient then zipw sc sg xj else xj).

(** mp/layers.py:443-455  OrientedConv.forward. *)
Definition oriented_conv (l : olayer) (c : cochain) : result (list V) :=
  let* uor := need TypeError (c_uor c) in
  let* up := need AttributeError (c_upper c) in
  let* _ := assert_ (length uor =? length up) in
  let* lor := need TypeError (c_lor c) in
  let* lo := need AttributeError (c_lower c) in
  let* _ := assert_ (length lor =? length lo) in
  let* mu := list_max_err (ends up) in
  let* x := need TypeError (c_x c) in
  let* _ := assert_ (mu <? length x) in
  let* ml := list_max_err (ends lo) in
  let* _ := assert_ (ml <? length x) in
  let* out_up := oriented_aggregate (ol_orient l) up x uor in
  let* out_down := oriented_aggregate (ol_orient l) lo x lor in
  Ok (map (ol_act l)
        (addt o (addt o (map (ol_upd l) x) (map (ol_up l) out_up)) (map (ol_down l) out_down))).

(** mp/models.py:514-516 and 585-587: the layers; every one overwrites the features. *)
Fixpoint conv_loop (ls : list olayer) (c : cochain) : result cochain :=
  match ls with
  | [] => Ok c
  | l :: ls' =>
      let* x := oriented_conv l c in
      let* c' := set_x c (Some x) in
      conv_loop ls' c'
  end.

(** mp/models.py:481-504 and 554-575.  [om_head] is lin2 after relu after lin1 (dropout is the
    identity in evaluation mode); jumping knowledge is never used by the forward pass. *)
Record omodel := mkOModel {
  om_invar : bool;           (* fully_invar *)
  om_layers : list olayer;
  om_pool : reduce;
  om_head : V -> V
}.

(** mp/models.py:511-540 and 582-609  forward; returns the predictions, the cell predictions and
    the batch whose features the pass has overwritten.  Without layers [x] is never bound. *)
Definition edge_forward (m : omodel) (b : cbatch V) : result (list V * list V * cbatch V) :=
  let* c0 := (if om_invar m then
                let* x := need TypeError (c_x (cb_cochain b)) in
                set_x (cb_cochain b) (Some (map vabs x))
              else Ok (cb_cochain b)) in
  let* c := conv_loop (om_layers m) c0 in
  let* x := match om_layers m with [] => Err NameError | _ => need TypeError (c_x c) end in
  let* bt := need AttributeError (cb_batch b) in
  let* s := list_max_err bt in
  let* pooled := scatter o (om_pool m) (Some (S s)) bt (if om_invar m then x else map vabs x) in
  Ok (map (om_head m) pooled, x, mkCBatch c (cb_batch b) (cb_ptr b)).

(** mp/models.py:476-504  EdgeOrient: [up], [down], [upd] of a layer are bias-free linear maps and
    the messages are oriented unless the model is fully invariant. *)
Definition edge_orient (invar : bool) (lins : list ((V -> V) * (V -> V) * (V -> V)))
    (act : V -> V) (pool : reduce) (head : V -> V) : omodel :=
  mkOModel invar
    (map (fun t => mkOLayer (fst (fst t)) (snd (fst t)) (snd t) act (negb invar)) lins) pool head.

(** mp/models.py:549-575  EdgeMPNN: the upper messages are replaced by the number 0. *)
Definition edge_mpnn (invar : bool) (lins : list ((V -> V) * (V -> V)))
    (act : V -> V) (pool : reduce) (head : V -> V) : omodel :=
  mkOModel invar
    (map (fun t => mkOLayer (fun _ => vzero o) (fst t) (snd t) act (negb invar)) lins) pool head.

End Orient.

Arguments mkOLayer {V}. Arguments ol_up {V}. Arguments ol_down {V}. Arguments ol_upd {V}.
Arguments ol_act {V}. Arguments ol_orient {V}.
Arguments mkOModel {V}. Arguments om_invar {V}. Arguments om_layers {V}. Arguments om_pool {V}.
Arguments om_head {V}.
Arguments olayer V : clear implicits. Arguments omodel V : clear implicits.
