(** Specification of message passing on a cell complex, cell by cell, without tensors.
    Nothing here uses the functions of MPModel; [reduce_rows] is the specification of a reduction
    of a finite list of rows. *)
From Coq Require Import List Arith ZArith Bool.
From Verif Require Import Base ScatterModel ScatterSpec ComplexModel BatchSpec BatchSpec2.
Import ListNotations.

(** The combinatorial part of a complex: numbers of cells, upper adjacencies with the shared
    coboundary, lower adjacencies with the shared boundary, and boundary pairs (face, cell).
    An adjacency ((j, i), c) carries a message from j to i. *)
Record skel := mkSkel {
  s_dim : nat;
  s_n : nat -> nat;
  s_up : nat -> list ((nat * nat) * nat);
  s_low : nat -> list ((nat * nat) * nat);
  s_bnd : nat -> list (nat * nat)
}.

(** Every reference is in range; there is nothing above the top dimension and below the vertices. *)
Record skel_ok (S : skel) : Prop := {
  so_up : forall d j i c, In ((j, i), c) (s_up S d) ->
            d < s_dim S /\ j < s_n S d /\ i < s_n S d /\ c < s_n S (d + 1);
  so_low : forall d j i c, In ((j, i), c) (s_low S d) ->
            0 < d <= s_dim S /\ j < s_n S d /\ i < s_n S d /\ c < s_n S (pred d);
  so_bnd : forall d f t, In (f, t) (s_bnd S d) ->
            0 < d <= s_dim S /\ f < s_n S (pred d) /\ t < s_n S d;
  so_above : forall d, s_dim S < d -> s_n S d = 0
}.

Section Spec.
Context {V : Type} (o : ops V).

(** The feature of every cell. *)
Definition feats := nat -> nat -> V.

(** What a layer does at one dimension.
    [r_up x a]: message along an upper adjacency from a cell with feature [x] through a coboundary
    with feature [a] ([None] if coboundary features are withheld);  [r_low], [r_bnd]: messages along
    lower adjacencies and from boundary cells, [None] if the layer has none;
    [r_upd x u l b]: new feature from the old one and the three aggregates. *)
Record rule := mkRule {
  r_up : V -> option V -> V;
  r_low : option (V -> V -> V);
  r_bnd : option (V -> V);
  r_aup : reduce;
  r_alow : reduce;
  r_abnd : reduce;
  r_upd : V -> V -> V -> V -> V
}.

Definition up_at (S : skel) (d i : nat) : list ((nat * nat) * nat) :=
  filter (fun e => snd (fst e) =? i) (s_up S d).
Definition low_at (S : skel) (d i : nat) : list ((nat * nat) * nat) :=
  filter (fun e => snd (fst e) =? i) (s_low S d).
Definition bnd_at (S : skel) (d i : nat) : list (nat * nat) :=
  filter (fun p => snd p =? i) (s_bnd S d).

(** Aggregates at cell [i] of dimension [d]; [cob]: are coboundary features visible? *)
Definition agg_up (rl : rule) (cob : bool) (S : skel) (X : feats) (d i : nat) : V :=
  reduce_rows o (r_aup rl)
    (map (fun e => r_up rl (X d (fst (fst e))) (if cob then Some (X (d + 1) (snd e)) else None))
         (up_at S d i)).
Definition agg_low (rl : rule) (S : skel) (X : feats) (d i : nat) : V :=
  match r_low rl with
  | Some f => reduce_rows o (r_alow rl)
                (map (fun e => f (X d (fst (fst e))) (X (pred d) (snd e))) (low_at S d i))
  | None => vzero o
  end.
Definition agg_bnd (rl : rule) (S : skel) (X : feats) (d i : nat) : V :=
  match r_bnd rl with
  | Some f => reduce_rows o (r_abnd rl) (map (fun p => f (X (pred d) (fst p))) (bnd_at S d i))
  | None => vzero o
  end.

Definition new_feature (rl : rule) (cob : bool) (S : skel) (X : feats) (d i : nat) : V :=
  r_upd rl (X d i) (agg_up rl cob S X d i) (agg_low rl S X d i) (agg_bnd rl S X d i).

(** A layer: a rule for each dimension up to [pdim]; features above stay, except that those of
    dimension 2 are mapped by [l_top] if given. *)
Record layer := mkLayer { l_rule : nat -> rule; l_top : option (V -> V) }.

Definition cob_visible (pdim : nat) (top : bool) (d : nat) : bool := (d <? pdim) || top.

Definition step (pdim : nat) (top : bool) (S : skel) (L : layer) (X : feats) : feats :=
  fun d i => if d <=? pdim then new_feature (l_rule L d) (cob_visible pdim top d) S X d i
             else match l_top L with
                  | Some f => if d =? 2 then f (X d i) else X d i
                  | None => X d i
                  end.

(** The features after every layer. *)
Fixpoint history (pdim : nat) (top : bool) (S : skel) (Ls : list layer) (X : feats) : list feats :=
  match Ls with
  | [] => []
  | L :: Ls' => let X' := step pdim top S L X in X' :: history pdim top S Ls' X'
  end.

(** The features handed to the readout. *)
Definition final_feats (jump : option (list V -> V)) (h : list feats) (X0 : feats) : feats :=
  match jump with
  | None => last h X0
  | Some j => fun d i => j (map (fun X => X d i) h)
  end.

(** The architecture: everything that does not depend on the input. *)
Record arch := mkArch {
  a_pdim : nat;
  a_top : bool;
  a_layers : list layer;
  a_jump : option (list V -> V);
  a_pool : reduce;
  a_dims : list nat;
  a_lin1 : nat -> V -> V;
  a_mean : bool;
  a_lin2 : V -> V
}.

Definition combine_dims (a : arch) (pooled : nat -> V) : V :=
  let l := map (fun d => a_lin1 a d (pooled d)) (a_dims a) in
  let s := fold_left (vadd o) l (vzero o) in
  a_lin2 a (if a_mean a then vdivn o s (length l) else s).

(** The prediction for a complex with skeleton [S] and features [X]. *)
Definition predict (a : arch) (S : skel) (X : feats) : V :=
  let F := final_feats (a_jump a) (history (a_pdim a) (a_top a) S (a_layers a) X) X in
  combine_dims a (fun d => if d <=? a_pdim a
                           then reduce_rows o (a_pool a) (map (F d) (seq 0 (s_n S d)))
                           else vzero o).

(** The skeleton of a complex truncated at dimension [D], [sz d] being its number of [d]-cells. *)
Definition skel_of (D : nat) (k : complex V) (sz : nat -> nat) : skel :=
  let D' := Nat.min (k_dim k) D in
  mkSkel D'
    (fun d => if d <=? D' then sz d else 0)
    (fun d => if d <? D' then combine (content (attr c_upper d k)) (content (attr c_shc d k)) else [])
    (fun d => if d <=? D' then combine (content (attr c_lower d k)) (content (attr c_shb d k)) else [])
    (fun d => if d <=? D' then content (attr c_bidx d k) else []).

Definition feats_of (k : complex V) : feats :=
  fun d i => nth i (content (attr c_x d k)) (vzero o).

(** All cochains up to dimension [D] carry features. *)
Definition has_features (D : nat) (k : complex V) : Prop :=
  forall d c, d <= D -> nth_error (k_cochains k) d = Some c -> c_x c <> None.

End Spec.
Arguments rule V : clear implicits.
Arguments layer V : clear implicits.
Arguments arch V : clear implicits.
Arguments feats V : clear implicits.
