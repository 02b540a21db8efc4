(** Training mode, specification: freezing normalisations, rearranging a batch. *)
From Coq Require Import List Arith ZArith Bool Permutation.
From Verif Require Import Base ScatterModel ComplexModel BatchSpec BatchSpec2 MPModel MPSpec MPIso.
From Verif Require Import NormModel.
Import ListNotations.

Section Spec.
Context {V : Type} (o : ops V) {St : Type}.
Notation nn := (list (nn_layer V St)).

(** [freezes ls a]: [a] is the network [ls] on a single row after every normalisation has been given
    some fixed statistics.  In evaluation mode these are the running averages. *)
Inductive freezes : nn -> (V -> V) -> Prop :=
| fz_nil : freezes [] (fun v => v)
| fz_row f ls a : freezes ls a -> freezes (RowFun f :: ls) (fun v => a (f v))
| fz_norm st f ls a (c : St) : freezes ls a -> freezes (BatchNorm st f :: ls) (fun v => a (f c v)).

(** Mean and variance do not depend on the order of the rows. *)
Definition order_free (ls : nn) : Prop :=
  forall st f T T', In (BatchNorm st f) ls -> Permutation T T' -> st T = st T'.

Definition has_norm (ls : nn) : Prop := exists st f, In (BatchNorm st f) ls.

Definition freezes_sparse (l : tsparse_level V St) (l' : sparse_level V) : Prop :=
  exists a b c, freezes (ts_upd_up l) a /\ freezes (ts_upd_bnd l) b /\ freezes (ts_comb l) c /\
    l' = mkSparseLevel (ts_up l) (ts_bnd l) a b (fun u w => c (ts_cat l u w)) (ts_s1 l) (ts_s2 l).
Definition freezes_cinpp (l : tcinpp_level V St) (l' : cinpp_level V) : Prop :=
  exists a b c e, freezes (tp_upd_up l) a /\ freezes (tp_upd_down l) b /\ freezes (tp_upd_bnd l) c /\ freezes (tp_comb l) e /\
    l' = mkCinppLevel (tp_up l) (tp_down l) (tp_bnd l) a b c (fun u v w => e (tp_cat l u v w)) (tp_s1 l) (tp_s2 l) (tp_s3 l).
Definition freezes_cin (l : tcin_level V St) (l' : cin_level V) : Prop :=
  exists a b c, freezes (tc_up l) a /\ freezes (tc_down l) b /\ freezes (tc_update l) c /\
    l' = mkCinLevel (fun v => a (tc_up_g l v)) (fun x y => a (tc_up_f l x y)) (fun x y => b (tc_down_f l x y)) c (tc_scale l).

(** A network in training mode and the same network with fixed statistics. *)
Inductive freezes_net : net V -> net V -> Prop :=
| fn_sparse md ls ls' jump pool dims lin1 mean lin2 :
    Forall2 (fun l l' => forall d, freezes_sparse (l d) (l' d)) ls ls' ->
    freezes_net (tsparse_cin o md ls jump pool dims lin1 mean lin2) (sparse_cin o md ls' jump pool dims lin1 mean lin2)
| fn_cinpp md ls ls' jump pool dims lin1 mean lin2 :
    Forall2 (fun l l' => forall d, freezes_cinpp (l d) (l' d)) ls ls' ->
    freezes_net (tcinpp o md ls jump pool dims lin1 mean lin2) (cinpp o md ls' jump pool dims lin1 mean lin2)
| fn_cin0 md ls ls' jump pool head :
    Forall2 (fun l l' => forall d, freezes_cin (l d) (l' d)) ls ls' ->
    freezes_net (tcin0 o md ls jump pool head) (cin0 o md ls' jump pool head).

(** The networks in training mode; the statistics do not depend on the order of the rows. *)
Inductive training_net : net V -> Prop :=
| tn_sparse md ls jump pool dims lin1 mean lin2 :
    ls <> [] -> (exists d, In d dims /\ d <= md) ->
    Forall (fun l => forall d, order_free (ts_upd_up (l d)) /\ order_free (ts_upd_bnd (l d)) /\ order_free (ts_comb (l d))) ls ->
    training_net (tsparse_cin o md ls jump pool dims lin1 mean lin2)
| tn_cinpp md ls jump pool dims lin1 mean lin2 :
    ls <> [] -> (exists d, In d dims /\ d <= md) ->
    Forall (fun l => forall d, order_free (tp_upd_up (l d)) /\ order_free (tp_upd_down (l d)) /\
              order_free (tp_upd_bnd (l d)) /\ order_free (tp_comb (l d))) ls ->
    training_net (tcinpp o md ls jump pool dims lin1 mean lin2)
| tn_cin0 md ls jump pool head :
    ls <> [] ->
    Forall (fun l => forall d, order_free (tc_up (l d)) /\ order_free (tc_down (l d)) /\ order_free (tc_update (l d))) ls ->
    training_net (tcin0 o md ls jump pool head).

(** The first layer normalises the cells of dimension [d]. *)
Inductive normalises_cells : net V -> nat -> Prop :=
| nc_sparse md l ls jump pool dims lin1 mean lin2 d :
    d <= md -> has_norm (ts_upd_up (l d)) \/ has_norm (ts_upd_bnd (l d)) \/ has_norm (ts_comb (l d)) ->
    normalises_cells (tsparse_cin o md (l :: ls) jump pool dims lin1 mean lin2) d
| nc_cinpp md l ls jump pool dims lin1 mean lin2 d :
    d <= md -> has_norm (tp_upd_up (l d)) \/ has_norm (tp_upd_down (l d)) \/ has_norm (tp_upd_bnd (l d)) \/ has_norm (tp_comb (l d)) ->
    normalises_cells (tcinpp o md (l :: ls) jump pool dims lin1 mean lin2) d
| nc_cin0 md l ls jump pool head d :
    d <= md -> has_norm (tc_update (l d)) ->
    normalises_cells (tcin0 o md (l :: ls) jump pool head) d.

(** No layer normalises over the batch (graph_norm "ln" or "id", mp/nn.py:39-47). *)
Inductive norm_free : net V -> Prop :=
| nf_sparse md ls jump pool dims lin1 mean lin2 :
    Forall (fun l => forall d, ~ has_norm (ts_upd_up (l d)) /\ ~ has_norm (ts_upd_bnd (l d)) /\ ~ has_norm (ts_comb (l d))) ls ->
    norm_free (tsparse_cin o md ls jump pool dims lin1 mean lin2)
| nf_cinpp md ls jump pool dims lin1 mean lin2 :
    Forall (fun l => forall d, ~ has_norm (tp_upd_up (l d)) /\ ~ has_norm (tp_upd_down (l d)) /\
              ~ has_norm (tp_upd_bnd (l d)) /\ ~ has_norm (tp_comb (l d))) ls ->
    norm_free (tcinpp o md ls jump pool dims lin1 mean lin2)
| nf_cin0 md ls jump pool head :
    Forall (fun l => forall d, ~ has_norm (tc_up (l d)) /\ ~ has_norm (tc_down (l d)) /\ ~ has_norm (tc_update (l d))) ls ->
    norm_free (tcin0 o md ls jump pool head).

(** CIN0 also normalises over messages.  Adjacencies are symmetric and irreflexive. *)
Definition two_way (k : complex V) : Prop :=
  forall d j i c,
    (In ((j, i), c) (upper_of k d) -> In ((i, j), c) (upper_of k d) /\ i <> j) /\
    (In ((j, i), c) (lower_of k d) -> In ((i, j), c) (lower_of k d) /\ i <> j).

(** [ks'] consists of the members of [ks] in the order [sel], each with relabelled cells. *)
Definition rearranged (sel : list nat) (ks : list (complex V)) (szs : list (nat -> nat)) (ks' : list (complex V)) : Prop :=
  Permutation sel (seq 0 (length ks)) /\
  Forall2 (fun i k' => exists k sz, nth_error ks i = Some k /\ nth_error szs i = Some sz /\
                                    isomorphic sz k k' /\ wf_complex k' sz) sel ks'.

End Spec.
