(** C85: the widths of all tensors fit, in every network. *)
From Coq Require Import List Arith Lia Bool.
From Verif Require Import Base.
From Verif Require Import WidthModel WidthSpec WidthProofs WidthProofs2 WidthProofs3.
Import ListNotations.

(** A batch with [n] dimensions and all indices it can have. *)
Definition full_batch (x : nat -> option nat) (n : nat) : list wco :=
  map (fun d => {| w_x := x d; w_up := true; w_down := negb (d =? 0); w_bnd := negb (d =? 0) |})
      (seq 0 n).

Lemma full_featured : forall w n, featured w (full_batch (fun _ => Some w) n).
Proof. intros w n c H. apply in_map_iff in H. destruct H as [d [<- _]]. reflexivity. Qed.
Lemma full_grounded : forall x n, grounded (full_batch x (S n)).
Proof. intros. split; reflexivity. Qed.
Lemma full_bounded : forall x n, bounded (full_batch x n).
Proof.
  intros x n d c H. unfold full_batch in H. rewrite nth_error_map in H.
  destruct (nth_error (seq 0 n) (S d)) eqn:E; [|discriminate]. apply w_nth_seq in E.
  destruct E as [-> _]. inversion H; reflexivity.
Qed.

(** ** SparseCIN and CINpp *)
Theorem C85_sparse_cin : forall pp cob g n_in n_out L h mult md jm dims K,
  featured n_in K -> grounded K -> 1 <= L -> jumps jm -> reads dims md ->
  (cob = false \/ length K <= S md \/ L = 1 \/ n_in = h) ->
  sparse_cin pp cob g n_in n_out L h mult md jm dims K = Ok n_out.
Proof. exact sparse_cin_ok. Qed.
Print Assumptions C85_sparse_cin.

(** Three dimensions, 4 layers, 7 columns in, 5 hidden, concatenated jumps. *)
Example C85_ex_sparse :
  sparse_cin true true GLayer 7 3 4 5 2 2 (Some JCat) (Some [0; 2; 5]) (full_batch (fun _ => Some 7) 3) = Ok 3
  /\ featured 7 (full_batch (fun _ => Some 7) 3) /\ grounded (full_batch (fun _ => Some 7) 3)
  /\ reads (Some [0; 2; 5]) 2.
Proof.
  split; [vm_compute; reflexivity|]. split; [apply full_featured|]. split; [apply full_grounded|].
  exists 2. split; [right; left; reflexivity|lia].
Qed.

(** The side condition is exact: if the batch has cells above the dimension
    that the network works in, the messages from coboundaries use the raw
    features of these cells in every layer. *)
Theorem C85_sparse_cin_stale : forall pp g n_in n_out L h mult md jm dims K v,
  featured n_in K -> grounded K -> 2 <= L -> jumps jm ->
  S md < length K -> nth_error K md = Some v -> w_up v = true -> n_in <> h ->
  sparse_cin pp true g n_in n_out L h mult md jm dims K = Err RuntimeError.
Proof. exact sparse_cin_stale. Qed.
Print Assumptions C85_sparse_cin_stale.

Example C85_ex_sparse_stale :
  sparse_cin false true GBatch 7 3 2 5 2 1 None None (full_batch (fun _ => Some 7) 3) = Err RuntimeError
  /\ sparse_cin false true GBatch 7 3 2 7 2 1 None None (full_batch (fun _ => Some 7) 3) = Ok 3
  /\ sparse_cin false false GBatch 7 3 2 5 2 1 None None (full_batch (fun _ => Some 7) 3) = Ok 3.
Proof. vm_compute. repeat split. Qed.

(** ** CIN0 *)
Theorem C85_cin0 : forall n_in n_out L h md jm K,
  featured n_in K -> grounded K -> 1 <= L -> jumps jm ->
  (length K <= S md \/ L = 1 \/ n_in = h) ->
  cin0 n_in n_out L h md jm K = Ok n_out.
Proof. exact cin0_ok. Qed.
Print Assumptions C85_cin0.

Theorem C85_cin0_stale : forall n_in n_out L h md jm K v,
  featured n_in K -> grounded K -> 2 <= L -> jumps jm ->
  S md < length K -> nth_error K md = Some v -> w_up v = true -> n_in <> h ->
  cin0 n_in n_out L h md jm K = Err RuntimeError.
Proof. exact cin0_stale. Qed.
Print Assumptions C85_cin0_stale.

Example C85_ex_cin0 :
  cin0 7 3 4 5 2 (Some JMax) (full_batch (fun _ => Some 7) 3) = Ok 3
  /\ cin0 7 3 4 5 1 (Some JMax) (full_batch (fun _ => Some 7) 3) = Err RuntimeError.
Proof. vm_compute. split; reflexivity. Qed.

(** ** EdgeCIN0 *)
Theorem C85_edge_cin0 : forall n_in n_out L h jm top upd K,
  featured n_in K -> grounded K -> 1 <= L -> jumps jm ->
  (top = false \/ upd = true \/ length K <= 2 \/ L = 1 \/ n_in = h) ->
  edge_cin0 n_in n_out L h jm top upd K = Ok n_out.
Proof. exact edge_cin0_ok. Qed.
Print Assumptions C85_edge_cin0.

(** [include_top_features=True, update_top_features=False] is a combination
    that the constructor accepts and that cannot run. *)
Theorem C85_edge_cin0_stale : forall n_in n_out L h jm K v,
  featured n_in K -> grounded K -> 2 <= L -> jumps jm ->
  2 < length K -> nth_error K 1 = Some v -> w_up v = true -> n_in <> h ->
  edge_cin0 n_in n_out L h jm true false K = Err RuntimeError.
Proof. exact edge_cin0_stale. Qed.
Print Assumptions C85_edge_cin0_stale.

Example C85_ex_edge_cin0 :
  let K := full_batch (fun _ => Some 7) 3 in
  edge_cin0 7 3 4 5 (Some JCat) true true K = Ok 3 /\
  edge_cin0 7 3 4 5 (Some JCat) false true K = Ok 3 /\
  edge_cin0 7 3 4 5 (Some JCat) true false K = Err RuntimeError.
Proof. vm_compute. repeat split. Qed.

(** ** Dummy: the zeros for missing messages have one column, whatever the
    features have; broadcasting hides it. *)
Theorem C85_dummy : forall n_in n_out L md K,
  featured n_in K -> grounded K -> 1 <= L ->
  dummy n_in n_out L md K = if Nat.min 3 (length K) <=? S md then Ok n_out else Err AssertionError.
Proof.
  intros n_in n_out L md K HF HG HL. destruct (Nat.min 3 (length K) <=? S md) eqn:E.
  - apply Nat.leb_le in E. now apply dummy_ok.
  - apply Nat.leb_gt in E. now apply dummy_low.
Qed.
Print Assumptions C85_dummy.

Example C85_ex_dummy :
  dummy 7 3 4 2 (full_batch (fun _ => Some 7) 4) = Ok 3 /\
  dummy 7 3 4 1 (full_batch (fun _ => Some 7) 4) = Err AssertionError.
Proof. vm_compute. split; reflexivity. Qed.

(** ** MessagePassingAgnostic *)
Theorem C85_mp_agnostic : forall n_in n_out h md K,
  featured n_in K -> grounded K -> mp_agnostic n_in n_out h md K = Ok n_out.
Proof. exact mp_agnostic_ok. Qed.
Print Assumptions C85_mp_agnostic.

Example C85_ex_agnostic : mp_agnostic 7 3 5 1 (full_batch (fun _ => Some 7) 3) = Ok 3.
Proof. vm_compute. reflexivity. Qed.

(** ** EdgeOrient and EdgeMPNN: they run on features of the declared width and
    refuse all others. *)
Theorem C85_edge_nets : forall up o n_in n_out L h jm w, 1 <= L -> jumps jm ->
  edge_net up o n_in n_out L h jm w = if w =? n_in then Ok n_out else Err RuntimeError.
Proof.
  intros up o n_in n_out L h jm w HL HJ. destruct (w =? n_in) eqn:E.
  - apply Nat.eqb_eq in E. subst w. now apply edge_net_ok.
  - apply Nat.eqb_neq in E. now apply edge_net_bad.
Qed.
Print Assumptions C85_edge_nets.

Example C85_ex_edge_nets :
  edge_net true true 1 2 4 16 None 1 = Ok 2 /\ edge_net false false 1 2 4 16 (Some JCat) 1 = Ok 2
  /\ edge_net true true 1 2 4 16 None 3 = Err RuntimeError.
Proof. vm_compute. repeat split. Qed.

(** ** The embedding networks *)
Theorem C85_embedding_nets : forall e pp cob g ee ed n_out L h mult md jm dims K,
  molecular e ee K -> grounded K -> bounded K -> Nat.min (S md) (length K) <= 3 ->
  1 <= L -> jumps jm -> reads dims md ->
  (cob = false \/ length K <= S md) ->
  embed_sparse_cin e pp cob g ee ed n_out L h mult md jm dims K = Ok n_out.
Proof. exact embed_sparse_cin_ok. Qed.
Print Assumptions C85_embedding_nets.

(** Molecules: one column on atoms and bonds, none on rings. *)
Definition mol_x (d : nat) : option nat := if d <=? 1 then Some 1 else None.
Definition ogb_x (d : nat) : option nat :=
  match d with 0 => Some 9 | 1 => Some 3 | _ => None end.

Lemma mol_molecular : molecular EEmb true (full_batch mol_x 3).
Proof.
  split.
  - eexists _, 1. repeat split.
  - intros c w H Hw. inversion H; subst c; inversion Hw; subst w. split; reflexivity.
Qed.
Lemma ogb_molecular : molecular EOgb true (full_batch ogb_x 3).
Proof.
  split.
  - eexists _, 9. split; [reflexivity|]. split; [reflexivity|]. split; lia.
  - intros c w H Hw. inversion H; subst c; inversion Hw; subst w. split; [reflexivity|]. split; lia.
Qed.

Example C85_ex_embedding :
  embed_sparse_cin EEmb false true GBatch true (Some 64) 1 4 48 2 2 (Some JCat) None (full_batch mol_x 3) = Ok 1
  /\ embed_sparse_cin EOgb true true GBatch true (Some 64) 1 4 48 2 2 None (Some [0; 1; 2]) (full_batch ogb_x 3) = Ok 1
  /\ grounded (full_batch mol_x 3) /\ bounded (full_batch ogb_x 3).
Proof.
  split; [vm_compute; reflexivity|]. split; [vm_compute; reflexivity|].
  split; [apply full_grounded|apply full_bounded].
Qed.

(** Without layers the embedding dimension has to be the hidden one. *)
Theorem C85_embedding_no_layers : forall e pp cob g ee ed n_out h mult md dims K,
  molecular e ee K -> grounded K -> bounded K -> Nat.min (S md) (length K) <= 3 ->
  reads dims md ->
  embed_sparse_cin e pp cob g ee ed n_out 0 h mult md None dims K =
  if wembed ed h =? h then Ok n_out else Err RuntimeError.
Proof. exact embed_sparse_cin_zero. Qed.
Print Assumptions C85_embedding_no_layers.

Theorem C85_no_rings : forall cob g ee ed n_out L h mult K,
  molecular EEmb ee K -> grounded K -> bounded K -> 1 <= L ->
  embed_no_rings cob g ee ed n_out L h mult K = Ok n_out.
Proof. exact embed_no_rings_ok. Qed.
Print Assumptions C85_no_rings.

(** The rings are there, without features, and coboundaries are used: the
    network that ignores rings runs, the one that was told [max_dim=1] does not. *)
Example C85_ex_no_rings :
  embed_no_rings true GBatch true (Some 64) 1 4 48 2 (full_batch mol_x 3) = Ok 1
  /\ embed_sparse_cin EEmb false true GBatch true (Some 64) 1 4 48 2 1 None None (full_batch mol_x 3)
     = Err TypeError.
Proof. vm_compute. split; reflexivity. Qed.

(** EmbedGIN runs if and only if it has one layer or embeds into the hidden
    dimension: the edge embeddings are never updated. *)
Theorem C85_embed_gin : forall ee ed n_out L h K,
  molecular EEmb ee K -> grounded K -> bounded K -> 1 <= L ->
  embed_gin ee ed n_out L h K =
  if (L =? 1) || (wembed ed h =? h) then Ok n_out else Err AssertionError.
Proof.
  intros ee ed n_out L h K HM HG HB HL. destruct ((L =? 1) || (wembed ed h =? h)) eqn:E.
  - apply embed_gin_ok; auto. apply orb_prop in E. destruct E as [E|E]; apply Nat.eqb_eq in E; auto.
  - apply orb_false_elim in E. destruct E as [E1 E2]. apply Nat.eqb_neq in E1, E2.
    apply embed_gin_bad; auto. lia.
Qed.
Print Assumptions C85_embed_gin.

Theorem C85_embed_gin_dim_refuted :
  ~ (forall ee ed n_out L h K, molecular EEmb ee K -> grounded K -> bounded K -> 1 <= L ->
       embed_gin ee ed n_out L h K = Ok n_out).
Proof.
  intros H. specialize (H true (Some 64) 1 2 48 _ mol_molecular (full_grounded _ _) (full_bounded _ _)
    ltac:(lia)). vm_compute in H. discriminate H.
Qed.
Print Assumptions C85_embed_gin_dim_refuted.

Example C85_ex_embed_gin :
  embed_gin true None 1 4 48 (full_batch mol_x 3) = Ok 1 /\
  embed_gin true (Some 64) 1 1 48 (full_batch mol_x 3) = Ok 1 /\
  embed_gin true (Some 64) 1 4 48 (full_batch mol_x 1) = Err AssertionError.
Proof. vm_compute. repeat split. Qed.

(** ** The ring networks and the baselines *)
Theorem C85_ring_nets : forall cob g n_in n_out L h md K,
  featured n_in K -> grounded K -> 1 <= L ->
  (cob = false \/ length K <= S md \/ L = 1 \/ n_in = h) ->
  ring_sparse_cin cob g n_in n_out L h md K = Ok n_out /\
  ring_gin g n_in L h n_out n_in = Ok n_out.
Proof. intros. split; [now apply ring_sparse_cin_ok|apply ring_gin_ok]. Qed.
Print Assumptions C85_ring_nets.

Example C85_ex_ring :
  ring_sparse_cin true GIdentity 10 5 3 64 2 (full_batch (fun _ => Some 10) 3) = Ok 5 /\
  ring_gin GBatch 10 4 64 5 10 = Ok 5.
Proof. vm_compute. split; reflexivity. Qed.

Theorem C85_baselines : forall n_in L h n_out w mode,
  gin n_in L h n_out w = (if w =? n_in then Ok n_out else Err RuntimeError) /\
  (1 <= L -> mode <> JLstm -> gin_jk n_in L h n_out mode n_in = Ok n_out).
Proof.
  intros. split; [|now apply gin_jk_ok]. destruct (w =? n_in) eqn:E.
  - apply Nat.eqb_eq in E. subst. apply gin_ok.
  - apply Nat.eqb_neq in E. now apply gin_bad.
Qed.
Print Assumptions C85_baselines.

Example C85_ex_baselines :
  gin 7 4 16 2 7 = Ok 2 /\ gin_jk 7 4 16 2 JCat 7 = Ok 2 /\ gin_jk 7 4 16 2 JMax 7 = Ok 2 /\
  gin_jk 7 0 16 2 JCat 7 = Err RuntimeError.
Proof. vm_compute. repeat split. Qed.

(** ** Features of another width *)
Theorem C85_other_width : forall pp cob g n_in n_out L h mult md jm dims K w,
  featured w K -> grounded K -> 1 <= L -> jumps jm -> w <> n_in ->
  (w <> 1 \/ exists v e K', K = v :: e :: K' /\ w_up v = true) ->
  sparse_cin pp cob g n_in n_out L h mult md jm dims K = Err RuntimeError.
Proof. exact sparse_cin_bad. Qed.
Print Assumptions C85_other_width.

(** A single column is broadcast over the zeros that stand for the missing
    messages: a batch of isolated points with one column is accepted by every
    network, whatever its number of input features. *)
Theorem C85_one_column_accepted : forall pp cob g n_in n_out L h mult md jm dims up,
  1 <= L -> jumps jm -> reads dims md ->
  sparse_cin pp cob g n_in n_out L h mult md jm dims
    [{| w_x := Some 1; w_up := up; w_down := false; w_bnd := false |}] = Ok n_out.
Proof.
  intros pp cob g n_in n_out [|L] h mult md jm dims up HL HJ HR; [lia|].
  unfold sparse_cin. rewrite wjump_init_ok by auto. cbn [bind]. rewrite sp_convs_S.
  set (K := [{| w_x := Some 1; w_up := up; w_down := false; w_bnd := false |}]).
  assert (E : sp_step md (sp_conv pp cob g n_in h md) K = Ok (repeat h 1, wzip_put K (repeat h 1))).
  { unfold sp_step. destruct (w_params K md true false) as [ps [E [Lp F]]]. rewrite E. cbn [bind].
    replace (Nat.min (S md) (length K)) with 1 in Lp by (cbn [length K]; lia).
    destruct ps as [|p [|q ps]]; try discriminate Lp.
    rewrite sp_conv_eq, wconv_repeat by (cbn [length]; lia). cbn [mapM].
    assert (Hp : sp_level_fwd (the_sp_level pp cob g n_in h) p = Ok h).
    { pose proof (F 0 p eq_refl) as E0. unfold wparams_of in E0. cbn [nth_error K] in E0.
      rewrite andb_false_r in E0. inversion E0; subst p; clear E0.
      unfold sp_level_fwd. cbn [p_x p_up p_down p_bnd p_ua p_ba wneed of_option bind wprop andb
        sl_up_size sl_down_size sl_bnd_size the_sp_level].
      assert (Ei : wiadd n_in 1 = Ok n_in)
        by (unfold wiadd; rewrite wadd_one; cbn [bind]; now rewrite Nat.eqb_refl).
      rewrite Ei. cbn [bind].
      destruct pp; cbn [sl_update_down the_sp_level sl_update_up sl_update_bnd sl_combine bind].
      - rewrite sp_update_ok. cbn [bind wcat list_sum fold_right].
        apply (sp_combine_ok true). lia.
      - rewrite sp_update_ok. cbn [bind wcat list_sum fold_right].
        apply (sp_combine_ok false). lia. }
    rewrite Hp. cbn [bind]. change [h] with (repeat h 1). rewrite wset_ok by (cbn; lia). reflexivity. }
  destruct (wloop_runs (sp_step md) h 1 (sp_conv pp cob g n_in h md)
    (map (fun i => sp_conv pp cob g (layer_dim 0 h i) h md) (seq 1 L)) K None) as [K2 E2].
  - exists (wzip_put K (repeat h 1)). split; [exact E|].
    replace 1 with (Nat.min (S md) 1) at 1 by lia. apply sp_runs_h; auto.
    split; [split; reflexivity|]. split.
    + apply wzip_pre. right. cbn. lia.
    + right. left. cbn. lia.
  - rewrite E2. cbn [bind]. rewrite map_length, seq_length. apply sp_head_ok; auto.
    + lia.
    + apply wreadout_le.
    + now apply wreadout_len.
Qed.
Print Assumptions C85_one_column_accepted.

Theorem C85_other_width_refuted :
  ~ (forall pp cob g n_in n_out L h mult md jm dims K w,
       featured w K -> grounded K -> 1 <= L -> jumps jm -> w <> n_in ->
       exists e, sparse_cin pp cob g n_in n_out L h mult md jm dims K = Err e).
Proof.
  intros H.
  destruct (H false false GBatch 7 2 4 16 2 2 None None
    [{| w_x := Some 1; w_up := false; w_down := false; w_bnd := false |}] 1) as [e He];
    try discriminate; try lia.
  - intros c [<-|[]]. reflexivity.
  - split; reflexivity.
Qed.
Print Assumptions C85_other_width_refuted.

(** ** Jump mode "lstm" cannot be built in any network that offers a mode. *)
Theorem C85_lstm_refused : forall pp cob g n_in n_out L h mult md dims K top upd e ee ed up o x,
  sparse_cin pp cob g n_in n_out L h mult md (Some JLstm) dims K = Err AssertionError /\
  cin0 n_in n_out L h md (Some JLstm) K = Err AssertionError /\
  edge_cin0 n_in n_out L h (Some JLstm) top upd K = Err AssertionError /\
  embed_sparse_cin e pp cob g ee ed n_out L h mult md (Some JLstm) dims K = Err AssertionError /\
  edge_net up o n_in n_out L h (Some JLstm) x = Err AssertionError /\
  gin_jk n_in L h n_out JLstm x = Err AssertionError.
Proof. exact lstm_refused. Qed.
Print Assumptions C85_lstm_refused.
