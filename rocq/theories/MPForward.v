(** The forward pass of a network on a batch returns the specified prediction of every member. *)
From Coq Require Import List Arith Lia ZArith Bool.
From Verif Require Import Base ScatterModel ScatterSpec ScatterProofs ComplexModel BatchSpec BatchSpec2
  BatchProofs BatchProofs2 MPModel MPSpec MPProofs MPEngine MPBatch.
Import ListNotations.

Section Forward.
Context {V : Type} (o : ops V).
Hypothesis Hdiv : vdivn o (vzero o) 1 = vzero o.
Notation complex := (complex V).

(** The network [m] implements the architecture [a]. *)
Record net_ok (m : net V) (a : arch V) : Prop := {
  nk_pdim : n_pdim m = a_pdim a;
  nk_max : n_pdim m <= n_max_dim m;
  nk_top : n_top m = a_top a;
  nk_convs : Forall2 (layer_ok o (n_max_dim m) (n_pdim m) (n_top m) (n_down m)) (n_convs m) (a_layers a);
  nk_some : a_layers a <> [];
  nk_jump : n_jump m = a_jump a;
  nk_pool : n_pool m = a_pool a;
  nk_dims : n_dims m = a_dims a;
  nk_dims_some : n_dims m <> [];
  nk_dims_max : forall d, In d (n_dims m) -> d <= n_max_dim m;
  nk_lin1 : n_lin1 m = a_lin1 a;
  nk_mean : n_mean m = a_mean a;
  nk_lin2 : n_lin2 m = a_lin2 a
}.

Lemma list_max_membership szs (n : nat) :
  Forall (fun sz : nat -> nat => 0 < sz n) szs -> szs <> [] ->
  list_max_err (membership szs n) = Ok (length szs - 1).
Proof.
  intros HF Hne.
  assert (Hin : In (length szs - 1) (membership szs n)).
  { destruct (nth_error szs (length szs - 1)) as [sz|] eqn:E.
    - pose proof (membership_at szs n _ sz 0 E) as H. eapply nth_error_In. apply H.
      rewrite Forall_forall in HF. apply HF. eapply nth_error_In; eauto.
    - apply nth_error_None in E. destruct szs; [congruence|simpl in E; lia]. }
  unfold list_max_err. destruct (membership szs n) as [|x l] eqn:E; [destruct Hin|]. rewrite <- E in *.
  f_equal. apply Nat.le_antisymm.
  - apply list_max_le. apply Forall_forall. intros i Hi. apply In_nth_error in Hi as [t Ht].
    apply membership_inv in Ht as (sz & Hs & _).
    assert (i < length szs) by (apply nth_error_Some; congruence). lia.
  - apply list_max_in_le in Hin. auto.
Qed.

Lemma scatter_pool r szs d (F : nat -> V) :
  scatter o r (Some (length szs)) (membership szs d) (map F (seq 0 (total szs d))) =
  Ok (map (fun m => reduce_rows o r
        (map (fun i => F (off szs m d + i)) (seq 0 (nth m szs (fun _ => 0) d)))) (seq 0 (length szs))).
Proof.
  rewrite scatter_correct.
  - f_equal. apply map_ext_in. intros m Hm. apply in_seq in Hm. f_equal.
    apply pool_block. apply nth_error_nth'. lia.
  - apply Forall_forall. intros i Hi. apply In_nth_error in Hi as [t Ht].
    apply membership_inv in Ht as (sz & Hs & _). apply nth_error_Some. congruence.
  - rewrite membership_length, map_length, seq_length. auto.
Qed.

Lemma mapM_map_ok {A B} (f : A -> result B) (g : A -> B) l :
  (forall a, In a l -> f a = Ok (g a)) -> mapM f l = Ok (map g l).
Proof.
  induction l as [|a l IH]; intros H; simpl; auto.
  rewrite H by (left; auto). simpl. rewrite IH; auto. intros; apply H; right; auto.
Qed.

(** Pooled row of member [m] at dimension [d], for features [F] of the batch. *)
Definition pooled (r : reduce) (szs : list (nat -> nat)) (N : nat) (F : feats V) (d m : nat) : V :=
  if d <? N then reduce_rows o r (map (fun i => F d (off szs m d + i)) (seq 0 (nth m szs (fun _ => 0) d)))
  else vzero o.

Lemma pool_complex_spec szs D N max_dim r (F : feats V) :
  Forall (fun sz : nat -> nat => 0 < sz 0) szs -> szs <> [] -> N <= D + 1 -> N <= max_dim + 1 ->
  pool_complex o (map (fun d => map (F d) (seq 0 (total szs d))) (seq 0 N))
    (map (fun d => Some (membership szs d)) (seq 0 (D + 1))) max_dim r =
  Ok (map (fun d => map (pooled r szs N F d) (seq 0 (length szs))) (seq 0 (max_dim + 1))).
Proof.
  intros HF Hne HD HM. unfold pool_complex. rewrite nth_error_map_seq.
  destruct (Nat.ltb_spec 0 (D + 1)); [|lia].
  rewrite list_max_membership by auto. cbn [bind].
  assert (HB : S (length szs - 1) = length szs) by (destruct szs; [congruence|simpl; lia]). rewrite HB.
  rewrite map_length, seq_length. destruct (Nat.ltb_spec (max_dim + 1) N); [lia|].
  apply mapM_map_ok. intros d Hd. apply in_seq in Hd. rewrite nth_error_map_seq. unfold pooled.
  destruct (Nat.ltb_spec d N).
  - rewrite nth_error_map_seq. destruct (Nat.ltb_spec d (D + 1)); [|lia]. apply scatter_pool.
  - rewrite zeros_map. auto.
Qed.

Lemma zipw_map_r {A B C} (f : A -> B -> C) (g : A -> B) l : zipw f l (map g l) = map (fun a => f a (g a)) l.
Proof. unfold zipw. induction l; simpl; congruence. Qed.

Lemma readout_spec (m : net V) (a : arch V) xs batch B (P : nat -> nat -> V) :
  net_ok m a ->
  pool_complex o xs batch (n_max_dim m) (n_pool m) =
    Ok (map (fun d => map (P d) (seq 0 B)) (seq 0 (n_max_dim m + 1))) ->
  readout o m xs batch = Ok (map (fun i => combine_dims o a (fun d => P d i)) (seq 0 B)).
Proof.
  intros [N1 N2 N3 N4 N5 N6 N7 N8 N9 N10 N11 N12 N13] HP. unfold readout. rewrite HP. cbn [bind].
  rewrite (mapM_map_ok _ (fun d => map (P d) (seq 0 B))).
  2:{ intros d Hd. unfold get. rewrite nth_error_map_seq. specialize (N10 d Hd).
      destruct (Nat.ltb_spec d (n_max_dim m + 1)); [auto|lia]. }
  cbn [bind]. rewrite zipw_map_r.
  assert (E : forall len, len = B ->
    map (n_lin2 m) (stack_rows o (n_mean m) len
       (map (fun d => map (n_lin1 m d) (map (P d) (seq 0 B))) (n_dims m))) =
    map (fun i => combine_dims o a (fun d => P d i)) (seq 0 B)).
  { intros len ->. unfold stack_rows. rewrite map_map. apply map_ext_in. intros i Hi. apply in_seq in Hi.
    unfold combine_dims. rewrite <- N8, <- N11, <- N12, <- N13, !map_length. unfold sum_rows.
    rewrite map_map.
    rewrite (map_ext_in _ (fun d => n_lin1 m d (P d i)) (n_dims m)); auto.
    intros d _. rewrite map_map.
    rewrite nth_indep with (d' := n_lin1 m d (P d 0)) by (rewrite map_length, seq_length; lia).
    rewrite (map_nth (fun x => n_lin1 m d (P d x))). rewrite seq_nth by lia. auto. }
  destruct (n_dims m) as [|d0 ds] eqn:Ed; [congruence|].
  cbn [map] in *. rewrite E; auto. rewrite map_length, seq_length. auto.
Qed.

Lemma combine_dims_ext a (P Q : nat -> V) :
  (forall d, In d (a_dims a) -> P d = Q d) -> combine_dims o a P = combine_dims o a Q.
Proof.
  intros H. unfold combine_dims.
  rewrite (map_ext_in _ (fun d => a_lin1 a d (Q d)) (a_dims a)); auto.
  intros d Hd. rewrite H; auto.
Qed.

(** The forward pass from a complex [K1] that stores features [XB] on the skeleton of the batch;
    [XM i] are the features of the [i]-th member. *)
Lemma forward_from (m : net V) (a : arch V) ks szs D b K K1 XB (XM : nat -> feats V) :
  net_ok m a ->
  ks <> [] -> Forall2 wf_complex ks szs -> union_complex ks szs D K ->
  represents K1 (skel_of D K (total szs)) XB ->
  (forall i k sz, nth_error ks i = Some k -> nth_error szs i = Some sz ->
     agree (blk szs D i k sz) 0 (XM i) XB) ->
  kb_complex b = K1 -> kb_batch b = map (fun d => Some (membership szs d)) (seq 0 (D + 1)) ->
  Forall (fun sz : nat -> nat => 0 < sz 0) szs ->
  exists b', net_forward o m b =
    Ok (mapi (fun i (q : complex * (nat -> nat)) => predict o a (skel_of D (fst q) (snd q)) (XM i)) (combine ks szs), b').
Proof.
  intros HN Hne HW HU HR Hag HK1 Hbt Hpos. pose proof HN as [N1 N2 N3 N4 N5 N6 N7 N8 N9 N10 N11 N12 N13].
  pose proof (SB_ok ks szs D K HW HU) as HS.
  set (SB := skel_of D K (total szs)) in *.
  unfold net_forward. rewrite HK1.
  destruct (run_convs_spec o (n_max_dim m) (n_pdim m) (n_top m) (n_down m) (n_convs m) (a_layers a)
              K1 SB XB HS N2 N4 HR) as (K' & -> & _).
  cbn [bind]. set (h := history o (n_pdim m) (n_top m) SB (a_layers a) XB).
  assert (Hh : h <> []).
  { unfold h. destruct (a_layers a); [congruence|discriminate]. }
  rewrite (final_xs_spec o (n_jump m) SB (n_pdim m) h XB Hh). cbn [bind].
  set (F := final_feats (n_jump m) h XB).
  assert (Hszs : szs <> []) by (intros ->; inversion HW; subst; congruence).
  pose proof (SB_dim ks szs D K HU) as HSD. fold SB in HSD.
  assert (Hmat : matrices SB (n_pdim m) F =
    map (fun d => map (F d) (seq 0 (total szs d))) (seq 0 (Nat.min (n_pdim m) D + 1))).
  { unfold matrices. rewrite HSD. apply map_ext_in. intros d Hd. apply in_seq in Hd.
    f_equal. f_equal. apply (SB_n ks szs D K HU). lia. }
  rewrite Hmat, Hbt.
  set (NN := Nat.min (n_pdim m) D + 1).
  rewrite (readout_spec m a _ _ (length szs) (pooled (n_pool m) szs NN F) HN).
  2:{ apply pool_complex_spec; auto; unfold NN; lia. }
  cbn [bind]. eexists. f_equal. f_equal.
  apply nth_error_ext. intros i. rewrite nth_error_map_seq, nth_error_mapi.
  pose proof (Forall2_length HW) as Hlen.
  destruct (Nat.ltb_spec i (length szs)) as [Hi|Hi].
  2:{ replace (nth_error (combine ks szs) i) with (@None (complex * (nat -> nat))); auto.
      symmetry. apply nth_error_None. rewrite combine_length. lia. }
  destruct (nth_error szs i) as [sz|] eqn:Es; [|apply nth_error_None in Es; lia].
  destruct (nth_error ks i) as [k|] eqn:Ek; [|apply nth_error_None in Ek; lia].
  rewrite nth_error_combine, Ek, Es. cbn [option_map fst snd]. f_equal.
  unfold predict. apply combine_dims_ext. intros d Hd. unfold pooled.
  rewrite (nth_error_nth _ _ _ Es).
  pose proof (Wk ks szs HW i k sz Ek Es) as W.
  destruct (Nat.ltb_spec d NN) as [Hdn|Hdn].
  - destruct (Nat.leb_spec d (a_pdim a)) as [Hda|]; [|unfold NN in *; lia].
    rewrite <- N7. rewrite skel_of_n by (auto; unfold NN in *; lia). f_equal.
    apply map_ext_in. intros j Hj. apply in_seq in Hj. symmetry.
    unfold F, h. rewrite <- N1, <- N3, <- N6.
    apply (final_agree o (fun A => @eq (list A))
             (fun A B f l l' E => f_equal (map f) E) (fun r l l' E => f_equal (reduce_rows o r) E)
             (skel_of D k sz) SB (n_pdim m) (n_top m) true (blk szs D i k sz)
             (blk_refines ks szs D K HW HU i k sz Ek Es (n_pdim m) (n_top m))
             (n_jump m) (a_layers a) (XM i) XB).
    + apply Forall_forall. intros L _ E. discriminate.
    + apply (Hag i k sz Ek Es).
    + split; auto. rewrite skel_of_n by (auto; unfold NN in *; lia). lia.
  - destruct (Nat.leb_spec d (a_pdim a)) as [Hda|]; auto.
    rewrite (so_above _ (skel_of_ok D k sz W)). { simpl. rewrite reduce_nil; auto. }
    simpl. unfold NN in *. lia.
Qed.

Lemma mapi_irrelevant {A B} (f : nat -> A -> B) (g : A -> B) l :
  (forall i a, nth_error l i = Some a -> f i a = g a) -> mapi f l = map g l.
Proof.
  intros H. apply nth_error_ext. intros i. rewrite nth_error_mapi, nth_error_map.
  destruct (nth_error l i) as [a|] eqn:E; simpl; auto. rewrite (H i a E). auto.
Qed.

Lemma forward_batch (m : net V) (a : arch V) ks szs D b :
  net_ok m a ->
  ks <> [] -> Forall2 wf_complex ks szs -> is_batch ks szs D b ->
  (forall d, d <= D -> exists k, In k ks /\ d <= k_dim k) ->
  Forall (has_features D) ks ->
  Forall (fun sz : nat -> nat => 0 < sz 0) szs ->
  exists b', net_forward o m b =
    Ok (map (fun q => predict o a (skel_of D (fst q) (snd q)) (feats_of o (fst q))) (combine ks szs), b').
Proof.
  intros HN Hne HW HB Hpres Hf Hpos.
  pose proof (ib_complex _ _ _ _ HB) as HU.
  destruct (forward_from m a ks szs D b (kb_complex b) (kb_complex b) (feats_of o (kb_complex b))
              (fun i => match nth_error ks i with Some k => feats_of o k | None => feats_of o (kb_complex b) end))
    as (b' & Hb'); auto.
  - apply (batch_represents o ks szs D (kb_complex b) HW HU Hpres Hf).
  - intros i k sz Ek Es. rewrite Ek. apply (blk_agree o ks szs D (kb_complex b) HW HU Hpres i k sz Ek Es Hf).
  - apply (ib_batch _ _ _ _ HB).
  - exists b'. rewrite Hb'. f_equal. f_equal. apply mapi_irrelevant. intros i [k sz] Hi.
    rewrite nth_error_combine in Hi. simpl. destruct (nth_error ks i); [|discriminate].
    destruct (nth_error szs i); [|discriminate]. congruence.
Qed.

End Forward.
