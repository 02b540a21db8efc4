(** RingSparseCIN and MessagePassingAgnostic on batches of complexes. *)
From Coq Require Import List Arith Lia ZArith Bool.
From Verif Require Import Base ScatterModel ScatterSpec ScatterProofs ComplexModel BatchSpec BatchSpec2
  BatchProofs BatchProofs2 MPModel MPSpec MPProofs MPEngine MPBatch MPForward MPNets MPProps
  GraphNetModel GraphNetSpec GraphNetProofs.
Import ListNotations.

Section RingNets.
Context {V : Type} (o : ops V).
Notation complex := (complex V).

Lemma rows_blocks (F : nat -> V) szs d :
  map F (seq 0 (total szs d)) =
  concat (mapi (fun i (sz : nat -> nat) => map (fun j => F (off szs i d + j)) (seq 0 (sz d))) szs).
Proof.
  revert F. induction szs as [|sz szs IH]; intros F; [reflexivity|].
  change (total (sz :: szs) d) with (sz d + total szs d). rewrite seq_app, map_app.
  unfold mapi. cbn [mapi_from concat]. f_equal.
  rewrite Nat.add_0_l.
  replace (seq (sz d) (total szs d)) with (map (fun j => sz d + j) (seq 0 (total szs d))).
  2:{ assert (E : forall a n k, map (fun j => a + j) (seq k n) = seq (a + k) n).
      { intros a n. induction n as [|n IHn]; intros k; simpl; auto. f_equal. rewrite IHn. f_equal. lia. }
      rewrite E, Nat.add_0_r. auto. }
  rewrite map_map, (IH (fun j => F (sz d + j))). f_equal. unfold mapi.
  assert (E : forall l t, mapi_from (fun i (s : nat -> nat) => map (fun j => F (sz d + (off szs i d + j))) (seq 0 (s d))) t l =
    mapi_from (fun i (s : nat -> nat) => map (fun j => F (off (sz :: szs) i d + j)) (seq 0 (s d))) (S t) l).
  { induction l as [|s l IHl]; intros t; [reflexivity|]. cbn [mapi_from]. f_equal; [|apply IHl].
    apply map_ext. intros j. f_equal. unfold off. cbn [firstn map]. simpl. lia. }
  apply E.
Qed.

Lemma concat_mapi_combine {A B C} (f : nat -> A -> list C) (g : A -> B -> list C) (l : list A) (r : list B) :
  length l = length r ->
  (forall i a b, nth_error l i = Some a -> nth_error r i = Some b -> f i a = g a b) ->
  concat (mapi f l) = concat (map (fun q => g (fst q) (snd q)) (combine l r)).
Proof.
  intros Hl H. f_equal. apply nth_error_ext. intros i. rewrite nth_error_mapi, nth_error_map, nth_error_combine.
  destruct (nth_error l i) as [a|] eqn:Ea; [|reflexivity].
  destruct (nth_error r i) as [b|] eqn:Eb; simpl; [f_equal; eauto|].
  apply nth_error_None in Eb. assert (i < length l) by (apply nth_error_Some; congruence). lia.
Qed.

(** Feature of every cell after the layers. *)
Definition ring_feats (m : ring_cin V) (Sk : skel) (X : feats V) : feats V :=
  let X0 := init_nodes (rc_init m) X in
  last (history o (rc_max_dim m) true Sk (sparse_layers o (rc_layers m)) X0) X0.

Definition ring_cin_answers (m : ring_cin V) (D : nat) (k : complex) (sz : nat -> nat) : list V :=
  map (fun i => rc_lin1 m (ring_feats m (skel_of D k sz) (feats_of o k) 0 i)) (marked (mask_of k)).

Lemma masks_joined ks szs : Forall2 wf_complex ks szs -> Forall2 masked ks szs -> ks <> [] ->
  joined (fun _ v => v) (map (attr c_mask 0) ks) = Some (concat (map (fun k => mask_of (V := V) k) ks)).
Proof.
  intros HW HM Hne. rewrite joined_Some.
  - f_equal. f_equal. apply nth_error_ext. intros i. rewrite nth_error_mapi, !nth_error_map.
    destruct (nth_error ks i) as [k|] eqn:Ek; [|reflexivity]. simpl.
    unfold mask_of. destruct (attr c_mask 0 k); simpl; auto. rewrite map_id. auto.
  - destruct HM as [|k sz ks szs (mk & Hm & _) HM]; [congruence|]. exists mk. left. auto.
Qed.

Theorem ring_cin_batch (Hdiv : vdivn o (vzero o) 1 = vzero o) (m : ring_cin V) ks szs Dm :
  ks <> [] -> Forall2 wf_complex ks szs -> Forall (has_features Dm) ks -> Forall2 masked ks szs ->
  rc_layers m <> [] ->
  exists b b', from_complex_list ks Dm = Ok b /\
    ring_cin_forward o m b =
      Ok (concat (map (fun q => ring_cin_answers m Dm (fst q) (snd q)) (combine ks szs)), b').
Proof.
  intros Hne HW HF HM Hly. set (D := Nat.min (list_max (map k_dim ks)) Dm).
  destruct (from_complex_list_is_batch ks szs Dm Hne HW) as (b & Hb & HB & _).
  { intros d Hd. left. intros k c Hk Hc. rewrite Forall_forall in HF. apply (HF k Hk d c); auto. lia. }
  fold D in HB.
  assert (Hpres : forall d, d <= D -> exists k, In k ks /\ d <= k_dim k).
  { intros d Hd. assert (Hin : In (list_max (map k_dim ks)) (map k_dim ks)).
    { apply list_max_exists. destruct ks; [congruence|discriminate]. }
    apply in_map_iff in Hin as (k & Ek & Hk). exists k; split; auto. unfold D in Hd. lia. }
  assert (HFD : Forall (has_features D) ks).
  { rewrite Forall_forall in *. intros k Hk d c Hd Hc. apply (HF k Hk d c); auto. unfold D in Hd; lia. }
  pose proof (ib_complex _ _ _ _ HB) as HU. set (K := kb_complex b) in *.
  pose proof (batch_represents o ks szs D K HW HU Hpres HFD) as HR.
  set (XB := feats_of o K) in *. pose proof (SB_ok ks szs D K HW HU) as HS.
  pose proof (SB_dim ks szs D K HU) as HSD. pose proof (SB_n ks szs D K HU) as HSN.
  set (SB := skel_of D K (total szs)) in *.
  destruct (rep_get _ _ _ 0 HR) as (c0 & Hc0 & R0); [lia|].
  set (XI := init_nodes (rc_init m) XB).
  destruct (set_xs_rep K SB XB XI [map (rc_init m) (map (XB 0) (seq 0 (s_n SB 0)))]) as (K0 & HK0 & HR0); auto.
  { cbn [length]. lia. }
  { intros [|[|d]] x Hx; simpl in Hx; try discriminate. inversion Hx; subst. rewrite map_map. reflexivity. }
  { intros [|d] i Hd; [cbn [length] in Hd; lia|reflexivity]. }
  pose proof (layers_ok o (rc_max_dim m) false (fun (l : nat -> sparse_level V) d => sparse_forward o (l d))
    (fun l d => sparse_rule o (l d)) (rc_layers m) (fun l d => sparse_implements o Hdiv (l d) true false (fun _ => eq_refl))) as HL.
  destruct (run_convs_spec o (rc_max_dim m) (rc_max_dim m) true false _ _ K0 SB XI HS (Nat.le_refl _) HL HR0)
    as (K' & Hrun & HR').
  exists b, (mkKBatch K' (kb_batch b) (kb_ptr b) (kb_num b)). split; auto.
  unfold ring_cin_forward. fold K. rewrite Hc0. cbn [of_option bind].
  rewrite (rc_x _ _ _ _ R0). cbn [of_option bind]. rewrite HK0. cbn [bind].
  unfold level in Hrun |- *. rewrite Hrun. cbn [bind].
  fold (sparse_layers o (rc_layers m)) in *.
  set (h := history o (rc_max_dim m) true SB (sparse_layers o (rc_layers m)) XI) in *.
  assert (Hh : h <> []).
  { unfold h, sparse_layers. destruct (rc_layers m); [congruence|discriminate]. }
  rewrite (final_xs_spec o None SB (rc_max_dim m) h XI Hh). cbn [bind final_feats].
  set (F := last h XI) in *.
  assert (G0 : get (matrices SB (rc_max_dim m) F) 0 = Ok (map (F 0) (seq 0 (total szs 0)))).
  { unfold get, matrices. rewrite nth_error_map_seq.
    destruct (Nat.ltb_spec 0 (Nat.min (rc_max_dim m) (s_dim SB) + 1)); [|lia]. rewrite HSN by lia. auto. }
  rewrite G0. cbn [bind].
  (* the mask is still there *)
  destruct (K_at ks szs D K HU 0) as (cu & Hcu & Uc); [lia|].
  rewrite Hc0 in Hcu. inversion Hcu; subst cu; clear Hcu.
  destruct (set_xs_keeps _ _ _ HK0) as (_ & _ & S1). destruct (run_convs_keeps _ _ _ _ _ _ _ _ Hrun) as (_ & _ & S2).
  pose proof (Forall2_same_trans _ _ _ S1 S2) as S3.
  destruct (Forall2_nth_error_l _ _ _ S3 _ _ Hc0) as (c' & Hc' & Hsame).
  rewrite Hc'. cbn [of_option bind].
  assert (Hmask : c_mask c' = Some (concat (map (fun k => mask_of k) ks))).
  { destruct Hsame as (_ & _ & _ & _ & _ & _ & _ & _ & _ & Hm & _). rewrite <- Hm.
    rewrite (un_mask _ _ _ _ _ Uc). eapply masks_joined; eauto. }
  rewrite Hmask. cbn [of_option bind].
  pose proof (Forall2_length HW) as Hlen.
  (* rows of the members *)
  set (rows := fun (q : complex * (nat -> nat)) =>
    map (fun j => ring_feats m (skel_of Dm (fst q) (snd q)) (feats_of o (fst q)) 0 j) (seq 0 (snd q 0))).
  assert (ER : map (F 0) (seq 0 (total szs 0)) = concat (map rows (combine ks szs))).
  { rewrite rows_blocks. f_equal. apply nth_error_ext. intros i.
    rewrite nth_error_mapi, nth_error_map, nth_error_combine.
    destruct (nth_error szs i) as [sz|] eqn:Es.
    2:{ apply nth_error_None in Es. replace (nth_error ks i) with (@None complex); auto.
        symmetry. apply nth_error_None. lia. }
    destruct (nth_error ks i) as [k|] eqn:Ek.
    2:{ apply nth_error_None in Ek. assert (i < length szs) by (apply nth_error_Some; congruence). lia. }
    simpl. f_equal. unfold rows. cbn [fst snd]. apply map_ext_in. intros j Hj. apply in_seq in Hj.
    pose proof (Wk ks szs HW i k sz Ek Es) as W. symmetry.
    assert (ESk : skel_of Dm k sz = skel_of D k sz).
    { apply skel_of_min.
      assert (k_dim k <= list_max (map k_dim ks)) by (apply in_list_max, in_map; eapply nth_error_In; eauto).
      unfold D. lia. }
    rewrite ESk. unfold ring_feats, F, h.
    apply (final_agree o (fun A => @eq (list A))
             (fun A B f l l' E => f_equal (map f) E) (fun r l l' E => f_equal (reduce_rows o r) E)
             (skel_of D k sz) SB (rc_max_dim m) true true (blk szs D i k sz)
             (blk_refines ks szs D K HW HU i k sz Ek Es (rc_max_dim m) true)
             None (sparse_layers o (rc_layers m)) (init_nodes (rc_init m) (feats_of o k)) XI).
    - apply Forall_forall. intros L _ E. discriminate.
    - intros d a a' Ha. pose proof (blk_agree o ks szs D K HW HU Hpres i k sz Ek Es HFD d a a' Ha) as E.
      unfold XI, init_nodes. destruct (d =? 0); [f_equal|]; exact E.
    - split; auto. rewrite skel_of_n by (auto; lia). lia. }
  rewrite ER.
  set (ans := fun q : complex * (nat -> nat) =>
    map (fun i => nth i (rows q) (vzero o)) (marked (mask_of (fst q)))).
  pose proof (mask_select_concat (map (fun q : complex * (nat -> nat) => (mask_of (fst q), (rows q, ans q))) (combine ks szs))) as MS.
  rewrite !map_map in MS. cbn [fst snd] in MS.
  assert (EM : map (fun k => mask_of k) ks = map (fun q : complex * (nat -> nat) => mask_of (fst q)) (combine ks szs)).
  { clear -Hlen. revert szs Hlen. induction ks as [|k ks IH]; intros [|s szs] H; simpl in *; try lia; auto.
    f_equal. apply IH. lia. }
  rewrite EM. 
  match goal with |- context [mask_select ?a ?b] => change (mask_select a b) with
    (mask_select (concat (map (fun x => mask_of (fst x)) (combine ks szs))) (concat (map (fun x => rows x) (combine ks szs)))) end.
  assert (HML : forall k sz, In (k, sz) (combine ks szs) -> length (mask_of k) = sz 0).
  { intros k sz Hin. apply In_nth_error in Hin as (i & Hi). rewrite nth_error_combine in Hi.
    destruct (nth_error ks i) as [k'|] eqn:Ek; [|discriminate].
    destruct (nth_error szs i) as [s'|] eqn:Es; [|discriminate]. inversion Hi; subst.
    destruct (Forall2_nth_error_l _ _ _ HM _ _ Ek) as (s2 & Es2 & (mk & Hm & Hl)).
    rewrite Es in Es2. inversion Es2; subst. unfold mask_of. rewrite Hm. auto. }
  rewrite MS; clear MS.
  2:{ apply Forall_map. apply Forall_forall. intros [k sz] Hq. cbn [fst snd]. apply mask_select_map.
      transitivity (sz 0); [exact (HML k sz Hq)|]. unfold rows. rewrite map_length, seq_length. auto. }
  cbn [bind]. f_equal. f_equal. rewrite concat_map, map_map. f_equal. apply map_ext_in. intros [k sz] Hq.
  unfold ans, ring_cin_answers. rewrite map_map. apply map_ext_in. intros i Hi. f_equal. cbn [fst snd] in *.
  unfold marked in Hi. apply filter_In in Hi as [Hi _]. apply in_seq in Hi. rewrite (HML k sz Hq) in Hi.
  unfold rows. cbn [fst snd]. rewrite rows_nth by lia. auto.
Qed.

(** Without layers the forward pass fails. *)
Lemma ring_cin_no_layers (m : ring_cin V) b : rc_layers m = [] ->
  forall r, ring_cin_forward o m b <> Ok r.
Proof.
  intros Hm r H. unfold ring_cin_forward in H. rewrite Hm in H. cbn [map run_convs] in H.
  apply bind_ok in H as (c0 & _ & H). apply bind_ok in H as (x0 & _ & H).
  apply bind_ok in H as (k0 & _ & H). cbn [bind] in H. unfold final_xs in H. simpl in H. discriminate.
Qed.

(** ** MessagePassingAgnostic *)
(** Only the number of cells of every dimension and their features enter. *)
Definition agnostic_predict (m : agnostic V) (n : nat -> nat) (X : feats V) : V :=
  ag_lin2 m (fold_left (vadd o)
    (map (fun d => ag_lin1 m (reduce_rows o (ag_pool m) (map (fun i => ag_lin0 m d (X d i)) (seq 0 (n d)))))
         (seq 0 (ag_max_dim m + 1))) (vzero o)).

(** Number of cells up to dimension [D]. *)
Definition cells_to (D : nat) (k : complex) (sz : nat -> nat) : nat -> nat :=
  fun d => if d <=? Nat.min (k_dim k) D then sz d else 0.

Theorem agnostic_batch (Hdiv : vdivn o (vzero o) 1 = vzero o) (m : agnostic V) ks szs Dm :
  ks <> [] -> Forall2 wf_complex ks szs -> Forall (has_features Dm) ks ->
  Forall (fun sz : nat -> nat => 0 < sz 0) szs ->
  exists b, from_complex_list ks Dm = Ok b /\
    agnostic_forward o m b =
      Ok (map (fun q => agnostic_predict m (cells_to Dm (fst q) (snd q)) (feats_of o (fst q))) (combine ks szs)).
Proof.
  intros Hne HW HF Hpos. set (D := Nat.min (list_max (map k_dim ks)) Dm).
  destruct (from_complex_list_is_batch ks szs Dm Hne HW) as (b & Hb & HB & _).
  { intros d Hd. left. intros k c Hk Hc. rewrite Forall_forall in HF. apply (HF k Hk d c); auto. lia. }
  fold D in HB.
  assert (Hpres : forall d, d <= D -> exists k, In k ks /\ d <= k_dim k).
  { intros d Hd. assert (Hin : In (list_max (map k_dim ks)) (map k_dim ks)).
    { apply list_max_exists. destruct ks; [congruence|discriminate]. }
    apply in_map_iff in Hin as (k & Ek & Hk). exists k; split; auto. unfold D in Hd. lia. }
  assert (HFD : Forall (has_features D) ks).
  { rewrite Forall_forall in *. intros k Hk d c Hd Hc. apply (HF k Hk d c); auto. unfold D in Hd; lia. }
  pose proof (ib_complex _ _ _ _ HB) as HU. pose proof (ib_batch _ _ _ _ HB) as Hbt.
  set (K := kb_complex b) in *.
  pose proof (batch_represents o ks szs D K HW HU Hpres HFD) as HR.
  set (XB := feats_of o K) in *. pose proof (SB_ok ks szs D K HW HU) as HS.
  pose proof (SB_dim ks szs D K HU) as HSD. pose proof (SB_n ks szs D K HU) as HSN.
  set (SB := skel_of D K (total szs)) in *.
  exists b. split; auto. unfold agnostic_forward, get_all_cochain_params. fold K. rewrite (re_dim _ _ _ HR), HSD.
  set (N := Nat.min (ag_max_dim m) D + 1).
  destruct (mapM_seq_exists (fun d => get_cochain_params K d (ag_max_dim m) true false true)
              (fun d p => params_ok SB XB d (cob_visible (ag_max_dim m) true d) false p) N) as (ps & -> & Hlp & Hps).
  { intros d Hd. apply params_of_rep; auto. unfold N in Hd; lia. }
  cbn [bind]. set (F := fun d i => ag_lin0 m d (XB d i)).
  assert (EX : mapM (fun dp : nat * params V => let* x := of_option TypeError (p_x (snd dp)) in
                             Ok (map (ag_lin0 m (fst dp)) x)) (combine (seq 0 (length ps)) ps) =
    Ok (map (fun dp => map (F (fst dp)) (seq 0 (total szs (fst dp)))) (combine (seq 0 (length ps)) ps))).
  { apply mapM_map_ok. intros [d p] Hin. apply In_nth_error in Hin as (i & Hi). rewrite nth_error_combine in Hi.
    destruct (nth_error (seq 0 (length ps)) i) as [d'|] eqn:Ed; [|discriminate].
    destruct (nth_error ps i) as [p'|] eqn:Ep; [|discriminate]. inversion Hi; subst d' p'; clear Hi.
    assert (Hi : i < length ps) by (apply nth_error_Some; congruence).
    rewrite (nth_error_nth' _ 0) in Ed by (rewrite seq_length; auto). rewrite seq_nth in Ed by auto.
    inversion Ed; subst d; clear Ed. cbn [fst snd Nat.add].
    rewrite (po_x _ _ _ _ _ _ (Hps _ _ Ep)). cbn [of_option bind]. rewrite map_map, HSN; [reflexivity|].
    unfold N in *. lia. }
  rewrite EX. cbn [bind]. clear EX.
  assert (EC : map (fun dp : nat * params V => map (F (fst dp)) (seq 0 (total szs (fst dp)))) (combine (seq 0 (length ps)) ps) =
    map (fun d => map (F d) (seq 0 (total szs d))) (seq 0 N)).
  { rewrite <- Hlp. clearbody F. clear. set (G := fun d => map (F d) (seq 0 (total szs d))).
    change (map (fun dp : nat * params V => G (fst dp)) (combine (seq 0 (length ps)) ps) = map G (seq 0 (length ps))).
    clearbody G. generalize 0 as s. induction ps as [|p ps IH]; intros s; simpl; auto. f_equal. apply IH. }
  rewrite EC, Hbt.
  assert (Hszs : szs <> []) by (intros ->; inversion HW; subst; congruence).
  rewrite pool_complex_spec by (auto; unfold N; lia). cbn [bind].
  set (P := pooled o (ag_pool m) szs N F).
  assert (Hlen' : match map (fun d => map (P d) (seq 0 (length szs))) (seq 0 (ag_max_dim m + 1)) with
    p :: _ => length p | [] => 0 end = length szs).
  { rewrite Nat.add_1_r. cbn [seq map]. rewrite map_length, seq_length. auto. }
  rewrite Hlen'. f_equal. unfold stack_rows. rewrite map_map.
  pose proof (Forall2_length HW) as Hlen.
  apply nth_error_ext. intros i. rewrite nth_error_map_seq, nth_error_map, nth_error_combine.
  destruct (Nat.ltb_spec i (length szs)) as [Hi|Hi].
  2:{ replace (nth_error ks i) with (@None complex); auto. symmetry. apply nth_error_None. lia. }
  destruct (nth_error szs i) as [sz|] eqn:Es; [|apply nth_error_None in Es; lia].
  destruct (nth_error ks i) as [k|] eqn:Ek; [|apply nth_error_None in Ek; lia].
  cbn [option_map fst snd]. f_equal. unfold agnostic_predict, sum_rows. f_equal. f_equal.
  rewrite !map_map. apply map_ext_in. intros d Hd. apply in_seq in Hd.
  rewrite map_map, (rows_nth o (fun x => ag_lin1 m (P d x))) by auto. f_equal.
  unfold P, pooled. rewrite (nth_error_nth _ _ _ Es).
  pose proof (Wk ks szs HW i k sz Ek Es) as W.
  assert (Hkd : k_dim k <= list_max (map k_dim ks)) by (apply in_list_max, in_map; eapply nth_error_In; eauto).
  unfold cells_to. destruct (Nat.ltb_spec d N) as [Hdn|Hdn].
  - assert (En : (if d <=? Nat.min (k_dim k) Dm then sz d else 0) = sz d).
    { destruct (Nat.leb_spec d (Nat.min (k_dim k) Dm)); auto. symmetry.
      apply (wfk_above _ _ W). unfold N, D in *. lia. }
    rewrite En. f_equal. apply map_ext_in. intros j Hj. apply in_seq in Hj. unfold F. f_equal. symmetry.
    apply (blk_agree o ks szs D K HW HU Hpres i k sz Ek Es HFD). split; auto.
    rewrite skel_of_n by (auto; unfold N in *; lia). lia.
  - destruct (Nat.leb_spec d (Nat.min (k_dim k) Dm)); [unfold N, D in *; lia|].
    simpl. rewrite reduce_nil; auto.
Qed.

End RingNets.
