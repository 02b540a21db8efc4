(** C70: lower adjacencies add no expressive power, only depth. *)
From Coq Require Import List Arith Lia ZArith Bool Permutation.
From Verif Require Import Base ScatterModel ScatterSpec ScatterProofs ComplexModel BatchSpec BatchSpec2
  BatchProofs BatchProofs2 DummyModel BatchProps LiftModel LiftSpec LiftBase LiftProofs LiftClique LiftTables LiftCliqueProps LiftRing LiftProps LiftRingProps LiftRingExamples LiftRingBoundary
  MPModel MPSpec MPProofs MPEngine MPBatch MPForward MPNets MPProps MPIso PermLift
  GraphNetModel GraphNetSpec GraphNetProofs GraphNetProps PowerSpec PowerProofs PowerProps WLSpec WLProofs WLProps.
From Verif Require Import RedundantSpec RedundantProofs.
Import ListNotations.

(** ** From complexes to skeletons *)
Lemma bnd_range {V} (k : complex V) sz d f t : wf_complex k sz -> In (f, t) (boundary_of k d) -> d <= k_dim k.
Proof.
  intros W. unfold boundary_of, attr. destruct (nth_error (k_cochains k) d) as [c|] eqn:E; [|intros []].
  intros _. assert (d < length (k_cochains k)) by (apply nth_error_Some; congruence). rewrite (wfk_len _ _ W) in *. lia.
Qed.

Lemma cellular_regular {W V} (code : nat -> W -> V) (k : complex W) (kv : complex V) down sz D :
  wf_complex k sz -> cellular down k sz -> encoded code k kv -> regular down (skel_of D kv sz).
Proof.
  intros Wk CL EN. destruct CL as [C1 C2 C3 C4 C5 C6]. destruct EN as [E1 E2 E3 E4 E5].
  unfold skel_of. rewrite E1. split; cbn [s_bnd s_n s_up s_low]; fold (boundary_of kv); fold (upper_of kv); fold (lower_of kv).
  - intros d. destruct (d <=? _); [|constructor]. change (NoDup (boundary_of kv d)). rewrite E4. auto.
  - intros d t Hd. destruct (d <=? _); [|lia]. change (content (attr c_bidx d kv)) with (boundary_of kv d). rewrite E4. auto.
  - intros d a b t. change (combine (content (attr c_upper d kv)) (content (attr c_shc d kv))) with (upper_of kv d).
    change (content (attr c_bidx (d + 1) kv)) with (boundary_of kv (d + 1)). rewrite E2, E4.
    destruct (Nat.ltb_spec d (Nat.min (k_dim k) D)), (Nat.leb_spec (d + 1) (Nat.min (k_dim k) D)); try lia; [apply C3|cbn; tauto].
  - intros d. destruct (d <? _); [|constructor]. change (NoDup (upper_of kv d)). rewrite E2. auto.
  - intros d a b f. change (combine (content (attr c_lower d kv)) (content (attr c_shb d kv))) with (lower_of kv d).
    change (content (attr c_bidx d kv)) with (boundary_of kv d). rewrite E3, E4. destruct (d <=? _); [apply C5|cbn; tauto].
  - intros d. destruct (d <=? _); [|constructor]. change (NoDup (lower_of kv d)). rewrite E3. auto.
Qed.

Lemma same_skeleton {W V} (code : nat -> W -> V) (k : complex W) (kv : complex V) sz D : encoded code k kv ->
  (forall d, s_n (skel_of D kv sz) d = s_n (skel_of D k sz) d) /\
  (forall d, s_up (skel_of D kv sz) d = s_up (skel_of D k sz) d) /\
  (forall d, s_bnd (skel_of D kv sz) d = s_bnd (skel_of D k sz) d).
Proof.
  intros [E1 E2 E3 E4 E5]. unfold skel_of. rewrite E1. cbn [s_n s_up s_bnd]. repeat split; intros d; auto.
  - destruct (d <? _); [exact (E2 d)|reflexivity].
  - destruct (d <=? _); [exact (E4 d)|reflexivity].
Qed.

Lemma same_colour_of {W C} (col0 : nat -> W -> C) hash (S S' : skel) X :
  (forall d, s_up S d = s_up S' d) -> (forall d, s_bnd S d = s_bnd S' d) ->
  forall l d i, colour col0 hash S X l d i = colour col0 hash S' X l d i.
Proof.
  intros H1 H2. induction l as [|l IH]; intros d i; cbn [colour]; [reflexivity|].
  unfold up_at, bnd_at. rewrite H1, H2, IH. f_equal; apply map_ext; intros; rewrite ?IH; reflexivity.
Qed.

Lemma rows_length {V} (k : complex V) sz D d : wf_complex k sz -> has_features D k -> d <= D -> d <= k_dim k ->
  length (content (attr c_x d k)) = sz d.
Proof.
  intros W HF HD Hd. unfold attr. destruct (nth_error (k_cochains k) d) as [c|] eqn:E.
  2:{ apply nth_error_None in E. rewrite (wfk_len _ _ W) in E. lia. }
  pose proof (HF d c HD E) as Hx. pose proof (wf_x _ _ _ _ (wfk_each _ _ W d c E)) as H. destruct (c_x c); [exact H|congruence].
Qed.

(** ** What lower adjacencies can tell *)
(** [hash] separates different colours and multisets. *)
Definition separating {C} (hash : C -> list (C * C) -> list C -> C) : Prop :=
  forall c u b c' u' b', hash c u b = hash c' u' b' -> c = c' /\ Permutation u u' /\ Permutation b b'.

(** If refinement by boundary and upper adjacencies gives two complexes the same colours after 2 L + 1 rounds, no
    network with L layers separates them, lower adjacencies or not, whatever its rows and their encoding. *)
Theorem C70_lower_redundant {V C} (o : ops V) (m : net V) (code : nat -> Z -> V) (col0 : nat -> Z -> C) hash
    (k k' : complex Z) (kv kv' : complex V) sz sz' down D :
  ops_ok o -> cwn_net o m -> (forall d v v', col0 d v = col0 d v' -> v = v') -> separating hash ->
  wf_complex k sz -> wf_complex k' sz' -> has_features D k -> has_features D k' ->
  cellular down k sz -> cellular down k' sz' -> encoded code k kv -> encoded code k' kv' ->
  wf_complex kv sz -> wf_complex kv' sz' -> has_features D kv -> has_features D kv' -> 0 < sz 0 -> 0 < sz' 0 ->
  forall L, length (n_convs m) <= L ->
  (forall d, d <= D -> Permutation (colours_of Zops col0 hash D k sz (2 * L + 1) d) (colours_of Zops col0 hash D k' sz' (2 * L + 1) d)) ->
  exists b b' v bo bo',
    from_complex_list [kv] D = Ok b /\ from_complex_list [kv'] D = Ok b' /\
    net_forward o m b = Ok ([v], bo) /\ net_forward o m b' = Ok ([v], bo').
Proof.
  intros Ho HN Hc Hh W W' HF HF' CL CL' EN EN' Wv Wv' HFv HFv' Hp Hp' L HL HC. pose proof (div_0_1 _ Ho) as Hdiv.
  destruct (cwn_net_ok o Hdiv m HN) as (a & Ha).
  destruct (forward_list o Hdiv m a [kv] [sz] D Ha) as (b & bo & Hb & Hf); auto. { discriminate. }
  destruct (forward_list o Hdiv m a [kv'] [sz'] D Ha) as (b' & bo' & Hb' & Hf'); auto. { discriminate. }
  exists b, b'. eexists. exists bo, bo'. split; auto. split; auto. split; [exact Hf|].
  rewrite Hf'. cbn [combine map fst snd]. do 3 f_equal. symmetry.
  pose proof (same_skeleton code k kv sz D EN) as (N1 & N2 & N3). pose proof (same_skeleton code k' kv' sz' D EN') as (N1' & N2' & N3').
  assert (Hlen : length (a_layers a) <= L) by (rewrite <- (Forall2_length (nk_convs _ _ _ Ha)); exact HL).
  assert (Y : forall (k0 : complex Z) (kv0 : complex V) sz0 d i, wf_complex k0 sz0 -> has_features D k0 -> encoded code k0 kv0 -> i < s_n (skel_of D kv0 sz0) d ->
    feats_of o kv0 d i = code d (feats_of Zops k0 d i)).
  { clear. intros k kv sz d i W HF EN Hi. unfold feats_of. rewrite (en_x _ _ _ EN).
    unfold skel_of in Hi. cbn [s_n] in Hi. rewrite (en_dim _ _ _ EN) in Hi.
    destruct (Nat.leb_spec d (Nat.min (k_dim k) D)); [|lia].
    assert (E : length (content (attr c_x d k)) = sz d) by (apply (rows_length k sz D); auto; lia).
    rewrite (nth_indep _ _ (code d (vzero Zops))) by (rewrite map_length; lia). apply map_nth. }
  apply (predict_related col0 hash Hh (skel_of D kv sz) (skel_of D kv' sz') down (feats_of Zops k) (feats_of Zops k')
    (skel_of_ok D kv sz Wv) (skel_of_ok D kv' sz' Wv') (cellular_regular code k kv down sz D W CL EN)
    (cellular_regular code k' kv' down sz' D W' CL' EN') o Ho a).
  - intros d i i' Hi Hi' E. cbn [colour] in E. apply Hc in E. rewrite (Y k kv sz), (Y k' kv' sz') by auto. congruence.
  - intros d _ _. destruct (Nat.le_gt_cases d D) as [Hd|Hd].
    2:{ unfold skel_of. cbn [s_n]. destruct (Nat.leb_spec d (Nat.min (k_dim kv) D)), (Nat.leb_spec d (Nat.min (k_dim kv') D)); try lia. apply Permutation_refl. }
    specialize (HC d Hd). unfold colours_of in HC. rewrite N1, N1'. revert HC. apply perm_transfer. intros i i' _ _ E.
    apply (col_down col0 hash Hh (skel_of D kv sz) (skel_of D kv' sz') (feats_of Zops k) (feats_of Zops k') (2 * L + 1)); [lia|].
    rewrite (same_colour_of col0 hash _ _ (feats_of Zops k) N2 N3), (same_colour_of col0 hash _ _ (feats_of Zops k') N2' N3'). exact E.
Qed.

(** ** One SparseCIN for all of them *)
Lemma separating_num : separating num_hash.
Proof. intros c u b c' u' b' H. apply num_hash_ideal in H. tauto. Qed.

(** For any complexes there is one SparseCIN, without lower adjacencies, with 2 L + 1 layers that separates whatever any
    network with at most L layers separates. *)
Theorem C70_simulated (ks : list (complex Z)) szs down D L :
  ks <> [] -> Forall2 wf_complex ks szs -> Forall (has_features D) ks -> Forall (fun sz : nat -> nat => 0 < sz 0) szs ->
  Forall (fun k => forall d v, In v (content (attr c_x d k)) -> (0 <= v)%Z) ks -> Forall2 (cellular down) ks szs ->
  exists layers lin1 b vs bo, length layers = 2 * L + 1 /\
  from_complex_list ks D = Ok b /\
  net_forward Zops (sparse_cin Zops D layers None RAdd (seq 0 (D + 1)) lin1 false (fun v => v)) b = Ok (vs, bo) /\
  length vs = length ks /\
  forall i j k k' sz sz' v, nth_error ks i = Some k -> nth_error ks j = Some k' ->
    nth_error szs i = Some sz -> nth_error szs j = Some sz' -> nth_error vs i = Some v -> nth_error vs j = Some v ->
  forall (V : Type) (o : ops V) (m : net V) (code : nat -> Z -> V) kv kv', ops_ok o -> cwn_net o m -> length (n_convs m) <= L ->
    encoded code k kv -> encoded code k' kv' -> wf_complex kv sz -> wf_complex kv' sz' -> has_features D kv -> has_features D kv' ->
  exists b b' w bo bo',
    from_complex_list [kv] D = Ok b /\ from_complex_list [kv'] D = Ok b' /\
    net_forward o m b = Ok ([w], bo) /\ net_forward o m b' = Ok ([w], bo').
Proof.
  intros Hne HW HF Hpos HN HCL. destruct (bounded_all ks szs HW HN) as (F & M & HB).
  destruct (C56_colour_refinement_attained (S F) M (2 * L + 1) D (seq 0 (D + 1))) as (layers & lin1 & Hl & Hm);
    [lia|lia|exists 0; split; [apply in_seq; lia|lia]|].
  destruct (Hm ks szs D Hne HW HF Hpos (HB (S F) M ltac:(lia) ltac:(lia)) ltac:(lia)) as (b & vs & bo & Hb & Hf & Hlen & Hiff).
  exists layers, lin1, b, vs, bo. split; auto. split; auto. split; auto. split; auto.
  intros i j k k' sz sz' v Ek Ek' Es Es' Ev Ev' V o m code kv kv' Ho Hnet HL EN EN' Wv Wv' HFv HFv'.
  pose proof (proj1 (Hiff nat num_init num_hash num_init_ideal num_hash_ideal i j k k' sz sz' v v Ek Es Ev Ek' Es' Ev') eq_refl) as HP.
  rewrite Forall_forall in HF, Hpos.
  apply (C70_lower_redundant o m code num_init num_hash k k' kv kv' sz sz' down D Ho Hnet) with (L := L); auto;
    try (apply HF; eapply nth_error_In; eauto); try (apply Hpos; eapply nth_error_In; eauto).
  - intros d u u' E. apply num_init_ideal in E. exact E.
  - apply separating_num.
  - exact (Forall2_nth_both _ _ _ HW i _ _ Ek Es).
  - exact (Forall2_nth_both _ _ _ HW j _ _ Ek' Es').
  - exact (Forall2_nth_both _ _ _ HCL i _ _ Ek Es).
  - exact (Forall2_nth_both _ _ _ HCL j _ _ Ek' Es').
  - intros d Hd. apply HP; [apply in_seq; lia|lia].
Qed.

(** ** Liftings give such complexes *)
Lemma has_cells_cellular {V} cells down FX (k : complex V) :
  has_cells cells down FX k ->
  (forall d t s, names cells (S d) t s -> exists f f', f <> f' /\ face_of cells d f t /\ face_of cells d f' t) ->
  cellular down k (fun d => length (cells d)).
Proof.
  intros HC H2. pose proof (hc_wf _ _ _ _ HC) as W.
  assert (some : forall d t, t < length (cells d) -> exists c, nth_error (k_cochains k) d = Some c).
  { intros d t Ht. destruct (nth_error (k_cochains k) d) as [c|] eqn:E; [eauto|]. apply nth_error_None in E. rewrite (wfk_len _ _ W) in E.
    pose proof (wfk_above _ _ W d ltac:(lia)) as H. cbv beta in H. lia. }
  assert (Fr : forall d f t, face_of cells d f t -> f < length (cells d) /\ t < length (cells (S d))).
  { intros d f t (sf & sc & Hf & Ht & _). unfold names in *. split; apply nth_error_Some; congruence. }
  assert (B : forall d f t, In (f, t) (boundary_of k (S d)) <-> face_of cells d f t).
  { intros d f t. unfold boundary_of, attr. destruct (nth_error (k_cochains k) (S d)) as [c|] eqn:E.
    - apply (be_iff _ _ _ (hc_bnd _ _ _ _ HC d c E)).
    - split; [intros []|]. intros H. apply Fr in H as [_ H]. apply some in H as [c Hc]. congruence. }
  assert (B0 : boundary_of k 0 = []).
  { unfold boundary_of, attr. destruct (nth_error (k_cochains k) 0) as [c|] eqn:E; [|reflexivity]. destruct (hc_bnd0 _ _ _ _ HC c E) as [-> _]. reflexivity. }
  split.
  - intros [|d]; [rewrite B0; constructor|]. unfold boundary_of, attr. destruct (nth_error (k_cochains k) (S d)) as [c|] eqn:E; [|constructor].
    apply (be_once _ _ _ (hc_bnd _ _ _ _ HC d c E)).
  - intros [|d] t Hd Ht; [lia|]. destruct (nth_error (cells (S d)) t) as [s|] eqn:E; [|apply nth_error_None in E; lia].
    destruct (H2 d t s E) as (f & f' & N & F1 & F2). exists f, f'. rewrite !B. auto.
  - intros d a b t. rewrite Nat.add_1_r, !B. unfold upper_of, attr. destruct (nth_error (k_cochains k) d) as [c|] eqn:E.
    + apply (ue_iff _ _ _ (hc_up _ _ _ _ HC d c E)).
    + split; [intros []|]. intros (_ & H & _). apply Fr in H as [H _]. apply some in H as [c Hc]. congruence.
  - intros d. unfold upper_of, attr. destruct (nth_error (k_cochains k) d) as [c|] eqn:E; [|constructor].
    apply (ue_once _ _ _ (hc_up _ _ _ _ HC d c E)).
  - intros [|d] a b f.
    + rewrite B0. split; [|cbn; tauto]. unfold lower_of, attr. destruct (nth_error (k_cochains k) 0) as [c|] eqn:E; [|intros []].
      destruct (hc_bnd0 _ _ _ _ HC c E) as (_ & -> & _). intros [].
    + rewrite !B. unfold lower_of, attr. destruct (nth_error (k_cochains k) (S d)) as [c|] eqn:E.
      * pose proof (hc_low _ _ _ _ HC d c E) as HL. destruct down.
        -- pose proof (le_iff _ _ _ HL a b f) as H. split; [intros Hx; split; [reflexivity|apply H; exact Hx]|intros [_ Hx]; apply H; exact Hx].
        -- destruct HL as [-> _]. split; [intros []|]. intros [H _]. discriminate.
      * split; [intros []|]. intros (_ & _ & H & _). apply Fr in H as [_ H]. apply some in H as [c Hc]. congruence.
  - intros [|d]; unfold lower_of, attr.
    + destruct (nth_error (k_cochains k) 0) as [c|] eqn:E; [|constructor]. destruct (hc_bnd0 _ _ _ _ HC c E) as (_ & -> & _). constructor.
    + destruct (nth_error (k_cochains k) (S d)) as [c|] eqn:E; [|constructor].
      pose proof (hc_low _ _ _ _ HC d c E) as HL. destruct down; [apply (le_once _ _ _ HL)|]. destruct HL as [-> _]. constructor.
Qed.

Lemma clique_two edges size k cells : clique_cells edges size k cells -> forall d t s, names cells (S d) t s ->
  exists f f', f <> f' /\ face_of cells d f t /\ face_of cells d f' t.
Proof.
  intros CC d t s Ht. pose proof (nth_error_In _ _ Ht) as Hin. apply (cc_iff _ _ _ _ CC) in Hin as ((_ & N & R & A) & I & Hl & Hk).
  destruct s as [|u [|v s]]; [discriminate|cbn in Hl; lia|]. cbn [length] in Hl.
  assert (Huv : u <> v) by (intros ->; inversion N; subst; cbn in *; tauto).
  assert (G : forall w, (w = u \/ w = v) -> In (w :: s) (cells d)).
  { intros w Hw. apply (cc_iff _ _ _ _ CC). split; [|split; [|split; [cbn; lia|lia]]].
    - split; [discriminate|]. split; [|split].
      + inversion N as [|? ? N1 N2]; subst. inversion N2; subst. constructor; auto. destruct Hw; subst; cbn in N1; tauto.
      + intros x Hx. apply R. cbn in *. destruct Hw; subst; tauto.
      + intros x y Hx Hy Hxy. apply A; auto; cbn in *; destruct Hw; subst; tauto.
    - intros i j a b Ha Hb Hij. destruct j as [|j]; [lia|]. destruct i as [|i]; cbn [nth_error] in Ha, Hb.
      + inversion Ha; subst a. destruct Hw; subst w; [apply (I 0 (S (S j)))|apply (I 1 (S (S j)))]; auto; lia.
      + apply (I (S (S i)) (S (S j))); auto. lia. }
  destruct (In_nth_error _ _ (G u (or_introl eq_refl))) as [f Hf]. destruct (In_nth_error _ _ (G v (or_intror eq_refl))) as [f' Hf'].
  exists f, f'. split; [|split].
  - intros <-. congruence.
  - exists (u :: s), (u :: v :: s). split; [exact Hf|]. split; [exact Ht|]. intros x Hx. cbn in *. tauto.
  - exists (v :: s), (u :: v :: s). split; [exact Hf'|]. split; [exact Ht|]. intros x Hx. cbn in *. tauto.
Qed.

Theorem C70_clique_lift {V} (o : ops V) lib r x edges size k y down K :
  clique_input lib x edges size k y -> compute_clique_complex o lib r x edges size k y down = Ok K ->
  exists cells, clique_cells edges size k cells /\ wf_complex K (fun d => length (cells d)) /\ cellular down K (fun d => length (cells d)).
Proof.
  intros HI E. pose proof (given_inv o lib r x edges size k y down HI K E) as HC. pose proof (given_cells lib x edges size k y HI) as CC.
  eexists. split; [exact CC|]. split; [apply (hc_wf _ _ _ _ HC)|]. eapply has_cells_cellular; [exact HC|]. eapply clique_two, CC.
Qed.

Lemma ring_two {V} edges size max_k cells down FX (K : complex V) : graph_ok edges size -> ring_cells edges size max_k cells -> has_cells cells down FX K ->
  forall d t s, names cells (S d) t s -> exists f f', f <> f' /\ face_of cells d f t /\ face_of cells d f' t.
Proof.
  intros HG RC HC [|[|d]] t s Ht.
  - pose proof (nth_error_In _ _ Ht) as Hin. apply (rc_edge _ _ _ _ RC) in Hin as (u & v & Huv & -> & HA).
    assert (HR : u < size /\ v < size) by (destruct HA as [_ [H|H]]; apply HG in H; lia).
    exists u, v. split; [lia|]. split.
    + exists [u], [u; v]. split; [apply (rc_vertex _ _ _ _ RC); tauto|]. split; [exact Ht|]. intros x [<-|[]]. cbn; auto.
    + exists [v], [u; v]. split; [apply (rc_vertex _ _ _ _ RC); tauto|]. split; [exact Ht|]. intros x [<-|[]]. cbn; auto.
  - assert (Hc : exists c, nth_error (k_cochains K) 2 = Some c).
    { destruct (nth_error (k_cochains K) 2) as [c|] eqn:E; [eauto|]. apply nth_error_None in E. rewrite (wfk_len _ _ (hc_wf _ _ _ _ HC)) in E.
      pose proof (wfk_above _ _ (hc_wf _ _ _ _ HC) 2 ltac:(lia)) as H. cbv beta in H. unfold names in Ht.
      destruct (cells 2); [destruct t; discriminate|discriminate]. }
    destruct Hc as [c Hc]. pose proof (hc_bnd _ _ _ _ HC 1 c Hc) as BE.
    pose proof (ring_boundary_ok edges size max_k cells c RC BE t s Ht) as RB.
    pose proof (rc_ring _ _ _ _ RC s (nth_error_In _ _ Ht)) as [(L3 & _) _]. destruct s as [|v s]; [cbn in L3; lia|].
    destruct (rb_two _ _ _ _ RB v (or_introl eq_refl)) as (f & g & N & H). exists f, g. split; [exact N|].
    split; apply (be_iff _ _ _ BE); [apply (proj2 (H f))|apply (proj2 (H g))]; auto.
  - unfold names in Ht. rewrite (rc_top _ _ _ _ RC) in Ht by lia. destruct t; discriminate.
Qed.

Theorem C70_ring_lift {V} (o : ops V) veqb lib isos set_order r x edges edge_attr size y max_k down init_edges init_rings K :
  ring_input lib isos set_order x edges size y max_k -> (forall a b, veqb a b = true <-> a = b) ->
  (init_edges = true -> LiftRingProps.attr_ok edges edge_attr) ->
  compute_ring_2complex o veqb lib isos set_order r x edges edge_attr size y max_k down init_edges init_rings = Ok K ->
  exists cells, ring_cells edges size max_k cells /\ wf_complex K (fun d => length (cells d)) /\ cellular down K (fun d => length (cells d)).
Proof.
  intros HI He HA E. destruct (ring_inv o veqb lib isos set_order r x edges edge_attr size y max_k down init_edges init_rings HI He K E HA)
    as (rows & _ & _ & HC). pose proof (cells_ring lib isos set_order x edges size y max_k HI) as RC.
  eexists. split; [exact RC|]. split; [apply (hc_wf _ _ _ _ HC)|]. eapply has_cells_cellular; [exact HC|].
  eapply ring_two; [apply (ri_graph _ _ _ _ _ _ _ _ HI)|exact RC|exact HC].
Qed.

(** ** Rows of another type *)
(** The same complex with other rows. *)
Definition recode_cochain {W V} (code : nat -> W -> V) (d : nat) (c : cochain W) : cochain V :=
  mkCochain (c_dim c) (option_map (map (code d)) (c_x c)) (c_upper c) (c_lower c) (c_shb c) (c_shc c) (c_bidx c) (c_uor c) (c_lor c)
    (c_y c) (c_mask c) (c_n c) (c_nup c) (c_ndown c).
Definition recode {W V} (code : nat -> W -> V) (k : complex W) : complex V :=
  mkComplexRec (k_dim k) (mapi (recode_cochain code) (k_cochains k)) (k_y k).

Theorem C70_recode {W V} (code : nat -> W -> V) (k : complex W) sz D : wf_complex k sz -> has_features D k ->
  encoded code k (recode code k) /\ wf_complex (recode code k) sz /\ has_features D (recode code k).
Proof.
  intros Wk HF. assert (N : forall d, nth_error (k_cochains (recode code k)) d = option_map (recode_cochain code d) (nth_error (k_cochains k) d))
    by (intros d; apply nth_error_mapi).
  split; [|split].
  - split; auto; intros d; unfold upper_of, lower_of, boundary_of, attr; rewrite ?N; destruct (nth_error (k_cochains k) d) as [c|]; auto.
    cbn [option_map recode_cochain c_x]. destruct (c_x c); auto.
  - split.
    + cbn [recode k_cochains k_dim]. rewrite mapi_length. apply (wfk_len _ _ Wk).
    + intros d c'. rewrite N. destruct (nth_error (k_cochains k) d) as [c|] eqn:E; [|discriminate]. cbn [option_map]. intros H. inversion H; subst c'; clear H.
      destruct (wfk_each _ _ Wk d c E) as [P1 P2 P3 P4 P5 P6 P7 P8]. split; auto.
      cbn [recode_cochain c_x c_bidx]. destruct (c_x c); cbn [option_map]; [rewrite map_length|]; auto.
    + apply (wfk_above _ _ Wk).
  - intros d c' Hd. rewrite N. destruct (nth_error (k_cochains k) d) as [c|] eqn:E; [|discriminate]. cbn [option_map]. intros H. inversion H; subst c'; clear H.
    specialize (HF d c Hd E). cbn [recode_cochain c_x]. destruct (c_x c); [discriminate|congruence].
Qed.

(** ** More layers are needed *)
(** Two trees: a centre with legs of 1, 1 and 3 edges, and one with legs of 1, 2 and 2 edges. *)
Definition legs113 : graph Z := mkGraph (repeat 1%Z 6) (both_ways [(0, 1); (0, 2); (0, 3); (3, 4); (4, 5)]) None.
Definition legs122 : graph Z := mkGraph (repeat 1%Z 6) (both_ways [(0, 1); (0, 2); (2, 3); (0, 4); (4, 5)]) None.
Definition lift_tree (g : graph Z) : result (complex Z) :=
  compute_clique_complex Zops (any_lib true) RAdd (g_x g) (g_edges g) 6 2 None true.
Definition tree113 : complex Z := Eval vm_compute in match lift_tree legs113 with Ok K => K | Err _ => mkComplexRec 0 [] None end.
Definition tree122 : complex Z := Eval vm_compute in match lift_tree legs122 with Ok K => K | Err _ => mkComplexRec 0 [] None end.

(** One layer of CIN0 that sums the lower neighbours and squares: it counts pairs of edges that meet. *)
Definition squares : net Z :=
  cin0 Zops 1 [fun d => mkCinLevel (fun v => v) (fun v _ => v) (fun _ _ => 1%Z) (fun v => (v * v)%Z) (fun _ => 0%Z)] None RAdd (fun v => v).

(** Colours as trees. *)
Inductive shade (V : Type) : Type := Leaf (v : V) | Node (c : shade V) (u : list (shade V * shade V)) (b : list (shade V)).
Arguments Leaf {V}. Arguments Node {V}.

(** With one layer each it is not so: a CIN0 with lower adjacencies separates two trees that no SparseCIN or CIN++ with
    one layer separates. *)
Theorem C70_more_layers_needed :
  lift_tree legs113 = Ok tree113 /\ lift_tree legs122 = Ok tree122 /\
  (forall (V : Type) (o : ops V) (m : net V) (code : nat -> Z -> V), ops_ok o -> no_lower_net o m 1 ->
   exists b b' v bo bo',
    from_complex_list [recode code tree113] 2 = Ok b /\ from_complex_list [recode code tree122] 2 = Ok b' /\
    net_forward o m b = Ok ([v], bo) /\ net_forward o m b' = Ok ([v], bo')) /\
  exists m b b' v v' bo bo', cwn_net Zops m /\ length (n_convs m) = 1 /\
    from_complex_list [tree113] 2 = Ok b /\ from_complex_list [tree122] 2 = Ok b' /\
    net_forward Zops m b = Ok ([v], bo) /\ net_forward Zops m b' = Ok ([v'], bo') /\ v <> v'.
Proof.
  split; [vm_compute; reflexivity|]. split; [vm_compute; reflexivity|]. split.
  - intros V o m code Ho HN.
    assert (Hw : wf_complex (recode code tree113) (fun d => nth d [6; 5] 0) /\ wf_complex (recode code tree122) (fun d => nth d [6; 5] 0))
      by (split; apply wf_complexb_ok; reflexivity).
    assert (Hf : has_features 2 (recode code tree113) /\ has_features 2 (recode code tree122)).
    { split; intros [|[|[|d]]] c _ Hc; inversion Hc; subst; discriminate. }
    apply (C47_colour_refinement_bound o Ho (fun _ v => Leaf v) Node) with (L := 1) (sz := fun d => nth d [6; 5] 0) (sz' := fun d => nth d [6; 5] 0); auto;
      try tauto; try (cbn; lia).
    + intros d v v' H. inversion H; auto.
    + intros c u b c' u' b' H. inversion H; subst. auto.
    + intros d _. destruct d as [|[|d]].
      * vm_compute. do 2 apply perm_skip. apply perm_swap.
      * vm_compute. apply Permutation_refl.
      * vm_compute. apply Permutation_refl.
  - exists squares. do 6 eexists. split; [apply CN_cin0; discriminate|]. split; [reflexivity|].
    split; [vm_compute; reflexivity|]. split; [vm_compute; reflexivity|]. split; [vm_compute; reflexivity|]. split; [vm_compute; reflexivity|]. discriminate.
Qed.

(** ** Instances *)
Lemma six_input (g : graph Z) k : simple (g_edges g) 6 -> length (g_x g) = 6 -> clique_input (any_lib true) (g_x g) (g_edges g) 6 k None.
Proof. intros HS Hl. split; auto; [apply HS|lia|cbn; auto|apply any_lib_ok]. Qed.
Lemma tree_cellular (g : graph Z) (K : complex Z) : simple (g_edges g) 6 -> length (g_x g) = 6 -> lift_tree g = Ok K ->
  exists sz, wf_complex K sz /\ cellular true K sz /\ 0 < sz 0.
Proof.
  intros HS Hl E. destruct (C70_clique_lift Zops (any_lib true) RAdd (g_x g) (g_edges g) 6 2 None true K (six_input g 2 HS Hl) E) as (cells & CC & W & CL).
  exists (fun d => length (cells d)). split; auto. split; auto. pose proof (cc_vertex _ _ _ _ CC 0 ltac:(lia)) as H. unfold names in H.
  apply nth_error_Some. congruence.
Qed.
Lemma encoded_same {V} (k : complex V) : encoded (fun _ v => v) k k.
Proof. split; auto. intros d. now rewrite map_id. Qed.

(** Three layers without lower adjacencies separate the two trees. *)
Example C70_simulated_example : exists layers lin1 b v v' bo, length layers = 3 /\ from_complex_list [tree113; tree122] 2 = Ok b /\
  net_forward Zops (sparse_cin Zops 2 layers None RAdd (seq 0 3) lin1 false (fun v => v)) b = Ok ([v; v'], bo) /\ v <> v'.
Proof.
  destruct C70_more_layers_needed as (E & E' & _ & m & c & c' & w & w' & co & co' & HN & HL & Hc & Hc' & Hw & Hw' & Hne).
  destruct (tree_cellular legs113 tree113) as (sz & W & CL & P); [apply simpleb_ok; reflexivity|reflexivity|exact E|].
  destruct (tree_cellular legs122 tree122) as (sz' & W' & CL' & P'); [apply simpleb_ok; reflexivity|reflexivity|exact E'|].
  assert (Hf : has_features 2 tree113 /\ has_features 2 tree122).
  { split; intros [|[|[|d]]] k _ Hk; inversion Hk; subst; discriminate. }
  destruct (C70_simulated [tree113; tree122] [sz; sz'] true 2 1) as (layers & lin1 & b & vs & bo & H1 & H2 & H3 & H4 & H5).
  - discriminate.
  - auto.
  - destruct Hf; auto.
  - auto.
  - assert (G : forall k, forallb (fun c => forallb (fun v => (0 <=? v)%Z) (content (c_x c))) (k_cochains k) = true -> forall d v, In v (content (attr c_x d k)) -> (0 <= v)%Z).
    { intros k H d v. unfold attr. destruct (nth_error (k_cochains k) d) as [cc|] eqn:Ec; [|intros []]. intros Hv. rewrite forallb_forall in H.
      specialize (H _ (nth_error_In _ _ Ec)). rewrite forallb_forall in H. apply Z.leb_le, H; auto. }
    constructor; [apply G; reflexivity|]. constructor; [apply G; reflexivity|constructor].
  - auto.
  - destruct vs as [|v [|v' [|]]]; try discriminate H4. exists layers, lin1, b, v, v', bo. split; [exact H1|]. split; [exact H2|]. split; [exact H3|].
    intros <-. destruct (H5 0 1 tree113 tree122 sz sz' v eq_refl eq_refl eq_refl eq_refl eq_refl eq_refl Z Zops m (fun _ v => v) tree113 tree122
      Zops_ok HN ltac:(lia) (encoded_same _) (encoded_same _) W W' (proj1 Hf) (proj2 Hf)) as (q & q' & u & qo & qo' & Q1 & Q2 & Q3 & Q4).
    congruence.
Qed.

(** The hexagon and the two triangles without their rings, with lower adjacencies. *)
Definition lift_flat (g : graph Z) : result (complex Z) := compute_clique_complex Zops (any_lib true) RAdd (g_x g) (g_edges g) 6 1 None true.
Definition hex_flat : complex Z := Eval vm_compute in match lift_flat hex with Ok K => K | Err _ => mkComplexRec 0 [] None end.
Definition tri_flat : complex Z := Eval vm_compute in match lift_flat tri with Ok K => K | Err _ => mkComplexRec 0 [] None end.

Lemma flat_colours (k : complex Z) sz : k = hex_flat \/ k = tri_flat -> sz 0 = 6 -> sz 1 = 6 -> forall l d i, d <= 1 -> i < 6 ->
  colour (fun _ v => CLeaf v) CNode (skel_of 1 k sz) (feats_of Zops k) l d i = uni l d.
Proof.
  intros Hk H0 H1 l. induction l as [|l IH]; intros d i Hd Hi.
  - destruct Hk as [-> | ->]; destruct d as [|[|d]]; try lia;
      destruct i as [|[|[|[|[|[|i]]]]]]; try lia; reflexivity.
  - cbn [colour uni]. destruct d as [|[|d]]; try lia; cbn [Nat.eqb].
    + rewrite (IH 0 i) by lia. f_equal.
      * destruct Hk as [-> | ->]; destruct i as [|[|[|[|[|[|i]]]]]]; try lia;
          match goal with |- map ?f (up_at ?s ?d ?j) = _ => let e := eval vm_compute in (up_at s d j) in change (up_at s d j) with e end;
          cbn [map fst snd]; rewrite !IH by lia; reflexivity.
      * destruct Hk as [-> | ->]; destruct i as [|[|[|[|[|[|i]]]]]]; try lia; reflexivity.
    + rewrite (IH 1 i) by lia. f_equal.
      * destruct Hk as [-> | ->]; destruct i as [|[|[|[|[|[|i]]]]]]; try lia; reflexivity.
      * destruct Hk as [-> | ->]; destruct i as [|[|[|[|[|[|i]]]]]]; try lia;
          match goal with |- map ?f (bnd_at ?s ?d ?j) = _ => let e := eval vm_compute in (bnd_at s d j) in change (bnd_at s d j) with e end;
          cbn [map fst snd pred]; rewrite !IH by lia; reflexivity.
Qed.

(** No network of any kind and depth separates them. *)
Example C70_lower_redundant_example (m : net Z) : cwn_net Zops m -> lift_flat hex = Ok hex_flat /\ lift_flat tri = Ok tri_flat /\
  exists b b' v bo bo', from_complex_list [hex_flat] 1 = Ok b /\ from_complex_list [tri_flat] 1 = Ok b' /\
    net_forward Zops m b = Ok ([v], bo) /\ net_forward Zops m b' = Ok ([v], bo').
Proof.
  intros HN. split; [vm_compute; reflexivity|]. split; [vm_compute; reflexivity|].
  destruct (C70_clique_lift Zops (any_lib true) RAdd (g_x hex) (g_edges hex) 6 1 None true hex_flat) as (cells & CC & W & CL);
    [apply six_input; [apply simpleb_ok; reflexivity|reflexivity]|vm_compute; reflexivity|].
  destruct (C70_clique_lift Zops (any_lib true) RAdd (g_x tri) (g_edges tri) 6 1 None true tri_flat) as (cells' & CC' & W' & CL');
    [apply six_input; [apply simpleb_ok; reflexivity|reflexivity]|vm_compute; reflexivity|].
  assert (Hf : has_features 1 hex_flat /\ has_features 1 tri_flat).
  { split; intros [|[|[|d]]] k _ Hk; inversion Hk; subst; discriminate. }
  assert (L : forall d, d <= 1 -> length (cells d) = 6 /\ length (cells' d) = 6).
  { intros d Hd. split; symmetry; [rewrite <- (rows_length hex_flat _ 1 d W (proj1 Hf) Hd Hd)|rewrite <- (rows_length tri_flat _ 1 d W' (proj2 Hf) Hd Hd)];
      destruct d as [|[|d]]; try lia; reflexivity. }
  apply (C70_lower_redundant Zops m (fun _ v => v) (fun _ v => CLeaf v) CNode hex_flat tri_flat hex_flat tri_flat
    (fun d => length (cells d)) (fun d => length (cells' d)) true 1) with (L := length (n_convs m)); auto; try apply Hf; try apply encoded_same.
  - apply Zops_ok.
  - intros d v v' H. inversion H; auto.
  - intros c u b c' u' b' H. apply CNode_faithful in H. exact H.
  - rewrite (proj1 (L 0 ltac:(lia))). lia.
  - rewrite (proj2 (L 0 ltac:(lia))). lia.
  - intros d Hd. unfold colours_of. apply Permutation_refl'.
    assert (N : s_n (skel_of 1 hex_flat (fun d => length (cells d))) d = 6 /\ s_n (skel_of 1 tri_flat (fun d => length (cells' d))) d = 6).
    { unfold skel_of. cbn [s_n k_dim hex_flat tri_flat Nat.min]. destruct (Nat.leb_spec d 1); [apply L; auto|lia]. }
    destruct N as [-> ->]. apply map_ext_in. intros i Hi. apply in_seq in Hi.
    rewrite !flat_colours; auto; try lia; try (apply L; lia).
Qed.

(** The hexagon with its ring. *)
Definition hex_full : result (complex Z) :=
  compute_ring_2complex Zops Z.eqb (any_lib true) (ref_isos 6) (@rev _) RAdd (g_x hex) (g_edges hex) None 6 None 6 true true true.
Example C70_ring_lift_example : exists K cells, hex_full = Ok K /\ k_dim K = 2 /\ ring_cells (g_edges hex) 6 6 cells /\ cellular true K (fun d => length (cells d)).
Proof.
  assert (E : match hex_full with Ok K => k_dim K | Err _ => 0 end = 2) by (vm_compute; reflexivity).
  destruct hex_full as [K|] eqn:EK; [|discriminate].
  destruct (C70_ring_lift Zops Z.eqb (any_lib true) (ref_isos 6) (@rev _) RAdd (g_x hex) (g_edges hex) None 6 None 6 true true true K
    (hex_ring true) Zeqb_ok (fun _ => I) EK) as (cells & RC & _ & CL). exists K, cells. auto.
Qed.

Print Assumptions C70_lower_redundant.
Print Assumptions C70_simulated.
Print Assumptions C70_clique_lift.
Print Assumptions C70_ring_lift.
Print Assumptions C70_recode.
Print Assumptions C70_more_layers_needed.
