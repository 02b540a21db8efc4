(** Proofs about the TU data sets from text to predictions, for C81. *)
From Coq Require Import String List Arith Lia ZArith QArith Bool Permutation.
From Verif Require Import Base ScatterModel ScatterSpec ScatterProofs ComplexModel BatchSpec BatchSpec2 BatchProofs
  MPModel MPSpec MPProofs MPForward MPNets MPProps MPIso
  LiftModel LiftSpec LiftBase LiftClique LiftCliqueProps LiftProps LiftRing LiftRingProps LiftIso LiftInvariance
  LiftDataset DatasetModel DatasetSpec DatasetProofs DatasetProps ExpModel InferModel InferProps SelfIsoProofs MolModel MolProofs
  TUModel TUSpec TUProofs TUProps PermLift.
From Verif Require Import TUPipeModel TUPipeSpec.
Import ListNotations.
Open Scope nat_scope.
Open Scope list_scope.

Lemma hot_unique k i l l' : hot_at k i l -> hot_at k i l' -> l = l'.
Proof.
  intros (L & _ & H) (L' & _ & H'). apply nth_error_ext_local. intros j.
  destruct (nth_error l j) as [z|] eqn:E.
  - destruct (nth_error l' j) as [z'|] eqn:E'; [rewrite (H _ _ E), (H' _ _ E'); reflexivity|].
    apply nth_error_None in E'. assert (j < length l) by (apply nth_error_Some; congruence). lia.
  - apply nth_error_None in E. symmetry. apply nth_error_None. lia.
Qed.
Lemma linked_sym d u v : linked d u v -> linked d v u.
Proof. intros [H|H]; [right|left]; auto. Qed.

Lemma single_nodup (es : list (nat * nat)) : (forall e, In e es -> occurrences e es = 1) -> NoDup es.
Proof.
  assert (G : forall es e, In e es -> 1 <= occurrences e es).
  { clear. intros es e H. unfold occurrences. induction es as [|a es IH]; [destruct H|]. cbn [filter].
    destruct H as [->|H]; [rewrite !Nat.eqb_refl; simpl; lia|]. destruct (_ && _); simpl; auto; specialize (IH H); lia. }
  intros H. induction es as [|a es IH]; constructor.
  - intros Hin. specialize (H a (or_introl eq_refl)). unfold occurrences in H. cbn [filter] in H. rewrite !Nat.eqb_refl in H. simpl in H.
    pose proof (G es a Hin) as G1. unfold occurrences in G1. lia.
  - apply IH. intros e He. specialize (H e (or_intror He)). pose proof (G es e He). unfold occurrences in *. cbn [filter] in H.
    destruct (_ && _); simpl in H; lia.
Qed.

(** ** Reading a split of a data set whose cache may be filled *)
Section Split.
Context {V : Type} (fwd : kbatch V -> result (list V * kbatch V)) (loss_fn : list V -> list Z -> option Q).

Lemma split_read_c (ks : list (complex V)) md co ds s (n : split_name s) ids :
  collection ks md -> collate ks md = Ok co -> d_data ds = Some co -> d_max_dim ds = md -> cache_ok ds (length ks) (fetch co md) ->
  d_indices ds = None -> ids_of n ds = Some ids -> (forall i, In i ids -> i < length ks) ->
  exists f : nat -> complex V, (forall i k, nth_error ks i = Some k -> same_complex k (f i)) /\
    forall bs, infer_split fwd bs ds s = infer fwd md bs (map f ids) /\ eval_split fwd loss_fn bs ds s = eval_loader fwd md loss_fn bs (map f ids).
Proof.
  intros HC E Hd Hm HK Hn Hids Hr.
  assert (Hcl : co_len co = length ks) by (eapply co_len_spec; eauto using cl_nonvoid).
  exists (fun i => match fetch co md i with Ok k => k | Err _ => mkComplexRec 0 [] None end).
  assert (HF : forall i k, nth_error ks i = Some k -> exists k', fetch co md i = Ok k' /\ same_complex k k').
  { intros i k Hi. assert (Hin : In k ks) by (eapply nth_error_In; eauto).
    destruct (cl_store _ _ HC k Hin) as (n0 & Hn0). eapply fetch_spec; eauto using cl_labels, cl_dims. }
  split; [intros i k Hi; destruct (HF i k Hi) as (k' & -> & H); exact H|].
  set (f := fun i => match fetch co md i with Ok k => k | Err _ => mkComplexRec 0 [] None end).
  assert (Hfetch : forall i, i < length ks -> fetch co md i = Ok (f i)).
  { intros i Hi. destruct (nth_error ks i) as [k|] eqn:Ek; [|apply nth_error_None in Ek; lia]. unfold f. destruct (HF i k Ek) as (k' & -> & _). reflexivity. }
  assert (Hsub : get_split ds s = Ok (with_indices ds ids)).
  { assert (Hsel : ds_select ds ids = Ok (with_indices ds ids)).
    { unfold ds_select, ds_indices. rewrite Hn. unfold ds_len. rewrite Hd. cbn [bind]. rewrite Hcl, mapM_get_seq by auto. reflexivity. }
    unfold get_split. destruct n; cbn in Hids; cbn [String.eqb]; simpl; rewrite Hids, Hn; simpl; exact Hsel. }
  assert (Hload : forall bs, 1 <= bs -> load_batches (with_indices ds ids) (chunks (length ids) bs ids) = Ok (chunks (length ids) bs (map f ids))).
  { intros bs Hbs. assert (Hall : forall l i, In l (chunks (length ids) bs ids) -> In i l -> i < length ks).
    { intros l i Hl Hi. apply Hr. rewrite <- (chunks_concat bs ids Hbs (length ids) (le_n _)). apply in_concat. eauto. }
    rewrite (load_batches_fetch co (length ks)); [|exact Hd|cbn [with_indices d_max_dim]; rewrite Hm; exact HK|exact Hall].
    rewrite chunks_map. apply mapM_total. intros l Hl. apply mapM_total. intros i Hi. cbn [with_indices d_max_dim]. rewrite Hm. apply Hfetch. eapply Hall; eauto. }
  intros bs. unfold infer_split, eval_split. rewrite Hsub. cbn [bind ds_indices with_indices d_indices]. rewrite Hm.
  unfold infer_dataset, infer, eval_loader, loader. destruct (Nat.eqb_spec bs 0) as [->|Hbs]; [split; reflexivity|]. cbn [bind].
  assert (Hw : mkDataset md (d_data ds) (d_cache ds) (d_train ds) (d_val ds) (d_test ds) (Some ids) = with_indices ds ids) by (unfold with_indices; rewrite Hm; reflexivity).
  rewrite ?Hw. rewrite Hload by lia. cbn [bind]. rewrite map_length. split; reflexivity.
Qed.
End Split.

(** ** Graphs of documents *)
(** Documents the conversion accepts, and complexes the networks accept. *)
Definition convertible (ring : option nat) (d : doc) : Prop := doc_ok d /\ match ring with Some _ => no_loops d | None => True end.
Record nice {V} (md : nat) (K : complex V) (sz : nat -> nat) : Prop := {
  ni_wf : wf_complex K sz;
  ni_pos : forall d, d <= k_dim K -> 0 < sz d;
  ni_dim : k_dim K <= md;
  ni_x : has_features md K
}.
Definition ring_dim (ring : option nat) (md : nat) : Prop := match ring with Some _ => md = 2 | None => 1 <= md end.

Section Docs.
Context {V : Type} (o : ops V) (Ho : ops_ok o) (veqb : V -> V -> bool) (veqb_ok : forall a b, veqb a b = true <-> a = b) (row : list Z -> V).
Variables (r : reduce) (down : bool) (k : nat).
Notation doc_graph := (doc_graph row k).

Lemma doc_iso code d g g' : doc_graph code d g -> doc_graph code d g' ->
  graph_iso (fun v => v) (LiftModel.g_n g) (LiftModel.g_edges g) (LiftModel.g_edges g') (LiftModel.g_x g) (LiftModel.g_x g').
Proof.
  intros D D'. constructor; auto.
  - assert (G : forall g g' u v, doc_graph code d g -> doc_graph code d g' -> adjacent (LiftModel.g_edges g) u v -> adjacent (LiftModel.g_edges g') u v).
    { clear. intros g g' u v D D' [N H]. split; auto. destruct H as [H|H]; apply (dg_in _ _ _ _ _ D) in H; [|apply linked_sym in H]; apply (dg_all _ _ _ _ _ D'); auto. }
    intros u v _ _. split; apply G; auto.
  - intros v Hv. rewrite (dg_n _ _ _ _ _ D) in Hv. pose proof (dg_len _ _ _ _ _ D) as L. pose proof (dg_len _ _ _ _ _ D') as L'.
    destruct (nth_error (LiftModel.g_x g) v) as [a|] eqn:E; [|apply nth_error_None in E; lia].
    destruct (nth_error (LiftModel.g_x g') v) as [a'|] eqn:E'; [|apply nth_error_None in E'; lia].
    destruct (dg_x _ _ _ _ _ D v a E) as (l & Hl & ->). destruct (dg_x _ _ _ _ _ D' v a' E') as (l' & Hl' & ->). rewrite (hot_unique _ _ _ _ Hl Hl'). reflexivity.
Qed.
Lemma doc_label code d g : doc_graph code d g -> label_ok (LiftModel.g_y g) (LiftModel.g_n g).
Proof. intros D. destruct (dg_y _ _ _ _ _ D) as (z & ->). left. reflexivity. Qed.
Lemma doc_range code d g : doc_ok d -> doc_graph code d g -> graph_ok (LiftModel.g_edges g) (LiftModel.g_n g).
Proof. intros HD D u v H. rewrite (dg_n _ _ _ _ _ D). apply (linked_lt d); auto. apply (dg_in _ _ _ _ _ D). auto. Qed.
Lemma doc_nodes code d g : doc_ok d -> doc_graph code d g -> 0 < LiftModel.g_n g.
Proof. intros [H (u & v & M)] D. rewrite (dg_n _ _ _ _ _ D). apply H in M. lia. Qed.
Lemma doc_clique lib md code d g : doc_ok d -> good_lib lib -> doc_graph code d g ->
  clique_input lib (LiftModel.g_x g) (LiftModel.g_edges g) (LiftModel.g_n g) md (LiftModel.g_y g).
Proof.
  intros HD HL D. constructor; [eapply doc_range|eapply doc_nodes| |eapply doc_label|]; eauto.
  - rewrite (dg_n _ _ _ _ _ D). apply (dg_len _ _ _ _ _ D).
Qed.
Lemma doc_ring lib isos so code d g max_ring : doc_ok d -> no_loops d -> good_lib lib -> good_isos isos (length (d_nodes d)) -> good_set so -> doc_graph code d g ->
  ring_input lib isos so (LiftModel.g_x g) (LiftModel.g_edges g) (LiftModel.g_n g) (LiftModel.g_y g) max_ring.
Proof.
  intros HD HN HL HI HS D. constructor; [eapply doc_range|eapply doc_nodes| | |eapply doc_label| | |]; eauto.
  - right. destruct HD as [_ (u & v & M)]. exists u, v. split; [intros ->; apply (HN v M)|]. apply (dg_all _ _ _ _ _ D). left. auto.
  - rewrite (dg_n _ _ _ _ _ D). apply (dg_len _ _ _ _ _ D).
  - intros j _. apply HI. rewrite <- (dg_n _ _ _ _ _ D). eapply doc_range; eauto.
Qed.

(** The complexes of two graphs of one document. *)
Lemma lift_pair ring md lib isos so lib' isos' so' code d g g' : ring_dim ring md -> convertible ring d -> good_lib lib -> good_isos isos (length (d_nodes d)) -> good_set so ->
  good_lib lib' -> good_isos isos' (length (d_nodes d)) -> good_set so' -> doc_graph code d g -> doc_graph code d g' ->
  exists K K' sz, lift_one o veqb lib isos so ring r md down g = Ok K /\ lift_one o veqb lib' isos' so' ring r md down g' = Ok K' /\
    nice md K sz /\ nice md K' sz /\ isomorphic sz K K'.
Proof.
  intros Hring [HD HL] L1 I1 S1 L2 I2 S2 D D'. pose proof (doc_iso code d g g' D D') as HG.
  assert (Hn : LiftModel.g_n g' = LiftModel.g_n g) by (rewrite (dg_n _ _ _ _ _ D), (dg_n _ _ _ _ _ D'); reflexivity).
  unfold lift_one. unfold ring_dim in Hring. rewrite Hn. destruct ring as [mr|].
  - subst md. pose proof (doc_ring lib isos so code d g mr HD HL L1 I1 S1 D) as R. pose proof (doc_ring lib' isos' so' code d g' mr HD HL L2 I2 S2 D') as R'. rewrite Hn in R'.
    destruct (ring_lift_iso o Ho veqb (fun v => v) lib lib' isos isos' so so' r _ _ _ _ None None _ _ _ mr down true true R R' veqb_ok (fun _ => conj I (conj I I)) HG)
      as (K & K' & cells & cells' & pi & E & E' & C & C' & W & W' & Hs & HX & _ & HP).
    destruct (HX 2 (fun _ => eq_refl) (fun _ => eq_refl)) as [X X'].
    destruct (C19_rings o veqb lib isos so r _ _ None _ _ mr down true true R veqb_ok (fun _ => I)) as (K1 & c1 & E1 & RC & HDm & W1 & _).
    assert (K1 = K) by congruence. subst K1.
    assert (Hpos : forall d0, d0 <= k_dim K -> 0 < length (cells d0)).
    { intros d0 Hd. rewrite (size_unique K _ _ d0 W W1 Hd). apply HDm in Hd. destruct (c1 d0); [congruence|simpl; lia]. }
    assert (Hk2 : k_dim K <= 2).
    { destruct (Nat.le_gt_cases (k_dim K) 2); auto. exfalso. apply (proj1 (HDm (k_dim K)) (Nat.le_refl _)). apply (rc_top _ _ _ _ RC). lia. }
    exists K, K', (fun d0 => length (cells d0)). split; [exact E|]. split; [exact E'|].
    assert (HK : k_dim K' = k_dim K) by apply HP.
    split; [constructor; auto|]. split; [constructor; auto; rewrite HK; auto|]. exists pi. exact HP.
  - pose proof (doc_clique lib md code d g HD L1 D) as R. pose proof (doc_clique lib' md code d g' HD L2 D') as R'. rewrite Hn in R'.
    destruct (clique_lift_iso o Ho (fun v => v) lib lib' r _ _ _ _ _ md _ _ down R R' HG)
      as (K & K' & cells & cells' & pi & E & E' & C & C' & W & W' & Hs & X & X' & _ & HP).
    destruct (given o lib r _ _ _ md _ down R) as (K1 & E1 & HC & HDm & _). assert (K1 = K) by congruence. subst K1.
    pose proof (given_cells lib _ _ _ md _ R) as CC.
    assert (Hpos : forall d0, d0 <= k_dim K -> 0 < length (cells d0)).
    { intros d0 Hd. rewrite (size_unique K _ _ d0 W (hc_wf _ _ _ _ HC) Hd). apply HDm in Hd. cbv beta. destruct (cells_of _ _ _ _ d0); [congruence|simpl; lia]. }
    assert (Hk2 : k_dim K <= md).
    { pose proof (proj1 (HDm (k_dim K)) (le_n _)) as Hne. destruct (cells_of lib (LiftModel.g_edges g) (LiftModel.g_n g) md (k_dim K)) as [|s l] eqn:Es; [congruence|].
      assert (Hin : In s (cells_of lib (LiftModel.g_edges g) (LiftModel.g_n g) md (k_dim K))) by (rewrite Es; left; auto). apply (cc_iff _ _ _ _ CC) in Hin. lia. }
    exists K, K', (fun d0 => length (cells d0)). split; [exact E|]. split; [exact E'|].
    assert (HK : k_dim K' = k_dim K) by apply HP.
    split; [constructor; auto|]. split; [constructor; auto; rewrite HK; auto|]. exists pi. exact HP.
Qed.
End Docs.

Lemma nth_forall2 {A B} (P : nat -> A -> B -> Prop) (l : list A) (l' : list B) : length l = length l' ->
  (forall i a b, nth_error l i = Some a -> nth_error l' i = Some b -> P i a b) -> Forall2 (fun a b => exists i, nth_error l i = Some a /\ P i a b) l l'.
Proof. intros L H. apply Forall2_nth_error_intro; auto. intros i a b Ha Hb. eauto. Qed.

(** ** A list of documents and the graphs made of them *)
Section Core.
Context {V : Type} (o : ops V) (Ho : ops_ok o) (veqb : V -> V -> bool) (veqb_ok : forall a b, veqb a b = true <-> a = b) (row : list Z -> V) (width : V -> nat).
Variables (lib : list (list nat) -> simplex_tree) (isos : list (nat * nat) -> nat -> list (list nat)) (so : list (list nat) -> list (list nat)).
Variables (r : reduce) (down : bool) (k : nat) (ring : option nat) (md : nat) (m : net V).
Variables (ds : list doc) (gs : list (LiftModel.graph V)) (code : nat -> nat -> nat) (cls : list nat).
Hypothesis HW : keeps_width width o.
Hypothesis Hrow : forall l l', length l = length l' -> width (row l) = width (row l').
Hypothesis Hlib : good_lib lib.
Hypothesis Hisos : Forall (fun d => good_isos isos (length (d_nodes d))) ds.
Hypothesis Hso : good_set so.
Hypothesis Hrd : ring_dim ring md.
Hypothesis Hds : Forall (convertible ring) ds.
Hypothesis Hne : ds <> [].
Hypothesis Hm : cwn_net o m.
Hypothesis Hlen : length ds = length gs.
Hypothesis Hg : forall i d g, nth_error ds i = Some d -> nth_error gs i = Some g -> doc_graph row k (code i) d g.
Hypothesis Hy : Forall2 (fun g y => LiftModel.g_y g = Some [Z.of_nat y]) gs cls.
Hypothesis Hs : ring <> None -> Forall (fun g => simple_edges (LiftModel.g_edges g)) gs.
Notation lift g := (lift_one o veqb lib isos so ring r md down g).

Lemma graph_doc i g : nth_error gs i = Some g -> exists d, nth_error ds i = Some d /\ convertible ring d /\ good_isos isos (length (d_nodes d)) /\ doc_graph row k (code i) d g.
Proof.
  intros H. assert (i < length gs) by (apply nth_error_Some; congruence). destruct (nth_error ds i) as [d|] eqn:E; [|apply nth_error_None in E; lia].
  exists d. split; auto. rewrite Forall_forall in Hds, Hisos. split; [apply Hds; eapply nth_error_In; eauto|]. split; [apply Hisos; eapply nth_error_In; eauto|]. apply (Hg i); auto.
Qed.

Lemma convert_ok : exists ks dim nf, tu_convert o veqb width lib isos so ring r md down gs = Ok (ks, dim, nf) /\
  Forall2 (fun g K => lift g = Ok K /\ k_y K = LiftModel.g_y g) gs ks.
Proof.
  pose proof graph_doc as GD.
  assert (Hw : forall g v, In g gs -> In v (LiftModel.g_x g) -> width v = width (row (repeat 0%Z k))).
  { intros g v Hin Hv. apply In_nth_error in Hin as [i Hi]. destruct (GD i g Hi) as (d & _ & _ & _ & D). apply In_nth_error in Hv as [j Hj].
    destruct (dg_x _ _ _ _ _ D j v Hj) as (l & (L & _) & ->). apply Hrow. rewrite repeat_length. exact L. }
  unfold tu_convert, lift_one. unfold ring_dim in Hrd. destruct ring as [mr|].
  - assert (HR : Forall (LiftDataset.ring_graph lib isos so mr) gs).
    { apply Forall_forall. intros g Hin. pose proof Hin as Hin'. apply In_nth_error in Hin as [i Hi]. destruct (GD i g Hi) as (d & _ & [HD HN] & HI & D). constructor.
      - eapply doc_ring; eauto.
      - specialize (Hs ltac:(discriminate)). rewrite Forall_forall in Hs. auto.
      - intros l. destruct (dg_y _ _ _ _ _ D) as (z & ->). intros E. inversion E. reflexivity.
      - rewrite (dg_attr _ _ _ _ _ D). exact I. }
    assert (HWd : Forall (widths width (width (row (repeat 0%Z k))) None) gs).
    { apply Forall_forall. intros g Hin. split; [eauto|]. apply In_nth_error in Hin as [i Hi]. destruct (GD i g Hi) as (d & _ & _ & _ & D). rewrite (dg_attr _ _ _ _ _ D). exact I. }
    destruct (C22_rings_succeeds_partial o veqb width lib isos so r mr down true true veqb_ok gs (width (row (repeat 0%Z k))) None eq_refl HW HR HWd) as (ks & dim & nf & E & HC & _).
    exists ks, dim, nf. split; [exact E|]. destruct (C22_rings_order o veqb width lib isos so r mr down true true veqb_ok gs ks dim nf E) as (F & _).
    apply Forall2_nth_error_intro; [apply (Forall2_length F)|]. intros i g K Hgi HK.
    destruct (GD i g Hgi) as (d & _ & _ & _ & D).
    destruct (Forall2_nth_error_l _ _ _ F _ _ Hgi) as (K' & HK' & H). assert (K' = K) by congruence. subst K'. rewrite (dg_attr _ _ _ _ _ D) in H. split; [exact H|].
    destruct (Forall2_nth_error_l _ _ _ HC _ _ Hgi) as (K' & HK2 & c0 & _ & _ & H2). assert (K' = K) by congruence. subst K'.
    destruct (dg_y _ _ _ _ _ D) as (z & Ez). rewrite Ez in *. cbn in H2. tauto.
  - assert (HR : Forall (fun g => clique_input lib (LiftModel.g_x g) (LiftModel.g_edges g) (LiftModel.g_n g) md (LiftModel.g_y g) /\ forall v, In v (LiftModel.g_x g) -> width v = width (row (repeat 0%Z k))) gs).
    { apply Forall_forall. intros g Hin. split; [|eauto]. apply In_nth_error in Hin as [i Hi]. destruct (GD i g Hi) as (d & _ & [HD _] & _ & D). eapply doc_clique; eauto. }
    destruct (C22_gudhi_succeeds_partial o width lib r md down gs (width (row (repeat 0%Z k))) Hrd HW HR) as (ks & dim & nf & E & HC & _).
    exists ks, dim, nf. split; [exact E|]. destruct (C22_gudhi_order o width lib r md down gs ks dim nf E) as (F & _).
    apply Forall2_nth_error_intro; [apply (Forall2_length F)|]. intros i g K Hgi HK.
    destruct (GD i g Hgi) as (d & _ & _ & _ & D).
    destruct (Forall2_nth_error_l _ _ _ F _ _ Hgi) as (K' & HK' & H). assert (K' = K) by congruence. subst K'. split; [exact H|].
    destruct (Forall2_nth_error_l _ _ _ HC _ _ Hgi) as (K' & HK2 & c0 & _ & _ & H2). assert (K' = K) by congruence. subst K'.
    destruct (dg_y _ _ _ _ _ D) as (z & Ez). rewrite Ez in *. cbn in H2. tauto.
Qed.

Variable ks : list (complex V).
Hypothesis HF : Forall2 (fun g K => lift g = Ok K /\ k_y K = LiftModel.g_y g) gs ks.

Lemma at_index i K : nth_error ks i = Some K -> exists d g y, nth_error ds i = Some d /\ nth_error gs i = Some g /\ nth_error cls i = Some y /\
  k_y K = Some [Z.of_nat y] /\ (exists sz, nice md K sz) /\
  forall lib' isos' so' g', good_lib lib' -> good_isos isos' (length (d_nodes d)) -> good_set so' -> doc_graph row k (code i) d g' ->
    exists K' sz, lift_one o veqb lib' isos' so' ring r md down g' = Ok K' /\ nice md K sz /\ nice md K' sz /\ isomorphic sz K' K.
Proof.
  intros HK. destruct (Forall2_nth_error_r _ _ _ HF _ _ HK) as (g & Hgi & E & HyK). destruct (graph_doc i g Hgi) as (d & Hd & HC & HI & D).
  destruct (Forall2_nth_error_l _ _ _ Hy _ _ Hgi) as (y & Hyi & Ey). exists d, g, y. split; auto. split; auto. split; auto. split; [congruence|].
  assert (G : forall lib' isos' so' g', good_lib lib' -> good_isos isos' (length (d_nodes d)) -> good_set so' -> doc_graph row k (code i) d g' ->
    exists K' sz, lift_one o veqb lib' isos' so' ring r md down g' = Ok K' /\ nice md K sz /\ nice md K' sz /\ isomorphic sz K' K).
  { intros lib' isos' so' g' L I S D'.
    destruct (lift_pair o Ho veqb veqb_ok row r down k ring md lib' isos' so' lib isos so (code i) d g' g Hrd HC L I S Hlib HI Hso D' D) as (K' & K1 & sz & E1 & E2 & N1 & N2 & Is).
    assert (K1 = K) by congruence. subst K1. exists K', sz. auto. }
  split; [|exact G]. destruct (G lib isos so g Hlib HI Hso D) as (K' & sz & _ & N & _). eauto.
Qed.

Lemma docs_collection : collection ks md.
Proof.
  assert (G : forall K, In K ks -> exists i, nth_error ks i = Some K) by (intros K H; apply In_nth_error in H; exact H).
  constructor.
  - intros K H. destruct (G K H) as [i Hi]. destruct (at_index i K Hi) as (_ & _ & _ & _ & _ & _ & _ & (sz & N) & _). exists sz. apply C31_wf_storable; apply N.
  - intros K H. destruct (G K H) as [i Hi]. destruct (at_index i K Hi) as (_ & _ & _ & _ & _ & _ & _ & (sz & N) & _). apply N.
  - right. intros K H. destruct (G K H) as [i Hi]. destruct (at_index i K Hi) as (_ & _ & y & _ & _ & _ & E & _). eauto.
  - destruct ks as [|K l] eqn:Ek; [pose proof (Forall2_length HF) as L; destruct ds; [congruence|]; simpl in *; lia|]. rewrite <- Ek in *.
    assert (H0 : nth_error ks 0 = Some K) by (rewrite Ek; reflexivity).
    destruct (at_index 0 K H0) as (_ & _ & _ & _ & _ & _ & _ & (sz & N) & _). pose proof (ni_wf _ _ _ N) as W.
    destruct (nth_error (k_cochains K) 0) as [c|] eqn:Ec; [|apply nth_error_None in Ec; rewrite (wfk_len _ _ W) in Ec; lia].
    exists K, 0, c. split; [rewrite Ek; left; auto|]. split; [lia|]. split; auto. left. apply (ni_x _ _ _ N 0 c); auto. lia.
Qed.

Lemma nice_stored (K q : complex V) sz : nice md K sz -> same_complex K q -> nice md q sz.
Proof.
  intros [W P D X] S. constructor.
  - eapply wf_stored; eauto.
  - rewrite (sk_dim _ _ S). auto.
  - rewrite (sk_dim _ _ S). auto.
  - intros d c' Hd Hc'. destruct (stored_back K q S d c' Hc') as (c & Hc & Sc). rewrite (sa_x _ _ _ Sc). pose proof (X d c Hd Hc) as X0.
    pose proof (wf_x _ _ _ _ (wfk_each _ _ W d c Hc)) as X1.
    assert (Hdk : d <= k_dim K).
    { assert (d < length (k_cochains K)) by (apply nth_error_Some; congruence). rewrite (wfk_len _ _ W) in H. lia. }
    pose proof (P d Hdk). destruct (c_x c) as [[|v l]|]; cbn [shrink]; try congruence. simpl in X1. lia.
Qed.

Lemma alone_same (K q : complex V) sz v : nice md K sz -> nice md q sz -> isomorphic sz K q -> alone (net_forward o m) md q v -> alone (net_forward o m) md K v.
Proof.
  intros N N' HI (c & c' & C1 & C2).
  destruct (C27_isomorphism_invariance o Ho m [K] [q] [sz] md) as (b & b' & out & bo & bo' & H1 & H2 & H3 & H4); auto.
  - discriminate.
  - constructor; [apply N|constructor].
  - constructor; [apply N'|constructor].
  - constructor; [apply N|constructor].
  - constructor; [apply N'|constructor].
  - constructor; [apply N; lia|constructor].
  - cbn [combine]. constructor; [exact HI|constructor].
  - exists b, bo. split; [exact H1|]. assert (c = b') by congruence. subst c. rewrite H4 in C2. inversion C2; subst. exact H3.
Qed.

Definition class_of (i : nat) : nat := nth i cls 0.
Notation output_for i d v := (output_for o veqb row m ring r md down k (code i) d v).

Lemma predictions co data loss_fn s (n : split_name s) ids bs : collate ks md = Ok co -> d_data data = Some co -> d_max_dim data = md ->
  cache_ok data (length ks) (fetch co md) -> d_indices data = None -> ids_of n data = Some ids -> (forall i, In i ids -> i < length ds) -> ids <> [] -> 1 <= bs ->
  exists out ml, infer_split (net_forward o m) bs data s = Ok out /\
    eval_split (net_forward o m) loss_fn bs data s = Ok (out, map (fun i => Z.of_nat (class_of i)) ids, ml) /\
    Forall2 (fun i v => exists d, nth_error ds i = Some d /\ output_for i d v) ids out.
Proof.
  intros E Hd Hmd HK Hn Hids Hr Hnil Hb. pose proof (Forall2_length HF) as HL.
  destruct (split_read_c (net_forward o m) loss_fn ks md co data s n ids docs_collection E Hd Hmd HK Hn Hids) as (f & Hf & HE); [intros i Hi; specialize (Hr i Hi); lia|].
  destruct (HE bs) as [-> ->]. clear HE.
  assert (G : forall i, In i ids -> exists K, nth_error ks i = Some K /\ same_complex K (f i)).
  { intros i Hi. specialize (Hr i Hi). destruct (nth_error ks i) as [K|] eqn:EK; [|apply nth_error_None in EK; lia]. exists K. split; auto. }
  assert (HN : exists szs, Forall2 (nice md) (map f ids) szs).
  { clear Hids Hr Hnil. induction ids as [|i ids IH]; [exists []; constructor|]. destruct IH as (szs & F); [intros j Hj; apply G; right; auto|].
    destruct (G i (or_introl eq_refl)) as (K & Hi & S). destruct (at_index i K Hi) as (_ & _ & _ & _ & _ & _ & _ & (sz & N) & _).
    exists (sz :: szs). cbn [map]. constructor; auto. eapply nice_stored; eauto. }
  destruct HN as (szs & HN).
  assert (HInd : independent (net_forward o m) md (map f ids)).
  { apply (C52_networks o (div_0_1 _ Ho) m (map f ids) szs md Hm).
    - clear - HN. induction HN as [|a b l l' H HN IH]; constructor; auto. apply H.
    - clear - HN. induction HN as [|a b l l' H HN IH]; constructor; auto. apply H.
    - clear - HN. induction HN as [|a b l l' H HN IH]; constructor; auto. apply H. lia. }
  set (y := fun q : complex V => match k_y q with Some [z] => z | _ => 0%Z end).
  assert (HY : forall i, In i ids -> k_y (f i) = Some [Z.of_nat (class_of i)]).
  { intros i Hi. destruct (G i Hi) as (K & Hki & S). destruct (at_index i K Hki) as (_ & _ & c & _ & _ & Hc & Ec & _). rewrite (sk_y _ _ S), Ec.
    unfold class_of. rewrite (nth_error_nth _ _ _ Hc). reflexivity. }
  destruct (eval_ok (net_forward o m) md loss_fn bs (map f ids) y HInd Hb) as (out & ml & E1 & E2 & E3); [destruct ids; [congruence|discriminate]| |].
  { intros q Hq. apply in_map_iff in Hq as (i & <- & Hi). unfold y. rewrite (HY i Hi). reflexivity. }
  exists out, ml. split; [exact E2|]. split.
  - rewrite E1. do 3 f_equal. rewrite map_map. apply map_ext_in. intros i Hi. unfold y. rewrite (HY i Hi). reflexivity.
  - clear - E3 G Ho Hm HF Hds Hisos Hlib Hso Hrd Hlen Hg Hy veqb_ok. revert out E3. induction ids as [|i ids IH]; intros out E3; inversion E3 as [|? v0 ? out0 A0 A1]; subst; constructor.
    + destruct (G i (or_introl eq_refl)) as (K & Hki & S). destruct (at_index i K Hki) as (d & _ & _ & Hd & _ & _ & _ & _ & HP). exists d. split; auto.
      intros lib' isos' so' g' L I0 S0 D'. destruct (HP lib' isos' so' g' L I0 S0 D') as (K' & sz & E & N & N' & Is).
      assert (HA : alone (net_forward o m) md K' v0) by (apply (alone_same K' (f i) sz v0 N' (nice_stored K (f i) sz N S) (MolProofs.iso_back K' K (f i) sz Is S) A0)).
      destruct HA as (b & b' & B1 & B2). exists K', b, b'. split; [exact E|]. split; [exact B1|exact B2].
    + apply IH; auto. intros j Hj. apply G. right; auto.
Qed.

(** Reading the labels of all complexes for the folds. *)
Lemma labels_read co : collate ks md = Ok co -> exists ds1, let ds0 := mkDataset md (Some co) None None None None None in
  ds_size ds0 = Ok (length ks) /\ (exists l, ds_gets ds0 (seq 0 (length ks)) = (map (fetch co md) (seq 0 (length ks)), ds1) /\
    mapM (fun q => q) (map (fetch co md) (seq 0 (length ks))) = Ok l /\ mapM (label_item (V := V)) l = Ok cls) /\
  cache_ok ds1 (length ks) (fetch co md).
Proof.
  intros E. pose proof docs_collection as HC. set (ds0 := mkDataset md (Some co) None None None None None).
  assert (Hcl : co_len co = length ks) by (eapply co_len_spec; eauto using cl_nonvoid).
  assert (HL : loaded ds0 co md) by (split; [|split]; reflexivity).
  pose proof (loaded_cache ds0 co md ks HL E (cl_nonvoid _ _ HC)) as HK.
  destruct (ds_gets_spec (seq 0 (length ks)) ds0 co (length ks) eq_refl HK) as (ds1 & E1 & _ & HK1); [intros i Hi; apply in_seq in Hi; lia|].
  exists ds1. cbv zeta. split; [unfold ds_size, ds_indices; cbn; rewrite Hcl, seq_length; reflexivity|]. split; [|exact HK1].
  assert (HFt : forall i K, nth_error ks i = Some K -> exists q, fetch co md i = Ok q /\ same_complex K q).
  { intros i K Hi. assert (Hin : In K ks) by (eapply nth_error_In; eauto). destruct (cl_store _ _ HC K Hin) as (n0 & Hn0). eapply fetch_spec; eauto using cl_labels, cl_dims. }
  set (f := fun i => match fetch co md i with Ok q => q | Err _ => mkComplexRec 0 [] None end).
  exists (map f (seq 0 (length ks))). split; [exact E1|].
  assert (HN : forall i, i < length ks -> exists q y, fetch co md i = Ok q /\ k_y q = Some [Z.of_nat y] /\ nth_error cls i = Some y).
  { intros i Hi. destruct (nth_error ks i) as [K|] eqn:EK; [|apply nth_error_None in EK; lia]. destruct (HFt i K EK) as (q & Eq & S).
    destruct (at_index i K EK) as (_ & _ & y & _ & _ & Hyi & Ey & _). exists q, y. split; auto. split; auto. rewrite (sk_y _ _ S). exact Ey. }
  split.
  - assert (G : forall l, (forall i, In i l -> i < length ks) -> mapM (fun q => q) (map (fetch co md) l) = Ok (map f l)).
    { induction l as [|i l IH]; intros Hl; auto. cbn [map mapM]. destruct (HN i (Hl i (or_introl eq_refl))) as (q & y & Eq & _). unfold f at 1. rewrite Eq. cbn [bind].
      rewrite IH by (intros j Hj; apply Hl; right; auto). reflexivity. }
    apply G. intros i Hi. apply in_seq in Hi. lia.
  - rewrite (mapM_total _ (fun q => match k_y q with Some [z] => Z.to_nat z | _ => 0 end)).
    + f_equal. rewrite map_map. apply nth_error_ext_local. intros i. rewrite nth_error_map. pose proof (Forall2_length HF). pose proof (Forall2_length Hy).
      destruct (Nat.lt_ge_cases i (length ks)) as [Hi|Hi].
      * destruct (HN i Hi) as (q & y & Eq & Ey & Hc). rewrite seq_nth_error by auto. cbn [option_map]. unfold f. rewrite Nat.add_0_l, Eq, Ey, Nat2Z.id, Hc. reflexivity.
      * rewrite (proj2 (nth_error_None _ _)) by (rewrite seq_length; lia). symmetry. apply nth_error_None. lia.
    + intros q Hq. apply in_map_iff in Hq as (i & <- & Hi). apply in_seq in Hi. destruct (HN i) as (q & y & Eq & Ey & _); [lia|]. unfold f, label_item. rewrite Eq, Ey. reflexivity.
Qed.
End Core.
