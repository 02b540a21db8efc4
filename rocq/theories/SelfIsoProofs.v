(** Proofs about the preparation of the strongly regular graphs, for C75. *)
From Coq Require Import String Ascii List Arith Lia ZArith Bool Permutation.
From Verif Require Import Base ScatterModel ScatterSpec ScatterProofs ComplexModel BatchSpec BatchSpec2 BatchProofs
  MPModel MPSpec MPProofs MPForward MPNets MPProps MPIso
  LiftModel LiftSpec LiftBase LiftProps LiftRing LiftRingProps LiftIso LiftInvariance
  PermModel PermProps PermLift LiftDataset DatasetModel DatasetSpec DatasetProofs DatasetProps CacheModel CacheProps.
From Verif Require Import SelfIsoModel SelfIsoSpec.
Import ListNotations.
Open Scope nat_scope.
Open Scope list_scope.

Lemma Forall2_nth_error_r {A B} (R : A -> B -> Prop) l l' : Forall2 R l l' -> forall i b, nth_error l' i = Some b -> exists a, nth_error l i = Some a /\ R a b.
Proof. induction 1; intros [|i] z E; simpl in *; try discriminate; eauto. inversion E; subst. eauto. Qed.
Lemma Forall2_nth_error_intro {A B} (R : A -> B -> Prop) : forall l l', length l = length l' ->
  (forall i a b, nth_error l i = Some a -> nth_error l' i = Some b -> R a b) -> Forall2 R l l'.
Proof.
  induction l as [|a l IH]; intros [|b l'] L H; try discriminate; constructor.
  - apply (H 0); auto.
  - apply IH; [simpl in L; lia|]. intros i. apply (H (S i)).
Qed.

(** ** Complexes read back from storage *)
Section Stored.
Context {V : Type}.
Notation complex := (complex V).

Lemma stored_back (k q : complex) : same_complex k q -> forall d c', nth_error (k_cochains q) d = Some c' ->
  exists c, nth_error (k_cochains k) d = Some c /\ same_cochain d c c'.
Proof.
  intros S d c' Hc'. destruct (nth_error (k_cochains k) d) as [c|] eqn:E.
  - destruct (sk_each _ _ S d c E) as (c1 & E1 & Sc). exists c. split; auto. congruence.
  - apply nth_error_None in E. rewrite <- (sk_len _ _ S) in E. apply nth_error_None in E. congruence.
Qed.
Lemma wf_stored (k q : complex) sz : wf_complex k sz -> (forall d, d <= k_dim k -> 0 < sz d) -> same_complex k q -> wf_complex q sz.
Proof.
  intros W Hpos S. constructor.
  - rewrite (sk_len _ _ S), (sk_dim _ _ S). apply W.
  - intros d c' Hc'. destruct (stored_back k q S d c' Hc') as (c & Hc & Sc). pose proof (wfk_each _ _ W d c Hc) as Wc.
    rewrite (sk_dim _ _ S).
    assert (Hd : d <= k_dim k).
    { assert (d < length (k_cochains k)) by (apply nth_error_Some; congruence). rewrite (wfk_len _ _ W) in H. lia. }
    pose proof (Hpos d Hd) as Hp.
    constructor.
    + rewrite (sa_dim _ _ _ Sc). apply Wc.
    + rewrite (sa_n _ _ _ Sc). apply Wc.
    + rewrite (sa_x _ _ _ Sc), (sa_bidx _ _ _ Sc). pose proof (wf_x _ _ _ _ Wc) as X1.
      destruct (c_x c) as [[|v xs]|]; cbn [shrink]; auto.
      * simpl in X1. lia.
      * destruct X1 as (b & p & -> & Hin & Hs). exists b, p. destruct b; [destruct Hin|]. auto.
    + rewrite (sa_upper _ _ _ Sc), (sa_shc _ _ _ Sc). pose proof (wf_upper _ _ _ _ Wc) as U.
      destruct (c_upper c) as [[|p u]|]; cbn [shrink].
      * destruct U as (_ & _ & s & -> & Hl & _). destruct s; [reflexivity|discriminate].
      * destruct U as (U1 & U2 & s & -> & Hl & U3). split; [exact U1|]. split; [exact U2|].
        exists s. destruct s; [discriminate|]. auto.
      * rewrite U. reflexivity.
    + rewrite (sa_lower _ _ _ Sc), (sa_shb _ _ _ Sc). pose proof (wf_lower _ _ _ _ Wc) as U.
      destruct (c_lower c) as [[|p u]|]; cbn [shrink].
      * destruct U as (_ & _ & s & -> & Hl & _). destruct s; [reflexivity|discriminate].
      * destruct U as (U1 & U2 & s & -> & Hl & U3). split; [exact U1|]. split; [exact U2|].
        exists s. destruct s; [discriminate|]. auto.
      * rewrite U. reflexivity.
    + rewrite (sa_bidx _ _ _ Sc). pose proof (wf_bidx _ _ _ _ Wc) as B.
      destruct (c_bidx c) as [[|p b]|]; cbn [shrink]; auto.
    + rewrite (sa_nup _ _ _ Sc). apply Wc.
    + intros Hp0. rewrite (sa_ndown _ _ _ Sc Hp0). apply Wc; auto.
  - intros d Hd. apply (wfk_above _ _ W). rewrite <- (sk_dim _ _ S). auto.
Qed.
Lemma attr_stored {T} (get : cochain V -> option (list T)) (k q : complex) d :
  (forall d c c', same_cochain d c c' -> get c' = shrink (get c)) -> same_complex k q ->
  content (attr get d q) = content (attr get d k).
Proof.
  intros Hg S. unfold attr. destruct (nth_error (k_cochains k) d) as [c|] eqn:E.
  - destruct (sk_each _ _ S d c E) as (c' & -> & Sc). rewrite (Hg _ _ _ Sc). apply content_shrink.
  - apply nth_error_None in E. rewrite <- (sk_len _ _ S) in E. apply nth_error_None in E. rewrite E. reflexivity.
Qed.
Lemma iso_stored (k k' q q' : complex) sz : isomorphic sz k k' -> same_complex k q -> same_complex k' q' -> isomorphic sz q q'.
Proof.
  intros [pi [H1 H2 H3 H4 H5 H6 H7]] S S'. exists pi. constructor; auto.
  - rewrite (sk_dim _ _ S), (sk_dim _ _ S'). auto.
  - intros d i Hi. rewrite (attr_stored c_x k q), (attr_stored c_x k' q') by (auto; intros ? ? ? []; auto). auto.
  - intros d. unfold upper_of in *. rewrite (attr_stored c_upper k q), (attr_stored c_upper k' q'), (attr_stored c_shc k q), (attr_stored c_shc k' q')
      by (auto; intros ? ? ? []; auto). auto.
  - intros d. unfold lower_of in *. rewrite (attr_stored c_lower k q), (attr_stored c_lower k' q'), (attr_stored c_shb k q), (attr_stored c_shb k' q')
      by (auto; intros ? ? ? []; auto). auto.
  - intros d. unfold boundary_of in *. rewrite (attr_stored c_bidx k q), (attr_stored c_bidx k' q') by (auto; intros ? ? ? []; auto). auto.
Qed.
Lemma features_stored (k q : complex) sz D : wf_complex k sz -> (forall d, d <= k_dim k -> 0 < sz d) -> same_complex k q -> has_features D k -> has_features D q.
Proof.
  intros W Hpos S HF d c' Hd Hc'. destruct (stored_back k q S d c' Hc') as (c & Hc & Sc). rewrite (sa_x _ _ _ Sc).
  pose proof (HF d c Hd Hc) as Hx. pose proof (wf_x _ _ _ _ (wfk_each _ _ W d c Hc)) as X1.
  assert (Hdk : d <= k_dim k).
  { assert (d < length (k_cochains k)) by (apply nth_error_Some; congruence). rewrite (wfk_len _ _ W) in H. lia. }
  pose proof (Hpos d Hdk). destruct (c_x c) as [[|v xs]|]; cbn [shrink]; try congruence. simpl in X1. lia.
Qed.
End Stored.

(** ** Undirected edge lists *)
Lemma same_pair_iff p q : same_pair p q = true <-> p = q.
Proof.
  destruct p as [a b], q as [c d]. unfold same_pair. cbn [fst snd]. rewrite andb_true_iff, !Nat.eqb_eq. split; [intros [-> ->]; auto|intros E; inversion E; auto].
Qed.
Lemma to_undirected_in es u v : In (u, v) (to_undirected es) <-> In (u, v) es \/ In (v, u) es.
Proof.
  unfold to_undirected. set (all := es ++ map (fun e => (snd e, fst e)) es).
  assert (HA : forall a b, In (a, b) all <-> In (a, b) es \/ In (b, a) es).
  { intros a b. unfold all. rewrite in_app_iff, in_map_iff. split.
    - intros [H|([c d] & E & H)]; auto. cbn in E. inversion E; subst. auto.
    - intros [H|H]; auto. right. exists (b, a). auto. }
  assert (HB : forall a b, In (a, b) all -> a < S (list_max (map fst all))).
  { intros a b H. apply (in_map fst) in H. cbn [fst] in H.
    pose proof (proj1 (list_max_le (map fst all) (list_max (map fst all))) (le_n _)) as F. rewrite Forall_forall in F. apply F in H. lia. }
  rewrite filter_In, existsb_exists, in_prod_iff, !in_seq, <- HA. split.
  - intros (_ & q & Hq & Eq). apply same_pair_iff in Eq. subst q. auto.
  - intros H. split; [|exists (u, v); split; auto; apply same_pair_iff; auto].
    assert (H' : In (v, u) all) by (apply HA; apply HA in H; tauto). apply HB in H, H'. lia.
Qed.
Lemma to_undirected_adj es u v : adjacent (to_undirected es) u v <-> adjacent es u v.
Proof. unfold adjacent. rewrite !to_undirected_in. tauto. Qed.
Lemma cycle_adj es es' c : (forall u v, adjacent es u v <-> adjacent es' u v) -> induced_cycle es c -> induced_cycle es' c.
Proof. intros H (C1 & C2 & C3). split; auto. split; auto. intros i j a b Hi Hj. rewrite <- H. auto. Qed.

(** A graph of the data set: edge list and number of nodes. *)
Definition good (ring : nat) (d : list (nat * nat) * nat) : Prop :=
  simple_edges (fst d) /\ graph_ok (fst d) (snd d) /\ exists c, induced_cycle (fst d) c /\ length c <= ring.

Lemma to_undirected_good ring g : family_graph ring g -> good ring (to_undirected (snd g), fst g).
Proof.
  intros [H1 (c & Hc & Hl)]. split; [split; [|split]|split].
  - apply NoDup_filter, NoDup_list_prod; apply seq_NoDup.
  - intros u v H. apply to_undirected_in in H. destruct H as [H|H]; apply H1 in H as (_ & _ & H); auto.
  - intros u v H. cbn [fst] in *. apply to_undirected_in. apply to_undirected_in in H. tauto.
  - intros u v H. cbn [fst snd] in *. apply to_undirected_in in H. destruct H as [H|H]; apply H1 in H; lia.
  - exists c. split; auto. eapply cycle_adj; [|exact Hc]. intros u v. symmetry. apply to_undirected_adj.
Qed.
Lemma cycle_edge es c : induced_cycle es c -> exists u v, adjacent es u v.
Proof.
  intros Hc. pose proof Hc as (C1 & _ & _). destruct c as [|a c]; [simpl in C1; lia|].
  exists (nth 0 (a :: c) 0), (nth (nxt (length (a :: c)) 0) (a :: c) 0). apply (adj_iff es (a :: c) Hc); auto.
  - simpl; lia.
  - apply nxt_lt. simpl; lia.
Qed.
Lemma good_nodes ring d : good ring d -> 0 < snd d /\ exists u v, adjacent (fst d) u v.
Proof.
  intros (_ & Hg & c & Hc & _). destruct (cycle_edge _ _ Hc) as (u & v & H). split; [|eauto].
  destruct H as [_ [H|H]]; apply Hg in H; lia.
Qed.

(** ** Names of the permuted families *)
Lemma all_app P s t : all P (s ++ t)%string = all P s && all P t.
Proof. induction s as [|c s IH]; simpl; auto. rewrite IH, andb_assoc. auto. Qed.
Lemma permuted_name_inj f seed : forall f' seed', permuted_name f seed = permuted_name f' seed' -> f = f' /\ seed = seed'.
Proof.
  unfold permuted_name. induction f as [|c f IH]; intros [|c' f'] seed' E; cbn in E.
  - inversion E. split; auto. apply dec_inj; auto.
  - exfalso. inversion E. pose proof (dec_digits seed) as D. rewrite H1, all_app in D. apply andb_true_iff in D as [_ D]. discriminate D.
  - exfalso. inversion E. pose proof (dec_digits seed') as D. rewrite <- H1, all_app in D. apply andb_true_iff in D as [_ D]. discriminate D.
  - inversion E as [[E1 E2]]. apply IH in E2 as [-> ->]. auto.
Qed.

Lemma eye_ext P n sigma : matrix_of P n sigma -> (forall i, i < n -> sigma i = i) -> P = eye n.
Proof.
  intros (L & F & H) Hs. apply (nth_ext _ _ [] []); [unfold eye; rewrite map_length, seq_length; auto|]. intros i Hi. rewrite L in Hi.
  unfold eye. rewrite nth_map_seq by auto. apply (nth_ext _ _ 0%Z 0%Z).
  - rewrite map_length, seq_length. rewrite Forall_forall in F. apply F, nth_In. lia.
  - intros j Hj. assert (Hj' : j < n). { rewrite Forall_forall in F. rewrite (F (nth i P [])) in Hj; auto. apply nth_In. lia. }
    rewrite nth_map_seq by auto. change (nth j (nth i P []) 0%Z) with (entry P i j). rewrite (H i j Hi Hj'), (Hs i Hi), Nat.eqb_sym. reflexivity.
Qed.
Lemma moves (sigma : nat -> nat) n : (exists i, i < n /\ sigma i <> i) \/ forall i, i < n -> sigma i = i.
Proof.
  induction n as [|n [(i & Hi & H)|IH]].
  - right. intros; lia.
  - left. exists i. split; [lia|auto].
  - destruct (Nat.eq_dec (sigma n) n) as [E|E]; [right|left; exists n; auto]. intros i Hi. destruct (Nat.eq_dec i n); [subst; auto|apply IH; lia].
Qed.

(** ** Permuted graphs and their liftings *)
Section Graphs.
Context {V : Type} (o : ops V) (Ho : ops_ok o) (veqb : V -> V -> bool) (width : V -> nat).
Variables (lib : list (list nat) -> simplex_tree) (isos : list (nat * nat) -> nat -> list (list nat)) (so : list (list nat) -> list (list nat)).
Variables (one : V) (reduction : string -> reduce).
Variables (smul : Z -> V -> V) (coo_order : list (nat * nat) -> list (nat * nat)).
Variable draws : nat -> nat -> list (list nat).
Hypothesis veqb_ok : forall a b, veqb a b = true <-> a = b.
Hypothesis Hlib : good_lib lib.
Hypothesis Hisos : forall n, good_isos isos n.
Hypothesis Hso : good_set so.
Hypothesis HW : keeps_width width o.
Hypothesis smul0 : forall v, smul 0%Z v = vzero o.
Hypothesis smul1 : forall v, smul 1%Z v = v.
Hypothesis Hcoo : forall l, Permutation (coo_order l) l.

Notation src := (fun d : list (nat * nat) * nat => mkGraph (repeat one (snd d)) (fst d) None (snd d) None).
Definition alike (d d' : list (nat * nat) * nat) : Prop :=
  snd d' = snd d /\ exists tau, graph_iso tau (snd d) (fst d) (fst d') (repeat one (snd d)) (repeat one (snd d)).

Definition moved (d d' : list (nat * nat) * nat) : Prop :=
  exists sigma, permutes sigma (snd d) /\ (1 < snd d -> exists i, i < snd d /\ sigma i <> i) /\
    forall a b, In (a, b) (fst d') <-> a < snd d /\ b < snd d /\ In (sigma a, sigma b) (fst d).

Lemma nth_repeat_error (a : V) n i : i < n -> nth_error (repeat a n) i = Some a.
Proof. revert i; induction n; intros [|i] H; simpl; auto; try lia. apply IHn; lia. Qed.

Lemma permute_one_good ring seed d : good ring d -> fair draws seed (snd d) ->
  exists d', permute_one o smul coo_order draws seed (src d) = Ok d' /\ good ring d' /\ alike d d' /\ moved d d'.
Proof.
  intros HG [F1 (p & Hp & Hid)]. pose proof (good_nodes ring d HG) as [Hn (u & v & Huv)]. pose proof HG as (HS & Hg & c & Hc & Hl).
  unfold permute_one. cbn [g_n].
  destruct (C40_generated (draws seed (snd d)) (snd d) Hn F1 1) as (res & -> & HR & HN). cbn [bind].
  destruct res as [Ps|].
  2:{ exfalso. specialize (HN eq_refl).
      assert (Hin : In p (filter (fun p => negb ((1 <? snd d) && list_eqb Nat.eqb p (seq 0 (snd d)))) (draws seed (snd d)))).
      { apply filter_In. split; auto. destruct (Nat.ltb_spec 1 (snd d)); auto. cbn [andb]. apply negb_true_iff.
        destruct (list_eqb Nat.eqb p (seq 0 (snd d))) eqn:E; auto. exfalso. apply (Hid H). apply (list_eqb_ok Nat.eqb Nat.eqb_eq) in E; auto. }
      destruct (filter _ _); [destruct Hin|simpl in HN; lia]. }
  destruct (HR Ps eq_refl) as (L & used & (rest & Eu) & EP & FV). destruct Ps as [|P [|? ?]]; try discriminate L.
  assert (HP : exists q, In q (draws seed (snd d)) /\ P = perm_rows (snd d) q).
  { assert (Hin : In P [P]) by (left; auto). rewrite EP in Hin. apply in_map_iff in Hin as (q & <- & Hq). apply filter_In in Hq as [Hq _].
    exists q. split; auto. rewrite Eu, in_app_iff. auto. }
  destruct HP as (q & Hq & EPq). rewrite Forall_forall in F1. pose proof (F1 q Hq) as Pq.
  assert (Lq : length q = snd d) by (rewrite (Permutation_length Pq), seq_length; auto).
  assert (VM : valid_matrix P (snd d)).
  { exists (snd d). subst P.
    assert (Hr : rectangular (perm_rows (snd d) q) (length q) (snd d)).
    { apply perm_rows_rect. apply Forall_forall. intros a Ha. apply (Permutation_in _ Pq) in Ha. apply in_seq in Ha. lia. }
    assert (Lr : length (perm_rows (snd d) q) = length q) by apply Hr. rewrite Lr.
    split; [exact Hr|]. split; [auto|]. split; [lia|]. inversion FV; auto. }
  assert (PG : plain_graph (src d)).
  { unfold plain_graph. cbn [g_edges g_n g_x g_y g_attr]. rewrite repeat_length. split; [exact Hg|]. split; auto. split; auto. split; auto. exact I. }
  destruct (permute_facts o Ho smul coo_order smul0 smul1 Hcoo (src d) P PG VM) as (tau & g' & E & PG' & En & HI).
  cbn [g_n g_edges g_x] in En, HI. rewrite E. cbn [bind]. eexists. split; [reflexivity|].
  destruct VM as (m & M1 & M2 & M3 & M4). destruct PG as (G1 & G2 & G3 & G4 & G5).
  destruct (C40_permute_graph o Ho smul coo_order smul0 smul1 Hcoo (src d) P m M1 M3 M2) as (sigma & g'' & HS' & HMx & E'' & HPm).
  { rewrite G3. exact G2. } { rewrite G3. exact M4. } { exact G5. } { rewrite G3. exact G1. }
  rewrite E in E''. inversion E''; subst g''. clear E''.
  rewrite G3 in HPm. cbn [g_n] in HPm. rewrite G3 in HS', HMx. cbn [g_n] in HS', HMx.
  destruct HS as (S1 & S2 & S3). split; [split; [split; [|split]|split]|split]; cbn [fst snd].
  - apply (pg_once _ _ _ _ HPm).
  - intros a b Hab. apply (pg_edges _ _ _ _ HPm) in Hab as (_ & _ & Hab). cbn [g_edges] in Hab. apply S2 in Hab. congruence.
  - intros a b Hab. apply (pg_edges _ _ _ _ HPm) in Hab as (Ha & Hb & Hab). apply (pg_edges _ _ _ _ HPm). split; auto.
  - apply PG'.
  - exists (map tau c). split; [|rewrite map_length; auto]. eapply (cycle_map tau (snd d) (fst d) (g_edges g') _ _ HI); auto.
    intros w Hw. eapply induced_range; eauto.
  - split; cbn [fst snd]; [exact En|]. exists tau. destruct HI as [I1 I2 I3 I4]. constructor; auto.
    intros w Hw. rewrite !nth_repeat_error; auto.
  - exists sigma. split; [exact HS'|]. split; [|apply (pg_edges _ _ _ _ HPm)]. intros H1.
    destruct (moves sigma (snd d)) as [H|H]; auto. exfalso.
    destruct (C40_valid_iff P (length P) m (snd d) M1 M3 M2 Hn) as (bb & Eb & Hb). cbn [g_n] in M4. rewrite M4 in Eb. inversion Eb; subst bb.
    apply (proj2 (proj1 Hb eq_refl) H1). eapply eye_ext; eauto.
Qed.

Lemma good_input ring max d : good max d -> ring_input lib isos so (g_x (src d)) (g_edges (src d)) (g_n (src d)) (g_y (src d)) ring.
Proof.
  intros HG. pose proof (good_nodes max d HG) as [Hn Hadj]. destruct HG as (_ & Hg & _). constructor; cbn [g_x g_edges g_n g_y].
  - exact Hg.
  - exact Hn.
  - right. exact Hadj.
  - apply repeat_length.
  - exact I.
  - apply Hlib.
  - intros k _. apply (Hisos (snd d)); auto.
  - exact Hso.
Qed.
Lemma good_graph ring d : good ring d -> ring_graph lib isos so ring (src d).
Proof.
  intros HG. split; [eapply good_input; eauto|apply HG|discriminate|exact I].
Qed.
Notation lift ring init d := (compute_ring_2complex o veqb lib isos so (reduction init) (g_x (src d)) (g_edges (src d)) (g_attr (src d))
  (g_n (src d)) (g_y (src d)) ring false true true).

Lemma lift_dim ring init d K : good ring d -> lift ring init d = Ok K -> k_dim K = 2.
Proof.
  intros HG E. destruct (C19_rings o veqb lib isos so (reduction init) _ _ (g_attr (src d)) _ _ ring false true true (good_input ring ring d HG) veqb_ok) as (K' & cells & E' & RC & HD & _).
  { intros _. exact I. }
  assert (K' = K) by congruence. subst K'. destruct HG as (_ & _ & c & Hc & Hl).
  destruct (rc_all _ _ _ _ RC c Hc Hl) as (i & t & Hi & _).
  assert (H2 : 2 <= k_dim K). { apply HD. intros E0. unfold names in Hi. rewrite E0 in Hi. destruct i; discriminate. }
  destruct (Nat.le_gt_cases (k_dim K) 2); [lia|]. exfalso. apply (proj1 (HD 3)); [lia|]. apply (rc_top _ _ _ _ RC). lia.
Qed.

(** The liftings of a graph and of a permuted copy. *)
Record pair_of (sz : nat -> nat) (k k' : complex V) : Prop := {
  po_dim : k_dim k = 2 /\ k_dim k' = 2;
  po_wf : wf_complex k sz /\ wf_complex k' sz;
  po_pos : forall d, d <= 2 -> 0 < sz d;
  po_x : has_features 2 k /\ has_features 2 k';
  po_iso : isomorphic sz k k'
}.
Lemma lift_pair ring init d d' : good ring d -> good ring d' -> alike d d' ->
  exists K K' sz, lift ring init d = Ok K /\ lift ring init d' = Ok K' /\ pair_of sz K K'.
Proof.
  intros HG HG' [En (tau & HI)]. pose proof (good_input ring ring d HG) as I1. pose proof (good_input ring ring d' HG') as I2.
  destruct d as [es n], d' as [es' n']. cbn [fst snd] in En, HI. subst n'.
  destruct (ring_lift_iso o Ho veqb tau lib lib isos isos so so (reduction init) _ _ _ _ None None _ _ _ ring false true true I1 I2 veqb_ok)
    as (K & K' & cells & cells' & pi & E & E' & RC & RC' & W & W' & L0 & HF & _ & CI).
  { intros _. split; [exact I|]. split; exact I. } { exact HI. }
  exists K, K', (fun d => length (cells d)). split; [exact E|]. split; [exact E'|]. constructor.
  - split; [apply (lift_dim ring init (es, n)); auto|apply (lift_dim ring init (es', n)); auto].
  - split; [exact W|exact W'].
  - pose proof (good_nodes ring (es, n) HG) as [Hn (u & v & Huv)]. destruct HG as (_ & _ & c & Hc & Hl).
    destruct (rc_all _ _ _ _ RC c Hc Hl) as (i & t & Hi & _). cbn [fst snd] in *.
    intros [|[|[|d]]] Hd; try lia.
    + rewrite L0. exact Hn.
    + destruct (Nat.lt_trichotomy u v) as [H|[H|H]].
      * assert (Hin : In [u; v] (cells 1)) by (apply (rc_edge _ _ _ _ RC); exists u, v; auto). destruct (cells 1); [destruct Hin|simpl; lia].
      * destruct Huv as [Hne _]. contradiction.
      * assert (Hin : In [v; u] (cells 1)).
        { apply (rc_edge _ _ _ _ RC). exists v, u. split; auto. split; auto. destruct Huv as [Hne Hin]. split; [auto|]. cbn [g_edges]. tauto. }
        destruct (cells 1); [destruct Hin|simpl; lia].
    + apply nth_error_In in Hi. destruct (cells 2); [destruct Hi|simpl; lia].
  - apply HF; auto.
  - exists pi. exact CI.
Qed.

(** ** Conversion and storage *)
Notation convert ring init ds := (convert_with_rings o veqb width lib isos so (reduction init) (map src ds) ring false true true).

Lemma convert_good ring init ds : ds <> [] -> Forall (good ring) ds ->
  exists ks nf, convert ring init ds = Ok (ks, 3, nf) /\ Forall2 (fun d k => lift ring init d = Ok k /\ k_y k = None) ds ks.
Proof.
  intros Hne HG.
  destruct (C22_rings_succeeds_partial o veqb width lib isos so (reduction init) ring false true true veqb_ok (map src ds) (width one) None eq_refl HW)
    as (ks & dim & nf & E & HC & HL & _).
  - apply Forall_forall. intros g Hg. apply in_map_iff in Hg as (d & <- & Hd). rewrite Forall_forall in HG. apply good_graph; auto.
  - apply Forall_forall. intros g Hg. apply in_map_iff in Hg as (d & <- & Hd). split; cbn [g_x g_attr]; auto.
    intros v Hv. apply repeat_spec in Hv. congruence.
  - destruct (C22_rings_order o veqb width lib isos so (reduction init) ring false true true veqb_ok _ _ _ _ E) as (HO & _).
    assert (F : Forall2 (fun d k => lift ring init d = Ok k /\ k_y k = None) ds ks).
    { clear - HO HC. revert ks HO HC. induction ds as [|d ds IH]; intros ks HO HC; inversion HO as [|? k ? ks1 O1 O2]; subst; constructor.
      - split; auto. inversion HC as [|? ? ? ? C1 C2]; subst. destruct C1 as (c & _ & _ & Hy & _). exact Hy.
      - apply IH; auto. inversion HC; auto. }
    exists ks, nf. split; auto. rewrite E. do 2 f_equal. f_equal.
    destruct HL as (_ & _ & HL). destruct HL as (k & Hk & ->).
    { intros ->. inversion F; subst. congruence. }
    apply In_nth_error in Hk as [i Hi]. destruct (Forall2_nth_error_r _ _ _ F _ _ Hi) as (d & Hd & Hl & _).
    rewrite (lift_dim ring init d k); auto. rewrite Forall_forall in HG. apply HG. eapply nth_error_In; eauto.
Qed.

Lemma alike_refl d : alike d d.
Proof. split; auto. exists (fun v => v). constructor; auto; tauto. Qed.

(** What is stored for a list of graphs, and what is read. *)
Definition stored_as (ring : nat) (init : string) (ds : list (list (nat * nat) * nat)) (co : collated V) : Prop :=
  exists ks nf, convert ring init ds = Ok (ks, 3, nf) /\ collate ks 2 = Ok co.
Definition entries (co : collated V) : result (list (complex V)) :=
  let* n := ds_len (sr_dataset co 2) in mapM (fun r => r) (fst (ds_gets (sr_dataset co 2) (seq 0 n))).

Lemma mapM_id {A} (l : list A) : mapM (fun r : result A => r) (map Ok l) = Ok l.
Proof. induction l; simpl; auto. rewrite IHl. auto. Qed.

Lemma stored_good ring init ds : ds <> [] -> Forall (good ring) ds ->
  exists co qs ks, stored_as ring init ds co /\ co_len co = length ds /\ entries co = Ok qs /\
    Forall2 (fun d k => lift ring init d = Ok k) ds ks /\ Forall2 same_complex ks qs.
Proof.
  intros Hne HG. destruct (convert_good ring init ds Hne HG) as (ks & nf & E & F).
  assert (Hlen : length ks = length ds) by (symmetry; eapply Forall2_length; eauto).
  assert (HK : forall k, In k ks -> k_dim k = 2 /\ k_y k = None /\ exists sz, pair_of sz k k).
  { intros k Hk. apply In_nth_error in Hk as [i Hi]. destruct (Forall2_nth_error_r _ _ _ F _ _ Hi) as (d & Hd & Hl & Hy).
    assert (Gd : good ring d) by (rewrite Forall_forall in HG; apply HG; eapply nth_error_In; eauto).
    split; [eapply lift_dim; eauto|]. split; auto. destruct (lift_pair ring init d d Gd Gd (alike_refl d)) as (K & K' & sz & E1 & E2 & HP).
    exists sz. assert (K = k) by congruence. assert (K' = k) by congruence. subst. exact HP. }
  assert (HC : collection ks 2).
  { constructor.
    - intros k Hk. destruct (HK k Hk) as (Hd & _ & sz & HP). exists sz. apply C31_wf_storable; [apply HP|]. rewrite Hd. apply HP.
    - intros k Hk. destruct (HK k Hk) as (-> & _). auto.
    - left. intros k Hk. apply HK; auto.
    - destruct ks as [|k ks]; [destruct ds; [congruence|discriminate]|]. destruct (HK k (or_introl eq_refl)) as (Hd & _ & sz & HP).
      destruct (po_wf _ _ _ HP) as [W _]. destruct (nth_error (k_cochains k) 0) as [c|] eqn:Ec.
      + exists k, 0, c. split; [left; auto|]. split; [lia|]. split; auto. left. apply (proj1 (po_x _ _ _ HP) 0 c); auto.
      + apply nth_error_None in Ec. rewrite (wfk_len _ _ W) in Ec. lia. }
  destruct (C31_collate_get_partial ks 2 HC) as (co & Eco & Hcl & f & Hf & Hget).
  exists co, (map f (seq 0 (length ks))), ks. split; [exists ks, nf; auto|]. split; [congruence|]. split; [|split].
  - unfold entries, ds_len. cbn [sr_dataset d_data]. rewrite Hcl. cbn [bind].
    rewrite (Hget (sr_dataset co 2) (seq 0 (length ks))).
    + rewrite <- (map_map f Ok). apply mapM_id.
    + split; [reflexivity|]. split; reflexivity.
    + intros i Hi. apply in_seq in Hi. lia.
  - clear - F. induction F as [|d k ds ks [H _] F IH]; constructor; auto.
  - apply Forall2_nth_error_intro.
    + rewrite map_length, seq_length. auto.
    + intros i k q Hk Hq. rewrite nth_error_map in Hq. assert (i < length ks) by (apply nth_error_Some; congruence).
      rewrite (nth_error_nth' _ 0), seq_nth in Hq by (rewrite ?seq_length; auto). cbn in Hq. inversion Hq; subst. auto.
Qed.

(** ** Two stored families of graphs that are alike *)
Lemma two_families ring init ds ds' : ds <> [] -> Forall (good ring) ds -> Forall (good ring) ds' -> Forall2 alike ds ds' ->
  exists co co' (L : list (complex V * complex V * (nat -> nat))),
    stored_as ring init ds co /\ stored_as ring init ds' co' /\ co_len co = length L /\ co_len co' = length L /\
    entries co = Ok (map (fun t => fst (fst t)) L) /\ entries co' = Ok (map (fun t => snd (fst t)) L) /\
    Forall (fun t => pair_of (snd t) (fst (fst t)) (snd (fst t))) L.
Proof.
  intros Hne HG HG' HA. pose proof (Forall2_length HA) as Hlen.
  assert (Hne' : ds' <> []) by (destruct ds', ds; simpl in *; congruence).
  destruct (stored_good ring init ds Hne HG) as (co & qs & ks & S1 & L1 & E1 & F1 & Q1).
  destruct (stored_good ring init ds' Hne' HG') as (co' & qs' & ks' & S2 & L2 & E2 & F2 & Q2).
  assert (HL : exists L : list (complex V * complex V * (nat -> nat)),
    qs = map (fun t => fst (fst t)) L /\ qs' = map (fun t => snd (fst t)) L /\ length L = length ds /\
    Forall (fun t => pair_of (snd t) (fst (fst t)) (snd (fst t))) L).
  { clear S1 S2 E1 E2 L1 L2 Hlen Hne Hne' co co'. revert ds' ks ks' qs qs' HG' HA F1 F2 Q1 Q2.
    induction ds as [|d ds IH]; intros ds' ks ks' qs qs' HG' HA F1 F2 Q1 Q2.
    - inversion HA; subst. inversion F1; subst. inversion F2; subst. inversion Q1; subst. inversion Q2; subst. exists []. auto.
    - inversion HA as [|? d' ? ds1 A1 A2]; subst. inversion F1 as [|? k ? ks1 K1 F1']; subst. inversion F2 as [|? k' ? ks1' K1' F2']; subst.
      inversion Q1 as [|? q ? qs1 R1 Q1']; subst. inversion Q2 as [|? q' ? qs1' R1' Q2']; subst.
      inversion HG as [|? ? G1 HG1]; subst. inversion HG' as [|? ? G1' HG1']; subst.
      destruct (lift_pair ring init d d' G1 G1' A1) as (K & K' & sz & EK & EK' & HP).
      assert (K = k) by congruence. assert (K' = k') by congruence. subst K K'.
      destruct (IH HG1 ds1 ks1 ks1' qs1 qs1' HG1' A2 F1' F2' Q1' Q2') as (L & -> & -> & LL & FL).
      exists ((q, q', sz) :: L). split; [reflexivity|]. split; [reflexivity|]. split; [simpl; congruence|].
      constructor; auto. cbn [fst snd]. destruct HP as [[D1 D2] [W1 W2] Hp [X1 X2] HI].
      assert (P1 : forall e, e <= k_dim k -> 0 < sz e) by (rewrite D1; auto).
      assert (P2 : forall e, e <= k_dim k' -> 0 < sz e) by (rewrite D2; auto).
      constructor.
      + rewrite (sk_dim _ _ R1), (sk_dim _ _ R1'). auto.
      + split; [exact (wf_stored k q sz W1 P1 R1)|exact (wf_stored k' q' sz W2 P2 R1')].
      + exact Hp.
      + split; [exact (features_stored k q sz 2 W1 P1 R1 X1)|exact (features_stored k' q' sz 2 W2 P2 R1' X2)].
      + eapply iso_stored; eauto. }
  destruct HL as (L & -> & -> & LL & FL). exists co, co', L.
  split; auto. split; auto. split; [congruence|]. split; [congruence|]. auto.
Qed.

(** ** Embeddings of the two families *)
Lemma batches_map {A B} (f : A -> B) size : forall fuel l, batches_of fuel size (map f l) = map (map f) (batches_of fuel size l).
Proof.
  induction fuel as [|n IH]; intros [|a l]; auto. cbn [batches_of map]. change (f a :: map f l) with (map f (a :: l)).
  rewrite firstn_map, skipn_map, IH. reflexivity.
Qed.
Lemma batches_each {A} (P : A -> Prop) size : 0 < size -> forall fuel l, Forall P l -> Forall (fun b => b <> [] /\ Forall P b) (batches_of fuel size l).
Proof.
  intros Hs. induction fuel as [|n IH]; intros [|a l] H; cbn [batches_of]; try constructor.
  - split; [destruct size; [lia|discriminate]|]. rewrite <- (firstn_skipn size (a :: l)) in H. apply Forall_app in H. apply H.
  - apply IH. rewrite <- (firstn_skipn size (a :: l)) in H. apply Forall_app in H. apply H.
Qed.
Lemma batches_concat {A} size : 0 < size -> forall fuel (l : list A), length l <= fuel -> concat (batches_of fuel size l) = l.
Proof.
  intros Hs. induction fuel as [|n IH]; intros [|a l] H; cbn [batches_of concat]; auto; [simpl in H; lia|].
  rewrite IH; [apply firstn_skipn|]. rewrite skipn_length. cbn [length] in *. lia.
Qed.

Section Embed.
Variables (forward : kbatch V -> result (list V)).
Hypothesis HB : blind_to_names forward.

Lemma has_double (ks : list (complex V)) szs b d : ks <> [] -> Forall2 wf_complex ks szs -> Forall (has_features 2) ks -> (forall k, In k ks -> k_dim k = 2) ->
  from_complex_list ks 2 = Ok b -> d <= 2 -> double_x b d = Ok tt.
Proof.
  intros Hne HWf HF HD Eb Hd.
  destruct (from_complex_list_is_batch ks szs 2 Hne HWf) as (b' & Eb' & IB & _).
  { intros e He. left. intros k c Hk Hc. rewrite Forall_forall in HF. apply (HF k Hk e c); auto. lia. }
  assert (b' = b) by congruence. subst b'.
  assert (EM : list_max (map k_dim ks) = 2).
  { clear - Hne HD. induction ks as [|k ks IH]; [congruence|]. cbn [map list_max fold_right]. change (fold_right Nat.max 0 (map k_dim ks)) with (list_max (map k_dim ks)).
    rewrite (HD k (or_introl eq_refl)). destruct ks as [|k1 ks]; [reflexivity|]. rewrite IH; auto; [discriminate|]. intros q Hq. apply HD. right; auto. }
  rewrite EM in IB. change (Nat.min 2 2) with 2 in IB. pose proof (ib_complex _ _ _ _ IB) as [U1 U2 U3].
  unfold double_x. destruct (nth_error (k_cochains (kb_complex b)) d) as [c|] eqn:Ec; [|apply nth_error_None in Ec; lia].
  rewrite (un_x _ _ _ _ _ (U3 d c Ec)). unfold joined.
  destruct (existsb isSome (map (attr c_x d) ks)) eqn:Ex; auto. exfalso.
  destruct ks as [|k ks]; [congruence|]. cbn [map existsb] in Ex. apply orb_false_iff in Ex as [Ex _].
  inversion HWf as [|? sz ? ? Wk _]; subst. inversion HF as [|? ? Fk _]; subst. unfold attr in Ex.
  destruct (nth_error (k_cochains k) d) as [ck|] eqn:Eck.
  - pose proof (Fk d ck Hd Eck). destruct (c_x ck); [discriminate|congruence].
  - apply nth_error_None in Eck. rewrite (wfk_len _ _ Wk), (HD k (or_introl eq_refl)) in Eck. lia.
Qed.

Notation paired := (fun t : complex V * complex V * (nat -> nat) => pair_of (snd t) (fst (fst t)) (snd (fst t))).
Lemma embed_batch_same L : L <> [] -> Forall paired L ->
  exists out, embed_batch forward (map (fun t => fst (fst t)) L) = Ok out /\ embed_batch forward (map (fun t => snd (fst t)) L) = Ok out /\ length out = length L.
Proof.
  intros Hne HP.
  assert (W1 : Forall2 wf_complex (map (fun t => fst (fst t)) L) (map snd L)).
  { clear Hne. induction HP as [|t L H HP IH]; constructor; auto. apply (proj1 (po_wf _ _ _ H)). }
  assert (W2 : Forall2 wf_complex (map (fun t => snd (fst t)) L) (map snd L)).
  { clear Hne W1. induction HP as [|t L H HP IH]; constructor; auto. apply (proj2 (po_wf _ _ _ H)). }
  rewrite Forall_forall in HP.
  assert (X1 : Forall (has_features 2) (map (fun t => fst (fst t)) L)).
  { apply Forall_forall. intros k Hk. apply in_map_iff in Hk as (t & <- & Ht). apply (proj1 (po_x _ _ _ (HP t Ht))). }
  assert (X2 : Forall (has_features 2) (map (fun t => snd (fst t)) L)).
  { apply Forall_forall. intros k Hk. apply in_map_iff in Hk as (t & <- & Ht). apply (proj2 (po_x _ _ _ (HP t Ht))). }
  assert (N1 : map (fun t => fst (fst t)) L <> []) by (destruct L; [congruence|discriminate]).
  assert (N2 : map (fun t => snd (fst t)) L <> []) by (destruct L; [congruence|discriminate]).
  destruct (HB (map (fun t => fst (fst t)) L) (map (fun t => snd (fst t)) L) (map snd L)) as (b & b' & out & Eb & Eb' & E1 & E2 & Lo); auto.
  - apply Forall_forall. intros sz Hsz. apply in_map_iff in Hsz as (t & <- & Ht). apply (po_pos _ _ _ (HP t Ht)). lia.
  - assert (G : forall L, (forall t, In t L -> paired t) -> Forall2 (fun q k' => isomorphic (snd q) (fst q) k')
      (combine (map (fun t => fst (fst t)) L) (map snd L)) (map (fun t => snd (fst t)) L)).
    { induction L0 as [|t L0 IH]; intros H; constructor; [apply (po_iso _ _ _ (H t (or_introl eq_refl)))|]. apply IH. intros; apply H; right; auto. }
    apply G. auto.
  - assert (D1 : forall k, In k (map (fun t => fst (fst t)) L) -> k_dim k = 2).
    { intros k Hk. apply in_map_iff in Hk as (t & <- & Ht). apply (po_dim _ _ _ (HP t Ht)). }
    assert (D2 : forall k, In k (map (fun t => snd (fst t)) L) -> k_dim k = 2).
    { intros k Hk. apply in_map_iff in Hk as (t & <- & Ht). apply (po_dim _ _ _ (HP t Ht)). }
    exists out. unfold embed_batch. rewrite Eb, Eb'. cbn [bind].
    rewrite !(has_double _ _ b _ N1 W1 X1 D1 Eb), !(has_double _ _ b' _ N2 W2 X2 D2 Eb') by lia. cbn [bind].
    split; [exact E1|]. split; [exact E2|]. rewrite Lo, map_length. auto.
Qed.
Lemma embed_all_same Bs : Forall (fun b => b <> [] /\ Forall paired b) Bs ->
  exists outs, mapM (embed_batch forward) (map (map (fun t => fst (fst t))) Bs) = Ok outs /\
    mapM (embed_batch forward) (map (map (fun t => snd (fst t))) Bs) = Ok outs /\ length (concat outs) = length (concat Bs).
Proof.
  induction 1 as [|b Bs [H1 H2] H IH]; [exists []; auto|]. destruct IH as (outs & E1 & E2 & L0).
  destruct (embed_batch_same b H1 H2) as (out & F1 & F2 & L1). exists (out :: outs). cbn [map mapM]. rewrite F1, F2, E1, E2. cbn [bind concat].
  rewrite !app_length. auto.
Qed.
Lemma embeddings_same co co' L size : 0 < size -> co_len co = length L -> co_len co' = length L ->
  entries co = Ok (map (fun t => fst (fst t)) L) -> entries co' = Ok (map (fun t => snd (fst t)) L) -> Forall paired L ->
  exists e, embeddings forward size (sr_dataset co 2) = Ok e /\ embeddings forward size (sr_dataset co' 2) = Ok e /\ length e = length L.
Proof.
  intros Hs L1 L2 E1 E2 HP. destruct (embed_all_same (batches_of (length L) size L) (batches_each paired size Hs _ _ HP)) as (outs & M1 & M2 & Lo).
  exists (concat outs). unfold embeddings. unfold entries in E1, E2. unfold ds_len in *. cbn [sr_dataset d_data] in *. rewrite L1 in *. rewrite L2 in *. cbn [bind] in *.
  rewrite E1, E2. cbn [bind]. rewrite !batches_map, M1, M2. cbn [bind]. split; auto. split; auto. rewrite Lo, batches_concat; auto.
Qed.
End Embed.

(** ** The files *)
Notation load := (load_sr o veqb width lib isos so one reduction).
Notation raw := (load_sr_graph_dataset one).
Notation prep := (prepare o veqb width lib isos so one reduction smul coo_order draws).
Notation permute := (permute_one o smul coo_order draws).

Record honest (s : store V) : Prop := {
  ho_pkl : forall name l, st_pkl s name = Some l ->
    exists family seed gs, name = permuted_name family seed /\ raw s family false = Ok gs /\ mapM (permute seed) gs = Ok l;
  ho_g6 : forall family seed, st_g6 s (permuted_name family seed) = None;
  ho_done : forall name md ring init co, word init -> st_done s (sr_file name md ring init) = Some co ->
    exists gs ks dim nf, raw s name true = Ok gs /\
      convert_with_rings o veqb width lib isos so (reduction init) gs ring false true true = Ok (ks, dim, nf) /\ pred dim = md /\ collate ks md = Ok co
}.

Lemma sr_file_inj name md ring init name' md' ring' init' : word init -> word init' ->
  sr_file name md ring init = sr_file name' md' ring' init' -> name = name' /\ md = md' /\ ring = ring' /\ init = init'.
Proof. intros H H' E. apply C33_sr in E; auto. inversion E; auto. Qed.

Lemma load_honest s name ring init ds s' : honest s -> word init -> load s name ring init = Ok (ds, s') ->
  honest s' /\ st_g6 s' = st_g6 s /\ st_pkl s' = st_pkl s.
Proof.
  intros HH Hw E. unfold load_sr in E. apply bind_ok in E as (_ & _ & E).
  destruct (st_done s (sr_file name 2 ring init)) as [co|]; [inversion E; subst; auto|].
  apply bind_ok in E as (gs & E1 & E). apply bind_ok in E as ([[ks dim] nf] & E2 & E). apply bind_ok in E as (_ & _ & E).
  apply bind_ok in E as (co & E3 & E). inversion E; subst; clear E. split; [|auto]. destruct HH as [H1 H2 H3]. constructor; cbn [st_g6 st_pkl st_done].
  - exact H1.
  - exact H2.
  - intros name' md' ring' init' co' Hw' Hd. unfold put in Hd.
    destruct (String.eqb_spec (sr_file name' md' ring' init') (sr_file name (pred dim) ring init)) as [Ef|_].
    + apply sr_file_inj in Ef as (-> & -> & -> & ->); auto. inversion Hd; subst. exists gs, ks, dim, nf. auto.
    + apply (H3 name' md' ring' init' co' Hw' Hd).
Qed.
Lemma raw_pkl s (pkl : string -> option (list (list (nat * nat) * nat))) (done : string -> option (collated V)) name : raw (mkStore (st_g6 s) pkl done) name false = raw s name false.
Proof. reflexivity. Qed.
Lemma dump_honest s family seed gs l : honest s -> raw s family false = Ok gs -> mapM (permute seed) gs = Ok l ->
  honest (mkStore (st_g6 s) (put (st_pkl s) (permuted_name family seed) l) (st_done s)).
Proof.
  intros [H1 H2 H3] E1 E2. constructor; cbn [st_g6 st_pkl st_done].
  - intros name l' Hp. unfold put in Hp. destruct (String.eqb_spec name (permuted_name family seed)) as [->|_].
    + inversion Hp; subst. exists family, seed, gs. auto.
    + apply (H1 name l' Hp).
  - exact H2.
  - intros name md ring init co Hw Hd. destruct (H3 name md ring init co Hw Hd) as (gs' & ks & dim & nf & R & C).
    exists gs', ks, dim, nf. split; [|exact C]. unfold load_sr_graph_dataset in *. cbn [st_pkl st_g6] in *. unfold put.
    destruct (String.eqb_spec name (permuted_name family seed)) as [->|_]; auto.
    destruct (st_pkl s (permuted_name family seed)) as [l'|] eqn:Ep.
    + destruct (H1 _ _ Ep) as (family' & seed' & gs1 & En & R1 & M1). apply permuted_name_inj in En as [<- <-].
      unfold load_sr_graph_dataset in R1, E1. cbn [st_g6] in R1, E1. assert (gs1 = gs) by congruence. subst gs1. assert (l' = l) by congruence. subst. exact R.
    + rewrite H2 in R. discriminate.
Qed.
Lemma prepare_honest s family ring p init seed s' : honest s -> word init -> prep s family ring p init seed = Ok s' ->
  honest s' /\ st_g6 s' = st_g6 s.
Proof.
  intros HH Hw E. unfold prepare in E. apply bind_ok in E as ([ds s1] & E1 & E). cbn [snd] in E.
  destruct (load_honest s family ring init ds s1 HH Hw E1) as (HH1 & G1 & P1). destruct p; [|inversion E; subst; auto].
  apply bind_ok in E as (gs & E2 & E). apply bind_ok in E as (l & E3 & E). apply bind_ok in E as ([ds' s2] & E4 & E).
  inversion E; subst. cbn [snd]. pose proof (dump_honest s1 family seed gs l HH1 E2 E3) as HH2.
  destruct (load_honest _ _ _ _ _ _ HH2 Hw E4) as (HH3 & G3 & P3). split; auto. cbn [st_g6] in G3. congruence.
Qed.

Lemma load_stored s name ring init ds co : honest s -> word init -> 3 < ring -> raw s name true = Ok (map src ds) -> stored_as ring init ds co ->
  exists s', load s name ring init = Ok (sr_dataset co 2, s').
Proof.
  intros HH Hw Hr R (ks & nf & C & K). unfold load_sr. rewrite (proj2 (Nat.ltb_lt 3 ring) Hr). cbn [assert_ bind].
  destruct (st_done s (sr_file name 2 ring init)) as [co'|] eqn:Ed.
  - destruct (ho_done s HH name 2 ring init co' Hw Ed) as (gs & ks' & dim & nf' & R' & C' & _ & K').
    rewrite R in R'. inversion R'; subst gs. rewrite C in C'. inversion C'; subst. rewrite K in K'. inversion K'; subst. eauto.
  - rewrite R. cbn [bind]. rewrite C. cbn [bind Nat.leb assert_ pred]. rewrite K. cbn [bind]. eauto.
Qed.

Lemma raw_g6 s family ring l : st_g6 s family = Some l -> family_of ring l ->
  raw s family false = Ok (map src (map (fun g => (to_undirected (snd g), fst g)) l)).
Proof.
  intros E [_ HF]. unfold load_sr_graph_dataset. rewrite E. unfold load_sr_dataset.
  rewrite (mapM_map _ (fun g : nat * list (nat * nat) => (to_undirected (snd g), fst g))); [reflexivity|].
  intros g Hg. rewrite Forall_forall in HF. destruct (HF g Hg) as [_ (c & Hc & _)]. destruct (cycle_edge _ _ Hc) as (u & v & _ & Huv).
  destruct (snd g); [simpl in Huv; tauto|reflexivity].
Qed.
Lemma raw_no_pkl s family l : honest s -> st_g6 s family = Some l -> raw s family true = raw s family false.
Proof.
  intros HH E. unfold load_sr_graph_dataset. destruct (st_pkl s family) as [d|] eqn:Ep; auto.
  destruct (ho_pkl s HH family d Ep) as (f & seed & gs & -> & _). rewrite (ho_g6 s HH) in E. discriminate.
Qed.

Lemma permute_all ring seed ds : Forall (good ring) ds -> (forall d, In d ds -> fair draws seed (snd d)) ->
  exists ds', mapM (permute seed) (map src ds) = Ok ds' /\ Forall (good ring) ds' /\ Forall2 alike ds ds' /\ Forall2 moved ds ds'.
Proof.
  induction 1 as [|d ds H HF IH]; intros Hf; [exists []; auto|].
  destruct IH as (ds' & E & G & A & M); [intros; apply Hf; right; auto|].
  destruct (permute_one_good ring seed d H (Hf d (or_introl eq_refl))) as (d' & E' & G' & A' & M').
  exists (d' :: ds'). cbn [map mapM]. rewrite E', E. auto.
Qed.

Theorem self_iso_ok close forward s family ring init seed l :
  honest s -> word init -> 3 < ring -> st_g6 s family = Some l -> family_of ring l -> (forall n es, In (n, es) l -> fair draws seed n) ->
  blind_to_names forward -> (forall v, close v v = true) ->
  exists e s1 s2 s3 ds ds', prep s family ring true init seed = Ok s1 /\ load s1 family ring init = Ok (ds, s2) /\
    load s2 (permuted_name family seed) ring init = Ok (ds', s3) /\
    self_isomorphism o veqb width lib isos so one reduction smul coo_order draws close forward s family ring init seed = Ok (e, e, s3) /\
    length e = length l /\ exists copies, st_pkl s3 (permuted_name family seed) = Some copies /\ Forall2 renamed_copy l copies.
Proof.
  intros HH Hw Hr Hg HF Hfair HB Hc. pose proof HF as [Hne HFl].
  set (ds := map (fun g : nat * list (nat * nat) => (to_undirected (snd g), fst g)) l).
  assert (Hds : ds <> []) by (unfold ds; destruct l; [congruence|discriminate]).
  assert (HG : Forall (good ring) ds).
  { apply Forall_forall. intros d Hd. apply in_map_iff in Hd as (g & <- & Hin). apply to_undirected_good. rewrite Forall_forall in HFl. auto. }
  destruct (permute_all ring seed ds HG) as (ds' & EP & HG' & HA & HM).
  { intros d Hd. apply in_map_iff in Hd as ([n es] & <- & Hin). cbn [snd fst]. eauto. }
  destruct (two_families ring init ds ds' Hds HG HG' HA) as (co & co' & L & S1 & S2 & L1 & L2 & E1 & E2 & HP).
  assert (RF : forall s', honest s' -> st_g6 s' = st_g6 s -> raw s' family false = Ok (map src ds) /\ raw s' family true = Ok (map src ds)).
  { intros s' HH' EG. assert (Hg' : st_g6 s' family = Some l) by congruence. pose proof (raw_g6 s' family ring l Hg' HF) as R.
    split; [exact R|]. rewrite (raw_no_pkl s' family l HH' Hg'). exact R. }
  (* prepare *)
  destruct (load_stored s family ring init ds co HH Hw Hr (proj2 (RF s HH eq_refl)) S1) as (sa & La).
  destruct (load_honest _ _ _ _ _ _ HH Hw La) as (HHa & Ga & Pa).
  pose proof (proj1 (RF sa HHa Ga)) as Ra.
  set (sb := mkStore (st_g6 sa) (put (st_pkl sa) (permuted_name family seed) ds') (st_done sa)).
  pose proof (dump_honest sa family seed _ _ HHa Ra EP) as HHb. fold sb in HHb.
  assert (RP : forall s', st_pkl s' = st_pkl sb -> raw s' (permuted_name family seed) true = Ok (map src ds')).
  { intros s' Hp. unfold load_sr_graph_dataset. rewrite Hp. unfold sb, put. cbn [st_pkl]. rewrite String.eqb_refl. reflexivity. }
  destruct (load_stored sb (permuted_name family seed) ring init ds' co' HHb Hw Hr (RP sb eq_refl) S2) as (s1 & Lb).
  destruct (load_honest _ _ _ _ _ _ HHb Hw Lb) as (HH1 & G1 & P1).
  assert (Prep : prep s family ring true init seed = Ok s1).
  { unfold prepare. rewrite La. cbn [bind snd]. rewrite Ra. cbn [bind]. rewrite EP. cbn [bind]. fold sb. rewrite Lb. reflexivity. }
  (* the two data sets *)
  destruct (load_stored s1 family ring init ds co HH1 Hw Hr) as (s2 & L2'); [apply RF; auto; rewrite G1; exact Ga|exact S1|].
  destruct (load_honest _ _ _ _ _ _ HH1 Hw L2') as (HH2 & G2 & P2).
  destruct (load_stored s2 (permuted_name family seed) ring init ds' co' HH2 Hw Hr) as (s3 & L3'); [apply RP; congruence|exact S2|].
  destruct (embeddings_same forward HB co co' L 8) as (e & M1 & M2 & Le); auto; [lia|].
  exists e, s1, s2, s3, (sr_dataset co 2), (sr_dataset co' 2). split; [exact Prep|]. split; [exact L2'|]. split; [exact L3'|]. split.
  - unfold self_isomorphism. rewrite Prep. cbn [bind]. rewrite L2'. cbn [bind snd]. rewrite L3'. cbn [bind fst snd]. rewrite M1. cbn [bind]. rewrite M2. cbn [bind].
    rewrite Nat.eqb_refl. cbn [assert_ bind].
    replace (forallb (fun p => close (fst p) (snd p)) (combine e e)) with true; [reflexivity|].
    symmetry. apply forallb_forall. intros [a b] Hab.
    assert (a = b) by (clear - Hab; induction e as [|x e IH]; [destruct Hab|]; destruct Hab as [E|H]; [inversion E; auto|auto]). subst. apply Hc.
  - split.
    2:{ exists ds'. split.
      - destruct (load_honest _ _ _ _ _ _ HH2 Hw L3') as (_ & _ & P3). rewrite P3, P2, P1. unfold sb, put. cbn [st_pkl]. rewrite String.eqb_refl. reflexivity.
      - clear - HM HA HG'. unfold ds in *. clear ds. revert ds' HM HA HG'. induction l as [|g l IH]; intros ds' HM HA HG'; inversion HM as [|? d' ? ds1 M1 M2]; subst; constructor.
        + inversion HA as [|? ? ? ? [En _] _]; subst. inversion HG' as [|? ? ((S1 & _) & _) _]; subst. cbn [snd fst] in *. split; [exact En|]. split; [exact S1|].
          destruct M1 as (sigma & [P1 P2] & Hi & He). cbn [snd fst] in *. exists sigma. split; [exact P1|]. split; [exact P2|]. split; [exact Hi|].
          intros a b. rewrite He, to_undirected_in. tauto.
        + inversion HA; subst. inversion HG'; subst. apply IH; auto. }
    rewrite Le, <- L1. destruct S1 as (ks & nf & C & K). destruct (stored_good ring init ds Hds HG) as (co1 & _ & _ & (ks1 & nf1 & C1 & K1) & Lc & _).
    rewrite C in C1. inversion C1; subst. rewrite K in K1. inversion K1; subst. rewrite Lc. unfold ds. apply map_length.
Qed.

Lemma reached_honest g6 s : (forall family seed, g6 (permuted_name family seed) = None) ->
  reached o veqb width lib isos so one reduction smul coo_order draws g6 s -> honest s /\ st_g6 s = g6.
Proof.
  intros HG. induction 1 as [|s family ring p init seed s' R [IH G] Hw E|s name ring init ds s' R [IH G] Hw E].
  - split; auto. constructor; cbn [st_g6 st_pkl st_done]; auto; discriminate.
  - destruct (prepare_honest _ _ _ _ _ _ _ IH Hw E) as [H1 H2]. split; [auto|congruence].
  - destruct (load_honest _ _ _ _ _ _ IH Hw E) as (H1 & H2 & _). split; [auto|congruence].
Qed.
End Graphs.
