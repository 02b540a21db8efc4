(** Proofs about the molecular data sets, for C78. *)
From Coq Require Import String List Arith Lia ZArith QArith Bool Permutation.
From Verif Require Import Base ScatterModel ScatterSpec ScatterProofs ComplexModel BatchSpec BatchSpec2 BatchProofs
  MPModel MPSpec MPProofs MPForward MPNets MPProps MPIso EmbedModel EmbedSpec EmbedProofs EmbedProps
  LiftModel LiftSpec LiftBase LiftProps LiftRing LiftRingProps LiftIso LiftInvariance
  LiftDataset DatasetModel DatasetSpec DatasetProofs DatasetProps ExpModel InferModel InferProps SelfIsoProofs.
From Verif Require Import MolModel MolSpec.
Import ListNotations.
Open Scope nat_scope.
Open Scope list_scope.

(** ** Sizes *)
Lemma size_unique {V} (k : complex V) sz sz' d : wf_complex k sz -> wf_complex k sz' -> d <= k_dim k -> sz d = sz' d.
Proof.
  intros W W' Hd. pose proof (wfk_len _ _ W) as L. destruct (nth_error (k_cochains k) d) as [c|] eqn:E; [|apply nth_error_None in E; lia].
  pose proof (wfk_each _ _ W d c E) as C. pose proof (wfk_each _ _ W' d c E) as C'.
  pose proof (wf_x _ _ _ _ C) as X. pose proof (wf_x _ _ _ _ C') as X'. pose proof (wf_bidx _ _ _ _ C) as B. pose proof (wf_bidx _ _ _ _ C') as B'.
  destruct (c_x c); [congruence|]. destruct X as (b & [f t] & Eb & Hp & S1). destruct X' as (b' & [f' t'] & Eb' & Hp' & S1').
  assert (b' = b) by congruence. subst b'. rewrite Eb in B, B'. cbn [snd] in *.
  destruct B as [_ B]. destruct B' as [_ B']. pose proof (B _ _ Hp'). pose proof (B' _ _ Hp). lia.
Qed.
Lemma bounded_sizes {V} (k : complex V) sz sz' : wf_complex k sz -> wf_complex k sz' -> bounded k sz -> bounded k sz'.
Proof.
  intros W W' [B1 B2]. constructor.
  - intros d Hd. rewrite <- (size_unique k sz sz' d W W' Hd). auto.
  - intros d t Hd Ht. apply B2; auto. rewrite (size_unique k sz sz' d W W'); auto. lia.
Qed.
Lemma embeddable_sizes {V} (m : enet V) k sz sz' : wf_complex k sz' -> embeddable m k sz -> embeddable m k sz'.
Proof. intros W' [W X B E]. constructor; auto. eapply bounded_sizes; eauto. Qed.

(** ** What storing keeps *)
Lemma embeddable_stored {V} (m : enet V) (k q : complex V) sz : embeddable m k sz -> same_complex k q -> embeddable m q sz.
Proof.
  intros [W X B E] S. pose proof (bd_pos _ _ B) as Hpos. constructor.
  - eapply wf_stored; eauto.
  - intros c' Hc'. destruct (stored_back k q S 0 c' Hc') as (c & Hc & Sc). rewrite (sa_x _ _ _ Sc). pose proof (X c Hc) as X0.
    pose proof (wf_x _ _ _ _ (wfk_each _ _ W 0 c Hc)) as X1. pose proof (Hpos 0 ltac:(lia)).
    destruct (c_x c) as [[|v l]|]; cbn [shrink]; try congruence. simpl in X1. lia.
  - constructor.
    + intros d Hd. rewrite (sk_dim _ _ S) in Hd. auto.
    + intros d t Hd Ht. rewrite (sk_dim _ _ S) in Hd. rewrite (attr_stored c_bidx k q) by (auto; intros ? ? ? []; auto). apply (bd_face _ _ B); auto.
  - intros c' Hc' Hx. destruct (stored_back k q S 1 c' Hc') as (c & Hc & Sc). apply (E c Hc). intros H. apply Hx. rewrite (sa_x _ _ _ Sc), H. reflexivity.
Qed.
Lemma iso_back {V} (k k' q' : complex V) sz : isomorphic sz k k' -> same_complex k' q' -> isomorphic sz k q'.
Proof.
  intros [pi [H1 H2 H3 H4 H5 H6 H7]] S'. exists pi. constructor; auto.
  - rewrite (sk_dim _ _ S'). auto.
  - intros d i Hi. rewrite (attr_stored c_x k' q') by (auto; intros ? ? ? []; auto). auto.
  - intros d. unfold upper_of in *. rewrite (attr_stored c_upper k' q'), (attr_stored c_shc k' q') by (auto; intros ? ? ? []; auto). auto.
  - intros d. unfold lower_of in *. rewrite (attr_stored c_lower k' q'), (attr_stored c_shb k' q') by (auto; intros ? ? ? []; auto). auto.
  - intros d. unfold boundary_of in *. rewrite (attr_stored c_bidx k' q') by (auto; intros ? ? ? []; auto). auto.
Qed.
Lemma uniform_stored {V} (m : enet V) ks szs (qs : list (complex V)) D : Forall2 (embeddable m) ks szs -> Forall2 same_complex ks qs ->
  uniform_x ks D -> uniform_x qs D.
Proof.
  intros HE HS HU d Hd. destruct (HU d Hd) as [H|H]; [left|right]; intros q c' Hq Hc'; apply In_nth_error in Hq as [i Hi];
    destruct (Forall2_nth_error_r _ _ _ HS _ _ Hi) as (k & Hk & S); destruct (stored_back k q S d c' Hc') as (c & Hc & Sc); rewrite (sa_x _ _ _ Sc).
  - pose proof (H k c (nth_error_In _ _ Hk) Hc) as X. destruct (Forall2_nth_error_l _ _ _ HE _ _ Hk) as (sz & _ & [W _ B _]).
    assert (Hdk : d <= k_dim k).
    { assert (d < length (k_cochains k)) by (apply nth_error_Some; congruence). rewrite (wfk_len _ _ W) in H0. lia. }
    pose proof (wf_x _ _ _ _ (wfk_each _ _ W d c Hc)) as X1. pose proof (bd_pos _ _ B d Hdk). destruct (c_x c) as [[|v l]|]; cbn [shrink]; try congruence. simpl in X1. lia.
  - rewrite (H k c (nth_error_In _ _ Hk) Hc). reflexivity.
Qed.

(** ** Reading a split batch by batch *)
Lemma chunks_map {A B} (f : A -> B) bs : forall fuel l, chunks fuel bs (map f l) = map (map f) (chunks fuel bs l).
Proof.
  induction fuel as [|n IH]; intros [|a l]; auto. cbn [chunks map]. change (f a :: map f l) with (map f (a :: l)).
  rewrite firstn_map, skipn_map, IH. reflexivity.
Qed.
Lemma mapM_total {A B} (g : A -> result B) (f : A -> B) l : (forall a, In a l -> g a = Ok (f a)) -> mapM g l = Ok (map f l).
Proof. induction l as [|a l IH]; intros H; auto. cbn [mapM map]. rewrite (H a (or_introl eq_refl)), IH by (intros; apply H; right; auto). reflexivity. Qed.

Section Split.
Context {V : Type} (fwd : kbatch V -> result (list V * kbatch V)) (loss_fn : list V -> list Z -> option Q).

Lemma split_read (ks : list (complex V)) co ds s (n : split_name s) ids :
  collection ks 2 -> collate ks 2 = Ok co -> loaded ds co 2 -> d_indices ds = None -> ids_of n ds = Some ids -> (forall i, In i ids -> i < length ks) ->
  exists f : nat -> complex V, (forall i k, nth_error ks i = Some k -> same_complex k (f i)) /\
    forall bs, infer_split fwd bs ds s = infer fwd 2 bs (map f ids) /\ eval_split fwd loss_fn bs ds s = eval_loader fwd 2 loss_fn bs (map f ids).
Proof.
  intros HC E HL Hn Hids Hr. destruct (C31_collate_get_partial ks 2 HC) as (co' & E' & Hcl & f & Hf & Hget).
  assert (co' = co) by congruence. subst co'. exists f. split; [exact Hf|].
  assert (Hsub : get_split ds s = Ok (with_indices ds ids)).
  { assert (Hsel : ds_select ds ids = Ok (with_indices ds ids)).
    { unfold ds_select, ds_indices. rewrite Hn. unfold ds_len. destruct HL as (-> & _). cbn [bind]. rewrite Hcl, mapM_get_seq by auto. reflexivity. }
    unfold get_split. destruct n; cbn in Hids; cbn [String.eqb]; simpl; rewrite Hids, Hn; simpl; exact Hsel. }
  assert (HL' : loaded (with_indices ds ids) co 2) by exact HL.
  pose proof (loaded_cache _ _ _ _ HL' E (cl_nonvoid _ _ HC)) as HCk.
  assert (Hfetch : forall i, i < length ks -> fetch co (d_max_dim (with_indices ds ids)) i = Ok (f i)).
  { intros i Hi. assert (Hin : forall j, In j [i] -> j < length ks) by (intros j [<-|[]]; auto).
    pose proof (Hget (with_indices ds ids) [i] HL' Hin) as G.
    destruct (ds_gets_spec [i] (with_indices ds ids) co (length ks) (proj1 HL') HCk Hin) as (ds' & Eg & _). rewrite Eg in G. cbn [fst map] in G. inversion G. reflexivity. }
  assert (Hload : forall bs, 1 <= bs -> load_batches (with_indices ds ids) (chunks (length ids) bs ids) = Ok (chunks (length ids) bs (map f ids))).
  { intros bs Hbs. assert (Hall : forall l i, In l (chunks (length ids) bs ids) -> In i l -> i < length ks).
    { intros l i Hl Hi. apply Hr. rewrite <- (chunks_concat bs ids Hbs (length ids) (le_n _)). apply in_concat. eauto. }
    rewrite (load_batches_fetch co (length ks)); [|apply HL'|exact HCk|exact Hall].
    rewrite chunks_map. apply mapM_total. intros l Hl. apply mapM_total. intros i Hi. apply Hfetch. eapply Hall; eauto. }
  destruct HL as (_ & Hm & _).
  intros bs. unfold infer_split, eval_split. rewrite Hsub. cbn [bind ds_indices with_indices d_indices]. rewrite Hm.
  unfold infer_dataset, infer, eval_loader, loader. destruct (Nat.eqb_spec bs 0) as [->|Hbs]; [split; reflexivity|]. cbn [bind].
  assert (Hw : mkDataset (d_max_dim ds) (d_data ds) (d_cache ds) (d_train ds) (d_val ds) (d_test ds) (Some ids) = with_indices ds ids) by reflexivity.
  rewrite ?Hw. rewrite Hload by lia. cbn [bind]. rewrite map_length. split; reflexivity.
Qed.
End Split.

(** ** The graphs of a data set *)
Section Rings.
Context {V : Type} (o : ops V) (Ho : ops_ok o) (veqb : V -> V -> bool) (veqb_ok : forall a b, veqb a b = true <-> a = b).
Variables (r : reduce) (max_ring : nat) (down : bool) (m : enet V).
Hypothesis Hm : cwn_enet o 2 m.
Hypothesis Hee : em_e (en_emb m) <> None.
Notation lift lib isos so g := (compute_ring_2complex o veqb lib isos so r (LiftModel.g_x g) (LiftModel.g_edges g) (LiftModel.g_attr g) (LiftModel.g_n g)
      (LiftModel.g_y g) max_ring down true false).

Lemma lift_two lib isos so lib' isos' so' (g g' : LiftModel.graph V) : ring_graph lib isos so max_ring g -> ring_graph lib' isos' so' max_ring g' -> renumbered g g' ->
  exists K K' sz, lift lib isos so g = Ok K /\ lift lib' isos' so' g' = Ok K' /\ embeddable m K sz /\ embeddable m K' sz /\ isomorphic sz K K'.
Proof.
  intros [HI _ _ HA] [HI' _ _ HA'] (Hn & _ & sigma & HG & HAI). rewrite Hn in HI'.
  destruct (ring_lift_iso o Ho veqb sigma lib lib' isos isos' so so' r _ _ _ _ (LiftModel.g_attr g) (LiftModel.g_attr g') _ _ _ max_ring down true false HI HI' veqb_ok
    (fun _ => conj HA (conj HA' HAI)) HG) as (K & K' & cells & cells' & pi & E & E' & _ & _ & W & W' & _ & _ & _ & HP).
  destruct (ring_embeddable o veqb lib isos so r _ _ _ _ _ max_ring down true false m HI veqb_ok (fun _ => HA) (fun _ => Hee) K E) as (_ & (s1 & M) & _).
  destruct (ring_embeddable o veqb lib' isos' so' r _ _ _ _ _ max_ring down true false m HI' veqb_ok (fun _ => HA') (fun _ => Hee) K' E') as (_ & (s2 & M') & _).
  exists K, K', (fun d => length (cells d)). rewrite Hn. split; [exact E|]. split; [exact E'|].
  split; [exact (embeddable_sizes m K _ _ W M)|]. split; [exact (embeddable_sizes m K' _ _ W' M')|]. exists pi. exact HP.
Qed.
Lemma renumbered_refl lib isos so (g : LiftModel.graph V) : ring_graph lib isos so max_ring g -> renumbered g g.
Proof.
  intros [_ _ _ HA]. split; auto. split; auto. exists (fun v => v). split; [constructor; auto; tauto|].
  unfold attr_iso. destruct (LiftModel.g_attr g) as [a|]; auto. destruct HA as (_ & _ & HA). intros j e j' e' H1 H2 H3. eapply HA; eauto.
Qed.

(** Isomorphic complexes, alone in a batch. *)
Lemma alone_iso (k k' : complex V) sz v : k_dim k <= 2 -> embeddable m k sz -> embeddable m k' sz -> isomorphic sz k k' ->
  alone (embed_forward o m) 2 k' v <-> alone (embed_forward o m) 2 k v.
Proof.
  intros Hd E E' HI.
  assert (HD : Nat.min (list_max (map k_dim [k])) 2 = k_dim k) by (cbn [map list_max fold_right]; rewrite Nat.max_0_r; lia).
  assert (HU : forall q : complex V, uniform_x [q] (k_dim k)).
  { intros q d _. destruct (nth_error (k_cochains q) d) as [c|] eqn:Ec.
    - destruct (c_x c) eqn:Ex; [left|right]; intros q' c' [<-|[]] Hc'; congruence.
    - left. intros q' c' [<-|[]] Hc'. congruence. }
  destruct (C27_embedding_isomorphism_invariance o Ho m [k] [k'] [sz] 2) as (b & b' & out & bo & bo' & H1 & H2 & H3 & H4).
  - rewrite HD. exact (cwn_enet_le o _ _ m Hd Hm).
  - discriminate.
  - constructor; [exact E|constructor].
  - constructor; [exact E'|constructor].
  - rewrite HD. apply HU.
  - rewrite HD. apply HU.
  - cbn [combine]. constructor; [exact HI|constructor].
  - split; intros (c & c' & C1 & C2).
    + exists b, bo. split; [exact H1|]. assert (c = b') by congruence. subst c. rewrite H4 in C2. inversion C2; subst. exact H3.
    + exists b', bo'. split; [exact H2|]. assert (c = b) by congruence. subst c. rewrite H3 in C2. inversion C2; subst. exact H4.
Qed.

Section One.
Variables (lib : list (list nat) -> simplex_tree) (isos : list (nat * nat) -> nat -> list (list nat)) (so : list (list nat) -> list (list nat)) (width : V -> nat).
Hypothesis HW : keeps_width width o.
Notation predicted := (predicted o veqb lib isos so r max_ring down m).
Notation sample := (sample width lib isos so max_ring).

(** A graph of the data set, its complex. *)
Record lifted (g : LiftModel.graph V) (K : complex V) (sz : nat -> nat) : Prop := {
  li_eq : lift lib isos so g = Ok K;
  li_dim : k_dim K <= 2;
  li_emb : embeddable m K sz;
  li_iso : isomorphic sz K K;
  li_x : forall d c, nth_error (k_cochains K) d = Some c -> c_x c <> None <-> d = 0 \/ d = 1;
  li_y : k_y K = LiftModel.g_y g
}.

Lemma samples_convert w wa gs : Forall (sample w wa) gs ->
  exists ks dim nf, convert_with_rings o veqb width lib isos so r gs max_ring down true false = Ok (ks, dim, nf) /\
    Forall2 (fun g K => exists sz, lifted g K sz) gs ks.
Proof.
  intros HS. assert (HR : Forall (ring_graph lib isos so max_ring) gs) by (eapply Forall_impl; [|exact HS]; intros g [H _]; exact H).
  assert (HWd : Forall (widths width w wa) gs) by (eapply Forall_impl; [|exact HS]; intros g (_ & H & _); exact H).
  destruct (C22_rings_succeeds_partial o veqb width lib isos so r max_ring down true false veqb_ok gs w wa eq_refl HW HR HWd)
    as (ks & dim & nf & E & _).
  exists ks, dim, nf. split; [exact E|].
  destruct (C22_rings_order o veqb width lib isos so r max_ring down true false veqb_ok gs ks dim nf E) as (F & C & _).
  apply Forall2_nth_error_intro; [apply (Forall2_length F)|]. intros i g K Hg HK.
  assert (Hl : lift lib isos so g = Ok K).
  { destruct (Forall2_nth_error_l _ _ _ F _ _ Hg) as (K' & HK' & H). congruence. }
  assert (Hy : k_y K = LiftModel.g_y g).
  { destruct (Forall2_nth_error_l _ _ _ C _ _ Hg) as (K' & HK' & H & _). congruence. }
  rewrite Forall_forall in HR. pose proof (HR g (nth_error_In _ _ Hg)) as R.
  destruct (lift_two lib isos so lib isos so g g R R (renumbered_refl lib isos so g R)) as (K1 & K2 & sz & E1 & E2 & M1 & M2 & I12).
  assert (K1 = K) by congruence. assert (K2 = K) by congruence. subst K1 K2. exists sz.
  destruct (ring_embeddable o veqb lib isos so r _ _ _ _ _ max_ring down true false m (rg_in _ _ _ _ _ R) veqb_ok (fun _ => rg_attr _ _ _ _ _ R) (fun _ => Hee) K Hl) as (Hd & _ & Hx).
  constructor; auto. intros d c Hc. rewrite (Hx d c Hc). split; [intros [?|[[? _]|[_ H]]]; auto; discriminate|tauto].
Qed.

Lemma lifted_collection w wa gs ks : gs <> [] -> Forall (sample w wa) gs -> Forall2 (fun g K => exists sz, lifted g K sz) gs ks -> collection ks 2.
Proof.
  intros Hne HS F. rewrite Forall_forall in HS.
  assert (G : forall k, In k ks -> exists g sz, sample w wa g /\ lifted g k sz).
  { intros k Hk. apply In_nth_error in Hk as [i Hi]. destruct (Forall2_nth_error_r _ _ _ F _ _ Hi) as (g & Hg & sz & H). exists g, sz. split; auto. apply HS. eapply nth_error_In; eauto. }
  constructor.
  - intros k Hk. destruct (G k Hk) as (g & sz & _ & H). exists sz. apply C31_wf_storable; [apply (li_emb _ _ _ H)|]. apply (bd_pos _ _ (eb_bd _ _ _ (li_emb _ _ _ H))).
  - intros k Hk. destruct (G k Hk) as (g & sz & _ & H). apply (li_dim _ _ _ H).
  - right. intros k Hk. destruct (G k Hk) as (g & sz & (_ & _ & z & Hz) & H). exists z. rewrite (li_y _ _ _ H). exact Hz.
  - destruct ks as [|k ks]; [inversion F; subst; congruence|]. destruct (G k (or_introl eq_refl)) as (g & sz & _ & H).
    pose proof (eb_wf _ _ _ (li_emb _ _ _ H)) as W. destruct (nth_error (k_cochains k) 0) as [c|] eqn:Ec.
    + exists k, 0, c. split; [left; auto|]. split; [lia|]. split; auto. left. apply (li_x _ _ _ H 0 c Ec). auto.
    + apply nth_error_None in Ec. rewrite (wfk_len _ _ W) in Ec. lia.
Qed.

(** Evaluation of a split of the stored data set. *)
Lemma split_predictions loss_fn w wa gs ks co ds s (n : split_name s) ids bs : gs <> [] -> Forall (sample w wa) gs ->
  Forall2 (fun g K => exists sz, lifted g K sz) gs ks -> collate ks 2 = Ok co -> loaded ds co 2 -> d_indices ds = None -> ids_of n ds = Some ids ->
  (forall i, In i ids -> i < length gs) -> ids <> [] -> 1 <= bs ->
  exists out ml, infer_split (embed_forward o m) bs ds s = Ok out /\
    eval_split (embed_forward o m) loss_fn bs ds s = Ok (out, List.concat (map (fun i => match nth_error gs i with Some g => label g | None => [] end) ids), ml) /\
    Forall2 (fun i v => exists g, nth_error gs i = Some g /\ predicted g v) ids out.
Proof.
  intros Hne HS F E HL Hn Hids Hr Hnil Hb. pose proof (lifted_collection w wa gs ks Hne HS F) as HC. pose proof (Forall2_length F) as Hlen.
  destruct (split_read (embed_forward o m) loss_fn ks co ds s n ids HC E HL Hn Hids) as (f & Hf & HE); [intros i Hi; rewrite <- Hlen; auto|].
  destruct (HE bs) as [-> ->]. clear HE.
  assert (G : forall i, In i ids -> exists g K sz, nth_error gs i = Some g /\ lifted g K sz /\ same_complex K (f i) /\ In g gs).
  { intros i Hi. specialize (Hr i Hi). destruct (nth_error gs i) as [g|] eqn:Eg; [|apply nth_error_None in Eg; lia].
    destruct (Forall2_nth_error_l _ _ _ F _ _ Eg) as (K & HK & sz & H). exists g, K, sz. split; auto. split; auto. split; [apply Hf; auto|eapply nth_error_In; eauto]. }
  assert (HX : exists ks' szs, Forall2 (embeddable m) ks' szs /\ Forall2 same_complex ks' (map f ids) /\ uniform_x ks' 2).
  { assert (HX : exists ks' szs, Forall2 (embeddable m) ks' szs /\ Forall2 same_complex ks' (map f ids) /\
        forall k, In k ks' -> forall d c, nth_error (k_cochains k) d = Some c -> c_x c <> None <-> d = 0 \/ d = 1).
    { clear Hids Hr Hnil. induction ids as [|i ids IH]; [exists [], []; split; [constructor|split; [constructor|intros k []]]|].
      destruct IH as (ks' & szs & I1 & I2 & I3); [intros j Hj; apply G; right; auto|].
      destruct (G i (or_introl eq_refl)) as (g & K & sz & _ & H & S & _). exists (K :: ks'), (sz :: szs).
      split; [constructor; auto; apply (li_emb _ _ _ H)|]. split; [constructor; auto|]. intros k [<-|Hk]; [exact (li_x _ _ _ H)|exact (I3 k Hk)]. }
    destruct HX as (ks' & szs & I1 & I2 & I3). exists ks', szs. split; auto. split; auto. intros d Hd.
    destruct (Nat.le_gt_cases d 1) as [H|H]; [left|right]; intros k c Hk Hc.
    - apply (I3 k Hk d c Hc). lia.
    - destruct (c_x c) eqn:Ex; auto. assert (c_x c <> None) as N by congruence. apply (I3 k Hk d c Hc) in N. lia. }
  destruct HX as (ks' & szs & I1 & I2 & I3).
  assert (HEq : Forall2 (embeddable m) (map f ids) szs).
  { clear - I1 I2. revert I2. generalize (map f ids) as qs. induction I1 as [|k sz ks szs H I1 IH]; intros qs I2; inversion I2; subst; constructor; auto. eapply embeddable_stored; eauto. }
  pose proof (uniform_stored m ks' szs (map f ids) 2 I1 I2 I3) as HU.
  pose proof (C52_embedding_networks o (div_0_1 _ Ho) m (map f ids) szs 2 Hm HEq HU) as HInd.
  set (y := fun k : complex V => match k_y k with Some [z] => z | _ => 0%Z end).
  assert (HY : labelled_by y (map f ids)).
  { intros q Hq. apply in_map_iff in Hq as (i & <- & Hi). destruct (G i Hi) as (g & K & sz & _ & H & S & Hg). rewrite Forall_forall in HS. destruct (HS g Hg) as (_ & _ & z & Hz).
    unfold y. rewrite (sk_y _ _ S), (li_y _ _ _ H), Hz. reflexivity. }
  destruct (eval_ok (embed_forward o m) 2 loss_fn bs (map f ids) y HInd Hb) as (out & ml & E1 & E2 & E3); [destruct ids; [congruence|discriminate]|exact HY|].
  exists out, ml. split; [exact E2|]. split.
  - rewrite E1. f_equal. f_equal. f_equal. rewrite map_map. clear - G HS. induction ids as [|i ids IH]; auto. cbn [map concat].
    rewrite IH by (intros j Hj; apply G; right; auto). destruct (G i (or_introl eq_refl)) as (g & K & sz & -> & H & S & Hg).
    rewrite Forall_forall in HS. destruct (HS g Hg) as (_ & _ & z & Hz). unfold y, label. rewrite (sk_y _ _ S), (li_y _ _ _ H), Hz. reflexivity.
  - clear - E3 G Ho Hm. revert out E3. induction ids as [|i ids IH]; intros out E3; inversion E3 as [|? v0 ? out0 A0 A1]; subst; constructor.
    + destruct (G i (or_introl eq_refl)) as (g & K & sz & Hg & H & S & _). exists g. split; auto.
      assert (HA : alone (embed_forward o m) 2 K v0).
      { apply (alone_iso K (f i) sz v0 (li_dim _ _ _ H) (li_emb _ _ _ H)); auto; [eapply embeddable_stored; eauto; apply (li_emb _ _ _ H)|eapply iso_back; eauto; apply (li_iso _ _ _ H)]. }
      destruct HA as (b & b' & B1 & B2). exists K, b, b'. split; [apply (li_eq _ _ _ H)|]. split; auto.
    + apply IH; auto. intros j Hj. apply G. right; auto.
Qed.
End One.

Lemma predicted_renumbered lib isos so lib' isos' so' g g' v : ring_graph lib isos so max_ring g -> ring_graph lib' isos' so' max_ring g' -> renumbered g g' ->
  predicted o veqb lib isos so r max_ring down m g v -> predicted o veqb lib' isos' so' r max_ring down m g' v.
Proof.
  intros R R' N (K & b & b' & E & B1 & B2). destruct (lift_two lib isos so lib' isos' so' g g' R R' N) as (K1 & K' & sz & E1 & E' & M & M' & I).
  assert (K1 = K) by congruence. subst K1.
  destruct (ring_embeddable o veqb lib isos so r _ _ _ _ _ max_ring down true false m (rg_in _ _ _ _ _ R) veqb_ok (fun _ => rg_attr _ _ _ _ _ R) (fun _ => Hee) K E) as (Hd & _).
  assert (HA : alone (embed_forward o m) 2 K v) by (exists b, b'; auto).
  apply (alone_iso K K' sz v Hd M M' I) in HA. destruct HA as (c & c' & C1 & C2). exists K', c, c'. auto.
Qed.
Lemma predicted_fun lib isos so g v v' : predicted o veqb lib isos so r max_ring down m g v -> predicted o veqb lib isos so r max_ring down m g v' -> v = v'.
Proof. intros (K & b & b' & E & B1 & B2) (K1 & b1 & b1' & E1 & B3 & B4). congruence. Qed.
End Rings.
