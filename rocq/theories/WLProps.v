(** C58: SparseCIN on lifted graphs separates everything the Weisfeiler-Lehman test and GIN separate, and more. *)
From Coq Require Import List Arith Lia ZArith Bool Permutation.
From Verif Require Import Base ScatterModel ScatterSpec ScatterProofs ComplexModel BatchSpec BatchSpec2
  BatchProofs BatchProofs2 DummyModel BatchProps LiftModel LiftSpec LiftBase LiftProofs LiftClique LiftTables LiftCliqueProps LiftRing LiftProps LiftRingProps LiftRingExamples
  MPModel MPSpec MPProofs MPEngine MPBatch MPForward MPNets MPProps MPIso PermLift
  GraphNetModel GraphNetSpec GraphNetProofs GraphNetProps PowerSpec PowerProofs PowerProps WLSpec WLProofs.
Import ListNotations.

(** ** GIN is bounded by the test *)
(** If [L] rounds of the test, with a hash that separates different multisets, do not separate two
    graphs, no graph network with at most [L] layers does, whatever its rows, functions, pooling and
    jumping knowledge; [emb] is any embedding of the node features into rows. *)
Lemma wl_colours_down {W C} (init : W -> C) hash es es' X X' n n' l a : wl_faithful init hash -> a <= l ->
  Permutation (wl_colours init hash es X n l) (wl_colours init hash es' X' n' l) ->
  Permutation (wl_colours init hash es X n a) (wl_colours init hash es' X' n' a).
Proof. intros HF Ha. unfold wl_colours. apply perm_transfer. intros i i' _ _. apply wl_down; auto. Qed.

Definition embed {W V} (emb : W -> V) (g : graph W) : graph V := mkGraph (map emb (g_x g)) (g_edges g) (g_mask g).

Theorem C58_gin_bound {W V C} (o : ops V) (Ho : ops_ok o) (init : W -> C) hash (w0 : W) (emb : W -> V) (m : gin_net V) (g g' : graph W) L :
  wl_faithful init hash -> pgraph_ok g -> pgraph_ok g' -> g_x g <> [] -> g_x g' <> [] -> g_mask g = None -> g_mask g' = None ->
  S (length (gn_rest m)) <= L ->
  Permutation (wl_colours init hash (g_edges g) (fun i => nth i (g_x g) w0) (length (g_x g)) L)
              (wl_colours init hash (g_edges g') (fun i => nth i (g_x g') w0) (length (g_x g')) L) ->
  exists b b' v, batch_graphs [embed emb g] = Ok b /\ batch_graphs [embed emb g'] = Ok b' /\
    gin_forward o m b = Ok [v] /\ gin_forward o m b' = Ok [v].
Proof.
  intros HF HG HG' Hx Hx' Hm Hm' HL HP.
  assert (P : forall h : graph W, pgraph_ok h -> pgraph_ok (embed emb h)) by (intros h; unfold pgraph_ok, embed; cbn; rewrite map_length; auto).
  assert (N : forall h : graph W, g_x h <> [] -> g_x (embed emb h) <> []) by (intros [[|] ? ?]; cbn; congruence).
  destruct (gin_batch o m [embed emb g]) as (b & Eb & Ef); [discriminate|constructor; auto|constructor; auto|left; constructor; auto|].
  destruct (gin_batch o m [embed emb g']) as (b' & Eb' & Ef'); [discriminate|constructor; auto|constructor; auto|left; constructor; auto|].
  exists b, b', (gin_predict o m (embed emb g)). split; auto. split; auto. split; auto. rewrite Ef'. cbn [map]. do 2 f_equal. symmetry.
  apply (gin_predict_wl o Ho init hash) with (X := fun i => nth i (g_x g) w0) (X' := fun i => nth i (g_x g') w0) (emb := emb); auto.
  - intros i Hi. unfold node_feats, embed in *. cbn [g_x] in *. rewrite map_length in Hi. rewrite (nth_indep _ _ (emb w0)) by (rewrite map_length; auto). apply map_nth.
  - intros i Hi. unfold node_feats, embed in *. cbn [g_x] in *. rewrite map_length in Hi. rewrite (nth_indep _ _ (emb w0)) by (rewrite map_length; auto). apply map_nth.
  - cbn [embed g_x g_edges]. rewrite !map_length. eapply wl_colours_down; eauto.
Qed.

(** ** SparseCIN reaches the test *)
(** A complex over the vertices and edges of a simple graph, with its node features and non-negative features on all cells. *)
Record lift_with (g : graph Z) (k : complex Z) (cells : nat -> list (list nat)) (down : bool) (FX : nat -> option (list Z)) : Prop := {
  lo_simple : simple (g_edges g) (length (g_x g));
  lo_nodes : g_x g <> [];
  lo_cells : graph_cells (g_edges g) (length (g_x g)) cells;
  lo_has : has_cells cells down FX k;
  lo_x : FX 0 = Some (g_x g);
  lo_some : forall d, d <= k_dim k -> FX d <> None;
  lo_nonneg : forall d x v, d <= k_dim k -> FX d = Some x -> In v x -> (0 <= v)%Z
}.
Definition lift_of (g : graph Z) (k : complex Z) : Prop := exists cells down FX, lift_with g k cells down FX.

Lemma lift_nonneg g k cells down FX : lift_with g k cells down FX -> forall d v, In v (content (attr c_x d k)) -> (0 <= v)%Z.
Proof.
  intros H d v. unfold attr. destruct (nth_error (k_cochains k) d) as [c|] eqn:Ec; [|intros []].
  assert (Hd : d <= k_dim k).
  { assert (d < length (k_cochains k)) by (apply nth_error_Some; congruence). rewrite (wfk_len _ _ (hc_wf _ _ _ _ (lo_has _ _ _ _ _ H))) in *. lia. }
  rewrite (hc_x _ _ _ _ (lo_has _ _ _ _ _ H) d c Ec). destruct (FX d) as [x|] eqn:Ex; [|intros []]. cbn. eapply lo_nonneg; eauto.
Qed.
Lemma lift_features g k cells down FX D : lift_with g k cells down FX -> has_features D k.
Proof.
  intros H d c _ Ec. rewrite (hc_x _ _ _ _ (lo_has _ _ _ _ _ H) d c Ec). apply (lo_some _ _ _ _ _ H).
  assert (d < length (k_cochains k)) by (apply nth_error_Some; congruence). rewrite (wfk_len _ _ (hc_wf _ _ _ _ (lo_has _ _ _ _ _ H))) in *. lia.
Qed.
Lemma lift_feats0 g k cells down FX : lift_with g k cells down FX -> feats_of Zops k 0 = fun i => nth i (g_x g) 0%Z.
Proof.
  intros H. unfold feats_of, attr. destruct (nth_error (k_cochains k) 0) as [c|] eqn:Ec.
  - rewrite (hc_x _ _ _ _ (lo_has _ _ _ _ _ H) 0 c Ec), (lo_x _ _ _ _ _ H). reflexivity.
  - apply nth_error_None in Ec. rewrite (wfk_len _ _ (hc_wf _ _ _ _ (lo_has _ _ _ _ _ H))) in Ec. lia.
Qed.

Lemma lift_choose gs ks : Forall2 lift_of gs ks -> exists szs, Forall2 wf_complex ks szs /\ Forall (fun sz : nat -> nat => 0 < sz 0) szs /\
  Forall2 (fun gk sz => exists cells down FX, sz = (fun d => length (cells d)) /\ lift_with (fst gk) (snd gk) cells down FX) (combine gs ks) szs.
Proof.
  induction 1 as [|g k gs ks (cells & down & FX & H) _ (szs & W & P & IH)]; [exists []; repeat constructor|].
  exists ((fun d => length (cells d)) :: szs). split; [constructor; auto; apply H|]. split; [constructor; auto|constructor; auto].
  - rewrite (gc_vertices _ _ _ (lo_cells _ _ _ _ _ H)). pose proof (lo_nodes _ _ _ _ _ H). destruct (g_x g); [congruence|cbn; lia].
  - exists cells, down, FX. auto.
Qed.

Lemma bounded_all (ks : list (complex Z)) szs : Forall2 wf_complex ks szs ->
  Forall (fun k => forall d v, In v (content (attr c_x d k)) -> (0 <= v)%Z) ks ->
  exists F M, forall F' M', F <= F' -> M <= M' -> Forall2 (bounded F' M') ks szs.
Proof.
  induction 1 as [|k sz ks szs W _ IH]; intros HN; [exists 0, 0; constructor|]. inversion HN; subst.
  destruct IH as (F & M & IH); auto. destruct (bounded_exists k sz W) as (F1 & M1 & B); auto.
  exists (F + F1), (M + M1). intros F' M' HF HM. constructor; [apply B|apply IH]; lia.
Qed.

Definition plain_hash {C} (hash : C -> list (C * C) -> list C -> C) (c : C) (u : list C) : C := hash c (map (fun x => (x, x)) u) [].

Lemma Forall2_nth_both {A B} (P : A -> B -> Prop) l l' : Forall2 P l l' -> forall i a b, nth_error l i = Some a -> nth_error l' i = Some b -> P a b.
Proof. induction 1; intros [|i] a b Ha Hb; try discriminate; cbn in *; [congruence|eauto]. Qed.

(** For every list of lifted graphs there is one network that separates all pairs separated by [L] rounds
    of the test, whatever hash the test uses. *)
Theorem C58_at_least_wl gs ks L Dm max_dim : gs <> [] -> Forall2 lift_of gs ks -> 1 <= L -> 1 <= Dm <= max_dim ->
  exists layers lin1 b vs bo, length layers = L /\
  let m := sparse_cin Zops max_dim layers None RAdd (seq 0 (max_dim + 1)) lin1 false (fun v => v) in
  from_complex_list ks Dm = Ok b /\ net_forward Zops m b = Ok (vs, bo) /\ length vs = length gs /\
  forall i j g g' v, nth_error gs i = Some g -> nth_error gs j = Some g' -> nth_error vs i = Some v -> nth_error vs j = Some v ->
  forall (C : Type) (init : Z -> C) hash, wl_symmetric hash ->
    Permutation (wl_colours init hash (g_edges g) (fun i => nth i (g_x g) 0%Z) (length (g_x g)) L)
                (wl_colours init hash (g_edges g') (fun i => nth i (g_x g') 0%Z) (length (g_x g')) L).
Proof.
  intros Hne HL2 HL HD. destruct (lift_choose gs ks HL2) as (szs & W & P & HC).
  assert (HF : Forall (has_features Dm) ks).
  { clear -HL2. induction HL2 as [|g k gs ks (cells & down & FX & H) _ IH]; constructor; auto. eapply lift_features; eauto. }
  assert (HN : Forall (fun k => forall d v, In v (content (attr c_x d k)) -> (0 <= v)%Z) ks).
  { clear -HL2. induction HL2 as [|g k gs ks (cells & down & FX & H) _ IH]; constructor; auto. eapply lift_nonneg; eauto. }
  destruct (bounded_all ks szs W HN) as (F & M & HB). pose proof (Forall2_length HL2) as Hlen. pose proof (Forall2_length W) as Hlen'.
  destruct (C56_colour_refinement_attained (F + 1) M L max_dim (seq 0 (max_dim + 1))) as (layers & lin1 & HLen & K); [lia|lia|exists 0; split; [apply in_seq|]; lia|].
  cbv zeta in K. destruct (K ks szs Dm) as (b & vs & bo & Hb & Hf & Hl & Hiff); auto; [|apply HB; lia|lia|].
  { destruct ks; [|discriminate]. destruct gs; [congruence|discriminate]. }
  exists layers, lin1, b, vs, bo. split; auto. cbv zeta. split; auto. split; auto. split; [lia|].
  intros i j g g' v Hg Hg' Hv Hv' C init hash Hsym.
  assert (HX : forall i g, nth_error gs i = Some g -> exists k cells down FX, nth_error ks i = Some k /\ nth_error szs i = Some (fun d => length (cells d)) /\ lift_with g k cells down FX).
  { clear -HC Hlen Hlen'. intros i g Hg. assert (i < length gs) by (apply nth_error_Some; congruence).
    destruct (nth_error ks i) as [k|] eqn:Ek; [|apply nth_error_None in Ek; lia].
    destruct (nth_error szs i) as [sz|] eqn:Es; [|apply nth_error_None in Es; lia].
    destruct (Forall2_nth_both _ _ _ HC i (g, k) sz) as (cells & down & FX & E & H'); auto.
    - rewrite nth_error_combine, Hg, Ek. auto.
    - cbn [fst snd] in H'. subst sz. exists k, cells, down, FX. auto. }
  destruct (HX i g Hg) as (k & cells & down & FX & Ek & Es & LW). destruct (HX j g' Hg') as (k' & cells' & down' & FX' & Ek' & Es' & LW').
  pose proof (proj1 (Hiff nat num_init num_hash num_init_ideal num_hash_ideal i j k k' _ _ v v Ek Es Hv Ek' Es' Hv') eq_refl 0
    ltac:(apply in_seq; lia) ltac:(lia)) as HP.
  unfold colours_of in HP. rewrite (lifted_size _ _ _ _ _ (lo_cells _ _ _ _ _ LW)), (lifted_size _ _ _ _ _ (lo_cells _ _ _ _ _ LW')) in HP.
  unfold wl_colours. revert HP. apply perm_transfer. intros a a' _ _ E.
  pose proof (colour_refines_wl num_init num_hash init hash num_init_ideal num_hash_ideal Hsym (g_edges g) (g_edges g') _ _ _ _
     (fun i => lifted_neighbours _ _ _ _ _ _ Dm (lo_simple _ _ _ _ _ LW) (lo_cells _ _ _ _ _ LW) (lo_has _ _ _ _ _ LW) (proj1 HD) i)
     (fun i => lifted_neighbours _ _ _ _ _ _ Dm (lo_simple _ _ _ _ _ LW') (lo_cells _ _ _ _ _ LW') (lo_has _ _ _ _ _ LW') (proj1 HD) i) L a a' E) as R.
  rewrite (lift_feats0 _ _ _ _ _ LW), (lift_feats0 _ _ _ _ _ LW') in R. exact R.
Qed.

(** ** Hence it reaches every GIN *)
Lemma plain_faithful {C} (col0 : nat -> Z -> C) hash : ideal_init col0 -> ideal_hash hash -> wl_faithful (col0 0) (plain_hash hash).
Proof.
  intros Hc Hh. split; [intros v v'; apply Hc|]. intros c u c' u' H. apply Hh in H as (H1 & H2 & _). split; auto.
  apply (Permutation_map fst) in H2. rewrite !map_map in H2. cbn [fst] in H2. rewrite !map_id in H2. auto.
Qed.
Lemma plain_symmetric {C} (hash : C -> list (C * C) -> list C -> C) : ideal_hash hash -> wl_symmetric (plain_hash hash).
Proof. intros Hh c u u' H. apply Hh. split; auto. split; auto. apply Permutation_map. auto. Qed.

Theorem C58_at_least_gin gs ks L Dm max_dim : gs <> [] -> Forall2 lift_of gs ks -> Forall (fun g => g_mask g = None) gs -> 1 <= L -> 1 <= Dm <= max_dim ->
  exists layers lin1 b vs bo, length layers = L /\
  let m := sparse_cin Zops max_dim layers None RAdd (seq 0 (max_dim + 1)) lin1 false (fun v => v) in
  from_complex_list ks Dm = Ok b /\ net_forward Zops m b = Ok (vs, bo) /\ length vs = length gs /\
  forall i j g g' v, nth_error gs i = Some g -> nth_error gs j = Some g' -> nth_error vs i = Some v -> nth_error vs j = Some v ->
  forall (V : Type) (o : ops V) (emb : Z -> V) (gin : gin_net V), ops_ok o -> S (length (gn_rest gin)) <= L ->
  exists b1 b2 w, batch_graphs [embed emb g] = Ok b1 /\ batch_graphs [embed emb g'] = Ok b2 /\
    gin_forward o gin b1 = Ok [w] /\ gin_forward o gin b2 = Ok [w].
Proof.
  intros Hne HL2 HM HL HD. destruct (C58_at_least_wl gs ks L Dm max_dim Hne HL2 HL HD) as (layers & lin1 & b & vs & bo & H1 & H2 & H3 & H4 & H5).
  exists layers, lin1, b, vs, bo. split; auto. cbv zeta. split; auto. split; auto. split; auto.
  intros i j g g' v Hg Hg' Hv Hv' V o emb gin Ho HLe.
  assert (HX : forall i g, nth_error gs i = Some g -> pgraph_ok g /\ g_x g <> [] /\ g_mask g = None).
  { intros i0 g0 E. destruct (Forall2_nth_error_l _ _ _ HL2 i0 g0 E) as (k & Ek & cells & down & FX & LW).
    split; [apply (si_ok _ _ (lo_simple _ _ _ _ _ LW))|]. split; [apply (lo_nodes _ _ _ _ _ LW)|].
    rewrite Forall_forall in HM. apply HM. eapply nth_error_In; eauto. }
  destruct (HX i g Hg) as (A1 & A2 & A3). destruct (HX j g' Hg') as (B1 & B2 & B3).
  apply (C58_gin_bound o Ho (num_init 0) (plain_hash num_hash) 0%Z emb gin g g' L); auto.
  - apply plain_faithful; [apply num_init_ideal|apply num_hash_ideal].
  - apply (H5 i j g g' v); auto. apply plain_symmetric, num_hash_ideal.
Qed.

(** ** Both liftings give such complexes *)
Lemma reduce_nonneg r l : (forall v, In v l -> (0 <= v)%Z) -> (0 <= reduce_rows Zops r l)%Z.
Proof.
  assert (S : forall l a, (0 <= a)%Z -> (forall v, In v l -> (0 <= v)%Z) -> (0 <= fold_left Z.add l a)%Z).
  { induction l0 as [|x l0 IH]; intros a Ha H; cbn [fold_left]; auto. apply IH; [|intros; apply H; right; auto]. specialize (H x (or_introl eq_refl)). lia. }
  assert (Mx : forall l a, (0 <= a)%Z -> (0 <= fold_left Z.max l a)%Z).
  { induction l0 as [|x l0 IH]; intros a Ha; cbn [fold_left]; auto. apply IH. lia. }
  assert (Mn : forall l a, (0 <= a)%Z -> (forall v, In v l -> (0 <= v)%Z) -> (0 <= fold_left Z.min l a)%Z).
  { induction l0 as [|x l0 IH]; intros a Ha H; cbn [fold_left]; auto. apply IH; [|intros; apply H; right; auto]. specialize (H x (or_introl eq_refl)). lia. }
  intros H. destruct r; cbn [reduce_rows Zops vadd vzero vdivn vmax vmin].
  - apply S; auto. lia.
  - apply Z.div_pos; [apply S; auto; lia|]. pose proof (Nat.le_max_r (length l) 1). lia.
  - destruct l as [|a l]; [lia|]. apply Mx. apply H; left; auto.
  - destruct l as [|a l]; [lia|]. apply Mn; [apply H; left; auto|intros; apply H; right; auto].
Qed.
Lemma cell_row_nonneg r x s : Forall (fun v => (0 <= v)%Z) x -> (0 <= cell_row Zops r x s)%Z.
Proof.
  intros H. apply reduce_nonneg. intros v Hv. apply in_map_iff in Hv as (i & <- & _). rewrite Forall_forall in H.
  destruct (nth_in_or_default i x (vzero Zops)) as [E|E]; [auto|rewrite E; cbn; lia].
Qed.

Theorem C58_clique_lift lib r (g : graph Z) k y down :
  clique_input lib (g_x g) (g_edges g) (length (g_x g)) k y -> simple (g_edges g) (length (g_x g)) -> Forall (fun v => (0 <= v)%Z) (g_x g) ->
  exists K, compute_clique_complex Zops lib r (g_x g) (g_edges g) (length (g_x g)) k y down = Ok K /\ lift_of g K.
Proof.
  intros HI HS HN. destruct (given Zops lib r (g_x g) (g_edges g) (length (g_x g)) k y down HI) as (K & E & HC & HD & _).
  pose proof (given_cells lib (g_x g) (g_edges g) (length (g_x g)) k y HI) as CC.
  exists K. split; auto. eexists _, down, _. split; [exact HS| | |exact HC|reflexivity|discriminate|].
  - intros E0. pose proof (ci_nodes _ _ _ _ _ _ HI) as H. rewrite E0 in H. cbn in H. lia.
  - split.
    + unfold cells_of, level. simpl. apply singles_length.
    + apply (cc_vertex _ _ _ _ CC).
    + intros s. rewrite (cc_iff _ _ _ _ CC). split.
      * intros ((C1 & C2 & C3 & C4) & I & Hl & _). destruct s as [|u [|v [|w s]]]; try discriminate Hl.
        exists u, v. assert (u < v) by (apply (I 0 1); auto). split; auto. split; auto. apply C4; cbn; auto. lia.
      * intros (u & v & Huv & -> & HA). assert (HR : u < length (g_x g) /\ v < length (g_x g)).
        { destruct HA as [_ [H|H]]; apply (si_ok _ _ HS) in H; lia. }
        split; [|split; [|split; [reflexivity|lia]]].
        2:{ intros [|[|i]] [|[|j]] a b Ea Eb Hij; cbn in *; try lia; try (destruct i; discriminate); try (destruct j; discriminate); congruence. }
        split; [discriminate|]. split; [repeat constructor; cbn; intuition lia|]. split.
        -- intros w [<-|[<-|[]]]; lia.
        -- intros a b [<-|[<-|[]]] [<-|[<-|[]]] Hab; try lia; auto. destruct HA as [H1 H2]. split; [lia|tauto].
    + intros i j s Hi Hj. apply (cc_once _ _ _ _ CC 1 i j s s); auto. intros v; tauto.
  - intros d x v _ Hx Hv. unfold lift_x in Hx. inversion Hx; subst x. rewrite Forall_forall in HN. destruct (d =? 0); auto.
    apply in_map_iff in Hv as (s & <- & _). apply cell_row_nonneg. rewrite Forall_forall. auto.
Qed.

Theorem C58_ring_lift lib isos set_order r (g : graph Z) edge_attr y max_k down :
  ring_input lib isos set_order (g_x g) (g_edges g) (length (g_x g)) y max_k -> simple (g_edges g) (length (g_x g)) ->
  LiftRingProps.attr_ok (g_edges g) edge_attr -> Forall (fun v => (0 <= v)%Z) (g_x g) -> Forall (fun v => (0 <= v)%Z) (content edge_attr) ->
  exists K, compute_ring_2complex Zops Z.eqb lib isos set_order r (g_x g) (g_edges g) edge_attr (length (g_x g)) y max_k down true true = Ok K /\ lift_of g K.
Proof.
  intros HI HS HA HN HNa.
  destruct (ring_lift_gen Zops Z.eqb lib isos set_order r (g_x g) (g_edges g) edge_attr (length (g_x g)) y max_k down true true HI Zeqb_ok (fun _ => HA))
    as (K & rows & E & HR & HLr & HC & HD & _).
  pose proof (cells_ring lib isos set_order (g_x g) (g_edges g) (length (g_x g)) y max_k HI) as RC.
  exists K. split; auto. eexists _, down, _. split; [exact HS| | |exact HC|reflexivity| |].
  - intros E0. pose proof (ri_nodes _ _ _ _ _ _ _ _ HI) as H. rewrite E0 in H. cbn in H. lia.
  - split; [apply (rc_vertices _ _ _ _ RC)|apply (rc_vertex _ _ _ _ RC)|apply (rc_edge _ _ _ _ RC)|].
    intros i j s Hi Hj. apply (rc_once _ _ _ _ RC 1 i j s s); auto. intros v; tauto.
  - intros d _. destruct d as [|[|d]]; discriminate.
  - rewrite Forall_forall in HN, HNa. intros d x v _ Hx Hv. unfold ring_x in Hx.
    destruct d as [|[|d]]; inversion Hx; subst x; clear Hx; auto.
    + specialize (HR eq_refl). unfold edge_rows in HR. destruct edge_attr as [attr|].
      * apply In_nth_error in Hv as [i Hi].
        assert (Hlt : i < length rows) by (apply nth_error_Some; congruence). rewrite HLr in Hlt.
        destruct (nth_error (rcells_of lib isos set_order (g_edges g) (length (g_x g)) max_k 1) i) as [s|] eqn:Es; [|apply nth_error_None in Es; lia].
        pose proof (nth_error_In _ _ Es) as Hin. apply (rc_edge _ _ _ _ RC) in Hin as (u & w & Huw & -> & _ & Hadj).
        assert (Hj : exists j e, nth_error (g_edges g) j = Some e /\ same_set [fst e; snd e] [u; w]).
        { destruct Hadj as [H|H]; apply In_nth_error in H as [j Hj]; exists j; eexists; (split; [exact Hj|]); intros z; cbn; tauto. }
        destruct Hj as (j & e & Hj & HSS). rewrite (HR j e i [u; w] Hj Es HSS) in Hi. apply HNa. cbn. eapply nth_error_In; eauto.
      * subst rows. apply in_map_iff in Hv as (s & <- & _). apply cell_row_nonneg. rewrite Forall_forall. auto.
    + apply in_map_iff in Hv as (s & <- & _). apply cell_row_nonneg. rewrite Forall_forall. auto.
Qed.

(** ** The hexagon and the two triangles *)
Definition both_ways (es : list (nat * nat)) : list (nat * nat) := flat_map (fun e => [e; (snd e, fst e)]) es.
Definition hex : graph Z := mkGraph (repeat 1%Z 6) (both_ways [(0, 1); (1, 2); (2, 3); (3, 4); (4, 5); (5, 0)]) None.
Definition tri : graph Z := mkGraph (repeat 1%Z 6) (both_ways [(0, 1); (1, 2); (2, 0); (3, 4); (4, 5); (5, 3)]) None.

Definition simpleb (es : list (nat * nat)) (n : nat) : bool :=
  let eqe := fun e f : nat * nat => (fst e =? fst f) && (snd e =? snd f) in
  forallb (fun e => (fst e <? n) && (snd e <? n) && negb (fst e =? snd e) && existsb (eqe (snd e, fst e)) es) es &&
  (fix nd l := match l with [] => true | e :: r => negb (existsb (eqe e) r) && nd r end) es.
Lemma simpleb_ok es n : simpleb es n = true -> simple es n.
Proof.
  unfold simpleb. cbv zeta. intros H. apply andb_true_iff in H as [H1 H2]. rewrite forallb_forall in H1.
  assert (EX : forall e l, existsb (fun f : nat * nat => (fst e =? fst f) && (snd e =? snd f)) l = true <-> In e l).
  { intros [a b] l. rewrite existsb_exists. split.
    - intros ([u v] & Hin & E). cbn in E. apply andb_true_iff in E as [E1 E2]. apply Nat.eqb_eq in E1, E2. subst. auto.
    - intros Hin. exists (a, b). cbn. rewrite !Nat.eqb_refl. auto. }
  assert (Hall : forall u v, In (u, v) es -> u < n /\ v < n /\ u <> v /\ In (v, u) es).
  { intros u v Hin. specialize (H1 _ Hin). cbn [fst snd] in H1. rewrite !andb_true_iff, negb_true_iff, Nat.eqb_neq, !Nat.ltb_lt in H1.
    destruct H1 as [[[A B] C] D]. apply (EX (v, u)) in D. auto. }
  split.
  - intros u v Hin. apply Hall in Hin. tauto.
  - intros u v Hin. apply Hall in Hin. tauto.
  - clear -H2 EX. revert H2. induction es as [|e es IH]; intros H; constructor; apply andb_true_iff in H as [A B]; auto.
    apply negb_true_iff in A. intros Hin. apply EX in Hin. congruence.
  - intros u v Hin. apply Hall in Hin. tauto.
Qed.

(** In a graph where every node has two neighbours and all features agree, all nodes keep the same colour. *)
Fixpoint flat_colour {C} (c : C) (hash : C -> list C -> C) (l : nat) : C :=
  match l with 0 => c | S l' => let d := flat_colour c hash l' in hash d [d; d] end.
Lemma flat_wl {C} (init : Z -> C) hash es x n : (forall i, i < n -> nth i x 0%Z = 1%Z) -> graph_ok es n ->
  (forall i, i < n -> exists a b, into es i = [(a, i); (b, i)]) ->
  forall l i, i < n -> wl_colour init hash es (fun i => nth i x 0%Z) l i = flat_colour (init 1%Z) hash l.
Proof.
  intros HX HG HI. induction l as [|l IH]; intros i Hi; cbn [wl_colour flat_colour]; [rewrite HX; auto|].
  destruct (HI i Hi) as (a & b & E). assert (Ha : In (a, i) es /\ In (b, i) es).
  { assert (Hin : In (a, i) (into es i) /\ In (b, i) (into es i)) by (rewrite E; cbn; auto).
    unfold into in Hin. rewrite !filter_In in Hin. tauto. }
  destruct Ha as [Ha Hb]. apply HG in Ha, Hb. rewrite E. cbn [map fst]. rewrite !IH by tauto. auto.
Qed.
Lemma hex_wl {C} (init : Z -> C) hash l : wl_colours init hash (g_edges hex) (fun i => nth i (g_x hex) 0%Z) 6 l = repeat (flat_colour (init 1%Z) hash l) 6.
Proof.
  assert (H : forall i, i < 6 -> wl_colour init hash (g_edges hex) (fun i => nth i (g_x hex) 0%Z) l i = flat_colour (init 1%Z) hash l).
  { apply (flat_wl init hash (g_edges hex) (g_x hex) 6).
    - do 6 (intros [|i]; [reflexivity|revert i]). intros; lia.
    - apply (simpleb_ok (g_edges hex) 6). reflexivity.
    - do 6 (intros [|i]; [intros _; do 2 eexists; reflexivity|revert i]). intros; lia. }
  unfold wl_colours. cbn [seq map repeat]. rewrite !H by lia. auto.
Qed.
Lemma tri_wl {C} (init : Z -> C) hash l : wl_colours init hash (g_edges tri) (fun i => nth i (g_x tri) 0%Z) 6 l = repeat (flat_colour (init 1%Z) hash l) 6.
Proof.
  assert (H : forall i, i < 6 -> wl_colour init hash (g_edges tri) (fun i => nth i (g_x tri) 0%Z) l i = flat_colour (init 1%Z) hash l).
  { apply (flat_wl init hash (g_edges tri) (g_x tri) 6).
    - do 6 (intros [|i]; [reflexivity|revert i]). intros; lia.
    - apply (simpleb_ok (g_edges tri) 6). reflexivity.
    - do 6 (intros [|i]; [intros _; do 2 eexists; reflexivity|revert i]). intros; lia. }
  unfold wl_colours. cbn [seq map repeat]. rewrite !H by lia. auto.
Qed.

(** No GIN of any depth tells the two graphs apart. *)
Theorem C58_gin_blind {V} (o : ops V) (Ho : ops_ok o) (emb : Z -> V) (gin : gin_net V) :
  exists b b' v, batch_graphs [embed emb hex] = Ok b /\ batch_graphs [embed emb tri] = Ok b' /\
    gin_forward o gin b = Ok [v] /\ gin_forward o gin b' = Ok [v].
Proof.
  apply (C58_gin_bound o Ho (num_init 0) (plain_hash num_hash) 0%Z emb gin hex tri (S (length (gn_rest gin)))); auto; try discriminate.
  - apply plain_faithful; [apply num_init_ideal|apply num_hash_ideal].
  - apply (simpleb_ok (g_edges hex) 6). reflexivity.
  - apply (simpleb_ok (g_edges tri) 6). reflexivity.
  - change (length (g_x hex)) with 6. change (length (g_x tri)) with 6. rewrite hex_wl, tri_wl. auto.
Qed.

Lemma ring6 b (g : graph Z) : simple (g_edges g) 6 -> length (g_x g) = 6 -> (exists u v, adjacent (g_edges g) u v) ->
  ring_input (any_lib b) (ref_isos 6) (@rev _) (g_x g) (g_edges g) (length (g_x g)) None 6.
Proof.
  intros HS Hl HA. rewrite Hl. split; auto; try lia.
  - apply HS.
  - cbn. auto.
  - apply any_lib_ok.
  - intros k _. apply ref_isos_ok. apply HS.
  - intros l _. apply Permutation_sym, Permutation_rev.
Qed.
Lemma hex_ring b : ring_input (any_lib b) (ref_isos 6) (@rev _) (g_x hex) (g_edges hex) (length (g_x hex)) None 6.
Proof. apply ring6; auto; [apply simpleb_ok; reflexivity|]. exists 0, 1. split; [lia|]. left. cbn. auto. Qed.
Lemma tri_ring b : ring_input (any_lib b) (ref_isos 6) (@rev _) (g_x tri) (g_edges tri) (length (g_x tri)) None 6.
Proof. apply ring6; auto; [apply simpleb_ok; reflexivity|]. exists 0, 1. split; [lia|]. left. cbn. auto. Qed.

Lemma cycle_found es n s : graph_ok es n -> induced_cycle es s -> exists c, In c (ref_isos n es (length s)) /\ same_set s c.
Proof. intros Hg Hc. destruct (ref_isos_ok n es (length s) Hg) as [_ H]. destruct (H s Hc eq_refl) as (c & H1 & H2). exists c. split; auto. Qed.

(** The ring lifting of the hexagon has one 2-cell at most, that of the two triangles at least two. *)
Lemma hex_rings cells : ring_cells (g_edges hex) 6 6 cells -> length (cells 2) <= 1.
Proof.
  intros RC. assert (HS : forall s, In s (cells 2) -> same_set s (seq 0 6)).
  { intros s Hin. apply (rc_ring _ _ _ _ RC) in Hin as [Hc Hl].
    destruct (cycle_found (g_edges hex) 6 s) as (c & Hin & HS); auto; [apply (simpleb_ok (g_edges hex) 6); reflexivity|].
    assert (Hall : forallb (fun k => forallb (fun c => forallb (fun v => existsb (Nat.eqb v) c) (seq 0 6)) (ref_isos 6 (g_edges hex) k)) (seq 0 7) = true) by (vm_compute; reflexivity).
    rewrite forallb_forall in Hall. specialize (Hall (length s) ltac:(apply in_seq; lia)). rewrite forallb_forall in Hall. specialize (Hall c Hin). rewrite forallb_forall in Hall.
    unfold ref_isos in Hin. apply filter_In in Hin as [Hin _]. apply tuples_In in Hin as [_ Hin].
    intros v. rewrite (HS v). split; auto. intros Hv. specialize (Hall v Hv). apply existsb_exists in Hall as (w & Hw & E). apply Nat.eqb_eq in E. subst. auto. }
  destruct (cells 2) as [|s [|s' l]] eqn:E; cbn; try lia. exfalso.
  assert (0 = 1); [|lia]. apply (rc_once _ _ _ _ RC 2 0 1 s s'); unfold names; try (rewrite E; reflexivity).
  intros v. rewrite (HS s (or_introl eq_refl) v), (HS s' (or_intror (or_introl eq_refl)) v). tauto.
Qed.
Lemma tri_rings cells : ring_cells (g_edges tri) 6 6 cells -> 2 <= length (cells 2).
Proof.
  intros RC.
  assert (C1 : induced_cycle (g_edges tri) [0; 1; 2]) by (apply cycleb_ok; reflexivity).
  assert (C2 : induced_cycle (g_edges tri) [3; 4; 5]) by (apply cycleb_ok; reflexivity).
  destruct (rc_all _ _ _ _ RC _ C1) as (i & s & Hi & HS); [cbn; lia|]. destruct (rc_all _ _ _ _ RC _ C2) as (j & s' & Hj & HS'); [cbn; lia|].
  assert (i <> j).
  { intros ->. unfold names in *. rewrite Hi in Hj. inversion Hj; subst s'. assert (H : In 0 [3; 4; 5]) by (apply HS', HS; cbn; auto). cbn in H. lia. }
  assert (i < length (cells 2)) by (apply nth_error_Some; unfold names in Hi; congruence).
  assert (j < length (cells 2)) by (apply nth_error_Some; unfold names in Hj; congruence). lia.
Qed.

(** Whatever gudhi, graph-tool and the iteration order of sets return, the ring liftings of the two
    graphs are separated by a SparseCIN with one layer. *)
Theorem C58_strict lib isos set_order r down lib' isos' set_order' r' down' :
  ring_input lib isos set_order (g_x hex) (g_edges hex) 6 None 6 -> ring_input lib' isos' set_order' (g_x tri) (g_edges tri) 6 None 6 ->
  exists K K' layers lin1 b v v' bo,
    compute_ring_2complex Zops Z.eqb lib isos set_order r (g_x hex) (g_edges hex) None 6 None 6 down true true = Ok K /\
    compute_ring_2complex Zops Z.eqb lib' isos' set_order' r' (g_x tri) (g_edges tri) None 6 None 6 down' true true = Ok K' /\
    length layers = 1 /\ from_complex_list [K; K'] 2 = Ok b /\
    net_forward Zops (sparse_cin Zops 2 layers None RAdd (seq 0 3) lin1 false (fun v => v)) b = Ok ([v; v'], bo) /\ v <> v'.
Proof.
  intros HI HI'.
  assert (HN : forall g, g = hex \/ g = tri -> Forall (fun v => (0 <= v)%Z) (g_x g)) by (intros g [->| ->]; repeat constructor; lia).
  destruct (C58_ring_lift lib isos set_order r hex None None 6 down HI) as (K & E & LO); [apply simpleb_ok; reflexivity|cbn; auto|auto|constructor|].
  destruct (C58_ring_lift lib' isos' set_order' r' tri None None 6 down' HI') as (K' & E' & LO'); [apply simpleb_ok; reflexivity|cbn; auto|auto|constructor|].
  destruct (ring_lift_gen Zops Z.eqb lib isos set_order r (g_x hex) (g_edges hex) None 6 None 6 down true true HI Zeqb_ok (fun _ => I)) as (K0 & rows & E0 & _ & _ & HC & _).
  destruct (ring_lift_gen Zops Z.eqb lib' isos' set_order' r' (g_x tri) (g_edges tri) None 6 None 6 down' true true HI' Zeqb_ok (fun _ => I)) as (K1 & rows' & E1 & _ & _ & HC' & _).
  pose proof (cells_ring _ _ _ _ _ _ _ _ HI) as RC. pose proof (cells_ring _ _ _ _ _ _ _ _ HI') as RC'.
  change (length (g_x hex)) with 6 in E. change (length (g_x tri)) with 6 in E'.
  assert (K0 = K) by congruence. assert (K1 = K') by congruence. subst K0 K1.
  set (cells := rcells_of lib isos set_order (g_edges hex) 6 6) in *. set (cells' := rcells_of lib' isos' set_order' (g_edges tri) 6 6) in *.
  set (sz := fun d => length (cells d)). set (sz' := fun d => length (cells' d)).
  assert (W : Forall2 wf_complex [K; K'] [sz; sz']) by (constructor; [apply HC|constructor; [apply HC'|constructor]]).
  assert (HF : Forall (has_features 2) [K; K']).
  { destruct LO as (c0 & d0 & f0 & LO), LO' as (c1 & d1 & f1 & LO'). constructor; [|constructor; [|constructor]]; eapply lift_features; eauto. }
  assert (HP : Forall (fun sz : nat -> nat => 0 < sz 0) [sz; sz']).
  { constructor; [|constructor; [|constructor]]; unfold sz, sz'; [rewrite (rc_vertices _ _ _ _ RC)|rewrite (rc_vertices _ _ _ _ RC')]; lia. }
  assert (HNN : Forall (fun k => forall d v, In v (content (attr c_x d k)) -> (0 <= v)%Z) [K; K']).
  { destruct LO as (c0 & d0 & f0 & LO), LO' as (c1 & d1 & f1 & LO'). constructor; [|constructor; [|constructor]]; eapply lift_nonneg; eauto. }
  destruct (bounded_all _ _ W HNN) as (F & M & HB).
  destruct (C56_colour_refinement_attained (F + 1) M 1 2 (seq 0 3)) as (layers & lin1 & HLen & KK); [lia|lia|exists 0; cbn; lia|].
  cbv zeta in KK. destruct (KK [K; K'] [sz; sz'] 2) as (b & vs & bo & Hb & Hf & Hl & Hiff); auto; [discriminate|apply HB; lia|].
  destruct vs as [|v [|v' [|]]]; try discriminate Hl. exists K, K', layers, lin1, b, v, v', bo.
  split; auto. split; auto. split; auto. split; auto. split; auto. intros Ev.
  pose proof (proj1 (Hiff nat num_init num_hash num_init_ideal num_hash_ideal 0 1 K K' sz sz' v v' eq_refl eq_refl eq_refl eq_refl eq_refl eq_refl) Ev 2
    ltac:(cbn; auto) ltac:(lia)) as P.
  apply Permutation_length in P. unfold colours_of in P. rewrite !map_length, !seq_length in P.
  assert (HS : forall (k : complex Z) s, wf_complex k s -> s_n (skel_of 2 k s) 2 = s 2).
  { intros k s Wk. unfold skel_of. cbn [s_n]. destruct (Nat.leb_spec 2 (Nat.min (k_dim k) 2)); auto. symmetry. apply (wfk_above _ _ Wk). lia. }
  rewrite (HS K sz (hc_wf _ _ _ _ HC)), (HS K' sz' (hc_wf _ _ _ _ HC')) in P.
  pose proof (hex_rings cells RC). pose proof (tri_rings cells' RC'). unfold sz, sz' in P. lia.
Qed.

(** ** Instances *)
Example C58_strict_example := C58_strict (any_lib true) (ref_isos 6) (@rev _) RAdd true (any_lib false) (ref_isos 6) (@rev _) RMax false (hex_ring true) (tri_ring false).

(** The path and the triangle on three nodes: separated by one round of the test, hence by a network. *)
Definition path3 : graph Z := mkGraph [2; 2; 2]%Z (both_ways [(0, 1); (1, 2)]) None.
Definition full3 : graph Z := mkGraph [2; 2; 2]%Z (both_ways [(0, 1); (1, 2); (2, 0)]) None.
Lemma small_clique b (g : graph Z) : simple (g_edges g) (length (g_x g)) -> g_x g <> [] ->
  clique_input (any_lib b) (g_x g) (g_edges g) (length (g_x g)) 2 None.
Proof. intros HS Hne. split; auto; [apply HS|destruct (g_x g); [congruence|cbn; lia]|cbn; auto|apply any_lib_ok]. Qed.
Example C58_at_least_wl_example : exists K K' layers lin1 b v v' bo,
  compute_clique_complex Zops (any_lib true) RAdd (g_x path3) (g_edges path3) 3 2 None true = Ok K /\
  compute_clique_complex Zops (any_lib true) RAdd (g_x full3) (g_edges full3) 3 2 None true = Ok K' /\
  length layers = 1 /\ from_complex_list [K; K'] 2 = Ok b /\
  net_forward Zops (sparse_cin Zops 2 layers None RAdd (seq 0 3) lin1 false (fun v => v)) b = Ok ([v; v'], bo) /\ v <> v'.
Proof.
  destruct (C58_clique_lift (any_lib true) RAdd path3 2 None true) as (K & E & LO).
  { apply small_clique; [apply simpleb_ok; reflexivity|discriminate]. } { apply simpleb_ok; reflexivity. } { repeat constructor; lia. }
  destruct (C58_clique_lift (any_lib true) RAdd full3 2 None true) as (K' & E' & LO').
  { apply small_clique; [apply simpleb_ok; reflexivity|discriminate]. } { apply simpleb_ok; reflexivity. } { repeat constructor; lia. }
  destruct (C58_at_least_wl [path3; full3] [K; K'] 1 2 2) as (layers & lin1 & b & vs & bo & H1 & H2 & H3 & H4 & H5); [discriminate|constructor; [auto|constructor; [auto|constructor]]|lia|lia|].
  destruct vs as [|v [|v' [|]]]; try discriminate H4. exists K, K', layers, lin1, b, v, v', bo.
  split; auto. split; auto. split; auto. split; auto. split; auto. intros <-.
  specialize (H5 0 1 path3 full3 v eq_refl eq_refl eq_refl eq_refl nat (fun _ => 0) (fun _ u => length u)
    (fun _ u u' H => Permutation_length H)).
  assert (Hin : In 1 [1; 2; 1]) by (cbn; auto). apply (Permutation_in 1 H5) in Hin. cbn in Hin. lia.
Qed.

Print Assumptions C58_gin_bound.
Print Assumptions C58_at_least_wl.
Print Assumptions C58_at_least_gin.
Print Assumptions C58_clique_lift.
Print Assumptions C58_ring_lift.
Print Assumptions C58_gin_blind.
Print Assumptions C58_strict.
