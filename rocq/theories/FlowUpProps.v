(** C61: GIN is a special case of SparseCIN on lifted graphs.
    C62: what SparseCIN and CIN++ cannot see without coboundary features. *)
From Coq Require Import List Arith Lia ZArith Bool Permutation.
From Verif Require Import Base ScatterModel ScatterSpec ScatterProofs ComplexModel BatchSpec BatchSpec2
  BatchProofs BatchProofs2 DummyModel BatchProps LiftModel LiftSpec LiftBase LiftProofs LiftClique LiftTables LiftCliqueProps LiftRing LiftProps LiftRingProps LiftRingExamples
  MPModel MPSpec MPProofs MPEngine MPBatch MPForward MPNets MPProps MPIso PermLift
  GraphNetModel GraphNetSpec GraphNetProofs GraphNetProps PowerSpec PowerProofs PowerProps WLSpec WLProofs WLProps FlowUpSpec FlowUpProofs.
Import ListNotations.

(** ** Lifted graphs *)
Lemma clique_graph_cells {V} lib (x : list V) es n k y : clique_input lib x es n k y -> simple es n ->
  graph_cells es n (cells_of lib es n k).
Proof.
  intros HI HS. pose proof (given_cells lib x es n k y HI) as CC. split.
  - unfold cells_of, level. simpl. apply singles_length.
  - apply (cc_vertex _ _ _ _ CC).
  - intros s. rewrite (cc_iff _ _ _ _ CC). split.
    + intros ((C1 & C2 & C3 & C4) & I & Hl & _). destruct s as [|u [|v [|w s]]]; try discriminate Hl.
      exists u, v. assert (u < v) by (apply (I 0 1); auto). split; auto. split; auto. apply C4; cbn; auto. lia.
    + intros (u & v & Huv & -> & HA). assert (HR : u < n /\ v < n).
      { destruct HA as [_ [H|H]]; apply (si_ok _ _ HS) in H; lia. }
      split; [|split; [|split; [reflexivity|lia]]].
      2:{ intros [|[|i]] [|[|j]] a b Ea Eb Hij; cbn in *; try lia; try (destruct i; discriminate); try (destruct j; discriminate); congruence. }
      split; [discriminate|]. split; [repeat constructor; cbn; intuition lia|]. split.
      * intros w [<-|[<-|[]]]; lia.
      * intros a b [<-|[<-|[]]] [<-|[<-|[]]] Hab; try lia; auto. destruct HA as [H1 H2]. split; [lia|tauto].
  - intros i j s Hi Hj. apply (cc_once _ _ _ _ CC 1 i j s s); auto. intros v; tauto.
Qed.

Section Any.
Context {V : Type} (o : ops V) (Ho : ops_ok o).

(** Both liftings of a simple graph, whatever gudhi and graph-tool return, are complexes over the graph. *)
Theorem C61_clique_lift lib r (g : graph V) k y down :
  clique_input lib (g_x g) (g_edges g) (length (g_x g)) k y -> simple (g_edges g) (length (g_x g)) ->
  exists K, compute_clique_complex o lib r (g_x g) (g_edges g) (length (g_x g)) k y down = Ok K /\ lifted_from g K.
Proof.
  intros HI HS. destruct (given o lib r (g_x g) (g_edges g) (length (g_x g)) k y down HI) as (K & E & HC & HD & _).
  exists K. split; auto. split; auto. split.
  - intros E0. pose proof (ci_nodes _ _ _ _ _ _ HI) as H. rewrite E0 in H. cbn in H. lia.
  - eexists _, down, _. split; [eapply clique_graph_cells; eauto|]. split; [exact HC|]. split; [reflexivity|discriminate].
Qed.

Theorem C61_ring_lift eqb lib isos set_order r (g : graph V) edge_attr y max_k down :
  (forall a b, eqb a b = true <-> a = b) ->
  ring_input lib isos set_order (g_x g) (g_edges g) (length (g_x g)) y max_k -> simple (g_edges g) (length (g_x g)) ->
  LiftRingProps.attr_ok (g_edges g) edge_attr ->
  exists K, compute_ring_2complex o eqb lib isos set_order r (g_x g) (g_edges g) edge_attr (length (g_x g)) y max_k down true true = Ok K /\ lifted_from g K.
Proof.
  intros HQ HI HS HA.
  destruct (ring_lift_gen o eqb lib isos set_order r (g_x g) (g_edges g) edge_attr (length (g_x g)) y max_k down true true HI HQ (fun _ => HA))
    as (K & rows & E & _ & _ & HC & _).
  pose proof (cells_ring lib isos set_order (g_x g) (g_edges g) (length (g_x g)) y max_k HI) as RC.
  exists K. split; auto. split; auto. split.
  - intros E0. pose proof (ri_nodes _ _ _ _ _ _ _ _ HI) as H. rewrite E0 in H. cbn in H. lia.
  - eexists _, down, _. split; [|split; [exact HC|split; [reflexivity|intros [|[|d]]; discriminate]]].
    split; [apply (rc_vertices _ _ _ _ RC)|apply (rc_vertex _ _ _ _ RC)|apply (rc_edge _ _ _ _ RC)|].
    intros i j s Hi Hj. apply (rc_once _ _ _ _ RC 1 i j s s); auto. intros v; tauto.
Qed.

(** What is needed of a lifted graph. *)
Lemma lifted_facts g (k : complex V) Dm : lifted_from g k -> 1 <= Dm -> exists sz, wf_complex k sz /\ has_features Dm k /\ 0 < sz 0 /\
  s_n (skel_of Dm k sz) 0 = length (g_x g) /\ s_bnd (skel_of Dm k sz) 0 = [] /\ feats_of o k 0 = node_feats o g /\
  forall i, Permutation (map (fun e => fst (fst e)) (up_at (skel_of Dm k sz) 0 i)) (map fst (into (g_edges g) i)).
Proof.
  intros (HS & Hne & cells & down & FX & HC & HK & HX & HSome) HD. exists (fun d => length (cells d)).
  pose proof (hc_wf _ _ _ _ HK) as W. pose proof (wfk_len _ _ W) as HL.
  split; auto. split; [|split; [|split; [|split; [|split]]]].
  - intros d c _ Ec. rewrite (hc_x _ _ _ _ HK d c Ec). apply HSome. assert (d < length (k_cochains k)) by (apply nth_error_Some; congruence). lia.
  - rewrite (gc_vertices _ _ _ HC). destruct (g_x g); [congruence|cbn; lia].
  - rewrite (lifted_size (g_edges g) (length (g_x g)) cells k Dm HC). auto.
  - rewrite skel_bnd by (auto; lia). unfold attr. destruct (nth_error (k_cochains k) 0) as [c|] eqn:Ec; auto. destruct (hc_bnd0 _ _ _ _ HK c Ec) as [-> _]. auto.
  - unfold feats_of, node_feats, attr. destruct (nth_error (k_cochains k) 0) as [c|] eqn:Ec.
    + rewrite (hc_x _ _ _ _ HK 0 c Ec), HX. auto.
    + apply nth_error_None in Ec. lia.
  - apply (lifted_neighbours (g_edges g) (length (g_x g)) cells down FX k Dm HS HC HK HD).
Qed.

Lemma predict_vertices (a : arch V) S X : a_dims a = [0] -> a_mean a = false -> (forall v, a_lin1 a 0 v = v) ->
  predict o a S X = a_lin2 a (reduce_rows o (a_pool a) (map (final_feats (a_jump a) (history o (a_pdim a) (a_top a) S (a_layers a) X) X 0) (seq 0 (s_n S 0)))).
Proof. intros H1 H2 H3. unfold predict, combine_dims. rewrite H1, H2. cbn. rewrite H3, (add_0_l _ Ho). auto. Qed.

(** ** C61 *)
(** For every GIN, every list of graphs and every list of complexes lifted from them: the SparseCIN whose layers
    imitate those of the GIN at the vertices, read out at the vertices, makes the same predictions.  Nothing is
    assumed about its layers at edges and rings. *)
Theorem C61_gin_special_case (m : gin_net V) gs ks Dm max_dim (layers : list (nat -> sparse_level V)) :
  gs <> [] -> Forall2 lifted_from gs ks -> Forall (fun g => g_mask g = None) gs \/ Forall mask_ok gs -> 1 <= Dm ->
  Forall2 (fun l s => imitates l (s 0)) (gn_first m :: gn_rest m) layers ->
  exists gb kb vs kb', batch_graphs gs = Ok gb /\ from_complex_list ks Dm = Ok kb /\ length vs = length gs /\
    gin_forward o m gb = Ok vs /\
    net_forward o (sparse_cin o max_dim layers (gn_jump m) (gn_pool m) [0] (fun _ v => v) false (gn_head m)) kb = Ok (vs, kb').
Proof.
  intros Hne HL HM HD HI.
  assert (HG : Forall pgraph_ok gs) by (clear -HL; induction HL as [|g k gs ks (H & _)]; constructor; auto; apply H).
  assert (HN : Forall (fun g => g_x g <> []) gs) by (clear -HL; induction HL as [|g k gs ks (_ & H & _)]; constructor; auto).
  destruct (gin_batch o m gs Hne HG HN HM) as (gb & Eb & Ef).
  set (P := fun (g : graph V) (k : complex V) (sz : nat -> nat) => wf_complex k sz /\ has_features Dm k /\ 0 < sz 0 /\
    s_n (skel_of Dm k sz) 0 = length (g_x g) /\ s_bnd (skel_of Dm k sz) 0 = [] /\ feats_of o k 0 = node_feats o g /\
    forall i, Permutation (map (fun e => fst (fst e)) (up_at (skel_of Dm k sz) 0 i)) (map fst (into (g_edges g) i))).
  assert (HS : exists szs, Forall2 wf_complex ks szs /\ Forall (has_features Dm) ks /\ Forall (fun sz : nat -> nat => 0 < sz 0) szs /\
    Forall2 (fun g q => P g (fst q) (snd q)) gs (combine ks szs)).
  { clear -HL HD. induction HL as [|g k gs ks H HL (szs & A & B & C & D)]; [exists []; repeat constructor|].
    destruct (lifted_facts g k Dm H HD) as (sz & F). exists (sz :: szs). cbn [combine]. split; [constructor; auto; apply F|]. split; [constructor; auto; apply F|]. split; [constructor; auto; apply F|].
    constructor; auto. }
  destruct HS as (szs & HW & HF & HP & HQ).
  assert (Hl : layers <> []) by (inversion HI; discriminate).
  assert (Hk : ks <> []) by (intros ->; inversion HL; subst; congruence).
  destruct (forward_list o (div_0_1 _ Ho) _ _ ks szs Dm (sparse_ok o (div_0_1 _ Ho) max_dim layers (gn_jump m) (gn_pool m) [0] (fun _ v => v) false (gn_head m) Hl
    (ex_intro _ 0 (conj (or_introl eq_refl) (Nat.le_0_l _)))) Hk HW HF HP) as (kb & kb' & Ek & En).
  exists gb, kb, (map (gin_predict o m) gs), kb'. split; auto. split; auto. split; [apply map_length|]. split; auto.
  rewrite En. do 2 f_equal. clear -HQ HI Ho. induction HQ as [|g [k sz] gs qs H HQ IH]; auto. cbn [map]. f_equal; auto. cbn [fst snd] in *.
  destruct H as (_ & _ & _ & HN & HB & HX & HP). rewrite predict_vertices by auto. unfold gin_predict. cbn [sparse_arch a_lin2 a_pool a_jump a_pdim a_top a_layers].
  f_equal. f_equal. rewrite HN. apply map_ext. intros i.
  pose proof (history_gin o Ho (g_edges g) (skel_of Dm k sz) max_dim true HB HP _ _ HI (feats_of o k) (node_feats o g) (fun i => f_equal (fun f => f i) HX) i) as HH.
  set (h := history o max_dim true (skel_of Dm k sz) (sparse_layers o layers) (feats_of o k)) in *.
  set (h' := gin_history o (gn_first m :: gn_rest m) (g_edges g) (node_feats o g)) in *.
  destruct (gn_jump m) as [j|]; cbn [final_feats]; [f_equal; auto|].
  rewrite <- (last_map (fun F : feats V => F 0 i) h), <- (last_map (fun F : nat -> V => F i) h'), HH. f_equal. rewrite HX. auto.
Qed.

(** Layers that imitate exist for every GIN. *)
Definition gin_level (l : gin_layer V) : nat -> sparse_level V := fun _ =>
  mkSparseLevel (MsgFst (fun v => v)) (fun v => v) (fun u => gc_act l (gc_nn l u)) (fun v => v) (fun a _ => a) (gc_scale l) (fun v => v).
Lemma gin_level_ok ls : Forall2 (fun l s => imitates l (s 0)) ls (map gin_level ls).
Proof. induction ls; constructor; auto. split; auto. Qed.

(** ** C62 *)
Lemma sparse_flat l : ignores_coboundary (sp_up l) -> flat (sparse_rule o l).
Proof. intros [f E]. split; auto. cbn. rewrite E. auto. Qed.
Lemma cinpp_flat l : ignores_coboundary (pp_up l) -> flat (cinpp_rule o l).
Proof. intros [f E]. split; auto. cbn. rewrite E. auto. Qed.

Lemma no_downward_flow m (a : arch V) d ks ks' szs szs' Dm Dm' : net_ok o m a ->
  (forall L, In L (a_layers a) -> forall e, e <= d -> flat (l_rule L e)) -> (forall e, In e (a_dims a) -> e <= d) ->
  ks <> [] -> Forall2 wf_complex ks szs -> Forall2 wf_complex ks' szs' -> Forall (has_features Dm) ks -> Forall (has_features Dm') ks' ->
  Forall (fun sz : nat -> nat => 0 < sz 0) szs -> d < Dm -> d < Dm' -> Forall2 (agree_up_to d) ks ks' ->
  exists b b' vs bo bo', from_complex_list ks Dm = Ok b /\ from_complex_list ks' Dm' = Ok b' /\
    net_forward o m b = Ok (vs, bo) /\ net_forward o m b' = Ok (vs, bo').
Proof.
  intros HN HL HD Hne HW HW' HF HF' HP Hd Hd' HA.
  assert (Hne' : ks' <> []) by (intros ->; inversion HA; subst; congruence).
  assert (HE : Forall (fun sz : nat -> nat => 0 < sz 0) szs' /\
    map (fun q => predict o a (skel_of Dm (fst q) (snd q)) (feats_of o (fst q))) (combine ks szs) =
    map (fun q => predict o a (skel_of Dm' (fst q) (snd q)) (feats_of o (fst q))) (combine ks' szs')).
  { clear Hne Hne'. revert szs szs' HW HW' HP. induction HA as [|k k' ks ks' A HA IH]; intros szs szs' HW HW' HP.
    - inversion HW'; subst. cbn. auto.
    - inversion HW as [|? sz ? szs1 W1 W2]; subst. inversion HW' as [|? sz' ? szs1' W1' W2']; subst. inversion HF; subst. inversion HF'; subst. inversion HP; subst.
      destruct (IH H2 H4 szs1 szs1') as [I1 I2]; auto. split.
      + constructor; auto. rewrite <- (agree_sizes d k k' sz sz' Dm Dm') by (auto; lia). auto.
      + cbn [combine map fst snd]. f_equal; auto. apply (predict_agree o d); auto. }
  destruct HE as [HP' HE].
  destruct (forward_list o (div_0_1 _ Ho) m a ks szs Dm HN Hne HW HF HP) as (b & bo & E1 & E2).
  destruct (forward_list o (div_0_1 _ Ho) m a ks' szs' Dm' HN Hne' HW' HF' HP') as (b' & bo' & E1' & E2').
  rewrite <- HE in E2'. eexists b, b', _, bo, bo'. eauto.
Qed.

(** Without coboundary features nothing flows from cells to their faces: the predictions read out at dimensions at
    most [d] do not depend on the features of cells above dimension [d], nor on their boundaries, nor on the existence
    of cells above dimension [d + 1], nor on the dimension the batch is truncated at. *)
Theorem C62_no_downward_flow max_dim (layers : list (nat -> sparse_level V)) jump pool dims lin1 mean lin2 d ks ks' szs szs' Dm Dm' :
  layers <> [] -> (exists e, In e dims /\ e <= max_dim) ->
  (forall l, In l layers -> forall e, e <= d -> ignores_coboundary (sp_up (l e))) -> (forall e, In e dims -> e <= max_dim -> e <= d) ->
  ks <> [] -> Forall2 wf_complex ks szs -> Forall2 wf_complex ks' szs' -> Forall (has_features Dm) ks -> Forall (has_features Dm') ks' ->
  Forall (fun sz : nat -> nat => 0 < sz 0) szs -> d < Dm -> d < Dm' -> Forall2 (agree_up_to d) ks ks' ->
  let m := sparse_cin o max_dim layers jump pool dims lin1 mean lin2 in
  exists b b' vs bo bo', from_complex_list ks Dm = Ok b /\ from_complex_list ks' Dm' = Ok b' /\
    net_forward o m b = Ok (vs, bo) /\ net_forward o m b' = Ok (vs, bo').
Proof.
  intros Hl He HI HD. intros. apply (no_downward_flow m (sparse_arch o max_dim layers jump pool dims lin1 mean lin2) d ks ks' szs szs'); auto.
  - apply sparse_ok; auto. apply Ho.
  - intros L HL e Hed. cbn [sparse_arch a_layers] in HL. unfold sparse_layers in HL. apply in_map_iff in HL as (l & <- & Hin). cbn. apply sparse_flat. auto.
  - cbn. intros e Hin. apply filter_In in Hin as [Hin Hle]. apply HD; auto. apply Nat.leb_le; auto.
Qed.
Theorem C62_no_downward_flow_cinpp max_dim (layers : list (nat -> cinpp_level V)) jump pool dims lin1 mean lin2 d ks ks' szs szs' Dm Dm' :
  layers <> [] -> (exists e, In e dims /\ e <= max_dim) ->
  (forall l, In l layers -> forall e, e <= d -> ignores_coboundary (pp_up (l e))) -> (forall e, In e dims -> e <= max_dim -> e <= d) ->
  ks <> [] -> Forall2 wf_complex ks szs -> Forall2 wf_complex ks' szs' -> Forall (has_features Dm) ks -> Forall (has_features Dm') ks' ->
  Forall (fun sz : nat -> nat => 0 < sz 0) szs -> d < Dm -> d < Dm' -> Forall2 (agree_up_to d) ks ks' ->
  let m := cinpp o max_dim layers jump pool dims lin1 mean lin2 in
  exists b b' vs bo bo', from_complex_list ks Dm = Ok b /\ from_complex_list ks' Dm' = Ok b' /\
    net_forward o m b = Ok (vs, bo) /\ net_forward o m b' = Ok (vs, bo').
Proof.
  intros Hl He HI HD. intros. apply (no_downward_flow m (cinpp_arch o max_dim layers jump pool dims lin1 mean lin2) d ks ks' szs szs'); auto.
  - apply cinpp_ok; auto. apply Ho.
  - intros L HL e Hed. cbn [cinpp_arch a_layers] in HL. unfold cinpp_layers in HL. apply in_map_iff in HL as (l & <- & Hin). cbn. apply cinpp_flat. auto.
  - cbn. intros e Hin. apply filter_In in Hin as [Hin Hle]. apply HD; auto. apply Nat.leb_le; auto.
Qed.

(** Read out at the vertices, such a network is no stronger than the Weisfeiler-Lehman test, whatever cells were
    attached to the graphs. *)
Theorem C62_vertex_readout {W C} (init : W -> C) hash (w0 : W) (emb : W -> V) max_dim (layers : list (nat -> sparse_level V)) jump pool lin1 mean lin2
    (g g' : graph W) k k' Dm Dm' L :
  wl_faithful init hash -> lifted_from (embed emb g) k -> lifted_from (embed emb g') k' -> 1 <= Dm -> 1 <= Dm' ->
  layers <> [] -> (forall l, In l layers -> ignores_coboundary (sp_up (l 0))) -> length layers <= L ->
  Permutation (wl_colours init hash (g_edges g) (fun i => nth i (g_x g) w0) (length (g_x g)) L)
              (wl_colours init hash (g_edges g') (fun i => nth i (g_x g') w0) (length (g_x g')) L) ->
  let m := sparse_cin o max_dim layers jump pool [0] lin1 mean lin2 in
  exists b b' v bo bo', from_complex_list [k] Dm = Ok b /\ from_complex_list [k'] Dm' = Ok b' /\
    net_forward o m b = Ok ([v], bo) /\ net_forward o m b' = Ok ([v], bo').
Proof.
  intros HF HK HK' HD HD' Hl HI HL HP m.
  assert (HS : simple (g_edges g) (length (g_x g))) by (destruct HK as [H _]; cbn in H; rewrite map_length in H; auto).
  assert (HS' : simple (g_edges g') (length (g_x g'))) by (destruct HK' as [H _]; cbn in H; rewrite map_length in H; auto).
  destruct (lifted_facts _ k Dm HK HD) as (sz & W1 & F1 & P1 & N1 & B1 & X1 & Q1). destruct (lifted_facts _ k' Dm' HK' HD') as (sz' & W2 & F2 & P2 & N2 & B2 & X2 & Q2).
  cbn [embed g_x g_edges] in *. rewrite map_length in N1, N2.
  set (a := sparse_arch o max_dim layers jump pool [0] lin1 mean lin2).
  assert (HN : net_ok o m a) by (apply sparse_ok; auto; [apply Ho|exists 0; split; [left; auto|lia]]).
  destruct (forward_list o (div_0_1 _ Ho) m a [k] [sz] Dm HN) as (b & bo & E1 & E2); auto; [discriminate|].
  destruct (forward_list o (div_0_1 _ Ho) m a [k'] [sz'] Dm' HN) as (b' & bo' & E1' & E2'); auto; [discriminate|].
  cbn [combine map fst snd] in E2, E2'. exists b, b'. eexists _, bo, bo'. split; [exact E1|]. split; [exact E1'|]. split; [exact E2|]. rewrite E2'. do 3 f_equal. symmetry.
  unfold predict, combine_dims. subst a. cbn [sparse_arch a_jump a_pdim a_top a_layers a_dims a_mean a_lin1 a_lin2 a_pool filter Nat.leb map length fold_left].
  assert (EP : forall S X, map (final_feats jump (history o max_dim true S (sparse_layers o layers) X) X 0) (seq 0 (s_n S 0)) =
     map (fun i => match jump with None => last (map (fun F : feats V => F 0 i) (history o max_dim true S (sparse_layers o layers) X)) (X 0 i) | Some j => j (map (fun F : feats V => F 0 i) (history o max_dim true S (sparse_layers o layers) X)) end) (seq 0 (s_n S 0))).
  { intros S X. apply map_ext. intros i. destruct jump; cbn [final_feats]; auto. rewrite (last_map (fun F : feats V => F 0 i)). auto. }
  assert (EQ : reduce_rows o pool (map (final_feats jump (history o max_dim true (skel_of Dm k sz) (sparse_layers o layers) (feats_of o k)) (feats_of o k) 0) (seq 0 (s_n (skel_of Dm k sz) 0))) =
    reduce_rows o pool (map (final_feats jump (history o max_dim true (skel_of Dm' k' sz') (sparse_layers o layers) (feats_of o k')) (feats_of o k') 0) (seq 0 (s_n (skel_of Dm' k' sz') 0)))).
  { rewrite !EP. apply (reduce_rows_perm o Ho). rewrite N1, N2. apply (wl_colours_down init hash _ _ _ _ _ _ L (length layers) HF HL) in HP.
    unfold wl_colours in HP. revert HP. apply perm_transfer. intros i i' Hi Hi' E. apply in_seq in Hi, Hi'.
    assert (HY : forall i i', i < length (g_x g) -> i' < length (g_x g') ->
      wl_colour init hash (g_edges g) (fun i => nth i (g_x g) w0) 0 i = wl_colour init hash (g_edges g') (fun i => nth i (g_x g') w0) 0 i' ->
      feats_of o k 0 i = feats_of o k' 0 i').
    { intros j j' Hj Hj' H. rewrite X1, X2. unfold node_feats. cbn [embed g_x].
      rewrite (nth_indep _ _ (emb w0)) by (rewrite map_length; auto). rewrite (nth_indep (map emb (g_x g')) _ (emb w0)) by (rewrite map_length; auto). rewrite !map_nth.
      f_equal. apply HF. exact H. }
    assert (EL : length (sparse_layers o layers) = length layers) by apply map_length.
    pose proof (history_wl o Ho init hash (g_edges g) (g_edges g') _ _ (fun i => nth i (g_x g) w0) (fun i => nth i (g_x g') w0) (skel_of Dm k sz) (skel_of Dm' k' sz') max_dim true HF (si_ok _ _ HS) (si_ok _ _ HS') B1 B2 Q1 Q2
      (sparse_layers o layers)) as HH.
    specialize (HH ltac:(intros l0 Hin; apply in_map_iff in Hin as (l & <- & Hin); split; [apply sparse_flat; auto|reflexivity])).
    specialize (HH 0 _ _ HY i i' ltac:(lia) ltac:(lia)). rewrite EL in HH. specialize (HH E). rewrite HH.
    destruct jump as [j|]; auto. f_equal. apply HY; try lia. apply (wl_down init hash HF (g_edges g) (g_edges g') _ _ (length layers)); auto. lia. }
  rewrite EQ. auto.
Qed.
End Any.

(** ** The hexagon and the two triangles *)
(** No network without coboundary features that is read out at the vertices tells the ring liftings of the hexagon
    and of the two triangles apart ([C58_strict] tells them apart by reading out at all dimensions). *)
Theorem C62_hexagon {V} (o : ops V) (Ho : ops_ok o) (emb : Z -> V) eqb lib isos set_order r down lib' isos' set_order' r' down'
    max_dim (layers : list (nat -> sparse_level V)) jump pool lin1 mean lin2 :
  (forall a b, eqb a b = true <-> a = b) ->
  ring_input lib isos set_order (map emb (g_x hex)) (g_edges hex) 6 None 6 -> ring_input lib' isos' set_order' (map emb (g_x tri)) (g_edges tri) 6 None 6 ->
  layers <> [] -> (forall l, In l layers -> ignores_coboundary (sp_up (l 0))) ->
  let m := sparse_cin o max_dim layers jump pool [0] lin1 mean lin2 in
  exists K K' b b' v bo bo',
    compute_ring_2complex o eqb lib isos set_order r (map emb (g_x hex)) (g_edges hex) None 6 None 6 down true true = Ok K /\
    compute_ring_2complex o eqb lib' isos' set_order' r' (map emb (g_x tri)) (g_edges tri) None 6 None 6 down' true true = Ok K' /\
    from_complex_list [K] 2 = Ok b /\ from_complex_list [K'] 2 = Ok b' /\ net_forward o m b = Ok ([v], bo) /\ net_forward o m b' = Ok ([v], bo').
Proof.
  intros HQ HI HI' Hl HC m.
  destruct (C61_ring_lift o eqb lib isos set_order r (embed emb hex) None None 6 down HQ HI) as (K & E & LO); [apply (simpleb_ok (g_edges hex) 6); reflexivity|cbn; auto|].
  destruct (C61_ring_lift o eqb lib' isos' set_order' r' (embed emb tri) None None 6 down' HQ HI') as (K' & E' & LO'); [apply (simpleb_ok (g_edges tri) 6); reflexivity|cbn; auto|].
  destruct (C62_vertex_readout o Ho (num_init 0) (plain_hash num_hash) 0%Z emb max_dim layers jump pool lin1 mean lin2 hex tri K K' 2 2 (length layers)) as (b & b' & v & bo & bo' & H); auto.
  - apply plain_faithful; [apply num_init_ideal|apply num_hash_ideal].
  - change (length (g_x hex)) with 6. change (length (g_x tri)) with 6. rewrite hex_wl, tri_wl. auto.
  - exists K, K', b, b', v, bo, bo'. split; auto.
Qed.

(** ** Instances *)
Definition cat_level : nat -> sparse_level Z := fun _ =>
  mkSparseLevel (MsgCat Z.mul) (fun v => v) (fun v => v) (fun v => v) (fun a b => (a + b)%Z) (fun v => v) (fun v => v).
Definition fst_level : nat -> sparse_level Z := fun _ =>
  mkSparseLevel (MsgFst (fun v => v)) (fun v => v) (fun v => v) (fun v => v) (fun a b => (a + 3 * b)%Z) (fun v => v) (fun v => v).
Definition at_vertices (ls : list (nat -> sparse_level Z)) : net Z := sparse_cin Zops 2 ls None RAdd [0] (fun _ v => v) false (fun v => v).
Definition on_ring_lift (g : graph Z) (ms : list (net Z)) : result (list (list Z)) :=
  let* k := compute_ring_2complex Zops Z.eqb (any_lib true) (ref_isos 6) (@rev _) RAdd (g_x g) (g_edges g) None 6 None 6 true true true in
  let* b := from_complex_list [k] 2 in
  mapM (fun m => let* (vs, _) := net_forward Zops m b in Ok vs) ms.

(** Without coboundary features the two graphs get the same prediction; with them two layers are enough to tell
    them apart. *)
Example C62_coboundaries_matter :
  on_ring_lift hex [at_vertices [fst_level; fst_level]; at_vertices [cat_level; cat_level]] = Ok [[216%Z]; [4824%Z]] /\
  on_ring_lift tri [at_vertices [fst_level; fst_level]; at_vertices [cat_level; cat_level]] = Ok [[216%Z]; [1368%Z]].
Proof. split; [vm_cast_no_check (@eq_refl (result (list (list Z))) (Ok [[216%Z]; [4824%Z]]))|vm_cast_no_check (@eq_refl (result (list (list Z))) (Ok [[216%Z]; [1368%Z]]))]. Qed.

(** The hypotheses of C62 about agreeing complexes: other features on the edges and the 2-cell of the house. *)
Definition repaint (f : Z -> Z) (c : cochain Z) : cochain Z :=
  mkCochain (c_dim c) (option_map (map f) (c_x c)) (c_upper c) (c_lower c) (c_shb c) (c_shc c) (c_bidx c) (c_uor c) (c_lor c) (c_y c) (c_mask c)
    (c_n c) (c_nup c) (c_ndown c).
Definition painted : complex Z := mkComplexRec 2 [house_v; repaint (fun v => 5 - v)%Z house_e; repaint (fun v => v * 7)%Z house_t] (Some [8%Z]).
Lemma painted_wf : wf_complex painted house_sz.
Proof.
  pose proof house_wf as [A B C]. split; auto. intros [|[|[|d]]] c H; cbn in H; inversion H; subst; clear H.
  - apply (B 0); auto.
  - destruct (B 1 house_e eq_refl). split; auto.
  - destruct (B 2 house_t eq_refl). split; auto.
  - destruct d; discriminate.
Qed.
Example C62_agree : agree_up_to 0 DummyModel.house painted /\ ~ agree_up_to 1 DummyModel.house painted.
Proof.
  split.
  - split; intros [|e] He; try lia; reflexivity.
  - intros [H _ _]. specialize (H 1 (le_n 1)). vm_compute in H. discriminate.
Qed.
Example C62_house : exists b b' vs bo bo', from_complex_list [DummyModel.house; DummyModel.path3] 2 = Ok b /\ from_complex_list [painted; DummyModel.path3] 1 = Ok b' /\
  net_forward Zops (at_vertices [fst_level; fst_level]) b = Ok (vs, bo) /\ net_forward Zops (at_vertices [fst_level; fst_level]) b' = Ok (vs, bo').
Proof.
  apply (C62_no_downward_flow Zops Zops_ok 2 [fst_level; fst_level] None RAdd [0] (fun _ v => v) false (fun v => v) 0
    [DummyModel.house; DummyModel.path3] [painted; DummyModel.path3] [house_sz; path3_sz] [house_sz; path3_sz]); try lia; try discriminate.
  - exists 0. cbn. auto.
  - intros l [<-|[<-|[]]] e _; eexists; reflexivity.
  - cbn. lia.
  - constructor; [apply house_wf|constructor; [apply path3_wf|constructor]].
  - constructor; [apply painted_wf|constructor; [apply path3_wf|constructor]].
  - repeat constructor; intros [|[|[|d]]] c _ H; cbn in H; inversion H; subst; try discriminate; destruct d; discriminate.
  - repeat constructor; intros [|[|[|d]]] c _ H; cbn in H; inversion H; subst; try discriminate; destruct d; discriminate.
  - repeat constructor.
  - constructor; [apply C62_agree|constructor; [|constructor]]. split; auto.
Qed.

(** A GIN with two layers and jumping knowledge on the path and the triangle, imitated on their clique complexes. *)
Definition ex_gin : gin_net Z :=
  mkGinNet (mkGin (fun v => v * v)%Z (fun v => 3 * v)%Z (fun v => Z.max 0 v)) [mkGin (fun v => v + 1)%Z (fun v => v) (fun v => v)]
    (Some (fun l => fold_left Z.add l 0%Z)) RMean (fun v => 10 * v)%Z.
Example C61_example : exists K K' gb kb v v' kb',
  compute_clique_complex Zops (any_lib true) RAdd (g_x path3) (g_edges path3) 3 2 None true = Ok K /\
  compute_clique_complex Zops (any_lib true) RAdd (g_x full3) (g_edges full3) 3 2 None true = Ok K' /\
  batch_graphs [path3; full3] = Ok gb /\ from_complex_list [K; K'] 2 = Ok kb /\ gin_forward Zops ex_gin gb = Ok [v; v'] /\ v <> v' /\
  net_forward Zops (sparse_cin Zops 2 (map gin_level (gn_first ex_gin :: gn_rest ex_gin)) (gn_jump ex_gin) RMean [0] (fun _ v => v) false (gn_head ex_gin)) kb = Ok ([v; v'], kb').
Proof.
  destruct (C61_clique_lift Zops (any_lib true) RAdd path3 2 None true) as (K & E & LO).
  { apply small_clique; [apply simpleb_ok; reflexivity|discriminate]. } { apply simpleb_ok; reflexivity. }
  destruct (C61_clique_lift Zops (any_lib true) RAdd full3 2 None true) as (K' & E' & LO').
  { apply small_clique; [apply simpleb_ok; reflexivity|discriminate]. } { apply simpleb_ok; reflexivity. }
  destruct (C61_gin_special_case Zops Zops_ok ex_gin [path3; full3] [K; K'] 2 2 (map gin_level (gn_first ex_gin :: gn_rest ex_gin))) as (gb & kb & vs & kb' & Eb & Ek & Hl & Eg & En);
    [discriminate|constructor; [auto|constructor; [auto|constructor]]|left; repeat constructor|lia|apply gin_level_ok|].
  destruct vs as [|v [|v' [|]]]; try discriminate Hl. exists K, K', gb, kb, v, v', kb'.
  split; auto. split; auto. split; auto. split; auto. split; auto. split; auto.
  vm_compute in Eb. injection Eb as <-. vm_compute in Eg. injection Eg as <- <-. discriminate.
Qed.

Print Assumptions C61_clique_lift.
Print Assumptions C61_ring_lift.
Print Assumptions C61_gin_special_case.
Print Assumptions C62_no_downward_flow.
Print Assumptions C62_no_downward_flow_cinpp.
Print Assumptions C62_vertex_readout.
Print Assumptions C62_hexagon.
