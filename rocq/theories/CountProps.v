(** C59: one layer of SparseCIN on lifted graphs sees the numbers of cliques and of induced cycles of every
    length, which the graph networks do not. *)
From Coq Require Import List Arith Lia ZArith Bool Permutation.
From Verif Require Import Base ScatterModel ScatterSpec ScatterProofs ComplexModel BatchSpec BatchSpec2
  BatchProofs BatchProofs2 DummyModel BatchProps LiftModel LiftSpec LiftBase LiftProofs LiftClique LiftTables LiftCliqueProps LiftRing LiftProps
  LiftRingProps LiftRingExamples LiftRingBoundary
  MPModel MPSpec MPProofs MPEngine MPBatch MPForward MPNets MPProps MPIso PermLift
  GraphNetModel GraphNetSpec GraphNetProofs GraphNetProps PowerSpec PowerProofs PowerProps WLSpec WLProofs WLProps.
Import ListNotations.

(** ** Specification of the counts *)
(** [l] lists the cliques with [d+1] nodes, each once. *)
Definition lists_cliques (es : list (nat * nat)) (n d : nat) (l : list (list nat)) : Prop :=
  NoDup l /\ forall s, In s l <-> clique es n s /\ increasing s /\ length s = d + 1.
(** [l] lists the induced cycles with at most [k] nodes, each once (in some cyclic order). *)
Definition lists_cycles (es : list (nat * nat)) (k : nat) (l : list (list nat)) : Prop :=
  (forall s, In s l -> induced_cycle es s /\ length s <= k) /\
  (forall s, induced_cycle es s -> length s <= k -> exists t, In t l /\ same_set s t) /\
  (forall i j s t, nth_error l i = Some s -> nth_error l j = Some t -> same_set s t -> i = j).

(** ** One network for a list of complexes *)
Lemma Forall2_choose {A B C} (P : A -> B -> C -> Prop) l l' : Forall2 (fun a b => exists c, P a b c) l l' ->
  exists cs, length cs = length l' /\ forall i a b, nth_error l i = Some a -> nth_error l' i = Some b -> exists c, nth_error cs i = Some c /\ P a b c.
Proof.
  induction 1 as [|a b l l' (c & H) _ (cs & HL & IH)]; [exists []; split; auto; intros [|i]; discriminate|].
  exists (c :: cs). split; [cbn; auto|]. intros [|i] a' b' Ha Hb; cbn in *; [inversion Ha; inversion Hb; subst; eauto|eauto].
Qed.
Lemma Forall2_nth_intro {A B} (R : A -> B -> Prop) l : forall l', length l = length l' ->
  (forall i a b, nth_error l i = Some a -> nth_error l' i = Some b -> R a b) -> Forall2 R l l'.
Proof.
  induction l as [|a l IH]; intros [|b l'] HL H; try discriminate; constructor.
  - apply (H 0); auto.
  - apply IH; [cbn in HL; lia|]. intros i. apply (H (S i)).
Qed.

Definition usable (D : nat) (k : complex Z) (cells : nat -> list (list nat)) : Prop :=
  wf_complex k (fun d => length (cells d)) /\ has_features D k /\ cells 0 <> [] /\
  forall d v, In v (content (attr c_x d k)) -> (0 <= v)%Z.

Lemma one_network {A} (gs : list A) (ks : list (complex Z)) (R : A -> complex Z -> (nat -> list (list nat)) -> Prop) L D :
  gs <> [] -> Forall2 (fun g k => exists cells, usable D k cells /\ R g k cells) gs ks -> 1 <= L ->
  exists layers lin1 b vs bo, length layers = L /\
  from_complex_list ks D = Ok b /\
  net_forward Zops (sparse_cin Zops D layers None RAdd (seq 0 (D + 1)) lin1 false (fun v => v)) b = Ok (vs, bo) /\ length vs = length gs /\
  forall i j g g' v, nth_error gs i = Some g -> nth_error gs j = Some g' -> nth_error vs i = Some v -> nth_error vs j = Some v ->
  exists k k' cells cells', usable D k cells /\ usable D k' cells' /\ R g k cells /\ R g' k' cells' /\
  forall d, d <= D -> Permutation (colours_of Zops num_init num_hash D k (fun d => length (cells d)) L d)
                                  (colours_of Zops num_init num_hash D k' (fun d => length (cells' d)) L d).
Proof.
  intros Hne HR HL. pose proof (Forall2_length HR) as Hlen. apply Forall2_choose in HR as (cs & Hcs & HR).
  set (szs := map (fun (cells : nat -> list (list nat)) d => length (cells d)) cs).
  assert (HK : forall i k, nth_error ks i = Some k -> exists g cells, nth_error gs i = Some g /\ nth_error cs i = Some cells /\ usable D k cells /\ R g k cells).
  { intros i k Ek. assert (i < length ks) by (apply nth_error_Some; congruence).
    destruct (nth_error gs i) as [g|] eqn:Eg; [|apply nth_error_None in Eg; lia]. destruct (HR i g k Eg Ek) as (cells & E & U & HRg). eauto 7. }
  assert (W : Forall2 wf_complex ks szs).
  { apply Forall2_nth_intro; [unfold szs; rewrite map_length; auto|]. intros i k sz Ek Es. destruct (HK i k Ek) as (g & cells & _ & Ec & U & _).
    unfold szs in Es. rewrite nth_error_map, Ec in Es. cbn in Es. inversion Es. apply U. }
  assert (HF : Forall (has_features D) ks).
  { apply Forall_forall. intros k Hk. apply In_nth_error in Hk as [i Hi]. destruct (HK i k Hi) as (g & cells & _ & _ & U & _). apply U. }
  assert (HN : Forall (fun k => forall d v, In v (content (attr c_x d k)) -> (0 <= v)%Z) ks).
  { apply Forall_forall. intros k Hk. apply In_nth_error in Hk as [i Hi]. destruct (HK i k Hi) as (g & cells & _ & _ & U & _). apply U. }
  assert (HP : Forall (fun sz : nat -> nat => 0 < sz 0) szs).
  { apply Forall_forall. intros sz Hs. apply In_nth_error in Hs as [i Hi]. unfold szs in Hi. rewrite nth_error_map in Hi.
    destruct (nth_error cs i) as [cells|] eqn:Ec; [|discriminate]. cbn in Hi. inversion Hi; subst sz.
    assert (i < length ks) by (rewrite <- Hcs; apply nth_error_Some; congruence).
    destruct (nth_error ks i) as [k|] eqn:Ek; [|apply nth_error_None in Ek; lia].
    destruct (HK i k Ek) as (g & cells' & _ & Ec' & (_ & _ & U & _) & _). assert (cells' = cells) by congruence. subst. destruct (cells 0); [congruence|cbn; lia]. }
  destruct (bounded_all ks szs W HN) as (F & M & HB).
  destruct (C56_colour_refinement_attained (F + 1) M L D (seq 0 (D + 1))) as (layers & lin1 & HLen & K); [lia|lia|exists 0; split; [apply in_seq|]; lia|].
  cbv zeta in K. destruct (K ks szs D) as (b & vs & bo & Hb & Hf & Hl & Hiff); auto; [|apply HB; lia|].
  { destruct ks; [|discriminate]. destruct gs; [congruence|discriminate]. }
  exists layers, lin1, b, vs, bo. split; auto. split; auto. split; auto. split; [lia|].
  intros i j g g' v Hg Hg' Hv Hv'.
  assert (HX : forall i g, nth_error gs i = Some g -> exists k cells, nth_error ks i = Some k /\ nth_error szs i = Some (fun d => length (cells d)) /\ usable D k cells /\ R g k cells).
  { clear -HK Hlen. intros i g Hg. assert (i < length gs) by (apply nth_error_Some; congruence).
    destruct (nth_error ks i) as [k|] eqn:Ek; [|apply nth_error_None in Ek; lia]. destruct (HK i k Ek) as (g0 & cells & Eg & Ec & U & HRg).
    exists k, cells. split; auto. split; [unfold szs; rewrite nth_error_map, Ec; auto|]. split; auto. congruence. }
  destruct (HX i g Hg) as (k & cells & Ek & Es & U & HRg). destruct (HX j g' Hg') as (k' & cells' & Ek' & Es' & U' & HRg').
  exists k, k', cells, cells'. split; auto. split; auto. split; auto. split; auto. intros d Hd.
  apply (proj1 (Hiff nat num_init num_hash num_init_ideal num_hash_ideal i j k k' _ _ v v Ek Es Hv Ek' Es' Hv') eq_refl d); auto. apply in_seq; lia.
Qed.

Lemma usable_n D k cells d : usable D k cells -> d <= D -> s_n (skel_of D k (fun d => length (cells d))) d = length (cells d).
Proof.
  intros (W & _) Hd. unfold skel_of. cbn [s_n]. destruct (Nat.leb_spec d (Nat.min (k_dim k) D)); auto.
  symmetry. apply (wfk_above _ _ W d). lia.
Qed.

(** ** Cliques *)
Definition nonneg_graph (g : graph Z) : Prop := Forall (fun v => (0 <= v)%Z) (g_x g).
Definition clique_lift_of (lib : list (list nat) -> simplex_tree) r k down (g : graph Z) : result (complex Z) :=
  compute_clique_complex Zops lib r (g_x g) (g_edges g) (length (g_x g)) k None down.

Theorem C59_clique_counts lib r k down gs D : gs <> [] ->
  Forall (fun g => clique_input lib (g_x g) (g_edges g) (length (g_x g)) k None /\ nonneg_graph g) gs ->
  exists ks layers lin1 b vs bo, Forall2 (fun g K => clique_lift_of lib r k down g = Ok K) gs ks /\ length layers = 1 /\
  from_complex_list ks D = Ok b /\
  net_forward Zops (sparse_cin Zops D layers None RAdd (seq 0 (D + 1)) lin1 false (fun v => v)) b = Ok (vs, bo) /\ length vs = length gs /\
  forall i j g g' v, nth_error gs i = Some g -> nth_error gs j = Some g' -> nth_error vs i = Some v -> nth_error vs j = Some v ->
  forall d l l', d <= D -> d <= Nat.max 1 k -> lists_cliques (g_edges g) (length (g_x g)) d l -> lists_cliques (g_edges g') (length (g_x g')) d l' ->
  length l = length l'.
Proof.
  intros Hne HI.
  assert (HK : exists ks, Forall2 (fun g K => clique_lift_of lib r k down g = Ok K) gs ks /\
     Forall2 (fun g K => exists cells, usable D K cells /\ clique_cells (g_edges g) (length (g_x g)) k cells) gs ks).
  { clear Hne. induction HI as [|g gs [Hg HN] _ (ks & IH1 & IH2)]; [exists []; auto|].
    destruct (given Zops lib r (g_x g) (g_edges g) (length (g_x g)) k None down Hg) as (K & E & HC & HD & _).
    exists (K :: ks). split; constructor; auto. pose proof (given_cells lib (g_x g) (g_edges g) (length (g_x g)) k None Hg) as CC.
    eexists. split; [|exact CC]. split; [apply HC|]. split; [|split].
    - intros d c _ Ec. rewrite (hc_x _ _ _ _ HC d c Ec). discriminate.
    - intros E0. pose proof (cc_vertex _ _ _ _ CC 0 (ci_nodes _ _ _ _ _ _ Hg)) as Hv. unfold names in Hv. rewrite E0 in Hv. discriminate.
    - intros d v. unfold attr. destruct (nth_error (k_cochains K) d) as [c|] eqn:Ec; [|intros []].
      rewrite (hc_x _ _ _ _ HC d c Ec). unfold lift_x. cbn [content]. unfold nonneg_graph in HN. destruct (d =? 0).
      + rewrite Forall_forall in HN. apply HN.
      + intros Hv. apply in_map_iff in Hv as (s & <- & _). apply cell_row_nonneg. auto. }
  destruct HK as (ks & HK & HR). destruct (one_network gs ks _ 1 D Hne HR (le_n 1)) as (layers & lin1 & b & vs & bo & H1 & H2 & H3 & H4 & H5).
  exists ks, layers, lin1, b, vs, bo. split; auto. split; auto. split; auto. split; auto. split; auto.
  intros i j g g' v Hg Hg' Hv Hv' d l l' HdD Hdk HLl HLl'.
  destruct (H5 i j g g' v Hg Hg' Hv Hv') as (K & K' & cells & cells' & U & U' & CC & CC' & HP). specialize (HP d HdD).
  apply Permutation_length in HP. unfold colours_of in HP. rewrite !map_length, !seq_length, (usable_n D K cells d U HdD), (usable_n D K' cells' d U' HdD) in HP.
  assert (HC : forall es n cells l, clique_cells es n k cells -> lists_cliques es n d l -> length l = length (cells d)).
  { clear -Hdk. intros es n cells l CC [HN HL]. apply Permutation_length, NoDup_Permutation; auto.
    - apply NoDup_nth_error. intros i j Hi E. destruct (nth_error (cells d) i) as [s|] eqn:Es; [|apply nth_error_None in Es; lia].
      apply (cc_once _ _ _ _ CC d i j s s); [exact Es|unfold names; congruence|intros v; tauto].
    - intros s. rewrite HL, (cc_iff _ _ _ _ CC). tauto. }
  rewrite (HC _ _ cells l CC HLl), (HC _ _ cells' l' CC' HLl'). auto.
Qed.

(** ** Induced cycles *)
Definition ring_lift_of (lib : list (list nat) -> simplex_tree) isos set_order r max_k down (g : graph Z) : result (complex Z) :=
  compute_ring_2complex Zops Z.eqb lib isos set_order r (g_x g) (g_edges g) None (length (g_x g)) None max_k down true true.

Lemma cycles_perm es k cells n l : ring_cells es n k cells -> lists_cycles es k l -> Permutation (map (@length nat) l) (map (@length nat) (cells 2)).
Proof.
  intros RC (H1 & H2 & H3).
  assert (E : forall l : list (list nat), map (@length nat) l = map (@length nat) (map (sort Nat.leb) l)).
  { intros l0. rewrite map_map. apply map_ext. intros s. apply Permutation_length, sort_perm. }
  rewrite (E l), (E (cells 2)). apply Permutation_map. apply NoDup_Permutation.
  - apply NoDup_nth_error. rewrite map_length. intros i j Hi Es. rewrite !nth_error_map in Es.
    destruct (nth_error l i) as [s|] eqn:Ei; [|apply nth_error_None in Ei; lia]. destruct (nth_error l j) as [t|] eqn:Ej; [|discriminate].
    cbn in Es. inversion Es as [E']. apply (H3 i j s t); auto. intros v. rewrite <- (sort_In s v), <- (sort_In t v), E'. tauto.
  - apply NoDup_nth_error. rewrite map_length. intros i j Hi Es. rewrite !nth_error_map in Es.
    destruct (nth_error (cells 2) i) as [s|] eqn:Ei; [|apply nth_error_None in Ei; lia]. destruct (nth_error (cells 2) j) as [t|] eqn:Ej; [|discriminate].
    cbn in Es. inversion Es as [E']. apply (rc_once _ _ _ _ RC 2 i j s t); auto. intros v. rewrite <- (sort_In s v), <- (sort_In t v), E'. tauto.
  - intros s. rewrite !in_map_iff. split; intros (t & <- & Ht).
    + destruct (H1 t Ht) as [C1 C2]. destruct (rc_all _ _ _ _ RC t C1 C2) as (i & u & Hu & HS). exists u.
      apply nth_error_In in Hu. split; auto. apply same_sort; [|apply C1|intros v; rewrite (HS v); tauto]. apply (rc_ring _ _ _ _ RC) in Hu as [Hu _]. apply Hu.
    + destruct (rc_ring _ _ _ _ RC t Ht) as [C1 C2]. destruct (H2 t C1 C2) as (u & Hu & HS). exists u.
      split; auto. apply same_sort; [|apply C1|intros v; rewrite (HS v); tauto]. apply (H1 u Hu).
Qed.

Theorem C59_ring_counts lib isos set_order r max_k down gs D : gs <> [] -> 2 <= D ->
  Forall (fun g => ring_input lib isos set_order (g_x g) (g_edges g) (length (g_x g)) None max_k /\ nonneg_graph g) gs ->
  exists ks layers lin1 b vs bo, Forall2 (fun g K => ring_lift_of lib isos set_order r max_k down g = Ok K) gs ks /\ length layers = 1 /\
  from_complex_list ks D = Ok b /\
  net_forward Zops (sparse_cin Zops D layers None RAdd (seq 0 (D + 1)) lin1 false (fun v => v)) b = Ok (vs, bo) /\ length vs = length gs /\
  forall i j g g' v, nth_error gs i = Some g -> nth_error gs j = Some g' -> nth_error vs i = Some v -> nth_error vs j = Some v ->
  forall l l', lists_cycles (g_edges g) max_k l -> lists_cycles (g_edges g') max_k l' ->
  Permutation (map (@length nat) l) (map (@length nat) l').
Proof.
  intros Hne HD2 HI.
  assert (HK : exists ks, Forall2 (fun g K => ring_lift_of lib isos set_order r max_k down g = Ok K) gs ks /\
     Forall2 (fun g K => exists cells, usable D K cells /\ (ring_cells (g_edges g) (length (g_x g)) max_k cells /\
       forall t s, names cells 2 t s -> length (bnd_at (skel_of D K (fun d => length (cells d))) 2 t) = length s)) gs ks).
  { clear Hne. induction HI as [|g gs [Hg HN] _ (ks & IH1 & IH2)]; [exists []; auto|].
    destruct (ring_lift_gen Zops Z.eqb lib isos set_order r (g_x g) (g_edges g) None (length (g_x g)) None max_k down true true Hg Zeqb_ok (fun _ => I))
      as (K & rows & E & HRo & HLr & HC & HD & _).
    exists (K :: ks). split; constructor; auto. pose proof (cells_ring lib isos set_order (g_x g) (g_edges g) (length (g_x g)) None max_k Hg) as RC.
    eexists. split; [|split; [exact RC|]].
    - split; [apply HC|]. split; [|split].
      + intros d c _ Ec. rewrite (hc_x _ _ _ _ HC d c Ec). destruct d as [|[|d]]; discriminate.
      + intros E0. pose proof (rc_vertex _ _ _ _ RC 0 (ri_nodes _ _ _ _ _ _ _ _ Hg)) as Hv. unfold names in Hv. rewrite E0 in Hv. discriminate.
      + intros d v. unfold attr. destruct (nth_error (k_cochains K) d) as [c|] eqn:Ec; [|intros []].
        rewrite (hc_x _ _ _ _ HC d c Ec). unfold ring_x. specialize (HRo eq_refl). cbn [edge_rows] in HRo. unfold nonneg_graph in HN.
        destruct d as [|[|d]]; cbn [content].
        * rewrite Forall_forall in HN. apply HN.
        * intros Hv. rewrite HRo in Hv. apply in_map_iff in Hv as (s & <- & _). apply cell_row_nonneg. auto.
        * intros Hv. apply in_map_iff in Hv as (s & <- & _). apply cell_row_nonneg. auto.
    - intros t s Ht. unfold bnd_at, skel_of. cbn [s_bnd].
      assert (H2 : 2 <= k_dim K). { apply HD. unfold names in Ht. intros E0. rewrite E0 in Ht. destruct t; discriminate. }
      destruct (Nat.leb_spec 2 (Nat.min (k_dim K) D)); [|lia]. unfold attr.
      destruct (nth_error (k_cochains K) 2) as [c|] eqn:Ec.
      2:{ apply nth_error_None in Ec. rewrite (wfk_len _ _ (hc_wf _ _ _ _ HC)) in Ec. lia. }
      apply (rb_count _ _ _ _ (ring_boundary_ok _ _ _ _ c RC (hc_bnd _ _ _ _ HC 1 c Ec) t s Ht)). }
  destruct HK as (ks & HK & HR). destruct (one_network gs ks _ 1 D Hne HR (le_n 1)) as (layers & lin1 & b & vs & bo & H1 & H2 & H3 & H4 & H5).
  exists ks, layers, lin1, b, vs, bo. split; auto. split; auto. split; auto. split; auto. split; auto.
  intros i j g g' v Hg Hg' Hv Hv' l l' HLl HLl'.
  destruct (H5 i j g g' v Hg Hg' Hv Hv') as (K & K' & cells & cells' & U & U' & (RC & HB) & (RC' & HB') & HP). specialize (HP 2 HD2).
  rewrite (cycles_perm _ _ _ _ l RC HLl), (cycles_perm _ _ _ _ l' RC' HLl').
  rewrite <- (map_nth_seq (cells 2) []), <- (map_nth_seq (cells' 2) []), !map_map.
  unfold colours_of in HP. rewrite (usable_n D K cells 2 U HD2), (usable_n D K' cells' 2 U' HD2) in HP.
  revert HP. apply perm_transfer. intros t t' Ht Ht' E. apply in_seq in Ht, Ht'.
  cbn [colour] in E. apply num_hash_ideal in E as (_ & _ & E). apply Permutation_length in E. rewrite !map_length in E.
  rewrite (HB t (nth t (cells 2) [])), (HB' t' (nth t' (cells' 2) [])) in E; auto; apply nth_error_nth'; lia.
Qed.

(** ** What graph networks do not see *)
(** No graph network separates regular graphs of the same size and degree with the same constant features. *)
Fixpoint regular_colour {C} (c : C) (hash : C -> list C -> C) (deg l : nat) : C :=
  match l with 0 => c | S l' => let d := regular_colour c hash deg l' in hash d (repeat d deg) end.
Definition regular (g : graph Z) (n deg : nat) (a : Z) : Prop :=
  g_x g = repeat a n /\ graph_ok (g_edges g) n /\ forall i, i < n -> length (into (g_edges g) i) = deg.
Lemma map_const_seq {A} (c : A) n : forall s, map (fun _ => c) (seq s n) = repeat c n.
Proof. induction n as [|n IH]; intros s; cbn; auto. f_equal. auto. Qed.
Lemma regular_wl {C} (init : Z -> C) hash g n deg a : regular g n deg a ->
  forall l, wl_colours init hash (g_edges g) (fun i => nth i (g_x g) 0%Z) n l = repeat (regular_colour (init a) hash deg l) n.
Proof.
  intros (HX & HG & HD).
  assert (H : forall l i, i < n -> wl_colour init hash (g_edges g) (fun i => nth i (g_x g) 0%Z) l i = regular_colour (init a) hash deg l).
  { induction l as [|l IH]; intros i Hi; cbn [wl_colour regular_colour].
    - rewrite HX. f_equal. rewrite (nth_indep _ 0%Z a) by (rewrite repeat_length; auto). apply nth_repeat.
    - rewrite (IH i Hi). f_equal. specialize (HD i Hi).
      set (c := regular_colour (init a) hash deg l) in *. clearbody c. rewrite <- HD. clear HD.
      assert (HI : forall e, In e (into (g_edges g) i) -> fst e < n).
      { intros [u v] He. unfold into in He. apply filter_In in He as [He _]. apply (HG u v He). }
      induction (into (g_edges g) i) as [|e es IHe]; cbn [map length repeat]; auto. f_equal; [apply IH, HI; left; auto|].
      apply IHe. intros; apply HI; right; auto. }
  intros l. unfold wl_colours. rewrite (map_ext_in _ (fun _ => regular_colour (init a) hash deg l)).
  - apply map_const_seq.
  - intros i Hi. apply in_seq in Hi. apply H. lia.
Qed.
Theorem C59_regular_blind {V} (o : ops V) (Ho : ops_ok o) (emb : Z -> V) (gin : gin_net V) g g' n deg a : 0 < n ->
  regular g n deg a -> regular g' n deg a -> g_mask g = None -> g_mask g' = None ->
  exists b b' v, batch_graphs [embed emb g] = Ok b /\ batch_graphs [embed emb g'] = Ok b' /\
    gin_forward o gin b = Ok [v] /\ gin_forward o gin b' = Ok [v].
Proof.
  intros Hn HR HR' HM HM'.
  assert (HL : length (g_x g) = n) by (destruct HR as [-> _]; apply repeat_length).
  assert (HL' : length (g_x g') = n) by (destruct HR' as [-> _]; apply repeat_length).
  apply (C58_gin_bound o Ho (num_init 0) (plain_hash num_hash) 0%Z emb gin g g' (S (length (gn_rest gin)))); auto.
  - apply plain_faithful; [apply num_init_ideal|apply num_hash_ideal].
  - unfold pgraph_ok. rewrite HL. apply HR.
  - unfold pgraph_ok. rewrite HL'. apply HR'.
  - intros E. rewrite E in HL. cbn in HL. lia.
  - intros E. rewrite E in HL'. cbn in HL'. lia.
  - rewrite HL, HL', (regular_wl _ _ g n deg a HR), (regular_wl _ _ g' n deg a HR'). auto.
Qed.

(** ** The strongly regular graphs with 16 nodes and degree 6 *)
(** Nodes are the cells of a 4x4 board.  Rook's graph: same row or column; Shrikhande graph: differences
    (0,1), (1,0), (1,1) and their negatives. *)
Definition board (adj : nat -> nat -> nat -> nat -> bool) : graph Z :=
  mkGraph (repeat 1%Z 16) (filter (fun e => adj (fst e / 4) (fst e mod 4) (snd e / 4) (snd e mod 4)) (list_prod (seq 0 16) (seq 0 16))) None.
Definition rook : graph Z := board (fun a b c d => xorb (a =? c) (b =? d)).
Definition shrikhande : graph Z := board (fun a b c d =>
  let x := (c + 4 - a) mod 4 in let y := (d + 4 - b) mod 4 in
  existsb (fun p => (fst p =? x) && (snd p =? y)) [(0, 1); (0, 3); (1, 0); (3, 0); (1, 1); (3, 3)]).

Definition regularb (g : graph Z) (n deg : nat) : bool :=
  forallb (fun e => (fst e <? n) && (snd e <? n)) (g_edges g) && forallb (fun i => length (into (g_edges g) i) =? deg) (seq 0 n).
Lemma regularb_ok g n deg a : g_x g = repeat a n -> regularb g n deg = true -> regular g n deg a.
Proof.
  intros HX H. apply andb_true_iff in H as [H1 H2]. rewrite forallb_forall in H1, H2. split; auto. split.
  - intros u v Hin. specialize (H1 _ Hin). cbn in H1. apply andb_true_iff in H1 as [A B]. apply Nat.ltb_lt in A, B. auto.
  - intros i Hi. apply Nat.eqb_eq, H2, in_seq. lia.
Qed.

Definition cliqueb (es : list (nat * nat)) (s : list nat) : bool :=
  forallb (fun u => forallb (fun v => (u =? v) || adjb es u v) s) s.
Lemma sorted_seq n : forall s, sorted (seq s n).
Proof. induction n as [|n IH]; intros s; cbn [seq]; [constructor|]. apply sorted_cons. split; auto. intros x Hx. apply in_seq in Hx. lia. Qed.
Lemma find_cliques es n d : graph_ok es n -> lists_cliques es n d (filter (cliqueb es) (combs (d + 1) (seq 0 n))).
Proof.
  intros HG. split; [apply NoDup_filter, combs_NoDup, seq_NoDup|].
  intros s. rewrite filter_In, combs_sorted by apply sorted_seq. unfold cliqueb. split.
  - intros [(Hl & Hi & Hs) Hc]. rewrite forallb_forall in Hc. split; [|split; [apply sorted_increasing; auto|auto]].
    split; [intros ->; cbn in Hl; lia|]. split; [apply sorted_NoDup; auto|]. split.
    + intros v Hv. apply Hi in Hv. apply in_seq in Hv. lia.
    + intros u v Hu Hv Huv. specialize (Hc u Hu). rewrite forallb_forall in Hc. specialize (Hc v Hv). apply orb_true_iff in Hc as [Hc|Hc].
      * apply Nat.eqb_eq in Hc. congruence.
      * apply adjb_ok. auto.
  - intros ((C1 & C2 & C3 & C4) & Hi & Hl). split; [split; [auto|split; [|apply increasing_sorted; auto]]|].
    + intros v Hv. apply in_seq. specialize (C3 v Hv). lia.
    + apply forallb_forall. intros u Hu. apply forallb_forall. intros v Hv. destruct (Nat.eqb_spec u v); auto. apply orb_true_iff. right. apply adjb_ok. auto.
Qed.

Lemma rook_regular : regular rook 16 6 1%Z.
Proof. apply regularb_ok; vm_compute; reflexivity. Qed.
Lemma shrikhande_regular : regular shrikhande 16 6 1%Z.
Proof. apply regularb_ok; vm_compute; reflexivity. Qed.

(** Rook's graph has eight cliques with four nodes, the Shrikhande graph has none; the graph networks
    give both the same answer. *)
Theorem C59_strongly_regular lib r down : good_lib lib -> exists K K' layers lin1 b v v' bo,
  clique_lift_of lib r 3 down rook = Ok K /\ clique_lift_of lib r 3 down shrikhande = Ok K' /\
  length layers = 1 /\ from_complex_list [K; K'] 3 = Ok b /\
  net_forward Zops (sparse_cin Zops 3 layers None RAdd (seq 0 4) lin1 false (fun v => v)) b = Ok ([v; v'], bo) /\ v <> v' /\
  forall (V : Type) (o : ops V) (emb : Z -> V) (gin : gin_net V), ops_ok o ->
    exists b b' w, batch_graphs [embed emb rook] = Ok b /\ batch_graphs [embed emb shrikhande] = Ok b' /\
      gin_forward o gin b = Ok [w] /\ gin_forward o gin b' = Ok [w].
Proof.
  intros Hlib.
  assert (HI : forall g, regular g 16 6 1%Z -> clique_input lib (g_x g) (g_edges g) (length (g_x g)) 3 None /\ nonneg_graph g).
  { intros g (HX & HG & _). assert (HL : length (g_x g) = 16) by (rewrite HX; apply repeat_length). split.
    - rewrite HL. split; [exact HG|lia|exact HL|exact I|apply Hlib].
    - unfold nonneg_graph. rewrite HX. apply Forall_forall. intros v Hv. apply repeat_spec in Hv. lia. }
  destruct (C59_clique_counts lib r 3 down [rook; shrikhande] 3) as (ks & layers & lin1 & b & vs & bo & H1 & H2 & H3 & H4 & H5 & H6).
  { discriminate. } { constructor; [exact (HI rook rook_regular)|constructor; [exact (HI shrikhande shrikhande_regular)|constructor]]. }
  inversion H1 as [|? K ? ks' E1 H1' ]; subst. inversion H1' as [|? K' ? ks'' E2 H1'']; subst. inversion H1''; subst.
  destruct vs as [|v [|v' [|]]]; try discriminate H5. exists K, K', layers, lin1, b, v, v', bo.
  split; auto. split; auto. split; auto. split; auto. split; auto. split.
  - intros <-.
    pose proof (H6 0 1 rook shrikhande v eq_refl eq_refl eq_refl eq_refl 3 _ _ (le_n 3) ltac:(cbn; lia)
      (find_cliques (g_edges rook) 16 3 (proj1 (proj2 rook_regular))) (find_cliques (g_edges shrikhande) 16 3 (proj1 (proj2 shrikhande_regular)))) as E.
    vm_compute in E. discriminate E.
  - intros V o emb gin Ho. apply (C59_regular_blind o Ho emb gin rook shrikhande 16 6 1%Z); auto; [lia|apply rook_regular|apply shrikhande_regular].
Qed.

Example C59_strongly_regular_example := C59_strongly_regular (any_lib true) RAdd true (any_lib_ok true).

(** The hexagon and the two triangles again. *)
Lemma find_cycles lib isos set_order (x : list Z) es n y k : ring_input lib isos set_order x es n y k -> lists_cycles es k (rings_of isos set_order es k).
Proof.
  intros HI. destruct (rings_facts lib isos set_order x es n y k HI) as (R1 & R2 & R3). split; [|split].
  - intros s Hs. apply R2 in Hs. split; [tauto|lia].
  - auto.
  - intros i j s t Hi Hj HS. apply (proj1 (NoDup_nth_error _) R1).
    + rewrite map_length. apply nth_error_Some. congruence.
    + rewrite !nth_error_map, Hi, Hj. cbn. f_equal. apply same_sort; auto; [apply (R2 s)|apply (R2 t)]; eapply nth_error_In; eauto.
Qed.
Example C59_ring_counts_example : exists ks layers lin1 b v v' bo,
  Forall2 (fun g K => ring_lift_of (any_lib true) (ref_isos 6) (@rev _) RAdd 6 false g = Ok K) [hex; tri] ks /\ length layers = 1 /\
  from_complex_list ks 2 = Ok b /\
  net_forward Zops (sparse_cin Zops 2 layers None RAdd (seq 0 3) lin1 false (fun v => v)) b = Ok ([v; v'], bo) /\ v <> v'.
Proof.
  destruct (C59_ring_counts (any_lib true) (ref_isos 6) (@rev _) RAdd 6 false [hex; tri] 2) as (ks & layers & lin1 & b & vs & bo & H1 & H2 & H3 & H4 & H5 & H6).
  { discriminate. } { lia. }
  { constructor; [|constructor; [|constructor]]; (split; [|unfold nonneg_graph; repeat constructor; lia]); [apply hex_ring|apply tri_ring]. }
  destruct vs as [|v [|v' [|]]]; try discriminate H5. exists ks, layers, lin1, b, v, v', bo.
  split; auto. split; auto. split; auto. split; auto. intros <-.
  pose proof (H6 0 1 hex tri v eq_refl eq_refl eq_refl eq_refl _ _ (find_cycles _ _ _ _ _ _ _ _ (hex_ring true)) (find_cycles _ _ _ _ _ _ _ _ (tri_ring true))) as E.
  apply Permutation_length in E. rewrite !map_length in E.
  assert (E1 : length (rings_of (ref_isos 6) (@rev _) (g_edges hex) 6) = 1) by (vm_compute; reflexivity).
  assert (E2 : length (rings_of (ref_isos 6) (@rev _) (g_edges tri) 6) = 2) by (vm_compute; reflexivity). lia.
Qed.

Print Assumptions C59_clique_counts.
Print Assumptions C59_ring_counts.
Print Assumptions C59_regular_blind.
Print Assumptions C59_strongly_regular.
