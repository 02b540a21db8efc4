(** TU data sets: C42, C43 and the colliding paths of TUDataset (C33). *)
From Coq Require Import String List Arith ZArith Bool Lia Permutation Sorted.
From Verif Require Import Base ScatterModel ScatterSpec LiftSpec RingModel TUModel TUSpec TUProofs CacheModel.
Import ListNotations.
Open Scope nat_scope.

Lemma Forall2_nth_r_local {A B} {P : A -> B -> Prop} {l l'} : Forall2 P l l' ->
  forall i b, nth_error l' i = Some b -> exists a, nth_error l i = Some a /\ P a b.
Proof. intros H. induction H as [|a b l l' Hab H IH]; intros [|i] c Hc; try discriminate; simpl in *; eauto. inversion Hc; subst. eauto. Qed.
Lemma Forall2_nth_l_local {A B} {P : A -> B -> Prop} {l l'} : Forall2 P l l' ->
  forall i a, nth_error l i = Some a -> exists b, nth_error l' i = Some b /\ P a b.
Proof. intros H. induction H as [|a b l l' Hab H IH]; intros [|i] c Hc; try discriminate; simpl in *; eauto. inversion Hc; subst. eauto. Qed.

Lemma file_read_ok ds f : Forall doc_ok ds ->
  exists ss labels ls feat, read_file (file_lines ds ++ f) = Ok (ss, labels) /\ Forall2 read_as ds ss /\
    num_ok (map d_label ds) ls labels /\
    num_ok (flat_map (fun d => map n_tag (d_nodes d)) ds) (flat_map s_tags ss) feat.
Proof.
  intros HD. unfold read_file, file_lines. cbn [app readline int_of bind]. rewrite Nat2Z.id.
  destruct (read_graphs_ok f ds [] [] [] [] [] [] HD num_ok_nil num_ok_nil) as (ss & labels & ls & feat & E & HF & HL & HT).
  exists ss, labels, ls, feat. auto.
Qed.

Lemma flat_tags ss gs : map u_tags gs = map s_tags ss -> flat_map u_tags gs = flat_map s_tags ss.
Proof. intros H. rewrite !flat_map_concat_map, H. auto. Qed.

Lemma read_and_link ds f : Forall doc_ok ds ->
  exists ss labels gs t, read_file (file_lines ds ++ f) = Ok (ss, labels) /\ Forall2 read_as ds ss /\
    mapM (add_edge_mat labels) ss = Ok gs /\ Forall2 tu_ok ds gs /\
    numbered (map d_label ds) (map u_label gs) (length labels) /\
    numbered (flat_map (fun d => map n_tag (d_nodes d)) ds) (flat_map u_tags gs) t /\ map u_tags gs = map s_tags ss.
Proof.
  intros HD. destruct (file_read_ok ds f HD) as (ss & labels & ls & feat & E & HF & HL & HT).
  pose proof (nb_len _ _ _ (no_numbered _ _ _ HL)) as Ll. rewrite map_length in Ll.
  destruct (add_all_ok labels ds ss ls HD HF Ll) as (gs & Eg & Tg & Lg & Ug).
  { intros i d l Hd Hi. apply (no_find _ _ _ HL). exists i. rewrite nth_error_map, Hd. auto. }
  exists ss, labels, gs, (length feat). split; auto. split; auto. split; auto. split; auto.
  split; [rewrite Lg; apply (no_numbered _ _ _ HL)|]. split; [|auto].
  rewrite (flat_tags ss gs Ug). apply (no_numbered _ _ _ HT).
Qed.

(** What [load_data] returns for a document, apart from the features. *)
Definition structure (d : doc) (g : tu_graph) : Prop :=
  u_size g = length (d_nodes d) /\ both_directions d (u_edge_mat g) /\
  (forall v k, v < length (d_nodes d) -> degree_is d v k -> k <= u_max_neighbor g) /\
  exists v, v < length (d_nodes d) /\ degree_is d v (u_max_neighbor g).
Lemma tu_ok_structure d g g' : tu_ok d g -> u_size g' = u_size g -> u_edge_mat g' = u_edge_mat g ->
  u_max_neighbor g' = u_max_neighbor g -> structure d g'.
Proof. intros [A B C D E] H1 H2 H3. unfold structure. rewrite H1, H2, H3. auto. Qed.

Lemma numbered_count raw num k (l : list nat) : numbered raw num k -> Permutation l (nodup Nat.eq_dec num) -> length l = k.
Proof.
  intros HN P. rewrite (Permutation_length P).
  assert (Q : Permutation (nodup Nat.eq_dec num) (seq 0 k)).
  { apply NoDup_Permutation; [apply NoDup_nodup|apply seq_NoDup|]. intros m. rewrite nodup_In, in_seq. split.
    - intros H. apply In_nth_error in H as (i & Hi). apply (nb_bound _ _ _ HN) in Hi. lia.
    - intros H. apply (nb_all _ _ _ HN). lia. }
  rewrite (Permutation_length Q), seq_length. auto.
Qed.

(** C42: node tags as features. *)
Theorem C42_load_data_partial : forall ds order rest, Forall doc_ok ds ->
  (forall l, NoDup l -> Permutation (order l) l) ->
  exists gs classes tags column, load_data order false (file_lines ds ++ rest) = Ok (gs, classes) /\
    Forall2 structure ds gs /\
    numbered (map d_label ds) (map u_label gs) classes /\
    numbered (flat_map (fun d => map n_tag (d_nodes d)) ds) (flat_map u_tags gs) tags /\
    (forall a b, a < tags -> b < tags -> column a = column b -> a = b) /\
    forall g, In g gs -> length (u_tags g) = u_size g /\ length (u_x g) = u_size g /\
      forall v tag row, nth_error (u_tags g) v = Some tag -> nth_error (u_x g) v = Some row -> hot_at tags (column tag) row.
Proof.
  intros ds order rest HD HO.
  destruct (read_and_link ds rest HD) as (ss & labels & gs & t & E & HF & Eg & Tg & NL & NT & _).
  unfold load_data. rewrite E. cbn [bind]. rewrite Eg. cbn [bind]. rewrite tag_features_ok by auto. cbn [bind].
  set (tagset := order (nodup Nat.eq_dec (flat_map u_tags gs))).
  assert (PT : Permutation tagset (nodup Nat.eq_dec (flat_map u_tags gs))) by (apply HO, NoDup_nodup).
  assert (LT : length tagset = t) by (eapply numbered_count; eauto).
  assert (IT : forall a, a < t -> In a tagset).
  { intros a Ha. eapply Permutation_in; [apply Permutation_sym, PT|]. apply nodup_In, (nb_all _ _ _ NT). auto. }
  eexists _, _, t, (place tagset). split; [reflexivity|]. split; [|split; [|split; [|split]]].
  - generalize tagset. intros ts. clear -Tg. induction Tg as [|d g ds gs Hg Tg IH]; simpl; constructor; auto.
    apply (tu_ok_structure d g); auto.
  - rewrite map_map. exact NL.
  - match goal with |- numbered _ (flat_map u_tags (map ?f gs)) _ =>
      assert (X : flat_map u_tags (map f gs) = flat_map u_tags gs) by (rewrite !flat_map_concat_map, map_map; reflexivity)
    end. rewrite X. exact NT.
  - intros a b Ha Hb. apply place_inj; auto.
  - intros g Hg. apply in_map_iff in Hg as (g0 & <- & Hg0). cbn [u_tags u_size u_x].
    assert (X : exists d, tu_ok d g0).
    { apply In_nth_error in Hg0 as (i & Hi). destruct (Forall2_nth_r_local Tg i g0 Hi) as (d & _ & Hd). eauto. }
    destruct X as (d & Hd). rewrite map_length, (to_tags _ _ Hd), (to_size _ _ Hd). split; auto. split; auto.
    intros v tag row Hv Hr. rewrite nth_error_map, Hv in Hr. simpl in Hr. inversion Hr. rewrite LT. apply one_hot_at.
    rewrite <- LT. apply place_lt. apply IT. rewrite <- LT.
    assert (In tag (flat_map u_tags gs)) by (apply in_flat_map; exists g0; split; auto; eapply nth_error_In; eauto).
    apply In_nth_error in H as (i & Hi). rewrite LT. apply (nb_bound _ _ _ NT i). auto.
Qed.

(** ** Degrees *)
Lemma sorted_nth (l : list nat) : StronglySorted lt l -> forall i j a b, nth_error l i = Some a -> nth_error l j = Some b -> i < j -> a < b.
Proof.
  intros H. induction H as [|x l Hl IH Hx]; intros i j a b Hi Hj L; [destruct i; discriminate|].
  destruct j as [|j]; [lia|]. destruct i as [|i].
  - simpl in Hi. inversion Hi; subst. rewrite Forall_forall in Hx. apply Hx. simpl in Hj. eapply nth_error_In; eauto.
  - simpl in Hi, Hj. eapply IH; eauto. lia.
Qed.
Lemma place_mono l a b : StronglySorted lt l -> In a l -> In b l -> a < b -> place l a < place l b.
Proof.
  intros HS Ha Hb L. pose proof (place_nth l a Ha) as A. pose proof (place_nth l b Hb) as B.
  destruct (Nat.lt_trichotomy (place l a) (place l b)) as [X|[X|X]]; auto.
  - rewrite X in A. assert (a = b) by congruence. lia.
  - pose proof (sorted_nth l HS _ _ _ _ B A X). lia.
Qed.
Lemma seq_sorted k : forall s, StronglySorted lt (seq s k).
Proof. induction k as [|k IH]; intros s; simpl; constructor; auto. apply Forall_forall. intros x Hx. apply in_seq in Hx. lia. Qed.
Lemma filter_sorted (f : nat -> bool) l : StronglySorted lt l -> StronglySorted lt (filter f l).
Proof.
  intros H. induction H as [|x l Hl IH Hx]; simpl; [constructor|]. destruct (f x); auto. constructor; auto.
  apply Forall_forall. intros y Hy. apply filter_In in Hy as [Hy _]. rewrite Forall_forall in Hx. auto.
Qed.
Lemma unique_sorted l : StronglySorted lt (unique l).
Proof. apply filter_sorted, seq_sorted. Qed.
Lemma unique_In l d : In d (unique l) <-> In d l.
Proof.
  unfold unique. rewrite filter_In, existsb_exists, in_seq. split.
  - intros [_ (x & Hx & E)]. apply Nat.eqb_eq in E. subst. auto.
  - intros H. split; [|exists d; rewrite Nat.eqb_refl; auto]. pose proof (list_max_ge l d H). lia.
Qed.

Lemma encode_ok u idx gs : (forall g, In g gs -> length (node_degrees g) = length (u_x g)) ->
  encode_degrees u (flat_map (fun g => map idx (node_degrees g)) gs) gs =
  map (fun g => mkTUG (u_size g) (u_label g) (u_tags g) (u_max_neighbor g) (u_edge_mat g)
    (map (fun d => one_hot (length u) (idx d)) (node_degrees g))) gs.
Proof.
  induction gs as [|g gs IH]; intros H; auto. cbn [flat_map encode_degrees map].
  specialize (IH (fun g' H' => H g' (or_intror H'))).
  pose proof (H g (or_introl eq_refl)) as L. rewrite <- L.
  assert (F : firstn (length (node_degrees g)) (map idx (node_degrees g)) = map idx (node_degrees g)).
  { rewrite <- (map_length idx). apply firstn_all. }
  assert (K : skipn (length (node_degrees g)) (map idx (node_degrees g)) = []).
  { rewrite <- (map_length idx). apply skipn_all. }
  rewrite firstn_app, skipn_app, map_length, Nat.sub_diag, F, K. cbn [firstn skipn app].
  rewrite app_nil_r, IH, map_map. auto.
Qed.

(** Degrees of the nodes, when the last node has an edge. *)
Lemma node_degrees_ok d g : doc_ok d -> both_directions d (u_edge_mat g) ->
  (exists v, linked d (length (d_nodes d) - 1) v) ->
  node_degrees g = map (fun v => out v (u_edge_mat g)) (seq 0 (length (d_nodes d))).
Proof.
  intros HD BD (w & Hw). unfold node_degrees.
  assert (Hin : In (length (d_nodes d) - 1, w) (u_edge_mat g)).
  { apply occ_In. destruct (Nat.eq_dec (length (d_nodes d) - 1) w) as [E|N].
    - rewrite <- E in *. rewrite (bd_loop _ _ BD); auto.
    - rewrite (bd_edge _ _ BD); auto. }
  pose proof (linked_lt _ _ _ HD Hw) as [L _].
  destruct (u_edge_mat g) as [|e es] eqn:E; [destruct Hin|]. rewrite <- E in *. unfold pyg_degree.
  replace (S (list_max (map fst (u_edge_mat g)))) with (length (d_nodes d)); auto.
  assert (M1 : length (d_nodes d) - 1 <= list_max (map fst (u_edge_mat g))).
  { apply list_max_ge. apply in_map_iff. exists (length (d_nodes d) - 1, w). auto. }
  assert (M2 : In (list_max (map fst (u_edge_mat g))) (map fst (u_edge_mat g))).
  { apply list_max_in. rewrite E. discriminate. }
  apply in_map_iff in M2 as ([a b] & Ea & Hab). apply (bd_only _ _ BD) in Hab. apply (linked_lt _ _ _ HD) in Hab as [La _].
  simpl in Ea. lia.
Qed.

(** C42: degrees as features, when the last node of every graph has an edge. *)
Theorem C42_degree_as_tag_partial : forall ds order rest, ds <> [] -> Forall doc_ok ds ->
  Forall (fun d => exists v, linked d (length (d_nodes d) - 1) v) ds ->
  (forall l, NoDup l -> Permutation (order l) l) ->
  exists gs classes columns column, load_data order true (file_lines ds ++ rest) = Ok (gs, classes) /\
    Forall2 structure ds gs /\
    numbered (map d_label ds) (map u_label gs) classes /\
    Forall2 (fun d g => length (u_x g) = length (d_nodes d) /\
      forall v k row, nth_error (u_x g) v = Some row -> degree_is d v k -> hot_at columns (column k) row) ds gs /\
    (forall d d' v v' k k', In d ds -> In d' ds -> v < length (d_nodes d) -> v' < length (d_nodes d') ->
       degree_is d v k -> degree_is d' v' k' -> k < k' -> column k < column k') /\
    forall i, i < columns -> exists d v k, In d ds /\ v < length (d_nodes d) /\ degree_is d v k /\ column k = i.
Proof.
  intros ds order rest Hne HD HC HO.
  destruct (read_and_link ds rest HD) as (ss & labels & gs & t & E & HF & Eg & Tg & NL & NT & _).
  unfold load_data. rewrite E. cbn [bind]. rewrite Eg. cbn [bind].
  set (gs1 := map _ (combine ss gs)).
  rewrite tag_features_ok by auto. cbn [bind].
  set (tagset := order (nodup Nat.eq_dec (flat_map u_tags gs1))). cbv zeta.
  set (gs2 := map _ gs1).
  assert (H2 : Forall2 (fun d g => structure d g /\ length (u_x g) = length (d_nodes d) /\
     node_degrees g = map (fun v => out v (u_edge_mat g)) (seq 0 (length (d_nodes d)))) ds gs2 /\ map u_label gs2 = map u_label gs).
  { unfold gs2, gs1. generalize tagset. intros ts. clear -HD HF Tg HC. revert gs Tg. induction HF as [|d s ds ss Hs HF IH]; intros gs Tg.
    - inversion Tg; subst. simpl. split; [constructor|auto].
    - inversion Tg as [|? g ? gs' Hg Tg']; subst. inversion HD; inversion HC; subst.
      destruct (IH H2 H6 gs' Tg') as [A B].
      simpl. split; [|f_equal; exact B]. constructor; [|exact A]. split; [|split].
      + apply (tu_ok_structure d g); auto.
      + cbn [u_x u_tags]. rewrite map_length. unfold nx_degrees. rewrite map_length. apply Hs.
      + apply node_degrees_ok; auto. apply (to_edges _ _ Hg). }
  destruct H2 as [H2 HL2]. clearbody gs2.
  assert (Ne2 : gs2 <> []). { intros X. rewrite X in H2. inversion H2; subst. congruence. }
  unfold degree_features. destruct gs2 as [|g2 r2] eqn:E2; [congruence|]. rewrite <- E2 in *. clear Ne2 E2 g2 r2.
  set (degs := flat_map node_degrees gs2).
  assert (Ecorr : mapM (fun d => match index_of d (unique degs) with Some i => Ok i | None => Err KeyError end) degs =
    Ok (map (place (unique degs)) degs)).
  { apply mapM_map. intros d Hd. unfold place. destruct (index_of_some d (unique degs)) as (i & -> & _); auto. apply unique_In. auto. }
  rewrite Ecorr. cbn [bind].
  assert (Hlen : forall g, In g gs2 -> length (node_degrees g) = length (u_x g)).
  { intros g Hg. apply In_nth_error in Hg as (i & Hi). destruct (Forall2_nth_r_local H2 i g Hi) as (d & _ & (_ & A & B)).
    rewrite A, B, map_length, seq_length. auto. }
  replace (map (place (unique degs)) degs) with (flat_map (fun g => map (place (unique degs)) (node_degrees g)) gs2).
  2: { unfold degs. rewrite !flat_map_concat_map, concat_map, map_map. auto. }
  rewrite (encode_ok (unique degs) (place (unique degs)) gs2 Hlen).
  assert (Hdeg : forall d v k, In d ds -> v < length (d_nodes d) -> degree_is d v k -> In k degs).
  { intros d v k Hd Hv Hk. apply In_nth_error in Hd as (i & Hi). destruct (Forall2_nth_l_local H2 i d Hi) as (g & Hg & (SG & _ & B)).
    apply in_flat_map. exists g. split; [eapply nth_error_In; eauto|]. rewrite B. apply in_map_iff. exists v.
    split; [|apply in_seq; lia]. apply (degree_unique d v); auto. apply out_degree. apply SG. }
  eexists _, _, (length (unique degs)), (place (unique degs)). split; [reflexivity|].
  split; [|split; [|split; [|split]]].
  - generalize (unique degs). intros ts. clear -H2. induction H2 as [|d g ds gs (Hg & _) H2 IH]; simpl; constructor; auto.
  - rewrite map_map. change (numbered (map d_label ds) (map u_label gs2) (length labels)). rewrite HL2. exact NL.
  - assert (G : forall g, In g gs2 -> forall k, In k (node_degrees g) -> In k degs).
    { intros g Hg k Hk. apply in_flat_map. eauto. }
    clear Hdeg Hlen Ecorr. revert G. generalize degs. intros D G.
    clear -H2 G. induction H2 as [|d g ds gs (Hg & Lx & Nd) H2 IH]; simpl; constructor; auto.
    + cbn [u_x]. rewrite map_length, Nd, map_length, seq_length. split; auto.
      intros v k row Hr Hk. rewrite nth_error_map in Hr.
      destruct (nth_error (map (fun v0 => out v0 (u_edge_mat g)) (seq 0 (length (d_nodes d)))) v) as [k'|] eqn:Ek; [|discriminate].
      simpl in Hr. inversion Hr. clear Hr.
      assert (Ik : In k' (unique D)).
      { apply unique_In. apply (G g); [left; auto|]. rewrite Nd. eapply nth_error_In; eauto. }
      assert (k' = k).
      { rewrite nth_error_map in Ek. destruct (nth_error (seq 0 (length (d_nodes d))) v) as [q|] eqn:Eq; [|discriminate].
        assert (Lv : v < length (d_nodes d)) by (rewrite <- (seq_length (length (d_nodes d)) 0); apply nth_error_Some; congruence).
        apply nth_error_nth with (d := 0) in Eq. rewrite seq_nth in Eq by auto. simpl in Eq. subst q. simpl in Ek. inversion Ek.
        apply (degree_unique d v); auto. apply out_degree. apply Hg. }
      subst k'. apply one_hot_at. apply place_lt. auto.
    + apply IH. intros g' Hg'. apply G. right; auto.
  - intros d d' v v' k k' Hd Hd' Hv Hv' Hk Hk' L. apply place_mono; auto.
    + apply unique_sorted.
    + apply unique_In. apply (Hdeg d v k); auto.
    + apply unique_In. apply (Hdeg d' v' k'); auto.
  - intros i Hi. destruct (nth_error (unique degs) i) as [k|] eqn:Ek; [|apply nth_error_None in Ek; lia].
    assert (Ik : In k (unique degs)) by (eapply nth_error_In; eauto). pose proof (proj1 (unique_In _ _) Ik) as Jk.
    apply in_flat_map in Jk as (g & Hg & Hk). apply In_nth_error in Hg as (j & Hj).
    destruct (Forall2_nth_r_local H2 j g Hj) as (d & Hd & (SG & _ & B)). rewrite B in Hk.
    apply in_map_iff in Hk as (v & Ev & Hv). apply in_seq in Hv. exists d, v, k. split; [eapply nth_error_In; eauto|].
    split; [lia|]. split; [rewrite <- Ev; apply out_degree, SG|].
    assert (ND : NoDup (unique degs)).
    { unfold unique. apply NoDup_filter, seq_NoDup. }
    apply (proj1 (NoDup_nth_error (unique degs)) ND); [apply place_lt; auto|]. rewrite Ek. apply place_nth. auto.
Qed.

(** ** The torch_geometric graphs *)
Theorem C42_pyg : forall ds order rest, Forall doc_ok ds -> (forall l, NoDup l -> Permutation (order l) l) ->
  exists gs classes, load_data order false (file_lines ds ++ rest) = Ok (gs, classes) /\
    Forall2 (fun d p => p_num_nodes p = length (d_nodes d) /\ length (p_x p) = length (d_nodes d) /\
      graph_ok (p_edge_index p) (length (d_nodes d)) /\ exists y, p_y p = [y] /\ y < classes) ds (map to_pyg gs).
Proof.
  intros ds order rest HD HO.
  destruct (C42_load_data_partial ds order rest HD HO) as (gs & cl & t & p & E & HS & NL & _ & _ & HX).
  exists gs, cl. split; auto.
  assert (HB : forall g, In g gs -> u_label g < cl).
  { intros g Hg. apply In_nth_error in Hg as (i & Hi). apply (nb_bound _ _ _ NL i). rewrite nth_error_map, Hi. auto. }
  clear -HD HS HX HB. induction HS as [|d g ds gs Hg HS IH]; simpl; constructor.
  - destruct (HX g (or_introl eq_refl)) as (_ & Lx & _). destruct Hg as (Sz & BD & _). inversion HD; subst.
    cbn [to_pyg p_num_nodes p_x p_edge_index p_y]. rewrite Lx, Sz. split; auto. split; auto. split.
    + intros u v Huv. apply (linked_lt d); auto. apply (bd_only _ _ BD). auto.
    + eexists. split; [reflexivity|]. apply HB. left; auto.
  - inversion HD; subst. apply IH; auto; intros; [apply HX|apply HB]; right; auto.
Qed.

(** A check for examples. *)
Definition doc_okb (d : doc) : bool :=
  forallb (fun nd => forallb (fun v => v <? length (d_nodes d)) (n_nbrs nd)) (d_nodes d) &&
  existsb (fun nd => negb (length (n_nbrs nd) =? 0)) (d_nodes d).
Lemma doc_okb_ok ds : forallb doc_okb ds = true -> Forall doc_ok ds.
Proof.
  intros H. apply Forall_forall. intros d Hd. rewrite forallb_forall in H. specialize (H d Hd).
  apply andb_true_iff in H as [H1 H2]. split.
  - intros u v (nd & A & B). rewrite forallb_forall in H1. specialize (H1 nd (nth_error_In _ _ A)).
    rewrite forallb_forall in H1. specialize (H1 v B). apply Nat.ltb_lt in H1. auto.
  - apply existsb_exists in H2 as (nd & A & B). apply In_nth_error in A as (u & Hu).
    destruct (n_nbrs nd) as [|v r] eqn:E; [discriminate|]. exists u, v, nd. split; auto. rewrite E. left; auto.
Qed.

(** ** What happens without the premises *)
(** A graph without edges makes the loader raise. *)
Theorem C42_edgeless_refuted : forall order, load_data order false (file_lines [mkDoc 1 [mkNode 4 [] []]]) = Err IndexError.
Proof. intros. reflexivity. Qed.

(** With degrees as tags, the tags of a graph are the degrees of its nodes, but in the order in which networkx met the nodes. *)
Lemma degrees_ok d g : doc_ok d -> nx_ok g (doc_node d) (doc_rel d) -> length g = length (d_nodes d) ->
  exists ns, Permutation ns (seq 0 (length (d_nodes d))) /\ Forall2 (degree_is d) ns (nx_degrees g).
Proof.
  intros HD HG Lg. exists (map (fun p => Z.to_nat (fst p)) g). split.
  - apply NoDup_Permutation_bis.
    + apply (NoDup_map_inv Z.of_nat). rewrite map_map.
      rewrite (map_ext_in _ fst); [apply (nx_keys _ _ _ HG)|]. intros [u nb] Hin. cbn.
      pose proof (proj1 (nx_nodes _ _ _ HG u) (in_map fst _ _ Hin)) as (v & -> & _). rewrite Nat2Z.id. auto.
    + rewrite map_length, seq_length. lia.
    + intros v Hv. apply in_map_iff in Hv as ([u nb] & <- & Hin). cbn.
      pose proof (proj1 (nx_nodes _ _ _ HG u) (in_map fst _ _ Hin)) as (v & -> & Hv). rewrite Nat2Z.id. apply in_seq. lia.
  - assert (G : forall p, In p g -> degree_is d (Z.to_nat (fst p)) (length (snd p) + (if mem (fst p) (snd p) then 1 else 0))).
    { intros [u nb] Hin. cbn [fst snd].
      pose proof (proj1 (nx_nodes _ _ _ HG u) (in_map fst _ _ Hin)) as (v & -> & Hv). rewrite Nat2Z.id.
      destruct (nx_nbrs _ _ _ HG _ _ Hin) as [Nn Hn].
      assert (Hz : forall w, In w (map Z.to_nat nb) <-> linked d v w).
      { intros w. rewrite in_map_iff. split.
        - intros (z & <- & Hz). apply Hn in Hz as (a & b & E1 & E2 & HL). apply Nat2Z.inj in E1. subst a z. rewrite Nat2Z.id. auto.
        - intros HL. exists (Z.of_nat w). split; [apply Nat2Z.id|]. apply Hn. exists v, w. auto. }
      exists (map Z.to_nat nb). split; [|split; [exact Hz|]].
      - apply (NoDup_map_inv Z.of_nat). rewrite map_map, (map_ext_in _ (fun z => z)), map_id; auto.
        intros z Hz'. apply Hn in Hz' as (a & b & _ & -> & _). rewrite Nat2Z.id. auto.
      - rewrite map_length. destruct (mem (Z.of_nat v) nb) eqn:M.
        + left. apply mem_In, Hn in M as (a & b & E1 & E2 & HL). apply Nat2Z.inj in E1, E2. subst a b. auto.
        + right. apply mem_false in M. split; [|lia]. intros HL. apply M, Hn. exists v, v. auto. }
    clear -G. unfold nx_degrees. induction g as [|p g IH]; cbn [map]; constructor.
    + apply G. left; auto.
    + apply IH. intros q Hq. apply G. right; auto.
Qed.
Lemma encode_tags u gs : forall c, map u_tags (encode_degrees u c gs) = map u_tags gs.
Proof. induction gs as [|g gs IH]; intros c; cbn [encode_degrees map]; auto. rewrite IH. auto. Qed.
Theorem C42_degree_tags : forall ds order rest, ds <> [] -> Forall doc_ok ds -> (forall l, NoDup l -> Permutation (order l) l) ->
  exists gs classes, load_data order true (file_lines ds ++ rest) = Ok (gs, classes) /\
    Forall2 (fun d g => exists ns, Permutation ns (seq 0 (length (d_nodes d))) /\ Forall2 (degree_is d) ns (u_tags g)) ds gs.
Proof.
  intros ds order rest Hne HD HO.
  destruct (read_and_link ds rest HD) as (ss & labels & gs & t & E & HF & Eg & Tg & NL & NT & _).
  unfold load_data. rewrite E. cbn [bind]. rewrite Eg. cbn [bind].
  set (gs1 := map _ (combine ss gs)).
  rewrite tag_features_ok by auto. cbn [bind].
  set (tagset := order (nodup Nat.eq_dec (flat_map u_tags gs1))). cbv zeta.
  set (gs2 := map _ gs1).
  assert (H2 : Forall2 (fun d ts => exists ns, Permutation ns (seq 0 (length (d_nodes d))) /\ Forall2 (degree_is d) ns ts) ds (map u_tags gs2)).
  { unfold gs2, gs1. rewrite !map_map. generalize tagset. intros ts. clear -HD HF Tg. revert gs Tg. induction HF as [|d s ds ss Hs HF IH]; intros gs Tg.
    - inversion Tg; subst. constructor.
    - inversion Tg as [|? g ? gs' Hg Tg']; subst. inversion HD; subst. cbn [combine map]. constructor; [|apply IH; auto].
      cbn [u_tags fst]. apply degrees_ok; auto; apply Hs. }
  assert (Ne2 : gs2 <> []). { intros X. rewrite X in H2. inversion H2; subst. congruence. }
  unfold degree_features. destruct gs2 as [|g2 r2] eqn:E2; [congruence|]. rewrite <- E2 in *.
  set (degs := flat_map node_degrees gs2).
  assert (Ecorr : mapM (fun d => match index_of d (unique degs) with Some i => Ok i | None => Err KeyError end) degs =
    Ok (map (place (unique degs)) degs)).
  { apply mapM_map. intros d Hd. unfold place. destruct (index_of_some d (unique degs)) as (i & -> & _); auto. apply unique_In. auto. }
  rewrite Ecorr. cbn [bind]. eexists _, _. split; [reflexivity|].
  rewrite <- (encode_tags (unique degs) gs2 (map (place (unique degs)) degs)) in H2.
  clear -H2. remember (map u_tags _) as l eqn:El. revert El. generalize (encode_degrees (unique degs) (map (place (unique degs)) degs) gs2).
  induction H2 as [|d ts ds l H H2 IH]; intros rs El; destruct rs as [|g rs]; try discriminate; constructor.
  - cbn in El. inversion El; subst. auto.
  - cbn in El. inversion El; subst. apply IH. auto.
Qed.
(** The order is not that of the nodes: with the path 0 - 2 - 1 networkx meets node 2 before node 1. *)
Definition met_early : list doc := [mkDoc 0 [mkNode 0 [2] []; mkNode 0 [2] []; mkNode 0 [2] []]].
Lemma met_early_ok : Forall doc_ok met_early.
Proof. apply doc_okb_ok. reflexivity. Qed.
Theorem C42_degree_tags_refuted : exists ds gs classes, Forall doc_ok ds /\
  load_data (fun l => l) true (file_lines ds) = Ok (gs, classes) /\ map u_tags gs = [[1; 4; 1]] /\
  Forall (fun d => degree_is d 2 4 /\ degree_is d 1 1) ds.
Proof.
  exists met_early. eexists _, _. split; [apply met_early_ok|]. split; [vm_compute; reflexivity|]. split; [reflexivity|].
  constructor; [|constructor]. split.
  - exists [0; 1; 2]. split; [repeat constructor; cbn; intuition lia|]. split.
    + intros w. split.
      * intros [<-|[<-|[<-|[]]]]; right; (eexists; split; [reflexivity|cbn; auto]).
      * intros [(nd & H & Hin)|(nd & H & Hin)].
        -- cbn in H. inversion H; subst. cbn in Hin. destruct Hin as [<-|[]]. cbn; auto.
        -- destruct w as [|[|[|w]]]; cbn; auto. cbn in H. destruct w; discriminate.
    + left. split; auto. left. eexists. split; [reflexivity|]. cbn; auto.
  - exists [2]. split; [repeat constructor; cbn; tauto|]. split.
    + intros w. split.
      * intros [<-|[]]. left. eexists. split; [reflexivity|cbn; auto].
      * intros [(nd & H & Hin)|(nd & H & Hin)].
        -- cbn in H. inversion H; subst. exact Hin.
        -- destruct w as [|[|[|w]]]; cbn in H; try (inversion H; subst; cbn in Hin; destruct Hin as [X|[]]; discriminate). destruct w; discriminate.
    + right. split; auto. intros [(nd & H & Hin)|(nd & H & Hin)]; cbn in H; inversion H; subst; cbn in Hin; destruct Hin as [X|[]]; discriminate.
Qed.
Example C42_degree_tags_example := C42_degree_tags met_early (@List.rev nat) [] ltac:(discriminate) met_early_ok (fun l _ => Permutation_sym (Permutation_rev l)).

(** With degrees as tags and an isolated last node, every later degree is attached to the wrong node:
    here the isolated node of the first graph gets the row of degree 2, and the triangle is left with
    two rows for three nodes. *)
Definition trailing : list doc :=
  [mkDoc 0 [mkNode 0 [1] []; mkNode 0 [0] []; mkNode 0 [] []];
   mkDoc 1 [mkNode 0 [1; 2] []; mkNode 0 [0; 2] []; mkNode 0 [0; 1] []]].
Lemma trailing_ok : Forall doc_ok trailing.
Proof. apply doc_okb_ok. reflexivity. Qed.
Theorem C42_degree_refuted : exists ds gs classes, Forall doc_ok ds /\
  load_data (fun l => l) true (file_lines ds) = Ok (gs, classes) /\
  map u_x gs = [[[1; 0]; [1; 0]; [0; 1]]; [[0; 1]; [0; 1]]]%Z /\ map u_size gs = [3; 3].
Proof.
  exists trailing. eexists _, _. split; [apply trailing_ok|]. split; [vm_compute; reflexivity|]. split; reflexivity.
Qed.

(** ** Examples *)
Definition sample : list doc :=
  [mkDoc 7 [mkNode 30 [2] [TFloat]; mkNode 10 [2; 1] []; mkNode 30 [] [TInt 5; TFloat]];
   mkDoc (-1) [mkNode 20 [1] []; mkNode 10 [0] []]; mkDoc 7 [mkNode 20 [1] []; mkNode 20 [] []]].
Lemma sample_ok : Forall doc_ok sample.
Proof. apply doc_okb_ok. reflexivity. Qed.
Example C42_ex := C42_load_data_partial sample (@List.rev nat) [[TFloat]] sample_ok (fun l _ => Permutation_sym (Permutation_rev l)).
Example C42_ex_degree := C42_degree_as_tag_partial sample (@List.rev nat) [] ltac:(discriminate) sample_ok
  ltac:(repeat constructor; [exists 0; right; exists (mkNode 30 [2] [TFloat])|exists 0; left; exists (mkNode 10 [0] [])|exists 0; right; exists (mkNode 20 [1] [])]; split; simpl; auto)
  (fun l _ => Permutation_sym (Permutation_rev l)).
Example C42_ex_pyg := C42_pyg sample (@List.rev nat) [] sample_ok (fun l _ => Permutation_sym (Permutation_rev l)).
Example C42_ex_value : exists gs, load_data (fun l => l) false (file_lines sample) = Ok (gs, 2) /\
  map u_label gs = [0; 1; 0] /\ map u_tags gs = [[0; 1; 0]; [2; 1]; [2; 2]] /\
  map u_edge_mat gs = [[(0, 2); (2, 1); (1, 1); (2, 0); (1, 2); (1, 1)]; [(0, 1); (1, 0)]; [(0, 1); (1, 0)]] /\
  map u_max_neighbor gs = [3; 1; 1].
Proof. eexists. split; [vm_compute; reflexivity|]. repeat split. Qed.

(** ** C43: folds *)
Lemma partition_perm {A} (f : A -> bool) l : Permutation (filter (fun a => negb (f a)) l ++ filter f l) l.
Proof.
  induction l as [|a l IH]; simpl; auto. destruct (f a); simpl.
  - eapply perm_trans; [apply Permutation_sym, Permutation_middle|]. auto.
  - auto.
Qed.
Lemma classes_perm {A} (key : A -> nat) k : forall l, (forall a, In a l -> key a < k) ->
  Permutation (flat_map (fun i => filter (fun a => key a =? i) l) (seq 0 k)) l.
Proof.
  induction k as [|k IH]; intros l H.
  - destruct l as [|a l]; simpl; auto. specialize (H a (or_introl eq_refl)). lia.
  - rewrite seq_S, flat_map_app. cbn [flat_map plus]. rewrite app_nil_r.
    eapply perm_trans; [|apply (partition_perm (fun a => key a =? k))]. apply Permutation_app_tail.
    eapply perm_trans; [|apply IH].
    + rewrite !flat_map_concat_map. erewrite map_ext_in; [apply Permutation_refl|].
      intros i Hi. apply in_seq in Hi. cbv beta. clear H IH. induction l as [|a l IHl]; auto. simpl.
      destruct (Nat.eqb_spec (key a) i) as [E|E], (Nat.eqb_spec (key a) k) as [E'|E']; simpl; try lia.
      * destruct (Nat.eqb_spec (key a) i); [|lia]. f_equal. auto.
      * auto.
      * destruct (Nat.eqb_spec (key a) i); [lia|]. auto.
    + intros a Ha. apply filter_In in Ha as [Ha N]. specialize (H a Ha). apply negb_true_iff, Nat.eqb_neq in N. lia.
Qed.
Lemma combine_fst {A B} : forall (l : list A) (l' : list B), length l = length l' -> map fst (combine l l') = l.
Proof. induction l as [|a l IH]; intros [|b l'] H; simpl in *; try discriminate; auto. f_equal. apply IH. lia. Qed.

(** Contract of the splitter: a fold number below 10 for every sample. *)
Definition fold_numbers (labels folds : list nat) : Prop :=
  length folds = length labels /\ Forall (fun i => i < 10) folds.

Lemma get_fold_ok assign labels folds fold : assign labels = Ok folds -> (0 <= fold < 10)%Z ->
  get_fold_indices assign labels fold = get (kfold 10 folds) (Z.to_nat fold) /\
  get (kfold 10 folds) (Z.to_nat fold) =
   Ok (map fst (filter (fun p => negb (snd p =? Z.to_nat fold)) (combine (seq 0 (length folds)) folds)),
       map fst (filter (fun p => snd p =? Z.to_nat fold) (combine (seq 0 (length folds)) folds))).
Proof.
  intros E H. unfold get_fold_indices. rewrite E.
  replace ((0 <=? fold) && (fold <? 10))%Z with true by (symmetry; apply andb_true_iff; split; [apply Z.leb_le|apply Z.ltb_lt]; lia).
  split; auto. apply get_ok. unfold kfold. rewrite nth_error_map.
  rewrite (nth_error_nth' _ 0) by (rewrite seq_length; lia). rewrite seq_nth by lia. reflexivity.
Qed.

(** Every fold: the two index lists together are all positions, each once. *)
Theorem C43_fold : forall assign labels folds fold, assign labels = Ok folds -> fold_numbers labels folds ->
  (0 <= fold < 10)%Z ->
  exists train test, get_fold_indices assign labels fold = Ok (train, test) /\
    Permutation (train ++ test) (seq 0 (length labels)) /\ (forall i, In i train -> ~ In i test).
Proof.
  intros assign labels folds fold E [L _] H. destruct (get_fold_ok assign labels folds fold E H) as [E1 E2].
  rewrite E1, E2. eexists _, _. split; [reflexivity|].
  match goal with |- Permutation ?a _ /\ _ => assert (P : Permutation a (seq 0 (length labels))) end.
  { rewrite <- map_app. eapply perm_trans; [apply Permutation_map, partition_perm|].
    rewrite combine_fst by (rewrite seq_length; auto). rewrite L. auto. }
  split; [exact P|].
  intros i Ha Hb. pose proof (Permutation_NoDup (Permutation_sym P) (seq_NoDup _ _)) as N.
  apply in_split in Hb as (b1 & b2 & Eb). rewrite Eb in N. rewrite app_assoc in N. apply NoDup_remove_2 in N. apply N.
  rewrite !in_app_iff. auto.
Qed.

(** The test sets of the ten folds partition the positions. *)
Theorem C43_partition : forall assign labels folds, assign labels = Ok folds -> fold_numbers labels folds ->
  exists tests, mapM (fun i => let* p := get_fold_indices assign labels (Z.of_nat i) in Ok (snd p)) (seq 0 10) = Ok tests /\
    Permutation (concat tests) (seq 0 (length labels)).
Proof.
  intros assign labels folds E [L HB].
  set (pr := combine (seq 0 (length folds)) folds).
  exists (map (fun i => map fst (filter (fun p => snd p =? i) pr)) (seq 0 10)). split.
  - apply mapM_map. intros i Hi. apply in_seq in Hi. destruct (get_fold_ok assign labels folds (Z.of_nat i) E) as [E1 E2]; [lia|].
    rewrite E1, E2. cbn [bind snd]. rewrite Nat2Z.id. reflexivity.
  - assert (Q : concat (map (fun i => map fst (filter (fun p => snd p =? i) pr)) (seq 0 10)) =
      map fst (flat_map (fun i => filter (fun p => snd p =? i) pr) (seq 0 10))).
    { rewrite flat_map_concat_map, concat_map, map_map. reflexivity. }
    rewrite Q. eapply perm_trans; [apply Permutation_map, classes_perm|].
    + intros [a b] H. simpl. apply in_combine_r in H. rewrite Forall_forall in HB. auto.
    + unfold pr. rewrite combine_fst by (rewrite seq_length; auto). rewrite L. auto.
Qed.

Lemma nth_error_ext_local {A} : forall l l' : list A, (forall i, nth_error l i = nth_error l' i) -> l = l'.
Proof.
  induction l as [|a l IH]; intros [|b l'] H; auto; try (specialize (H 0); discriminate).
  f_equal; [specialize (H 0); simpl in H; congruence|]. apply IH. intros i. apply (H (S i)).
Qed.
(** The graphs themselves: every graph is in exactly one of the two lists. *)
Theorem C43_separate : forall A (label : A -> nat) assign gs folds fold, assign (map label gs) = Ok folds ->
  fold_numbers (map label gs) folds -> (0 <= fold < 10)%Z ->
  exists train test, separate_data assign label gs fold = Ok (train, test) /\ Permutation (train ++ test) gs.
Proof.
  intros A label assign gs folds fold E HN H.
  destruct (C43_fold assign _ folds fold E HN H) as (tr & te & E1 & P & _). rewrite map_length in P.
  destruct gs as [|g0 gs'] eqn:Eg.
  - simpl in P. apply Permutation_sym, Permutation_nil in P. apply app_eq_nil in P as [-> ->].
    exists [], []. unfold separate_data. rewrite E1. simpl. auto.
  - rewrite <- Eg in *. clear Eg.
    assert (G : forall l, (forall i, In i l -> i < length gs) -> mapM (get gs) l = Ok (map (fun i => nth i gs g0) l)).
    { intros l Hl. apply mapM_map. intros i Hi. apply get_ok. apply nth_error_nth'. auto. }
    assert (In_ : forall i, In i (tr ++ te) -> i < length gs).
    { intros i Hi. eapply Permutation_in in Hi; [|exact P]. apply in_seq in Hi. lia. }
    exists (map (fun i => nth i gs g0) tr), (map (fun i => nth i gs g0) te). unfold separate_data. rewrite E1. cbn [bind fst snd].
    rewrite !G by (intros i Hi; apply In_, in_app_iff; auto). cbn [bind]. split; auto.
    rewrite <- map_app. eapply perm_trans; [apply Permutation_map, P|].
    replace (map (fun i => nth i gs g0) (seq 0 (length gs))) with gs; auto.
    clear. apply nth_error_ext_local. intros i. rewrite nth_error_map.
    destruct (Nat.lt_ge_cases i (length gs)) as [L|L].
    + rewrite (nth_error_nth' (seq 0 (length gs)) 0) by (rewrite seq_length; auto). rewrite seq_nth by auto. simpl.
      apply nth_error_nth'. auto.
    + rewrite (proj2 (nth_error_None gs i) L). rewrite (proj2 (nth_error_None (seq 0 (length gs)) i)) by (rewrite seq_length; auto). auto.
Qed.
Theorem C43_other_folds : forall assign labels fold, ~ (0 <= fold < 10)%Z ->
  get_fold_indices assign labels fold = Err AssertionError.
Proof.
  intros assign labels fold H. unfold get_fold_indices.
  replace ((0 <=? fold) && (fold <? 10))%Z with false; auto. symmetry. apply andb_false_iff.
  destruct (Z.leb_spec 0 fold); auto. right. apply Z.ltb_ge. lia.
Qed.

Definition rot (labels : list nat) : result (list nat) := Ok (map (fun i => i mod 10) (seq 0 (length labels))).
Lemma rot_ok labels : fold_numbers labels (map (fun i => i mod 10) (seq 0 (length labels))).
Proof. split; [rewrite map_length, seq_length; auto|]. apply Forall_forall. intros x Hx. apply in_map_iff in Hx as (i & <- & _). apply Nat.mod_upper_bound. lia. Qed.
Example C43_ex := C43_partition rot (repeat 1 23) _ eq_refl (rot_ok _).
Example C43_ex_fold : get_fold_indices rot (repeat 1 12) 1 = Ok ([0; 2; 3; 4; 5; 6; 7; 8; 9; 10], [1; 11]).
Proof. reflexivity. Qed.
Example C43_ex_separate : separate_data rot u_label (repeat (mkTUG 1 0 [] 0 [] []) 12) 1 =
  Ok (repeat (mkTUG 1 0 [] 0 [] []) 10, repeat (mkTUG 1 0 [] 0 [] []) 2).
Proof. reflexivity. Qed.

(** ** C33 for TUDataset: degree_as_tag changes the features but not the processed path. *)
Theorem C33_tu_refuted : exists ds o o' r r', Forall doc_ok ds /\ tu_path o = tu_path o' /\
  load_data (fun l => l) (tu_degree o) (file_lines ds) = Ok r /\ load_data (fun l => l) (tu_degree o') (file_lines ds) = Ok r' /\
  map u_x (fst r) <> map u_x (fst r').
Proof.
  exists sample, (mkTU "T"%string 2 true "sum"%string false None), (mkTU "T"%string 2 false "sum"%string false None). eexists _, _.
  split; [apply sample_ok|]. split; [reflexivity|]. split; [vm_compute; reflexivity|]. split; [vm_compute; reflexivity|]. discriminate.
Qed.

Print Assumptions C42_load_data_partial.
Print Assumptions C42_degree_as_tag_partial.
Print Assumptions C42_pyg.
Print Assumptions C42_edgeless_refuted.
Print Assumptions C42_degree_refuted.
Print Assumptions C42_degree_tags.
Print Assumptions C42_degree_tags_refuted.
Print Assumptions C43_fold.
Print Assumptions C43_partition.
Print Assumptions C43_separate.
Print Assumptions C43_other_folds.
Print Assumptions C33_tu_refuted.
