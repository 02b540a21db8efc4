(** Theorems about the synthetic flow data: boundary matrices (C34), trajectories (C35), signed
    adjacencies (C36), holes (C38). *)
From Coq Require Import List Arith Lia ZArith Bool Permutation Sorted.
From Verif Require Import Base ComplexModel FlowModel FlowSpec FlowProofs FlowProofs2 FlowHole FlowWalk FlowAdj.
Import ListNotations.

(** ** C34 *)

(** Whatever the triangles and the order in which edges are met: if no assertion of the code
    fails, the matrices are the boundary matrices of the triangles and their product is zero. *)
Theorem C34_flow_boundary npoints ts g B1 B2 :
  create_graph npoints ts = Ok g -> boundary_matrices g ts = Ok (B1, B2) ->
  boundary_pair (side_of ts) ts B1 B2 /\
  product_zero B1 B2 /\
  (forall e, e < m_c B1 -> edge_like B1 e) /\
  (forall k, k < m_c B2 -> triangle_like B2 k).
Proof.
  intros HG HB. destruct (boundary_matrices_pair npoints ts g B1 B2 HG HB) as (BP & _).
  split; auto. split; [eapply pair_product_zero; eauto; apply side_of_sym|].
  split; [intros; eapply pair_edge_like; eauto|].
  intros; eapply pair_triangle_like; eauto. apply side_of_sym.
Qed.

(** The assertions hold for proper triangles whose corners are exactly 0..n-1. *)
Theorem C34_flow_succeeds ts n :
  (forall t, In t ts -> proper t) -> (forall v, corner ts v <-> v < n) ->
  exists g B1 B2, create_graph n ts = Ok g /\ boundary_matrices g ts = Ok (B1, B2) /\ m_r B1 = n.
Proof. intros Hp Hn. apply boundary_matrices_ok; auto. Qed.

(** ** C35 *)

Theorem C35_trajectory_is_simple_path {D} (dlt : D -> D -> bool) dist npoints ns
    in_start in_end in_ckpt draw coin ts g B1 B2 tries k x path :
  create_graph ns ts = Ok g -> boundary_matrices g ts = Ok (B1, B2) ->
  trajectory dlt dist npoints in_start in_end in_ckpt draw coin g tries k = Some (Ok (x, path)) ->
  exists s t, in_start s = true /\ in_end t = true /\
    starts path s /\ ends path t /\ NoDup path /\ walk_along (side_of ts) path /\
    length x = m_c B1 /\
    (forall z, In z x -> z = (-1)%Z \/ z = 0%Z \/ z = 1%Z) /\
    (forall e a b, e < m_c B1 -> edge_col B1 e a b -> nth e x 0%Z = net path a b) /\
    (forall i, outflow B1 x i = (ind t i - ind s i)%Z).
Proof.
  intros HG HB HT. pose proof (create_graph_spec ns ts g HG) as (GI & GE & GN).
  destruct (boundary_matrices_pair ns ts g B1 B2 HG HB) as (BP & _ & Hcol & Hlen & _).
  destruct (trajectory_spec dlt dist npoints in_start in_end in_ckpt draw coin g tries k x path GI HT)
    as (s & t & _ & _ & Hs & Ht & Hst & Hen & Hnd & Hw & (HL & HN & HZ)).
  assert (Hw' : walk_along (side_of ts) path).
  { apply (walk_along_impl (joined_in g)); auto. intros a b (Hne & Hi). split; auto.
    apply GE in Hi as (t0 & Ht0 & (p & Hp & E)). exists t0. split; auto.
    destruct t0 as [[x0 y0] z0]. unfold edge_key in E. cbn [verts In].
    destruct Hp as [<-|[<-|[<-|[]]]]; simpl in E; injection E as E1 E2; split; lia. }
  assert (Hx : forall e a b, e < m_c B1 -> edge_col B1 e a b -> nth e x 0%Z = net path a b).
  { intros e a b He Hc. destruct (Hcol e He) as (a' & b' & E & Hc').
    destruct (edge_col_inj _ _ _ _ _ _ Hc Hc') as [<- <-]. apply (HN e); auto. apply Hc. }
  exists s, t. do 6 (split; [assumption|]). split; [congruence|]. split; [assumption|]. split; [assumption|].
  apply (net_outflow (side_of ts) ts B1 B2 (side_of_sym ts) BP x path s t); auto.
  apply (walk_along_impl (side_of ts)); auto. intros a b H. split; auto. apply H.
Qed.

(** The loop of one attempt always ends (each round explores a new node), so [generate_trajectory]
    can only fail to return by restarting forever. *)
Theorem C35_attempt_terminates {D} (dlt : D -> D -> bool) dist npoints draw coin g k goal ckpt s x :
  graph_inv g ->
  walk dlt dist npoints draw coin g (S (length (g_nodes g))) k goal ckpt s [] false [s] x <> Fuel.
Proof.
  intros GI. apply walk_no_fuel; simpl; auto.
  - repeat constructor. intros [].
  - intros v [].
Qed.

(** With valid draws, rectangles that contain points and nodes that are exactly the points, no
    exception is raised. *)
Theorem C35_no_exception {D} (dlt : D -> D -> bool) dist npoints in_start in_end in_ckpt draw coin
    ts g tries k e :
  create_graph npoints ts = Ok g -> (forall v, corner ts v <-> v < npoints) ->
  (forall k n, 0 < n -> draw k n < n) ->
  (exists v, v < npoints /\ in_start v = true) -> (exists v, v < npoints /\ in_end v = true) ->
  (exists v, v < npoints /\ in_ckpt v = true) ->
  trajectory dlt dist npoints in_start in_end in_ckpt draw coin g tries k <> Some (Err e).
Proof.
  intros HG Hn Hd H1 H2 H3. pose proof (create_graph_spec npoints ts g HG) as (GI & _ & GN).
  apply trajectory_no_raise; auto. intros v. rewrite GN. auto.
Qed.

(** ** C36 *)

Theorem C36_signed_adjacency order B edges adj sg :
  (forall l, Permutation (order l) l) ->
  extract_adj order B edges = Ok (adj, sg) -> signed_adjacency B adj sg.
Proof. intros Hord H. apply (extract_adj_sound order B Hord edges adj sg H). Qed.

(** It succeeds exactly when all off-diagonal entries are -1, 0 or 1 (and the graph has as many
    edges as the matrix has columns). *)
Theorem C36_extract_succeeds order B edges :
  (forall l, Permutation (order l) l) ->
  ((exists adj sg, extract_adj order B edges = Ok (adj, sg)) <->
   (forall i j, i < m_c B -> j < m_c B -> i <> j -> (-1 <= gram B i j <= 1)%Z) /\
   (forall n, edges = Some n -> m_c B = n)).
Proof.
  intros Hord. split.
  - intros (adj & sg & H). apply (extract_adj_sound order B Hord edges adj sg H).
  - intros [H1 H2]. apply extract_adj_ok; auto.
Qed.

(** [adj], [sg] list the pairs of different indices below [n] with [G i j <> 0] once each, with the
    sign of [G i j] conjugated by [d]. *)
Definition oriented_adjacency (n : nat) (G : nat -> nat -> Z) (d : nat -> Z)
    (adj : list (nat * nat)) (sg : list Z) : Prop :=
  length adj = length sg /\ NoDup adj /\
  forall i j s, In (i, j, s) (combine adj sg) <->
    i < n /\ j < n /\ i <> j /\ G i j <> 0%Z /\ s = (d i * d j * Z.sgn (G i j))%Z.

Lemma rescaled_oriented d B B' adj sg : signs d -> rescaled d B B' ->
  signed_adjacency B' adj sg -> oriented_adjacency (m_c B) (gram B) d adj sg.
Proof.
  intros Hd HR (H1 & H2 & H3). split; auto. split; auto. intros i j s. rewrite H3.
  pose proof HR as (_ & Hc & _). rewrite Hc. split.
  - intros (Hi & Hj & Hne & Hg & ->). rewrite (gram_rescaled d B B' i j HR Hi Hj) in *.
    repeat split; auto.
    + intros E. apply Hg. rewrite E. lia.
    + rewrite !Z.sgn_mul. destruct (Hd i) as [-> | ->], (Hd j) as [-> | ->]; cbn [Z.sgn]; lia.
  - intros (Hi & Hj & Hne & Hg & ->). rewrite (gram_rescaled d B B' i j HR Hi Hj).
    repeat split; auto.
    + destruct (Hd i) as [-> | ->], (Hd j) as [-> | ->]; lia.
    + rewrite !Z.sgn_mul. destruct (Hd i) as [-> | ->], (Hd j) as [-> | ->]; cbn [Z.sgn]; lia.
Qed.

Lemma rescaled_right B n d B' : m_c B = n -> mmul B (diag_mat n d) = Ok B' -> rescaled d B B'.
Proof.
  intros Hn H. unfold mmul in H. cbn [m_r diag_mat m_c] in H. rewrite Hn, Nat.eqb_refl in H.
  injection H as <-. split; auto. split; [simpl; auto|]. intros k i Hi. cbn [m_at].
  apply diag_right; auto. congruence.
Qed.
Lemma rescaled_left B n d B' : m_r B = n -> mmul (diag_mat n d) B = Ok B' -> rescaled d (mtr B) (mtr B').
Proof.
  intros Hn H. unfold mmul in H. cbn [m_c diag_mat m_r] in H. rewrite Hn, Nat.eqb_refl in H.
  injection H as <-. split; auto. split; [simpl; auto|]. intros k i Hi. cbn [m_at mtr].
  rewrite Z.mul_comm. apply diag_left; auto. simpl in Hi. congruence.
Qed.

(** [c] is the cochain of the flow [x] with adjacency matrices [B1^T B1] and [B2 B2^T], all
    re-oriented by [d]. *)
Definition is_flow_cochain (n : nat) (B1 B2 : mat) (d : nat -> Z) (x : list Z) (y : Z)
    (c : cochain Z) : Prop :=
  c_dim c = 1 /\ c_y c = Some [y] /\
  c_x c = Some (map (fun i => (d i * nth i x 0)%Z) (seq 0 n)) /\
  (exists lo slo, c_lower c = Some lo /\ c_lor c = Some slo /\
     oriented_adjacency n (gram B1) d lo slo) /\
  (exists up sup, c_upper c = Some up /\ c_uor c = Some sup /\
     oriented_adjacency n (gram (mtr B2)) d up sup).

Lemma build_cochain_sound order B1 B2 n d x y edges c :
  (forall l, Permutation (order l) l) -> signs d -> m_c B1 = n -> m_r B2 = n ->
  build_cochain order B1 B2 (diag_mat n d) x y edges = Ok c ->
  is_flow_cochain n B1 B2 d x y c.
Proof.
  intros Hord Hd H1 H2 H. unfold build_cochain in H.
  apply bind_ok in H as (C1 & HC1 & H). apply bind_ok in H as (C2 & HC2 & H).
  apply bind_ok in H as ([lo slo] & Hlo & H). apply bind_ok in H as ([up sup] & Hup & H).
  apply bind_ok in H as (X & HX & H). apply bind_ok in H as (u & _ & H). injection H as <-.
  apply (rescaled_right _ n d) in HC1; auto. apply (rescaled_left _ n d) in HC2; auto.
  apply (extract_adj_sound order _ Hord) in Hlo as (Hlo & _), Hup as (Hup & _).
  apply (rescaled_oriented d B1) in Hlo; auto. apply (rescaled_oriented d (mtr B2)) in Hup; auto.
  cbn [mtr m_c] in Hup. rewrite H1 in Hlo. rewrite H2 in Hup.
  split; auto. split; auto. split; [|split; [exists lo, slo; auto|exists up, sup; auto]].
  cbn [c_x]. f_equal. unfold mmul in HX. cbn [m_c m_r diag_mat column] in HX.
  destruct (n =? length x) eqn:E; [|discriminate]. apply Nat.eqb_eq in E.
  injection HX as <-. unfold of_column. cbn [m_r]. apply map_ext_in. intros i Hi. apply in_seq in Hi.
  apply (diag_left (column x) n d (eq_sym E) i 0). lia.
Qed.

Lemma build_cochain_ok order B1 B2 n d x y edges :
  (forall l, Permutation (order l) l) -> signs d -> m_c B1 = n -> m_r B2 = n -> length x = n ->
  (forall i j, i < n -> j < n -> i <> j -> (-1 <= gram B1 i j <= 1)%Z) ->
  (forall i j, i < n -> j < n -> i <> j -> (-1 <= gram (mtr B2) i j <= 1)%Z) ->
  (forall m, edges = Some m -> n = m) ->
  exists c, build_cochain order B1 B2 (diag_mat n d) x y edges = Ok c.
Proof.
  intros Hord Hd H1 H2 Hx G1 G2 He. unfold build_cochain.
  assert (E1 : exists C1, mmul B1 (diag_mat n d) = Ok C1).
  { unfold mmul. cbn [m_r diag_mat]. rewrite H1, Nat.eqb_refl. eauto. }
  assert (E2 : exists C2, mmul (diag_mat n d) B2 = Ok C2).
  { unfold mmul. cbn [m_c diag_mat]. rewrite H2, Nat.eqb_refl. eauto. }
  destruct E1 as (C1 & E1), E2 as (C2 & E2). rewrite E1, E2. cbn [bind].
  apply (rescaled_right _ n d) in E1; auto. apply (rescaled_left _ n d) in E2; auto.
  pose proof E1 as (_ & Hc1 & _). pose proof E2 as (_ & Hc2 & _). cbn [mtr m_c] in Hc2.
  assert (Hdd : forall i j z, (-1 <= z <= 1)%Z -> (-1 <= d i * d j * z <= 1)%Z).
  { intros i j z Hz. destruct (Hd i) as [-> | ->], (Hd j) as [-> | ->]; lia. }
  destruct (extract_adj_ok order C1 Hord edges) as (lo & slo & ->).
  { intros i j Hi Hj Hne. rewrite (gram_rescaled d B1 C1) by (auto; lia). apply Hdd, G1; auto; lia. }
  { intros m Em. rewrite Hc1. specialize (He m Em). lia. }
  cbn [bind]. destruct (extract_adj_ok order (mtr C2) Hord edges) as (up & sup & ->).
  { cbn [mtr m_c]. intros i j Hi Hj Hne. rewrite (gram_rescaled d (mtr B2) (mtr C2)) by (auto; cbn [mtr m_c]; lia).
    apply Hdd, G2; auto; lia. }
  { intros m Em. cbn [mtr m_c]. rewrite Hc2. specialize (He m Em). lia. }
  cbn [bind]. unfold mmul. cbn [m_c m_r diag_mat column]. rewrite Hx, Nat.eqb_refl. cbn [bind].
  eexists. reflexivity.
Qed.

(** Re-orienting the edges by [d] conjugates the signs and flips the rows of the features. *)
Theorem C36_reorientation order order' B1 B2 n d x y edges c0 c :
  (forall l, Permutation (order l) l) -> (forall l, Permutation (order' l) l) ->
  signs d -> m_c B1 = n -> m_r B2 = n ->
  build_cochain order B1 B2 (diag_mat n (fun _ => 1%Z)) x y edges = Ok c0 ->
  build_cochain order' B1 B2 (diag_mat n d) x y edges = Ok c ->
  exists lo slo up sup x0 lo' slo' up' sup' x1,
    c_lower c0 = Some lo /\ c_lor c0 = Some slo /\ c_upper c0 = Some up /\ c_uor c0 = Some sup /\
    c_x c0 = Some x0 /\
    c_lower c = Some lo' /\ c_lor c = Some slo' /\ c_upper c = Some up' /\ c_uor c = Some sup' /\
    c_x c = Some x1 /\
    (forall i j s, In (i, j, s) (combine lo' slo') <-> In (i, j, (d i * d j * s)%Z) (combine lo slo)) /\
    (forall i j s, In (i, j, s) (combine up' sup') <-> In (i, j, (d i * d j * s)%Z) (combine up sup)) /\
    length x1 = length x0 /\ (forall i, i < length x0 -> nth i x1 0%Z = (d i * nth i x0 0)%Z).
Proof.
  intros Hord Hord' Hd H1 H2 HB0 HB.
  apply build_cochain_sound in HB0; auto; [|intros i; auto]. apply build_cochain_sound in HB; auto.
  destruct HB0 as (_ & _ & X0 & (lo & slo & L1 & L2 & _ & _ & L3) & (up & sup & U1 & U2 & _ & _ & U3)).
  destruct HB as (_ & _ & X1 & (lo' & slo' & L1' & L2' & _ & _ & L3') & (up' & sup' & U1' & U2' & _ & _ & U3')).
  exists lo, slo, up, sup, (map (fun i => (1 * nth i x 0)%Z) (seq 0 n)), lo', slo', up', sup', (map (fun i => (d i * nth i x 0)%Z) (seq 0 n)).
  do 10 (split; [assumption|]).
  split; [|split].
  - intros i j s. rewrite L3, L3'. split; intros (? & ? & ? & ? & E); repeat split; auto.
    + rewrite E. destruct (Hd i) as [-> | ->], (Hd j) as [-> | ->]; lia.
    + destruct (Hd i) as [Ei|Ei], (Hd j) as [Ej|Ej]; rewrite Ei, Ej in *; lia.
  - intros i j s. rewrite U3, U3'. split; intros (? & ? & ? & ? & E); repeat split; auto.
    + rewrite E. destruct (Hd i) as [-> | ->], (Hd j) as [-> | ->]; lia.
    + destruct (Hd i) as [Ei|Ei], (Hd j) as [Ej|Ej]; rewrite Ei, Ej in *; lia.
  - rewrite !map_length. split; auto. intros i Hi. rewrite seq_length in Hi.
    assert (G : forall f : nat -> Z, nth i (map f (seq 0 n)) 0%Z = f i).
    { intros f. rewrite (nth_indep _ 0%Z (f 0)) by (rewrite map_length, seq_length; auto).
      rewrite map_nth, seq_nth by auto. reflexivity. }
    rewrite !G. lia.
Qed.

(** For the boundary matrices of distinct triangles the cochain is always built; edges are lower
    adjacent exactly when they share a node and upper adjacent exactly when they share a
    triangle. *)
Theorem C36_flow_cochain_built order npoints ts g B1 B2 d x y :
  (forall l, Permutation (order l) l) -> signs d ->
  create_graph npoints ts = Ok g -> boundary_matrices g ts = Ok (B1, B2) ->
  distinct_tris ts -> length x = m_c B1 ->
  exists c, build_cochain order B1 B2 (diag_mat (m_c B1) d) x y (Some (length (g_edges g))) = Ok c /\
    is_flow_cochain (m_c B1) B1 B2 d x y c /\
    (forall lo e e' a b a' b', c_lower c = Some lo -> e < m_c B1 -> e' < m_c B1 ->
       edge_col B1 e a b -> edge_col B1 e' a' b' ->
       (In (e, e') lo <-> e <> e' /\ exists v, (v = a \/ v = b) /\ (v = a' \/ v = b'))) /\
    (forall up e e' a b a' b', c_upper c = Some up -> e < m_c B1 -> e' < m_c B1 ->
       edge_col B1 e a b -> edge_col B1 e' a' b' ->
       (In (e, e') up <-> e <> e' /\ exists t, In t ts /\ tri_has_edge t a b /\ tri_has_edge t a' b')).
Proof.
  intros Hord Hd HG HB Hdist Hx.
  destruct (boundary_matrices_pair npoints ts g B1 B2 HG HB) as (BP & _ & _ & Hlen & _).
  pose proof (bp_rows _ _ _ _ BP) as Hrows.
  destruct (build_cochain_ok order B1 B2 (m_c B1) d x y (Some (length (g_edges g)))) as (c & Hc); auto.
  - intros i j Hi Hj Hne. eapply gram_B1_bound; eauto.
  - intros i j Hi Hj Hne. eapply gram_B2_bound; eauto.
  - intros m E. congruence.
  - exists c. split; auto. pose proof (build_cochain_sound _ _ _ _ _ _ _ _ _ Hord Hd eq_refl Hrows Hc) as HF.
    split; auto. destruct HF as (_ & _ & _ & (lo & slo & L1 & _ & L2 & _ & L3) & (up & sup & U1 & _ & U2 & _ & U3)).
    assert (Hin : forall (l : list (nat * nat)) (s : list Z) p, length l = length s ->
              (In p l <-> exists z, In (p, z) (combine l s))).
    { induction l as [|q l IH]; intros s p Hl; destruct s as [|z s]; simpl in *; try lia.
      - split; [tauto|]. intros (z & []).
      - rewrite (IH s) by lia. split.
        + intros [->|(w & ?)]; [exists z|exists w]; auto.
        + intros (w & [E|?]); [left; congruence|right; eauto]. }
    split.
    + intros lo' e e' a b a' b' E He He' Hca Hcb. rewrite L1 in E. injection E as <-.
      rewrite (Hin lo slo) by auto. split.
      * intros (z & Hz). apply L3 in Hz as (_ & _ & Hne & Hg & _). split; auto.
        apply (gram_B1_share _ ts B1 B2 BP e e' a b a' b'); auto.
      * intros (Hne & Hv). apply (gram_B1_share _ ts B1 B2 BP e e' a b a' b') in Hv; auto.
        eexists. apply L3. repeat split; eauto.
    + intros up' e e' a b a' b' E He He' Hca Hcb. rewrite U1 in E. injection E as <-.
      rewrite (Hin up sup) by auto. split.
      * intros (z & Hz). apply U3 in Hz as (_ & _ & Hne & Hg & _). split; auto.
        apply (gram_B2_share _ ts B1 B2 BP Hdist e e' a b a' b'); auto.
      * intros (Hne & Hv). apply (gram_B2_share _ ts B1 B2 BP Hdist e e' a b a' b') in Hv; auto.
        eexists. apply U3. repeat split; eauto.
Qed.

(** ** C38 *)

Theorem C38_hole_cut {P} (inside : P -> bool) points ts points' ts' :
  create_hole inside points ts = Ok (points', ts') ->
  exists idx, hole_cut inside points ts points' ts' idx.
Proof. apply create_hole_spec. Qed.

Theorem C38_hole_succeeds {P} (inside : P -> bool) points ts t :
  (forall v, corner ts v -> v < length points) ->
  In t ts -> untouched inside points t = true ->
  exists r, create_hole inside points ts = Ok r.
Proof. apply create_hole_ok. Qed.

(** If every triangle touches the hole the code raises. *)
Theorem C38_everything_removed_raises {P} (inside : P -> bool) points ts :
  (forall v, corner ts v -> v < length points) ->
  (forall t, In t ts -> untouched inside points t = false) ->
  create_hole inside points ts = Err IndexError.
Proof.
  intros Hr Hall. destruct (hole_pass_ok inside points ts Hr) as ([kept rem] & Hp).
  unfold create_hole. rewrite Hp. cbn [bind fst snd].
  destruct (hole_pass_spec inside points ts kept rem Hp) as (-> & _).
  replace (filter (untouched inside points) ts) with (@nil tri); auto.
  clear - Hall. induction ts as [|t ts IH]; simpl; auto.
  rewrite Hall by (left; auto). apply IH. intros; apply Hall; right; auto.
Qed.

(** ** The whole preparation *)

Lemma all_used_iff {P} (points : list P) ts :
  all_used points ts = true <-> forall v, v < length points -> corner ts v.
Proof.
  unfold all_used. rewrite forallb_forall. split.
  - intros H v Hv. specialize (H v). rewrite in_seq in H. specialize (H ltac:(lia)).
    apply existsb_exists in H as (t & Ht & Hm). apply mem_nat_iff in Hm. exists t. auto.
  - intros H v Hv. apply in_seq in Hv. destruct (H v ltac:(lia)) as (t & Ht & Hm).
    apply existsb_exists. exists t. split; auto. apply mem_nat_iff; auto.
Qed.

Lemma list_max_below l n : 0 < n -> (forall v, In v l -> v < n) -> list_max l < n.
Proof.
  intros Hn H. enough (list_max l <= n - 1) by lia. apply list_max_le, Forall_forall.
  intros v Hv. specialize (H v Hv). lia.
Qed.
Lemma list_max_above l v : In v l -> v <= list_max l.
Proof.
  intros H. assert (F : Forall (fun k => k <= list_max l) l) by (apply list_max_le; lia).
  rewrite Forall_forall in F. auto.
Qed.

Lemma cut_image {P} (inside : P -> bool) points ts points' ts' idx t :
  hole_cut inside points ts points' ts' idx -> In t ts -> untouched inside points t = true ->
  exists t', In t' ts' /\ forall other : P -> bool, untouched other points' t' = untouched other points t.
Proof.
  intros H Ht Hu. assert (Hi : In t (filter (untouched inside points) ts)) by (apply filter_In; auto).
  pose proof (hc_same _ _ _ _ _ _ H) as HF. pose proof (hc_points _ _ _ _ _ _ H) as HP.
  assert (Hp : forall u v, nth_error idx u = Some v -> nth_error points' u = nth_error points v).
  { clear - HP. induction HP as [|p v l l' Hv HP IH]; intros [|u] w E; simpl in *; try discriminate; auto.
    congruence. }
  clear Hu Ht H. revert Hi. induction HF as [|a b l l' Hab HF IH]; intros Hi; [destruct Hi|].
  destruct Hi as [->|Hi].
  - exists b. split; [left; auto|]. intros other. unfold untouched.
    clear - Hab Hp. induction Hab as [|v u lv lu E Hab IH]; simpl; auto. rewrite IH, (Hp u v E). auto.
  - destruct (IH Hi) as (t' & ? & ?). exists t'. split; auto. right; auto.
Qed.

(** A proper triangulation whose points are all used, with a triangle outside both holes, passes
    every check of the preparation. *)
Theorem C34_preparation_succeeds {P} (in1 in2 : P -> bool) points ts t :
  (forall t, In t ts -> proper t) -> (forall v, corner ts v <-> v < length points) ->
  In t ts -> untouched in1 points t = true -> untouched in2 points t = true ->
  exists r, prepare_flow in1 in2 points ts = Ok r.
Proof.
  intros Hp Hn Ht H1 H2. unfold prepare_flow.
  rewrite (forallb_assert (all_used points ts)) by (apply all_used_iff; intros; apply Hn; auto). cbn [bind].
  destruct (create_hole_ok in1 points ts t) as ([p1 t1] & E1); auto; [intros v; apply Hn|].
  rewrite E1. cbn [bind].
  destruct (create_hole_spec in1 points ts p1 t1 E1) as (idx1 & HC1).
  pose proof (hc_used _ _ _ _ _ _ HC1) as U1.
  rewrite (forallb_assert (all_used p1 t1)) by (apply all_used_iff; intros; apply U1; auto). cbn [bind].
  destruct (cut_image in1 points ts p1 t1 idx1 t HC1 Ht H1) as (t' & Ht' & Hu).
  destruct (create_hole_ok in2 p1 t1 t') as ([p2 t2] & E2); auto; [intros v; apply U1|congruence|].
  rewrite E2. cbn [bind].
  destruct (create_hole_spec in2 p1 t1 p2 t2 E2) as (idx2 & HC2).
  pose proof (hc_used _ _ _ _ _ _ HC2) as U2.
  rewrite (forallb_assert (all_used p2 t2)) by (apply all_used_iff; intros; apply U2; auto). cbn [bind].
  destruct (cut_image in2 p1 t1 p2 t2 idx2 t' HC2 Ht') as (t'' & Ht'' & _); [congruence|].
  assert (Hconcat : forall v, In v (concat (map verts t2)) <-> corner t2 v).
  { intros v. rewrite in_concat. split.
    - intros (l & Hl & Hv). apply in_map_iff in Hl as (q & <- & Hq). exists q. auto.
    - intros (q & Hq & Hv). exists (verts q). split; auto. apply in_map; auto. }
  assert (Hpos : 0 < length p2).
  { destruct t'' as [[a b] c]. assert (Ha : corner t2 a) by (exists (a, b, c); simpl; auto).
    apply U2 in Ha. lia. }
  rewrite forallb_assert by (apply mem_nat_iff, Hconcat, U2; auto). cbn [bind].
  rewrite forallb_assert; cbn [bind].
  2:{ apply Nat.eqb_eq.
      assert (L1 : list_max (concat (map verts t2)) < length p2).
      { apply list_max_below; auto. intros v Hv. apply U2, Hconcat; auto. }
      assert (L2 : length p2 - 1 <= list_max (concat (map verts t2))).
      { apply list_max_above, Hconcat, U2. lia. }
      lia. }
  assert (Hp2 : forall q, In q t2 -> proper q).
  { eapply hole_cut_proper; eauto. eapply hole_cut_proper; eauto. }
  destruct (boundary_matrices_ok (length p2) t2 Hp2) as (g & B1 & B2 & EG & EB & Er); [intros v; apply U2|].
  rewrite EG. cbn [bind].
  destruct (boundary_matrices_pair _ _ _ _ _ EG EB) as (BP & Er' & _).
  rewrite forallb_assert by (apply Nat.eqb_eq; congruence). cbn [bind]. rewrite EB. cbn [bind].
  rewrite forallb_assert by (apply Nat.eqb_eq; symmetry; apply BP). cbn [bind]. eauto.
Qed.

(** ** The classes of the samples *)

(** The first half of the samples is of class 0, the others of class 1. *)
Theorem C49_flow_classes_partial num l : flow_classes num = Ok l ->
  length l = num /\
  forall i, i < num -> nth_error l i = Some (if i <? num / 2 then 0 else 1).
Proof.
  unfold flow_classes. intros H. apply mapM_ok_iff in H.
  pose proof (Forall2_length H) as HL. rewrite seq_length in HL. split; auto.
  intros i Hi.
  assert (G : forall s n l, Forall2 (fun a b => flow_class num a = Ok b) (seq s n) l -> forall j, j < n ->
             exists b, nth_error l j = Some b /\ flow_class num (s + j) = Ok b).
  { intros s n; revert s; induction n as [|n IH]; intros s l0 HF j Hj; [lia|].
    simpl in HF. inversion HF as [|? b ? l1 Hb HF']; subst. destruct j as [|j].
    - exists b. rewrite Nat.add_0_r. auto.
    - destruct (IH (S s) l1 HF' j) as (b' & ? & ?); [lia|]. exists b'. split; auto.
      rewrite <- H1. f_equal. lia. }
  destruct (G 0 num l H i Hi) as (b & Hb & Hc). rewrite Hb. f_equal. change (0 + i) with i in Hc.
  unfold flow_class in Hc. destruct (num / 2) as [|m] eqn:E; [discriminate|]. assert (Hb' : b = Nat.min (i / S m) 1) by congruence.
  rewrite Hb'. clear Hc Hb Hb'.
  destruct (Nat.ltb_spec i (S m)).
  - rewrite Nat.div_small by lia. auto.
  - assert (1 <= i / S m) by (apply Nat.div_le_lower_bound; lia).
    rewrite Nat.min_r; auto.
Qed.

(** It always succeeds except when asked for a single sample, where the code divides by zero. *)
Theorem C49_flow_classes_succeed num : num <> 1 -> exists l, flow_classes num = Ok l.
Proof.
  intros Hn. destruct num as [|[|num]]; [eexists; reflexivity|congruence|].
  unfold flow_classes.
  rewrite (mapM_map _ (fun i => Nat.min (i / (S (S num) / 2)) 1)); [eauto|].
  intros i _. unfold flow_class. destruct (S (S num) / 2) as [|m] eqn:E; auto.
  exfalso. apply Nat.div_small_iff in E; lia.
Qed.
Theorem C49_single_sample_refuted : flow_classes 1 = Err ZeroDivisionError.
Proof. reflexivity. Qed.

(** ** End to end *)

Lemma distinct_filter f ts : distinct_tris ts -> distinct_tris (filter f ts).
Proof.
  intros H.
  assert (G : forall s l, (forall i t, nth_error l i = Some t -> nth_error ts (s + i) = Some t) ->
    forall k t, nth_error (filter f l) k = Some t ->
    exists i, nth_error ts (s + i) = Some t /\ forall k' t', k < k' -> nth_error (filter f l) k' = Some t' ->
      exists i', nth_error ts (s + i') = Some t' /\ i < i').
  { intros s l; revert s; induction l as [|t0 l IH]; intros s Hl k t Hk; simpl in Hk.
    { destruct k; discriminate. }
    assert (Hl' : forall i t, nth_error l i = Some t -> nth_error ts (S s + i) = Some t).
    { intros i u Hu. replace (S s + i) with (s + S i) by lia. apply Hl. auto. }
    simpl. destruct (f t0) eqn:Ef.
    - destruct k as [|k].
      + exists 0. split; [apply Hl; auto|]. intros [|k'] t' Hk' E; [lia|]. simpl in E.
        destruct (IH (S s) Hl' k' t' E) as (i' & Hi' & _). exists (S i'). split; [|lia].
        rewrite <- Hi'. f_equal. lia.
      + simpl in Hk. destruct (IH (S s) Hl' k t Hk) as (i & Hi & Hlt). exists (S i).
        split; [rewrite <- Hi; f_equal; lia|]. intros [|k'] t' Hk' E; [lia|]. simpl in E.
        destruct (Hlt k' t') as (i' & Hi' & ?); auto; [lia|]. exists (S i'). split; [|lia].
        rewrite <- Hi'. f_equal. lia.
    - destruct (IH (S s) Hl' k t Hk) as (i & Hi & Hlt). exists (S i).
      split; [rewrite <- Hi; f_equal; lia|]. intros k' t' Hk' E.
      destruct (Hlt k' t') as (i' & Hi' & ?); auto. exists (S i'). split; [|lia].
      rewrite <- Hi'. f_equal. lia. }
  specialize (G 0 ts (fun i t E => E)). intros k k' t t' E E' Hs.
  destruct (Nat.lt_trichotomy k k') as [L|[->|L]]; auto; exfalso.
  - destruct (G k t E) as (i & Hi & Hlt). destruct (Hlt k' t' L E') as (i' & Hi' & ?).
    pose proof (H i i' t t' Hi Hi' Hs). lia.
  - destruct (G k' t' E') as (i & Hi & Hlt). destruct (Hlt k t L E) as (i' & Hi' & ?).
    pose proof (H i' i t t' Hi' Hi Hs). lia.
Qed.

Lemma cut_distinct {P} (inside : P -> bool) points ts points' ts' idx :
  hole_cut inside points ts points' ts' idx -> distinct_tris ts -> distinct_tris ts'.
Proof.
  intros H Hd. apply (distinct_filter (untouched inside points)) in Hd.
  pose proof (hc_same _ _ _ _ _ _ H) as HF. clear H.
  assert (G : forall k t', nth_error ts' k = Some t' -> exists t, nth_error (filter (untouched inside points) ts) k = Some t /\
     Forall2 (fun v u => nth_error idx u = Some v) (verts t) (verts t')).
  { clear Hd. induction HF as [|a b l l' Hab HF IH]; intros [|k] t' E; simpl in *; try discriminate; eauto.
    injection E as <-. eauto. }
  assert (Himg : forall l l' m m', Forall2 (fun v u => nth_error idx u = Some v) l l' ->
     Forall2 (fun v u => nth_error idx u = Some v) m m' -> incl l' m' -> incl l m).
  { intros l l' m m' H1 H2 Hi v Hv.
    assert (Hu : exists u, In u l' /\ nth_error idx u = Some v).
    { clear - H1 Hv. induction H1 as [|a b l l' Hab H1 IH]; [destruct Hv|]. destruct Hv as [->|Hv].
      - exists b. split; auto. left; auto.
      - destruct IH as (u & ? & ?); auto. exists u. split; auto. right; auto. }
    destruct Hu as (u & Hu & Eu). apply Hi in Hu. clear - H2 Hu Eu.
    induction H2 as [|a b m m' Hab H2 IH]; [destruct Hu|]. destruct Hu as [->|Hu].
    - left. congruence.
    - right. auto. }
  intros k k' t t' E E' Hs. destruct (G k t E) as (u & Hu & Fu), (G k' t' E') as (u' & Hu' & Fu').
  apply (Hd k k' u u' Hu Hu'). intros v. split.
  - apply (Himg (verts u) (verts t) (verts u') (verts t')); auto. intros w; apply Hs.
  - apply (Himg (verts u') (verts t') (verts u) (verts t)); auto. intros w; apply Hs.
Qed.

Lemma assert_true b u : assert_ b = Ok u -> b = true.
Proof. destruct b; [auto|discriminate]. Qed.

(** What the preparation returns. *)
Theorem C34_preparation {P} (in1 in2 : P -> bool) points ts p2 t2 g B1 B2 :
  prepare_flow in1 in2 points ts = Ok (p2, t2, g, B1, B2) ->
  create_graph (length p2) t2 = Ok g /\ boundary_matrices g t2 = Ok (B1, B2) /\
  (forall v, corner t2 v <-> v < length p2) /\
  (forall p, In p p2 -> In p points /\ in1 p = false /\ in2 p = false) /\
  (distinct_tris ts -> distinct_tris t2).
Proof.
  intros H. unfold prepare_flow in H. apply bind_ok in H as (u1 & _ & H).
  apply bind_ok in H as ([p1 t1] & E1 & H). apply bind_ok in H as (u2 & _ & H).
  apply bind_ok in H as ([p2' t2'] & E2 & H). apply bind_ok in H as (u3 & _ & H).
  apply bind_ok in H as (u4 & _ & H). apply bind_ok in H as (u5 & _ & H).
  apply bind_ok in H as (g' & EG & H). apply bind_ok in H as (u6 & _ & H).
  apply bind_ok in H as ([B1' B2'] & EB & H). apply bind_ok in H as (u7 & _ & H).
  injection H as -> -> -> -> ->.
  destruct (create_hole_spec in1 points ts p1 t1 E1) as (idx1 & HC1).
  destruct (create_hole_spec in2 p1 t1 p2 t2 E2) as (idx2 & HC2).
  assert (Hsub : forall (l : list P) (pts : list P) idx, Forall2 (fun p v => nth_error pts v = Some p) l idx -> incl l pts).
  { intros l pts idx HF p Hp. induction HF as [|a b l' i Hab HF IH]; [destruct Hp|]. destruct Hp as [->|Hp]; auto.
    eapply nth_error_In; eauto. }
  split; auto. split; auto. split; [apply HC2|]. split.
  - intros p Hp. pose proof (Hsub _ _ _ (hc_points _ _ _ _ _ _ HC2) p Hp) as Hp1.
    split; [apply (Hsub _ _ _ (hc_points _ _ _ _ _ _ HC1) p Hp1)|].
    split; [apply (hc_outside _ _ _ _ _ _ HC1 p Hp1)|apply (hc_outside _ _ _ _ _ _ HC2 p Hp)].
  - intros Hd. eapply cut_distinct; eauto. eapply cut_distinct; eauto.
Qed.

(** A generated sample: for a prepared triangulation (without repeated triangles), any orientation
    and any random choices, [generate_flow_cochain] never raises, and what it returns is the
    oriented flow of a simple path from the start region to the end region. *)
Theorem C35_flow_sample {P D} (in1 in2 : P -> bool) points ts p2 t2 g B1 B2
    (dlt : D -> D -> bool) dist in_start in_end in_bot in_top draw coin order ori bits T2 class_id tries k :
  prepare_flow in1 in2 points ts = Ok (p2, t2, g, B1, B2) -> distinct_tris ts ->
  orient_matrix (m_c B1) ori bits = Ok T2 -> class_id <= 1 ->
  (forall l, Permutation (order l) l) -> (forall k n, 0 < n -> draw k n < n) ->
  (exists v, v < length p2 /\ in_start v = true) -> (exists v, v < length p2 /\ in_end v = true) ->
  (exists v, v < length p2 /\ in_bot v = true) -> (exists v, v < length p2 /\ in_top v = true) ->
  match flow_cochain dlt dist (length p2) in_start in_end in_bot in_top draw coin order g B1 B2 T2
          class_id tries k with
  | None => True
  | Some (Err _) => False
  | Some (Ok c) => exists d x path s t, signs d /\ in_start s = true /\ in_end t = true /\
      starts path s /\ ends path t /\ NoDup path /\ walk_along (side_of t2) path /\
      (forall i, outflow B1 x i = (ind t i - ind s i)%Z) /\
      is_flow_cochain (m_c B1) B1 B2 d x (Z.of_nat class_id) c
  end.
Proof.
  intros HP Hdist HT Hcl Hord Hdr H1 H2 H3 H4.
  destruct (C34_preparation _ _ _ _ _ _ _ _ _ HP) as (HG & HB & Hn & _ & Hd2).
  assert (HT' : exists d, signs d /\ T2 = diag_mat (m_c B1) d).
  { destruct ori; simpl in HT; try discriminate; injection HT as <-; eexists; split; try reflexivity; intros i; auto.
    destruct (bits i); auto. }
  destruct HT' as (d & Hs & ->). unfold flow_cochain.
  replace (1 <? class_id) with false by (symmetry; apply Nat.ltb_ge; auto).
  set (ck := if class_id =? 0 then in_bot else in_top).
  assert (Hck : exists v, v < length p2 /\ ck v = true) by (unfold ck; destruct (class_id =? 0); auto).
  destruct (trajectory dlt dist (length p2) in_start in_end ck draw coin g tries k) as [[[x path]|e]|] eqn:ET; auto.
  - destruct (C35_trajectory_is_simple_path _ _ _ _ _ _ _ _ _ _ _ _ _ _ _ _ _ HG HB ET)
      as (s & t & A1 & A2 & A3 & A4 & A5 & A6 & A7 & _ & _ & A8).
    destruct (C36_flow_cochain_built order _ _ _ _ _ d x (Z.of_nat class_id) Hord Hs HG HB (Hd2 Hdist) A7)
      as (c & -> & Hc & _).
    exists d, x, path, s, t. do 8 (split; [assumption|]). assumption.
  - revert ET. apply (C35_no_exception dlt dist (length p2) in_start in_end ck draw coin t2); auto.
Qed.

(** ** Examples *)

(** Nine points of a 3 x 3 grid (a point is its number), eight triangles; the holes contain the
    points 8 and 2. *)
Definition grid_points := seq 0 9.
Definition grid_tris : list tri :=
  [(0,1,4); (0,4,3); (1,2,5); (1,5,4); (3,4,7); (3,7,6); (4,5,8); (4,8,7)].
Definition grid_prepared := prepare_flow (fun p => p =? 8) (fun p => p =? 2) grid_points grid_tris.

Example grid_result : exists g B1 B2,
  grid_prepared = Ok ([0;1;3;4;5;6;7], [(0,1,3); (0,3,2); (1,4,3); (2,3,6); (2,6,5)], g, B1, B2) /\
  g_edges g = [(0,1); (0,3); (1,3); (0,2); (2,3); (1,4); (3,4); (2,6); (3,6); (2,5); (5,6)].
Proof.
  assert (H : match grid_prepared with
    | Ok (p, t, g, _, _) => p = [0;1;3;4;5;6;7] /\ t = [(0,1,3); (0,3,2); (1,4,3); (2,3,6); (2,6,5)] /\
        g_edges g = [(0,1); (0,3); (1,3); (0,2); (2,3); (1,4); (3,4); (2,6); (3,6); (2,5); (5,6)]
    | Err _ => False end) by (vm_compute; auto).
  destruct grid_prepared as [[[[[p t] g] B1] B2]|]; [|destruct H].
  destruct H as (-> & -> & H). exists g, B1, B2. auto.
Qed.

Example grid_distinct : distinct_tris grid_tris.
Proof.
  intros k k' t t' E E' H.
  assert (B : forallb (fun p => forallb (fun q => (fst p =? fst q) ||
     negb (forallb (fun v => mem_nat v (verts (snd q))) (verts (snd p))))
     (combine (seq 0 8) grid_tris)) (combine (seq 0 8) grid_tris) = true) by reflexivity.
  assert (Hin : forall k t, nth_error grid_tris k = Some t -> In (k, t) (combine (seq 0 8) grid_tris)).
  { intros j u Eu. assert (j < 8) by (apply (nth_error_Some grid_tris); congruence).
    do 8 (destruct j as [|j]; [injection Eu as <-; simpl; tauto|]). lia. }
  rewrite forallb_forall in B. specialize (B _ (Hin _ _ E)). rewrite forallb_forall in B.
  specialize (B _ (Hin _ _ E')). cbn [fst snd] in B. apply orb_true_iff in B as [B|B].
  - apply Nat.eqb_eq; auto.
  - exfalso. apply negb_true_iff in B.
    assert (C : forallb (fun v => mem_nat v (verts t')) (verts t) = true); [|congruence].
    apply forallb_forall. intros v Hv. apply mem_nat_iff, H; auto.
Qed.

Example grid_proper : (forall t, In t grid_tris -> proper t) /\ (forall v, corner grid_tris v <-> v < 9).
Proof.
  split.
  - intros t Ht. simpl in Ht. repeat destruct Ht as [<-|Ht]; simpl; try (repeat split; discriminate). destruct Ht.
  - assert (Hc : forall v, corner grid_tris v <-> In v (concat (map verts grid_tris))).
    { intros v. rewrite in_concat. split.
      - intros (q & Hq & Hv). exists (verts q). split; auto. apply in_map; auto.
      - intros (l & Hl & Hv). apply in_map_iff in Hl as (q & <- & Hq). exists q. auto. }
    intros v. rewrite Hc. split.
    + intros H. assert (F : forallb (fun v => v <? 9) (concat (map verts grid_tris)) = true) by reflexivity.
      rewrite forallb_forall in F. apply Nat.ltb_lt. auto.
    + intros H. apply mem_nat_iff.
      assert (F : forallb (fun v => mem_nat v (concat (map verts grid_tris))) (seq 0 9) = true) by reflexivity.
      rewrite forallb_forall in F. apply F. apply in_seq. lia.
Qed.

Example grid_survivor : In (0,4,3) grid_tris /\
  untouched (fun p => p =? 8) grid_points (0,4,3) = true /\
  untouched (fun p => p =? 2) grid_points (0,4,3) = true.
Proof. repeat split. simpl. auto. Qed.

(** A sample: from node 4 to node 5 through checkpoint 6, edges re-oriented at random. *)
Definition grid_sample := match grid_prepared with
  | Ok (p, t, g, B1, B2) =>
      flow_cochain Nat.ltb (fun a b => (a - b) + (b - a)) (length p)
        (fun v => v =? 4) (fun v => v =? 5) (fun v => v =? 6) (fun v => v =? 0)
        (fun _ _ => 0) (fun _ => false) (fun l => l) g B1 B2
        (diag_mat (m_c B1) (fun i => if Nat.even i then 1%Z else (-1)%Z)) 0 3 0
  | Err _ => None
  end.
Example grid_sample_x : match grid_sample with
  | Some (Ok c) => c_x c = Some [0; 0; 0; 0; 0; 0; -1; 0; 1; 0; -1]%Z /\ c_y c = Some [0%Z]
  | _ => False
  end.
Proof. vm_compute. auto. Qed.

Example classes_five : flow_classes 5 = Ok [0; 0; 1; 1; 1].
Proof. reflexivity. Qed.

(** Without the hypothesis of distinct triangles the code can fail: two copies of a triangle give an
    off-diagonal entry of absolute value two. *)
Example repeated_triangle_raises : match create_graph 3 [(0,1,2); (0,1,2)] with
  | Ok g => match boundary_matrices g [(0,1,2); (0,1,2)] with
            | Ok (B1, B2) => build_cochain (fun l => l) B1 B2 (diag_mat 3 (fun _ => 1%Z)) [0;0;0]%Z 0 (Some 3)
                             = Err AssertionError
            | Err _ => False end
  | Err _ => False end.
Proof. vm_compute. reflexivity. Qed.

Print Assumptions C34_flow_boundary.
Print Assumptions C34_flow_succeeds.
Print Assumptions C34_preparation_succeeds.
Print Assumptions C34_preparation.
Print Assumptions C35_trajectory_is_simple_path.
Print Assumptions C35_attempt_terminates.
Print Assumptions C35_no_exception.
Print Assumptions C35_flow_sample.
Print Assumptions C36_signed_adjacency.
Print Assumptions C36_extract_succeeds.
Print Assumptions C36_reorientation.
Print Assumptions C36_flow_cochain_built.
Print Assumptions C38_hole_cut.
Print Assumptions C38_hole_succeeds.
Print Assumptions C38_everything_removed_raises.
Print Assumptions C49_flow_classes_partial.
Print Assumptions C49_flow_classes_succeed.
