(** Theorems about the ocean data: incidence matrices (C34), cleaned paths and their flows (C39),
    labels and the whole dataset (C50). *)
From Coq Require Import List Arith Lia ZArith Bool Permutation Sorted Relations.
From Verif Require Import Base ComplexModel FlowModel FlowSpec FlowProofs FlowProofs2 FlowHole FlowWalk FlowAdj
  FlowProps OceanModel OceanProofs.
From Verif Require Import ScatterProofs.
Import ListNotations.

(** ** C34 *)

(** The graph of an edge list without self loops. *)
Definition loop_free (elist : list (nat * nat)) : Prop := forall a b, In (a, b) elist -> a <> b.

Lemma ocean_graph_ok elist sort : loop_free elist -> (forall l, Permutation (sort l) l) ->
  ocean_ok (sorted_nodes (ocean_graph elist)) (sort (g_edges (ocean_graph elist))).
Proof.
  intros Hl Hs. destruct (ocean_graph_spec elist) as (GI & GE & GN).
  destruct (sorted_nodes_spec (ocean_graph elist)) as (HS & HV). split; auto.
  - apply (Permutation_NoDup (Permutation_sym (Hs _))). apply GI.
  - intros a b Hi. apply (Permutation_in _ (Hs _)) in Hi. rewrite !HV. split; [|apply (gi_ends _ GI _ _ Hi)].
    pose proof (gi_ends _ GI _ _ Hi) as (Hle & _). apply GE in Hi as (x & y & Hxy & E).
    apply Hl in Hxy. unfold edge_key in E. injection E as -> ->. lia.
Qed.

(** For every loop-free edge list, every order of the edges and all faces for which the code does
    not raise. The rows of B1 are numbered by the sorted nodes. *)
Theorem C34_ocean_incidence elist sort faces B1 B2 :
  loop_free elist -> (forall l, Permutation (sort l) l) ->
  let V := sorted_nodes (ocean_graph elist) in
  let E := sort (g_edges (ocean_graph elist)) in
  incidence_matrices V E faces = Ok (B1, B2) ->
  product_zero B1 B2 /\
  (forall e, e < m_c B1 -> edge_like B1 e) /\
  (forall k, k < m_c B2 -> triangle_like B2 k) /\
  (forall i e v a b, nth_error V i = Some v -> nth_error E e = Some (a, b) ->
     m_at B1 i e = (ind b v - ind a v)%Z) /\
  (forall e k a b t, nth_error E e = Some (a, b) -> nth_error faces k = Some t ->
     m_at B2 e k = runs t a b).
Proof.
  intros Hl Hs V E H. pose proof (ocean_graph_ok elist sort Hl Hs) as HO. fold V E in HO.
  pose proof (incidence_faces _ _ _ _ _ H) as HF.
  destruct (incidence_matrices_spec V E faces HO HF) as (B1' & B2' & E' & H1 & H2).
  assert (EB : Ok (B1', B2') = Ok (B1, B2)) by congruence. injection EB as -> ->.
  pose proof (ocean_pair V E faces B1 B2 HO HF H1 H2) as BP.
  split; [eapply pair_product_zero; [apply pos_edge_sym|exact BP]|].
  split; [intros; eapply pair_edge_like; eauto|].
  split; [intros; eapply pair_triangle_like; [apply pos_edge_sym|exact BP|auto]|].
  split.
  - intros i e v a b Hi He. destruct (ocean_edge_col V E B1 e a b HO H1 He) as (_ & _ & Hc). rewrite Hc.
    pose proof (nth_error_In _ _ He) as Hab. apply (oo_ends _ _ HO) in Hab as (_ & Ha & Hb).
    pose proof (nth_error_In _ _ Hi) as Hv.
    rewrite <- (nth_posn V i v) by (auto; apply StronglySorted_NoDup, HO).
    unfold ind. rewrite !posn_eqb by auto. reflexivity.
  - intros e k a b t He Hk. destruct H2 as (_ & _ & Hat). rewrite Hat, Hk, He.
    assert (Lk : k < length faces) by (apply nth_error_Some; congruence). apply Nat.ltb_lt in Lk. rewrite Lk. auto.
Qed.

(** It raises exactly when a face has an edge that is not in the graph or is not sorted. *)
Theorem C34_ocean_succeeds elist sort faces :
  loop_free elist -> (forall l, Permutation (sort l) l) ->
  let V := sorted_nodes (ocean_graph elist) in
  let E := sort (g_edges (ocean_graph elist)) in
  (exists r, incidence_matrices V E faces = Ok r) <-> (forall t, In t faces -> face_ok E t).
Proof.
  intros Hl Hs V E. pose proof (ocean_graph_ok elist sort Hl Hs) as HO. fold V E in HO. split.
  - intros ((B1 & B2) & H). apply (incidence_faces _ _ _ _ _ H).
  - intros HF. destruct (incidence_matrices_spec V E faces HO HF) as (B1 & B2 & -> & _). eauto.
Qed.

(** With self loops the claim is false: the column of a loop is zero, and a degenerate face passes
    all lookups. *)
Theorem C34_self_loop_refuted :
  exists elist faces B1 B2,
    let g := ocean_graph elist in
    incidence_matrices (sorted_nodes g) (g_edges g) faces = Ok (B1, B2) /\
    ~ product_zero B1 B2 /\ ~ edge_like B1 0.
Proof.
  exists [(0, 0); (0, 1)], [(0, 0, 1)].
  pose (r := incidence_matrices (sorted_nodes (ocean_graph [(0, 0); (0, 1)])) (g_edges (ocean_graph [(0, 0); (0, 1)])) [(0, 0, 1)]).
  exists (match r with Ok p => fst p | Err _ => mzeros 0 0 end), (match r with Ok p => snd p | Err _ => mzeros 0 0 end).
  simpl. split; [reflexivity|]. split.
  - intros (_ & H). specialize (H 0 0). vm_compute in H. assert (1 = 0)%Z by (apply H; lia). lia.
  - intros (a & b & Ha & Hb & E1 & _). vm_compute in Ha. destruct a as [|[|a]]; [| |lia]; vm_compute in E1; lia.
Qed.

(** ** C39 *)

Lemma unspurs_preserve (Q : list nat -> Prop) : (forall p q, unspur p q -> Q p -> Q q) ->
  forall p q, unspurs p q -> Q p -> Q q.
Proof. intros H p q Hpq. induction Hpq; eauto. Qed.

(** Stripping: the result arises by cutting spurs x, y, x only, contains none, and it is the only such
    path; start, end, being a walk and net traversals are kept. *)
Theorem C39_strip p :
  unspurs p (strip_path p) /\ reduced (strip_path p) /\
  (forall q, unspurs p q -> reduced q -> q = strip_path p) /\
  (forall v, starts p v -> starts (strip_path p) v) /\
  (forall v, ends p v -> ends (strip_path p) v) /\
  (forall R, walk_along R p -> walk_along R (strip_path p)) /\
  (forall u v, net (strip_path p) u v = net p u v).
Proof.
  assert (HR : unspurs p (strip_path p)) by apply (strip_reach p []).
  split; auto. split; [apply strip_reduced|].
  split; [intros q H1 H2; symmetry; apply strip_unique; auto|].
  split; [intros v; apply (unspurs_preserve (fun p => starts p v)); auto; intros ? ?; apply unspur_starts|].
  split; [intros v; apply (unspurs_preserve (fun p => ends p v)); auto; intros ? ?; apply unspur_ends|].
  split; [intros R; apply (unspurs_preserve (walk_along R)); auto; intros ? ?; apply unspur_walk|].
  intros u v. symmetry. clear - HR. induction HR as [a b H| |]; [|auto|congruence].
  apply unspur_net; auto.
Qed.

(** A kept path is a stripped trajectory, shortened by its last node when it came back to its start. *)
Theorem C39_kept_paths trajs q : In q (ocean_paths trajs) ->
  exists p, In p trajs /\
    (q = strip_path p \/ exists z, strip_path p = q ++ [z] /\ starts (strip_path p) z) /\
    reduced q /\ 4 <= length q /\
    (walk_along (fun a b => a <> b) p -> exists s t, starts q s /\ ends q t /\ s <> t) /\
    (forall R, walk_along R p -> walk_along R q).
Proof.
  intros H. unfold ocean_paths in H. apply in_map_iff in H as (q0 & <- & H). apply filter_In in H as (H & Hlen).
  apply Nat.leb_le in Hlen. apply in_map_iff in H as (p & <- & Hp). exists p. split; auto.
  destruct (C39_strip p) as (_ & Hr & _ & _ & _ & Hw & _). remember (strip_path p) as q0 eqn:Hq0. clear Hq0.
  assert (Hd : exists a b c d l, q0 = a :: b :: c :: d :: l)
    by (destruct q0 as [|a [|b [|c [|d l]]]]; simpl in Hlen; try lia; eauto 6).
  destruct Hd as (a & b & c & d & l0 & Eq).
  assert (Hz : exists l y z, q0 = l ++ [y; z]).
  { destruct (exists_last (l := q0)) as (l1 & z & E); [rewrite Eq; discriminate|].
    destruct (exists_last (l := l1)) as (l & y & E'); [intros E0; rewrite E, E0 in Hlen; simpl in Hlen; lia|].
    exists l, y, z. rewrite E, E', <- app_assoc. reflexivity. }
  destruct Hz as (l & y & z & Ez).
  assert (Ho : open_path q0 = if z =? a then l ++ [y] else q0).
  { unfold open_path, last_node. replace (hd_error q0) with (Some a) by (rewrite Eq; auto).
    replace (hd_error (rev q0)) with (Some z) by (rewrite Ez, rev_app_distr; auto).
    destruct (z =? a); auto. rewrite Ez. replace (l ++ [y; z]) with ((l ++ [y]) ++ [z]) by (rewrite <- app_assoc; auto).
    apply removelast_last. }
  rewrite Ho. assert (Hlq : length q0 = length l + 2) by (rewrite Ez, app_length; auto).
  destruct (Nat.eqb_spec z a) as [->|Hne].
  - assert (Hst : starts q0 a) by (unfold starts; rewrite Eq; auto).
    split; [right; exists a; split; auto; rewrite <- app_assoc; auto|].
    split; [|split; [rewrite app_length; simpl; lia|]].
    { rewrite Ez in Hr. clear - Hr. revert Hr. induction l as [|x l IH]; intros Hr; [exact I|].
      pose proof (IH (reduced_tail _ _ Hr)) as H. destruct l as [|w [|w' l]]; simpl in *; tauto. }
    split.
    + intros HR. apply Hw in HR. rewrite Ez in HR. apply walk_app in HR as (_ & (HR & _)).
      exists a, y. split; [|split; auto].
      * unfold starts in *. rewrite Ez in Hst. destruct l; [simpl in Hlq; lia|]. auto.
      * unfold ends. rewrite rev_app_distr. reflexivity.
    + intros R HR. apply Hw in HR. rewrite Ez in HR. apply walk_app in HR. tauto.
  - split; [left; auto|]. split; auto. split; [lia|]. split.
    + intros _. exists a, z. split; [unfold starts; rewrite Eq; auto|]. split; auto. unfold ends. rewrite Ez, rev_app_distr. reflexivity.
    + intros R HR. apply Hw; auto.
Qed.

(** The flow of a walk: net traversals along every edge, divergence end minus start. *)
Theorem C39_flow elist sort faces B1 B2 p x :
  loop_free elist -> (forall l, Permutation (sort l) l) ->
  let V := sorted_nodes (ocean_graph elist) in
  let E := sort (g_edges (ocean_graph elist)) in
  incidence_matrices V E faces = Ok (B1, B2) -> path_to_flow E p = Ok x ->
  length x = length E /\ walk_along (linked E) p /\
  (forall e a b, nth_error E e = Some (a, b) -> nth e x 0%Z = net p a b) /\
  (forall s t i v, starts p s -> ends p t -> nth_error V i = Some v ->
     outflow B1 x i = (ind t v - ind s v)%Z).
Proof.
  intros Hl Hs V E H Hx. pose proof (ocean_graph_ok elist sort Hl Hs) as HO. fold V E in HO.
  destruct (path_to_flow_spec V E p x HO Hx) as (Hw & HL & Hn). split; auto. split; auto. split; auto.
  pose proof (incidence_faces _ _ _ _ _ H) as HF.
  destruct (incidence_matrices_spec V E faces HO HF) as (B1' & B2' & E' & H1 & H2).
  assert (EB : Ok (B1', B2') = Ok (B1, B2)) by congruence. injection EB as -> ->.
  intros s t i v Hst Hen Hi. eapply path_outflow; eauto.
Qed.

(** It is defined exactly for walks along edges of the graph. *)
Theorem C39_flow_succeeds elist sort p :
  loop_free elist -> (forall l, Permutation (sort l) l) ->
  let E := sort (g_edges (ocean_graph elist)) in
  (exists x, path_to_flow E p = Ok x) <-> walk_along (linked E) p.
Proof.
  intros Hl Hs E. pose proof (ocean_graph_ok elist sort Hl Hs) as HO. split.
  - intros (x & Hx). eapply path_to_flow_spec; eauto.
  - intros Hw. eapply path_to_flow_ok; eauto.
Qed.

(** Walking back cancels: a walk followed by its reverse has no net flow; a stripped walk has the
    flow of the original. *)
Lemma net_rev p u v : net (rev p) u v = (- net p u v)%Z.
Proof.
  induction p as [|a p IH]; [reflexivity|]. destruct p as [|b p]; [reflexivity|].
  cbn [rev] in *. rewrite <- app_assoc. cbn [app]. rewrite net_app, IH.
  change (net (a :: b :: p) u v) with (step a b u v + net (b :: p) u v)%Z.
  change (net [b; a] u v) with (step b a u v + 0)%Z. pose proof (step_anti a b u v). lia.
Qed.
Theorem C39_back_and_forth p a x elist sort :
  loop_free elist -> (forall l, Permutation (sort l) l) ->
  let E := sort (g_edges (ocean_graph elist)) in
  path_to_flow E (p ++ a :: rev p) = Ok x -> forall e, nth e x 0%Z = 0%Z.
Proof.
  intros Hl Hs E Hx e. pose proof (ocean_graph_ok elist sort Hl Hs) as HO. fold E in HO.
  destruct (path_to_flow_spec _ E _ x HO Hx) as (_ & HL & Hn).
  destruct (nth_error E e) as [[u v]|] eqn:Ee.
  - rewrite (Hn e u v Ee), net_app. replace (a :: rev p) with (rev (p ++ [a])) by (rewrite rev_app_distr; auto).
    rewrite net_rev. lia.
  - apply nth_error_None in Ee. apply nth_overflow. lia.
Qed.
Theorem C39_strip_flow p x y elist sort :
  loop_free elist -> (forall l, Permutation (sort l) l) ->
  let E := sort (g_edges (ocean_graph elist)) in
  path_to_flow E p = Ok x -> path_to_flow E (strip_path p) = Ok y -> x = y.
Proof.
  intros Hl Hs E Hx Hy. pose proof (ocean_graph_ok elist sort Hl Hs) as HO. fold E in HO.
  destruct (path_to_flow_spec _ E _ x HO Hx) as (_ & HL & Hn).
  destruct (path_to_flow_spec _ E _ y HO Hy) as (_ & HL' & Hn').
  apply (nth_ext _ _ 0%Z 0%Z); [congruence|]. intros e He. rewrite HL in He.
  destruct (nth_error E e) as [[u v]|] eqn:Ee; [|apply nth_error_None in Ee; lia].
  rewrite (Hn e u v Ee), (Hn' e u v Ee). symmetry. apply (C39_strip p).
Qed.

(** ** C50: labels, split and dataset *)

(** Twice the signed area of the triangle (c, p, q), by the shoelace formula: positive if the way from
    p to q runs counterclockwise around c, negative if clockwise, zero if the points are in line. *)
Definition area2 (c p q : Z * Z) : Z :=
  (fst c * (snd p - snd q) + fst p * (snd q - snd c) + fst q * (snd c - snd p))%Z.
(** "Clockwise" is 0 and "Anticlockwise" 1 (ocean_utils.py:249-252). *)
Definition label_of (c p q : Z * Z) (y : Z) : Prop :=
  (area2 c p q < 0 /\ y = 0 \/ area2 c p q > 0 /\ y = 1)%Z.
(** [k] is the integer nearest to eight tenths of [n]. *)
Definition eight_tenths (n k : nat) : Prop := 10 * k < 8 * n + 5 /\ 8 * n < 10 * k + 5.

Lemma cross_area c p q : cross c p q = (- area2 c p q)%Z.
Proof. unfold cross, area2. ring. Qed.
Lemma turn_label c p q y : turn c p q = Ok y -> label_of c p q y.
Proof.
  unfold turn, label_of. rewrite cross_area. destruct (Z.ltb_spec 0 (- area2 c p q)); [intros E; injection E as <-; left; lia|].
  destruct (Z.ltb_spec (- area2 c p q) 0); [intros E; injection E as <-; right; lia|discriminate].
Qed.
Theorem C50_label center coords p y : extract_label center coords p = Ok y ->
  exists s t ps pt, starts p s /\ ends p t /\ nth_error coords s = Some ps /\ nth_error coords t = Some pt /\ label_of center ps pt y.
Proof.
  unfold extract_label, last_node. intros H.
  apply bind_ok in H as (a & Ha & H). apply bind_ok in H as (z & Hz & H).
  apply bind_ok in H as (pa & Epa & H). apply bind_ok in H as (pz & Epz & H).
  exists a, z, pa, pz. apply get_ok in Epa, Epz. unfold starts, ends.
  destruct (hd_error p); [|discriminate]. destruct (hd_error (rev p)); [|discriminate]. injection Ha as ->. injection Hz as ->.
  do 4 (split; auto). apply turn_label; auto.
Qed.
Lemma round_eight n : eight_tenths n (round_div (8 * n) 10).
Proof.
  unfold eight_tenths, round_div. pose proof (Nat.div_mod (8 * n) 10 ltac:(lia)) as E. pose proof (Nat.mod_upper_bound (8 * n) 10 ltac:(lia)) as B.
  set (q := 8 * n / 10) in *. set (r := 8 * n mod 10) in *. destruct (Nat.compare_spec (2 * r) 10); lia.
Qed.

Lemma cross_swap c p q : cross c q p = (- cross c p q)%Z.
Proof. unfold cross. destruct c, p, q; simpl. ring. Qed.

(** Reversing a path swaps the two labels. *)
Theorem C50_label_of_reverse center coords p y :
  extract_label center coords p = Ok y -> extract_label center coords (rev p) = Ok (1 - y)%Z.
Proof.
  unfold extract_label, last_node. rewrite rev_involutive. intros H.
  apply bind_ok in H as (a & Ha & H). apply bind_ok in H as (z & Hz & H).
  apply bind_ok in H as (pa & Epa & H). apply bind_ok in H as (pz & Epz & H).
  rewrite Ha, Hz. cbn [bind]. rewrite Epz, Epa. cbn [bind]. unfold turn in *. rewrite cross_swap.
  destruct (0 <? cross center pa pz)%Z eqn:E1; [|destruct (cross center pa pz <? 0)%Z eqn:E2; [|discriminate]].
  - injection H as <-. rewrite Z.ltb_lt in E1.
    replace (0 <? - cross center pa pz)%Z with false by (symmetry; apply Z.ltb_ge; lia).
    replace (- cross center pa pz <? 0)%Z with true by (symmetry; apply Z.ltb_lt; lia). reflexivity.
  - injection H as <-. rewrite Z.ltb_lt in E2.
    replace (0 <? - cross center pa pz)%Z with true by (symmetry; apply Z.ltb_lt; lia). reflexivity.
Qed.

(** The two roundings always add up. *)
Lemma round_split n : round_div (8 * n) 10 + round_div (2 * n) 10 = n.
Proof.
  assert (H : n = 5 * (n / 5) + n mod 5) by (apply Nat.div_mod; lia).
  set (q := n / 5) in *. pose proof (Nat.mod_upper_bound n 5 ltac:(lia)) as Hr. set (r := n mod 5) in *.
  assert (D8 : forall a b, b < 10 -> 8 * n = 10 * a + b -> (8 * n) / 10 = a /\ (8 * n) mod 10 = b).
  { intros a b Hb E. split; symmetry; [apply (Nat.div_unique _ _ _ b)|apply (Nat.mod_unique _ _ a)]; auto; lia. }
  assert (D2 : forall a b, b < 10 -> 2 * n = 10 * a + b -> (2 * n) / 10 = a /\ (2 * n) mod 10 = b).
  { intros a b Hb E. split; symmetry; [apply (Nat.div_unique _ _ _ b)|apply (Nat.mod_unique _ _ a)]; auto; lia. }
  unfold round_div.
  destruct r as [|[|[|[|[|r]]]]]; [| | | | |lia].
  - destruct (D8 (4 * q) 0) as [-> ->]; [lia|lia|]. destruct (D2 q 0) as [-> ->]; [lia|lia|]. simpl. lia.
  - destruct (D8 (4 * q) 8) as [-> ->]; [lia|lia|]. destruct (D2 q 2) as [-> ->]; [lia|lia|]. simpl. lia.
  - destruct (D8 (4 * q + 1) 6) as [-> ->]; [lia|lia|]. destruct (D2 q 4) as [-> ->]; [lia|lia|]. simpl. lia.
  - destruct (D8 (4 * q + 2) 4) as [-> ->]; [lia|lia|]. destruct (D2 q 6) as [-> ->]; [lia|lia|]. simpl. lia.
  - destruct (D8 (4 * q + 3) 2) as [-> ->]; [lia|lia|]. destruct (D2 q 8) as [-> ->]; [lia|lia|]. simpl. lia.
Qed.
Lemma mask_lengths n : length (train_mask n) = n /\
  length (filter (fun b => b) (train_mask n)) = round_div (8 * n) 10.
Proof.
  unfold train_mask. rewrite app_length, !repeat_length. split; [apply round_split|].
  rewrite filter_app, app_length.
  assert (F1 : forall m, filter (fun b : bool => b) (repeat true m) = repeat true m) by (induction m; simpl; f_equal; auto).
  assert (F2 : forall m, filter (fun b : bool => b) (repeat false m) = []) by (induction m; simpl; auto).
  rewrite F1, F2, repeat_length. simpl. lia.
Qed.

Theorem C50_mask n : length (train_mask n) = n /\ eight_tenths n (length (filter (fun b => b) (train_mask n))).
Proof. destruct (mask_lengths n) as [H ->]. split; auto. apply round_eight. Qed.

(** What one sample of the ocean dataset is: the (re-oriented) flow of its path. *)
Definition ocean_item (V : list nat) (E : list (nat * nat)) (B1 B2 : mat) (center : Z * Z)
    (coords : list (Z * Z)) (p : list nat) (c : cochain Z) : Prop :=
  exists d x y s t ps pt, signs d /\ starts p s /\ ends p t /\
    nth_error coords s = Some ps /\ nth_error coords t = Some pt /\ label_of center ps pt y /\
    (forall e a b, nth_error E e = Some (a, b) -> nth e x 0%Z = net p a b) /\
    (forall i v, nth_error V i = Some v -> outflow B1 x i = (ind t v - ind s v)%Z) /\
    is_flow_cochain (length E) B1 B2 d x y c.

Lemma orient_signs n ori bits T : orient_matrix n ori bits = Ok T -> exists d, signs d /\ T = diag_mat n d.
Proof.
  destruct ori; simpl; intros H; try discriminate; injection H as <-; eexists; split; try reflexivity; intros i; auto.
  destruct (bits i); auto.
Qed.

Lemma Forall2_combine_index {A B} (R : A -> B -> Prop) l r : Forall2 R l r ->
  forall i a b, nth_error l i = Some a -> nth_error r i = Some b -> R a b.
Proof.
  induction 1 as [|x y l r H HF IH]; intros [|i] a b Ea Eb; simpl in *; try discriminate; eauto. congruence.
Qed.
Lemma nth_error_combine {A B} (l : list A) (r : list B) i a b :
  nth_error l i = Some a -> nth_error r i = Some b -> nth_error (combine l r) i = Some (a, b).
Proof.
  revert r i; induction l as [|x l IH]; intros [|y r] [|i] Ea Eb; simpl in *; try discriminate; auto. congruence.
Qed.
Lemma get_nth_error {A} (l : list A) i a : get l i = Ok a -> nth_error l i = Some a.
Proof. unfold get. destruct (nth_error l i); simpl; congruence. Qed.

(** Every kept path gives one sample; the mask decides where it goes, order is kept. *)
Theorem C50_ocean_dataset sort order shuffle bits otr ote elist faces trajs center coords tr te :
  loop_free elist -> (forall l, Permutation (sort l) l) -> (forall l, Permutation (order l) l) ->
  (forall l, Permutation (shuffle l) l) ->
  load_ocean sort order shuffle bits otr ote elist faces trajs center coords = Ok (tr, te) ->
  let V := sorted_nodes (ocean_graph elist) in
  let E := sort (g_edges (ocean_graph elist)) in
  let paths := ocean_paths trajs in
  exists B1 B2 mask samples,
    incidence_matrices V E faces = Ok (B1, B2) /\
    length mask = length paths /\ length samples = length paths /\
    tr = map snd (filter fst (combine mask samples)) /\
    te = map snd (filter (fun s => negb (fst s)) (combine mask samples)) /\
    eight_tenths (length paths) (length tr) /\ length tr + length te = length paths /\
    Forall2 (ocean_item V E B1 B2 center coords) paths samples.
Proof.
  intros Hl Hs Hord Hsh H V E paths. pose proof (ocean_graph_ok elist sort Hl Hs) as HO. fold V E in HO.
  unfold load_ocean in H. apply bind_ok in H as ([B1 B2] & HB & H). fold V E in HB.
  apply bind_ok in H as (u1 & _ & H). fold paths in H. set (mask := shuffle (train_mask (length paths))) in *.
  apply bind_ok in H as (flows & Hf & H). apply bind_ok in H as (labels & Hlb & H).
  apply bind_ok in H as (u2 & _ & H). apply bind_ok in H as (u3 & _ & H). apply bind_ok in H as (u4 & _ & H).
  apply bind_ok in H as (out & Hout & H). injection H as <- <-.
  apply mapM_ok_iff in Hf, Hlb, Hout.
  pose proof (Forall2_length Hf) as Lf. pose proof (Forall2_length Hlb) as Lb.
  assert (Lm : length mask = length paths).
  { unfold mask. rewrite (Permutation_length (Hsh _)). apply C50_mask. }
  assert (Lo : length out = length paths).
  { apply Forall2_length in Hout. rewrite <- Hout, !combine_length, seq_length. lia. }
  assert (Hfst : map fst out = mask /\ forall i p c, nth_error paths i = Some p -> nth_error (map snd out) i = Some c ->
      ocean_item V E B1 B2 center coords p c).
  { assert (Hnth : forall i b c, nth_error out i = Some (b, c) -> nth_error mask i = Some b /\
        forall p, nth_error paths i = Some p -> ocean_item V E B1 B2 center coords p c).
    { intros i b c Hi. assert (Li : i < length paths) by (rewrite <- Lo; apply nth_error_Some; congruence).
      destruct (nth_error mask i) as [m|] eqn:Em; [|apply nth_error_None in Em; lia].
      destruct (nth_error flows i) as [x|] eqn:Ex; [|apply nth_error_None in Ex; lia].
      destruct (nth_error labels i) as [y|] eqn:Ey; [|apply nth_error_None in Ey; lia].
      assert (Es : nth_error (seq 0 (length flows)) i = Some i).
      { rewrite nth_error_nth' with (d := 0) by (rewrite seq_length; lia). rewrite seq_nth by lia. auto. }
      pose proof (Forall2_combine_index _ _ _ Hout i _ _
        (nth_error_combine _ _ i _ _ Es (nth_error_combine _ _ i _ _ Em (nth_error_combine _ _ i _ _ Ex Ey))) Hi) as Hs'.
      cbn beta iota in Hs'. unfold ocean_sample in Hs'. apply bind_ok in Hs' as (T & HT & Hs').
      apply bind_ok in Hs' as (c' & Hc' & Hs'). injection Hs' as -> ->. split; auto.
      intros p Hp. pose proof (Forall2_combine_index _ _ _ Hf i p x Hp Ex) as Hpx.
      pose proof (Forall2_combine_index _ _ _ Hlb i p y Hp Ey) as Hpy. cbn beta in Hpx, Hpy.
      destruct (C39_flow elist sort faces B1 B2 p x Hl Hs HB Hpx) as (_ & _ & Hn & Ho).
      unfold extract_label in Hpy. apply bind_ok in Hpy as (s & Es1 & Hpy). apply bind_ok in Hpy as (t & Et1 & Hpy).
      apply bind_ok in Hpy as (ps & Eps & Hpy). apply bind_ok in Hpy as (pt & Ept & Hpy).
      apply get_nth_error in Eps, Ept.
      assert (Hst : starts p s) by (unfold starts; destruct (hd_error p); simpl in Es1; congruence).
      assert (Hen : ends p t) by (unfold ends; unfold last_node in Et1; destruct (hd_error (rev p)); simpl in Et1; congruence).
      pose proof (incidence_faces _ _ _ _ _ HB) as HF.
      destruct (incidence_matrices_spec V E faces HO HF) as (B1' & B2' & E' & H1 & H2).
      assert (EB : Ok (B1', B2') = Ok (B1, B2)) by congruence. injection EB as -> ->.
      destruct H1 as (_ & Hc1 & _), H2 as (Hr2 & _).
      destruct (orient_signs _ _ _ _ HT) as (d & Hd & ->). rewrite Hc1 in Hc'.
      exists d, x, y, s, t, ps, pt. split; auto. split; auto. split; auto. split; auto. split; auto. split; [apply turn_label; auto|].
      split; auto. split; [intros; apply Ho; auto|].
      eapply (build_cochain_sound order B1 B2 (length E) d x y); eauto. }
    split.
    - apply nth_error_ext. intros i. rewrite nth_error_map.
      destruct (nth_error out i) as [[b c]|] eqn:Ei; simpl.
      + symmetry. eapply Hnth; eauto.
      + symmetry. apply nth_error_None. apply nth_error_None in Ei. lia.
    - intros i p c Hp Hc. rewrite nth_error_map in Hc. destruct (nth_error out i) as [[b c']|] eqn:Ei; [|discriminate].
      injection Hc as ->. eapply Hnth; eauto. }
  destruct Hfst as (Hfst & Hitem).
  assert (Hout' : out = combine mask (map snd out)).
  { rewrite <- Hfst. clear. induction out as [|[b c] l IH]; simpl; f_equal; auto. }
  exists B1, B2, mask, (map snd out). split; auto. split; auto. split; [rewrite map_length; auto|].
  rewrite <- Hout'. split; auto. split; auto.
  assert (Cnt : length (filter fst out) = round_div (8 * length paths) 10).
  { destruct (mask_lengths (length paths)) as (_ & <-). rewrite <- (filter_perm_length (fun b => b) _ _ (Hsh _)).
    fold mask. rewrite <- Hfst. clear. induction out as [|[[] c] l IH]; simpl; auto. }
  split; [rewrite map_length, Cnt; apply round_eight|]. split.
  - rewrite !map_length. pose proof (filter_length_split fst out). pose proof (round_split (length paths)). lia.
  - clear - Hitem Lo. rewrite <- (map_length snd) in Lo. revert Hitem Lo. generalize (map snd out). intros l; revert l.
    generalize paths. intros ps. induction ps as [|p ps IH]; intros [|c l] Hi HL; simpl in HL; try lia; constructor.
    + apply (Hi 0); auto.
    + apply IH; [|lia]. intros i p' c' Hp Hc. apply (Hi (S i)); auto.
Qed.

Lemma distinct_positions V E faces : ocean_ok V E -> (forall t, In t faces -> face_ok E t) ->
  distinct_tris faces -> distinct_tris (map (tri_map (posn V)) faces).
Proof.
  intros HO HF HD k k' t t' Hk Hk' Hs. rewrite nth_error_map in Hk, Hk'.
  destruct (nth_error faces k) as [u|] eqn:Eu; [|discriminate]. destruct (nth_error faces k') as [u'|] eqn:Eu'; [|discriminate].
  injection Hk as <-. injection Hk' as <-.
  assert (Hv : forall t v, verts (tri_map v t) = map v (verts t)) by (intros [[a b] c] v; reflexivity).
  rewrite !Hv in Hs.
  destruct (face_nodes V E u HO) as (HV & _); [apply HF; eapply nth_error_In; eauto|].
  destruct (face_nodes V E u' HO) as (HV' & _); [apply HF; eapply nth_error_In; eauto|].
  apply (HD k k' u u' Eu Eu'). intros v.
  assert (G : forall l l', (forall x, In x l -> In x V) -> (forall x, In x l' -> In x V) ->
     (forall i, In i (map (posn V) l) -> In i (map (posn V) l')) -> forall x, In x l -> In x l').
  { intros l l' H1 H2 H3 x Hx. specialize (H3 (posn V x) (in_map _ _ _ Hx)). apply in_map_iff in H3 as (y & Ey & Hy).
    assert (y = x). { apply Nat.eqb_eq. rewrite <- (posn_eqb V) by auto. apply Nat.eqb_eq; auto. }
    subst; auto. }
  split; apply G; auto; intros i; apply Hs.
Qed.

(** When nothing raises: walks along edges of a loop-free graph with sorted, distinct faces, enough
    of them, coordinates for the nodes, and no path whose ends are in line with the centre. *)
Theorem C50_ocean_succeeds sort order shuffle bits otr ote elist faces trajs center coords :
  loop_free elist -> (forall l, Permutation (sort l) l) -> (forall l, Permutation (order l) l) ->
  (forall l, Permutation (shuffle l) l) ->
  let E := sort (g_edges (ocean_graph elist)) in
  (forall t, In t faces -> face_ok E t) -> distinct_tris faces ->
  (forall p, In p trajs -> walk_along (linked E) p) ->
  100 < length (ocean_paths trajs) ->
  (forall p s t, In p (ocean_paths trajs) -> starts p s -> ends p t ->
     exists ps pt, nth_error coords s = Some ps /\ nth_error coords t = Some pt /\ area2 center ps pt <> 0%Z) ->
  otr <> OOther -> ote <> OOther ->
  exists r, load_ocean sort order shuffle bits otr ote elist faces trajs center coords = Ok r.
Proof.
  intros Hl Hs Hord Hsh E HF HD Hw H100 Hco Htr Hte. pose proof (ocean_graph_ok elist sort Hl Hs) as HO. fold E in HO.
  unfold load_ocean. fold E. set (V := sorted_nodes (ocean_graph elist)) in *.
  destruct (incidence_matrices_spec V E faces HO HF) as (B1 & B2 & -> & H1 & H2). cbn [bind].
  pose proof (ocean_pair V E faces B1 B2 HO HF H1 H2) as BP.
  destruct H1 as (_ & Hc1 & _), H2 as (Hr2 & _).
  set (paths := ocean_paths trajs) in *.
  destruct paths as [|p0 ps0] eqn:Ep; [simpl in H100; lia|]. rewrite <- Ep in *. clear Ep p0 ps0. cbn [bind].
  assert (Hf : exists flows, mapM (path_to_flow E) paths = Ok flows /\ Forall2 (fun _ x => length x = length E) paths flows).
  { assert (G : forall q, In q paths -> exists x, path_to_flow E q = Ok x /\ length x = length E).
    { intros q Hq. destruct (C39_kept_paths trajs q Hq) as (p & Hp & _ & _ & _ & _ & Hww).
      destruct (path_to_flow_ok V E q HO) as (x & Hx); [apply Hww, Hw; auto|].
      exists x. split; auto. eapply path_to_flow_spec; eauto. }
    clear - G. induction paths as [|p ps IH]; simpl; [exists []; auto|].
    destruct (G p (or_introl eq_refl)) as (x & -> & Lx). destruct IH as (xs & -> & F); [intros; apply G; right; auto|].
    exists (x :: xs). auto. }
  destruct Hf as (flows & -> & Lfl). cbn [bind].
  assert (Hlb : exists labels, mapM (extract_label center coords) paths = Ok labels).
  { assert (G : forall q, In q paths -> exists y, extract_label center coords q = Ok y).
    { intros q Hq. destruct (C39_kept_paths trajs q Hq) as (p & Hp & _ & _ & HL & _).
      destruct q as [|a q]; [simpl in HL; lia|].
      destruct (rev (a :: q)) as [|z l] eqn:Er. { apply (f_equal (@length nat)) in Er. rewrite rev_length in Er. discriminate. }
      destruct (Hco (a :: q) a z Hq) as (ps & pt & E1 & E2 & Hne); [reflexivity|unfold ends; rewrite Er; reflexivity|].
      unfold extract_label, last_node. rewrite Er. cbn [hd_error of_option bind]. unfold get. rewrite E1, E2. cbn [of_option bind].
      unfold turn. rewrite cross_area. destruct (Z.ltb_spec 0 (- area2 center ps pt)); [eauto|].
      destruct (Z.ltb_spec (- area2 center ps pt) 0); [eauto|lia]. }
    clear - G. induction paths as [|p ps IH]; simpl; [eauto|].
    destruct (G p (or_introl eq_refl)) as (x & ->). destruct IH as (xs & ->); [intros; apply G; right; auto|]. simpl. eauto. }
  destruct Hlb as (labels & Hlb). rewrite Hlb. cbn [bind]. apply mapM_ok_iff, Forall2_length in Hlb.
  replace (length labels <=? 100) with false by (symmetry; apply Nat.leb_gt; lia). cbn [bind].
  rewrite forallb_assert; [cbn [bind]|].
  2:{ apply Nat.eqb_eq. rewrite (Permutation_length (Hsh _)), <- Hlb. symmetry. apply C50_mask. }
  rewrite forallb_assert by (apply Nat.eqb_eq; congruence). cbn [bind].
  match goal with |- exists r, bind (mapM ?f ?l) _ = _ => assert (G : exists out, mapM f l = Ok out) end.
  { assert (G : forall i m x y, length x = length E -> exists q, ocean_sample order B1 B2 (length (g_edges (ocean_graph elist)))
             otr ote bits i m x y = Ok q).
    { intros i m x y Lx. unfold ocean_sample.
      assert (HT : exists T, orient_matrix (m_c B1) (if m then otr else ote) (bits i) = Ok T).
      { destruct m; [destruct otr|destruct ote]; simpl; eauto; congruence. }
      destruct HT as (T & HT). rewrite HT. cbn [bind]. destruct (orient_signs _ _ _ _ HT) as (d & Hd & ->). rewrite Hc1.
      destruct (build_cochain_ok order B1 B2 (length E) d x y (Some (length (g_edges (ocean_graph elist))))) as (c & ->); auto.
      - intros a b Ha Hb Hne. rewrite <- Hc1 in *. eapply gram_B1_bound; eauto.
      - intros a b Ha Hb Hne. rewrite <- Hc1 in *. eapply gram_B2_bound; eauto. eapply distinct_positions; eauto.
      - intros k Ek. injection Ek as <-. apply Permutation_length, Hs.
      - cbn [bind]. eauto. }
    assert (Gl : forall l, (forall i m x y, In (i, (m, (x, y))) l -> length x = length E) ->
      exists out, mapM (fun q => let '(i, (tr, (fl, lb))) := q in
        ocean_sample order B1 B2 (length (g_edges (ocean_graph elist))) otr ote bits i tr fl lb) l = Ok out).
    { induction l as [|[i [m [x y]]] l IH]; intros HL; simpl; [eauto|].
      destruct (G i m x y) as (q & ->); [eapply HL; left; eauto|]. cbn [bind].
      destruct IH as (out & ->); [intros; eapply HL; right; eauto|]. simpl. eauto. }
    apply Gl. intros i m x y Hi. apply in_combine_r, in_combine_r, in_combine_l in Hi.
    clear - Lfl Hi. induction Lfl as [|p f ps fs H HF IH]; [destruct Hi|]. destruct Hi as [<-|Hi]; auto. }
  destruct G as (out & ->). cbn [bind]. eauto.
Qed.

(** ** Examples *)

(** Two triangles on the nodes 1, 3, 4, 7 (no node 0, so rows are not node numbers). *)
Definition sea_edges : list (nat * nat) := [(3, 1); (4, 3); (1, 4); (7, 3); (4, 7); (3, 4)].
Definition sea_faces : list tri := [(1, 3, 4); (3, 4, 7)].
Definition sea_E := g_edges (ocean_graph sea_edges).

Example sea_ok : loop_free sea_edges /\ (forall t, In t sea_faces -> face_ok sea_E t) /\
  sorted_nodes (ocean_graph sea_edges) = [1; 3; 4; 7] /\
  sea_E = [(1, 3); (3, 4); (1, 4); (3, 7); (4, 7)].
Proof.
  split; [|split; [|split; reflexivity]].
  - intros a b H. simpl in H. repeat destruct H as [E|H]; try (injection E as <- <-; discriminate). destruct H.
  - replace sea_E with [(1, 3); (3, 4); (1, 4); (3, 7); (4, 7)] by reflexivity.
    intros t [<-|[<-|[]]]; repeat split; simpl; auto 10.
Qed.

Example sea_matrices : match incidence_matrices [1; 3; 4; 7] sea_E sea_faces with
  | Ok (B1, B2) => map (fun i => map (m_at B1 i) (seq 0 5)) (seq 0 4) =
      [[-1;0;-1;0;0]; [1;-1;0;-1;0]; [0;1;1;0;-1]; [0;0;0;1;1]]%Z /\
      map (fun e => map (m_at B2 e) (seq 0 2)) (seq 0 5) = [[1;0]; [1;1]; [-1;0]; [0;-1]; [0;1]]%Z
  | Err _ => False
  end.
Proof. vm_compute. auto. Qed.

Example strip_example : strip_path [1; 3; 4; 3; 4; 7; 4; 1] = [1; 3; 4; 1] /\
  path_to_flow sea_E [1; 3; 4; 3; 4; 7; 4; 1] = Ok [1; 1; -1; 0; 0]%Z /\
  path_to_flow sea_E [1; 3; 4; 1] = Ok [1; 1; -1; 0; 0]%Z.
Proof. repeat split; reflexivity. Qed.

(** A full dataset: 103 copies of a path of five nodes, 82 for training, 21 for testing. *)
Definition sea_coords : list (Z * Z) := [(0,0); (1,0); (5,5); (0,1); (2,3); (5,5); (5,5); (-1,2)]%Z.
Definition sea_trajs := repeat [3; 1; 4; 3; 7] 103.
Definition sea_data := load_ocean (fun l => l) (fun l => l) (@rev bool) (fun _ _ => true)
  ODefault ORandom sea_edges sea_faces sea_trajs (0, 0)%Z sea_coords.
Example sea_dataset : match sea_data with
  | Ok (tr, te) => length tr = 82 /\ length te = 21 /\
      map (@c_x Z) (firstn 2 tr) = [Some [-1; -1; 1; 1; 0]; Some [-1; -1; 1; 1; 0]]%Z /\
      map (@c_y Z) (firstn 1 te) = [Some [1%Z]]
  | Err _ => False
  end.
Proof. vm_compute. auto. Qed.
Lemma sea_walk : walk_along (linked [(1, 3); (3, 4); (1, 4); (3, 7); (4, 7)]) [3; 1; 4; 3; 7].
Proof. repeat split; [right|left|right|left]; simpl; auto 10. Qed.
Example sea_hypotheses : (forall p, In p sea_trajs -> walk_along (linked sea_E) p) /\
  length (ocean_paths sea_trajs) = 103 /\ distinct_tris sea_faces /\
  forall p s t, In p (ocean_paths sea_trajs) -> starts p s -> ends p t ->
    exists ps pt, nth_error sea_coords s = Some ps /\ nth_error sea_coords t = Some pt /\
      cross (0, 0)%Z ps pt <> 0%Z.
Proof.
  split; [|split; [reflexivity|split]].
  - intros p Hp. apply repeat_spec in Hp. subst p. exact sea_walk.
  - intros k k' t t' E E' H. destruct k as [|[|k]], k' as [|[|k']]; simpl in E, E'; auto;
      try (destruct k; discriminate); try (destruct k'; discriminate); injection E as <-; injection E' as <-; exfalso.
    + specialize (H 1). simpl in H. assert (3 = 1 \/ 4 = 1 \/ 7 = 1 \/ False) by (apply H; auto). lia.
    + specialize (H 1). simpl in H. assert (3 = 1 \/ 4 = 1 \/ 7 = 1 \/ False) by (apply H; auto). lia.
  - intros p s t Hp Hs Ht. replace (ocean_paths sea_trajs) with (repeat [3; 1; 4; 3; 7] 103) in Hp by reflexivity.
    apply repeat_spec in Hp. subst p. injection Hs as <-. injection Ht as <-.
    exists (0, 1)%Z, (-1, 2)%Z. repeat split. vm_compute. discriminate.
Qed.

(** With 100 kept paths or fewer the code raises (it prints the label of path number 100). *)
Theorem C50_few_paths_refuted : exists elist faces trajs center coords,
  (forall p, In p trajs -> walk_along (linked (g_edges (ocean_graph elist))) p) /\
  length (ocean_paths trajs) = 100 /\
  load_ocean (fun l => l) (fun l => l) (fun l => l) (fun _ _ => true) ODefault ODefault
    elist faces trajs center coords = Err IndexError.
Proof.
  exists sea_edges, sea_faces, (repeat [3; 1; 4; 3; 7] 100), (0, 0)%Z, sea_coords.
  split; [|split; [reflexivity|vm_compute; reflexivity]].
  intros p Hp. apply repeat_spec in Hp. subst p. exact sea_walk.
Qed.

Print Assumptions C34_ocean_incidence.
Print Assumptions C34_ocean_succeeds.
Print Assumptions C34_self_loop_refuted.
Print Assumptions C39_strip.
Print Assumptions C39_kept_paths.
Print Assumptions C39_flow.
Print Assumptions C39_flow_succeeds.
Print Assumptions C39_back_and_forth.
Print Assumptions C39_strip_flow.
Print Assumptions C50_label.
Print Assumptions C50_label_of_reverse.
Print Assumptions C50_mask.
Print Assumptions C50_ocean_dataset.
Print Assumptions C50_ocean_succeeds.
Print Assumptions C50_few_paths_refuted.
