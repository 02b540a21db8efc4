(** The cells of a disjoint union of graphs are those of the graphs: cliques and induced cycles do not
    cross the members. *)
From Coq Require Import List Arith Lia ZArith Bool Permutation.
From Verif Require Import Base ScatterModel ScatterSpec ScatterProofs ComplexModel BatchSpec BatchSpec2 BatchProofs BatchProofs2
  MPModel MPSpec MPProofs MPEngine MPBatch MPIso
  LiftModel LiftSpec LiftBase LiftProofs LiftClique LiftTables LiftCliqueProps LiftRing LiftProps LiftRingProps LiftIso
  UnionSpec UnionProofs.
Import ListNotations.

Section Graphs.
Context {V : Type}.
Variable gs : list (graph V).
Notation nb := (nodes_before gs).
Notation U := (union_edges gs).
Notation N := (list_sum (map g_n gs)).
Hypothesis HG : forall g, In g gs -> graph_ok (g_edges g) (g_n g).

Let ns : list (nat -> nat) := map (fun g _ => g_n g) gs.
Lemma nb_off i : nb i = off ns i 0.
Proof. unfold nodes_before, off, ns. rewrite firstn_map, map_map. auto. Qed.
Lemma N_total : N = total ns 0.
Proof. unfold total, ns. rewrite map_map. auto. Qed.
Lemma ns_at i g : nth_error gs i = Some g -> nth_error ns i = Some (fun _ => g_n g).
Proof. intros H. unfold ns. rewrite nth_error_map, H. auto. Qed.

(** Every node belongs to one graph. *)
Lemma node_of a : a < N -> exists i g u, nth_error gs i = Some g /\ u < g_n g /\ a = u + nb i.
Proof.
  rewrite N_total. intros H. destruct (block_of ns 0 a H) as (i & sz & u & Hi & Hu & ->). unfold ns in Hi. rewrite nth_error_map in Hi.
  destruct (nth_error gs i) as [g|] eqn:E; [|discriminate]. inversion Hi; subst sz. exists i, g, u. rewrite nb_off. auto.
Qed.
Lemma node_unique i j g h u v : nth_error gs i = Some g -> nth_error gs j = Some h -> u < g_n g -> v < g_n h ->
  u + nb i = v + nb j -> i = j /\ u = v.
Proof.
  intros Hi Hj Hu Hv E. rewrite !nb_off in E.
  apply (block_unique ns 0 i j (fun _ => g_n g) (fun _ => g_n h)); auto using ns_at.
Qed.
Lemma node_lt i g u : nth_error gs i = Some g -> u < g_n g -> u + nb i < N.
Proof. intros Hi Hu. rewrite nb_off, N_total. pose proof (off_in_range ns i 0 _ u (ns_at i g Hi) Hu). lia. Qed.

Lemma union_in a b : In (a, b) U <-> exists i g u v, nth_error gs i = Some g /\ In (u, v) (g_edges g) /\ a = u + nb i /\ b = v + nb i.
Proof.
  unfold union_edges. rewrite in_concat_mapi. split.
  - intros (i & g & Hi & Hin). apply in_map_iff in Hin as ([u v] & E & Hin). cbn in E. inversion E. exists i, g, u, v. auto.
  - intros (i & g & u & v & Hi & Hin & -> & ->). exists i, g. split; auto. apply in_map_iff. exists (u, v). auto.
Qed.
Lemma union_graph_ok : graph_ok U N.
Proof.
  intros a b H. apply union_in in H as (i & g & u & v & Hi & Hin & -> & ->).
  apply (HG g (nth_error_In _ _ Hi)) in Hin as [Hu Hv]. split; apply node_lt with (g := g); auto.
Qed.
Lemma union_adjacent a b : adjacent U a b <->
  exists i g u v, nth_error gs i = Some g /\ adjacent (g_edges g) u v /\ a = u + nb i /\ b = v + nb i.
Proof.
  unfold adjacent. rewrite !union_in. split.
  - intros [Hne [H|H]]; destruct H as (i & g & u & v & Hi & Hin & -> & ->).
    + exists i, g, u, v. split; auto. split; [split; [lia|auto]|auto].
    + exists i, g, v, u. split; auto. split; [split; [lia|auto]|auto].
  - intros (i & g & u & v & Hi & [Hne [H|H]] & -> & ->); (split; [lia|]).
    + left. exists i, g, u, v. auto.
    + right. exists i, g, v, u. auto.
Qed.
Lemma adj_lt g u v : In g gs -> adjacent (g_edges g) u v -> u < g_n g /\ v < g_n g.
Proof. intros Hg [_ [H|H]]; apply (HG g Hg) in H; tauto. Qed.
(** Inside a member adjacency is that of the member. *)
Lemma adj_inside i g u v : nth_error gs i = Some g -> u < g_n g -> v < g_n g ->
  (adjacent U (u + nb i) (v + nb i) <-> adjacent (g_edges g) u v).
Proof.
  intros Hi Hu Hv. rewrite union_adjacent. split.
  - intros (j & h & u' & v' & Hj & HA & E1 & E2). destruct (adj_lt h u' v' (nth_error_In _ _ Hj) HA) as [Hu' Hv'].
    destruct (node_unique i j g h u u' Hi Hj Hu Hu' E1) as [-> ->]. assert (v = v') by lia. subst. congruence.
  - intros HA. exists i, g, u, v. auto.
Qed.
(** Adjacent nodes belong to the same member. *)
Lemma adj_same i g u b : nth_error gs i = Some g -> u < g_n g -> adjacent U (u + nb i) b ->
  exists v, v < g_n g /\ b = v + nb i /\ adjacent (g_edges g) u v.
Proof.
  intros Hi Hu HA. apply union_adjacent in HA as (j & h & u' & v' & Hj & HA & E1 & ->).
  destruct (adj_lt h u' v' (nth_error_In _ _ Hj) HA) as [Hu' Hv'].
  destruct (node_unique i j g h u u' Hi Hj Hu Hu' E1) as [-> ->]. rewrite Hi in Hj. inversion Hj; subst h. eauto.
Qed.

Notation shift i := (fun v => v + nb i).
Lemma unshift i (g : graph V) s : (forall a, In a s -> exists u, u < g_n g /\ a = u + nb i) ->
  exists s0, s = map (shift i) s0 /\ forall u, In u s0 -> u < g_n g.
Proof.
  induction s as [|a s IH]; intros H; [exists []; split; auto; intros u []|].
  destruct (H a (or_introl eq_refl)) as (u & Hu & ->). destruct IH as (s0 & -> & H0); [intros; apply H; right; auto|].
  exists (u :: s0). split; auto. intros w [<-|Hw]; auto.
Qed.
Lemma shift_NoDup i s : NoDup (map (shift i) s) <-> NoDup s.
Proof.
  split.
  - apply NoDup_map_inv.
  - intros H. apply NoDup_map_inj; auto. intros; lia.
Qed.

(** ** Cliques *)
Lemma clique_shift i g s : nth_error gs i = Some g -> (forall u, In u s -> u < g_n g) ->
  (clique U N (map (shift i) s) <-> clique (g_edges g) (g_n g) s).
Proof.
  intros Hi Hs. unfold clique. rewrite shift_NoDup. split.
  - intros (C1 & C2 & C3 & C4). split; [intros ->; apply C1; auto|]. split; auto. split; auto.
    intros u v Hu Hv Hne. apply (adj_inside i); auto. apply C4; [apply (in_map (shift i)); auto|apply (in_map (shift i)); auto|lia].
  - intros (C1 & C2 & C3 & C4). split; [destruct s; [congruence|discriminate]|]. split; auto. split.
    + intros a Ha. apply in_map_iff in Ha as (u & <- & Hu). apply node_lt with (g := g); auto.
    + intros a b Ha Hb Hne. apply in_map_iff in Ha as (u & <- & Hu), Hb as (v & <- & Hv). apply (adj_inside i g); auto.
Qed.
Lemma clique_block s : clique U N s -> exists i g s0, nth_error gs i = Some g /\ s = map (shift i) s0 /\ clique (g_edges g) (g_n g) s0.
Proof.
  intros C. pose proof C as (C1 & C2 & C3 & C4). destruct s as [|a s]; [congruence|].
  destruct (node_of a (C3 a (or_introl eq_refl))) as (i & g & u & Hi & Hu & ->).
  destruct (unshift i g ((u + nb i) :: s)) as (s0 & E & H0).
  { intros b Hb. destruct (Nat.eq_dec b (u + nb i)) as [->|Hne]; eauto.
    destruct (adj_same i g u b Hi Hu) as (v & Hv & -> & _); eauto. apply C4; auto. left; auto. }
  exists i, g, s0. split; auto. split; auto. apply (clique_shift i g s0 Hi H0). rewrite <- E. auto.
Qed.
Lemma increasing_shift i s : increasing (map (shift i) s) <-> increasing s.
Proof.
  unfold increasing. split; intros H j k a b Ha Hb Hlt.
  - enough (a + nb i < b + nb i) by lia. apply (H j k); auto; rewrite nth_error_map; [rewrite Ha|rewrite Hb]; auto.
  - rewrite nth_error_map in Ha, Hb. destruct (nth_error s j) as [a0|] eqn:E; [|discriminate]. destruct (nth_error s k) as [b0|] eqn:E'; [|discriminate].
    cbn in Ha, Hb. inversion Ha; inversion Hb; subst. specialize (H j k a0 b0 E E' Hlt). lia.
Qed.

(** ** Induced cycles *)
Lemma cycle_shift i g s : nth_error gs i = Some g -> (forall u, In u s -> u < g_n g) ->
  (induced_cycle U (map (shift i) s) <-> induced_cycle (g_edges g) s).
Proof.
  intros Hi Hs. unfold induced_cycle. rewrite shift_NoDup, map_length. split.
  - intros (C1 & C2 & C3). split; auto. split; auto. intros j k a b Ha Hb.
    rewrite <- (C3 j k (a + nb i) (b + nb i)).
    + symmetry. apply adj_inside; auto; apply Hs; eapply nth_error_In; eauto.
    + rewrite nth_error_map, Ha. auto.
    + rewrite nth_error_map, Hb. auto.
  - intros (C1 & C2 & C3). split; auto. split; auto. intros j k a b Ha Hb. rewrite nth_error_map in Ha, Hb.
    destruct (nth_error s j) as [a0|] eqn:E; [|discriminate]. destruct (nth_error s k) as [b0|] eqn:E'; [|discriminate].
    cbn in Ha, Hb. inversion Ha; inversion Hb; subst. rewrite <- (C3 j k a0 b0 E E').
    apply adj_inside; auto; apply Hs; eapply nth_error_In; eauto.
Qed.
Lemma cycle_block s : induced_cycle U s -> exists i g s0, nth_error gs i = Some g /\ s = map (shift i) s0 /\
  (forall u, In u s0 -> u < g_n g) /\ induced_cycle (g_edges g) s0.
Proof.
  intros C. pose proof C as (C1 & C2 & C3).
  destruct (nth_error s 0) as [a|] eqn:Ea; [|apply nth_error_None in Ea; lia].
  assert (Ha : a < N) by (apply (induced_range U N s union_graph_ok C); eapply nth_error_In; eauto).
  destruct (node_of a Ha) as (i & g & u & Hi & Hu & ->).
  assert (G : forall j b, nth_error s j = Some b -> exists v, v < g_n g /\ b = v + nb i).
  { induction j as [|j IH]; intros b Hb; [exists u; split; auto; congruence|].
    assert (Lj : S j < length s) by (apply nth_error_Some; congruence).
    destruct (nth_error s j) as [c|] eqn:Ec; [|apply nth_error_None in Ec; lia].
    destruct (IH c eq_refl) as (v & Hv & ->).
    assert (HA : adjacent U (v + nb i) b).
    { apply (C3 j (S j) _ _ Ec Hb). split; [lia|]. left. rewrite Nat.mod_small; lia. }
    destruct (adj_same i g v b Hi Hv HA) as (w & Hw & -> & _). eauto. }
  destruct (unshift i g s) as (s0 & -> & H0).
  { intros b Hb. apply In_nth_error in Hb as [j Hj]. eauto. }
  exists i, g, s0. split; auto. split; auto. split; auto. apply (cycle_shift i g s0 Hi H0). auto.
Qed.

(** ** The cells of the union *)
Section Cells.
Variable cs : list (nat -> list (list nat)).

Lemma off_nb : Forall2 (fun g c => length (c 0) = g_n g) gs cs -> forall i, off (sizes_of cs) i 0 = nb i.
Proof.
  intros H. clear HG ns. unfold off, sizes_of, nodes_before, list_sum. induction H as [|g c gs' cs' E H IH]; intros [|i]; cbn [map firstn fold_right]; auto.
Qed.

Lemma clique_length0 edges size k c : clique_cells edges size k c -> length (c 0) = size.
Proof.
  intros CC. assert (L : size <= length (c 0)).
  { destruct size as [|n]; [lia|]. pose proof (cc_vertex _ _ _ _ CC n (Nat.lt_succ_diag_r n)) as H. unfold names in H.
    assert (n < length (c 0)) by (apply nth_error_Some; congruence). lia. }
  destruct (Nat.le_gt_cases (length (c 0)) size) as [|Hlt]; [lia|].
  destruct (nth_error (c 0) size) as [s|] eqn:E; [|apply nth_error_None in E; lia].
  pose proof (nth_error_In _ _ E) as Hin. pose proof (proj1 (cc_iff _ _ _ _ CC _ _) Hin) as (C & _ & Hl & _).
  destruct s as [|v [|? ?]]; try (cbn in Hl; lia). assert (Hv : v < size) by (apply C; left; auto).
  assert (size = v). { eapply (cc_once _ _ _ _ CC 0); [exact E|apply (cc_vertex _ _ _ _ CC); auto|intros w; tauto]. } lia.
Qed.

Theorem union_clique_cells k : Forall2 (fun g c => clique_cells (g_edges g) (g_n g) k c) gs cs ->
  clique_cells U N k (union_cells cs).
Proof.
  intros HC.
  assert (HL : Forall2 (fun g c => length (c 0) = g_n g) gs cs).
  { clear -HC. induction HC; constructor; auto. eapply clique_length0; eauto. }
  pose proof (off_nb HL) as Off.
  assert (Mem : forall i c, nth_error cs i = Some c -> exists g, nth_error gs i = Some g /\ clique_cells (g_edges g) (g_n g) k c /\ length (c 0) = g_n g).
  { intros i c Hi. assert (L : i < length gs) by (rewrite (Forall2_length HC); apply nth_error_Some; congruence).
    destruct (nth_error gs i) as [g|] eqn:E; [|apply nth_error_None in E; lia].
    destruct (Forall2_nth_error_l _ _ _ HC _ _ E) as (c' & H1 & H2). destruct (Forall2_nth_error_l _ _ _ HL _ _ E) as (c'' & H3 & H4).
    exists g. split; auto. rewrite Hi in H1, H3. inversion H1; inversion H3; subst. auto. }
  assert (HV : forall i c d s, nth_error cs i = Some c -> In s (c d) -> s <> [] /\ forall v, In v s -> v < length (c 0)).
  { intros i c d s Hi Hs. destruct (Mem i c Hi) as (g & _ & CC & L). pose proof (proj1 (cc_iff _ _ _ _ CC _ _) Hs) as ((C1 & _ & C3 & _) & _).
    split; auto. intros v Hv. rewrite L. auto. }
  split.
  - intros v Hv. destruct (node_of v Hv) as (i & g & u & Hi & Hu & ->).
    destruct (Forall2_nth_error_l _ _ _ HC _ _ Hi) as (c & Hc & CC).
    apply union_names. exists i, c, u, [u]. split; auto. split; [apply (cc_vertex _ _ _ _ CC); auto|]. rewrite Off. auto.
  - intros d s. split.
    + intros Hin. apply In_nth_error in Hin as [t Ht]. apply union_names in Ht as (i & c & j & s0 & Hc & Hj & _ & ->).
      destruct (Mem i c Hc) as (g & Hi & CC & L). apply nth_error_In in Hj. pose proof (proj1 (cc_iff _ _ _ _ CC _ _) Hj) as (C & Inc & Hl & Hd).
      rewrite Off. split; [apply (clique_shift i g); auto; apply C|]. split; [apply increasing_shift; auto|]. rewrite map_length. auto.
    + intros (C & Inc & Hl & Hd). destruct (clique_block s C) as (i & g & s0 & Hi & -> & C0).
      destruct (Forall2_nth_error_l _ _ _ HC _ _ Hi) as (c & Hc & CC). apply increasing_shift in Inc. rewrite map_length in Hl.
      assert (Hin : In s0 (c d)) by (apply (cc_iff _ _ _ _ CC); auto). apply In_nth_error in Hin as [j Hj].
      apply nth_error_In with (n := j + off (sizes_of cs) i d). apply union_names. exists i, c, j, s0. rewrite Off. auto.
  - apply union_once; auto. intros i c Hc. destruct (Mem i c Hc) as (g & _ & CC & _). apply (cc_once _ _ _ _ CC).
Qed.

Theorem union_ring_cells k : Forall2 (fun g c => ring_cells (g_edges g) (g_n g) k c) gs cs ->
  ring_cells U N k (union_cells cs).
Proof.
  intros HC.
  assert (HL : Forall2 (fun g c => length (c 0) = g_n g) gs cs).
  { clear -HC. induction HC; constructor; auto. eapply rc_vertices; eauto. }
  pose proof (off_nb HL) as Off.
  assert (Mem : forall i c, nth_error cs i = Some c -> exists g, nth_error gs i = Some g /\ ring_cells (g_edges g) (g_n g) k c /\ length (c 0) = g_n g).
  { intros i c Hi. assert (L : i < length gs) by (rewrite (Forall2_length HC); apply nth_error_Some; congruence).
    destruct (nth_error gs i) as [g|] eqn:E; [|apply nth_error_None in E; lia].
    destruct (Forall2_nth_error_l _ _ _ HC _ _ E) as (c' & H1 & H2). destruct (Forall2_nth_error_l _ _ _ HL _ _ E) as (c'' & H3 & H4).
    exists g. split; auto. rewrite Hi in H1, H3. inversion H1; inversion H3; subst. auto. }
  assert (Rng : forall i c g d s, nth_error cs i = Some c -> nth_error gs i = Some g -> In s (c d) -> forall v, In v s -> v < g_n g).
  { intros i c g d s Hc Hi Hs. destruct (Mem i c Hc) as (g' & Hi' & RC & L). rewrite Hi in Hi'. inversion Hi'; subst g'.
    apply In_nth_error in Hs as [j Hj]. apply (ring_range _ _ _ _ _ _ _ (HG g (nth_error_In _ _ Hi)) RC Hj). }
  assert (HV : forall i c d s, nth_error cs i = Some c -> In s (c d) -> s <> [] /\ forall v, In v s -> v < length (c 0)).
  { intros i c d s Hi Hs. destruct (Mem i c Hi) as (g & Hg & RC & L). split.
    - destruct d as [|[|[|d]]].
      + apply In_nth_error in Hs as [j Hj]. pose proof (ring_vertex _ _ _ _ _ _ RC Hj) as [E1 E2]. rewrite E2. discriminate.
      + pose proof (proj1 (rc_edge _ _ _ _ RC _) Hs) as (u & v & _ & -> & _). discriminate.
      + pose proof (rc_ring _ _ _ _ RC _ Hs) as [(C1 & _) _]. intros ->. cbn in C1. lia.
      + rewrite (rc_top _ _ _ _ RC) in Hs by lia. destruct Hs.
    - rewrite L. eapply Rng; eauto. }
  split.
  - intros v Hv. destruct (node_of v Hv) as (i & g & u & Hi & Hu & ->).
    destruct (Forall2_nth_error_l _ _ _ HC _ _ Hi) as (c & Hc & CC).
    apply union_names. exists i, c, u, [u]. split; auto. split; [apply (rc_vertex _ _ _ _ CC); auto|]. rewrite Off. auto.
  - rewrite union_length. unfold total, sizes_of. rewrite map_map. clear -HL. induction HL; cbn; auto.
  - intros s. split.
    + intros Hin. apply In_nth_error in Hin as [t Ht]. apply union_names in Ht as (i & c & j & s0 & Hc & Hj & _ & ->).
      destruct (Mem i c Hc) as (g & Hi & RC & L). apply nth_error_In in Hj. pose proof (proj1 (rc_edge _ _ _ _ RC _) Hj) as (u & v & Hlt & -> & HA).
      rewrite Off. exists (u + nb i), (v + nb i). split; [lia|]. split; auto. apply union_adjacent. exists i, g, u, v. auto.
    + intros (a & b & Hlt & -> & HA). apply union_adjacent in HA as (i & g & u & v & Hi & HA & -> & ->).
      destruct (Forall2_nth_error_l _ _ _ HC _ _ Hi) as (c & Hc & RC).
      assert (Hin : In [u; v] (c 1)) by (apply (rc_edge _ _ _ _ RC); exists u, v; split; [lia|auto]). apply In_nth_error in Hin as [j Hj].
      apply nth_error_In with (n := j + off (sizes_of cs) i 1). apply union_names. exists i, c, j, [u; v]. rewrite Off. auto.
  - intros s Hin. apply In_nth_error in Hin as [t Ht]. apply union_names in Ht as (i & c & j & s0 & Hc & Hj & _ & ->).
    destruct (Mem i c Hc) as (g & Hi & RC & L). apply nth_error_In in Hj. pose proof (Rng i c g 2 s0 Hc Hi Hj) as Hr.
    pose proof (rc_ring _ _ _ _ RC _ Hj) as [Hcy Hl]. rewrite Off, map_length. split; auto. apply (cycle_shift i g); auto.
  - intros s Hcy Hl. destruct (cycle_block s Hcy) as (i & g & s0 & Hi & -> & Hr & C0). rewrite map_length in Hl.
    destruct (Forall2_nth_error_l _ _ _ HC _ _ Hi) as (c & Hc & RC).
    destruct (rc_all _ _ _ _ RC s0 C0 Hl) as (j & t & Hj & HS). exists (j + off (sizes_of cs) i 2), (map (shift i) t). split.
    + apply union_names. exists i, c, j, t. rewrite Off. auto.
    + intros a. rewrite !in_map_iff. split; intros (u & <- & Hu); exists u; split; auto; apply HS; auto.
  - intros d Hd. destruct (union_cells cs d) as [|s l] eqn:E; auto. exfalso.
    assert (Ht : names (union_cells cs) d 0 s) by (unfold names; rewrite E; auto).
    apply union_names in Ht as (i & c & j & s0 & Hc & Hj & _). destruct (Mem i c Hc) as (g & Hi & RC & L).
    unfold names in Hj. rewrite (rc_top _ _ _ _ RC) in Hj by auto. destruct j; discriminate.
  - apply union_once; auto. intros i c Hc. destruct (Mem i c Hc) as (g & _ & CC & _). apply (rc_once _ _ _ _ CC).
Qed.
End Cells.
End Graphs.
