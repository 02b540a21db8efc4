(** Liftings of equal and of isomorphic graphs: C17, C28. *)
From Coq Require Import List Arith Lia ZArith Bool Permutation Sorted.
From Verif Require Import Base ScatterModel ScatterSpec ScatterProofs ComplexModel BatchSpec BatchSpec2 BatchProofs
  MPModel MPSpec MPProofs MPForward MPNets MPProps MPIso
  LiftModel LiftSpec LiftBase LiftClique LiftCliqueProps LiftProps LiftRing LiftRingProps LiftRingExamples LiftIso.
Import ListNotations.

Section Invariance.
Context {V : Type} (o : ops V) (Ho : ops_ok o) (veqb : V -> V -> bool).

(** Two edge lists denote the same undirected simple graph. *)
Definition same_graph (edges edges' : list (nat * nat)) : Prop :=
  forall u v, adjacent edges u v <-> adjacent edges' u v.

Lemma same_graph_iso size edges edges' (x : list V) : same_graph edges edges' -> graph_iso (fun v => v) size edges edges' x x.
Proof. intros H. split; auto. Qed.

(** [pi] matches the cells of [K] with the cells of [K'] that have the same vertices, and preserves
    features, boundaries and adjacencies. *)
Definition same_complex (cells cells' : nat -> list (list nat)) (pi : nat -> nat -> nat) (K K' : complex V) : Prop :=
  (forall d i s, names cells d i s -> exists s', names cells' d (pi d i) s' /\ same_set s s') /\
  complex_iso pi (fun d => length (cells d)) K K'.

(** C17 *)
Theorem C17_clique_edge_list lib lib' r x edges edges' size k y down :
  clique_input lib x edges size k y -> clique_input lib' x edges' size k y -> same_graph edges edges' ->
  exists K K' cells cells' pi,
    compute_clique_complex o lib r x edges size k y down = Ok K /\
    compute_clique_complex o lib' r x edges' size k y down = Ok K' /\
    clique_cells edges size k cells /\ clique_cells edges' size k cells' /\ same_complex cells cells' pi K K'.
Proof.
  intros HI HI' HG.
  destruct (clique_lift_iso o Ho (fun v => v) lib lib' r x x edges edges' size k y y down HI HI' (same_graph_iso _ _ _ _ HG))
    as (K & K' & cells & cells' & pi & E & E' & C & C' & _ & _ & _ & _ & _ & HN & HP).
  exists K, K', cells, cells', pi. repeat (split; auto). intros d i s Hi. destruct (HN d i s Hi) as (s' & H1 & H2).
  rewrite map_id in H2. eauto.
Qed.
Theorem C17_ring_edge_list lib lib' isos isos' so so' r x edges edges' size y max_k down init_edges init_rings :
  ring_input lib isos so x edges size y max_k -> ring_input lib' isos' so' x edges' size y max_k ->
  (forall a b, veqb a b = true <-> a = b) -> same_graph edges edges' ->
  exists K K' cells cells' pi,
    compute_ring_2complex o veqb lib isos so r x edges None size y max_k down init_edges init_rings = Ok K /\
    compute_ring_2complex o veqb lib' isos' so' r x edges' None size y max_k down init_edges init_rings = Ok K' /\
    ring_cells edges size max_k cells /\ ring_cells edges' size max_k cells' /\ same_complex cells cells' pi K K'.
Proof.
  intros HI HI' He HG.
  destruct (ring_lift_iso o Ho veqb (fun v => v) lib lib' isos isos' so so' r x x edges edges' None None size y y max_k down init_edges init_rings HI HI' He)
    as (K & K' & cells & cells' & pi & E & E' & C & C' & _ & _ & _ & _ & HN & HP).
  - intros _. repeat split.
  - apply same_graph_iso; auto.
  - exists K, K', cells, cells', pi. repeat (split; auto). intros d i s Hi. destruct (HN d i s Hi) as (s' & H1 & H2).
    rewrite map_id in H2. eauto.
Qed.
(** With edge attributes, the attribute rows being written along with the edges. *)
Theorem C17_ring_edge_attr lib lib' isos isos' so so' r x edges edges' a a' size y max_k down init_edges init_rings :
  ring_input lib isos so x edges size y max_k -> ring_input lib' isos' so' x edges' size y max_k ->
  (forall a b, veqb a b = true <-> a = b) -> same_graph edges edges' ->
  length a = length edges -> length a' = length edges' -> loop_free edges -> loop_free edges' ->
  (* every column carries the attribute of its edge *)
  (forall w : nat -> nat -> V, (forall u v, w u v = w v u) ->
    (forall j u v, nth_error edges j = Some (u, v) -> nth_error a j = Some (w u v)) ->
    (forall j u v, nth_error edges' j = Some (u, v) -> nth_error a' j = Some (w u v)) ->
  exists K K' cells cells' pi,
    compute_ring_2complex o veqb lib isos so r x edges (Some a) size y max_k down init_edges init_rings = Ok K /\
    compute_ring_2complex o veqb lib' isos' so' r x edges' (Some a') size y max_k down init_edges init_rings = Ok K' /\
    ring_cells edges size max_k cells /\ ring_cells edges' size max_k cells' /\ same_complex cells cells' pi K K').
Proof.
  intros HI HI' He HG L L' F F' w Hw Ha Ha'.
  assert (W : forall u v u' v', u <> v -> u' <> v' -> same_set [u; v] [u'; v'] -> w u v = w u' v').
  { intros u v u' v' N N' S. pose proof (proj1 (S u) (or_introl eq_refl)). pose proof (proj1 (S v) (or_intror (or_introl eq_refl))).
    cbn in *. destruct H as [<-|[<-|[]]], H0 as [<-|[<-|[]]]; try lia; auto. }
  assert (A : forall edges a, length a = length edges -> loop_free edges ->
    (forall j u v, nth_error edges j = Some (u, v) -> nth_error a j = Some (w u v)) -> attr_ok edges (Some a)).
  { intros E b Lb Fb Hb. split; auto. split; auto. intros j j' [u v] [u' v'] Hj Hj' S. rewrite (Hb _ _ _ Hj), (Hb _ _ _ Hj').
    f_equal. apply W; auto; eapply Fb; eapply nth_error_In; eauto. }
  destruct (ring_lift_iso o Ho veqb (fun v => v) lib lib' isos isos' so so' r x x edges edges' (Some a) (Some a') size y y max_k down init_edges init_rings HI HI' He)
    as (K & K' & cells & cells' & pi & E & E' & C & C' & _ & _ & _ & _ & HN & HP).
  - intros _. split; [auto|]. split; [auto|]. simpl. intros j [u v] j' [u' v'] Hj Hj' S. rewrite (Ha _ _ _ Hj), (Ha' _ _ _ Hj').
    f_equal. apply W; auto; [eapply F|eapply F']; eapply nth_error_In; eauto.
  - apply same_graph_iso; auto.
  - exists K, K', cells, cells', pi. repeat (split; auto). intros d i s Hi. destruct (HN d i s Hi) as (s' & H1 & H2).
    rewrite map_id in H2. eauto.
Qed.

(** C28 *)
Definition isomorphic_graphs (g g' : graph V) : Prop :=
  g_n g' = g_n g /\ exists sigma, graph_iso sigma (g_n g) (g_edges g) (g_edges g') (g_x g) (g_x g').

Theorem C28_clique_lift_and_predict lib lib' r (m : net V) gs gs' k down max_dim :
  cwn_net o m -> gs <> [] ->
  Forall (fun g => clique_input lib (g_x g) (g_edges g) (g_n g) k (g_y g)) gs ->
  Forall (fun g => clique_input lib' (g_x g) (g_edges g) (g_n g) k (g_y g)) gs' ->
  Forall2 isomorphic_graphs gs gs' ->
  exists ks ks' b b' out bo bo',
    mapM (fun g => compute_clique_complex o lib r (g_x g) (g_edges g) (g_n g) k (g_y g) down) gs = Ok ks /\
    mapM (fun g => compute_clique_complex o lib' r (g_x g) (g_edges g) (g_n g) k (g_y g) down) gs' = Ok ks' /\
    from_complex_list ks max_dim = Ok b /\ from_complex_list ks' max_dim = Ok b' /\
    net_forward o m b = Ok (out, bo) /\ net_forward o m b' = Ok (out, bo').
Proof.
  intros Hm Hne HI HI' HG.
  assert (G : exists ks ks' szs,
    mapM (fun g => compute_clique_complex o lib r (g_x g) (g_edges g) (g_n g) k (g_y g) down) gs = Ok ks /\
    mapM (fun g => compute_clique_complex o lib' r (g_x g) (g_edges g) (g_n g) k (g_y g) down) gs' = Ok ks' /\
    length ks = length gs /\
    Forall2 wf_complex ks szs /\ Forall2 wf_complex ks' szs /\
    Forall (has_features max_dim) ks /\ Forall (has_features max_dim) ks' /\
    Forall (fun sz => 0 < sz 0) szs /\ Forall2 (fun q k' => isomorphic (snd q) (fst q) k') (combine ks szs) ks').
  { clear Hne. induction HG as [|g g' gs gs' [Hn (sigma & Hs)] HG IH].
    - exists [], [], []. repeat split; constructor.
    - inversion HI as [|? ? A1 A2]; inversion HI' as [|? ? B1 B2]; subst.
      destruct (IH A2 B2) as (ks & ks' & szs & E1 & E2 & E3 & E4 & E5 & E6 & E7 & E8 & E9). rewrite Hn in B1.
      destruct (clique_lift_iso o Ho sigma lib lib' r (g_x g) (g_x g') (g_edges g) (g_edges g') (g_n g) k (g_y g) (g_y g') down A1 B1 Hs)
        as (K & K' & cells & cells' & pi & F1 & F2 & _ & _ & W & W' & Hsz & X & X' & _ & HP).
      exists (K :: ks), (K' :: ks'), ((fun d => length (cells d)) :: szs). cbn [mapM]. rewrite F1, Hn, F2, E1, E2. cbn [bind length combine].
      repeat (split; auto). constructor; auto. cbv beta. rewrite Hsz. apply A1. constructor; auto. exists pi. auto. }
  destruct G as (ks & ks' & szs & E1 & E2 & E3 & E4 & E5 & E6 & E7 & E8 & E9).
  assert (Hne' : ks <> []) by (intros ->; destruct gs; [congruence|discriminate]).
  destruct (C27_isomorphism_invariance o Ho m ks ks' szs max_dim Hm Hne' E4 E5 E6 E7 E8 E9) as (b & b' & out & bo & bo' & H).
  exists ks, ks', b, b', out, bo, bo'. tauto.
Qed.

Theorem C28_ring_lift_and_predict lib lib' isos isos' so so' r (m : net V) gs gs' max_k down init_edges init_rings max_dim :
  cwn_net o m -> gs <> [] -> (forall a b, veqb a b = true <-> a = b) ->
  (1 <= max_dim -> init_edges = true) -> (2 <= max_dim -> init_rings = true) ->
  Forall (fun g => ring_input lib isos so (g_x g) (g_edges g) (g_n g) (g_y g) max_k) gs ->
  Forall (fun g => ring_input lib' isos' so' (g_x g) (g_edges g) (g_n g) (g_y g) max_k) gs' ->
  Forall2 (fun g g' => g_n g' = g_n g /\ exists sigma, graph_iso sigma (g_n g) (g_edges g) (g_edges g') (g_x g) (g_x g') /\
    attr_ok (g_edges g) (g_attr g) /\ attr_ok (g_edges g') (g_attr g') /\ attr_iso sigma (g_edges g) (g_edges g') (g_attr g) (g_attr g')) gs gs' ->
  exists ks ks' b b' out bo bo',
    mapM (fun g => compute_ring_2complex o veqb lib isos so r (g_x g) (g_edges g) (g_attr g) (g_n g) (g_y g) max_k down init_edges init_rings) gs = Ok ks /\
    mapM (fun g => compute_ring_2complex o veqb lib' isos' so' r (g_x g) (g_edges g) (g_attr g) (g_n g) (g_y g) max_k down init_edges init_rings) gs' = Ok ks' /\
    from_complex_list ks max_dim = Ok b /\ from_complex_list ks' max_dim = Ok b' /\
    net_forward o m b = Ok (out, bo) /\ net_forward o m b' = Ok (out, bo').
Proof.
  intros Hm Hne He Hd1 Hd2 HI HI' HG.
  assert (G : exists ks ks' szs,
    mapM (fun g => compute_ring_2complex o veqb lib isos so r (g_x g) (g_edges g) (g_attr g) (g_n g) (g_y g) max_k down init_edges init_rings) gs = Ok ks /\
    mapM (fun g => compute_ring_2complex o veqb lib' isos' so' r (g_x g) (g_edges g) (g_attr g) (g_n g) (g_y g) max_k down init_edges init_rings) gs' = Ok ks' /\
    length ks = length gs /\
    Forall2 wf_complex ks szs /\ Forall2 wf_complex ks' szs /\
    Forall (has_features max_dim) ks /\ Forall (has_features max_dim) ks' /\
    Forall (fun sz => 0 < sz 0) szs /\ Forall2 (fun q k' => isomorphic (snd q) (fst q) k') (combine ks szs) ks').
  { clear Hne. induction HG as [|g g' gs gs' [Hn (sigma & Hs & Q1 & Q2 & Q3)] HG IH].
    - exists [], [], []. repeat split; constructor.
    - inversion HI as [|? ? A1 A2]; inversion HI' as [|? ? B1 B2]; subst.
      destruct (IH A2 B2) as (ks & ks' & szs & E1 & E2 & E3 & E4 & E5 & E6 & E7 & E8 & E9). rewrite Hn in B1.
      destruct (ring_lift_iso o Ho veqb sigma lib lib' isos isos' so so' r (g_x g) (g_x g') (g_edges g) (g_edges g') (g_attr g) (g_attr g')
        (g_n g) (g_y g) (g_y g') max_k down init_edges init_rings A1 B1 He (fun _ => conj Q1 (conj Q2 Q3)) Hs)
        as (K & K' & cells & cells' & pi & F1 & F2 & _ & _ & W & W' & Hsz & X & _ & HP).
      destruct (X max_dim Hd1 Hd2) as [X1 X2].
      exists (K :: ks), (K' :: ks'), ((fun d => length (cells d)) :: szs). cbn [mapM]. rewrite F1, Hn, F2, E1, E2. cbn [bind length combine].
      repeat (split; auto). constructor; auto. cbv beta. rewrite Hsz. apply A1. constructor; auto. exists pi. auto. }
  destruct G as (ks & ks' & szs & E1 & E2 & E3 & E4 & E5 & E6 & E7 & E8 & E9).
  assert (Hne' : ks <> []) by (intros ->; destruct gs; [congruence|discriminate]).
  destruct (C27_isomorphism_invariance o Ho m ks ks' szs max_dim Hm Hne' E4 E5 E6 E7 E8 E9) as (b & b' & out & bo & bo' & H).
  exists ks, ks', b, b', out, bo, bo'. tauto.
Qed.
End Invariance.
