(** C77: larger cells separate more. *)
From Coq Require Import List Arith Lia ZArith QArith Bool Permutation.
From Verif Require Import Base ScatterModel ScatterSpec ScatterProofs ComplexModel BatchSpec BatchSpec2
  BatchProofs BatchProofs2 DummyModel BatchProps LiftModel LiftSpec LiftBase LiftProofs LiftClique LiftTables LiftCliqueProps LiftRing LiftProps LiftRingProps LiftRingExamples LiftRingBoundary LiftIso
  MPModel MPSpec MPProofs MPEngine MPBatch MPForward MPNets MPProps MPIso PermLift
  GraphNetModel GraphNetSpec GraphNetProofs GraphNetProps PowerSpec PowerProofs PowerProps WLSpec WLProofs WLProps ExpModel ExpProps CountProps.
From Verif Require Import BlindSpec BlindProps.
From Verif Require Import HierSpec HierProofs.
Import ListNotations.
Open Scope nat_scope.

(** ** Rings *)
(** Rings with fewer than [n] nodes do not separate two cycles of [n] nodes from one cycle of [2n] nodes, whatever the
    network; rings with [n] nodes do, in one layer. *)
Theorem C77_rings lib isos set_order r down n max_k : 3 <= n -> good_lib lib -> good_isos isos (n + n) -> good_set set_order ->
  (max_k < n -> forall (V : Type) (o : ops V) (m : net V) veqb a D, ops_ok o -> cwn_net o m -> (forall a b, veqb a b = true <-> a = b) ->
     exists K K', compute_ring_2complex o veqb lib isos set_order r (repeat a (n + n)) (long_cycle n) None (n + n) None max_k down true true = Ok K /\
       compute_ring_2complex o veqb lib isos set_order r (repeat a (n + n)) (two_cycles n) None (n + n) None max_k down true true = Ok K' /\
       one_answer o m [K; K'] D) /\
  (n <= max_k -> exists K K' layers lin1 b v v' bo,
     compute_ring_2complex Zops Z.eqb lib isos set_order r (repeat 1%Z (n + n)) (long_cycle n) None (n + n) None max_k down true true = Ok K /\
     compute_ring_2complex Zops Z.eqb lib isos set_order r (repeat 1%Z (n + n)) (two_cycles n) None (n + n) None max_k down true true = Ok K' /\
     length layers = 1 /\ from_complex_list [K; K'] 2 = Ok b /\
     net_forward Zops (sparse_cin Zops 2 layers None RAdd (seq 0 3) lin1 false (fun v => v)) b = Ok ([v; v'], bo) /\ v <> v').
Proof.
  intros Hn Hlib Hiso Hset.
  assert (HI : forall (V : Type) (a : V) es, In es [long_cycle n; two_cycles n] -> ring_input lib isos set_order (repeat a (n + n)) es (n + n) None max_k).
  { intros V a es Hes.
    assert (G : graph_ok es (n + n)) by (destruct Hes as [<-|[<-|[]]]; [apply long_ok|apply two_ok]; exact Hn).
    constructor; [exact G|lia| |apply repeat_length|exact I|apply Hlib|intros k _; apply Hiso; exact G|exact Hset].
    right. exists 0, 1. destruct Hes as [<-|[<-|[]]]; [apply long_edge|apply two_edge]; exact Hn. }
  split.
  - intros Hk V o m veqb a D Ho HN He.
    destruct (C73_ring_batch o m veqb lib isos set_order r max_k down D [long_cycle n; two_cycles n] (n + n) 2 (fun _ => 0) a Ho HN ltac:(discriminate) He) as (ks & HF & HO).
    + intros es Hes. split; [apply HI; exact Hes|]. destruct Hes as [<-|[<-|[]]]; apply no_cycles; try exact Hn.
      * intros u Hu. apply long_degrees; assumption.
      * intros c Hc. apply long_cycles in Hc; [lia|exact Hn].
      * intros u Hu. apply two_degrees; assumption.
      * intros c Hc. apply two_cycles_long in Hc; [lia|exact Hn].
    + inversion HF as [|? K ? ks' E1 HF']; subst. inversion HF' as [|? K' ? ks'' E2 HF'']; subst. inversion HF''; subst. exists K, K'. auto.
  - intros Hk. set (g := mkGraph (repeat 1%Z (n + n)) (long_cycle n) None). set (g' := mkGraph (repeat 1%Z (n + n)) (two_cycles n) None).
    assert (HL : length (repeat 1%Z (n + n)) = n + n) by apply repeat_length.
    destruct (C59_ring_counts lib isos set_order r max_k down [g; g'] 2) as (ks & layers & lin1 & b & vs & bo & H1 & H2 & H3 & H4 & H5 & H6).
    { discriminate. } { lia. }
    { assert (P : Forall (fun v => (0 <= v)%Z) (repeat 1%Z (n + n))) by (apply Forall_forall; intros v Hv; apply repeat_spec in Hv; lia).
      constructor; [|constructor; [|constructor]]; (split; [|exact P]); cbn [g_x g_edges g g']; rewrite HL; apply HI; cbn; auto. }
    inversion H1 as [|? K ? ks' E1 H1']; subst. inversion H1' as [|? K' ? ks'' E2 H1'']; subst. inversion H1''; subst.
    unfold ring_lift_of in E1, E2. cbn [g_x g_edges g g'] in E1, E2. rewrite HL in E1, E2.
    destruct vs as [|v [|v' [|]]]; try discriminate H5. exists K, K', layers, lin1, b, v, v', bo.
    split; [exact E1|]. split; [exact E2|]. split; [exact H2|]. split; [exact H3|]. split; [exact H4|]. intros <-.
    pose proof (cycles_listed (long_cycle n) (n + n) max_k (long_ok n Hn)) as L. pose proof (cycles_listed (two_cycles n) (n + n) max_k (two_ok n Hn)) as L'.
    pose proof (H6 0 1 g g' v eq_refl eq_refl eq_refl eq_refl _ _ L L') as E.
    destruct L' as (_ & L2 & _). destruct (L2 (seq 0 n) (two_cycles_has n Hn) ltac:(rewrite seq_length; exact Hk)) as (c & Hc & HS).
    assert (X : In (length c) (map (@length nat) (once (flat_map (search (n + n) (long_cycle n)) (seq 3 (max_k - 2)))))).
    { apply (Permutation_in _ (Permutation_sym E)). apply in_map. exact Hc. }
    apply in_map_iff in X as (d & Ed & Hd). destruct L as (L1 & _). apply L1 in Hd as [Hd _]. apply long_cycles in Hd; [|exact Hn].
    assert (length c <= n); [|lia]. rewrite <- (seq_length n 0). apply NoDup_incl_length; [|intros x Hx; apply HS; exact Hx].
    pose proof (cycles_listed (two_cycles n) (n + n) max_k (two_ok n Hn)) as (L1' & _). apply L1' in Hc as [Hc _]. apply Hc.
Qed.
(** Hexagon and two triangles; octagon and two squares. *)
Example C77_rings_example := C77_rings (any_lib true) (search 8) (@rev _) RAdd true 4 3 ltac:(lia) (any_lib_ok true) (fun es k => search_ok 8 es k)
  (fun l _ => Permutation_sym (Permutation_rev l)).
Example two_squares : two_cycles 4 = [(0, 1); (1, 2); (2, 3); (3, 0); (4, 5); (5, 6); (6, 7); (7, 4)] /\ length (long_cycle 4) = 8.
Proof. split; reflexivity. Qed.

(** ** Cliques *)
Lemma sort_clique es n s : clique es n s -> exists t, clique es n t /\ increasing t /\ length t = length s.
Proof.
  intros (H1 & H2 & H3 & H4). exists (sort Nat.leb s). pose proof (sort_perm Nat.leb s) as P. split; [|split; [|symmetry; apply Permutation_length; exact P]].
  - split; [intros E; apply H1; rewrite E in P; apply Permutation_nil; symmetry; exact P|]. split; [exact (Permutation_NoDup P H2)|split].
    + intros v Hv. apply (proj1 (sort_In s v)) in Hv. auto.
    + intros u v Hu Hv. apply (proj1 (sort_In s u)) in Hu. apply (proj1 (sort_In s v)) in Hv. auto.
  - apply sorted_increasing, sort_sorted. exact H2.
Qed.
(** Cliques with fewer than [p] nodes do not separate the bit graphs for [p] places, whatever the network; those with [p]
    nodes do, in one layer. *)
Theorem C77_cliques lib r down p k : 3 <= p -> good_lib lib -> let n := p * 2 ^ (p - 2) in
  (k < p - 1 -> forall (V : Type) (o : ops V) (m : net V) a D, ops_ok o -> cwn_net o m ->
     exists K K', compute_clique_complex o lib r (repeat a n) (bit_graph p false) n k None down = Ok K /\
       compute_clique_complex o lib r (repeat a n) (bit_graph p true) n k None down = Ok K' /\ one_answer o m [K; K'] D) /\
  (p - 1 <= k -> exists K K' layers lin1 b v v' bo,
     compute_clique_complex Zops lib r (repeat 1%Z n) (bit_graph p false) n k None down = Ok K /\
     compute_clique_complex Zops lib r (repeat 1%Z n) (bit_graph p true) n k None down = Ok K' /\
     length layers = 1 /\ from_complex_list [K; K'] (p - 1) = Ok b /\
     net_forward Zops (sparse_cin Zops (p - 1) layers None RAdd (seq 0 p) lin1 false (fun v => v)) b = Ok ([v; v'], bo) /\ v <> v').
Proof.
  intros Hp Hlib n.
  assert (HG : forall tw, graph_ok (bit_graph p tw) n).
  { intros tw. unfold n. rewrite <- (spots_len p tw) by lia. apply bit_ok. }
  assert (Hn : 0 < n) by (unfold n; pose proof (Nat.pow_nonzero 2 (p - 2)); nia).
  assert (HI : forall (V : Type) (a : V) tw, clique_input lib (repeat a n) (bit_graph p tw) n k None).
  { intros V a tw. split; [apply HG|exact Hn|apply repeat_length|exact I|apply Hlib]. }
  split.
  - intros Hk V o m a D Ho HN.
    destruct (C73_clique_batch o m lib r k down D [bit_graph p false; bit_graph p true] n (fun s => (p - s) * 2 ^ (p - 2 - s)) a Ho HN ltac:(discriminate)) as (ks & HF & HO).
    + assert (X : forall tw, clique_regular (bit_graph p tw) n (Nat.max 1 k) (fun s => (p - s) * 2 ^ (p - 2 - s))).
      { intros tw. apply (fewer_cliques _ _ (p - 2)); [lia|]. unfold n. rewrite <- (spots_len p tw) by lia. apply bit_regular. exact Hp. }
      intros es [<-|[<-|[]]]; auto.
    + inversion HF as [|? K ? ks' E1 HF']; subst. inversion HF' as [|? K' ? ks'' E2 HF'']; subst. inversion HF''; subst. exists K, K'. auto.
  - intros Hk. set (g := mkGraph (repeat 1%Z n) (bit_graph p false) None). set (g' := mkGraph (repeat 1%Z n) (bit_graph p true) None).
    assert (HL : length (repeat 1%Z n) = n) by apply repeat_length.
    destruct (C59_clique_counts lib r k down [g; g'] (p - 1)) as (ks & layers & lin1 & b & vs & bo & H1 & H2 & H3 & H4 & H5 & H6).
    { discriminate. }
    { assert (P : Forall (fun v => (0 <= v)%Z) (repeat 1%Z n)) by (apply Forall_forall; intros v Hv; apply repeat_spec in Hv; lia).
      constructor; [|constructor; [|constructor]]; (split; [|exact P]); cbn [g_x g_edges g g']; rewrite HL; apply HI. }
    inversion H1 as [|? K ? ks' E1 H1']; subst. inversion H1' as [|? K' ? ks'' E2 H1'']; subst. inversion H1''; subst.
    unfold clique_lift_of in E1, E2. cbn [g_x g_edges g g'] in E1, E2. rewrite HL in E1, E2. replace (p - 1 + 1) with p in H4 by lia.
    destruct vs as [|v [|v' [|]]]; try discriminate H5. exists K, K', layers, lin1, b, v, v', bo.
    split; [exact E1|]. split; [exact E2|]. split; [exact H2|]. split; [exact H3|]. split; [exact H4|]. intros <-.
    pose proof (find_cliques (bit_graph p false) n (p - 1) (HG false)) as L. pose proof (find_cliques (bit_graph p true) n (p - 1) (HG true)) as L'.
    assert (E : length (filter (cliqueb (bit_graph p false)) (combs (p - 1 + 1) (seq 0 n))) = length (filter (cliqueb (bit_graph p true)) (combs (p - 1 + 1) (seq 0 n)))).
    { apply (H6 0 1 g g' v eq_refl eq_refl eq_refl eq_refl (p - 1)); [lia|lia| |]; cbn [g_x g_edges g g']; rewrite HL; assumption. }
    destruct (some_clique p ltac:(lia)) as (s & Hs & HLs). rewrite spots_len in Hs by lia. fold n in Hs. destruct (sort_clique _ _ _ Hs) as (t & Ht & Hi & Hlt).
    assert (X : In t (filter (cliqueb (bit_graph p false)) (combs (p - 1 + 1) (seq 0 n)))) by (apply L; split; [exact Ht|split; [exact Hi|lia]]).
    destruct (filter (cliqueb (bit_graph p true)) (combs (p - 1 + 1) (seq 0 n))) as [|c l].
    + cbn [length] in E. destruct (filter _ _); [destruct X|discriminate E].
    + destruct (proj1 (proj2 L' c) (or_introl eq_refl)) as (Hc & _ & Hlc). apply (no_clique p c ltac:(lia)); [|lia]. rewrite spots_len by lia. exact Hc.
Qed.
(** For three places two triangles and a hexagon, for four Rook's graph and the Shrikhande graph (with other numbers for the nodes). *)
Example C77_cliques_example := C77_cliques (any_lib true) RAdd true 4 2 ltac:(lia) (any_lib_ok true).
Example bit_graph_3 : bit_graph 3 false = [(0, 2); (0, 4); (1, 3); (1, 5); (2, 4); (3, 5)] /\ bit_graph 3 true = [(0, 2); (0, 5); (1, 3); (1, 4); (2, 4); (3, 5)].
Proof. split; vm_compute; reflexivity. Qed.
Example bit_graph_4 : stronglyb (bit_graph 4 false) 16 6 2 2 = true /\ stronglyb (bit_graph 4 true) 16 6 2 2 = true.
Proof. split; vm_compute; reflexivity. Qed.

Print Assumptions C77_rings.
Print Assumptions C77_cliques.
