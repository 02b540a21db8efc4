(** Permuting a graph does not change the prediction on its lifting: C28 with data/perm_utils.py,
    and examples for C17, C28 and C40. *)
From Coq Require Import List Arith Lia ZArith Bool Permutation.
From Verif Require Import Base ScatterModel ScatterSpec ScatterProofs ComplexModel BatchSpec BatchSpec2 BatchProofs
  MPModel MPSpec MPProofs MPForward MPNets MPProps MPIso
  LiftModel LiftSpec LiftBase LiftClique LiftCliqueProps LiftProps LiftRing LiftRingProps LiftRingExamples LiftIso LiftInvariance
  PermModel PermProps.
Import ListNotations.

(** What the libraries promise, for every input. *)
Definition good_lib (lib : list (list nat) -> simplex_tree) : Prop :=
  forall t, enumerates t (st_simplices (lib t)) (st_cofaces (lib t)).
Definition good_isos (isos : list (nat * nat) -> nat -> list (list nat)) (n : nat) : Prop :=
  forall edges k, graph_ok edges n -> finds_cycles edges k (isos edges k).
Definition good_set (so : list (list nat) -> list (list nat)) : Prop :=
  forall l : list (list nat), NoDup l -> Permutation (so l) l.

Section PermLift.
Context {V : Type} (o : ops V) (Ho : ops_ok o) (veqb : V -> V -> bool).
Variable smul : Z -> V -> V.
Variable coo_order : list (nat * nat) -> list (nat * nat).
Hypothesis smul0 : forall v, smul 0%Z v = vzero o.
Hypothesis smul1 : forall v, smul 1%Z v = v.
Hypothesis Hcoo : forall l, Permutation (coo_order l) l.

Definition plain_graph (g : graph V) : Prop :=
  graph_ok (g_edges g) (g_n g) /\ 0 < g_n g /\ length (g_x g) = g_n g /\ label_ok (g_y g) (g_n g) /\ g_attr g = None.
Definition valid_matrix (P : matrix) (n : nat) : Prop :=
  exists m, rectangular P (length P) m /\ 0 < m /\ 0 < length P /\ is_valid_permutation_matrix P n = Ok true.

Lemma permute_facts g P : plain_graph g -> valid_matrix P (g_n g) ->
  exists tau g', permute_graph o smul coo_order g P = Ok g' /\ plain_graph g' /\ g_n g' = g_n g /\
    graph_iso tau (g_n g) (g_edges g) (g_edges g') (g_x g) (g_x g').
Proof.
  intros (H1 & H2 & H3 & H4 & H5) (m & M1 & M2 & M3 & M4). rewrite <- H3 in *.
  destruct (C40_permute_graph o Ho smul coo_order smul0 smul1 Hcoo g P m M1 M3 M2 H2 M4 H5 H1) as (sigma & g' & S & _ & E & HP).
  pose proof (permuted_iso sigma (length (g_x g)) g g' S HP eq_refl) as HI.
  pose proof (inverse_iso _ _ _ _ _ _ HI) as HI'. pose proof (pg_n _ _ _ _ HP) as [N1 N2].
  eexists _, g'. split; [exact E|]. split; [|split; [exact N1|exact HI']].
  split; [|split; [lia|split; [lia|split; [|apply HP]]]].
  - intros u v Huv. apply (pg_edges _ _ _ _ HP) in Huv. lia.
  - rewrite N1. destruct (g_y g) as [y|] eqn:Ey.
    + destruct (Nat.eq_dec (length y) (length (g_x g))) as [L|L].
      * destruct (pg_node_y _ _ _ _ HP y Ey L) as (y' & -> & L' & _). simpl. auto.
      * rewrite (pg_graph_y _ _ _ _ HP); [rewrite Ey; auto|]. intros y0 Ey0. congruence.
    + rewrite (pg_graph_y _ _ _ _ HP); [rewrite Ey; exact I|]. intros y0 Ey0. congruence.
Qed.

(** C28: a graph and its image under permute_graph get the same prediction. *)
Theorem C28_permute_clique_and_predict lib lib' r (m : net V) g P k down max_dim :
  cwn_net o m -> good_lib lib -> good_lib lib' -> plain_graph g -> valid_matrix P (g_n g) ->
  exists g' K K' b b' out bo bo',
    permute_graph o smul coo_order g P = Ok g' /\
    compute_clique_complex o lib r (g_x g) (g_edges g) (g_n g) k (g_y g) down = Ok K /\
    compute_clique_complex o lib' r (g_x g') (g_edges g') (g_n g') k (g_y g') down = Ok K' /\
    from_complex_list [K] max_dim = Ok b /\ from_complex_list [K'] max_dim = Ok b' /\
    net_forward o m b = Ok (out, bo) /\ net_forward o m b' = Ok (out, bo').
Proof.
  intros Hm HL HL' Hg HP. destruct (permute_facts g P Hg HP) as (tau & g' & E & Hg' & Hn & HI).
  assert (CI : forall lib g, good_lib lib -> plain_graph g -> clique_input lib (g_x g) (g_edges g) (g_n g) k (g_y g)).
  { intros l0 g0 Hl (A & B & C & D & _). split; auto; apply Hl. }
  destruct (C28_clique_lift_and_predict o Ho lib lib' r m [g] [g'] k down max_dim Hm) as (ks & ks' & b & b' & out & bo & bo' & E1 & E2 & E3);
    [discriminate|constructor; auto|constructor; auto|constructor; auto; split; [auto|exists tau; auto]|].
  cbn [mapM] in E1, E2.
  destruct (compute_clique_complex o lib r _ _ _ _ _ _) as [K|] eqn:EK; [|discriminate].
  destruct (compute_clique_complex o lib' r _ _ _ _ _ _) as [K'|] eqn:EK'; [|discriminate].
  inversion E1; inversion E2; subst ks ks'. exists g', K, K', b, b', out, bo, bo'. tauto.
Qed.
Theorem C28_permute_ring_and_predict lib lib' isos isos' so so' r (m : net V) g P max_k down init_edges init_rings max_dim :
  cwn_net o m -> good_lib lib -> good_lib lib' -> good_isos isos (g_n g) -> good_isos isos' (g_n g) -> good_set so -> good_set so' ->
  (forall a b, veqb a b = true <-> a = b) ->
  (1 <= max_dim -> init_edges = true) -> (2 <= max_dim -> init_rings = true) ->
  plain_graph g -> (g_edges g = [] \/ exists u v, adjacent (g_edges g) u v) -> valid_matrix P (g_n g) ->
  exists g' K K' b b' out bo bo',
    permute_graph o smul coo_order g P = Ok g' /\
    compute_ring_2complex o veqb lib isos so r (g_x g) (g_edges g) (g_attr g) (g_n g) (g_y g) max_k down init_edges init_rings = Ok K /\
    compute_ring_2complex o veqb lib' isos' so' r (g_x g') (g_edges g') (g_attr g') (g_n g') (g_y g') max_k down init_edges init_rings = Ok K' /\
    from_complex_list [K] max_dim = Ok b /\ from_complex_list [K'] max_dim = Ok b' /\
    net_forward o m b = Ok (out, bo) /\ net_forward o m b' = Ok (out, bo').
Proof.
  intros Hm HL HL' Hc Hc' Hs Hs' Hv Hd1 Hd2 Hg Hadj HP. destruct (permute_facts g P Hg HP) as (tau & g' & E & Hg' & Hn & HI).
  assert (CI : forall lib isos so g, good_lib lib -> good_isos isos (g_n g) -> good_set so -> plain_graph g ->
    (g_edges g = [] \/ exists u v, adjacent (g_edges g) u v) -> ring_input lib isos so (g_x g) (g_edges g) (g_n g) (g_y g) max_k).
  { intros l0 i0 s0 g0 Hl Hi0 Hs0 (A & B & C & D & _) Ha. split; auto; apply Hl. }
  assert (Hadj' : g_edges g' = [] \/ exists u v, adjacent (g_edges g') u v).
  { destruct Hadj as [E0|(u & v & Huv)].
    - left. destruct (g_edges g') as [|[a b] es] eqn:Ee; auto. exfalso. destruct HP as (m0 & M1 & M2 & M3 & M4).
      destruct Hg as (H1 & H2 & H3 & H4 & H5). rewrite <- H3 in *.
      destruct (C40_permute_graph o Ho smul coo_order smul0 smul1 Hcoo g P m0 M1 M3 M2 H2 M4 H5 H1) as (sigma & g'' & S & _ & E'' & HP).
      rewrite E in E''. inversion E''; subst g''. pose proof (proj1 (pg_edges _ _ _ _ HP a b)) as Q. rewrite Ee, E0 in Q. destruct Q as (_ & _ & []). left; auto.
    - right. destruct Hg as (H1 & _). assert (u < g_n g /\ v < g_n g) as [Hu Hw] by (destruct Huv as [_ [Hin|Hin]]; apply H1 in Hin; lia).
      exists (tau u), (tau v). apply (gi_adj _ _ _ _ _ _ HI); auto. }
  destruct (C28_ring_lift_and_predict o Ho veqb lib lib' isos isos' so so' r m [g] [g'] max_k down init_edges init_rings max_dim Hm)
    as (ks & ks' & b & b' & out & bo & bo' & E1 & E2 & E3); auto.
  - discriminate.
  - constructor; auto. apply CI; auto. rewrite Hn; auto.
  - constructor; auto. split; auto. exists tau. split; auto. destruct Hg as (_ & _ & _ & _ & ->), Hg' as (_ & _ & _ & _ & ->). simpl. auto.
  - cbn [mapM] in E1, E2.
    destruct (compute_ring_2complex o veqb lib isos _ _ _ _ _ _ _ _ _ _ _) as [K|] eqn:EK; [|discriminate].
    destruct (compute_ring_2complex o veqb lib' isos' _ _ _ _ _ _ _ _ _ _ _) as [K'|] eqn:EK'; [|discriminate].
    inversion E1; inversion E2; subst ks ks'. exists g', K, K', b, b', out, bo, bo'. tauto.
Qed.
End PermLift.

(** ** Examples *)
Definition any_lib (b : bool) (t : list (list nat)) : simplex_tree := ref_lib b (nodup (list_eq_dec Nat.eq_dec) t).
Lemma any_lib_ok b : good_lib (any_lib b).
Proof.
  intros t. destruct (ref_lib_ok b (nodup (list_eq_dec Nat.eq_dec) t) (NoDup_nodup _ _)) as (A & B & C).
  assert (N : forall s, In s (nodup (list_eq_dec Nat.eq_dec) t) <-> In s t) by (intros; apply nodup_In).
  split; auto. split; [intros s; rewrite <- N; apply B|]. intros s Hs. destruct (C s (proj2 (N s) Hs)) as [C1 C2].
  split; auto. intros c. rewrite <- N. apply C2.
Qed.

(** The diamond written in another order, every edge once, without the loop. *)
Definition diamond' : list (nat * nat) := [(4, 3); (3, 1); (2, 3); (0, 2); (2, 1); (0, 1)].
Lemma diamond_same : same_graph diamond diamond'.
Proof.
  intros u v. unfold adjacent, diamond, diamond'. simpl. split; intros [H1 H2]; (split; [auto|]);
    repeat match goal with H : _ \/ _ |- _ => destruct H | H : (_, _) = (_, _) |- _ => inversion H; subst; clear H | H : False |- _ => destruct H end;
    solve [tauto | lia].
Qed.
Example C17_clique_example := C17_clique_edge_list Zops Zops_ok (any_lib true) (any_lib false) RMax diamond_x diamond diamond' 6 2 None true
  ltac:(split; [intros u v H; simpl in H; repeat (destruct H as [H|H]; [inversion H; subst; lia|]); destruct H|lia|reflexivity|exact I|apply any_lib_ok])
  ltac:(split; [intros u v H; simpl in H; repeat (destruct H as [H|H]; [inversion H; subst; lia|]); destruct H|lia|reflexivity|exact I|apply any_lib_ok])
  diamond_same.

Definition house' : list (nat * nat) := [(4, 1); (3, 2); (0, 4); (0, 1); (1, 2); (3, 0)].
Lemma house_same : same_graph house house'.
Proof.
  intros u v. unfold adjacent, house, house'. simpl. split; intros [H1 H2]; (split; [auto|]);
    repeat match goal with H : _ \/ _ |- _ => destruct H | H : (_, _) = (_, _) |- _ => inversion H; subst; clear H | H : False |- _ => destruct H end;
    solve [tauto | lia].
Qed.
Lemma house'_ok : ring_input (any_lib false) (ref_isos 5) (fun l => l) house_x house' 5 None 5.
Proof.
  assert (Hg : graph_ok house' 5) by (intros u v H; simpl in H; repeat (destruct H as [H|H]; [inversion H; subst; lia|]); destruct H).
  split; auto; [lia|right; exists 4, 1; split; [lia|left; left; auto]|exact I|apply any_lib_ok|].
  intros k _. apply ref_isos_ok; auto.
Qed.
Example C17_ring_example := C17_ring_edge_list Zops Zops_ok Z.eqb (ref_lib true) (any_lib false) (ref_isos 5) (ref_isos 5) (@rev _) (fun l => l)
  RAdd house_x house house' 5 None 5 true true true (house_ok true None I) house'_ok Zeqb_ok house_same.
(** The weight of edge {u, v} in the house. *)
Definition house_w (u v : nat) : Z := match Nat.min u v, Nat.max u v with 0, m => Z.of_nat m | n, m => Z.of_nat (10 * n + m) end.
Example C17_attr_example : exists K K' cells cells' pi,
  compute_ring_2complex Zops Z.eqb (ref_lib true) (ref_isos 5) (@rev _) RAdd house_x house (Some house_attr) 5 None 5 true true true = Ok K /\
  compute_ring_2complex Zops Z.eqb (any_lib false) (ref_isos 5) (fun l => l) RAdd house_x house' (Some [14; 23; 4; 1; 12; 3]%Z) 5 None 5 true true true = Ok K' /\
  ring_cells house 5 5 cells /\ ring_cells house' 5 5 cells' /\ same_complex cells cells' pi K K'.
Proof.
  apply (C17_ring_edge_attr Zops Zops_ok Z.eqb) with (w := house_w).
  - exact (house_ok true None I).
  - exact house'_ok.
  - exact Zeqb_ok.
  - exact house_same.
  - reflexivity.
  - reflexivity.
  - apply house_attr_ok.
  - intros u v H. simpl in H. repeat (destruct H as [H|H]; [inversion H; subst; lia|]). destruct H.
  - intros u v. unfold house_w. rewrite Nat.min_comm, Nat.max_comm. auto.
  - intros j u v H. do 12 (destruct j as [|j]; [inversion H; subst; reflexivity|]). destruct j; discriminate.
  - intros j u v H. do 6 (destruct j as [|j]; [inversion H; subst; reflexivity|]). destruct j; discriminate.
Qed.

Definition house_g : graph Z := mkGraph house_x house None 5 (Some [3%Z]).
(** New node a is old node sigma a for sigma = (2 0 4 1 3). *)
Definition house_P : matrix := perm_rows 5 [2; 0; 4; 1; 3].
Lemma house_P_ok : valid_matrix house_P 5.
Proof. exists 5. split; [split; [reflexivity|repeat constructor]|]. split; [lia|]. split; [simpl; lia|]. vm_compute. reflexivity. Qed.
Lemma house_plain : plain_graph house_g.
Proof.
  split; [intros u v H; simpl in H; repeat (destruct H as [H|H]; [inversion H; subst; simpl; lia|]); destruct H|].
  split; [simpl; lia|]. split; [reflexivity|]. split; [left; reflexivity|reflexivity].
Qed.
Example C40_example : permute_graph Zops Z.mul (@rev _) house_g house_P =
  Ok (mkGraph [100; 1; 10000; 10; 1000]%Z
      [(4, 1); (4, 0); (3, 2); (3, 1); (3, 0); (2, 3); (2, 1); (1, 4); (1, 3); (1, 2); (0, 4); (0, 3)] None 5 (Some [3%Z])).
Proof. vm_compute. reflexivity. Qed.
Example C40_valid_example : is_valid_permutation_matrix [[0;1];[1;0]]%Z 2 = Ok true /\ is_valid_permutation_matrix [[1;0];[0;1]]%Z 2 = Ok false /\
  is_valid_permutation_matrix [[1]]%Z 1 = Ok true /\ is_valid_permutation_matrix [[0;1];[0;1]]%Z 2 = Ok false /\
  is_valid_permutation_matrix [[1;1];[1;-1]]%Z 2 = Ok false.
Proof. repeat split; vm_compute; reflexivity. Qed.
Example C40_generated_example : generate_permutation_matrices [[0; 1]; [1; 0]; [0; 1]; [1; 0]] 2 2 = Ok (Some [[[0;1];[1;0]]; [[0;1];[1;0]]]%Z).
Proof. vm_compute. reflexivity. Qed.
Example C28_clique_example := C28_permute_clique_and_predict Zops Zops_ok Z.mul (@rev _) Z.mul_0_l Z.mul_1_l (fun l => Permutation_sym (Permutation_rev l))
  (any_lib true) (any_lib false) RAdd ex_net house_g house_P 2 true 2 (proj1 C06_hyps) (any_lib_ok true) (any_lib_ok false) house_plain house_P_ok.
Example C28_ring_example := C28_permute_ring_and_predict Zops Zops_ok Z.eqb Z.mul (@rev _) Z.mul_0_l Z.mul_1_l (fun l => Permutation_sym (Permutation_rev l))
  (any_lib true) (any_lib false) (ref_isos 5) (ref_isos 5) (@rev _) (fun l => l) RAdd ex_net house_g house_P 5 true true true 2
  (proj1 C06_hyps) (any_lib_ok true) (any_lib_ok false) (fun e k H => ref_isos_ok 5 e k H) (fun e k H => ref_isos_ok 5 e k H)
  (fun l _ => Permutation_sym (Permutation_rev l)) (fun l _ => Permutation_refl l) Zeqb_ok (fun _ => eq_refl) (fun _ => eq_refl)
  house_plain (or_intror (ex_intro _ 0 (ex_intro _ 1 (conj (Nat.neq_0_succ 0) (or_introl (or_introl eq_refl)))))) house_P_ok.

Print Assumptions C17_clique_edge_list.
Print Assumptions C17_ring_edge_list.
Print Assumptions C17_ring_edge_attr.
Print Assumptions C28_clique_lift_and_predict.
Print Assumptions C28_ring_lift_and_predict.
Print Assumptions C28_permute_clique_and_predict.
Print Assumptions C28_permute_ring_and_predict.
Print Assumptions C40_valid_iff.
Print Assumptions C40_permute_graph.
Print Assumptions C40_generated.
