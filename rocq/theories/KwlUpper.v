(** C79, continued: the k-dimensional test bounds networks on clique complexes of dimension k. *)
From Coq Require Import List Arith Lia ZArith Bool Permutation.
From Verif Require Import Base ScatterModel ScatterSpec ScatterProofs ComplexModel BatchSpec BatchSpec2
  BatchProofs BatchProofs2 DummyModel BatchProps LiftModel LiftSpec LiftBase LiftProofs LiftClique LiftTables LiftCliqueProps LiftRing LiftProps LiftRingProps LiftRingExamples LiftRingBoundary LiftIso
  MPModel MPSpec MPProofs MPEngine MPBatch MPForward MPNets MPProps MPIso PermLift
  GraphNetModel GraphNetSpec GraphNetProofs GraphNetProps PowerSpec PowerProofs PowerProps WLSpec WLProofs WLProps ExpModel ExpProps CountProps.
From Verif Require Import RedundantSpec RedundantProofs RedundantProps.
From Verif Require Import BlindSpec BlindProps.
From Verif Require Import HierSpec HierProofs HierProps PartSpec PartProofs PartProps.
From Verif Require Import KwlSpec KwlProofs KwlProps KwlBound KwlClique KwlCells.
Import ListNotations.
Open Scope nat_scope.

(** ** The lifted graph *)
Definition row_of (r : reduce) (d : nat) (labels : list Z) : Z := if d =? 0 then nth 0 labels 0%Z else reduce_rows Zops r labels.
Lemma clique_named lib r k down D g : clique_input lib (LiftModel.g_x g) (LiftModel.g_edges g) (LiftModel.g_n g) k (LiftModel.g_y g) ->
  exists K sz cell, clique_lift_z lib r k down g = Ok K /\ wf_complex K sz /\ has_features D K /\ 0 < sz 0 /\ cellular down K sz /\
    named_cells (LiftModel.g_edges g) (LiftModel.g_n g) (Nat.min D (Nat.max 1 k)) (fun v => nth v (LiftModel.g_x g) 0%Z) (row_of r) (skel_of D K sz) (feats_of Zops K) cell.
Proof.
  destruct g as [x edges ea n y]. unfold clique_lift_z. cbn [LiftModel.g_x LiftModel.g_edges LiftModel.g_attr LiftModel.g_n LiftModel.g_y]. intros HI.
  destruct (given Zops lib r x edges n k y down HI) as (K & E & HC & _). pose proof (given_cells lib x edges n k y HI) as CC.
  set (cells := cells_of lib edges n k) in *. exists K, (fun d => length (cells d)), (fun d i => nth i (cells d) []). split; [exact E|].
  pose proof (hc_wf _ _ _ _ HC) as W. split; [exact W|]. split; [intros d c _ Ec; rewrite (hc_x _ _ _ _ HC d c Ec); discriminate|].
  split. { pose proof (cc_vertex _ _ _ _ CC 0 (ci_nodes _ _ _ _ _ _ HI)) as Hv. unfold names in Hv. destruct (cells 0); [discriminate|cbn; lia]. }
  split. { eapply has_cells_cellular; [exact HC|]. eapply clique_two, CC. }
  set (G := skel_of D K (fun d => length (cells d))).
  assert (N : forall d i, i < s_n G d -> d <= D /\ i < length (cells d)) by (intros d i Hi; unfold G in Hi; rewrite (skel_n _ _ _ _ W) in Hi; destruct (Nat.leb_spec d D); lia).
  assert (N' : forall d i, d <= D -> i < length (cells d) -> i < s_n G d) by (intros d i Hd Hi; unfold G; rewrite (skel_n _ _ _ _ W); destruct (Nat.leb_spec d D); lia).
  assert (A : forall d i, i < s_n G d -> names cells d i (nth i (cells d) [])) by (intros d i Hi; apply N in Hi as [_ Hi]; apply nth_error_nth'; exact Hi).
  assert (CL : forall d i, i < s_n G d -> clique edges n (nth i (cells d) []) /\ increasing (nth i (cells d) []) /\ length (nth i (cells d) []) = d + 1 /\ d <= Nat.max 1 k).
  { intros d i Hi. apply (cc_iff _ _ _ _ CC). eapply nth_error_In. exact (A d i Hi). }
  assert (J : forall u v, adjacent edges u v <-> u <> v /\ joined edges u v = true) by (intros u v; unfold adjacent; rewrite joined_iff; tauto).
  split.
  - intros d i Hi. destruct (CL d i Hi) as (_ & _ & _ & H). apply N in Hi. lia.
  - intros d i Hi. apply (CL d i Hi).
  - intros d i Hi. apply (CL d i Hi).
  - intros d i v Hi. destruct (CL d i Hi) as ((_ & _ & H & _) & _). apply H.
  - intros d i u v Hi Hu Hv Nuv. destruct (CL d i Hi) as ((_ & _ & _ & H) & _). apply J. apply H; assumption.
  - intros d s Hd Ns Ls Rs Js. pose proof (sort_perm Nat.leb s) as P.
    assert (Hin : In (sort Nat.leb s) (cells d)).
    { apply (cc_iff _ _ _ _ CC). split; [|split; [apply sorted_increasing, sort_sorted; exact Ns|split; [rewrite <- (Permutation_length P); exact Ls|lia]]].
      split; [intros Q; rewrite Q in P; apply Permutation_sym, Permutation_nil in P; subst s; cbn in Ls; lia|]. split; [exact (Permutation_NoDup P Ns)|split].
      - intros v Hv. apply (proj1 (sort_In s v)) in Hv. auto.
      - intros u v Hu Hv Nuv. apply (proj1 (sort_In s u)) in Hu. apply (proj1 (sort_In s v)) in Hv. apply J. auto. }
    apply (In_nth _ _ []) in Hin as (i & Hi & Ei). exists i. split; [apply N'; [lia|exact Hi]|]. rewrite Ei. intros v. apply sort_In.
  - intros d i j Hi Hj HS. exact (cc_once _ _ _ _ CC d i j _ _ (A d i Hi) (A d j Hj) HS).
  - intros d f t. unfold G. rewrite (skel_bnd _ _ _ _ W). fold G. split.
    + intros H. destruct (Nat.leb_spec (d + 1) D) as [Hd|Hd]; [|destruct H]. replace (d + 1) with (S d) in H by lia. apply (cells_boundary _ _ _ _ HC) in H as (sf & sc & Hf & Hc & I).
      unfold names in Hf, Hc. replace (S d) with (d + 1) in Hc by lia. split; [apply N'; [lia|apply nth_error_Some; congruence]|]. split; [apply N'; [lia|apply nth_error_Some; congruence]|].
      rewrite (nth_error_nth _ _ [] Hf), (nth_error_nth _ _ [] Hc). exact I.
    + intros (Hf & Ht & I). pose proof (N _ _ Ht) as [Hd _]. destruct (Nat.leb_spec (d + 1) D); [|lia]. pose proof (A _ _ Hf) as Af. pose proof (A _ _ Ht) as At.
      replace (d + 1) with (S d) in * by lia. apply (cells_boundary _ _ _ _ HC). exists (nth f (cells d) []), (nth t (cells (S d)) []). auto.
  - unfold G. rewrite (skel_bnd _ _ _ _ W). cbn [Nat.leb]. exact (cellular_vertices K _ W).
  - intros d i s Hi Ns HS. destruct (CL d i Hi) as ((_ & Nd & Rg & _) & _ & Ln & _). unfold feats_of. rewrite (rows_are _ _ _ _ _ _ _ HC (A d i Hi)). unfold lift_x, row_of. cbn [content]. fold cells.
    destruct (Nat.eqb_spec d 0) as [->|Nz].
    + assert (Es : s = [i]).
      { assert (Li : i < n). { pose proof (N _ _ Hi) as [_ Li]. destruct (nth i (cells 0) []) as [|v [|q w]] eqn:Ev; try (cbn in Ln; lia). specialize (Rg v (or_introl eq_refl)).
          assert (i = v) as ->; [|exact Rg]. apply (cc_once _ _ _ _ CC 0 i v [v] [v]); [rewrite <- Ev; exact (A 0 i Hi)|apply (cc_vertex _ _ _ _ CC); exact Rg|]. intros y0. tauto. }
        pose proof (cc_vertex _ _ _ _ CC i Li) as Hv. pose proof (A 0 i Hi) as Av. unfold names in *. rewrite Hv in Av. injection Av as Av. rewrite <- Av in HS.
        assert (Permutation [i] s) by (apply NoDup_Permutation; [repeat constructor; intros []|exact Ns|exact HS]). now apply Permutation_length_1_inv. }
      subst s. cbn [map nth]. reflexivity.
    + assert (Li : i < length (cells d)) by apply (N d i Hi). rewrite (nth_indep _ (vzero Zops) (cell_row Zops r x [])) by (rewrite map_length; exact Li). rewrite map_nth.
      rewrite (same_row Zops r x _ s Zops_ok Nd Ns HS). reflexivity.
Qed.

(** If the test with tuples of [K] nodes gives two graphs the same colours after enough rounds, no network with up to [L]
    layers separates their clique complexes of dimension up to [K], whatever it computes with and however the features
    are encoded. *)
Theorem C79_bounded {C} (init : list Z * list bool * list bool -> C) hash lib r k down D L K (g g' : LiftModel.graph Z) : kwl_faithful init hash -> 2 <= K -> k <= K ->
  clique_input lib (LiftModel.g_x g) (LiftModel.g_edges g) (LiftModel.g_n g) k (LiftModel.g_y g) ->
  clique_input lib (LiftModel.g_x g') (LiftModel.g_edges g') (LiftModel.g_n g') k (LiftModel.g_y g') ->
  let colours (q : LiftModel.graph Z) := kwl_colours init hash (LiftModel.g_edges q) (fun v => nth v (LiftModel.g_x q) 0%Z) (LiftModel.g_n q) K ((2 * L + 1) * (K + 2) + 1) in
  Permutation (colours g) (colours g') ->
  exists c c', clique_lift_z lib r k down g = Ok c /\ clique_lift_z lib r k down g' = Ok c' /\
  forall (V : Type) (o : ops V) (m : net V) (code : nat -> Z -> V), ops_ok o -> cwn_net o m -> length (n_convs m) <= L ->
  exists b b' w bo bo', from_complex_list [recode code c] D = Ok b /\ from_complex_list [recode code c'] D = Ok b' /\
    net_forward o m b = Ok ([w], bo) /\ net_forward o m b' = Ok ([w], bo').
Proof.
  intros HF HK Hk HI HI' colours P.
  destruct (clique_named lib r k down D g HI) as (c & sz & cell & E & Wc & Fc & Pc & Cc & NC). destruct (clique_named lib r k down D g' HI') as (c' & sz' & cell' & E' & Wc' & Fc' & Pc' & Cc' & NC').
  exists c, c'. split; [exact E|]. split; [exact E'|]. intros V o m code Ho HN HL.
  destruct (C70_recode code c sz D Wc Fc) as (C1 & C2 & C3). destruct (C70_recode code c' sz' D Wc' Fc') as (C1' & C2' & C3').
  apply (C70_lower_redundant o m code num_init num_hash c c' (recode code c) (recode code c') sz sz' down D Ho HN) with (L := L); auto.
  - intros d u u' Q. apply num_init_ideal in Q. exact Q.
  - apply separating_num.
  - intros d Hd. unfold colours_of. assert (HM : Nat.min D (Nat.max 1 k) <= K) by lia.
    apply (hist_alike init hash HF num_init num_hash num_hash_perm _ _ _ _ _ _ K _ _ _ _ _ _ cell cell' down down HK HM NC NC').
    + exact (cellular_regular _ c c down sz D Wc Cc (encoded_id c)).
    + exact (cellular_regular _ c' c' down sz' D Wc' Cc' (encoded_id c')).
    + exact P.
Qed.

(** There is such a test: colours are numbers. *)
Definition num_kwl_init (a : list Z * list bool * list bool) : nat :=
  pair_code (list_code (map (num_init 0) (fst (fst a)))) (pair_code (list_code (map Nat.b2n (snd (fst a)))) (list_code (map Nat.b2n (snd a)))).
Definition num_kwl_hash (c : nat) (u : list (list nat)) : nat := pair_code c (list_code (isort (map list_code u))).
Lemma map_inj {A B} (f : A -> B) l l' : (forall a b, f a = f b -> a = b) -> map f l = map f l' -> l = l'.
Proof. intros H. revert l'. induction l as [|a l IH]; intros [|b l'] E; cbn in E; try discriminate; [reflexivity|]. injection E as E1 E2. f_equal; auto. Qed.
Theorem C79_ideal_test : kwl_faithful num_kwl_init num_kwl_hash /\ kwl_symmetric num_kwl_hash.
Proof.
  split; [split|].
  - intros [[a1 a2] a3] [[b1 b2] b3] H. unfold num_kwl_init in H. cbn [fst snd] in H. rewrite !pair_eq, !list_code_iff in H. destruct H as (H1 & H2 & H3).
    assert (B : forall a b : bool, Nat.b2n a = Nat.b2n b -> a = b) by (intros [] []; cbn; congruence).
    apply map_inj in H1; [|intros a b; apply num_init_ideal]. apply map_inj in H2, H3; auto. congruence.
  - intros c u c' u' H. unfold num_kwl_hash in H. rewrite pair_eq, list_code_iff, isort_iff in H. destruct H as [-> H]. split; [reflexivity|].
    rewrite <- (map_id u), <- (map_id u'). revert H. apply perm_transfer. intros a b _ _ Q. apply list_code_iff in Q. exact Q.
  - intros c u u' H. unfold num_kwl_hash. rewrite pair_eq, list_code_iff, isort_iff. split; [reflexivity|]. now apply Permutation_map.
Qed.

(** The bound is met exactly: for every [k >= 2], test and networks with tuples and cliques of dimension [k] do not separate
    the bit graphs for [k + 2] places, networks on cliques of dimension [k + 1] do. *)
Definition bit_input (p : nat) (tw : bool) : LiftModel.graph Z := let n := p * 2 ^ (p - 2) in LiftModel.mkGraph (repeat 1%Z n) (bit_graph p tw) None n None.
Lemma bit_kwl (p k l : nat) : k + 2 <= p ->
  let colours (q : LiftModel.graph Z) := kwl_colours num_kwl_init num_kwl_hash (LiftModel.g_edges q) (fun v => nth v (LiftModel.g_x q) 0%Z) (LiftModel.g_n q) k l in
  Permutation (colours (bit_input p false)) (colours (bit_input p true)).
Proof.
  intros Hp colours. unfold colours, bit_input. cbn [LiftModel.g_x LiftModel.g_edges LiftModel.g_n]. set (n := p * 2 ^ (p - 2)).
  assert (S : forall es, kwl_colours num_kwl_init num_kwl_hash es (fun v => nth v (repeat 1%Z n) 0%Z) n k l = kwl_colours num_kwl_init num_kwl_hash es (fun _ => 1%Z) n k l).
  { intros es. unfold kwl_colours. apply map_ext_in. intros a Ha. apply tuples_in in Ha as [_ Ha]. rewrite <- (map_id a) at 2.
    symmetry. apply (kwl_iso num_kwl_init num_kwl_hash (proj2 C79_ideal_test) (fun v => v) (seq 0 n) (seq 0 n)); [rewrite map_id; reflexivity| |exact Ha].
    intros b Hb. rewrite map_id. unfold tuple_atom. f_equal. f_equal. apply map_ext_in. intros v Hv. rewrite Forall_forall in Hb. apply Hb, in_seq in Hv.
    symmetry. rewrite nth_indep with (d' := 1%Z) by (rewrite repeat_length; lia). apply nth_repeat. }
  rewrite !S. apply C79_test_blind; [apply C79_ideal_test|exact Hp].
Qed.
Example C79_bounded_example lib r down : good_lib lib ->
  exists c c', clique_lift_z lib r 2 down (bit_input 4 false) = Ok c /\ clique_lift_z lib r 2 down (bit_input 4 true) = Ok c' /\
  forall (V : Type) (o : ops V) (m : net V) (code : nat -> Z -> V), ops_ok o -> cwn_net o m ->
  exists b b' w bo bo', from_complex_list [recode code c] 2 = Ok b /\ from_complex_list [recode code c'] 2 = Ok b' /\
    net_forward o m b = Ok ([w], bo) /\ net_forward o m b' = Ok ([w], bo').
Proof.
  intros HL.
  assert (HI : forall tw, clique_input lib (LiftModel.g_x (bit_input 4 tw)) (LiftModel.g_edges (bit_input 4 tw)) (LiftModel.g_n (bit_input 4 tw)) 2 (LiftModel.g_y (bit_input 4 tw))).
  { intros tw. constructor; cbn [bit_input LiftModel.g_x LiftModel.g_edges LiftModel.g_n LiftModel.g_y].
    - rewrite <- (spots_len 4 tw) by lia. apply bit_ok.
    - cbn. lia.
    - apply repeat_length.
    - exact I.
    - apply HL. }
  assert (X : forall L, exists c c', clique_lift_z lib r 2 down (bit_input 4 false) = Ok c /\ clique_lift_z lib r 2 down (bit_input 4 true) = Ok c' /\
    forall (V : Type) (o : ops V) (m : net V) (code : nat -> Z -> V), ops_ok o -> cwn_net o m -> length (n_convs m) <= L ->
    exists b b' w bo bo', from_complex_list [recode code c] 2 = Ok b /\ from_complex_list [recode code c'] 2 = Ok b' /\
      net_forward o m b = Ok ([w], bo) /\ net_forward o m b' = Ok ([w], bo')).
  { intros L. exact (C79_bounded num_kwl_init num_kwl_hash lib r 2 down 2 L 2 (bit_input 4 false) (bit_input 4 true) (proj1 C79_ideal_test) (le_n 2) (le_n 2) (HI false) (HI true)
      (bit_kwl 4 2 ((2 * L + 1) * (2 + 2) + 1) (le_n 4))). }
  destruct (X 0) as (c & c' & E & E' & _). exists c, c'. split; [exact E|]. split; [exact E'|]. intros V o m code Ho HN.
  destruct (X (length (n_convs m))) as (q & q' & Eq & Eq' & H). rewrite E in Eq. rewrite E' in Eq'. injection Eq as <-. injection Eq' as <-. apply H; auto.
Qed.
Example C79_beyond_example lib r down : good_lib lib -> exists n es es',
  (forall l, Permutation (kwl_colours num_kwl_init num_kwl_hash es (fun _ => 1%Z) n 2 l) (kwl_colours num_kwl_init num_kwl_hash es' (fun _ => 1%Z) n 2 l)) /\
  exists c c' layers lin1 b v v' bo,
     compute_clique_complex Zops lib r (repeat 1%Z n) es n 3 None down = Ok c /\
     compute_clique_complex Zops lib r (repeat 1%Z n) es' n 3 None down = Ok c' /\
     length layers = 1 /\ from_complex_list [c; c'] 3 = Ok b /\
     net_forward Zops (sparse_cin Zops 3 layers None RAdd (seq 0 4) lin1 false (fun v => v)) b = Ok ([v; v'], bo) /\ v <> v'.
Proof.
  intros HL. destruct (C79_beyond 2 lib r down ltac:(lia) HL) as (n & es & es' & H1 & H2). exists n, es, es'. split; [|exact H2].
  intros l. apply H1. apply C79_ideal_test.
Qed.
(** The test is no constant: it separates a path from a triangle. *)
Example C79_test_separates : let colours es := kwl_colours num_kwl_init num_kwl_hash es (fun _ => 1%Z) 3 2 0 in
  ~ Permutation (colours [(0, 1); (1, 2)]) (colours [(0, 1); (1, 2); (0, 2)]).
Proof.
  intros colours P. apply matched_of_map in P. destruct (matched_with _ _ _ [0; 2] P) as (a & Ha & E); [apply tuples_in; split; [reflexivity|repeat constructor; apply in_seq; lia]|].
  apply tuples_in in Ha as [La Ra]. destruct a as [|u [|v [|? ?]]]; try discriminate La. cbn [kwl] in E. apply (proj1 (proj1 C79_ideal_test)) in E.
  inversion Ra as [|? ? Hu R']; subst. inversion R' as [|? ? Hv _]; subst. apply in_seq in Hu, Hv.
  destruct u as [|[|[|u]]]; try lia; destruct v as [|[|[|v]]]; try lia; vm_compute in E; discriminate.
Qed.
Print Assumptions C79_bounded.
Print Assumptions C79_ideal_test.
Print Assumptions C79_beyond.
Print Assumptions C79_test_blind.
