(** C79, continued: strongly regular graphs and the 2-dimensional test. *)
From Coq Require Import List Arith Lia ZArith Bool Permutation.
From Verif Require Import Base ScatterModel ScatterSpec ScatterProofs ComplexModel BatchSpec BatchSpec2
  BatchProofs BatchProofs2 DummyModel BatchProps LiftModel LiftSpec LiftBase LiftProofs LiftClique LiftTables LiftCliqueProps LiftRing LiftProps LiftRingProps LiftRingExamples LiftRingBoundary LiftIso
  MPModel MPSpec MPProofs MPEngine MPBatch MPForward MPNets MPProps MPIso PermLift
  GraphNetModel GraphNetSpec GraphNetProofs GraphNetProps PowerSpec PowerProofs PowerProps WLSpec WLProofs WLProps ExpModel ExpProps CountProps.
From Verif Require Import RedundantSpec RedundantProofs RedundantProps.
From Verif Require Import BlindSpec BlindProps.
From Verif Require Import HierSpec HierProofs HierProps PartSpec PartProofs PartProps.
From Verif Require Import KwlSpec KwlProofs KwlProps KwlBound KwlClique KwlCells.
From Verif Require Import KwlUpper.
Import ListNotations.
Open Scope nat_scope.

Definition pdec : forall p q : nat * nat, {p = q} + {p <> q}.
Proof. decide equality; apply Nat.eq_dec. Defined.
Notation count l p := (count_occ pdec l p).
Definition kinds (l : list (nat * nat)) : Prop := Forall (fun p => fst p < 3 /\ snd p < 3) l.
Ltac cases3 p := let i := fresh "i" in let j := fresh "j" in let H1 := fresh in let H2 := fresh in
  destruct p as [i j]; match goal with H : _ /\ _ |- _ => destruct H as [H1 H2]; cbn [fst snd] in H1, H2 end;
  destruct i as [|[|[|i]]]; [| | |lia]; (destruct j as [|[|[|j]]]; [| | |lia]).
Lemma count_cons l q p : count (q :: l) p = (if pdec q p then 1 else 0) + count l p.
Proof. cbn [count_occ]. destruct (pdec q p); reflexivity. Qed.
Ltac count3 := repeat match goal with |- context [pdec ?a ?b] => destruct (pdec a b); try discriminate; try congruence end; lia.
Lemma all_of l : kinds l -> length l = count l (0,0) + count l (0,1) + count l (0,2) + count l (1,0) + count l (1,1) + count l (1,2) + count l (2,0) + count l (2,1) + count l (2,2).
Proof. induction 1 as [|p l Hp F IH]; [reflexivity|]. cbn [length]. rewrite !count_cons, IH. clear IH F. cases3 p; count3. Qed.
Lemma firsts_of l k : kinds l -> length (filter (fun p => fst p =? k) l) = count l (k,0) + count l (k,1) + count l (k,2).
Proof.
  induction 1 as [|p l Hp F IH]; [reflexivity|]. cbn [filter]. rewrite !count_cons. destruct Hp as [_ Hp]. destruct p as [i j]. cbn [fst snd] in *.
  destruct (Nat.eqb_spec i k) as [->|N]; cbn [length]; rewrite IH; clear IH F.
  - destruct j as [|[|[|j]]]; [| | |lia]; count3.
  - count3.
Qed.
Lemma seconds_of l k : kinds l -> length (filter (fun p => snd p =? k) l) = count l (0,k) + count l (1,k) + count l (2,k).
Proof.
  induction 1 as [|p l Hp F IH]; [reflexivity|]. cbn [filter]. rewrite !count_cons. destruct Hp as [Hp _]. destruct p as [i j]. cbn [fst snd] in *.
  destruct (Nat.eqb_spec j k) as [->|N]; cbn [length]; rewrite IH; clear IH F.
  - destruct i as [|[|[|i]]]; [| | |lia]; count3.
  - count3.
Qed.
(** Lists of kinds with the same numbers are the same up to order. *)
Lemma kinds_perm l l' : kinds l -> kinds l' -> length l = length l' ->
  (forall k, k < 2 -> length (filter (fun p => fst p =? k) l) = length (filter (fun p => fst p =? k) l')) ->
  (forall k, k < 2 -> length (filter (fun p => snd p =? k) l) = length (filter (fun p => snd p =? k) l')) ->
  (forall i j, i < 2 -> j < 2 -> count l (i, j) = count l' (i, j)) -> Permutation l l'.
Proof.
  intros K K' L F S D. apply (Permutation_count_occ pdec). intros [i j].
  rewrite (all_of l K), (all_of l' K') in L. pose proof (F 0 ltac:(lia)) as F0. pose proof (F 1 ltac:(lia)) as F1. pose proof (S 0 ltac:(lia)) as S0. pose proof (S 1 ltac:(lia)) as S1.
  rewrite !firsts_of in F0, F1 by assumption. rewrite !seconds_of in S0, S1 by assumption.
  pose proof (D 0 0 ltac:(lia) ltac:(lia)). pose proof (D 0 1 ltac:(lia) ltac:(lia)). pose proof (D 1 0 ltac:(lia) ltac:(lia)). pose proof (D 1 1 ltac:(lia) ltac:(lia)).
  destruct (le_lt_dec 3 i) as [Hi|Hi]; [|destruct (le_lt_dec 3 j) as [Hj|Hj]].
  - rewrite !(proj1 (count_occ_not_In pdec _ _)); [reflexivity| |]; intros Q; [apply (proj1 (Forall_forall _ _) K') in Q|apply (proj1 (Forall_forall _ _) K) in Q]; cbn in Q; lia.
  - rewrite !(proj1 (count_occ_not_In pdec _ _)); [reflexivity| |]; intros Q; [apply (proj1 (Forall_forall _ _) K') in Q|apply (proj1 (Forall_forall _ _) K) in Q]; cbn in Q; lia.
  - destruct i as [|[|[|i]]]; [| | |lia]; (destruct j as [|[|[|j]]]; [| | |lia]); lia.
Qed.

Definition kind (es : list (nat * nat)) (u v : nat) : nat := if u =? v then 0 else if joined es u v then 1 else 2.
Lemma kind_lt es u v : kind es u v < 3.
Proof. unfold kind. destruct (u =? v), (joined es u v); lia. Qed.
Lemma kind_sym es u v : kind es u v = kind es v u.
Proof. unfold kind. rewrite Nat.eqb_sym, joined_sym. reflexivity. Qed.

Section Srg.
Variables (es : list (nat * nat)) (n deg lam mu : nat).
Hypothesis GO : graph_ok es n.
Hypothesis LF : loop_free es.
Hypothesis SR : strongly_regular es n deg lam mu.
Lemma kind_0 u v : kind es u v = 0 <-> u = v.
Proof. unfold kind. destruct (Nat.eqb_spec u v), (joined es u v); split; intros; congruence || lia. Qed.
Lemma kind_1 u v : kind es u v = 1 <-> adjacent es u v.
Proof.
  unfold kind, adjacent. rewrite <- joined_iff. destruct (Nat.eqb_spec u v) as [E|N]; [split; [discriminate|intros [Q _]; contradiction]|]. destruct (joined es u v); split; intros Q; try discriminate; auto. destruct Q; discriminate.
Qed.
Lemma adjacent_lt u v : adjacent es u v -> u < n /\ v < n.
Proof. intros [_ [H|H]]; apply GO in H; lia. Qed.
Lemma counted (P : nat -> Prop) (b : nat -> bool) k : (forall v, b v = true <-> P v) -> (forall v, P v -> v < n) -> count_nodes P k -> length (filter b (seq 0 n)) = k.
Proof.
  intros HB HP (l & N & L & I). rewrite <- L. apply Permutation_length, NoDup_Permutation; [apply NoDup_filter, seq_NoDup|exact N|].
  intros v. rewrite filter_In, in_seq, HB, I. split; [tauto|]. intros H. specialize (HP v H). split; [lia|exact H].
Qed.
(** How the nodes stand to [u] and [v]. *)
Definition stands (u v : nat) : list (nat * nat) := map (fun w => (kind es w v, kind es u w)) (seq 0 n).
Definition common (t : nat) : nat := match t with 0 => deg | 1 => lam | _ => mu end.
Lemma stands_kinds u v : kinds (stands u v).
Proof. apply Forall_forall. intros p Hp. apply in_map_iff in Hp as (w & <- & _). cbn. split; apply kind_lt. Qed.
Lemma filter_stands b u v : length (filter b (stands u v)) = length (filter (fun w => b (kind es w v, kind es u w)) (seq 0 n)).
Proof. unfold stands. induction (seq 0 n) as [|w l IH]; [reflexivity|]. cbn [map filter]. destruct (b _); cbn [length]; rewrite IH; reflexivity. Qed.
Lemma count_filter l p : count l p = length (filter (fun q => (fst q =? fst p) && (snd q =? snd p)) l).
Proof.
  induction l as [|q l IH]; [reflexivity|]. rewrite count_cons, IH. cbn [filter]. destruct (pdec q p) as [->|N]; [rewrite !Nat.eqb_refl; reflexivity|].
  destruct q as [a b], p as [c d]. cbn [fst snd]. destruct (Nat.eqb_spec a c), (Nat.eqb_spec b d); try reflexivity. congruence.
Qed.
Lemma single (b : nat -> bool) v : v < n -> (forall w, b w = true -> w = v) -> length (filter b (seq 0 n)) = if b v then 1 else 0.
Proof.
  intros Hv H. destruct (b v) eqn:E.
  - change 1 with (length [v]). apply Permutation_length, NoDup_Permutation; [apply NoDup_filter, seq_NoDup|repeat constructor; intros []|]. intros w. rewrite filter_In, in_seq. split; [intros [_ Q]; left; symmetry; auto|]. intros [<-|[]]. split; [lia|exact E].
  - destruct (filter b (seq 0 n)) as [|w l] eqn:F; [reflexivity|]. exfalso. assert (Q : In w (filter b (seq 0 n))) by (rewrite F; now left). apply filter_In in Q as [_ Q]. rewrite (H w Q) in Q. congruence.
Qed.
Lemma stands_firsts u v : v < n -> length (filter (fun p => fst p =? 0) (stands u v)) = 1 /\ length (filter (fun p => fst p =? 1) (stands u v)) = deg.
Proof.
  intros Hv. rewrite !filter_stands. cbn [fst]. split.
  - rewrite (single _ v Hv); [rewrite (proj2 (kind_0 v v) eq_refl); reflexivity|]. intros w Q. apply Nat.eqb_eq in Q. apply (proj1 (kind_0 _ _)) in Q. exact Q.
  - apply (counted (adjacent es v)); [|intros w Q; apply adjacent_lt in Q; tauto|apply SR; exact Hv]. intros w. rewrite Nat.eqb_eq, kind_sym. apply kind_1.
Qed.
Lemma stands_seconds u v : u < n -> length (filter (fun p => snd p =? 0) (stands u v)) = 1 /\ length (filter (fun p => snd p =? 1) (stands u v)) = deg.
Proof.
  intros Hu. rewrite !filter_stands. cbn [snd]. split.
  - rewrite (single _ u Hu); [rewrite (proj2 (kind_0 u u) eq_refl); reflexivity|]. intros w Q. apply Nat.eqb_eq in Q. apply (proj1 (kind_0 _ _)) in Q. auto.
  - apply (counted (adjacent es u)); [|intros w Q; apply adjacent_lt in Q; tauto|apply SR; exact Hu]. intros w. rewrite Nat.eqb_eq. apply kind_1.
Qed.
Lemma stands_counts u v i j : u < n -> v < n -> i < 2 -> j < 2 ->
  count (stands u v) (i, j) = match i, j with 0, _ => if kind es u v =? j then 1 else 0 | _, 0 => if kind es u v =? i then 1 else 0 | _, _ => common (kind es u v) end.
Proof.
  intros Hu Hv Hi Hj. rewrite count_filter, filter_stands. cbn [fst snd]. destruct i as [|[|i]]; [|destruct j as [|[|j]]; [| |lia]|lia].
  - rewrite (single _ v Hv); [rewrite (proj2 (kind_0 v v) eq_refl); reflexivity|]. intros w Q. apply andb_true_iff in Q as [Q _]. apply Nat.eqb_eq in Q. apply (proj1 (kind_0 _ _)) in Q. exact Q.
  - rewrite (single _ u Hu); [rewrite (proj2 (kind_0 u u) eq_refl), andb_true_r; reflexivity|]. intros w Q. apply andb_true_iff in Q as [_ Q]. apply Nat.eqb_eq in Q. apply (proj1 (kind_0 _ _)) in Q. auto.
  - apply (counted (fun w => adjacent es u w /\ adjacent es v w)).
    + intros w. rewrite andb_true_iff, !Nat.eqb_eq, (kind_sym es w v), !kind_1. tauto.
    + intros w [Q _]. apply adjacent_lt in Q. tauto.
    + destruct SR as (S1 & S2 & S3). destruct (Nat.eq_dec u v) as [->|N].
      * rewrite (proj2 (kind_0 v v) eq_refl). destruct (S1 v Hv) as (l & H1 & H2 & H3). exists l. split; [exact H1|]. split; [exact H2|]. intros w. rewrite H3. tauto.
      * destruct (Nat.eq_dec (kind es u v) 1) as [E|E].
        -- rewrite E. apply S2; auto. apply kind_1. exact E.
        -- assert (kind es u v <> 0) by (rewrite kind_0; exact N). pose proof (kind_lt es u v). replace (kind es u v) with 2 by lia. apply S3; auto. rewrite <- kind_1. exact E.
Qed.
End Srg.
Section Srg2.
Context {W C : Type} (init : list W * list bool * list bool -> C) (hash : C -> list (list C) -> C) (x : W).
Hypothesis sym : kwl_symmetric hash.
Variables (es es' : list (nat * nat)) (n deg lam mu : nat).
Hypothesis GO : graph_ok es n.
Hypothesis LF : loop_free es.
Hypothesis SR : strongly_regular es n deg lam mu.
Hypothesis GO' : graph_ok es' n.
Hypothesis LF' : loop_free es'.
Hypothesis SR' : strongly_regular es' n deg lam mu.
Lemma stands_alike u v u' v' : u < n -> v < n -> u' < n -> v' < n -> kind es u v = kind es' u' v' -> Permutation (stands es n u v) (stands es' n u' v').
Proof.
  intros Hu Hv Hu' Hv' E. apply kinds_perm; try apply stands_kinds.
  - unfold stands. rewrite !map_length. reflexivity.
  - intros k Hk. destruct (stands_firsts es n deg lam mu GO SR u v Hv) as [A B], (stands_firsts es' n deg lam mu GO' SR' u' v' Hv') as [A' B']. destruct k as [|[|k]]; [congruence|congruence|lia].
  - intros k Hk. destruct (stands_seconds es n deg lam mu GO SR u v Hu) as [A B], (stands_seconds es' n deg lam mu GO' SR' u' v' Hu') as [A' B']. destruct k as [|[|k]]; [congruence|congruence|lia].
  - intros i j Hi Hj. rewrite (stands_counts es n deg lam mu GO SR u v i j), (stands_counts es' n deg lam mu GO' SR' u' v' i j), E by assumption. reflexivity.
Qed.
Notation c := (kwl init hash (seq 0 n) (tuple_atom es (fun _ => x))).
Notation c' := (kwl init hash (seq 0 n) (tuple_atom es' (fun _ => x))).
Lemma joined_kind e u v : loop_free e -> joined e u v = (kind e u v =? 1).
Proof.
  intros L. unfold kind. destruct (Nat.eqb_spec u v) as [->|N]; [|destruct (joined e u v); reflexivity]. cbn. apply not_true_iff_false. rewrite joined_iff. intros [H|H]; apply L in H; congruence.
Qed.
Lemma pair_alike l : forall u v u' v', u < n -> v < n -> u' < n -> v' < n -> kind es u v = kind es' u' v' -> c l [u; v] = c' l [u'; v'].
Proof.
  induction l as [|l IH]; intros u v u' v' Hu Hv Hu' Hv' E.
  - cbn [kwl]. f_equal. unfold tuple_atom, pairs. cbn [map list_prod app fst snd]. rewrite !(joined_kind es), !(joined_kind es') by assumption.
    assert (Z : forall e q, kind e q q = 0) by (intros e q; unfold kind; rewrite Nat.eqb_refl; reflexivity). rewrite (kind_sym es v u), (kind_sym es' v' u'), !Z, E, !Nat.eqb_refl.
    assert (Q : (u =? v) = (u' =? v')).
    { pose proof (kind_0 es u v). pose proof (kind_0 es' u' v'). rewrite E in H. destruct (Nat.eqb_spec u v), (Nat.eqb_spec u' v'); auto; tauto. }
    rewrite (Nat.eqb_sym v u), (Nat.eqb_sym v' u'), Q. reflexivity.
  - cbn [kwl]. rewrite (IH u v u' v' Hu Hv Hu' Hv' E). apply sym. cbn [length seq map].
    apply (matched_map (fun w w' => (kind es w v, kind es u w) = (kind es' w' v', kind es' u' w') /\ w < n /\ w' < n)).
    + intros w w' (Q & Lw & Lw'). injection Q as Q1 Q2. unfold replace. cbn [firstn skipn app]. rewrite (IH w v w' v'), (IH u w u' w'); auto.
    + pose proof (matched_of_map _ _ _ _ (stands_alike u v u' v' Hu Hv Hu' Hv' E)) as M. revert M. apply matched_imp. intros w w' Hw Hw' Q. apply in_seq in Hw, Hw'. split; [exact Q|]. lia.
Qed.
Lemma srg_alike l : Permutation (kwl_colours init hash es (fun _ => x) n 2 l) (kwl_colours init hash es' (fun _ => x) n 2 l).
Proof.
  unfold kwl_colours. rewrite <- !(Permutation_map _ (grown_perm n 1)). unfold grown.
  apply (matched_map (fun z z' => c l z = c' l z')); [auto|]. apply (matched_flat (fun a a' => a = a' /\ exists v, a = [v] /\ v < n)).
  - intros a a' (<- & v & -> & Hv). apply matched_mapped.
    assert (P : Permutation (map (fun w => kind es w v) (seq 0 n)) (map (fun w => kind es' w v) (seq 0 n))).
    { pose proof (stands_alike v v v v Hv Hv Hv Hv ltac:(unfold kind; rewrite Nat.eqb_refl; reflexivity)) as P. apply (Permutation_map fst) in P. unfold stands in P. rewrite !map_map in P. exact P. }
    apply matched_of_map in P. revert P. apply matched_imp. intros w w' Hw Hw' Q. apply in_seq in Hw, Hw'. apply pair_alike; auto; lia.
  - apply matched_forall. assert (Q : forall a, In a (tuples (seq 0 n) 1) -> exists v, a = [v] /\ v < n).
    { intros a Ha. apply tuples_in in Ha as [L F]. destruct a as [|v [|? ?]]; try discriminate L. inversion F as [|? ? Hv _]; subst. apply in_seq in Hv. exists v. split; [reflexivity|lia]. }
    revert Q. generalize (tuples (seq 0 n) 1). intros ts Q. induction ts as [|a ts IH]; constructor; [split; [reflexivity|apply Q; cbn; auto]|]. apply IH. intros; apply Q; cbn; auto.
Qed.
End Srg2.

(** The 2-dimensional test (as strong as 3-WL in its other form) does not separate strongly regular graphs with the same parameters. *)
Theorem C79_strongly_regular {W C} (init : list W * list bool * list bool -> C) hash (x : W) es es' n deg lam mu l : kwl_symmetric hash ->
  graph_ok es n -> loop_free es -> strongly_regular es n deg lam mu -> graph_ok es' n -> loop_free es' -> strongly_regular es' n deg lam mu ->
  Permutation (kwl_colours init hash es (fun _ => x) n 2 l) (kwl_colours init hash es' (fun _ => x) n 2 l).
Proof. intros. eapply srg_alike; eauto. Qed.
Lemma loop_freeb es : forallb (fun e => negb (fst e =? snd e)) es = true -> loop_free es.
Proof. intros H u v Hu. rewrite forallb_forall in H. apply H in Hu. cbn in Hu. apply negb_true_iff, Nat.eqb_neq in Hu. exact Hu. Qed.
(** Networks are not bounded by that test: it does not separate Rook's graph from the Shrikhande graph, one layer on their clique complexes does. *)
Theorem C79_not_bounded lib r down : good_lib lib ->
  (forall (W C : Type) (init : list W * list bool * list bool -> C) hash (x : W) l, kwl_symmetric hash ->
     Permutation (kwl_colours init hash (g_edges rook) (fun _ => x) 16 2 l) (kwl_colours init hash (g_edges shrikhande) (fun _ => x) 16 2 l)) /\
  exists K K' layers lin1 b v v' bo,
    clique_lift_of lib r 3 down rook = Ok K /\ clique_lift_of lib r 3 down shrikhande = Ok K' /\ length layers = 1 /\ from_complex_list [K; K'] 3 = Ok b /\
    net_forward Zops (sparse_cin Zops 3 layers None RAdd (seq 0 4) lin1 false (fun v => v)) b = Ok ([v; v'], bo) /\ v <> v'.
Proof.
  intros HL. split; [|exact (proj2 (C73_tetrahedra_needed lib r down HL))]. intros W C init hash x l S.
  apply (C79_strongly_regular init hash x (g_edges rook) (g_edges shrikhande) 16 6 2 2 l S).
  - apply rook_regular.
  - apply loop_freeb. vm_compute. reflexivity.
  - exact rook_strong.
  - apply shrikhande_regular.
  - apply loop_freeb. vm_compute. reflexivity.
  - exact shrikhande_strong.
Qed.
Example C79_strongly_regular_example : Permutation (kwl_colours num_kwl_init num_kwl_hash (g_edges rook) (fun _ => 1%Z) 16 2 5) (kwl_colours num_kwl_init num_kwl_hash (g_edges shrikhande) (fun _ => 1%Z) 16 2 5).
Proof.
  apply (C79_strongly_regular num_kwl_init num_kwl_hash 1%Z (g_edges rook) (g_edges shrikhande) 16 6 2 2 5).
  - apply C79_ideal_test.
  - apply rook_regular.
  - apply loop_freeb. vm_compute. reflexivity.
  - exact rook_strong.
  - apply shrikhande_regular.
  - apply loop_freeb. vm_compute. reflexivity.
  - exact shrikhande_strong.
Qed.
Print Assumptions C79_strongly_regular.
Print Assumptions C79_not_bounded.
