(** Concrete ring liftings, and inputs on which ring lifting fails. *)
From Coq Require Import List Arith Lia ZArith Bool Permutation Sorted.
From Verif Require Import Base ScatterModel ScatterSpec ScatterProofs ComplexModel BatchSpec BatchSpec2 BatchProofs
  LiftModel LiftSpec LiftBase LiftProofs LiftClique LiftTables LiftCliqueProps LiftRing LiftProps LiftRingProps LiftRingBoundary.
Import ListNotations.

(** ** A subgraph-isomorphism routine *)
(** All lists of [k] nodes, and among them the induced cycles (every cycle is found 2k times). *)
Fixpoint tuples (k : nat) (l : list nat) : list (list nat) :=
  match k with 0 => [[]] | S k => flat_map (fun t => map (fun a => a :: t) l) (tuples k l) end.
Definition adjb (edges : list (nat * nat)) (u v : nat) : bool :=
  negb (u =? v) && existsb (fun e => ((fst e =? u) && (snd e =? v)) || ((fst e =? v) && (snd e =? u))) edges.
Definition nextb (k i j : nat) : bool := (j =? (i + 1) mod k) || (i =? (j + 1) mod k).
Fixpoint nodup_nat (l : list nat) : bool := match l with [] => true | a :: l' => negb (existsb (Nat.eqb a) l') && nodup_nat l' end.
Definition cycleb (edges : list (nat * nat)) (c : list nat) : bool :=
  (3 <=? length c) && nodup_nat c &&
  forallb (fun i => forallb (fun j => eqb (adjb edges (nth i c 0) (nth j c 0)) (negb (i =? j) && nextb (length c) i j))
    (seq 0 (length c))) (seq 0 (length c)).
Definition ref_isos (size : nat) (edges : list (nat * nat)) (k : nat) : list (list nat) :=
  filter (cycleb edges) (tuples k (seq 0 size)).

Lemma tuples_In k l c : In c (tuples k l) <-> length c = k /\ incl c l.
Proof.
  revert c. induction k as [|k IH]; intros c; simpl.
  - split; [intros [<-|[]]; split; auto; intros v []|]. intros [H _]. destruct c; [auto|discriminate].
  - rewrite in_flat_map. split.
    + intros (t & Ht & H). apply in_map_iff in H as (a & <- & Ha). apply IH in Ht as [H1 H2]. simpl. split; [lia|].
      intros v [<-|Hv]; auto.
    + intros [H1 H2]. destruct c as [|a t]; [discriminate|]. exists t. split.
      * apply IH. simpl in H1. split; [lia|]. intros v Hv. apply H2. right; auto.
      * apply in_map_iff. exists a. split; auto. apply H2. left; auto.
Qed.
Lemma adjb_ok edges u v : adjb edges u v = true <-> adjacent edges u v.
Proof.
  unfold adjb, adjacent. rewrite andb_true_iff, negb_true_iff, Nat.eqb_neq, existsb_exists. split.
  - intros [H ([a b] & Hin & E)]. split; auto. cbn [fst snd] in E. apply orb_true_iff in E as [E|E]; apply andb_true_iff in E as [E1 E2];
      apply Nat.eqb_eq in E1, E2; subst; auto.
  - intros [H [Hin|Hin]]; split; auto; eexists; (split; [exact Hin|]); cbn [fst snd]; rewrite !Nat.eqb_refl; auto. apply orb_true_r.
Qed.
Lemma nextb_ok k i j : nextb k i j = true <-> next_to k i j.
Proof. unfold nextb, next_to. rewrite orb_true_iff, !Nat.eqb_eq. tauto. Qed.
Lemma nodup_nat_ok l : nodup_nat l = true <-> NoDup l.
Proof.
  induction l as [|a l IH]; simpl; [split; auto; constructor|]. rewrite andb_true_iff, negb_true_iff, IH. split.
  - intros [H1 H2]. constructor; auto. intros Hin. assert (existsb (Nat.eqb a) l = true) by (apply existsb_exists; exists a; rewrite Nat.eqb_refl; auto). congruence.
  - intros H. inversion H; subst. split; auto. destruct (existsb (Nat.eqb a) l) eqn:E; auto.
    apply existsb_exists in E as (b & Hb & E). apply Nat.eqb_eq in E. subst. tauto.
Qed.
Lemma cycleb_ok edges c : cycleb edges c = true <-> induced_cycle edges c.
Proof.
  unfold cycleb, induced_cycle. rewrite !andb_true_iff, Nat.leb_le, nodup_nat_ok, forallb_forall. split.
  - intros [[H1 H2] H3]. split; auto. split; auto. intros i j a b Hi Hj.
    assert (Li : i < length c) by (apply nth_error_Some; congruence). assert (Lj : j < length c) by (apply nth_error_Some; congruence).
    specialize (H3 i ltac:(apply in_seq; lia)). rewrite forallb_forall in H3. specialize (H3 j ltac:(apply in_seq; lia)).
    apply eqb_prop in H3. rewrite (nth_error_nth _ _ 0 Hi), (nth_error_nth _ _ 0 Hj) in H3.
    rewrite <- adjb_ok, H3, andb_true_iff, negb_true_iff, Nat.eqb_neq, nextb_ok. tauto.
  - intros (H1 & H2 & H3). split; auto. intros i Hi. apply in_seq in Hi. apply forallb_forall. intros j Hj. apply in_seq in Hj.
    apply eqb_true_iff. specialize (H3 i j (nth i c 0) (nth j c 0) ltac:(apply nth_error_nth'; lia) ltac:(apply nth_error_nth'; lia)).
    rewrite <- adjb_ok, <- nextb_ok, <- Nat.eqb_neq, <- negb_true_iff, <- andb_true_iff in H3.
    destruct (adjb _ _ _), (negb (i =? j) && nextb (length c) i j); intuition congruence.
Qed.
Lemma ref_isos_ok size edges k : graph_ok edges size -> finds_cycles edges k (ref_isos size edges k).
Proof.
  intros Hg. split.
  - intros c Hc. apply filter_In in Hc as [H1 H2]. apply tuples_In in H1. apply cycleb_ok in H2. tauto.
  - intros c Hc Hl. exists c. split; [|intros v; tauto]. apply filter_In. split; [|apply cycleb_ok; auto].
    apply tuples_In. split; auto. intros v Hv. apply In_nth_error in Hv as [i Hi]. apply in_seq.
    assert (Li : i < length c) by (apply nth_error_Some; congruence).
    assert (HA : adjacent edges v (nth (nxt (length c) i) c 0)).
    { rewrite <- (nth_error_nth _ _ 0 Hi). apply (adj_iff edges c Hc); auto. apply nxt_lt; auto. }
    destruct HA as [_ [HA|HA]]; apply Hg in HA; lia.
Qed.

(** ** Example: a square and a triangle sharing an edge; the surrounding pentagon has a chord *)
Definition house : list (nat * nat) :=
  [(0, 1); (1, 0); (1, 2); (2, 1); (2, 3); (3, 2); (3, 0); (0, 3); (0, 4); (4, 0); (4, 1); (1, 4)].
Definition house_x : list Z := [1; 10; 100; 1000; 10000]%Z.
Definition house_attr : list Z := [1; 1; 12; 12; 23; 23; 3; 3; 4; 4; 14; 14]%Z.

Lemma house_ok b (y : option (list Z)) : label_ok y 5 -> ring_input (ref_lib b) (ref_isos 5) (@rev _) house_x house 5 y 5.
Proof.
  intros Hy.
  assert (Hg : graph_ok house 5).
  { intros u v H. unfold house in H. repeat (destruct H as [H|H]; [inversion H; subst; lia|]). destruct H. }
  split; auto; [lia| | | |].
  - right. exists 0, 1. split; [lia|]. left. left. auto.
  - cbv zeta. apply ref_lib_ok. apply nodupb_ok. vm_compute. reflexivity.
  - intros k _. apply ref_isos_ok; auto.
  - intros l _. apply Permutation_sym, Permutation_rev.
Qed.
Lemma house_attr_ok : attr_ok house (Some house_attr).
Proof.
  split; [reflexivity|]. split.
  - intros u v H. unfold house in H. repeat (destruct H as [H|H]; [inversion H; subst; lia|]). destruct H.
  - intros j j' e e' Hj Hj' HS.
    do 12 (destruct j as [|j]; [cbn in Hj; inversion Hj; subst e; clear Hj;
      do 12 (destruct j' as [|j']; [cbn in Hj'; inversion Hj'; subst e'; clear Hj'; try reflexivity;
         exfalso; pose proof (proj1 (HS _) (or_introl eq_refl)); pose proof (proj1 (HS _) (or_intror (or_introl eq_refl))); cbn in *; lia|]);
      destruct j'; discriminate|]). destruct j; discriminate.
Qed.
Lemma Zeqb_ok : forall a b, Z.eqb a b = true <-> a = b.
Proof. apply Z.eqb_eq. Qed.

Example house_lift : exists K,
  compute_ring_2complex Zops Z.eqb (ref_lib true) (ref_isos 5) (@rev _) RAdd house_x house (Some house_attr) 5 (Some [5%Z]) 5 true true true = Ok K /\
  k_dim K = 2 /\ k_y K = Some [5%Z] /\
  map (fun c => c_x c) (k_cochains K) = [Some house_x; Some [14; 4; 3; 23; 12; 1]%Z; Some [1111; 10011]%Z] /\
  map (fun c => content (c_bidx c)) (k_cochains K) =
    [[]; [(1, 0); (4, 0); (0, 1); (4, 1); (0, 2); (3, 2); (2, 3); (3, 3); (1, 4); (2, 4); (0, 5); (1, 5)];
     [(5, 0); (2, 0); (4, 0); (3, 0); (5, 1); (1, 1); (0, 1)]] /\
  map (fun c => triples (c_lower c) (c_shb c)) (skipn 2 (k_cochains K)) = [[((0, 1), 5); ((1, 0), 5)]].
Proof. eexists. vm_compute. repeat split; reflexivity. Qed.

Example C19_example := C19_rings Zops Z.eqb (ref_lib true) (ref_isos 5) (@rev _) RAdd house_x house (Some house_attr) 5 None 5 true true false
  (house_ok true None I) Zeqb_ok (fun _ => house_attr_ok).
Example C20_example := C20_ring_boundary Zops Z.eqb (ref_lib true) (ref_isos 5) (@rev _) RAdd house_x house (Some house_attr) 5 None 5 true true false
  (house_ok true None I) Zeqb_ok (fun _ => house_attr_ok).
Example C20_listing_example : get_ring_boundaries [3; 1; 7; 5] = Ok [[1; 3]; [1; 7]; [3; 5]; [5; 7]] /\
  get_ring_boundaries [7; 1; 3; 5] = Ok [[1; 3]; [1; 7]; [3; 5]; [5; 7]].
Proof. split; reflexivity. Qed.
Example C13_ring_example := C13_upper_ring Zops Z.eqb (ref_lib true) (ref_isos 5) (@rev _) RAdd house_x house None 5 None 5 true true false
  (house_ok true None I) Zeqb_ok (fun _ => I).
Example C14_ring_example := C14_lower_ring Zops Z.eqb (ref_lib true) (ref_isos 5) (@rev _) RAdd house_x house None 5 None 5 true true false
  (house_ok true None I) Zeqb_ok (fun _ => I).
Example C15_ring_example := C15_ring_lifting_succeeds_partial Zops Z.eqb (ref_lib true) (ref_isos 5) (@rev _) RMax house_x house None 5 None 5 true true true
  (house_ok true None I) Zeqb_ok (fun _ => I).
Example C16_ring_example := C16_ring_features Zops Z.eqb (ref_lib true) (ref_isos 5) (@rev _) RMax house_x house None 5 None 5 true true true
  (house_ok true None I) Zeqb_ok (fun _ => I).
Example C21_example := C21_edge_attributes Zops Z.eqb (ref_lib true) (ref_isos 5) (@rev _) RMax house_x house (Some house_attr) 5 None 5 true true true
  (house_ok true None I) Zeqb_ok house_attr eq_refl eq_refl eq_refl (proj1 (proj2 house_attr_ok)) (proj2 (proj2 house_attr_ok)).
(** One direction of an edge with another attribute. *)
Definition house_bad : list Z := [1; 2; 12; 12; 23; 23; 3; 3; 4; 4; 14; 14]%Z.
Example C21_disagreement_example :
  compute_ring_2complex Zops Z.eqb (ref_lib true) (ref_isos 5) (@rev _) RMax house_x house (Some house_bad) 5 None 5 true true true = Err AssertionError.
Proof.
  apply C21_disagreement_rejected; auto.
  - apply house_ok. exact I.
  - apply Zeqb_ok.
  - apply house_attr_ok.
  - intros H. specialize (H 0 1 (0, 1) (1, 0) eq_refl eq_refl). assert (E : nth_error house_bad 0 = nth_error house_bad 1).
    { apply H. intros v. simpl. tauto. } discriminate.
Qed.

(** ** Inputs that are rejected *)
(** C15: a graph whose only edges are self-loops is rejected, although the clique lifting accepts it. *)
Theorem C15_only_self_loops_rejected :
  graph_ok [(1, 1)] 2 /\
  compute_ring_2complex Zops Z.eqb (ref_lib false) (ref_isos 2) (fun l => l) RAdd [3; 4]%Z [(1, 1)] None 2 None 6 true true true = Err AssertionError /\
  exists K, compute_clique_complex Zops (ref_lib false) RAdd [3; 4]%Z [(1, 1)] 2 2 None true = Ok K.
Proof.
  split; [intros u v [E|[]]; inversion E; lia|]. split; [vm_compute; reflexivity|]. eexists. vm_compute. reflexivity.
Qed.
(** C21: edge attributes together with a self-loop make the lifting fail with a KeyError; without
    edge attributes the same graph is lifted. *)
Theorem C21_self_loop_key_error :
  compute_ring_2complex Zops Z.eqb (ref_lib false) (ref_isos 2) (fun l => l) RAdd [3; 4]%Z [(0, 1); (1, 0); (1, 1)] (Some [5; 5; 6]%Z) 2 None 6 true true true = Err KeyError /\
  exists K, compute_ring_2complex Zops Z.eqb (ref_lib false) (ref_isos 2) (fun l => l) RAdd [3; 4]%Z [(0, 1); (1, 0); (1, 1)] None 2 None 6 true true true = Ok K.
Proof. split; [vm_compute; reflexivity|]. eexists. vm_compute. reflexivity. Qed.

Print Assumptions C13_upper_ring.
Print Assumptions C14_lower_ring.
Print Assumptions C15_ring_lifting_succeeds_partial.
Print Assumptions C15_only_self_loops_rejected.
Print Assumptions C16_ring_features.
Print Assumptions C19_rings.
Print Assumptions C20_ring_boundary.
Print Assumptions C20_rotation.
Print Assumptions C20_reversal.
Print Assumptions C20_listing.
Print Assumptions C21_edge_attributes.
Print Assumptions C21_disagreement_rejected.
Print Assumptions C21_self_loop_key_error.
