(** The synthetic ring tasks: C41. *)
From Coq Require Import List Arith Lia ZArith Bool Permutation.
From Verif Require Import Base ScatterModel ScatterSpec ComplexModel BatchSpec LiftModel LiftSpec LiftProps
  LiftCliqueProps LiftRingProps LiftRingExamples PermLift LiftInvariance LiftDataset RingModel.
Import ListNotations.

(** ** The ring *)
Lemma succ_mod i n : i < n -> (i + 1) mod n = if i + 1 =? n then 0 else i + 1.
Proof.
  intros H. destruct (Nat.eqb_spec (i + 1) n) as [->|N].
  - apply Nat.mod_same. lia.
  - apply Nat.mod_small. lia.
Qed.

Lemma next_to_iff n i j : i < n -> j < n ->
  (next_to n i j <-> j = (if i + 1 =? n then 0 else i + 1) \/ i = (if j + 1 =? n then 0 else j + 1)).
Proof. intros Hi Hj. unfold next_to. rewrite !succ_mod by auto. tauto. Qed.

Lemma ring_edges_in n u v : 1 <= n ->
  (In (u, v) (ring_edges n) <->
   (v = u + 1 /\ v < n) \/ (u = v + 1 /\ u < n) \/ (u = 0 /\ v = n - 1) \/ (u = n - 1 /\ v = 0)).
Proof.
  intros Hn. unfold ring_edges. rewrite in_app_iff, in_flat_map. split.
  - intros [(i & Hi & H)|H].
    + apply in_seq in Hi. destruct H as [H|[H|[]]]; inversion H; subst; lia.
    + destruct H as [H|[H|[]]]; inversion H; subst; lia.
  - intros [[-> H]|[[-> H]|[[-> ->]|[-> ->]]]].
    + left. exists u. rewrite in_seq. split; [lia|]. left; auto.
    + left. exists v. rewrite in_seq. split; [lia|]. right; left; auto.
    + right. left; auto.
    + right. right; left; auto.
Qed.

Lemma ring_adjacent n u v : 3 <= n -> u < n -> v < n ->
  (adjacent (ring_edges n) u v <-> u <> v /\ next_to n u v).
Proof.
  intros Hn Hu Hv. unfold adjacent. rewrite !ring_edges_in, next_to_iff by lia.
  destruct (Nat.eqb_spec (u + 1) n), (Nat.eqb_spec (v + 1) n); lia.
Qed.

(** The nodes in their numbering form an induced cycle through all nodes. *)
Theorem C41_ring : forall n, 3 <= n -> graph_ok (ring_edges n) n /\ NoDup (ring_edges n) /\
  induced_cycle (ring_edges n) (seq 0 n).
Proof.
  intros n Hn. split; [|split].
  - intros u v H. apply ring_edges_in in H; lia.
  - unfold ring_edges.
    assert (G : forall m s, NoDup (flat_map (fun i => [(i, i + 1); (i + 1, i)]) (seq s m)) /\
      forall u v, In (u, v) (flat_map (fun i => [(i, i + 1); (i + 1, i)]) (seq s m)) -> (s <= u /\ s <= v) /\ (v = u + 1 \/ u = v + 1)).
    { induction m as [|m IH]; intros s; simpl.
      - split; [constructor|intros u v []].
      - destruct (IH (S s)) as [N I]. split.
        + constructor.
          * intros [H|H]; [inversion H; lia|]. apply I in H. lia.
          * constructor; auto. intros H. apply I in H. lia.
        + intros u v [H|[H|H]]; [inversion H; lia|inversion H; lia|]. apply I in H. lia. }
    destruct (G (n - 1) 0) as [N I].
    assert (E : forall (a b : list (nat * nat)), NoDup a -> NoDup b -> (forall e, In e a -> ~ In e b) -> NoDup (a ++ b)).
    { induction a as [|e a IHa]; intros b Na Nb D; simpl; auto. inversion Na; subst. constructor.
      - rewrite in_app_iff. intros [H|H]; auto. apply (D e); simpl; auto.
      - apply IHa; auto. intros e' He'. apply D. right; auto. }
    apply E; auto.
    + repeat constructor; simpl; try tauto. intros [H|[]]; inversion H; lia.
    + intros [u v] H H'. apply I in H. destruct H' as [H'|[H'|[]]]; inversion H'; subst; lia.
  - split; [rewrite seq_length; auto|]. split; [apply seq_NoDup|].
    intros i j a b Hi Hj. rewrite seq_length.
    assert (Li : i < n) by (rewrite <- (seq_length n 0); apply nth_error_Some; congruence).
    assert (Lj : j < n) by (rewrite <- (seq_length n 0); apply nth_error_Some; congruence).
    apply nth_error_nth with (d := 0) in Hi, Hj. rewrite seq_nth in Hi, Hj by auto. simpl in Hi, Hj. subst a b.
    apply ring_adjacent; auto.
Qed.

(** Every induced cycle of the ring goes through all nodes. *)
Lemma ring_cycle_all n c : 3 <= n -> induced_cycle (ring_edges n) c -> forall v, v < n -> In v c.
Proof.
  intros Hn (Hl & Hnd & Hadj).
  set (k := length c) in *.
  assert (Hin : forall a, In a c -> a < n).
  { intros a Ha. apply In_nth_error in Ha as (i & Hi).
    assert (Li : i < k) by (apply nth_error_Some; congruence).
    set (j := (i + 1) mod k). assert (Lj : j < k) by (apply Nat.mod_upper_bound; lia).
    destruct (nth_error c j) as [b|] eqn:Hj; [|apply nth_error_None in Hj; lia].
    assert (A : adjacent (ring_edges n) a b).
    { apply (Hadj i j); auto. split; [|left; auto]. unfold j. rewrite succ_mod by auto. destruct (Nat.eqb_spec (i + 1) k); lia. }
    destruct A as [_ [A|A]]; apply ring_edges_in in A; lia. }
  assert (Hstep : forall a, In a c -> In (if a + 1 =? n then 0 else a + 1) c).
  { intros a Ha. pose proof (Hin a Ha) as La. apply In_nth_error in Ha as (i & Hi).
    assert (Li : i < k) by (apply nth_error_Some; congruence).
    set (j := if i + 1 =? k then 0 else i + 1). set (h := if i =? 0 then k - 1 else i - 1).
    assert (Lj : j < k) by (unfold j; destruct (Nat.eqb_spec (i + 1) k); lia).
    assert (Lh : h < k) by (unfold h; destruct (Nat.eqb_spec i 0); lia).
    destruct (nth_error c j) as [b|] eqn:Hj; [|apply nth_error_None in Hj; lia].
    destruct (nth_error c h) as [b'|] eqn:Hh; [|apply nth_error_None in Hh; lia].
    assert (Lb : b < n) by (apply Hin; eapply nth_error_In; eauto).
    assert (Lb' : b' < n) by (apply Hin; eapply nth_error_In; eauto).
    assert (A : adjacent (ring_edges n) a b).
    { apply (Hadj i j); auto. rewrite next_to_iff by auto. unfold j.
      destruct (Nat.eqb_spec (i + 1) k); split; auto; lia. }
    assert (A' : adjacent (ring_edges n) a b').
    { apply (Hadj i h); auto. rewrite next_to_iff by auto. unfold h.
      destruct (Nat.eqb_spec i 0); split; try lia; right.
      - replace (k - 1 + 1) with k by lia. rewrite Nat.eqb_refl. auto.
      - replace (i - 1 + 1) with i by lia. destruct (Nat.eqb_spec i k); lia. }
    assert (Nb : b <> b').
    { intros ->. assert (j = h).
      { apply (proj1 (NoDup_nth_error c) Hnd); [fold k; lia|congruence]. }
      unfold j, h in H. destruct (Nat.eqb_spec (i + 1) k), (Nat.eqb_spec i 0); lia. }
    apply ring_adjacent in A, A'; auto. rewrite next_to_iff in A, A' by auto.
    assert (In b c) by (eapply nth_error_In; eauto). assert (In b' c) by (eapply nth_error_In; eauto).
    destruct A as [Na [A|A]]; [rewrite <- A; auto|].
    destruct A' as [Na' [A'|A']]; [rewrite <- A'; auto|].
    exfalso. destruct (Nat.eqb_spec (b + 1) n), (Nat.eqb_spec (b' + 1) n); lia. }
  assert (H0 : exists a, In a c).
  { destruct c as [|a c]; [simpl in *; lia|]. exists a. left; auto. }
  destruct H0 as (a & Ha).
  assert (Hup : forall m, a + m < n -> In (a + m) c).
  { induction m as [|m IH]; intros L; [rewrite Nat.add_0_r; auto|].
    specialize (IH ltac:(lia)). apply Hstep in IH. destruct (Nat.eqb_spec (a + m + 1) n); [lia|].
    replace (a + S m) with (a + m + 1) by lia. auto. }
  assert (Hz : In 0 c).
  { pose proof (Hin a Ha). specialize (Hup (n - 1 - a) ltac:(lia)). replace (a + (n - 1 - a)) with (n - 1) in Hup by lia.
    apply Hstep in Hup. replace (n - 1 + 1 =? n) with true in Hup by (symmetry; apply Nat.eqb_eq; lia). auto. }
  intros v. induction v as [|v IH]; intros Lv; auto.
  specialize (IH ltac:(lia)). apply Hstep in IH. destruct (Nat.eqb_spec (v + 1) n); [lia|].
  replace (S v) with (v + 1) by lia. auto.
Qed.

(** Lifting such a graph gives exactly one 2-cell, spanned by all nodes (the assertion of
    ringlookup.py:73). *)
Theorem C41_single_two_cell : forall n max_k cells, 3 <= n <= max_k ->
  ring_cells (ring_edges n) n max_k cells ->
  exists s, cells 2 = [s] /\ forall v, In v s <-> v < n.
Proof.
  intros n mk cells Hn RC.
  assert (HA : forall s, In s (cells 2) -> forall v, In v s <-> v < n).
  { intros s Hs. destruct (rc_ring _ _ _ _ RC s Hs) as [Hc _]. intros v. split.
    - intros Hv. pose proof Hc as (Hl & _ & Hadj). apply In_nth_error in Hv as (i & Hi).
      assert (Li : i < length s) by (apply nth_error_Some; congruence).
      set (j := (i + 1) mod length s). assert (Lj : j < length s) by (apply Nat.mod_upper_bound; lia).
      destruct (nth_error s j) as [b|] eqn:Hj; [|apply nth_error_None in Hj; lia].
      assert (A : adjacent (ring_edges n) v b).
      { apply (Hadj i j); auto. split; [|left; auto]. unfold j. rewrite succ_mod by auto. destruct (Nat.eqb_spec (i + 1) (length s)); lia. }
      destruct A as [_ [A|A]]; apply ring_edges_in in A; lia.
    - apply ring_cycle_all; auto; lia. }
  destruct (C41_ring n) as (_ & _ & Hc); [lia|].
  destruct (rc_all _ _ _ _ RC _ Hc) as (i & t & Hi & _); [rewrite seq_length; lia|].
  assert (Ht : In t (cells 2)) by (unfold names in Hi; eapply nth_error_In; eauto).
  destruct (cells 2) as [|s [|s' r]] eqn:E; [destruct Ht| |].
  - exists s. split; auto. apply HA. left; auto.
  - exfalso. assert (D : 0 = 1); [|lia].
    apply (rc_once _ _ _ _ RC 2 0 1 s s'); [unfold names; rewrite E; auto..|].
    intros v. rewrite (HA s), (HA s') by (simpl; auto). tauto.
Qed.

(** Applied to the lifting itself. *)
Theorem C41_lifted_ring : forall V (o : ops V) veqb lib isos set_order r x n y max_k down init_edges init_rings,
  3 <= n <= max_k -> ring_input lib isos set_order x (ring_edges n) n y max_k ->
  (forall a b, veqb a b = true <-> a = b) ->
  exists K c2, compute_ring_2complex o veqb lib isos set_order r x (ring_edges n) None n y max_k down init_edges init_rings = Ok K /\
    k_dim K = 2 /\ nth_error (k_cochains K) 2 = Some c2 /\ num_cells c2 = Ok (Some 1).
Proof.
  intros V o veqb lib isos so r x n y mk dn ie ir Hn HI Hv.
  destruct (C19_rings o veqb lib isos so r x (ring_edges n) None n y mk dn ie ir HI Hv) as (K & cells & E & RC & HD & W & _).
  { intros _. exact I. }
  destruct (C41_single_two_cell n mk cells Hn RC) as (s & Es & _).
  assert (D2 : k_dim K = 2).
  { assert (2 <= k_dim K) by (apply HD; rewrite Es; discriminate).
    destruct (Nat.le_gt_cases 3 (k_dim K)) as [G|G]; [|lia]. apply HD in G. exfalso. apply G. apply (rc_top _ _ _ _ RC); auto. }
  destruct (nth_error (k_cochains K) 2) as [c2|] eqn:E2.
  2: { apply nth_error_None in E2. rewrite (wfk_len _ _ W), D2 in E2. lia. }
  exists K, c2. split; auto. split; auto. split; auto.
  pose proof (wfk_each _ _ W 2 c2 E2) as Wc. rewrite <- (f_equal (@length _) Es : length (cells 2) = 1).
  apply (BatchProofs.wf_num_cells (fun d => length (cells d)) (k_dim K) 2 c2 Wc).
Qed.

(** ** Ring transfer *)
Lemma nth_error_repeat_lt {A} (a : A) n : forall i, i < n -> nth_error (repeat a n) i = Some a.
Proof. induction n as [|n IH]; intros [|i] H; simpl; auto; try lia. apply IH. lia. Qed.

Lemma mask_spec n : 1 <= n -> exists m, ring_mask n = Ok m /\ length m = n /\
  forall v, v < n -> nth_error m v = Some (v =? 0).
Proof.
  intros H. unfold ring_mask. destruct (upd_ok (repeat false n) 0 (fun _ => true)) as (r & -> & Hl & Hn).
  { rewrite repeat_length. lia. }
  exists r. rewrite repeat_length in Hl. split; auto. split; auto. intros v Hv. rewrite Hn.
  rewrite nth_error_repeat_lt by auto. destruct (v =? 0); reflexivity.
Qed.

(** Only the node opposite to node 0 carries the target; node 0 (the only masked node) carries zeros
    and all others ones; the label is the position of the largest entry of the target. *)
Theorem C41_ring_transfer : forall n target, 2 <= n -> target <> [] ->
  exists g, ring_transfer n target = Ok g /\
    r_edges g = ring_edges n /\ length (r_x g) = n /\ length (r_mask g) = n /\
    (forall v, v < n -> nth_error (r_mask g) v = Some (v =? 0)) /\
    nth_error (r_x g) (n / 2) = Some target /\
    nth_error (r_x g) 0 = Some (repeat 0%Z (length target)) /\
    (forall v, 0 < v < n -> v <> n / 2 -> nth_error (r_x g) v = Some (repeat 1%Z (length target))) /\
    exists y, r_y g = [y] /\ argmax target = Ok y.
Proof.
  intros n t Hn Ht.
  assert (Ho : 0 < n / 2 < n) by (split; [apply Nat.div_str_pos; lia|apply Nat.div_lt; lia]).
  unfold ring_transfer. cbv zeta.
  destruct (upd_ok (repeat (repeat 1%Z (length t)) n) 0 (fun _ => repeat 0%Z (length t))) as (x1 & -> & L1 & N1).
  { rewrite repeat_length. lia. }
  cbn [bind]. destruct (upd_ok x1 (n / 2) (fun _ => t)) as (x & -> & L & N).
  { rewrite L1, repeat_length. lia. }
  cbn [bind]. destruct (mask_spec n ltac:(lia)) as (m & -> & Lm & Nm). cbn [bind].
  destruct t as [|z r] eqn:Et; [congruence|]. rewrite <- Et in *. unfold argmax at 1. rewrite Et. cbn [bind]. rewrite <- Et.
  eexists. split; [reflexivity|]. cbn [r_x r_edges r_mask r_y].
  rewrite repeat_length in L1. split; auto. split; [lia|]. split; auto. split; auto.
  split; [rewrite N, Nat.eqb_refl, N1; replace (n / 2 =? 0) with false by (symmetry; apply Nat.eqb_neq; lia);
          rewrite nth_error_repeat_lt by lia; reflexivity|].
  split; [rewrite N; replace (0 =? n / 2) with false by (symmetry; apply Nat.eqb_neq; lia); rewrite N1; simpl;
          destruct n; [lia|reflexivity]|].
  split.
  - intros v Hv Hne. rewrite N. replace (v =? n / 2) with false by (symmetry; apply Nat.eqb_neq; lia).
    rewrite N1. replace (v =? 0) with false by (symmetry; apply Nat.eqb_neq; lia). apply nth_error_repeat_lt. lia.
  - eexists. split; [reflexivity|]. rewrite Et. reflexivity.
Qed.

(** For an even number of nodes the opposite node is at the largest distance, half way round. *)
Theorem C41_opposite : forall n, Nat.even n = true -> n / 2 + n / 2 = n.
Proof. intros n H. apply Nat.even_spec in H as (m & ->). replace (2 * m / 2) with m; [lia|]. rewrite Nat.mul_comm, Nat.div_mul; lia. Qed.

Lemma argmax_zeros i b : forall m, argmax_from i b 1 (repeat 0%Z m) = b.
Proof. intros m. revert i. induction m; intros i; simpl; auto. Qed.
Lemma argmax_one_hot l : forall i b a,
  argmax_from i b 0 (repeat 0%Z l ++ 1%Z :: repeat 0%Z a) = i + l.
Proof.
  induction l as [|l IH]; intros i b a; cbn [repeat app argmax_from].
  - change (0 <? 1)%Z with true. cbv iota. rewrite argmax_zeros. lia.
  - change (0 <? 0)%Z with false. cbv iota. rewrite IH. lia.
Qed.

Lemma upd_one_hot c : forall l, l < c ->
  upd (repeat 0%Z c) l (fun _ => 1%Z) = Ok (repeat 0%Z l ++ 1%Z :: repeat 0%Z (c - S l)).
Proof.
  induction c as [|c IH]; intros l Hl; [lia|]. destruct l as [|l]; simpl.
  - rewrite Nat.sub_0_r. reflexivity.
  - rewrite IH by lia. reflexivity.
Qed.

Lemma argmax_label c l : l < c -> argmax (repeat 0%Z l ++ 1%Z :: repeat 0%Z (c - S l)) = Ok l.
Proof.
  intros H. destruct l as [|l]; simpl.
  - f_equal. apply argmax_zeros.
  - f_equal. rewrite argmax_one_hot. lia.
Qed.

(** The data set has the requested number of graphs and every class the same number of times. *)
Theorem C41_transfer_dataset_partial : forall nodes classes per, 2 <= nodes -> 1 <= classes -> 1 <= per ->
  exists gs, ring_transfer_dataset nodes classes (classes * per) = Ok gs /\
    length gs = classes * per /\
    (forall g, In g gs -> exists y, r_y g = [y] /\ y < classes) /\
    forall c, c < classes -> length (filter (fun g => match r_y g with [y] => y =? c | _ => false end) gs) = per.
Proof.
  intros nodes classes per Hn Hc Hp. unfold ring_transfer_dataset, div_err.
  replace (classes =? 0) with false by (symmetry; apply Nat.eqb_neq; lia). cbn [bind].
  rewrite Nat.mul_comm, Nat.div_mul by lia.
  set (f := fun i => let* label := (if per =? 0 then Err ZeroDivisionError else Ok (i / per)) in
    let* target := upd (repeat 0%Z classes) label (fun _ => 1%Z) in ring_transfer nodes target).
  assert (F : forall i, i < per * classes -> exists g, f i = Ok g /\ r_y g = [i / per] /\ i / per < classes).
  { intros i Hi. assert (L : i / per < classes) by (apply Nat.div_lt_upper_bound; lia).
    unfold f. replace (per =? 0) with false by (symmetry; apply Nat.eqb_neq; lia). cbn [bind].
    rewrite upd_one_hot by auto. cbn [bind].
    destruct (C41_ring_transfer nodes (repeat 0%Z (i / per) ++ 1%Z :: repeat 0%Z (classes - S (i / per)))) as (g & -> & _ & _ & _ & _ & _ & _ & _ & y & Ey & Ay); auto.
    { destruct (i / per); discriminate. }
    exists g. split; auto. rewrite argmax_label in Ay by auto. inversion Ay; subst y. auto. }
  set (h := fun i => match f i with Ok g => g | Err _ => mkRing [] [] [] [] end).
  assert (E : mapM f (seq 0 (per * classes)) = Ok (map h (seq 0 (per * classes)))).
  { apply mapM_map. intros i Hi. apply in_seq in Hi. destruct (F i ltac:(lia)) as (g & Eg & _). unfold h. rewrite Eg. auto. }
  exists (map h (seq 0 (per * classes))). split; [exact E|]. rewrite map_length, seq_length.
  split; [auto|]. split.
  - intros g Hg. apply in_map_iff in Hg as (i & <- & Hi). apply in_seq in Hi.
    destruct (F i ltac:(lia)) as (g & Eg & Ey & L). unfold h. rewrite Eg. eauto.
  - intros c Lc.
    assert (G : forall m, m <= classes -> length (filter (fun g => match r_y g with [y] => y =? c | _ => false end)
        (map h (seq 0 (per * m)))) = if c <? m then per else 0).
    { induction m as [|m IH]; intros Lm.
      - rewrite Nat.mul_0_r. reflexivity.
      - replace (per * S m) with (per * m + per) by lia. rewrite seq_app, map_app, filter_app, app_length, IH by lia.
        assert (B : forall q s, per * m <= s -> s + q <= per * m + per ->
          length (filter (fun g => match r_y g with [y] => y =? c | _ => false end) (map h (seq s q))) = if m =? c then q else 0).
        { induction q as [|q IHq]; intros s H1 H2; [destruct (m =? c); reflexivity|].
          cbn [seq map filter]. destruct (F s) as (g & Eg & Ey & _); [nia|].
          assert (Hh : h s = g) by (unfold h; rewrite Eg; auto). rewrite Hh, Ey.
          assert (Es : s / per = m).
          { symmetry. apply (Nat.div_unique s per m (s - per * m)); lia. }
          rewrite Es. destruct (m =? c) eqn:Q.
          - cbn [length]. rewrite IHq by lia. reflexivity.
          - rewrite IHq by lia. reflexivity. }
        simpl plus. rewrite B by lia.
        destruct (Nat.ltb_spec c m), (Nat.ltb_spec c (S m)), (Nat.eqb_spec m c); lia. }
    rewrite G by lia. apply Nat.ltb_lt in Lc. rewrite Lc. auto.
Qed.

(** A number of samples that the number of classes does not divide makes the generator raise. *)
Lemma mapM_err_at {A B} (f : A -> result B) l a e : In a l -> f a = Err e -> exists e', mapM f l = Err e'.
Proof.
  induction l as [|b l IH]; intros Hin E; [destruct Hin|]. destruct Hin as [->|H]; simpl.
  - rewrite E. eexists; reflexivity.
  - destruct (f b); simpl; [|eexists; reflexivity]. destruct (IH H E) as (e1 & ->). eexists; reflexivity.
Qed.
Theorem C41_not_divisible_refuted : forall nodes classes samples, 1 <= classes -> samples mod classes <> 0 ->
  exists e, ring_transfer_dataset nodes classes samples = Err e.
Proof.
  intros nodes classes samples Hc Hm. unfold ring_transfer_dataset, div_err.
  replace (classes =? 0) with false by (symmetry; apply Nat.eqb_neq; lia). cbn [bind].
  pose proof (Nat.div_mod samples classes ltac:(lia)) as D.
  destruct (Nat.eqb_spec (samples / classes) 0) as [Z|NZ].
  - eapply mapM_err_at with (a := 0) (e := ZeroDivisionError).
    + apply in_seq. lia.
    + reflexivity.
  - eapply mapM_err_at with (a := samples - 1) (e := IndexError).
    + apply in_seq. lia.
    + cbn [bind]. rewrite upd_err; [reflexivity|]. rewrite repeat_length.
      apply Nat.div_le_lower_bound; [lia|]. nia.
Qed.

(** ** Ring lookup *)
Lemma one_hot_inj k c d : c < k -> one_hot k c = one_hot k d -> c = d.
Proof.
  intros Hc E. assert (N : nth_error (one_hot k c) c = nth_error (one_hot k d) c) by (rewrite E; auto).
  unfold one_hot in N. rewrite !nth_error_map in N.
  assert (S : nth_error (seq 0 k) c = Some c).
  { rewrite (nth_error_nth' _ 0) by (rewrite seq_length; auto). rewrite seq_nth by auto. reflexivity. }
  rewrite S in N. simpl in N. rewrite Nat.eqb_refl in N. destruct (Nat.eqb_spec c d); congruence.
Qed.
Lemma binarize_inj k c d : c < k -> d < k -> binarize k c = binarize k d -> c = d.
Proof.
  intros Hc Hd. destruct k as [|[|[|k]]]; [lia|lia| |].
  - unfold binarize. destruct (Nat.eqb_spec c 1), (Nat.eqb_spec d 1); intros E; try lia; inversion E.
  - apply (one_hot_inj (S (S (S k)))); auto.
Qed.
Lemma binarize_length k c : length (binarize k c) = length (binarize k 0).
Proof. destruct k as [|[|[|k]]]; simpl; auto. unfold one_hot. rewrite !map_length. auto. Qed.

Lemma ring_lookup_at : forall n vals key, 2 <= n -> Permutation vals (seq 0 (n - 1)) -> key < n - 1 ->
  exists g y, ring_lookup n vals key = Ok g /\ r_edges g = ring_edges n /\ length (r_x g) = n /\
    (forall v, v < n -> nth_error (r_mask g) v = Some (v =? 0)) /\ r_y g = [y] /\ y < n - 1 /\
    let w := length (binarize (n - 1) 0) in
    forall v row row0, 0 < v -> nth_error (r_x g) 0 = Some row0 -> nth_error (r_x g) v = Some row ->
      (firstn w row = firstn w row0 <-> v = S key) /\
      (v = S key -> skipn w row = binarize (n - 1) y).
Proof.
  intros n vals key Hn HP Hk.
  assert (HL : length vals = n - 1) by (rewrite (Permutation_length HP), seq_length; auto).
  unfold ring_lookup. cbv zeta. replace (n - 1 =? 0) with false by (symmetry; apply Nat.eqb_neq; lia). cbn [bind].
  destruct (nth_error vals key) as [y|] eqn:Ey; [|apply nth_error_None in Ey; lia].
  rewrite (proj2 (get_ok _ _ _) Ey). cbn [bind].
  assert (Ek : nth_error (map (binarize (n - 1)) (seq 0 (n - 1))) key = Some (binarize (n - 1) key)).
  { rewrite nth_error_map, (nth_error_nth' _ 0) by (rewrite seq_length; auto). rewrite seq_nth by auto. reflexivity. }
  rewrite (proj2 (get_ok _ _ _) Ek). cbn [bind].
  destruct (mask_spec n ltac:(lia)) as (m & -> & Lm & Nm). cbn [bind].
  assert (Ly : y < n - 1).
  { assert (In y (seq 0 (n - 1))) by (eapply Permutation_in; [exact HP|]; eapply nth_error_In; eauto). apply in_seq in H. lia. }
  eexists _, y. split; [reflexivity|]. cbn [r_edges r_x r_mask r_y].
  split; auto. split.
  { simpl. rewrite map_length, combine_length, !map_length, seq_length, HL. lia. }
  split; auto. split; auto. split; auto.
  intros v row row0 Hv H0 Hr. simpl in H0. inversion H0; subst row0. clear H0.
  destruct v as [|v]; [lia|]. simpl in Hr. rewrite nth_error_map in Hr.
  destruct (nth_error (combine (map (binarize (n - 1)) (seq 0 (n - 1))) (map (binarize (n - 1)) vals)) v) as [[a b]|] eqn:Ec; [|discriminate].
  simpl in Hr. inversion Hr; subst row. clear Hr.
  assert (Lv : v < n - 1).
  { assert (v < length (combine (map (binarize (n - 1)) (seq 0 (n - 1))) (map (binarize (n - 1)) vals))) by (apply nth_error_Some; congruence).
    rewrite combine_length, !map_length, seq_length in H. lia. }
  destruct (nth_error vals v) as [z|] eqn:Ez; [|apply nth_error_None in Ez; lia].
  assert (Eab : a = binarize (n - 1) v /\ b = binarize (n - 1) z).
  { pose proof (nth_error_nth _ _ ([], []) Ec) as N. rewrite combine_nth in N by (rewrite !map_length, seq_length; auto).
    assert (A : nth v (map (binarize (n - 1)) (seq 0 (n - 1))) [] = binarize (n - 1) v).
    { apply nth_error_nth. rewrite nth_error_map, (nth_error_nth' _ 0) by (rewrite seq_length; auto). rewrite seq_nth by auto. reflexivity. }
    assert (B : nth v (map (binarize (n - 1)) vals) [] = binarize (n - 1) z).
    { apply nth_error_nth. rewrite nth_error_map, Ez. reflexivity. }
    rewrite A, B in N. inversion N; auto. }
  destruct Eab as [-> ->].
  assert (FA : forall c t, firstn (length (binarize (n - 1) 0)) (binarize (n - 1) c ++ t) = binarize (n - 1) c).
  { intros c t. rewrite firstn_app, (binarize_length (n - 1) c), Nat.sub_diag. simpl.
    rewrite app_nil_r, <- (binarize_length (n - 1) c). apply firstn_all. }
  rewrite !FA. split.
  - split; [|intros E; inversion E; auto]. intros E. f_equal. eapply binarize_inj; eauto.
  - intros E. inversion E; subst v. rewrite skipn_app, (binarize_length (n - 1) key), Nat.sub_diag.
    simpl. rewrite <- (binarize_length (n - 1) key), skipn_all. simpl. congruence.
Qed.

(** The key of node 0 is the key of exactly one other node, and that node holds the encoding of the
    label. *)
Theorem C41_ring_lookup : forall n vals key, 2 <= n -> Permutation vals (seq 0 (n - 1)) -> key < n - 1 ->
  exists g y w, ring_lookup n vals key = Ok g /\ r_edges g = ring_edges n /\ length (r_x g) = n /\
    (forall v, v < n -> nth_error (r_mask g) v = Some (v =? 0)) /\ r_y g = [y] /\ y < n - 1 /\
    forall v row row0, 0 < v -> nth_error (r_x g) 0 = Some row0 -> nth_error (r_x g) v = Some row ->
      (firstn w row = firstn w row0 <-> v = S key) /\
      (v = S key -> skipn w row = binarize (n - 1) y).
Proof.
  intros n vals key Hn HP Hk. destruct (ring_lookup_at n vals key Hn HP Hk) as (g & y & H).
  exists g, y, (length (binarize (n - 1) 0)). exact H.
Qed.

(** Hence the label is a function of the features. *)
Theorem C41_label_determined : forall n vals key vals' key' g g', 2 <= n ->
  Permutation vals (seq 0 (n - 1)) -> key < n - 1 -> Permutation vals' (seq 0 (n - 1)) -> key' < n - 1 ->
  ring_lookup n vals key = Ok g -> ring_lookup n vals' key' = Ok g' -> r_x g = r_x g' -> r_y g = r_y g'.
Proof.
  intros n vals key vals' key' g g' Hn HP Hk HP' Hk' E E' Ex.
  destruct (ring_lookup_at n vals key Hn HP Hk) as (g1 & y & E1 & _ & HL & _ & Hy & Ly & H).
  destruct (ring_lookup_at n vals' key' Hn HP' Hk') as (g2 & y' & E2 & _ & _ & _ & Hy' & Ly' & H').
  assert (g1 = g) by congruence. assert (g2 = g') by congruence. subst g1 g2. clear E1 E2.
  assert (R0 : exists row0, nth_error (r_x g) 0 = Some row0).
  { destruct (nth_error (r_x g) 0) as [q|] eqn:R; eauto. apply nth_error_None in R. lia. }
  assert (R1 : exists row, nth_error (r_x g) (S key) = Some row).
  { destruct (nth_error (r_x g) (S key)) as [q|] eqn:R; eauto. apply nth_error_None in R. lia. }
  destruct R0 as (row0 & R0), R1 as (row & R1).
  specialize (H (S key) row row0 ltac:(lia) R0 R1). rewrite <- Ex in H'. specialize (H' (S key) row row0 ltac:(lia) R0 R1).
  destruct H as [H1 H2], H' as [H1' H2'].
  specialize (proj1 H1' (proj2 H1 eq_refl)) as K. rewrite (H2 eq_refl) in H2'. specialize (H2' K).
  apply binarize_inj in H2'; auto. congruence.
Qed.

Theorem C41_lookup_dataset : forall n samples draws, 2 <= n ->
  (forall i, i < samples -> Permutation (fst (draws i)) (seq 0 (n - 1)) /\ snd (draws i) < n - 1) ->
  exists gs, ring_lookup_dataset n samples draws = Ok gs /\ length gs = samples.
Proof.
  intros n samples draws Hn HD. unfold ring_lookup_dataset.
  set (f := fun i => ring_lookup n (fst (draws i)) (snd (draws i))).
  rewrite (mapM_map f (fun i => match f i with Ok g => g | Err _ => mkRing [] [] [] [] end)).
  - eexists. split; [reflexivity|]. rewrite map_length, seq_length. auto.
  - intros i Hi. apply in_seq in Hi. destruct (HD i ltac:(lia)) as [P K].
    destruct (C41_ring_lookup n _ _ Hn P K) as (g & _ & _ & E & _). unfold f. rewrite E. reflexivity.
Qed.

(** ** Examples *)
Example C41_ex_transfer : exists g, ring_transfer 6 [0; 1; 0]%Z = Ok g /\
  r_x g = [[0; 0; 0]; [1; 1; 1]; [1; 1; 1]; [0; 1; 0]; [1; 1; 1]; [1; 1; 1]]%Z /\ r_y g = [1].
Proof. eexists. split; [vm_compute; reflexivity|]. auto. Qed.
Example C41_ex_lookup : exists g, ring_lookup 4 [2; 0; 1] 2 = Ok g /\ r_y g = [1] /\
  r_x g = [[0; 0; 1; 0; 0; 0]; [1; 0; 0; 0; 0; 1]; [0; 1; 0; 1; 0; 0]; [0; 0; 1; 0; 1; 0]]%Z.
Proof. eexists. split; [vm_compute; reflexivity|]. auto. Qed.
Example C41_ex_dataset : exists gs, ring_transfer_dataset 4 2 6 = Ok gs /\ map r_y gs = [[0]; [0]; [0]; [1]; [1]; [1]].
Proof. eexists. split; [vm_compute; reflexivity|]. reflexivity. Qed.
Example C41_ex_raises : ring_transfer_dataset 4 5 7 = Err IndexError /\ ring_transfer_dataset 4 5 3 = Err ZeroDivisionError.
Proof. split; vm_compute; reflexivity. Qed.

(** Such inputs exist for every size. *)
Lemma ring_input_ex n y : 3 <= n -> label_ok y n ->
  ring_input (any_lib true) (ref_isos n) (@rev _) (repeat 1%Z n) (ring_edges n) n y n.
Proof.
  intros Hn Hy. destruct (C41_ring n Hn) as (G & _ & _).
  split; auto; try lia.
  - right. exists 0, 1. split; [lia|]. left. apply ring_edges_in; lia.
  - apply repeat_length.
  - apply any_lib_ok.
  - intros k _. apply ref_isos_ok. auto.
  - intros l _. apply Permutation_sym, Permutation_rev.
Qed.
Example C41_ex_lifted n (H : 3 <= n) := C41_lifted_ring Z Zops Z.eqb (any_lib true) (ref_isos n) (@rev _) RAdd (repeat 1%Z n) n None n true true false
  (conj H (le_n n)) (ring_input_ex n None H I) Z.eqb_eq.

(** ** The loaded data set: the two splits partition the graphs, the validation graphs come last and
    both parts have every class equally often. *)
Definition of_class (c : nat) (g : ring_graph) : bool := match r_y g with [y] => y =? c | _ => false end.
Theorem C41_loaded : forall nodes classes a b, 2 <= nodes -> 1 <= classes -> 1 <= a -> 1 <= b ->
  exists gs tr va, load_ring_transfer nodes (classes * a) (classes * b) classes = Ok (gs, (tr, va)) /\
    length gs = classes * a + classes * b /\ tr ++ va = seq 0 (length gs) /\
    forall c, c < classes ->
      length (filter (fun i => match nth_error gs i with Some g => of_class c g | None => false end) tr) = a /\
      length (filter (fun i => match nth_error gs i with Some g => of_class c g | None => false end) va) = b.
Proof.
  intros nodes classes a b Hn Hc Ha Hb. unfold load_ring_transfer.
  destruct (C41_transfer_dataset_partial nodes classes a Hn Hc Ha) as (ga & -> & La & _ & Fa).
  destruct (C41_transfer_dataset_partial nodes classes b Hn Hc Hb) as (gb & -> & Lb & _ & Fb).
  cbn [bind]. eexists _, _, _. split; [reflexivity|]. rewrite app_length, La, Lb. split; auto.
  split; [rewrite <- seq_app; auto|]. intros c Lc. specialize (Fa c Lc). specialize (Fb c Lc). change (length (filter (of_class c) ga) = a) in Fa.
  change (length (filter (of_class c) gb) = b) in Fb.
  assert (G : forall p q : list ring_graph, length (filter (fun i => match nth_error (p ++ q) i with Some g => of_class c g | None => false end)
      (seq (length p) (length q))) = length (filter (of_class c) q)).
  { intros p q. revert p. induction q as [|g q IH]; intros p; auto. cbn [length seq filter].
    rewrite nth_error_app2, Nat.sub_diag by lia. simpl nth_error. cbv iota.
    specialize (IH (p ++ [g])). rewrite app_length, <- app_assoc, Nat.add_1_r in IH. simpl app in IH.
    destruct (of_class c g); simpl; rewrite IH; auto. }
  split.
  - pose proof (G [] ga) as G0. simpl app in G0. simpl length in G0. rewrite La in G0. rewrite <- Fa at 2.
    rewrite <- G0. f_equal. apply filter_ext_in. intros i Hi. apply in_seq in Hi. rewrite nth_error_app1 by lia. auto.
  - pose proof (G ga gb) as G0. rewrite La, Lb in G0. rewrite G0. exact Fb.
Qed.
Example C41_ex_loaded : exists gs, load_ring_transfer 4 4 2 2 = Ok (gs, ([0; 1; 2; 3], [4; 5])) /\
  map r_y gs = [[0]; [0]; [1]; [1]; [0]; [1]].
Proof. eexists. split; [vm_compute; reflexivity|]. reflexivity. Qed.

(** The classes of the lookup task are drawn at random: they need not occur equally often. *)
Theorem C41_lookup_balance_refuted : exists n samples draws gs,
  (forall i, Permutation (fst (draws i)) (seq 0 (n - 1)) /\ snd (draws i) < n - 1) /\
  ring_lookup_dataset n samples draws = Ok gs /\ map r_y gs = [[0]; [0]].
Proof.
  exists 3, 2, (fun _ => ([0; 1], 0)). eexists. split; [intros i; simpl; split; [apply Permutation_refl|lia]|].
  split; [vm_compute; reflexivity|]. reflexivity.
Qed.

Print Assumptions C41_ring.
Print Assumptions C41_single_two_cell.
Print Assumptions C41_lifted_ring.
Print Assumptions C41_ring_transfer.
Print Assumptions C41_opposite.
Print Assumptions C41_transfer_dataset_partial.
Print Assumptions C41_not_divisible_refuted.
Print Assumptions C41_ring_lookup.
Print Assumptions C41_label_determined.
Print Assumptions C41_lookup_dataset.
Print Assumptions C41_lookup_balance_refuted.
Print Assumptions C41_loaded.
