(** C84: what binary32 arithmetic does to aggregation and to batches. *)
From Coq Require Import List Arith ZArith Reals Lia Lra Bool Permutation.
From Flocq Require Import Core BinarySingleNaN.
From Verif Require Import Base ScatterModel ScatterSpec ScatterProofs ScatterProps ComplexModel BatchSpec BatchSpec2
  BatchProofs BatchProofs2 DummyModel MPModel MPSpec MPProofs MPEngine MPBatch MPForward MPNets BatchProps MPProps
  LiftModel LiftSpec LiftBase LiftClique LiftProps LiftIso LiftInvariance PermLift.
From Verif Require Import FloatModel FloatSpec FloatProofs.
Import ListNotations.
Open Scope R_scope.

(** Column [c] of the messages to target [i]. *)
Definition column (c i : nat) (idx : list nat) (src : list frow) : list float :=
  map (fun m => m c) (messages_to i idx src).

Lemma fold_column l : forall (a : frow) c,
  fold_left (vadd FO) l a c = fold_left fadd (map (fun m => m c) l) (a c).
Proof. induction l as [|b l IH]; intros a c; simpl; auto. rewrite IH. reflexivity. Qed.

Lemma fold_column_max l : forall (a : frow) c,
  fold_left (vmax FO) l a c = fold_left fmax (map (fun m => m c) l) (a c).
Proof. induction l as [|b l IH]; intros a c; simpl; auto. rewrite IH. reflexivity. Qed.

Lemma fold_column_min l : forall (a : frow) c,
  fold_left (vmin FO) l a c = fold_left fmin (map (fun m => m c) l) (a c).
Proof. induction l as [|b l IH]; intros a c; simpl; auto. rewrite IH. reflexivity. Qed.

Lemma scatter_row r n idx src out i row :
  length idx = length src -> Forall (fun i => (i < n)%nat) idx ->
  scatter FO r (Some n) idx src = Ok out -> nth_error out i = Some row ->
  row = reduce_rows FO r (messages_to i idx src).
Proof.
  intros Hl HF Hs Hi. destruct (C24_scatter_reduces_addressed FO r n idx src Hl HF) as (out' & Hs' & Hn & H).
  rewrite Hs in Hs'. inversion Hs'; subst out'.
  assert (i < length out)%nat by (apply nth_error_Some; congruence).
  rewrite H in Hi by lia. congruence.
Qed.

Lemma column_perm c i idx src idx' src' :
  Permutation (combine idx src) (combine idx' src') -> Permutation (column c i idx src) (column c i idx' src').
Proof.
  intros P. unfold column, messages_to. apply Permutation_map, Permutation_map.
  induction P; simpl; auto.
  - destruct (fst x =? i); auto.
  - destruct (fst x =? i), (fst y =? i); auto. apply perm_swap.
  - eapply perm_trans; eauto.
Qed.

(** A sum of [k] messages is off by at most ((1+2^-24)^(k-1) - 1) times the sum of their sizes. *)
Theorem C84_sum_rounding n idx src out i row c :
  length idx = length src -> Forall (fun i => (i < n)%nat) idx ->
  scatter FO RAdd (Some n) idx src = Ok out -> nth_error out i = Some row ->
  let ms := column c i idx src in
  let k := length ms in
  Forall finite ms -> (1 + unit_roundoff) ^ (k - 1) * rmass (map val ms) < overflow ->
  finite (row c) /\ Rabs (val (row c) - rsum (map val ms)) <= drift (k - 1) * rmass (map val ms).
Proof.
  intros Hl HF Hs Hi ms k Hf Ho. rewrite (scatter_row _ _ _ _ _ _ _ Hl HF Hs Hi).
  unfold reduce_rows. rewrite fold_column. apply fsum_err; auto.
Qed.

(** The bound in closed form: [k] roundings cost less than k/(2^24-k). *)
Theorem C84_drift_small k : INR k * unit_roundoff < 1 ->
  0 <= drift k <= INR k * unit_roundoff / (1 - INR k * unit_roundoff).
Proof.
  intros Hk. pose proof u_pos as U. set (u := unit_roundoff) in *. split.
  - unfold drift. pose proof (pow_ge1 k). lra.
  - assert (H : (1 + u) ^ k * (1 - INR k * u) <= 1).
    { clear Hk. induction k as [|k IH]; [simpl; lra|]. rewrite S_INR. simpl pow.
      assert (0 <= (1 + u) ^ k) by (apply pow_le; lra). pose proof (pos_INR k).
      assert ((1 + u) * (1 - (INR k + 1) * u) <= 1 - INR k * u) by nra. nra. }
    apply Rmult_le_reg_r with (1 - INR k * u); [lra|]. unfold Rdiv, drift. fold u.
    rewrite Rmult_assoc, Rinv_l by lra. lra.
Qed.

(** Renumbering cells reorders the columns of an index: a sum changes by at most twice the bound. *)
Theorem C84_sum_reordered n idx src idx' src' out out' i row row' c :
  length idx = length src -> length idx' = length src' ->
  Permutation (combine idx src) (combine idx' src') -> Forall (fun i => (i < n)%nat) idx ->
  scatter FO RAdd (Some n) idx src = Ok out -> scatter FO RAdd (Some n) idx' src' = Ok out' ->
  nth_error out i = Some row -> nth_error out' i = Some row' ->
  let ms := column c i idx src in
  let k := length ms in
  Forall finite ms -> (1 + unit_roundoff) ^ (k - 1) * rmass (map val ms) < overflow ->
  Rabs (val (row c) - val (row' c)) <= 2 * drift (k - 1) * rmass (map val ms).
Proof.
  intros Hl Hl' P HF Hs Hs' Hi Hi' ms k Hf Ho.
  assert (HF' : Forall (fun i => (i < n)%nat) idx').
  { rewrite Forall_forall in *. intros j Hj.
    assert (exists v, In (j, v) (combine idx' src')) as [v Hv].
    { apply In_nth_error in Hj. destruct Hj as [q Hq].
      assert (q < length idx')%nat by (apply nth_error_Some; congruence).
      destruct (nth_error src' q) as [v|] eqn:E; [|apply nth_error_None in E; lia].
      exists v. apply (nth_error_In _ q). rewrite nth_error_combine, Hq, E. reflexivity. }
    apply (Permutation_in _ (Permutation_sym P)) in Hv. apply in_combine_l in Hv. auto. }
  pose proof (column_perm c i _ _ _ _ P) as PC. fold ms in PC.
  destruct (C84_sum_rounding n idx src out i row c Hl HF Hs Hi Hf Ho) as [_ A].
  assert (Lk : length (column c i idx' src') = k) by (symmetry; apply Permutation_length, PC).
  assert (PM := Permutation_map val PC).
  destruct (C84_sum_rounding n idx' src' out' i row' c Hl' HF' Hs' Hi') as [_ B].
  - rewrite Forall_forall in *. intros x Hx. apply Hf. eapply Permutation_in; [apply Permutation_sym, PC|auto].
  - rewrite Lk, <- (rmass_perm _ _ PM). exact Ho.
  - rewrite Lk, <- (rmass_perm _ _ PM), <- (rsum_perm _ _ PM) in B. fold ms in A. fold k in A.
    replace (val (row c) - val (row' c)) with
      ((val (row c) - rsum (map val ms)) - (val (row' c) - rsum (map val ms))) by ring.
    eapply Rle_trans; [apply Rabs_triang|]. rewrite Rabs_Ropp. lra.
Qed.

(** Means: one more rounding, and the smallest float. *)
Theorem C84_mean_rounding n idx src out i row c :
  length idx = length src -> Forall (fun i => (i < n)%nat) idx ->
  scatter FO RMean (Some n) idx src = Ok out -> nth_error out i = Some row ->
  let ms := column c i idx src in
  let k := length ms in
  (1 <= k)%nat -> (Z.of_nat k <= 2 ^ 24)%Z ->
  Forall finite ms -> (1 + unit_roundoff) ^ (k - 1) * rmass (map val ms) < overflow ->
  finite (row c) /\
  Rabs (val (row c) - rsum (map val ms) / INR k) <= drift k * (rmass (map val ms) / INR k) + underflow.
Proof.
  intros Hl HF Hs Hi ms k K1 K2 Hf Ho. rewrite (scatter_row _ _ _ _ _ _ _ Hl HF Hs Hi).
  destruct (fsum_err ms Hf Ho) as [F E]. cbv zeta in F, E.
  assert (Lk : length (messages_to i idx src) = k) by (unfold k, ms, column; rewrite map_length; auto).
  unfold reduce_rows. cbn [vdivn FO]. rewrite Lk, Nat.max_l by lia.
  rewrite fold_column. change (vzero FO c) with fzero.
  change (map (fun m : frow => m c) (messages_to i idx src)) with ms.
  set (s := fold_left fadd ms fzero) in *.
  destruct (fdiv_spec s k F K1 K2) as [F' E']. split; [exact F'|].
  assert (P : 1 <= INR k) by (apply (le_INR 1); lia). pose proof u_pos as U.
  pose proof (pow_ge1 (k - 1)) as Q. fold k in E.
  set (M := rmass (map val ms)) in *. set (T := rsum (map val ms)) in *.
  assert (HM : 0 <= M) by apply rmass_pos.
  assert (HT : Rabs T <= M).
  { unfold T, M, rmass. clear. induction (map val ms) as [|x l IH]; simpl; [rewrite Rabs_R0; lra|].
    eapply Rle_trans; [apply Rabs_triang|]. lra. }
  assert (Hsb : Rabs (val s) <= (1 + unit_roundoff) ^ (k - 1) * M).
  { replace (val s) with ((val s - T) + T) by ring. eapply Rle_trans; [apply Rabs_triang|].
    unfold drift in E. nra. }
  change (Rabs (val (fdiv s (fZ (Z.of_nat k))) - T / INR k) <= drift k * (M / INR k) + underflow).
  assert (Spl : val (fdiv s (fZ (Z.of_nat k))) - T / INR k = (val (fdiv s (fZ (Z.of_nat k))) - val s / INR k) + (val s - T) * / INR k) by (field; lra).
  rewrite Spl.
  eapply Rle_trans; [apply Rabs_triang|].
  assert (I : 0 < / INR k) by (apply Rinv_0_lt_compat; lra).
  assert (A : Rabs ((val s - T) * / INR k) <= drift (k - 1) * M * / INR k).
  { rewrite Rabs_mult, (Rabs_right (/ INR k)) by lra. apply Rmult_le_compat_r; lra. }
  assert (B : unit_roundoff * (Rabs (val s) / INR k) <= unit_roundoff * ((1 + unit_roundoff) ^ (k - 1) * M * / INR k)).
  { apply Rmult_le_compat_l; [lra|]. apply Rmult_le_compat_r; lra. }
  assert (D : drift k = (1 + unit_roundoff) * (1 + unit_roundoff) ^ (k - 1) - 1).
  { unfold drift. replace k with (S (k - 1)) at 1 by lia. reflexivity. }
  rewrite D. unfold drift in A.
  apply Rle_trans with (unit_roundoff * ((1 + unit_roundoff) ^ (k - 1) * M * / INR k) + underflow
                        + ((1 + unit_roundoff) ^ (k - 1) - 1) * M * / INR k).
  { apply Rplus_le_compat; [|exact A]. eapply Rle_trans; [exact E'|]. apply Rplus_le_compat_r, B. }
  apply Req_le. unfold Rdiv. ring.
Qed.

(** Maxima and minima are exact, hence the same in every order. *)
Theorem C84_max_exact n idx src out i row c :
  length idx = length src -> Forall (fun i => (i < n)%nat) idx ->
  scatter FO RMax (Some n) idx src = Ok out -> nth_error out i = Some row ->
  let ms := column c i idx src in
  ms <> [] -> Forall finite ms -> finite (row c) /\ is_greatest (val (row c)) (map val ms).
Proof.
  intros Hl HF Hs Hi ms Hne Hf. rewrite (scatter_row _ _ _ _ _ _ _ Hl HF Hs Hi).
  unfold ms, column in *. unfold reduce_rows. destruct (messages_to i idx src) as [|m l]; [destruct Hne; reflexivity|].
  rewrite fold_column_max. inversion Hf; subst. apply fold_max; auto.
Qed.

Theorem C84_min_exact n idx src out i row c :
  length idx = length src -> Forall (fun i => (i < n)%nat) idx ->
  scatter FO RMin (Some n) idx src = Ok out -> nth_error out i = Some row ->
  let ms := column c i idx src in
  ms <> [] -> Forall finite ms -> finite (row c) /\ is_least (val (row c)) (map val ms).
Proof.
  intros Hl HF Hs Hi ms Hne Hf. rewrite (scatter_row _ _ _ _ _ _ _ Hl HF Hs Hi).
  unfold ms, column in *. unfold reduce_rows. destruct (messages_to i idx src) as [|m l]; [destruct Hne; reflexivity|].
  rewrite fold_column_min. inversion Hf; subst. apply fold_min; auto.
Qed.

(** Integer features (one-hot vectors, degrees, counts) are summed without any error while the
    sizes add up to at most 2^24. *)
Theorem C84_integers_exact n idx src out i row c zs :
  length idx = length src -> Forall (fun i => (i < n)%nat) idx ->
  scatter FO RAdd (Some n) idx src = Ok out -> nth_error out i = Some row ->
  Forall2 (fun m z => finite m /\ val m = IZR z) (column c i idx src) zs ->
  (fold_right Z.add 0%Z (map Z.abs zs) <= 2 ^ 24)%Z ->
  finite (row c) /\ val (row c) = IZR (fold_right Z.add 0%Z zs).
Proof.
  intros Hl HF Hs Hi H2 Hz. rewrite (scatter_row _ _ _ _ _ _ _ Hl HF Hs Hi).
  unfold reduce_rows. rewrite fold_column.
  apply (fold_int _ _ 0%Z zs); auto; try reflexivity.
Qed.

(** Bit for bit: reordering columns of different targets changes nothing at all, for every
    reduction and also for infinities and not-a-numbers. *)
Theorem C84_stable_order r n idx src idx' src' :
  length idx = length src -> length idx' = length src' ->
  Forall (fun i => (i < n)%nat) idx -> Forall (fun i => (i < n)%nat) idx' ->
  (forall i, (i < n)%nat -> messages_to i idx src = messages_to i idx' src') ->
  scatter FO r (Some n) idx src = scatter FO r (Some n) idx' src'.
Proof.
  intros Hl Hl' HF HF' H.
  destruct (C24_scatter_reduces_addressed FO r n idx src Hl HF) as (o1 & E1 & L1 & N1).
  destruct (C24_scatter_reduces_addressed FO r n idx' src' Hl' HF') as (o2 & E2 & L2 & N2).
  rewrite E1, E2. f_equal. apply nth_error_ext. intros i.
  destruct (Nat.lt_ge_cases i n) as [Hi|Hi].
  - rewrite N1, N2, H by auto. reflexivity.
  - rewrite (proj2 (nth_error_None o1 i)), (proj2 (nth_error_None o2 i)) by lia. reflexivity.
Qed.

(** Bit for bit: the prediction of a complex in a batch is the one it gets alone, and
    shuffling a batch permutes the predictions.  No law of addition is needed. *)
Lemma FO_div : vdivn FO (vzero FO) 1 = vzero FO.
Proof. reflexivity. Qed.

Theorem C84_batch_bitwise (m : net frow) ks szs max_dim :
  cwn_net FO m ->
  ks <> [] -> Forall2 wf_complex ks szs -> Forall (has_features max_dim) ks ->
  Forall (fun sz => (0 < sz 0)%nat) szs ->
  exists b out b',
    from_complex_list ks max_dim = Ok b /\ net_forward FO m b = Ok (out, b') /\
    length out = length ks /\
    forall i k v, nth_error ks i = Some k -> nth_error out i = Some v ->
      exists b1 b1', from_complex_list [k] max_dim = Ok b1 /\ net_forward FO m b1 = Ok ([v], b1').
Proof. exact (C06_batch_independence FO FO_div m ks szs max_dim). Qed.

Theorem C84_shuffle_bitwise (m : net frow) ks szs max_dim (sel : list nat) ks' b out b' :
  cwn_net FO m ->
  Forall2 wf_complex ks szs -> Forall (has_features max_dim) ks ->
  Forall (fun sz => (0 < sz 0)%nat) szs ->
  from_complex_list ks max_dim = Ok b -> net_forward FO m b = Ok (out, b') ->
  sel <> [] -> Forall2 (fun i k => nth_error ks i = Some k) sel ks' ->
  exists b2 out2 b2',
    from_complex_list ks' max_dim = Ok b2 /\ net_forward FO m b2 = Ok (out2, b2') /\
    Forall2 (fun i v => nth_error out i = Some v) sel out2.
Proof. exact (C07_reordered_batch FO FO_div m ks szs max_dim sel ks' b out b'). Qed.

(** Exact order independence is false: 1 + 2^-24 + 2^-24 is 1 or 1 + 2^-23. *)
Definition tiny : float := fdiv (fZ 1) (fZ (2 ^ 24)).
Definition big : float := fdiv (fZ 1) (fdiv (fZ 1) (fZ (2 ^ 127))).
Definition const (a : float) : frow := fun _ => a.
Definition bits (r : result (list frow)) : list SpecFloat.spec_float :=
  match r with Ok l => map (fun v => B2SF (v 0%nat)) l | Err _ => [] end.

Theorem C84_exact_order_independence_refuted :
  exists idx src idx' src' out out',
    Permutation (combine idx src) (combine idx' src') /\
    Forall (fun m => finite (m 0%nat)) src /\
    scatter FO RAdd (Some 1%nat) idx src = Ok [out] /\ scatter FO RAdd (Some 1%nat) idx' src' = Ok [out'] /\
    val (out 0%nat) <> val (out' 0%nat).
Proof.
  exists [0;0;0]%nat, [const (fZ 1); const tiny; const tiny], [0;0;0]%nat, [const tiny; const tiny; const (fZ 1)].
  eexists. eexists. split.
  { cbn [combine]. apply perm_trans with [(0%nat, const tiny); (0%nat, const (fZ 1)); (0%nat, const tiny)];
      [apply perm_swap|apply perm_skip, perm_swap]. }
  split. { repeat constructor; vm_compute; reflexivity. }
  split; [reflexivity|]. split; [reflexivity|].
  unfold val. rewrite <- !SF2R_B2SF.
  match goal with |- SF2R _ ?a <> SF2R _ ?b =>
    let x := eval vm_compute in a in let y := eval vm_compute in b in
    replace a with x by (vm_compute; reflexivity); replace b with y by (vm_compute; reflexivity) end.
  unfold SF2R, F2R. simpl. lra.
Qed.

(** The size premise is needed: the same finite messages overflow in one order only. *)
Theorem C84_overflow_depends_on_order_refuted :
  exists idx src idx' src' out out',
    Permutation (combine idx src) (combine idx' src') /\
    Forall (fun m => finite (m 0%nat)) src /\
    scatter FO RAdd (Some 1%nat) idx src = Ok [out] /\ scatter FO RAdd (Some 1%nat) idx' src' = Ok [out'] /\
    finite (out 0%nat) /\ ~ finite (out' 0%nat).
Proof.
  exists [0;0;0]%nat, [const (fZ (2 ^ 127)); const (fZ (- 2 ^ 127)); const (fZ (2 ^ 127))],
         [0;0;0]%nat, [const (fZ (2 ^ 127)); const (fZ (2 ^ 127)); const (fZ (- 2 ^ 127))].
  eexists. eexists. split.
  { cbn [combine]. apply perm_skip, perm_swap. }
  split. { repeat constructor; vm_compute; reflexivity. }
  split; [reflexivity|]. split; [reflexivity|].
  split; [vm_compute; reflexivity|]. unfold finite. intros H. vm_compute in H. discriminate.
Qed.

(** Consequently renumbering the nodes of a graph may change a prediction in its last bits, although
    over a commutative and associative addition it does not (C28): a path with features 1, 2^-24,
    2^-24 and the same path read from its other end. *)
Definition path_edges : list (nat * nat) := [(0,1);(1,0);(1,2);(2,1)]%nat.
Definition path_there : graph frow := mkGraph [const (fZ 1); const tiny; const tiny] path_edges None 3 None.
Definition path_back : graph frow := mkGraph [const tiny; const tiny; const (fZ 1)] path_edges None 3 None.
Definition own_features {V} (o : ops V) (d : nat) : sparse_level V :=
  mkSparseLevel (MsgFst (fun _ => vzero o)) (fun v => v) (fun v => v) (fun v => v) (fun u _ => u) (fun v => v) (fun v => v).
Definition sum_net_over {V} (o : ops V) : net V :=
  sparse_cin o 1 [own_features o] None RAdd [0%nat] (fun _ v => v) false (fun v => v).
Definition sum_net : net frow := sum_net_over FO.

Definition path_out {V} (o : ops V) (a b c : V) : V :=
  match (let* K := compute_clique_complex o (any_lib true) RAdd [a; b; c] path_edges 3 1 None false in
         let* B := from_complex_list [K] 1 in net_forward o (sum_net_over o) B) with
  | Ok ([v], _) => v
  | _ => vzero o
  end.

Lemma path_prediction {V} (o : ops V) a b c :
  exists K B bo,
    compute_clique_complex o (any_lib true) RAdd [a; b; c] path_edges 3 1 None false = Ok K /\
    from_complex_list [K] 1 = Ok B /\ net_forward o (sum_net_over o) B = Ok ([path_out o a b c], bo).
Proof.
  eexists. eexists. eexists. split; [vm_compute; reflexivity|]. split; [vm_compute; reflexivity|].
  vm_compute. reflexivity.
Qed.

Theorem C84_renumbering_bits_refuted :
  exists (m : net frow) g g' K K' b b' out out' bo bo',
    cwn_net FO m /\ isomorphic_graphs g g' /\
    clique_input (any_lib true) (g_x g) (g_edges g) (g_n g) 1 (g_y g) /\
    clique_input (any_lib true) (g_x g') (g_edges g') (g_n g') 1 (g_y g') /\
    compute_clique_complex FO (any_lib true) RAdd (g_x g) (g_edges g) (g_n g) 1 (g_y g) false = Ok K /\
    compute_clique_complex FO (any_lib true) RAdd (g_x g') (g_edges g') (g_n g') 1 (g_y g') false = Ok K' /\
    from_complex_list [K] 1 = Ok b /\ from_complex_list [K'] 1 = Ok b' /\
    net_forward FO m b = Ok ([out], bo) /\ net_forward FO m b' = Ok ([out'], bo') /\
    finite (out 0%nat) /\ finite (out' 0%nat) /\ val (out 0%nat) <> val (out' 0%nat).
Proof.
  destruct (path_prediction FO (const (fZ 1)) (const tiny) (const tiny)) as (K & B & bo & E1 & E2 & E3).
  destruct (path_prediction FO (const tiny) (const tiny) (const (fZ 1))) as (K' & B' & bo' & E1' & E2' & E3').
  exists sum_net, path_there, path_back, K, K', B, B'. eexists. eexists. exists bo, bo'.
  split. { apply CN_sparse; [discriminate|exists 0%nat; simpl; auto]. }
  split. { split; [reflexivity|]. exists (fun v => 2 - v)%nat. cbn [g_n path_there]. split.
    - intros v H. lia.
    - intros u v H H'. lia.
    - intros u v H H'. unfold adjacent, path_there, path_back, path_edges. cbn [g_edges In].
      destruct u as [|[|[|u]]], v as [|[|[|v]]]; try lia; cbn [Nat.sub]; split; intros [Hne Hadj];
        (split; [lia|]); repeat match goal with
        | H : _ \/ _ |- _ => destruct H
        | H : (_, _) = (_, _) |- _ => try discriminate H; clear H
        | H : False |- _ => destruct H end; auto 8.
    - intros v H. destruct v as [|[|[|v]]]; try lia; reflexivity. }
  split. { split; [intros u v H; simpl in H; repeat (destruct H as [H|H]; [inversion H; subst; simpl; lia|]); destruct H|simpl; lia|reflexivity|exact I|apply any_lib_ok]. }
  split. { split; [intros u v H; simpl in H; repeat (destruct H as [H|H]; [inversion H; subst; simpl; lia|]); destruct H|simpl; lia|reflexivity|exact I|apply any_lib_ok]. }
  split; [exact E1|]. split; [exact E1'|]. split; [exact E2|]. split; [exact E2'|].
  split; [exact E3|]. split; [exact E3'|].
  split; [vm_compute; reflexivity|]. split; [vm_compute; reflexivity|].
  unfold val. rewrite <- !SF2R_B2SF.
  match goal with |- SF2R _ ?a <> SF2R _ ?b =>
    let x := eval vm_compute in a in let y := eval vm_compute in b in
    replace a with x by (vm_compute; reflexivity); replace b with y by (vm_compute; reflexivity) end.
  unfold SF2R, F2R. simpl. lra.
Qed.

(** ** Examples *)
Lemma val_tiny : val tiny = unit_roundoff.
Proof.
  unfold val. rewrite <- SF2R_B2SF.
  replace (B2SF tiny) with (SpecFloat.S754_finite false 8388608 (-47)) by (vm_compute; reflexivity).
  unfold SF2R, F2R, unit_roundoff. cbn [Fnum Fexp cond_Zopp].
  assert (E : bpow radix2 (-47) = / IZR (2 ^ 47)).
  { pose proof (bpow_opp radix2 47) as E. rewrite (bpow_pos_Z 47) in E by lia. exact E. }
  rewrite E. simpl. lra.
Qed.

(** Three messages meet the premises of the bounds, in both orders; the true sum 1 + 2^-23 is missed
    by 2^-23 in the first, which the bound (about 2^-23 + 2^-46) allows. *)
Example C84_ex_sum :
  let idx := [0;1;0;0]%nat in
  let src := [const (fZ 1); const (fZ 7); const tiny; const tiny] in
  let ms := column 5 0 idx src in
  length ms = 3%nat /\ Forall finite ms /\ rsum (map val ms) = 1 + 2 * unit_roundoff /\
  (1 + unit_roundoff) ^ (length ms - 1) * rmass (map val ms) < overflow /\
  exists out row, scatter FO RAdd (Some 2%nat) idx src = Ok out /\ nth_error out 0 = Some row /\
    val (row 5%nat) = 1 /\ drift 2 * rmass (map val ms) >= 2 * unit_roundoff.
Proof.
  cbv zeta. change (column 5 0 [0;1;0;0] [const (fZ 1); const (fZ 7); const tiny; const tiny])%nat with [fZ 1; tiny; tiny].
  destruct (fZ_val 1 ltac:(lia)) as [F1 V1]. pose proof u_pos as U.
  assert (U1 : unit_roundoff < 1 / 2) by (unfold unit_roundoff; simpl; lra).
  assert (M : rmass (map val [fZ 1; tiny; tiny]) = 1 + 2 * unit_roundoff).
  { unfold rmass, rsum. cbn [map fold_right]. rewrite V1, val_tiny, !Rabs_right by lra. lra. }
  split; [reflexivity|]. split. { repeat constructor; vm_compute; reflexivity. }
  split. { unfold rsum. cbn [map fold_right]. rewrite V1, val_tiny. lra. }
  rewrite M. split.
  { apply Rlt_trans with 16; [|unfold overflow; apply IZR_lt; lia]. simpl. nra. }
  eexists. eexists. split; [reflexivity|]. split; [reflexivity|]. split.
  { unfold val. rewrite <- SF2R_B2SF.
    match goal with |- SF2R _ ?a = _ => let x := eval vm_compute in a in replace a with x by (vm_compute; reflexivity) end.
    unfold SF2R, F2R. simpl. lra. }
  unfold drift. nra.
Qed.

(** One-hot features: the counts 2 and 1 and 0 come out exactly. *)
Example C84_ex_counts :
  let hot k : frow := fun c => if (c =? k)%nat then fZ 1 else fZ 0 in
  let idx := [0;0;0]%nat in let src := [hot 1; hot 0; hot 1]%nat in
  Forall2 (fun m z => finite m /\ val m = IZR z) (column 1 0 idx src) [1; 0; 1]%Z /\
  bits (scatter FO RAdd (Some 1%nat) idx src) = [B2SF (fZ 1)] /\
  bits (scatter FO RMean (Some 1%nat) idx src) = [B2SF (fdiv (fZ 1) (fZ 3))] /\
  bits (scatter FO RMax (Some 1%nat) idx src) = [B2SF (fZ 1)].
Proof.
  cbv zeta. split.
  { unfold column. cbn [messages_to combine filter map fst snd Nat.eqb].
    repeat constructor; try apply fZ_val; lia. }
  split; [vm_compute; reflexivity|]. split; vm_compute; reflexivity.
Qed.

(** The batch theorem: the path, its reverse and the path again, on the network above. *)
Definition float_path (x : list frow) : complex frow :=
  mkComplexRec 1
    [mkCochain 0 (Some x) (Some path_edges) None None (Some [0;0;1;1]%nat) None None None None None None (Some (Some 2%nat)) None;
     mkCochain 1 (Some [const (fZ 1); const tiny]) None (Some [(0,1);(1,0)]%nat) (Some [1;1]%nat) None
       (Some [(0,0);(1,0);(1,1);(2,1)]%nat) None None None None None None (Some (Some 3%nat))] None.

Example C84_ex_batch :
  let ks := [float_path (g_x path_there); float_path (g_x path_back); float_path (g_x path_there)] in
  cwn_net FO sum_net /\ Forall2 wf_complex ks (repeat path3_sz 3) /\ Forall (has_features 1) ks /\
  Forall (fun sz => (0 < sz 0)%nat) (repeat path3_sz 3) /\
  exists b out b', from_complex_list ks 1 = Ok b /\ net_forward FO sum_net b = Ok (out, b') /\
    map (fun v => B2SF (v 0%nat)) out =
      [SpecFloat.S754_finite false 8388608 (-23); SpecFloat.S754_finite false 8388609 (-23);
       SpecFloat.S754_finite false 8388608 (-23)].
Proof.
  cbv zeta. split. { apply CN_sparse; [discriminate|exists 0%nat; simpl; auto]. }
  split. { cbn [repeat]. do 3 (apply Forall2_cons; [apply (wf_complexb_ok _ [3; 2]%nat); reflexivity|]). constructor. }
  split. { repeat constructor; intros d c _; destruct d as [|[|d]]; simpl; intros H; inversion H; subst; try discriminate;
    destruct d; discriminate. }
  split. { repeat constructor; vm_compute; lia. }
  eexists. eexists. eexists. split; [reflexivity|]. split; [reflexivity|]. vm_compute. reflexivity.
Qed.

Print Assumptions C84_sum_rounding.
Print Assumptions C84_drift_small.
Print Assumptions C84_sum_reordered.
Print Assumptions C84_mean_rounding.
Print Assumptions C84_max_exact.
Print Assumptions C84_min_exact.
Print Assumptions C84_integers_exact.
Print Assumptions C84_stable_order.
Print Assumptions C84_batch_bitwise.
Print Assumptions C84_shuffle_bitwise.
Print Assumptions C84_exact_order_independence_refuted.
Print Assumptions C84_overflow_depends_on_order_refuted.
Print Assumptions C84_renumbering_bits_refuted.
