(** C88: the summaries that the experiment scripts print. *)
From Coq Require Import List Arith Lia ZArith QArith Qfield Lqa Bool Permutation Sorted.
From Verif Require Import Base ExpModel ExpSpec ExpProofs.
From Verif Require Import SummModel SummSpec SummProofs.
Import ListNotations.
Local Open Scope Q_scope.

(** ** exp/run_mol_exp.py *)

Lemma sq_nonneg (x : Q) : 0 <= x * x.
Proof. destruct x as [p q]. unfold Qle, Qmult. cbn. nia. Qed.

Lemma squares_zero {A} (f : A -> Q) l :
  0 <= total (map (fun x => f x * f x) l) /\
  (total (map (fun x => f x * f x) l) == 0 <-> forall x, In x l -> f x == 0).
Proof.
  induction l as [|x l [I1 I2]]; [split; [discriminate|split; [intros _ y []|reflexivity]]|].
  change (total (map (fun x => f x * f x) (x :: l))) with (f x * f x + total (map (fun x => f x * f x) l)).
  pose proof (sq_nonneg (f x)) as S1. split; [lra|]. split.
  - intros H y [<-|Hy].
    + assert (Z : f x * f x == 0) by lra. destruct (Qmult_integral _ _ Z); assumption.
    + apply I2; [lra|exact Hy].
  - intros H. rewrite (proj2 I2) by (intros; apply H; now right). rewrite (H x (or_introl eq_refl)). ring.
Qed.

Theorem C88_summary qs : qs <> [] -> exists s m a b, mol_summary (map Some qs) = Ok s /\
  s_mean s = Some m /\ m * count qs == total qs /\
  s_min s = Some a /\ In a qs /\ s_max s = Some b /\ In b qs /\ a <= m <= b /\ (forall x, In x qs -> a <= x <= b) /\
  (length qs = 1%nat -> s_var s = None) /\
  ((2 <= length qs)%nat -> exists v, s_var s = Some v /\
     v * (count qs - 1) == total (map (fun x => (x - m) * (x - m)) qs) /\
     0 <= v /\ (v == 0 <-> forall x y, In x qs -> In y qs -> x == y)).
Proof.
  intros Hne. destruct (np_min_map qs Hne) as (a & Ea & Ia & Ma). destruct (np_max_map qs Hne) as (b & Eb & Ib & Mb).
  destruct (np_mean_map qs Hne) as (m & Em & Hm).
  assert (Hl : (1 <= length qs)%nat) by (destruct qs; [contradiction|cbn; lia]).
  pose proof (nq_pos _ Hl) as Pn.
  unfold mol_summary. rewrite Ea. cbn [bind]. rewrite Eb. cbn [bind].
  eexists _, m, a, b. split; [reflexivity|]. cbn [s_mean s_min s_max s_var].
  split; [exact Em|]. split; [rewrite Hm; unfold count; fold (nq (length qs)); field; lra|].
  split; [reflexivity|]. split; [exact Ia|]. split; [reflexivity|]. split; [exact Ib|].
  split; [rewrite Hm; apply mean_between; [exact Hne|]; intros x Hx; split; [now apply Ma|now apply Mb]|].
  split; [intros x Hx; split; [now apply Ma|now apply Mb]|].
  split.
  - intros H1. unfold np_var. rewrite all_some_map, H1. reflexivity.
  - intros H2. rewrite np_var_map by lia. eexists. split; [reflexivity|].
    assert (P1 : 0 < nq (length qs) - nq 1).
    { unfold nq, Qminus, Qlt, Qplus, Qopp, inject_Z. cbn. lia. }
    assert (E : total (map (fun x => (x - m) * (x - m)) qs) ==
      total (map (fun x => (x - total qs / nq (length qs)) * (x - total qs / nq (length qs))) qs)).
    { apply total_map_ext. intros x _. rewrite Hm. reflexivity. }
    rewrite <- E. clear E. set (D := total (map (fun x => (x - m) * (x - m)) qs)).
    destruct (squares_zero (fun x => x - m) qs) as [Z1 Z2]. fold D in Z1, Z2.
    split; [unfold count; change (nq 1) with 1 in *; fold (nq (length qs)); field; lra|].
    split; [apply Qle_shift_div_l; lra|]. split.
    + intros H0 x y Hx Hy. assert (D0 : D == 0).
      { setoid_replace D with (D / (nq (length qs) - nq 1) * (nq (length qs) - nq 1)) by (field; lra). rewrite H0. ring. }
      pose proof (proj1 Z2 D0 x Hx). pose proof (proj1 Z2 D0 y Hy). lra.
    + intros H. assert (D0 : D == 0).
      { apply Z2. intros x Hx. assert (B : x <= m <= x).
        { rewrite Hm. apply mean_between; [exact Hne|]. intros y Hy. rewrite (H x y Hx Hy). split; apply Qle_refl. }
        lra. }
      rewrite D0. field. lra.
Qed.

(** A score that is not a number makes every number of the report one; without runs there is none. *)
Lemma all_some_none l : In None l -> all_some l = None.
Proof.
  induction l as [|[q|] l IH]; intros H; [destruct H| |reflexivity]. destruct H as [H|H]; [discriminate|].
  cbn [all_some]. now rewrite IH.
Qed.

Lemma nan_sum_none l : In None l -> nan_sum l = None.
Proof.
  induction l as [|[q|] l IH]; intros H; [destruct H| |reflexivity]. destruct H as [H|H]; [discriminate|].
  cbn [nan_sum]. now rewrite IH.
Qed.

Theorem C88_nan l : (In None l -> mol_summary l = Ok (mkSummary None None None None)) /\
  (mol_summary l = Err ValueError <-> l = []).
Proof.
  split.
  - intros H. unfold mol_summary, np_min, np_max, np_extreme, np_var, np_mean.
    rewrite (all_some_none l H), (nan_sum_none l H). destruct l; [destruct H|]. reflexivity.
  - split; [|intros ->; reflexivity]. destruct l as [|x l]; [reflexivity|].
    unfold mol_summary, np_min, np_max, np_extreme.
    destruct (all_some (x :: l)) as [[|q qs]|]; discriminate.
Qed.

Lemma mol_summary_ok l : l <> [] -> exists s, mol_summary l = Ok s.
Proof.
  intros H. destruct (mol_summary l) as [s|e] eqn:E; [now exists s|]. exfalso.
  destruct l as [|x l]; [contradiction|]. unfold mol_summary, np_min, np_max, np_extreme in E.
  destruct (all_some (x :: l)) as [[|q qs]|]; discriminate E.
Qed.

(** The test scores of all runs, each at the best epoch of its own run, and at its last epoch. *)
Theorem C88_test_report results : results <> [] -> (forall c, In c results -> (c_best c < length (c_test c))%nat) ->
  exists at_best b l, mol_test_report results = Ok (b, l) /\
    Forall2 (fun c x => nth_error (c_test c) (c_best c) = Some x) results at_best /\
    mol_summary at_best = Ok b /\ mol_summary (map c_last_test results) = Ok l.
Proof.
  intros Hne H.
  assert (G : exists xs, mapM (fun c => get (c_test c) (c_best c)) results = Ok xs /\
    Forall2 (fun c x => nth_error (c_test c) (c_best c) = Some x) results xs).
  { clear Hne. induction results as [|c cs IH]; [exists []; split; [reflexivity|constructor]|].
    destruct IH as (xs & E & F); [intros; apply H; now right|].
    destruct (nth_error (c_test c) (c_best c)) as [x|] eqn:N.
    - exists (x :: xs). cbn [mapM]. unfold get at 1. rewrite N. cbn [of_option bind]. rewrite E. split; [reflexivity|now constructor].
    - apply nth_error_None in N. specialize (H c (or_introl eq_refl)). lia. }
  destruct G as (xs & E & F).
  destruct (mol_summary_ok xs) as [b Eb]. { intros ->. inversion F. subst. contradiction. }
  destruct (mol_summary_ok (map c_last_test results)) as [l El]. { destruct results; [contradiction|discriminate]. }
  exists xs, b, l. unfold mol_test_report. rewrite E. cbn [bind]. rewrite Eb. cbn [bind]. rewrite El. auto.
Qed.

(** ** Independent runs *)

Lemma tuple_shape P n t : (1 <= n)%nat -> In t (tuples P n) -> length t = n /\ t <> [].
Proof. intros Hn Ht. pose proof (tuples_length P n t Ht). split; [assumption|]. intros ->. cbn in *. lia. Qed.

Lemma E_average P n : P <> [] -> (1 <= n)%nat -> expect (tuples P n) (fun t => total t / nq n) == mu P.
Proof.
  intros HP Hn. pose proof (nq_pos n Hn).
  rewrite (expect_ext _ _ (fun t => (1 / nq n) * total t)) by (intros; field; lra).
  rewrite expect_scale by now apply tuples_nonempty. rewrite E_mean by exact HP. field. lra.
Qed.

Lemma E_error P n : P <> [] -> (1 <= n)%nat ->
  expect (tuples P n) (fun t => (total t / nq n - mu P) * (total t / nq n - mu P)) == sigma2 P / nq n.
Proof.
  intros HP Hn. pose proof (nq_pos n Hn). assert (Hne := tuples_nonempty P n HP).
  rewrite (expect_ext _ _ (fun t => ((1 / (nq n * nq n)) * (total t * total t) + (- (2 * mu P / nq n)) * total t) + (mu P * mu P) * 1))
    by (intros; field; lra).
  rewrite !expect_plus, !expect_scale by exact Hne. rewrite E_mean, E_square by exact HP.
  assert (E1 : expect (tuples P n) (fun _ => 1) == 1).
  { unfold expect. rewrite total_map_const. pose proof (count_pos _ Hne). field. lra. }
  rewrite E1. field. lra.
Qed.

(** The deviation is the square root of [v]: the mean is right on average, [v] is the variance
    of a run on average, and the mean is off by [sigma2 / n] in the mean square. *)
Theorem C88_unbiased P n : P <> [] -> (2 <= n)%nat -> exists mean var : list Q -> Q,
  (forall t, In t (tuples P n) -> exists s, mol_summary (map Some t) = Ok s /\
     s_mean s = Some (mean t) /\ s_var s = Some (var t)) /\
  expect (tuples P n) mean == mu P /\
  expect (tuples P n) var == sigma2 P /\
  expect (tuples P n) (fun t => (mean t - mu P) * (mean t - mu P)) == sigma2 P / count (seq 0 n).
Proof.
  intros HP Hn.
  exists (fun t => match np_mean (map Some t) with Some m => m | None => 0 end),
         (fun t => match np_var 1 (map Some t) with Some m => m | None => 0 end).
  assert (Hn1 : (1 <= n)%nat) by lia. pose proof (nq_pos n Hn1) as Pn.
  assert (Mean : forall t, In t (tuples P n) -> exists m, np_mean (map Some t) = Some m /\ m == total t / nq n).
  { intros t Ht. destruct (tuple_shape P n t Hn1 Ht) as [L N]. destruct (np_mean_map t N) as (m & E1 & E2).
    rewrite L in E2. eauto. }
  assert (P1 : 0 < nq n - nq 1) by (unfold nq, Qminus, Qlt, Qplus, Qopp, inject_Z; cbn; lia).
  split; [|split; [|split]].
  - intros t Ht. destruct (tuple_shape P n t Hn1 Ht) as [L N].
    destruct (C88_summary t N) as (s & m & a & b & E & Em & _ & _ & _ & _ & _ & _ & _ & _ & V).
    destruct V as (v & Ev & _); [lia|]. exists s. split; [exact E|].
    assert (S1 : s_mean s = np_mean (map Some t) /\ s_var s = np_var 1 (map Some t)).
    { unfold mol_summary in E. destruct (np_min (map Some t)); [|discriminate]. cbn [bind] in E.
      destruct (np_max (map Some t)); [|discriminate]. cbn [bind] in E. inversion E. split; reflexivity. }
    destruct S1 as [S1 S2]. rewrite <- S1, <- S2, Em, Ev. split; reflexivity.
  - rewrite <- (E_average P n HP Hn1). apply expect_ext. intros t Ht. destruct (Mean t Ht) as (m & -> & ->). reflexivity.
  - rewrite (expect_ext _ _ (fun t => (1 / (nq n - nq 1)) * total (map (fun x => (x - total t / nq n) * (x - total t / nq n)) t))).
    + rewrite expect_scale, E_deviations by (try apply tuples_nonempty; assumption). change (nq 1) with 1 in *. field. lra.
    + intros t Ht. destruct (tuple_shape P n t Hn1 Ht) as [L N]. rewrite np_var_map by lia. rewrite L. field. lra.
  - unfold count. rewrite seq_length. fold (nq n). rewrite <- (E_error P n HP Hn1). apply expect_ext.
    intros t Ht. destruct (Mean t Ht) as (m & -> & ->). reflexivity.
Qed.

(** The printed deviation itself (or anything not above it) is on average not above the true one. *)
Theorem C88_deviation_low P n (std : list Q -> Q) : P <> [] -> (2 <= n)%nat ->
  (forall t, In t (tuples P n) -> exists s v, mol_summary (map Some t) = Ok s /\ s_var s = Some v /\ std t * std t <= v) ->
  expect (tuples P n) std * expect (tuples P n) std <= sigma2 P.
Proof.
  intros HP Hn H. assert (Hne := tuples_nonempty P n HP). pose proof (count_pos _ Hne) as Pc.
  destruct (C88_unbiased P n HP Hn) as (mean & var & R & _ & V & _). rewrite <- V. clear V.
  set (l := tuples P n) in *. set (e := expect l std).
  assert (L : 0 <= expect l (fun t => (std t - e) * (std t - e))).
  { unfold expect. apply Qle_shift_div_l; [exact Pc|]. destruct (squares_zero (fun t => std t - e) l). lra. }
  rewrite (expect_ext _ _ (fun t => (std t * std t + (- (2 * e)) * std t) + (e * e) * 1)) in L by (intros; ring).
  rewrite !expect_plus, !expect_scale in L by exact Hne. fold e in L.
  assert (E1 : expect l (fun _ => 1) == 1).
  { unfold expect. rewrite total_map_const. field. lra. }
  rewrite E1 in L.
  assert (M : expect l (fun t => std t * std t) <= expect l var).
  { unfold expect. apply Qmult_le_compat_r; [|apply Qlt_le_weak, Qinv_lt_0_compat; exact Pc].
    assert (G : forall t, In t l -> std t * std t <= var t).
    { intros t Ht. destruct (H t Ht) as (s & v & E & Ev & Hv). destruct (R t Ht) as (s' & E' & _ & Ev').
      assert (s' = s) by congruence. subst s'. assert (v = var t) by congruence. now subst v. }
    clear - G. induction l as [|t l IH]; [apply Qle_refl|]. cbn [map total fold_right].
    fold (total (map (fun t => std t * std t) l)) (total (map var l)).
    apply Qplus_le_compat; [apply G; now left|apply IH; intros; apply G; now right]. }
  lra.
Qed.

(** ** exp/run_sr_exp.py: the number printed as standard error *)

(** [e2] is the square of the printed number. *)
Theorem C88_sr_summary P start stop : P <> [] -> (start <= stop)%nat ->
  let n := (stop + 1 - start)%nat in exists mean e2 : list Q -> Q,
  (forall t, In t (tuples P n) -> exists s, sr_summary start stop (map Some t) = Ok s /\
     s_mean s = Some (mean t) /\ s_var s = Some (e2 t)) /\
  expect (tuples P n) mean == mu P /\
  expect (tuples P n) (fun t => (mean t - mu P) * (mean t - mu P)) == sigma2 P / nq n /\
  expect (tuples P n) e2 == (nq n - 1) * sigma2 P / (nq n * nq n * nq n) /\
  4 * expect (tuples P n) e2 <= expect (tuples P n) (fun t => (mean t - mu P) * (mean t - mu P)).
Proof.
  intros HP Hs n. assert (Hn : (1 <= n)%nat) by (unfold n; lia). pose proof (nq_pos n Hn) as Pn.
  exists (fun t => match np_mean (map Some t) with Some m => m | None => 0 end),
         (fun t => match np_var 0 (map Some t) with Some v => v / (nq n * nq n) | None => 0 end).
  assert (Mean : forall t, In t (tuples P n) -> exists m, np_mean (map Some t) = Some m /\ m == total t / nq n).
  { intros t Ht. destruct (tuple_shape P n t Hn Ht) as [L N]. destruct (np_mean_map t N) as (m & E1 & E2).
    rewrite L in E2. eauto. }
  assert (X : expect (tuples P n) (fun t => (match np_mean (map Some t) with Some m => m | None => 0 end - mu P) *
      (match np_mean (map Some t) with Some m => m | None => 0 end - mu P)) == sigma2 P / nq n).
  { rewrite <- (E_error P n HP Hn). apply expect_ext. intros t Ht. destruct (Mean t Ht) as (m & -> & ->). reflexivity. }
  assert (Y : expect (tuples P n) (fun t => match np_var 0 (map Some t) with Some v => v / (nq n * nq n) | None => 0 end) ==
     (nq n - 1) * sigma2 P / (nq n * nq n * nq n)).
  { rewrite (expect_ext _ _ (fun t => (1 / (nq n * nq n * nq n)) * total (map (fun x => (x - total t / nq n) * (x - total t / nq n)) t))).
    - rewrite expect_scale, E_deviations by (try apply tuples_nonempty; assumption). field. lra.
    - intros t Ht. destruct (tuple_shape P n t Hn Ht) as [L N]. rewrite np_var_map by lia. rewrite L.
      change (nq 0) with 0. field. lra. }
  split; [|split; [|split; [exact X|split; [exact Y|]]]].
  - intros t Ht. destruct (tuple_shape P n t Hn Ht) as [L N].
    unfold sr_summary. rewrite map_length, L. fold n. rewrite Nat.eqb_refl. cbn [assert_ bind].
    destruct (np_min_map t N) as (a & Ea & _). destruct (np_max_map t N) as (b & Eb & _).
    rewrite Ea. cbn [bind]. rewrite Eb. cbn [bind]. eexists. split; [reflexivity|]. cbn [s_mean s_var].
    destruct (Mean t Ht) as (m & -> & _). split; [reflexivity|].
    rewrite np_var_map by lia. reflexivity.
  - rewrite <- (E_average P n HP Hn). apply expect_ext. intros t Ht. destruct (Mean t Ht) as (m & -> & ->). reflexivity.
  - rewrite X, Y.
    assert (S0 : 0 <= sigma2 P).
    { unfold sigma2, expect. apply Qle_shift_div_l; [now apply count_pos|].
      destruct (squares_zero (fun x => x - mu P) P). unfold mu, expect in *. lra. }
    setoid_replace (4 * ((nq n - 1) * sigma2 P / (nq n * nq n * nq n)))
      with ((4 * (nq n - 1)) * sigma2 P / (nq n * nq n * nq n)) by (field; lra).
    setoid_replace (sigma2 P / nq n) with ((nq n * nq n) * sigma2 P / (nq n * nq n * nq n)) by (field; lra).
    apply Qmult_le_compat_r.
    + apply Qmult_le_compat_r; [|exact S0]. pose proof (sq_nonneg (nq n - 2)). lra.
    + apply Qlt_le_weak, Qinv_lt_0_compat. apply Qmult_lt_0_compat; [apply Qmult_lt_0_compat|]; exact Pn.
Qed.

(** So it is not the standard error, nor the deviation divided by the square root of [n]: for
    scores that vary and at least two seeds it is always too small. *)
Theorem C88_sr_std_err_refuted P start stop (mean e2 : list Q -> Q) : 0 < sigma2 P -> (start < stop)%nat ->
  let n := (stop + 1 - start)%nat in
  (forall t, In t (tuples P n) -> exists s, sr_summary start stop (map Some t) = Ok s /\
     s_mean s = Some (mean t) /\ s_var s = Some (e2 t)) ->
  expect (tuples P n) e2 < expect (tuples P n) (fun t => (mean t - mu P) * (mean t - mu P)) * (nq n - 1) / nq n.
Proof.
  intros HS Hs n H. assert (HP : P <> []) by (intros ->; discriminate HS).
  assert (Hn : (1 <= n)%nat) by (unfold n; lia). pose proof (nq_pos n Hn) as Pn.
  destruct (C88_sr_summary P start stop HP ltac:(lia)) as (mean' & e2' & R & _ & X & Y & _). fold n in R, X, Y.
  assert (G : forall t, In t (tuples P n) -> mean t = mean' t /\ e2 t = e2' t).
  { intros t Ht. destruct (H t Ht) as (s & E & A & B). destruct (R t Ht) as (s' & E' & A' & B').
    assert (s' = s) by congruence. subst s'. split; congruence. }
  assert (X' : expect (tuples P n) (fun t => (mean t - mu P) * (mean t - mu P)) == sigma2 P / nq n).
  { rewrite <- X. apply expect_ext. intros t Ht. destruct (G t Ht) as [-> _]. reflexivity. }
  assert (Y' : expect (tuples P n) e2 == (nq n - 1) * sigma2 P / (nq n * nq n * nq n)).
  { rewrite <- Y. apply expect_ext. intros t Ht. destruct (G t Ht) as [_ ->]. reflexivity. }
  rewrite X', Y'.
  assert (N2 : 2 <= nq n) by (unfold nq, Qle, inject_Z, n; cbn; lia).
  setoid_replace ((nq n - 1) * sigma2 P / (nq n * nq n * nq n)) with (1 * ((nq n - 1) * sigma2 P * / (nq n * nq n * nq n))) by (field; lra).
  setoid_replace (sigma2 P / nq n * (nq n - 1) / nq n) with (nq n * ((nq n - 1) * sigma2 P * / (nq n * nq n * nq n))) by (field; lra).
  apply Qmult_lt_compat_r; [|lra].
  apply Qmult_lt_0_compat; [apply Qmult_lt_0_compat; lra|]. apply Qinv_lt_0_compat.
  apply Qmult_lt_0_compat; [apply Qmult_lt_0_compat|]; exact Pn.
Qed.

(** ** The median *)
Lemma insertq_perm q l : Permutation (q :: l) (insertq q l).
Proof.
  induction l as [|y l IH]; cbn [insertq]; [apply Permutation_refl|]. destruct (Qle_bool q y); [apply Permutation_refl|].
  eapply perm_trans; [apply perm_swap|]. now apply perm_skip.
Qed.
Lemma sortq_perm l : Permutation l (sortq l).
Proof.
  unfold sortq. induction l as [|y l IH]; cbn [fold_right]; [apply Permutation_refl|].
  eapply perm_trans; [apply perm_skip, IH|]. apply insertq_perm.
Qed.
Lemma insertq_sorted q l : StronglySorted Qle l -> StronglySorted Qle (insertq q l).
Proof.
  induction 1 as [|y l S1 IH F]; cbn [insertq]; [repeat constructor|]. destruct (Qle_bool q y) eqn:E.
  - apply Qle_bool_iff in E. constructor; [now constructor|]. constructor; [exact E|].
    eapply Forall_impl; [|exact F]. intros z Hz. now apply Qle_trans with y.
  - assert (E' : y <= q) by (apply Qnot_lt_le; intros L; apply Qlt_le_weak in L; apply Qle_bool_iff in L; congruence).
    constructor; [exact IH|]. apply Forall_forall. intros z Hz. apply insertq_in in Hz as [->|Hz]; [exact E'|].
    rewrite Forall_forall in F. now apply F.
Qed.
Lemma sortq_sorted l : StronglySorted Qle (sortq l).
Proof. unfold sortq. induction l as [|y l IH]; cbn [fold_right]; [constructor|]. now apply insertq_sorted. Qed.

Lemma sorted_nth s : StronglySorted Qle s -> forall i j, (i <= j)%nat -> (j < length s)%nat -> nth i s 0 <= nth j s 0.
Proof.
  induction 1 as [|y l S1 IH F]; intros i j Hij Hj; [cbn in Hj; lia|].
  destruct i as [|i], j as [|j]; cbn [nth length] in *; [apply Qle_refl| |lia|apply IH; lia].
  rewrite Forall_forall in F. apply F. apply nth_In. lia.
Qed.

Lemma filter_many {A} (f : A -> bool) l : (forall x, In x l -> f x = true) -> filter f l = l.
Proof. induction l as [|x l IH]; intros H; [reflexivity|]. cbn [filter]. rewrite H by now left. f_equal. apply IH. intros; apply H; now right. Qed.

Lemma filter_perm {A} (f : A -> bool) l l' : Permutation l l' -> length (filter f l) = length (filter f l').
Proof.
  induction 1; cbn [filter]; [reflexivity| | |congruence].
  - destruct (f x); cbn [length]; congruence.
  - destruct (f x), (f y); reflexivity.
Qed.

Lemma in_firstn_nth {A} (d : A) k l x : In x (firstn k l) -> exists i, (i < k)%nat /\ (i < length l)%nat /\ x = nth i l d.
Proof.
  intros H. apply (In_nth _ _ d) in H as (i & Hi & <-). rewrite firstn_length in Hi. exists i.
  split; [lia|]. split; [lia|]. assert (E : nth i l d = nth i (firstn k l ++ skipn k l) d) by now rewrite firstn_skipn.
  rewrite E, app_nth1; [reflexivity|]. rewrite firstn_length. lia.
Qed.
Lemma in_skipn_nth {A} (d : A) k l x : In x (skipn k l) -> exists i, (k <= i)%nat /\ (i < length l)%nat /\ x = nth i l d.
Proof.
  intros H. apply (In_nth _ _ d) in H as (i & Hi & <-). rewrite skipn_length in Hi. exists (k + i)%nat.
  split; [lia|]. split; [lia|]. assert (E : nth (k + i) l d = nth (k + i) (firstn k l ++ skipn k l) d) by now rewrite firstn_skipn.
  assert (F : length (firstn k l) = k) by (rewrite firstn_length; lia).
  rewrite E, app_nth2, F; [f_equal; lia|]. lia.
Qed.

Lemma half_low s m k : (k <= length s)%nat -> (forall i, (i < k)%nat -> nth i s 0 <= m) -> (k <= length (filter (fun x => Qle_bool x m) s))%nat.
Proof.
  intros Hk H. rewrite <- (firstn_skipn k s) at 1. rewrite filter_app, app_length, (filter_many _ (firstn k s)).
  - rewrite firstn_length. lia.
  - intros x Hx. apply (in_firstn_nth 0) in Hx as (i & Hi & _ & ->). apply Qle_bool_iff. now apply H.
Qed.
Lemma half_high s m k : (forall i, (k <= i)%nat -> (i < length s)%nat -> m <= nth i s 0) -> (length s - k <= length (filter (fun x => Qle_bool m x) s))%nat.
Proof.
  intros H. rewrite <- (firstn_skipn k s) at 2. rewrite filter_app, app_length, (filter_many _ (skipn k s)).
  - rewrite skipn_length. lia.
  - intros x Hx. apply (in_skipn_nth 0) in Hx as (i & Hi & Hl & ->). apply Qle_bool_iff. now apply H.
Qed.

(** At least half of the scores are not above, at least half not below it. *)
Theorem C88_median qs : qs <> [] -> exists m, np_median (map Some qs) = Some m /\
  (length qs <= 2 * length (filter (fun x => Qle_bool x m) qs))%nat /\
  (length qs <= 2 * length (filter (fun x => Qle_bool m x) qs))%nat.
Proof.
  intros Hne. unfold np_median. rewrite all_some_map. destruct qs as [|q qs']; [contradiction|].
  set (qs := q :: qs') in *. cbn zeta. set (s := sortq qs). assert (L : length s = length qs) by apply sortq_length.
  assert (S1 : StronglySorted Qle s) by apply sortq_sorted.
  assert (FP : forall f, length (filter f qs) = length (filter f s)) by (intros f; apply filter_perm, sortq_perm).
  rewrite L. set (n := length qs) in *. assert (N1 : (1 <= n)%nat) by (unfold n; cbn; lia).
  destruct (Nat.even n) eqn:E.
  - apply Nat.even_spec in E as [h E]. assert (Hd : (n / 2 = h)%nat) by (rewrite E, Nat.mul_comm; apply Nat.div_mul; lia).
    rewrite Hd. set (m := ((nth (h - 1) s 0 + nth h s 0) / 2)%Q). exists m. split; [reflexivity|].
    assert (Lo : nth (h - 1) s 0 <= nth h s 0) by (apply sorted_nth; [exact S1|lia|lia]).
    assert (M : nth (h - 1) s 0 <= m <= nth h s 0).
    { unfold m. split; [apply Qle_shift_div_l|apply Qle_shift_div_r]; try reflexivity; lra. }
    rewrite !FP. split.
    + assert (h <= length (filter (fun x => Qle_bool x m) s))%nat; [|lia].
      apply half_low; [lia|]. intros i Hi. apply Qle_trans with (nth (h - 1) s 0); [apply sorted_nth; [exact S1|lia|lia]|tauto].
    + assert (length s - h <= length (filter (fun x => Qle_bool m x) s))%nat; [|lia].
      apply half_high. intros i Hi Hl. apply Qle_trans with (nth h s 0); [tauto|apply sorted_nth; [exact S1|lia|lia]].
  - assert (O : Nat.odd n = true) by (rewrite <- Nat.negb_even, E; reflexivity). apply Nat.odd_spec in O as [h O].
    assert (Hd : (n / 2 = h)%nat) by (symmetry; apply (Nat.div_unique n 2 h 1); lia).
    rewrite Hd. exists (nth h s 0). split; [reflexivity|]. rewrite !FP. split.
    + assert (h + 1 <= length (filter (fun x => Qle_bool x (nth h s 0%Q)) s))%nat; [|lia].
      apply half_low; [lia|]. intros i Hi. apply sorted_nth; [exact S1|lia|lia].
    + assert (length s - h <= length (filter (fun x => Qle_bool (nth h s 0%Q) x) s))%nat; [|lia].
      apply half_high. intros i Hi Hl. apply sorted_nth; [exact S1|lia|lia].
Qed.

(** ** exp/run_tu_exp.py *)

Lemma total_nth r : total r == total (map (fun e => nth e r 0) (seq 0 (length r))).
Proof.
  assert (G : map (fun e => nth e r 0) (seq 0 (length r)) = r).
  { induction r as [|x r IH]; [reflexivity|]. cbn [length seq map nth]. f_equal. rewrite <- seq_shift, map_map. exact IH. }
  now rewrite G.
Qed.

Lemma total_swap {A B} (f : A -> B -> Q) L M :
  total (map (fun a => total (map (f a) M)) L) == total (map (fun b => total (map (fun a => f a b) L)) M).
Proof.
  induction L as [|a L IH].
  - cbn [map]. rewrite total_map_const. change (0 == count M * 0). ring.
  - cbn [map total fold_right]. fold (total (map (fun a => total (map (f a) M)) L)). rewrite IH, <- total_map_plus.
    apply total_map_ext. intros b _. reflexivity.
Qed.

Lemma total_le {A} (f g : A -> Q) l : (forall x, In x l -> f x <= g x) -> total (map f l) <= total (map g l).
Proof.
  induction l as [|x l IH]; intros H; [apply Qle_refl|]. cbn [map total fold_right].
  fold (total (map f l)) (total (map g l)). apply Qplus_le_compat; [apply H; now left|apply IH; intros; apply H; now right].
Qed.

Lemma pick_maxs (rows : list (list Q)) : (forall r, In r rows -> r <> []) ->
  exists xs, mapM np_max (map (map Some) rows) = Ok (map Some xs) /\
    Forall2 (fun r x => In x r /\ forall y, In y r -> y <= x) rows xs.
Proof.
  induction rows as [|r rows IH]; intros H; [exists []; split; [reflexivity|constructor]|].
  destruct IH as (xs & E & F); [intros; apply H; now right|].
  destruct (np_max_map r (H r (or_introl eq_refl))) as (x & Ex & Hx).
  exists (x :: xs). cbn [map mapM]. rewrite Ex. cbn [bind]. rewrite E. split; [reflexivity|]. constructor; assumption.
Qed.

(** [rows]: the validation scores of each fold over the epochs.  The reported accuracy is the mean
    over the folds of their scores at one epoch: at least the mean of the folds' means, at most
    the mean of the folds' best scores; its deviation is that of the scores it is the mean of. *)
Theorem C88_tu_report (rows : list (list Q)) epochs : rows <> [] -> (1 <= epochs)%nat ->
  (forall r, In r rows -> length r = epochs) ->
  exists rep acc var means maxs medians at_best,
    tu_report (map (map Some) rows) = Ok rep /\ t_mean rep = Some acc /\ t_var rep = Some var /\
    t_means rep = map Some means /\ t_maxs rep = map Some maxs /\ t_medians rep = map Some medians /\ t_at_best rep = map Some at_best /\
    (t_best rep < epochs)%nat /\ at_best = map (fun r => nth (t_best rep) r 0) rows /\
    Forall2 (fun r m => m * count r == total r) rows means /\
    Forall2 (fun r x => In x r /\ forall y, In y r -> y <= x) rows maxs /\
    Forall2 (fun r m => (epochs <= 2 * length (filter (fun x => Qle_bool x m) r))%nat /\
                        (epochs <= 2 * length (filter (fun x => Qle_bool m x) r))%nat) rows medians /\
    acc * count rows == total at_best /\
    var * count rows == total (map (fun x => (x - acc) * (x - acc)) at_best) /\
    total means <= total at_best /\ total at_best <= total maxs /\
    (forall e, (e < epochs)%nat -> total (map (fun r => nth e r 0) rows) <= total at_best).
Proof.
  intros Hne He Hr.
  assert (Col : forall e, (e < epochs)%nat -> column (map (map Some) rows) e = map Some (map (fun r => nth e r 0) rows)).
  { intros e Hlt. unfold column. rewrite !map_map. apply map_ext_in. intros r Hin.
    rewrite (nth_indep _ None (Some 0)) by (rewrite map_length, (Hr r Hin); exact Hlt). apply (map_nth Some). }
  assert (Ncol : forall e, map (fun r => nth e r 0) rows <> []) by (intros e; destruct rows; [contradiction|discriminate]).
  assert (Hlr : (1 <= length rows)%nat) by (destruct rows; [contradiction|cbn; lia]).
  pose proof (nq_pos _ Hlr) as PR. pose proof (nq_pos _ He) as PE.
  assert (Avg : avg_curve (map (map Some) rows) = Ok (map (fun e => np_mean (column (map (map Some) rows) e)) (seq 0 epochs))).
  { destruct rows as [|r rows']; [contradiction|]. cbn [map avg_curve].
    assert (F : forallb (fun r' : list score => (length r' =? length (map Some r))%nat) (map (map Some) rows') = true).
    { apply forallb_forall. intros r' H'. apply in_map_iff in H' as (r0 & <- & H0). rewrite !map_length.
      rewrite (Hr r0 (or_intror H0)), (Hr r (or_introl eq_refl)). apply Nat.eqb_refl. }
    rewrite F, map_length, (Hr r (or_introl eq_refl)). reflexivity. }
  set (avg := map (fun e => np_mean (column (map (map Some) rows) e)) (seq 0 epochs)) in *.
  assert (AvgN : forall e, (e < epochs)%nat -> exists m, nth_error avg e = Some (Some m) /\ m * nq (length rows) == total (map (fun r => nth e r 0) rows)).
  { intros e Hlt. unfold avg. destruct (np_mean_map _ (Ncol e)) as (m & Em & Hm). exists m. split.
    - rewrite nth_error_map. rewrite (nth_error_nth' (seq 0 epochs) 0%nat) by (rewrite seq_length; exact Hlt).
      rewrite seq_nth by exact Hlt. cbn [option_map Nat.add]. rewrite (Col e Hlt), Em. reflexivity.
    - rewrite Hm, map_length. field. lra. }
  assert (La : length avg = epochs) by (unfold avg; rewrite map_length, seq_length; reflexivity).
  destruct (np_best_spec false avg) as (j & q & Ej & Nq & Best & _).
  { intros E. rewrite E in La. cbn in La. lia. }
  { intros x Hx E. subst x. apply In_nth_error in Hx as [e Hx].
    assert (Hlt : (e < epochs)%nat) by (rewrite <- La; apply nth_error_Some; congruence).
    destruct (AvgN e Hlt) as (m & E & _). congruence. }
  assert (Hj : (j < epochs)%nat) by (rewrite <- La; apply nth_error_Some; congruence).
  destruct (AvgN j Hj) as (q' & Eq & Hq). assert (q' = q) by congruence. subst q'.
  destruct (pick_maxs rows) as (maxs & Emax & Fmax).
  { intros r Hin E. apply Hr in Hin. rewrite E in Hin. cbn in Hin. lia. }
  assert (Means : exists means, map np_mean (map (map Some) rows) = map Some means /\ Forall2 (fun r m => m * nq epochs == total r) rows means).
  { clear - Hr He PE. induction rows as [|r rows IH]; [exists []; split; [reflexivity|constructor]|].
    destruct IH as (ms & E & F); [intros; apply Hr; now right|].
    assert (Lr := Hr r (or_introl eq_refl)). destruct (np_mean_map r) as (m & Em & Hm).
    { intros ->. cbn in Lr. lia. }
    exists (m :: ms). cbn [map]. rewrite Em, E. split; [reflexivity|]. constructor; [|exact F].
    rewrite Hm, Lr. field. lra. }
  destruct Means as (means & Emeans & Fmeans).
  assert (Medians : exists medians, map np_median (map (map Some) rows) = map Some medians /\
    Forall2 (fun r m => (epochs <= 2 * length (filter (fun x => Qle_bool x m) r))%nat /\
                        (epochs <= 2 * length (filter (fun x => Qle_bool m x) r))%nat) rows medians).
  { clear - Hr He. induction rows as [|r rows IH]; [exists []; split; [reflexivity|constructor]|].
    destruct IH as (ms & E & F); [intros; apply Hr; now right|].
    assert (Lr := Hr r (or_introl eq_refl)). destruct (C88_median r) as (m & Em & Hm).
    { intros ->. cbn in Lr. lia. }
    exists (m :: ms). cbn [map]. rewrite Em, E. split; [reflexivity|]. constructor; [|exact F]. rewrite <- Lr. exact Hm. }
  destruct Medians as (medians & Emed & Fmed).
  unfold tu_report. rewrite Avg. cbn [bind].
  change (np_argmax avg) with (np_best false avg). rewrite Ej. cbn [bind]. unfold get. rewrite Nq. cbn [of_option bind].
  rewrite Emax. cbn [bind].
  set (ab := map (fun r => nth j r 0) rows). assert (Lab : length ab = length rows) by (unfold ab; apply map_length).
  assert (Top : forall e, (e < epochs)%nat -> total (map (fun r => nth e r 0) rows) <= total ab).
  { intros e Hlt. destruct (AvgN e Hlt) as (m & E & Hm). rewrite <- Hm. unfold ab. rewrite <- Hq.
    apply Qmult_le_compat_r; [|lra]. apply (Best m). apply nth_error_In with e. exact E. }
  eexists _, q, _, means, maxs, medians, ab. split; [reflexivity|]. cbn [t_mean t_var t_means t_maxs t_medians t_at_best t_best].
  rewrite (Col j Hj). fold ab. split; [reflexivity|].
  split; [rewrite np_var_map by lia; reflexivity|]. split; [exact Emeans|]. split; [reflexivity|]. split; [exact Emed|]. split; [reflexivity|].
  split; [exact Hj|]. split; [reflexivity|].
  assert (Cr : count rows = nq (length rows)) by reflexivity.
  split; [|split; [exact Fmax|split; [exact Fmed|split; [exact Hq|split]]]].
  - clear - Fmeans Hr. induction Fmeans as [|r m rs ms H1 F1 IH]; constructor.
    + unfold count. rewrite (Hr r (or_introl eq_refl)). exact H1.
    + apply IH. intros; apply Hr; now right.
  - rewrite Lab, Cr. change (nq 0) with 0.
    rewrite (total_map_ext (fun x => (x - q) * (x - q)) (fun x => (x - total ab / nq (length rows)) * (x - total ab / nq (length rows)))).
    + change sumq with total. field. lra.
    + intros x _. setoid_replace (total ab / nq (length rows)) with q; [reflexivity|]. unfold ab. rewrite <- Hq. field. lra.
  - split; [|split; [|exact Top]].
    + assert (T1 : total means * nq epochs == total (map total rows)).
      { clear - Fmeans. induction Fmeans as [|r m rs ms H1 F1 IH]; [change (0 * nq epochs == 0); ring|].
        cbn [map total fold_right]. fold (total ms) (total (map total rs)). fold (total r). rewrite <- H1, <- IH. ring. }
      assert (T2 : total (map total rows) == total (map (fun e => total (map (fun r => nth e r 0) rows)) (seq 0 epochs))).
      { rewrite (total_swap (fun e r => nth e r 0)). apply total_map_ext. intros r Hin. rewrite (total_nth r), (Hr r Hin). reflexivity. }
      assert (T3 : total (map (fun e => total (map (fun r => nth e r 0) rows)) (seq 0 epochs)) <= nq epochs * total ab).
      { assert (C0 : nq epochs * total ab == total (map (fun _ => total ab) (seq 0 epochs))).
        { rewrite total_map_const. unfold count. rewrite seq_length. reflexivity. }
        rewrite C0. apply total_le. intros e Hin. apply in_seq in Hin. apply Top. lia. }
      rewrite <- T2, <- T1 in T3. apply (Qmult_le_r _ _ (nq epochs)); [exact PE|]. rewrite (Qmult_comm (total ab)). exact T3.
    + unfold ab. clear - Fmax Hj Hr. induction Fmax as [|r x rs xs H1 F1 IH]; [apply Qle_refl|].
      cbn [map total fold_right]. fold (total xs) (total (map (fun r => nth j r 0) rs)).
      apply Qplus_le_compat; [|apply IH; intros; apply Hr; now right].
      apply H1. apply nth_In. rewrite (Hr r (or_introl eq_refl)). exact Hj.
Qed.

(** The printed deviation: over independent folds its square is [(n-1)/n] of the variance. *)
Theorem C88_tu_variance P n : P <> [] -> (1 <= n)%nat -> exists var : list Q -> Q,
  (forall t, In t (tuples P n) -> np_var 0 (map Some t) = Some (var t)) /\
  expect (tuples P n) var == (nq n - 1) / nq n * sigma2 P.
Proof.
  intros HP Hn. pose proof (nq_pos n Hn) as Pn.
  exists (fun t => match np_var 0 (map Some t) with Some m => m | None => 0 end). split.
  - intros t Ht. destruct (tuple_shape P n t Hn Ht) as [L N]. rewrite np_var_map by lia. reflexivity.
  - rewrite (expect_ext _ _ (fun t => (1 / nq n) * total (map (fun x => (x - total t / nq n) * (x - total t / nq n)) t))).
    + rewrite expect_scale, E_deviations by (try apply tuples_nonempty; assumption). field. lra.
    + intros t Ht. destruct (tuple_shape P n t Hn Ht) as [L N]. rewrite np_var_map by lia. rewrite L. change (nq 0) with 0. field. lra.
Qed.

(** ** Cases *)
Definition scores : list Q := [1; 0; 1; 1 # 2].

Example C88_summary_case : exists s, mol_summary (map Some scores) = Ok s /\ s_min s = Some 0 /\ s_max s = Some 1 /\
  match s_mean s with Some m => m == 5 # 8 | None => False end /\
  match s_var s with Some v => v == 11 # 48 | None => False end.
Proof. eexists. split; [reflexivity|]. repeat split; vm_compute; reflexivity. Qed.

Example C88_one_seed_case : exists s, mol_summary [Some 1] = Ok s /\ s_var s = None.
Proof. eexists. split; [reflexivity|]. reflexivity. Qed.

Example C88_nan_case : mol_summary [Some 1; None; Some 0] = Ok (mkSummary None None None None).
Proof. reflexivity. Qed.

Example C88_test_report_case : exists b l,
  mol_test_report [mkCurves [] [] [Some 1; Some 0] None None (Some 0) 0; mkCurves [] [] [Some 0; Some 1] None None (Some 1) 1] = Ok (b, l) /\
  s_min b = Some 1 /\ s_min l = Some 0.
Proof. eexists _, _. split; [reflexivity|]. split; reflexivity. Qed.

(** A coin tossed three times. *)
Example C88_unbiased_case : sigma2 [0; 1] == 1 # 4 /\ length (tuples [0; 1] 3) = 8%nat /\
  expect (tuples [0; 1] 3) (fun t => match np_var 1 (map Some t) with Some v => v | None => 0 end) == 1 # 4 /\
  expect (tuples [0; 1] 3) (fun t => match np_var 0 (map Some t) with Some v => v | None => 0 end) == 1 # 6.
Proof. repeat split; vm_compute; reflexivity. Qed.

Example C88_deviation_low_case : exists std : list Q -> Q,
  forall t, In t (tuples [0; 1] 2) -> exists s v, mol_summary (map Some t) = Ok s /\ s_var s = Some v /\ std t * std t <= v.
Proof.
  exists (fun t => match t with [a; b] => if Qeq_bool a b then 0 else 7 # 10 | _ => 0 end).
  intros t [<-|[<-|[<-|[<-|[]]]]]; eexists _, _; (split; [reflexivity|split; [reflexivity|vm_compute; discriminate]]).
Qed.

(** Seeds 0 to 2: the square of the standard error is 1/12, that of the printed number 1/54. *)
Example C88_sr_summary_case : forall mean e2 : list Q -> Q,
  (forall t, In t (tuples [0; 1] 3) -> exists s, sr_summary 0 2 (map Some t) = Ok s /\
     s_mean s = Some (mean t) /\ s_var s = Some (e2 t)) ->
  expect (tuples [0; 1] 3) e2 == 1 # 54 /\
  expect (tuples [0; 1] 3) (fun t => (mean t - mu [0; 1]) * (mean t - mu [0; 1])) == 1 # 12.
Proof.
  intros mean e2 H. destruct (C88_sr_summary [0; 1] 0 2 ltac:(discriminate) ltac:(lia)) as (m' & e' & R & _ & X & Y & _).
  change (2 + 1 - 0)%nat with 3%nat in *.
  assert (G : forall t, In t (tuples [0; 1] 3) -> mean t = m' t /\ e2 t = e' t).
  { intros t Ht. destruct (H t Ht) as (s & E & A & B). destruct (R t Ht) as (s' & E' & A' & B').
    assert (s' = s) by congruence. subst s'. split; congruence. }
  split.
  - transitivity (expect (tuples [0; 1] 3) e').
    + apply expect_ext. intros t Ht. destruct (G t Ht) as [_ ->]. reflexivity.
    + rewrite Y. vm_compute. reflexivity.
  - transitivity (expect (tuples [0; 1] 3) (fun t => (m' t - mu [0; 1]) * (m' t - mu [0; 1]))).
    + apply expect_ext. intros t Ht. destruct (G t Ht) as [-> _]. reflexivity.
    + rewrite X. vm_compute. reflexivity.
Qed.

Example C88_median_case : np_median (map Some [3; 1; 2]) = Some 2 /\
  match np_median (map Some [3; 1; 2; 10]) with Some m => m == 5 # 2 | None => False end.
Proof. split; vm_compute; reflexivity. Qed.

(** Two folds, three epochs: the accuracy is strictly between the two bounds. *)
Example C88_tu_report_case : exists rep, tu_report (map (map Some) [[1 # 2; 1; 3 # 4]; [1; 1 # 2; 1]]) = Ok rep /\
  t_best rep = 2%nat /\ match t_mean rep with Some m => m == 7 # 8 | None => False end /\
  match t_var rep with Some v => v == 1 # 64 | None => False end.
Proof. eexists. split; [reflexivity|]. repeat split; vm_compute; reflexivity. Qed.

Print Assumptions C88_summary.
Print Assumptions C88_nan.
Print Assumptions C88_test_report.
Print Assumptions C88_unbiased.
Print Assumptions C88_deviation_low.
Print Assumptions C88_sr_summary.
Print Assumptions C88_sr_std_err_refuted.
Print Assumptions C88_median.
Print Assumptions C88_tu_report.
Print Assumptions C88_tu_variance.
