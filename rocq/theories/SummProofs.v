(** Proofs about summaries: moments of sums over all tuples. *)
From Coq Require Import List Arith Lia ZArith QArith Qfield Lqa.
From Verif Require Import Base ExpModel.
From Verif Require Import SummModel SummSpec.
Import ListNotations.
Local Open Scope Q_scope.

Lemma total_app a b : total (a ++ b) == total a + total b.
Proof. unfold total. induction a as [|x a IH]; cbn [app fold_right]; [ring|]. rewrite IH. ring. Qed.

Lemma total_map_ext {A} (f g : A -> Q) l : (forall x, In x l -> f x == g x) -> total (map f l) == total (map g l).
Proof.
  induction l as [|x l IH]; intros H; [reflexivity|]. cbn [map total fold_right].
  fold (total (map f l)) (total (map g l)). rewrite (H x (or_introl eq_refl)), IH by (intros; apply H; now right). reflexivity.
Qed.

Lemma total_map_plus {A} (f g : A -> Q) l : total (map (fun x => f x + g x) l) == total (map f l) + total (map g l).
Proof.
  induction l as [|x l IH]; [reflexivity|]. cbn [map total fold_right].
  fold (total (map f l)) (total (map g l)) (total (map (fun x => f x + g x) l)). rewrite IH. ring.
Qed.

Lemma total_map_scale {A} (c : Q) (f : A -> Q) l : total (map (fun x => c * f x) l) == c * total (map f l).
Proof.
  induction l as [|x l IH]; [change (0 == c * 0); ring|]. cbn [map total fold_right].
  fold (total (map f l)) (total (map (fun x => c * f x) l)). rewrite IH. ring.
Qed.

Lemma count_cons {A} (x : A) l : count (x :: l) == 1 + count l.
Proof. unfold count. cbn [length]. rewrite Nat2Z.inj_succ. unfold Z.succ. rewrite inject_Z_plus. change (inject_Z 1) with 1. ring. Qed.

Lemma total_map_const {A} (c : Q) (l : list A) : total (map (fun _ => c) l) == count l * c.
Proof.
  induction l as [|x l IH]; [change (0 == 0 * c); ring|]. cbn [map total fold_right]. fold (total (map (fun _ : A => c) l)).
  rewrite IH, count_cons. ring.
Qed.

Lemma total_flat_map {A B} (f : B -> Q) (g : A -> list B) l :
  total (map f (flat_map g l)) == total (map (fun x => total (map f (g x))) l).
Proof.
  induction l as [|x l IH]; [reflexivity|]. cbn [flat_map map total fold_right].
  rewrite map_app, total_app, IH. reflexivity.
Qed.

Lemma total_tuples P n f :
  total (map f (tuples P (S n))) == total (map (fun x => total (map (fun t => f (x :: t)) (tuples P n))) P).
Proof.
  cbn [tuples]. rewrite total_flat_map. apply total_map_ext. intros x _. rewrite map_map. reflexivity.
Qed.

Lemma tuples_length P n t : In t (tuples P n) -> length t = n.
Proof.
  revert t. induction n as [|n IH]; intros t H; cbn [tuples] in H.
  - destruct H as [<-|[]]. reflexivity.
  - apply in_flat_map in H as [x [_ H]]. apply in_map_iff in H as [t' [<- H]]. cbn. f_equal. now apply IH.
Qed.

Lemma count_pos {A} (l : list A) : l <> [] -> 0 < count l.
Proof. destruct l; [contradiction|]. intros _. unfold count, Qlt, inject_Z. cbn. lia. Qed.

Lemma tuples_nonempty P n : P <> [] -> tuples P n <> [].
Proof.
  intros HP. induction n as [|n IH]; cbn [tuples]; [discriminate|].
  destruct P as [|x P]; [contradiction|]. cbn [flat_map]. destruct (tuples (x :: P) n); [contradiction|discriminate].
Qed.

Lemma count_total {A} (l : list A) : count l == total (map (fun _ => 1) l).
Proof. rewrite total_map_const. ring. Qed.

Section Moments.
Variable P : list Q.
Notation N := (count P).
Notation s1 := (total P).
Notation s2 := (total (map (fun x => x * x) P)).
Definition C n := count (tuples P n).
Definition A1 n := total (map total (tuples P n)).
Definition B2 n := total (map (fun t => total (map (fun x => x * x) t)) (tuples P n)).
Definition C2 n := total (map (fun t => total t * total t) (tuples P n)).

Lemma C_S n : C (S n) == N * C n.
Proof.
  unfold C. rewrite (count_total (tuples P (S n))), total_tuples.
  rewrite total_map_const, <- (count_total (tuples P n)). reflexivity.
Qed.

Lemma A1_S n : A1 (S n) == s1 * C n + N * A1 n.
Proof.
  unfold A1. rewrite total_tuples.
  rewrite (total_map_ext _ (fun x => C n * x + A1 n)).
  - rewrite total_map_plus, total_map_scale, total_map_const, map_id. fold (A1 n). ring.
  - intros x _. cbn [total fold_right].
    rewrite (total_map_ext _ (fun t => x * 1 + total t)) by (intros t _; unfold total; ring).
    rewrite total_map_plus, total_map_scale, <- count_total. unfold C, A1. ring.
Qed.

Lemma B2_S n : B2 (S n) == s2 * C n + N * B2 n.
Proof.
  unfold B2. rewrite total_tuples.
  rewrite (total_map_ext _ (fun x => C n * (x * x) + B2 n)).
  - rewrite total_map_plus, total_map_scale, total_map_const. fold (B2 n). ring.
  - intros x _.
    rewrite (total_map_ext _ (fun t => (x * x) * 1 + total (map (fun x => x * x) t))) by (intros t _; unfold total; cbn [map fold_right]; ring).
    rewrite total_map_plus, total_map_scale, <- count_total. unfold C, B2. ring.
Qed.

Lemma C2_S n : C2 (S n) == s2 * C n + 2 * s1 * A1 n + N * C2 n.
Proof.
  unfold C2. rewrite total_tuples.
  rewrite (total_map_ext _ (fun x => (C n * (x * x) + (2 * A1 n) * x) + C2 n)).
  - rewrite !total_map_plus, !total_map_scale, total_map_const, map_id. fold (C2 n). ring.
  - intros x _.
    rewrite (total_map_ext _ (fun t => ((x * x) * 1 + (2 * x) * total t) + total t * total t)) by (intros t _; unfold total; cbn [fold_right]; ring).
    rewrite !total_map_plus, !total_map_scale, <- count_total. unfold C, A1, C2. ring.
Qed.

Lemma nq_S n : nq (S n) == 1 + nq n.
Proof. unfold nq. rewrite Nat2Z.inj_succ. unfold Z.succ. rewrite inject_Z_plus. change (inject_Z 1) with 1. ring. Qed.

Lemma A1_eq n : N * A1 n == nq n * s1 * C n.
Proof.
  induction n as [|n IH]; [change (N * (0 + 0) == 0 * s1 * C 0); ring|]. rewrite A1_S, C_S, nq_S.
  setoid_replace (N * (s1 * C n + N * A1 n)) with (N * s1 * C n + N * (N * A1 n)) by ring. rewrite IH. ring.
Qed.

Lemma B2_eq n : N * B2 n == nq n * s2 * C n.
Proof.
  induction n as [|n IH]; [change (N * (0 + 0) == 0 * s2 * C 0); ring|]. rewrite B2_S, C_S, nq_S.
  setoid_replace (N * (s2 * C n + N * B2 n)) with (N * s2 * C n + N * (N * B2 n)) by ring. rewrite IH. ring.
Qed.

Lemma C2_eq n : N * N * C2 n == (nq n * N * s2 + nq n * (nq n - 1) * (s1 * s1)) * C n.
Proof.
  induction n as [|n IH]; [change (N * N * (0 * 0 + 0) == (0 * N * s2 + 0 * (0 - 1) * (s1 * s1)) * C 0); ring|]. rewrite C2_S, C_S, nq_S.
  setoid_replace (N * N * (s2 * C n + 2 * s1 * A1 n + N * C2 n))
    with (N * N * s2 * C n + 2 * s1 * N * (N * A1 n) + N * (N * N * C2 n)) by ring.
  rewrite IH, A1_eq. ring.
Qed.
End Moments.

(** The sum of squared deviations. *)
Lemma deviations t m : total (map (fun x => (x - m) * (x - m)) t) ==
  total (map (fun x => x * x) t) - 2 * m * total t + count t * m * m.
Proof.
  rewrite (total_map_ext _ (fun x => (x * x + (- (2 * m)) * x) + m * m)) by (intros; ring).
  rewrite !total_map_plus, total_map_scale, total_map_const, map_id. ring.
Qed.

Lemma sigma2_eq P : P <> [] ->
  sigma2 P == total (map (fun x => x * x) P) / count P - (total P / count P) * (total P / count P).
Proof.
  intros H. pose proof (count_pos P H). unfold sigma2, mu, expect. rewrite deviations, map_id. field. lra.
Qed.

Lemma expect_ext {A} (l : list A) f g : (forall x, In x l -> f x == g x) -> expect l f == expect l g.
Proof. intros H. unfold expect. now rewrite (total_map_ext f g l H). Qed.

Lemma expect_plus {A} (l : list A) f g : l <> [] -> expect l (fun x => f x + g x) == expect l f + expect l g.
Proof. intros H. pose proof (count_pos l H). unfold expect. rewrite total_map_plus. field. lra. Qed.

Lemma expect_scale {A} (l : list A) c f : l <> [] -> expect l (fun x => c * f x) == c * expect l f.
Proof. intros H. pose proof (count_pos l H). unfold expect. rewrite total_map_scale. field. lra. Qed.

Lemma nq_pos n : (1 <= n)%nat -> 0 < nq n.
Proof. intros H. unfold nq, Qlt, inject_Z. cbn. lia. Qed.

Section Expect.
Variable P : list Q.
Hypothesis HP : P <> [].
Notation T n := (tuples P n).

Lemma E_mean n : expect (T n) total == nq n * mu P.
Proof.
  pose proof (count_pos P HP). pose proof (count_pos (T n) (tuples_nonempty P n HP)).
  pose proof (A1_eq P n) as E. unfold A1, C in E. unfold expect, mu, expect. rewrite map_id.
  set (a := total (map total (T n))) in *. set (c := count (T n)) in *. set (N := count P) in *.
  assert (E' : a == nq n * total P * c / N) by (rewrite <- E; field; lra). rewrite E'. field. lra.
Qed.

Lemma E_squares n : expect (T n) (fun t => total (map (fun x => x * x) t)) == nq n * (sigma2 P + mu P * mu P).
Proof.
  pose proof (count_pos P HP). pose proof (count_pos (T n) (tuples_nonempty P n HP)).
  pose proof (B2_eq P n) as E. unfold B2, C in E. rewrite sigma2_eq by exact HP. unfold mu, expect. rewrite map_id.
  set (a := total (map _ (T n))) in *. set (c := count (T n)) in *. set (N := count P) in *.
  set (s2 := total (map _ P)) in *.
  assert (E' : a == nq n * s2 * c / N) by (rewrite <- E; field; lra). rewrite E'. field. lra.
Qed.

Lemma E_square n : expect (T n) (fun t => total t * total t) == nq n * sigma2 P + (nq n * mu P) * (nq n * mu P).
Proof.
  pose proof (count_pos P HP). pose proof (count_pos (T n) (tuples_nonempty P n HP)).
  pose proof (C2_eq P n) as E. unfold C2, C in E. rewrite sigma2_eq by exact HP. unfold mu, expect. rewrite map_id.
  set (a := total (map _ (T n))) in *. set (c := count (T n)) in *. set (N := count P) in *.
  set (s2 := total (map _ P)) in *.
  assert (E' : a == (nq n * N * s2 + nq n * (nq n - 1) * (total P * total P)) * c / (N * N)) by (rewrite <- E; field; lra).
  rewrite E'. field. lra.
Qed.

(** The expected sum of squared deviations from the mean of the runs. *)
Lemma E_deviations n : (1 <= n)%nat ->
  expect (T n) (fun t => total (map (fun x => (x - total t / nq n) * (x - total t / nq n)) t)) == (nq n - 1) * sigma2 P.
Proof.
  intros Hn. pose proof (nq_pos n Hn) as Pn.
  assert (Hne := tuples_nonempty P n HP).
  rewrite (expect_ext _ _ (fun t => total (map (fun x => x * x) t) + (- (1 / nq n)) * (total t * total t))).
  - rewrite expect_plus, expect_scale, E_squares, E_square by exact Hne. field. lra.
  - intros t Ht. rewrite deviations. apply tuples_length in Ht. unfold count. rewrite Ht. fold (nq n). field. lra.
Qed.
End Expect.

(** ** The functions of the scripts on scores that are numbers *)
Lemma all_some_map qs : all_some (map Some qs) = Some qs.
Proof. induction qs as [|q qs IH]; cbn [map all_some]; [reflexivity|]. now rewrite IH. Qed.

Lemma nan_sum_map qs : exists s, nan_sum (map Some qs) = Some s /\ s == total qs.
Proof.
  induction qs as [|q qs [s [E H]]]; cbn [map nan_sum]; [exists 0; split; reflexivity|].
  rewrite E. eexists. split; [reflexivity|]. cbn [total fold_right]. fold (total qs). now rewrite H.
Qed.

Lemma np_mean_map qs : qs <> [] -> exists m, np_mean (map Some qs) = Some m /\ m == total qs / nq (length qs).
Proof.
  intros H. destruct (nan_sum_map qs) as [s [E Hs]]. destruct qs as [|q qs]; [contradiction|].
  unfold np_mean. cbn [map] in *. rewrite E. eexists. split; [reflexivity|]. cbn [length] in *.
  rewrite map_length. now rewrite Hs.
Qed.

Lemma np_var_map d qs : (d < length qs)%nat ->
  np_var d (map Some qs) = Some (total (map (fun x => (x - total qs / nq (length qs)) * (x - total qs / nq (length qs))) qs)
                                  / (nq (length qs) - nq d)).
Proof.
  intros H. unfold np_var. rewrite all_some_map. destruct (Nat.leb_spec (length qs) d); [lia|]. reflexivity.
Qed.

Lemma pick_min qs : forall q, let m := fold_left (fun a b => if Qle_bool a b then a else b) qs q in
  In m (q :: qs) /\ forall x, In x (q :: qs) -> m <= x.
Proof.
  induction qs as [|y qs IH]; intros q; cbn [fold_left] in *.
  - split; [now left|]. intros x [<-|[]]. apply Qle_refl.
  - destruct (Qle_bool q y) eqn:E.
    + apply Qle_bool_iff in E. destruct (IH q) as [I M]. split.
      * destruct I as [I|I]; [left; exact I|right; right; exact I].
      * intros x [<-|[<-|Hx]]; [apply M; now left| |apply M; now right].
        apply Qle_trans with q; [apply M; now left|exact E].
    + assert (E' : y <= q) by (apply Qnot_lt_le; intros L; apply Qlt_le_weak in L; apply Qle_bool_iff in L; congruence).
      destruct (IH y) as [I M]. split; [right; exact I|].
      intros x [<-|[<-|Hx]]; [|apply M; now left|apply M; now right].
      apply Qle_trans with y; [apply M; now left|exact E'].
Qed.

Lemma pick_max qs : forall q, let m := fold_left (fun a b => if Qle_bool a b then b else a) qs q in
  In m (q :: qs) /\ forall x, In x (q :: qs) -> x <= m.
Proof.
  induction qs as [|y qs IH]; intros q; cbn [fold_left] in *.
  - split; [now left|]. intros x [<-|[]]. apply Qle_refl.
  - destruct (Qle_bool q y) eqn:E.
    + apply Qle_bool_iff in E. destruct (IH y) as [I M]. split; [right; exact I|].
      intros x [<-|[<-|Hx]]; [|apply M; now left|apply M; now right].
      apply Qle_trans with y; [exact E|apply M; now left].
    + assert (E' : y <= q) by (apply Qnot_lt_le; intros L; apply Qlt_le_weak in L; apply Qle_bool_iff in L; congruence).
      destruct (IH q) as [I M]. split.
      * destruct I as [I|I]; [left; exact I|right; right; exact I].
      * intros x [<-|[<-|Hx]]; [apply M; now left| |apply M; now right].
        apply Qle_trans with q; [exact E'|apply M; now left].
Qed.

Lemma np_min_map qs : qs <> [] -> exists m, np_min (map Some qs) = Ok (Some m) /\ In m qs /\ forall x, In x qs -> m <= x.
Proof.
  destruct qs as [|q qs]; [contradiction|]. intros _. unfold np_min, np_extreme.
  cbn [map]. change (Some q :: map Some qs) with (map Some (q :: qs)). rewrite all_some_map.
  eexists. split; [reflexivity|]. apply pick_min.
Qed.

Lemma np_max_map qs : qs <> [] -> exists m, np_max (map Some qs) = Ok (Some m) /\ In m qs /\ forall x, In x qs -> x <= m.
Proof.
  destruct qs as [|q qs]; [contradiction|]. intros _. unfold np_max, np_extreme.
  cbn [map]. change (Some q :: map Some qs) with (map Some (q :: qs)). rewrite all_some_map.
  eexists. split; [reflexivity|]. apply pick_max.
Qed.

Lemma mean_between a b qs : qs <> [] -> (forall x, In x qs -> a <= x <= b) -> a <= total qs / nq (length qs) <= b.
Proof.
  intros Hne H. assert (Pn : 0 < nq (length qs)) by (apply nq_pos; destruct qs; [contradiction|cbn; lia]).
  assert (G : a * nq (length qs) <= total qs <= b * nq (length qs)).
  { clear Hne Pn. induction qs as [|x qs IH]; [change (a * 0 <= 0 <= b * 0); lra|].
    cbn [length total fold_right]. fold (total qs). rewrite nq_S.
    assert (IH' := IH (fun y Hy => H y (or_intror Hy))). assert (Hx := H x (or_introl eq_refl)). lra. }
  split; [apply Qle_shift_div_l|apply Qle_shift_div_r]; tauto.
Qed.

(** ** The median *)
Lemma insertq_in q l x : In x (insertq q l) <-> x = q \/ In x l.
Proof.
  induction l as [|y l IH]; cbn [insertq]; [cbn; intuition|]. destruct (Qle_bool q y); cbn [In]; [intuition|].
  rewrite IH. cbn. intuition.
Qed.
Lemma sortq_in l x : In x (sortq l) <-> In x l.
Proof. unfold sortq. induction l as [|y l IH]; cbn [fold_right]; [reflexivity|]. rewrite insertq_in, IH. cbn. intuition. Qed.
Lemma insertq_length q l : length (insertq q l) = S (length l).
Proof. induction l as [|y l IH]; cbn [insertq]; [reflexivity|]. destruct (Qle_bool q y); cbn [length]; [reflexivity|]. now rewrite IH. Qed.
Lemma sortq_length l : length (sortq l) = length l.
Proof. unfold sortq. induction l as [|y l IH]; cbn [fold_right length]; [reflexivity|]. now rewrite insertq_length, IH. Qed.

Lemma np_median_map a b qs : qs <> [] -> (forall x, In x qs -> a <= x <= b) ->
  exists m, np_median (map Some qs) = Some m /\ a <= m <= b.
Proof.
  intros Hne H. unfold np_median. rewrite all_some_map. destruct qs as [|q qs]; [contradiction|].
  set (s := sortq (q :: qs)). assert (L : length s = S (length qs)) by apply (sortq_length (q :: qs)).
  assert (N : forall i, (i < length s)%nat -> a <= nth i s 0 <= b).
  { intros i Hi. apply H. apply sortq_in. now apply nth_In. }
  cbn zeta. rewrite L. set (n := S (length qs)) in *.
  assert (D : (n / 2 < n)%nat) by (apply Nat.div_lt; unfold n; lia).
  destruct (Nat.even n) eqn:E.
  - eexists. split; [reflexivity|].
    assert (A := N (n / 2)%nat ltac:(lia)). assert (B := N (n / 2 - 1)%nat ltac:(lia)).
    split; [apply Qle_shift_div_l|apply Qle_shift_div_r]; try reflexivity; lra.
  - eexists. split; [reflexivity|]. apply N. lia.
Qed.
