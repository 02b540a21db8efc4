(** The experiment scripts: C44 (model selection), C45 (isomorphism metric), C46 (tuning grid),
    C51 (ring counting). *)
From Coq Require Import String List Arith Lia ZArith QArith Qabs Bool Permutation Lqa.
From Verif Require Import Base LiftModel LiftSpec LiftBase LiftProofs LiftClique LiftRing LiftRingExamples ExpModel ExpSpec ExpProofs.
Import ListNotations.
Open Scope nat_scope.

(** ** C44 *)

Definition no_nan (val : nat -> option Q) (epochs : nat) : Prop := forall e, 1 <= e <= epochs -> val e <> None.

Lemma first_best_of m val n j q : nth_error (map val (seq 1 n)) j = Some (Some q) ->
  (forall w, In (Some w) (map val (seq 1 n)) -> as_good m q w) ->
  (forall e w, e < j -> nth_error (map val (seq 1 n)) e = Some (Some w) -> better m q w) ->
  first_best m val n (S j).
Proof.
  intros Hq H1 H2.
  assert (Hj : j < n).
  { assert (j < List.length (map val (seq 1 n))) as Hlt by (apply nth_error_Some; rewrite Hq; discriminate).
    rewrite map_length, seq_length in Hlt. exact Hlt. }
  rewrite nth_map_seq in Hq by auto. split; [lia|]. exists q. split; [congruence|]. split.
  - intros e w He Hw. apply H1. rewrite <- Hw. apply in_map. apply in_seq. lia.
  - intros e w He Hw. apply (H2 (e - 1)); [lia|]. rewrite nth_map_seq by lia. replace (S (e - 1)) with e by lia. congruence.
Qed.

(** The full claim of C44 is [reports_best].  It holds for the validation and the test score.  The
    train score is the one of the last epoch at which it was recomputed (--train_eval_period,
    default 10), see [C44_stale_train_refuted]; missing here is only that this epoch is [b]. *)
Theorem C44_best_epoch_partial a h : r_untrained a = false -> 1 <= r_period a -> 1 <= r_epochs a ->
  no_nan (h_val h) (r_epochs a) ->
  exists c n b t,
    main a h = Ok c /\
    last_epoch (r_epochs a) (fun e => r_plateau a && r_early_stop a && h_low_lr h e) n /\
    first_best (r_minimize a) (h_val h) n b /\
    last_refresh (r_period a) b t /\
    report c = Ok (h_train h t, h_val h b, match h_test h with Some f => f b | None => None end) /\
    c_best c + 1 = b.
Proof.
  intros Hu Hp He Hv. destruct (main_ok a h Hu Hp He) as (n & j & HL & Hj & Hb & Hm).
  destruct (np_best_spec (r_minimize a) (map (h_val h) (seq 1 n))) as (j' & q & Hj' & Hq & H1 & H2).
  { destruct n; [lia|discriminate]. }
  { intros x Hx. apply in_map_iff in Hx as (e & <- & Hin). apply in_seq in Hin. apply Hv.
    destruct HL as [? _]. lia. }
  assert (j' = j) by congruence. subst j'.
  eexists. exists n, (S j), (refresh (r_period a) (S j)). split; [exact Hm|]. split; [exact HL|].
  split; [eapply first_best_of; eauto|]. split; [apply refresh_ok; lia|]. split; [|cbn; lia].
  unfold report. cbn [c_train c_val c_test c_best]. unfold get.
  rewrite !nth_map_seq by auto. reflexivity.
Qed.

(** With --train_eval_period 1 the claim holds in full. *)
Theorem C44_reports_best a h : r_untrained a = false -> r_period a = 1 -> 1 <= r_epochs a ->
  no_nan (h_val h) (r_epochs a) ->
  exists c r, main a h = Ok c /\ report c = Ok r /\
    reports_best (r_minimize a) (r_epochs a) (fun e => r_plateau a && r_early_stop a && h_low_lr h e)
      (h_train h) (h_val h) (fun e => match h_test h with Some f => f e | None => None end) r.
Proof.
  intros Hu Hp He Hv. destruct (C44_best_epoch_partial a h Hu ltac:(lia) He Hv) as (c & n & b & t & H1 & H2 & H3 & H4 & H5 & H6).
  exists c. eexists. split; [exact H1|]. split; [exact H5|]. exists n, b. split; [exact H2|]. split; [exact H3|].
  assert (E : t = b); [|subst; reflexivity]. rewrite Hp in H4. destruct H4 as (T1 & _ & T3).
  destruct (Nat.eq_dec t b) as [|Hne]; auto. exfalso. apply (T3 b); [lia|]. apply Nat.divide_1_l.
Qed.

(** The first-best epoch and the last epoch are unique, so "the" best epoch is well defined. *)
Theorem C44_best_epoch_unique m epochs stop val n n' b b' :
  last_epoch epochs stop n -> last_epoch epochs stop n' ->
  first_best m val n b -> first_best m val n' b' -> n = n' /\ b = b'.
Proof.
  intros (A1 & A2 & A3) (B1 & B2 & B3) (C1 & v & C2 & C3 & C4) (D1 & v' & D2 & D3 & D4).
  assert (E : n = n').
  { destruct (Nat.lt_trichotomy n n') as [H|[H|H]]; auto.
    - destruct A3 as [A3|A3]; [lia|]. rewrite B2 in A3 by lia. discriminate.
    - destruct B3 as [B3|B3]; [lia|]. rewrite A2 in B3 by lia. discriminate. }
  subst n'. split; auto. destruct (Nat.lt_trichotomy b b') as [H|[H|H]]; auto; exfalso.
  - specialize (D4 b v ltac:(lia) C2). specialize (C3 b' v' ltac:(lia) D2). destruct m; simpl in *; lra.
  - specialize (C4 b' v' ltac:(lia) D2). specialize (D3 b v ltac:(lia) C2). destruct m; simpl in *; lra.
Qed.

(** The saved curves have one entry per executed epoch; 'last_*' are the scores after the last. *)
Theorem C44_curves a h : r_untrained a = false -> 1 <= r_period a -> 1 <= r_epochs a ->
  exists c n, main a h = Ok c /\
    last_epoch (r_epochs a) (fun e => r_plateau a && r_early_stop a && h_low_lr h e) n /\
    List.length (c_train c) = n /\ List.length (c_val c) = n /\ List.length (c_test c) = n /\ c_best c < n /\
    (forall e, 1 <= e <= n -> nth_error (c_val c) (e - 1) = Some (h_val h e) /\
       nth_error (c_test c) (e - 1) = Some (match h_test h with Some f => f e | None => None end)) /\
    (r_sr a = false -> c_last_train c = h_train h n /\ c_last_val c = h_val h n) /\
    c_last_test c = match h_test h with Some f => f n | None => None end.
Proof.
  intros Hu Hp He. destruct (main_ok a h Hu Hp He) as (n & j & HL & Hj & Hb & Hm). eexists. exists n.
  split; [exact Hm|]. split; [exact HL|]. cbn [c_train c_val c_test c_best c_last_train c_last_val c_last_test].
  rewrite !map_length, seq_length. do 3 (split; auto). split; auto. split.
  - intros e He'. rewrite !nth_map_seq by lia. replace (S (e - 1)) with e by lia. auto.
  - split; [intros ->; auto|reflexivity].
Qed.

(** An untrained run reports NaN as its best epoch, and the scores of the initial parameters as
    its last ones. *)
Theorem C44_untrained a h : r_untrained a = true -> exists c, main a h = Ok c /\
  report c = Ok (None, None, None) /\
  c_last_test c = match h_test h with Some f => f 0 | None => None end.
Proof. intros Hu. unfold main. rewrite Hu. eexists. split; [reflexivity|]. split; reflexivity. Qed.

Theorem C44_no_epochs_raises a h : r_untrained a = false -> r_epochs a = 0 -> main a h = Err ValueError.
Proof. intros Hu He. unfold main. rewrite Hu, He. cbn. destruct (r_minimize a); reflexivity. Qed.

(** Three epochs asked for out of four; the best validation accuracy is reached in epochs 2 and 3. *)
Definition ex_args (period : nat) := mkRun 4 period false false true true false.
Definition ex_hist : history := mkHistory
  (fun e => Some (Z.of_nat (10 + e) # 100)) (fun e => Some (nth e [0; 5#10; 8#10; 8#10; 9#10] 0)%Q)
  (Some (fun e => Some (Z.of_nat (20 + e) # 100))) (fun e => e =? 3).

Example C44_example : exists c, main (ex_args 1) ex_hist = Ok c /\
  report c = Ok (Some (12 # 100), Some (8 # 10), Some (22 # 100)) /\ c_best c = 1 /\ List.length (c_val c) = 3 /\
  no_nan (h_val ex_hist) 4.
Proof. eexists. split; [reflexivity|]. repeat split; try reflexivity. intros e _. discriminate. Qed.

(** Finding: with the default --train_eval_period 10 the reported train score is the one of epoch
    1, although the best epoch is 2. *)
Theorem C44_stale_train_refuted : exists a h c r,
  r_untrained a = false /\ r_period a = 10 /\ 1 <= r_epochs a /\ no_nan (h_val h) (r_epochs a) /\
  main a h = Ok c /\ report c = Ok r /\
  ~ reports_best (r_minimize a) (r_epochs a) (fun e => r_plateau a && r_early_stop a && h_low_lr h e)
      (h_train h) (h_val h) (fun e => match h_test h with Some f => f e | None => None end) r.
Proof.
  exists (ex_args 10), ex_hist. do 2 eexists. do 2 (split; [reflexivity|]). split; [cbn; lia|].
  split; [intros e _; discriminate|]. split; [reflexivity|]. split; [reflexivity|].
  intros (n & b & HL & HB & E). cbn [h_train h_val h_test ex_hist] in E. inversion E as [[E1 E2 E3]].
  destruct HB as [HB _]. lia.
Qed.

(** Finding: NaN as a validation score wins the selection, for accuracy as for a loss. *)
Theorem C44_nan_refuted m : exists h c r, 
  main (mkRun 2 1 m false false false false) h = Ok c /\ report c = Ok r /\
  (exists e, 1 <= e <= 2 /\ h_val h e <> None) /\ snd (fst r) = None /\
  ~ reports_best m 2 (fun _ => false) (h_train h) (h_val h)
      (fun e => match h_test h with Some f => f e | None => None end) r.
Proof.
  exists (mkHistory (fun e => Some (Z.of_nat e # 1)) (fun e => if e =? 1 then Some (9 # 10) else None) None (fun _ => false)).
  destruct m; do 2 eexists; (split; [reflexivity|]); (split; [reflexivity|]); (split; [exists 1; split; [lia|discriminate]|]);
    (split; [reflexivity|]); intros (n & b & HL & (HB & v & Hv & _) & E); cbn [h_val] in *; inversion E as [[E1 E2]];
    rewrite Hv in E2; discriminate.
Qed.

(** ** Aggregation over seeds and folds *)
Lemma nan_sum_some qs : exists m, nan_sum (map Some qs) = Some m /\ (m == fold_right Qplus 0 qs)%Q.
Proof.
  induction qs as [|q qs (m & E & H)]; [exists 0%Q; split; [reflexivity|cbn; lra]|]. cbn [map nan_sum]. rewrite E.
  eexists. split; [reflexivity|]. cbn [fold_right]. lra.
Qed.

(** The mean is the sum divided by the number of values. *)
Theorem C44_mean qs : qs <> [] -> exists m, np_mean (map Some qs) = Some m /\
  (m * inject_Z (Z.of_nat (List.length qs)) == fold_right Qplus 0 qs)%Q.
Proof.
  intros H. destruct (nan_sum_some qs) as (m & E & Hm). unfold np_mean. rewrite E, map_length.
  destruct qs as [|q qs]; [congruence|]. eexists. split; [reflexivity|]. rewrite <- Hm. rewrite Qmult_comm. apply Qmult_div_r.
  intros Hc. unfold Qeq in Hc. cbn in Hc. lia.
Qed.

(** One NaN makes the mean NaN: a run without a value is never left out silently. *)
Theorem C44_mean_nan l : In None l -> np_mean l = None.
Proof.
  intros H. unfold np_mean. destruct l as [|a l]; auto.
  assert (E : nan_sum (a :: l) = None).
  { generalize dependent (a :: l). clear a l. induction l as [|b l IH]; intros H; [destruct H|]. cbn [nan_sum].
    destruct H as [->|H]; auto. rewrite (IH H). destruct b; auto. }
  rewrite E. auto.
Qed.
Example C44_mean_nan_example : np_mean [Some (1#2); None; Some (1#3)]%Q = None.
Proof. apply C44_mean_nan. right; left; auto. Qed.

(** The runs: every seed of the interval (and every fold), once. *)
Theorem C44_runs start stop folds csl rs : mol_runs start stop folds csl = Ok rs ->
  NoDup rs /\ forall s f, In (s, f) rs <->
    start <= s <= stop /\ match folds, f with None, None => True | Some n, Some i => i < n | _, _ => False end.
Proof.
  unfold mol_runs. intros H. apply bind_ok in H as ([] & H1 & H). apply (f_equal (fun r => match r with Ok _ => true | _ => false end)) in H1 as H1'.
  unfold assert_ in H1. destruct (Nat.leb_spec start stop) as [Hs|]; [|discriminate]. clear H1 H1'.
  destruct folds as [n|].
  - apply bind_ok in H as ([] & _ & H). inversion H; subst. split.
    + apply FinFun.Injective_map_NoDup.
      * intros [a b] [c d] E. cbn in E. inversion E; auto.
      * generalize (seq_NoDup (stop + 1 - start) start). generalize (seq start (stop + 1 - start)) as l.
        induction l as [|a l IH]; intros HN; cbn [list_prod]; [constructor|]. inversion HN; subst.
        apply NoDup_app; auto.
        -- apply FinFun.Injective_map_NoDup; [intros x y E; inversion E; auto|apply seq_NoDup].
        -- intros [x y] Hx Hy. apply in_map_iff in Hx as (z & E & _). inversion E; subst.
           apply in_prod_iff in Hy as [Hy _]. contradiction.
    + intros s f. rewrite in_map_iff. split.
      * intros ([a b] & E & Hin). apply in_prod_iff in Hin as [Ha Hb]. apply in_seq in Ha, Hb. cbn in E. inversion E; subst.
        split; lia.
      * intros [Hs' Hf]. destruct f as [i|]; [|destruct Hf]. exists (s, i). split; auto. apply in_prod; apply in_seq; lia.
  - inversion H; subst. split.
    + apply FinFun.Injective_map_NoDup; [intros x y E; inversion E; auto|apply seq_NoDup].
    + intros s f. rewrite in_map_iff. split.
      * intros (a & E & Ha). apply in_seq in Ha. inversion E; subst. split; [lia|auto].
      * intros [Hs' Hf]. destruct f as [i|]; [destruct Hf|]. exists s. split; auto. apply in_seq. lia.
Qed.

(** The result over several runs averages, run by run, the scores of that run's own first best
    validation epoch. *)
Theorem C44_seeds a (h : nat * option nat -> history) start stop folds csl rs :
  r_untrained a = false -> r_period a = 1 -> 1 <= r_epochs a -> mol_runs start stop folds csl = Ok rs ->
  (forall r, In r rs -> no_nan (h_val (h r)) (r_epochs a)) ->
  exists bs, Forall2 (fun r b => exists n,
      last_epoch (r_epochs a) (fun e => r_plateau a && r_early_stop a && h_low_lr (h r) e) n /\
      first_best (r_minimize a) (h_val (h r)) n b) rs bs /\
    mol_exp start stop folds csl (fun r => main a (h r)) =
    Ok (np_mean (map (fun rb => h_train (h (fst rb)) (snd rb)) (combine rs bs)),
        np_mean (map (fun rb => h_val (h (fst rb)) (snd rb)) (combine rs bs)),
        np_mean (map (fun rb => match h_test (h (fst rb)) with Some f => f (snd rb) | None => None end) (combine rs bs))).
Proof.
  intros Hu Hp He Hrs Hv. unfold mol_exp. rewrite Hrs. cbn [bind]. clear Hrs.
  assert (G : exists cs bs, mapM (fun r => main a (h r)) rs = Ok cs /\
    Forall2 (fun r b => exists n,
      last_epoch (r_epochs a) (fun e => r_plateau a && r_early_stop a && h_low_lr (h r) e) n /\
      first_best (r_minimize a) (h_val (h r)) n b) rs bs /\
    mol_best cs = Ok (map (fun rb => (h_train (h (fst rb)) (snd rb), h_val (h (fst rb)) (snd rb),
       match h_test (h (fst rb)) with Some f => f (snd rb) | None => None end)) (combine rs bs))).
  { induction rs as [|r rs IH].
    - exists [], []. split; auto.
    - destruct IH as (cs & bs & I1 & I2 & I3); [intros; apply Hv; right; auto|].
      destruct (C44_reports_best a (h r) Hu Hp He (Hv r (or_introl eq_refl))) as (c & res & M1 & M2 & n & b & M3 & M4 & M5).
      exists (c :: cs), (b :: bs). cbn [mapM]. rewrite M1. cbn [bind]. rewrite I1. split; auto. split; [constructor; eauto|].
      unfold mol_best in *. cbn [mapM combine map fst snd]. fold (report c). rewrite M2. cbn [bind]. rewrite I3. cbn [bind].
      rewrite M5. reflexivity. }
  destruct G as (cs & bs & G1 & G2 & G3). exists bs. split; auto. rewrite G1. cbn [bind]. rewrite G3. cbn [bind].
  rewrite !map_map. reflexivity.
Qed.

Example C44_seeds_example : mol_runs 2 4 None false = Ok [(2, None); (3, None); (4, None)] /\
  mol_exp 2 4 None false (fun r => main (ex_args 1) ex_hist) =
    Ok (np_mean [Some (12#100); Some (12#100); Some (12#100)], np_mean [Some (8#10); Some (8#10); Some (8#10)],
        np_mean [Some (22#100); Some (22#100); Some (22#100)])%Q.
Proof. split; reflexivity. Qed.

(** Cross-validation (TU): without early stopping, the reported epoch is the first one at which
    the validation score summed over the folds is maximal, and the reported score is its mean. *)
Definition sum_over (folds : nat) (f : nat -> Q) : Q := fold_right Qplus 0%Q (map f (seq 0 folds)).

Theorem C44_cross_validation a (h : nat -> history) folds (v : nat -> nat -> Q) :
  r_untrained a = false -> 1 <= r_period a -> 1 <= r_epochs a -> r_plateau a && r_early_stop a = false -> 1 <= folds ->
  (forall i e, i < folds -> 1 <= e <= r_epochs a -> h_val (h i) e = Some (v i e)) ->
  exists b m, tu_exp folds (fun i => main a (h i)) = Ok (b, Some m) /\ b < r_epochs a /\
    (m * inject_Z (Z.of_nat folds) == sum_over folds (fun i => v i (S b)))%Q /\
    (forall e, 1 <= e <= r_epochs a -> (sum_over folds (fun i => v i e) <= sum_over folds (fun i => v i (S b)))%Q) /\
    (forall e, 1 <= e < S b -> (sum_over folds (fun i => v i e) < sum_over folds (fun i => v i (S b)))%Q).
Proof.
  intros Hu Hp He Hs Hf Hv. unfold tu_exp.
  assert (G : exists cs, mapM (fun i => main a (h i)) (seq 0 folds) = Ok cs /\
    map c_val cs = map (fun i => map (fun e => Some (v i e)) (seq 1 (r_epochs a))) (seq 0 folds)).
  { assert (G : forall is, (forall i, In i is -> i < folds) -> exists cs, mapM (fun i => main a (h i)) is = Ok cs /\
      map c_val cs = map (fun i => map (fun e => Some (v i e)) (seq 1 (r_epochs a))) is).
    { induction is as [|i is IH]; intros Hi; [exists []; auto|].
      destruct IH as (cs & I1 & I2); [intros; apply Hi; right; auto|].
      destruct (main_ok a (h i) Hu Hp He) as (n & j & (L1 & L2 & L3) & Hj & Hb & Hm).
      assert (n = r_epochs a) by (destruct L3 as [|L3]; auto; unfold stops in L3; rewrite Hs in L3; discriminate). subst n.
      eexists (_ :: cs). cbn [mapM]. rewrite Hm. cbn [bind]. rewrite I1. split; [reflexivity|]. cbn [map c_val]. f_equal; auto.
      apply map_ext_in. intros e Hin. apply in_seq in Hin. apply Hv; [apply Hi; left; auto|lia]. }
    apply G. intros i Hi. apply in_seq in Hi. lia. }
  destruct G as (cs & G1 & G2). rewrite G1. cbn [bind]. rewrite G2. clear cs G1 G2.
  set (rows := map _ (seq 0 folds)). set (E := r_epochs a) in *.
  assert (Hmean : forall e, e < E -> exists m, np_mean (column rows e) = Some m /\
     (m * inject_Z (Z.of_nat folds) == sum_over folds (fun i => v i (S e)))%Q).
  { intros e Hlt. unfold column, rows. rewrite map_map.
    assert (Ec : map (fun x => nth e (map (fun e0 => Some (v x e0)) (seq 1 E)) None) (seq 0 folds) =
                 map Some (map (fun i => v i (S e)) (seq 0 folds))).
    { rewrite map_map. apply map_ext. intros i. apply nth_error_nth. apply nth_map_seq; auto. }
    rewrite Ec. destruct (C44_mean (map (fun i => v i (S e)) (seq 0 folds))) as (m & M1 & M2).
    { destruct folds; [lia|discriminate]. }
    exists m. split; auto. rewrite map_length, seq_length in M2. exact M2. }
  assert (Havg : avg_curve rows = Ok (map (fun e => np_mean (column rows e)) (seq 0 E))).
  { unfold rows at 1. destruct folds as [|F]; [lia|]. cbn [seq map avg_curve].
    rewrite map_length, seq_length.
    replace (forallb _ _) with true; [reflexivity|]. symmetry. apply forallb_forall. intros r Hr.
    apply in_map_iff in Hr as (i & <- & _). rewrite map_length, seq_length. apply Nat.eqb_refl. }
  rewrite Havg. cbn [bind]. set (avg := map _ (seq 0 E)).
  assert (Hnth : forall e, e < E -> nth_error avg e = Some (np_mean (column rows e))).
  { intros e Hlt. unfold avg. rewrite nth_error_map, nth_error_nth' with (d := 0) by (rewrite seq_length; auto).
    rewrite seq_nth by auto. reflexivity. }
  destruct (np_best_spec false avg) as (b & q & B1 & B2 & B3 & B4).
  { unfold avg. destruct E; [lia|discriminate]. }
  { intros x Hx. apply in_map_iff in Hx as (e & <- & Hin). apply in_seq in Hin.
    destruct (Hmean e ltac:(lia)) as (m & -> & _). discriminate. }
  change np_argmax with (np_best false). rewrite B1. cbn [bind]. unfold get.
  assert (Hb : b < E).
  { assert (b < List.length avg) as Hlt by (apply nth_error_Some; rewrite B2; discriminate).
    unfold avg in Hlt. rewrite map_length, seq_length in Hlt. exact Hlt. }
  exists b, q. rewrite B2. split; [reflexivity|]. split; auto.
  assert (Hpos : (0 < inject_Z (Z.of_nat folds))%Q) by (unfold Qlt; cbn; lia).
  destruct (Hmean b Hb) as (m & M1 & M2). rewrite Hnth in B2 by auto. rewrite M1 in B2. inversion B2; subst m. split; auto.
  split.
  - intros e He'. destruct (Hmean (e - 1) ltac:(lia)) as (w & W1 & W2). replace (S (e - 1)) with e in W2 by lia.
    rewrite <- W2, <- M2. apply Qmult_le_compat_r; [|lra]. apply (B3 w). rewrite <- W1. apply (nth_error_In avg (e - 1)). apply Hnth. lia.
  - intros e He'. destruct (Hmean (e - 1) ltac:(lia)) as (w & W1 & W2). replace (S (e - 1)) with e in W2 by lia.
    rewrite <- W2, <- M2. apply Qmult_lt_compat_r; auto. apply (B4 (e - 1) w); [lia|]. rewrite Hnth by lia. congruence.
Qed.

Definition ex_fold (i : nat) : history := mkHistory (fun _ => None)
  (fun e => Some (nth e (nth i [[0; 1; 5; 2]; [0; 4; 1; 4]; [0; 0; 1; 2]] []) 0)%Q) None (fun e => (i =? 1) && (e =? 2)).
Example C44_cross_validation_example :
  (exists m, tu_exp 3 (fun i => main (mkRun 3 10 false false false true false) (ex_fold i)) = Ok (2, Some m) /\ (m == 8 # 3)%Q).
Proof. eexists. split; [reflexivity|]. reflexivity. Qed.

(** Finding: when early stopping ends the folds after different numbers of epochs, the summary
    raises. *)
Theorem C44_ragged_folds_refuted : exists a h,
  (forall i, i < 3 -> exists c, main a (h i) = Ok c) /\ tu_exp 3 (fun i => main a (h i)) = Err TypeError.
Proof.
  exists (mkRun 3 10 false false true true false), ex_fold. split; [|reflexivity].
  intros [|[|[|i]]] Hi; try lia; eexists; reflexivity.
Qed.

(** ** C45 *)
Theorem C45_isomorphism {A} (dist : A -> A -> score) eps preds : 2 <= List.length preds ->
  exists r, isomorphism_metric dist eps true preds = Ok r /\
    (r == inject_Z (Z.of_nat (close_pairs (fun a b => match dist a b with Some d => if Qlt_le_dec d eps then true else false
                                                                 | None => false end) preds))
          / inject_Z (Z.of_nat (List.length preds * (List.length preds - 1) / 2)))%Q /\
    (0 <= r <= 1)%Q.
Proof.
  intros Hl. unfold isomorphism_metric. cbn [assert_ bind]. rewrite map_length, row_pairs_length.
  set (n := List.length preds * (List.length preds - 1) / 2).
  assert (Hn : 1 <= n).
  { unfold n. apply Nat.div_le_lower_bound; [lia|]. nia. }
  destruct n as [|n'] eqn:En; [lia|]. eexists. split; [reflexivity|].
  rewrite close_pairs_count. unfold close_count. rewrite filter_map_comm, map_length.
  set (c := List.length (filter _ (row_pairs preds))). set (c' := List.length (filter _ (row_pairs preds))).
  assert (Ec : c = c').
  { unfold c, c'. f_equal. apply filter_ext. intros [a b]. unfold below. cbn [fst snd].
    destruct (dist a b) as [d|]; auto. destruct (Qlt_le_dec d eps) as [H|H].
    - rewrite negb_true_iff, <- not_true_iff_false, Qle_bool_iff. lra.
    - rewrite negb_false_iff, Qle_bool_iff. auto. }
  assert (Hc : c <= S n').
  { unfold c. etransitivity; [apply filter_length_le|]. rewrite row_pairs_length. fold n. lia. }
  rewrite <- Ec. split.
  - unfold Qeq, Qdiv, Qmult, Qinv, inject_Z. cbn [Qnum Qden]. rewrite Zpos_P_of_succ_nat.
    replace (Z.succ (Z.of_nat n')) with (Z.of_nat (S n')) by lia. destruct (Z.of_nat (S n')) eqn:EZ; [lia| |lia].
    cbn [Qnum Qden]. rewrite <- EZ. lia.
  - unfold Qle. cbn [Qnum Qden]. rewrite Zpos_P_of_succ_nat. lia.
Qed.

(** The metric does not depend on the order of the samples. *)
Theorem C45_order_independent {A} (dist : A -> A -> score) eps f64 preds preds' :
  (forall a b, dist a b = dist b a) -> Permutation preds preds' ->
  isomorphism_metric dist eps f64 preds = isomorphism_metric dist eps f64 preds'.
Proof.
  intros Hs HP. unfold isomorphism_metric. destruct f64; [|reflexivity]. cbn [assert_ bind].
  rewrite !map_length, !row_pairs_length, (Permutation_length HP), !filter_map_comm, !map_length.
  pose proof (close_count_perm (fun a b => below eps (dist a b)) preds preds' (fun a b => f_equal (below eps) (Hs a b)) HP) as E.
  unfold close_count in E. rewrite E. reflexivity.
Qed.

(** It is zero exactly when every two samples are told apart. *)
Theorem C45_zero {A} (dist : A -> A -> score) eps preds r : isomorphism_metric dist eps true preds = Ok r ->
  (r == 0)%Q <-> (forall i j a b, i < j -> nth_error preds i = Some a -> nth_error preds j = Some b ->
                    match dist a b with Some d => (eps <= d)%Q | None => True end).
Proof.
  unfold isomorphism_metric. cbn [assert_ bind]. rewrite map_length. destruct (List.length (row_pairs preds)) as [|n]; [discriminate|].
  intros H. inversion H as [Hr]. clear H Hr. rewrite filter_map_comm, map_length.
  transitivity (close_count (fun a b => below eps (dist a b)) preds = 0).
  { unfold close_count, Qeq. cbn [Qnum Qden]. lia. }
  clear n r. induction preds as [|x l IH].
  - split; [|reflexivity]. intros _ i j a b _ Hi. destruct i; discriminate.
  - rewrite close_count_cons. split.
    + intros H [|i] [|j] a b Hij Hi Hj; try lia.
      * cbn in Hi. inversion Hi; subst. cbn [nth_error] in Hj. apply nth_error_In in Hj.
        assert (F : filter (fun b => below eps (dist a b)) l = []) by (apply length_zero_iff_nil; lia).
        assert (Fb : below eps (dist a b) = false).
        { destruct (below eps (dist a b)) eqn:Eb; auto. assert (In b (filter (fun b => below eps (dist a b)) l)) as C by (apply filter_In; auto).
          rewrite F in C. destruct C. }
        unfold below in Fb. destruct (dist a b); auto. rewrite negb_false_iff in Fb. apply Qle_bool_iff; auto.
      * cbn [nth_error] in Hi, Hj. destruct IH as [IH _]. apply (IH ltac:(lia) i j); auto. lia.
    + intros H. destruct IH as [_ IH]. rewrite IH.
      * rewrite Nat.add_0_r. apply length_zero_iff_nil.
        destruct (filter (fun b => below eps (dist x b)) l) as [|b f] eqn:F; auto. exfalso.
        assert (Hb : In b (filter (fun b => below eps (dist x b)) l)) by (rewrite F; left; auto).
        apply filter_In in Hb as [Hb1 Hb2]. apply In_nth_error in Hb1 as (j & Hj).
        specialize (H 0 (S j) x b ltac:(lia) eq_refl Hj). unfold below in Hb2. destruct (dist x b); [|discriminate].
        rewrite negb_true_iff, <- not_true_iff_false, Qle_bool_iff in Hb2. contradiction.
      * intros i j a b Hij Hi Hj. apply (H (S i) (S j)); auto. lia.
Qed.

(** Finding: fewer than two samples raise. *)
Theorem C45_one_sample_refuted {A} (dist : A -> A -> score) eps preds : List.length preds <= 1 ->
  isomorphism_metric dist eps true preds = Err ZeroDivisionError.
Proof. intros H. destruct preds as [|a [|b l]]; auto. cbn in H. lia. Qed.

Definition l1_dist (a b : list Q) : score :=
  Some (fold_right Qplus 0%Q (map (fun xy => Qabs (fst xy - snd xy)) (combine a b))).
Definition ex_preds : list (list Q) := [[1; 2]; [1; 2 + (1#1000)]; [5; 5]; [1; 2]]%Q.
Example C45_example : exists r, isomorphism_metric l1_dist (1#100) true ex_preds = Ok r /\ (r == 1 # 2)%Q.
Proof. eexists. split; [reflexivity|]. reflexivity. Qed.

(** ** C46 *)

(** Every numbered combination is in the queue of exactly one of the eight devices. *)
Theorem C46_cover {A} (grid : list A) :
  Permutation (flat_map (fun i => exp_queue (Z.of_nat i) grid) (seq 0 8)) (enumerate grid).
Proof.
  rewrite (flat_map_concat_map _ (seq 0 8)).
  rewrite (map_ext_in _ (fun i => filter (fun hx => fst hx mod 8 =? i) (enumerate grid))).
  2:{ intros i Hi. apply in_seq in Hi. apply exp_queue_nat. lia. }
  rewrite <- flat_map_concat_map. apply (partition_classes (fun hx : nat * A => fst hx mod 8)).
  intros hx _. apply Nat.mod_upper_bound. discriminate.
Qed.

(** A device index beyond the modulus repeats the work of its residue. *)
Theorem C46_residue {A} (grid : list A) i j : (i mod 8 = j mod 8)%Z -> exp_queue i grid = exp_queue j grid.
Proof. intros H. unfold exp_queue. change (Z.of_nat max_devices) with 8%Z. rewrite H. reflexivity. Qed.

Definition a_choice (c : conf) (x : list string) : Prop :=
  Forall2 (fun v kv => In v (snd kv)) x (hypers c).

Lemma combine_inj {A B} (n : list A) (x y : list B) : List.length x = List.length n -> List.length y = List.length n ->
  combine n x = combine n y -> x = y.
Proof.
  revert x y. induction n as [|a n IH]; intros [|b x] [|d y] Hx Hy E; cbn in *; try lia; auto.
  inversion E; subst. f_equal. apply IH; auto; lia.
Qed.

Lemma choice_product c x : a_choice c x <-> In x (product (map snd (hypers c))).
Proof.
  rewrite product_In. unfold a_choice. generalize (hypers c) as l. intros l. revert x.
  induction l as [|kv l IH]; intros x; split; intros H; inversion H; subst; constructor; auto; apply IH; auto.
Qed.

(** Every choice of one value per hyper-parameter is run exactly once over the eight devices, with
    each value passed under its own name. *)
Theorem C46_exactly_once (c : conf) x : Forall (fun kv => NoDup (snd kv)) (hypers c) -> a_choice c x ->
  exists h i, i < 8 /\ In (h, combine (map fst (hypers c)) x) (tuning_runs c (Z.of_nat i)) /\
    (forall h' i', i' < 8 -> In (h', combine (map fst (hypers c)) x) (tuning_runs c (Z.of_nat i')) -> h' = h /\ i' = i) /\
    NoDup (tuning_runs c (Z.of_nat i)).
Proof.
  intros HN Hx. pose proof Hx as Hc. apply choice_product in Hx. set (grid := product (map snd (hypers c))) in *.
  apply In_nth_error in Hx as (h & Hh).
  assert (Hlen : forall y, In y grid -> List.length y = List.length (map fst (hypers c))).
  { intros y Hy. apply choice_product in Hy. apply Forall2_length in Hy. rewrite map_length. auto. }
  assert (HNg : NoDup grid). { apply product_NoDup. apply Forall_map. exact HN. }
  assert (Hin : forall h' i', i' < 8 -> In (h', combine (map fst (hypers c)) x) (tuning_runs c (Z.of_nat i')) <->
            h' = h /\ i' = h mod 8).
  { intros h' i' Hi'. unfold tuning_runs. fold grid. rewrite exp_queue_nat by auto. rewrite in_map_iff. split.
    - intros ([h0 y] & E & Hy). cbn [fst snd] in E. apply filter_In in Hy as [Hy Hm]. cbn [fst] in Hm. apply Nat.eqb_eq in Hm.
      apply enumerate_nth in Hy. inversion E as [[E1 E2]]. subst h0.
      apply combine_inj in E2; [|apply Hlen; eapply nth_error_In; eauto|apply Hlen; eapply nth_error_In; eauto]. subst y.
      assert (h' = h). { eapply (NoDup_nth_error grid); eauto; [apply nth_error_Some; rewrite Hy; discriminate|congruence]. }
      subst h'. auto.
    - intros [-> ->]. exists (h, x). split; auto. apply filter_In. split; [apply enumerate_nth; auto|]. cbn. apply Nat.eqb_refl. }
  exists h, (h mod 8). assert (Hlt : h mod 8 < 8) by (apply Nat.mod_upper_bound; discriminate).
  split; auto. split; [apply Hin; auto|]. split; [intros h' i' Hi' H; apply Hin in H; auto|].
  unfold tuning_runs. fold grid. rewrite exp_queue_nat by auto.
  apply (NoDup_map_inv fst). rewrite map_map. cbn [fst].
  generalize (enumerate_fst grid). generalize (seq_NoDup (List.length grid) 0). generalize (enumerate grid) as L. clear.
  intros L HN E. rewrite <- E in HN. clear E. induction L as [|[a b] L IH]; [constructor|]. cbn [map fst] in HN. inversion HN; subst.
  cbn [filter fst]. destruct (_ =? _); auto. cbn [map fst]. constructor; auto. intros Hc. apply H1.
  apply in_map_iff in Hc as (z & <- & Hz). apply filter_In in Hz as [Hz _]. apply in_map; auto.
Qed.

(** Every run of every device is such a choice, and the experiment names are all distinct. *)
Theorem C46_sound (c : conf) idx h args : In (h, args) (tuning_runs c idx) ->
  exists x, a_choice c x /\ args = combine (map fst (hypers c)) x.
Proof.
  unfold tuning_runs. intros H. apply in_map_iff in H as ([h' x] & E & H). cbn in E. inversion E; subst.
  exists x. split; auto. apply choice_product. unfold exp_queue in H. apply filter_In in H as [H _].
  apply enumerate_nth in H. eapply nth_error_In; eauto.
Qed.

Theorem C46_names (c : conf) :
  Permutation (map fst (flat_map (fun i => tuning_runs c (Z.of_nat i)) (seq 0 8)))
    (seq 0 (fold_right (fun kv n => List.length (snd kv) * n) 1 (hypers c))).
Proof.
  replace (fold_right _ 1 (hypers c)) with (List.length (product (map snd (hypers c)))).
  2:{ rewrite product_length. generalize (hypers c) as l. induction l as [|kv l IH]; cbn; auto. }
  rewrite <- enumerate_fst.
  set (grid := product (map snd (hypers c))).
  transitivity (map fst (flat_map (fun i => exp_queue (Z.of_nat i) grid) (seq 0 8))).
  - unfold tuning_runs. fold grid. generalize (seq 0 8) as s. intros s.
    assert (E : map fst (flat_map (fun i => map (fun hx => (fst hx, combine (map fst (hypers c)) (snd hx))) (exp_queue (Z.of_nat i) grid)) s)
       = map fst (flat_map (fun i => exp_queue (Z.of_nat i) grid) s)); [|rewrite E; auto].
    induction s as [|i s IH]; cbn [flat_map]; auto. rewrite !map_app, IH, map_map. reflexivity.
  - apply Permutation_map. apply C46_cover.
Qed.

(** The preparation script builds the datasets of every run of the search: for the arguments of a
    run, the triple of its max_dim, max_ring_size and init_method is among the prepared ones. *)
Definition arg_of (args : list (string * string)) (key : string) : option string :=
  option_map snd (find (fun kv => String.eqb (fst kv) key) args).

Lemma arg_of_choice c key vals x : a_choice c x -> key <> "dataset"%string -> conf_get c key = Ok vals ->
  exists v, arg_of (combine (map fst (hypers c)) x) key = Some v /\ In v vals.
Proof.
  unfold conf_get, of_option, arg_of. intros Hx Hk H.
  destruct (find (fun kv => String.eqb (fst kv) key) c) as [kv|] eqn:F; cbn in H; [|discriminate]. inversion H; subst vals.
  assert (F' : find (fun kv => String.eqb (fst kv) key) (hypers c) = Some kv).
  { clear -F Hk. unfold hypers. induction c as [|a c IH]; [discriminate|]. cbn [find] in F. cbn [filter].
    destruct (String.eqb_spec (fst a) key) as [E|Hne].
    - inversion F; subst. destruct (String.eqb_spec (fst kv) "dataset") as [E'|]; [congruence|]. cbn. rewrite String.eqb_refl. auto.
    - destruct (negb (String.eqb (fst a) "dataset")); auto. cbn [find].
      destruct (String.eqb_spec (fst a) key); [congruence|]. auto. }
  clear F. revert x Hx. unfold a_choice. revert F'. generalize (hypers c) as l. induction l as [|a l IH]; intros F x Hx; [discriminate|].
  inversion Hx as [|v ? x' ? Hv Hx']; subst. cbn [map combine find fst] in *. destruct (String.eqb (fst a) key).
  - inversion F; subst. exists v. cbn. auto.
  - apply IH; auto.
Qed.

Theorem C46_prepared (c : conf) l idx h args : prepared c = Ok l -> In (h, args) (tuning_runs c idx) ->
  exists d r i, arg_of args "max_dim" = Some d /\ arg_of args "max_ring_size" = Some r /\
    arg_of args "init_method" = Some i /\ In (d, r, i) l.
Proof.
  intros Hp H. apply C46_sound in H as (x & Hx & ->). unfold prepared in Hp.
  apply bind_ok in Hp as (ds & H1 & Hp). apply bind_ok in Hp as (rs & H2 & Hp). apply bind_ok in Hp as (is & H3 & Hp).
  inversion Hp; subst l.
  destruct (arg_of_choice c "max_dim" ds x Hx ltac:(discriminate) H1) as (d & D1 & D2).
  destruct (arg_of_choice c "max_ring_size" rs x Hx ltac:(discriminate) H2) as (r & R1 & R2).
  destruct (arg_of_choice c "init_method" is x Hx ltac:(discriminate) H3) as (i & I1 & I2).
  exists d, r, i. do 3 (split; auto). apply in_flat_map. exists d. split; auto. apply in_flat_map. exists r. split; auto.
  apply in_map_iff. eauto.
Qed.

Definition ex_conf : conf := [("max_dim", ["2"]); ("dataset", ["PROTEINS"]); ("max_ring_size", ["3"; "6"]);
  ("init_method", ["sum"; "mean"]); ("lr", ["0.1"; "0.01"; "0.001"])]%string.
Example C46_example : Forall (fun kv => NoDup (snd kv)) (hypers ex_conf) /\
  a_choice ex_conf ["2"; "6"; "sum"; "0.01"]%string /\
  In (7, [("max_dim", "2"); ("max_ring_size", "6"); ("init_method", "sum"); ("lr", "0.01")]%string) (tuning_runs ex_conf 7) /\
  List.length (tuning_runs ex_conf 7) = 1 /\ List.length (tuning_runs ex_conf 3) = 2 /\
  prepared ex_conf = Ok [("2", "3", "sum"); ("2", "3", "mean"); ("2", "6", "sum"); ("2", "6", "mean")]%string.
Proof.
  split; [repeat constructor; cbn; intuition discriminate|]. split; [unfold a_choice; cbn [hypers filter]; repeat (apply Forall2_cons; [cbn; auto|]); constructor|].
  split; [left; reflexivity|]. repeat split; reflexivity.
Qed.

(** ** C51: ring counting *)
Lemma count_cycle_sets edges isos set_order max_ring k :
  (forall k, 3 <= k <= max_ring -> finds_cycles edges k (isos k)) ->
  (forall l : list (list nat), NoDup l -> Permutation (set_order l) l) -> 3 <= k <= max_ring ->
  exists L, cycle_sets edges k L /\ count_len (get_rings isos set_order max_ring) k = List.length L.
Proof.
  intros HF HO Hk. destruct (get_rings_ok edges isos set_order max_ring HF HO) as (R1 & R2 & R3).
  set (R := get_rings isos set_order max_ring) in *.
  exists (map (sort Nat.leb) (filter (fun r => List.length r =? k) R)). split; [|rewrite map_length; reflexivity].
  assert (HN : NoDup (map (sort Nat.leb) (filter (fun r => List.length r =? k) R))).
  { clear -R1. induction R as [|r R IH]; [constructor|]. cbn [map] in R1. inversion R1; subst. cbn [filter].
    destruct (_ =? _); auto. cbn [map]. constructor; auto. intros H. apply H1. apply in_map_iff in H as (c & <- & Hc).
    apply filter_In in Hc as [Hc _]. apply in_map; auto. }
  split; auto. split; [|split].
  - intros s Hs. apply in_map_iff in Hs as (c & <- & Hc). apply filter_In in Hc as [Hc Hl]. apply Nat.eqb_eq in Hl.
    exists c. split; [apply R2; auto|]. split; auto. intros v. apply sort_In.
  - intros c Hc Hl. destruct (R3 c Hc ltac:(lia)) as (c' & H1 & H2). exists (sort Nat.leb c'). split.
    + apply in_map. apply filter_In. split; auto. apply Nat.eqb_eq. rewrite <- Hl.
      destruct (R2 c' H1) as [I1 _]. destruct Hc as (_ & N1 & _). destruct I1 as (_ & N2 & _).
      apply Permutation_length. apply NoDup_Permutation; auto. intros v. symmetry. apply H2.
    + intros v. rewrite sort_In. symmetry. apply H2.
  - intros s s' Hs Hs' E. apply in_map_iff in Hs as (c & <- & Hc). apply in_map_iff in Hs' as (c' & <- & Hc').
    apply filter_In in Hc as [Hc _]. apply filter_In in Hc' as [Hc' _].
    destruct (R2 c Hc) as [(_ & N1 & _) _]. destruct (R2 c' Hc') as [(_ & N2 & _) _]. apply same_sort; auto.
    intros v. rewrite <- (sort_In c), <- (sort_In c'). apply E.
Qed.

Lemma get_counts_ok {G} (isos : G -> nat -> list cell) set_order graphs (edges : G -> list (nat * nat)) max_ring :
  (forall g, In g graphs -> forall k, 3 <= k <= max_ring -> finds_cycles (edges g) k (isos g k)) ->
  (forall l : list (list nat), NoDup l -> Permutation (set_order l) l) -> graphs <> [] ->
  get_ring_counts isos set_order graphs max_ring =
  Ok (map (fun k => (k, map (fun g => count_len (get_rings (isos g) set_order max_ring) k) graphs)) (seq 3 (max_ring - 2))).
Proof.
  intros HF HO Hne. unfold get_ring_counts. replace (max_ring + 1 - 3) with (max_ring - 2) by lia.
  set (ks := seq 3 (max_ring - 2)). assert (Hks : NoDup ks) by apply seq_NoDup.
  rewrite (mapM_map _ (fun g => map (fun k => (k, count_len (get_rings (isos g) set_order max_ring) k)) ks)).
  - cbn [bind]. destruct graphs as [|g0 graphs]; [congruence|]. set (gs := g0 :: graphs).
    assert (E : forall B (f : G -> B), map f gs = map (fun i => f (nth i gs g0)) (seq 0 (List.length gs))).
    { intros B f. clear. induction gs as [|g gs IH]; auto. cbn [List.length seq map nth]. f_equal.
      rewrite <- seq_shift, map_map. exact IH. }
    rewrite E. rewrite (combine_cards_ok (fun i k => count_len (get_rings (isos (nth i gs g0)) set_order max_ring) k)).
    + f_equal. apply map_ext. intros k. f_equal. symmetry. apply (E nat (fun g => count_len (get_rings (isos g) set_order max_ring) k)).
    + auto.
    + cbn. lia.
  - intros g Hg. apply ring_count_ok; auto. intros r Hr.
    destruct (get_rings_ok (edges g) (isos g) set_order max_ring (HF g Hg) HO) as (_ & R2 & _).
    apply R2 in Hr as [_ Hr]. apply in_seq. lia.
Qed.

(** For every ring size up to the maximum, the statistics list, graph by graph, the number of
    induced cycles of that size (counted as vertex sets). *)
Theorem C51_ring_counts {G} (isos : G -> nat -> list cell) set_order graphs (edges : G -> list (nat * nat)) max_ring :
  (forall g, In g graphs -> forall k, 3 <= k <= max_ring -> finds_cycles (edges g) k (isos g k)) ->
  (forall l : list (list nat), NoDup l -> Permutation (set_order l) l) -> graphs <> [] ->
  exists stats, get_ring_counts isos set_order graphs max_ring = Ok stats /\
    map fst stats = seq 3 (max_ring - 2) /\
    forall k counts, In (k, counts) stats ->
      Forall2 (fun g n => exists L, cycle_sets (edges g) k L /\ n = List.length L) graphs counts.
Proof.
  intros HF HO Hne. eexists. split; [apply get_counts_ok with (edges := edges); auto|]. split.
  - rewrite map_map. cbn [fst]. apply map_id.
  - intros k counts H. apply in_map_iff in H as (k' & E & Hk). inversion E; subst. apply in_seq in Hk. clear E Hne.
    induction graphs as [|g graphs IH]; [constructor|]. cbn [map]. constructor.
    + destruct (count_cycle_sets (edges g) (isos g) set_order max_ring k) as (L & H1 & H2); [apply HF; left; auto|auto|lia|].
      exists L. auto.
    + apply IH. intros; apply HF; auto. right; auto.
Qed.

(** The number of cycle sets does not depend on how they are listed. *)
Theorem C51_well_defined edges k L L' : cycle_sets edges k L -> cycle_sets edges k L' -> List.length L = List.length L'.
Proof.
  assert (G : forall L L', cycle_sets edges k L -> cycle_sets edges k L' -> List.length L <= List.length L').
  { clear. intros L L' (A1 & A2 & A3 & A4) (B1 & B2 & B3 & B4).
    assert (F : exists f : list nat -> list nat, forall s, In s L -> In (f s) L' /\ same_set (f s) s).
    { assert (Hex : forall s, In s L -> exists s', In s' L' /\ same_set s' s).
      { intros s Hs. destruct (A2 s Hs) as (c & C1 & C2 & C3). destruct (B3 c C1 C2) as (s' & S1 & S2). exists s'. split; auto.
        intros v. rewrite (S2 v). symmetry. apply C3. }
      clear -Hex. induction L as [|s L IH]; [exists (fun s => s); intros s []|].
      destruct IH as (f & Hf); [intros; apply Hex; right; auto|]. destruct (Hex s (or_introl eq_refl)) as (s' & H1 & H2).
      exists (fun t => if list_eq_dec Nat.eq_dec t s then s' else f t). intros t Ht.
      destruct (list_eq_dec Nat.eq_dec t s) as [->|Hne]; auto. destruct Ht as [->|Ht]; [congruence|auto]. }
    destruct F as (f & Hf). rewrite <- (map_length f L). apply NoDup_incl_length.
    - assert (Hinj : forall s t, In s L -> In t L -> f s = f t -> s = t).
      { intros s t Hs Ht E. apply A4; auto. destruct (Hf s Hs) as [_ H1]. destruct (Hf t Ht) as [_ H2]. intros v.
        rewrite <- (H1 v), E, (H2 v). tauto. }
      clear -A1 Hinj. induction L as [|s L IH]; [constructor|]. inversion A1; subst. cbn [map]. constructor.
      + intros H. apply in_map_iff in H as (t & E & Ht). assert (t = s) by (apply Hinj; auto; [right; auto|left; auto]). subst; auto.
      + apply IH; auto. intros; apply Hinj; auto; right; auto.
    - intros s Hs. apply in_map_iff in Hs as (t & <- & Ht). apply Hf; auto. }
  intros H1 H2. apply Nat.le_antisymm; apply G; auto.
Qed.

(** The statistics of the whole dataset are those of the splits, one after the other. *)
Theorem C51_whole_dataset {G} (isos : G -> nat -> list cell) set_order (parts : list (list G)) (edges : G -> list (nat * nat)) max_ring :
  (forall g, In g (concat parts) -> forall k, 3 <= k <= max_ring -> finds_cycles (edges g) k (isos g k)) ->
  (forall l : list (list nat), NoDup l -> Permutation (set_order l) l) -> parts <> [] -> (forall p, In p parts -> p <> []) ->
  exists stats, mapM (fun p => get_ring_counts isos set_order p max_ring) parts = Ok stats /\
    combine_all_counts stats = get_ring_counts isos set_order (concat parts) max_ring.
Proof.
  intros HF HO Hne Hp.
  set (cnt := fun (p : list G) k => map (fun g => count_len (get_rings (isos g) set_order max_ring) k) p).
  set (ks := seq 3 (max_ring - 2)).
  exists (map (fun p => map (fun k => (k, cnt p k)) ks) parts). split.
  - apply mapM_map. intros p Hin. apply get_counts_ok with (edges := edges); auto.
    intros g Hg. apply HF. apply in_concat. eauto.
  - rewrite (get_counts_ok isos set_order (concat parts) edges max_ring HF HO).
    2:{ destruct parts as [|p parts]; [congruence|]. specialize (Hp p (or_introl eq_refl)). destruct p; [congruence|discriminate]. }
    transitivity (combine_all_counts (map (fun s => map (fun k => (k, s k)) ks) (map cnt parts))).
    { f_equal. rewrite map_map. reflexivity. }
    rewrite combine_counts_ok.
    + f_equal. apply map_ext. intros k. f_equal. unfold cnt. clear.
      induction parts as [|p parts IH]; auto. cbn [map flat_map concat]. rewrite map_app, IH. reflexivity.
    + apply seq_NoDup.
    + destruct parts; [congruence|discriminate].
Qed.

(** Finding: an empty split makes the ring statistics raise. *)
Theorem C51_empty_split_refuted {G} (isos : G -> nat -> list cell) set_order max_ring :
  get_ring_counts isos set_order [] max_ring = Err IndexError.
Proof. reflexivity. Qed.

(** The house (a square with a roof) and a triangle: one 3-cycle each, one 4-cycle in the house. *)
Definition ex_graphs : list (list (nat * nat)) := [house; [(0, 1); (1, 0); (1, 2); (2, 1); (0, 2); (2, 0)]].
Example C51_example :
  get_ring_counts (ref_isos 5) (@rev _) ex_graphs 5 = Ok [(3, [1; 1]); (4, [1; 0]); (5, [0; 0])] /\
  (forall g, In g ex_graphs -> forall k, 3 <= k <= 5 -> finds_cycles g k (ref_isos 5 g k)).
Proof.
  split; [reflexivity|]. intros g Hg k _. apply ref_isos_ok.
  destruct Hg as [<-|[<-|[]]]; intros u v H; cbn in H;
    repeat (destruct H as [H|H]; [inversion H; subst; lia|]); destruct H.
Qed.

Print Assumptions C44_best_epoch_partial.
Print Assumptions C44_reports_best.
Print Assumptions C44_best_epoch_unique.
Print Assumptions C44_curves.
Print Assumptions C44_untrained.
Print Assumptions C44_no_epochs_raises.
Print Assumptions C44_stale_train_refuted.
Print Assumptions C44_nan_refuted.
Print Assumptions C44_mean.
Print Assumptions C44_mean_nan.
Print Assumptions C44_runs.
Print Assumptions C44_seeds.
Print Assumptions C44_cross_validation.
Print Assumptions C44_ragged_folds_refuted.
Print Assumptions C45_isomorphism.
Print Assumptions C45_order_independent.
Print Assumptions C45_zero.
Print Assumptions C45_one_sample_refuted.
Print Assumptions C46_cover.
Print Assumptions C46_residue.
Print Assumptions C46_exactly_once.
Print Assumptions C46_sound.
Print Assumptions C46_names.
Print Assumptions C46_prepared.
Print Assumptions C51_ring_counts.
Print Assumptions C51_well_defined.
Print Assumptions C51_whole_dataset.
Print Assumptions C51_empty_split_refuted.
