(** Learning-rate schedules and early stopping (C72). *)
From Coq Require Import List Arith Lia ZArith QArith Qround Bool Lqa.
From Verif Require Import Base LiftModel ExpModel ExpSpec ExpProofs ExpProps.
From Verif Require Import SchedModel SchedSpec SchedProofs.
Import ListNotations.
Open Scope nat_scope.

(** ReduceLROnPlateau with sensible parameters. *)
Definition plateau_ok (factor patience lr : Q) : Prop := (0 <= factor /\ factor < 1 /\ 0 <= patience /\ 0 <= lr)%Q.
Definition trains (a : run_args) : Prop := r_untrained a = false /\ 1 <= r_period a /\ 1 <= r_epochs a.

Lemma make_plateau factor patience lr : (factor < 1)%Q -> make_scheduler (Plateau factor patience) lr = Ok (mkSched lr None 0 0).
Proof. intros H. cbn. destruct (Qle_bool 1 factor) eqn:E; auto. apply Qle_bool_iff in E. exfalso. apply (Qlt_not_le _ _ H E). Qed.

(** A run with ReduceLROnPlateau.  [rate e] is the learning rate after [e] epochs; epoch [e + 1] is trained with it. *)
Theorem C72_plateau factor patience lr lr_min a h : plateau_ok factor patience lr -> trains a ->
  exists c rates rate stop n,
    sched_main (Plateau factor patience) lr lr_min a h = Ok (c, rates) /\
    (forall e, exists k, times_due (r_minimize a) (h_val h) (wait_of patience) e k /\ reduced lr factor k (rate e)) /\
    (forall e, stop e = true <-> r_early_stop a = true /\ (rate e < lr_min)%Q) /\
    last_epoch (r_epochs a) stop n /\ rates = map rate (seq 0 n) /\
    main (with_plateau true a) (with_low stop h) = Ok c /\ List.length (c_val c) = n.
Proof.
  intros (Hf0 & Hf1 & Hp & Hlr) (Hu & Hper & He). set (P := pl (r_minimize a) (h_val h) factor patience lr).
  set (low := fun e => r_early_stop a && Qltb (s_lr (P e)) lr_min).
  assert (Hstep : forall e, decay (Plateau factor patience) (r_minimize a) (r_early_stop a) lr_min (h_val h (S e)) (P e) =
    Ok (P (S e), true && r_early_stop a && low (S e))).
  { intros e. cbn [decay]. change (plateau_step (r_minimize a) factor patience (h_val h (S e)) (P e)) with (P (S e)). cbv zeta.
    unfold low. destruct (r_early_stop a); reflexivity. }
  pose proof (main_refines _ lr_min a h P true low Hstep lr Hu (make_plateau _ _ _ Hf1) Hper) as E.
  destruct (C44_curves (with_plateau true a) (with_low low h) Hu Hper He) as (c & n & Hc & HL & _ & Hn & _).
  rewrite Hc in E. cbn [bind] in E. rewrite Hn in E.
  exists c. eexists. exists (fun e => s_lr (P e)), low, n. split; [exact E|]. split; [|split; [|split; [|auto]]].
  - intros e. eexists. split; [apply hits_due; auto|]. apply pl_rate; auto.
  - intros e. unfold low. rewrite andb_true_iff, Qltb_iff. tauto.
  - destruct HL as (L1 & L2 & L3). cbn [with_plateau with_low r_epochs r_plateau r_early_stop h_low_lr andb] in *.
    assert (EQ : forall e, r_early_stop a && low e = low e) by (intros e; unfold low; destruct (r_early_stop a); auto).
    split; auto. split; [intros e H; rewrite <- EQ; auto|]. rewrite EQ in L3. auto.
Qed.

(** Everything about a rate that is due [k] times. *)
Lemma reduced_below lr factor k r lr_min K : (0 <= factor /\ factor < 1)%Q -> (0 <= lr)%Q -> reduced lr factor k r -> (r < lr_min)%Q ->
  (forall j, j < K -> (lr_min <= scaled lr factor j)%Q) -> K <= k.
Proof.
  intros Hf Hlr (j & Hj & E & _ & _) Hlow HK. destruct (le_lt_dec K k) as [|H]; auto. exfalso.
  specialize (HK j ltac:(lia)). rewrite E in Hlow. lra.
Qed.

(** No run is stopped early before [K] times the patience (plus one) epochs, where [K] reductions are needed to get below
    the minimum; one epoch more unless the first score is NaN. *)
Theorem C72_earliest factor patience lr lr_min a h c rates K : plateau_ok factor patience lr -> trains a ->
  sched_main (Plateau factor patience) lr lr_min a h = Ok (c, rates) ->
  List.length rates < r_epochs a -> (forall j, j < K -> (lr_min <= scaled lr factor j)%Q) ->
  K * wait_of patience <= List.length rates /\ (h_val h 1 <> None -> K * wait_of patience + 1 <= List.length rates).
Proof.
  intros HO HT Hrun Hlt HK. pose proof HO as (Hf0 & Hf1 & Hp & Hlr).
  destruct (C72_plateau factor patience lr lr_min a h HO HT) as (c' & rates' & rate & stop & n & Hrun' & Hrate & Hstop & HL & Er & _).
  assert (ER : rates' = rates) by congruence. rewrite ER in Er. rewrite Er, map_length, seq_length in *.
  destruct HL as (L1 & _ & [L3|L3]); [lia|]. apply Hstop in L3 as [_ Hlow].
  destruct (Hrate n) as (k & Hk & HR).
  assert (k = hits (r_minimize a) (h_val h) factor patience lr n) by (eapply times_due_fun; [exact Hk|apply hits_due; auto]).
  assert (K <= k) by (eapply reduced_below; eauto).
  destruct (hits_pay (r_minimize a) (h_val h) factor patience lr Hp n) as [P1 P2]. subst k. split; [nia|]. intros Hv. specialize (P2 Hv ltac:(lia)). nia.
Qed.

(** With early stopping a run ends at most [K] times the patience (plus one) epochs after the last improvement. *)
Theorem C72_latest factor patience lr lr_min a h c rates K i : plateau_ok factor patience lr -> trains a -> r_early_stop a = true ->
  sched_main (Plateau factor patience) lr lr_min a h = Ok (c, rates) ->
  (scaled lr factor K < lr_min)%Q -> (forall j, j < K -> effective lr factor j) ->
  1 <= i + K * wait_of patience ->
  (forall e, i <= e <= i + K * wait_of patience -> last_improvement (r_minimize a) (h_val h) e i) ->
  List.length rates <= i + K * wait_of patience.
Proof.
  intros HO HT Hes Hrun HK Heff H1 Hi. pose proof HO as (Hf0 & Hf1 & Hp & Hlr).
  destruct (C72_plateau factor patience lr lr_min a h HO HT) as (c' & rates' & rate & stop & n & Hrun' & Hrate & Hstop & HL & Er & _).
  assert (ER : rates' = rates) by congruence. rewrite ER in Er. rewrite Er, map_length, seq_length.
  set (t := i + K * wait_of patience) in *. destruct (le_lt_dec n t) as [|Hlt]; auto. exfalso.
  destruct HL as (L1 & L2 & _). specialize (L2 t ltac:(lia)). enough (HH : stop t = true) by (rewrite HH in L2; discriminate). apply Hstop. split; auto.
  destruct (Hrate t) as (k & Hk & (j & Hj & E & _ & Hend)). rewrite E.
  assert (k = hits (r_minimize a) (h_val h) factor patience lr t) by (eapply times_due_fun; [exact Hk|apply hits_due; auto]).
  pose proof (hits_stuck (r_minimize a) (h_val h) factor patience lr Hp i K Hi) as HS. fold t in HS.
  assert (K <= j). { destruct Hend as [Hend|Hend]; [lia|]. destruct (le_lt_dec K j); auto. exfalso. apply Hend, Heff. auto. }
  eapply Qle_lt_trans; [apply (scaled_mono factor lr (conj Hf0 Hf1) Hlr K j); auto|auto].
Qed.

(** When the reductions become ineffective at or above the minimum, --early_stop does nothing. *)
Theorem C72_never factor patience lr lr_min a h c rates j : plateau_ok factor patience lr -> trains a ->
  sched_main (Plateau factor patience) lr lr_min a h = Ok (c, rates) ->
  ~ effective lr factor j -> (lr_min <= scaled lr factor j)%Q -> List.length rates = r_epochs a.
Proof.
  intros HO HT Hrun Hj Hmin. pose proof HO as (Hf0 & Hf1 & Hp & Hlr).
  destruct (C72_plateau factor patience lr lr_min a h HO HT) as (c' & rates' & rate & stop & n & Hrun' & Hrate & Hstop & HL & Er & _).
  assert (ER : rates' = rates) by congruence. rewrite ER in Er. rewrite Er, map_length, seq_length.
  destruct HL as (L1 & _ & [L3|L3]); auto. exfalso. apply Hstop in L3 as [_ Hlow].
  destruct (Hrate n) as (k & _ & (j' & _ & E & Heff & _)).
  assert (j' <= j). { destruct (le_lt_dec j' j); auto. exfalso. apply Hj, Heff. auto. }
  pose proof (scaled_mono factor lr (conj Hf0 Hf1) Hlr j' j H). rewrite E in Hlow. lra.
Qed.

(** A factor of 1 or more: no run, not even an untrained one. *)
Theorem C72_factor factor patience lr lr_min a h : (1 <= factor)%Q -> sched_main (Plateau factor patience) lr lr_min a h = Err ValueError.
Proof. intros H. unfold sched_main. cbn [make_scheduler]. apply Qle_bool_iff in H. rewrite H. reflexivity. Qed.

(** StepLR: all epochs are run whatever --early_stop says; epoch [e + 1] is trained with the rate reduced every
    [steps] epochs. *)
Theorem C72_step steps gamma lr lr_min a h : steps <> 0%Z -> trains a ->
  exists c, sched_main (StepLR steps gamma) lr lr_min a h = Ok (c, map (fun e => scaled lr gamma (e / Z.abs_nat steps)) (seq 0 (r_epochs a))) /\
    main (with_plateau false a) h = Ok c.
Proof.
  intros Hs (Hu & Hper & He).
  assert (Hstep : forall e, decay (StepLR steps gamma) (r_minimize a) (r_early_stop a) lr_min (h_val h (S e)) (sl steps gamma lr e) =
    Ok (sl steps gamma lr (S e), false && r_early_stop a && h_low_lr h (S e))).
  { intros e. cbn [decay]. rewrite sl_step by auto. reflexivity. }
  pose proof (main_refines _ lr_min a h _ false (h_low_lr h) Hstep lr Hu eq_refl Hper) as E.
  replace (with_low (h_low_lr h) h) with h in E by (destruct h; reflexivity).
  destruct (C44_curves (with_plateau false a) h Hu Hper He) as (c & n & Hc & (L1 & L2 & L3) & _ & Hn & _).
  rewrite Hc in E. cbn [bind] in E. rewrite Hn in E. cbn [with_plateau r_epochs r_plateau r_early_stop andb] in L3.
  destruct L3 as [->|L3]; [|discriminate]. exists c. rewrite E, Hc. split; auto. f_equal. f_equal. apply map_ext. intros e. apply sl_rate; auto.
Qed.

(** Zero decay steps pass the constructor and fail after the first epoch. *)
Theorem C72_step_zero gamma lr lr_min a h : trains a -> sched_main (StepLR 0 gamma) lr lr_min a h = Err ZeroDivisionError.
Proof.
  intros (Hu & Hper & He). unfold sched_main. cbn [make_scheduler bind]. rewrite Hu. destruct (r_epochs a) as [|n]; [lia|]. reflexivity.
Qed.

(** Without scheduler the rate is constant and all epochs are run. *)
Theorem C72_constant lr lr_min a h : trains a ->
  exists c, sched_main NoScheduler lr lr_min a h = Ok (c, repeat lr (r_epochs a)) /\ main (with_plateau false a) h = Ok c.
Proof.
  intros (Hu & Hper & He).
  assert (Hstep : forall e, decay NoScheduler (r_minimize a) (r_early_stop a) lr_min (h_val h (S e)) ((fun _ => mkSched lr None 0 0) e) =
    Ok ((fun _ => mkSched lr None 0 0) (S e), false && r_early_stop a && h_low_lr h (S e))) by reflexivity.
  pose proof (main_refines _ lr_min a h _ false (h_low_lr h) Hstep lr Hu eq_refl Hper) as E.
  replace (with_low (h_low_lr h) h) with h in E by (destruct h; reflexivity).
  destruct (C44_curves (with_plateau false a) h Hu Hper He) as (c & n & Hc & (L1 & L2 & L3) & _ & Hn & _).
  rewrite Hc in E. cbn [bind] in E. rewrite Hn in E. cbn [with_plateau r_epochs r_plateau r_early_stop andb] in L3.
  destruct L3 as [->|L3]; [|discriminate]. exists c. rewrite E, Hc. split; auto. f_equal. f_equal. cbn [s_lr].
  clear. generalize 0. change (r_epochs (with_plateau false a)) with (r_epochs a). induction (r_epochs a) as [|n IH]; intros x; cbn; auto. f_equal. apply IH.
Qed.

(** ** The default values *)
(** --lr 0.001, --lr_scheduler_decay_rate 0.5, --lr_scheduler_patience 10, --lr_scheduler_min 1e-5: never fewer than 78
    epochs, and at most 77 after the last improvement. *)
Definition default_lr : Q := 1 # 1000.
Definition default_min : Q := 1 # 100000.

Theorem C72_defaults a h c rates : trains a -> r_early_stop a = true -> h_val h 1 <> None ->
  sched_main (Plateau (1 # 2) 10) default_lr default_min a h = Ok (c, rates) ->
  (List.length rates < r_epochs a -> 78 <= List.length rates) /\
  (forall i, (forall e, i <= e <= i + 77 -> last_improvement (r_minimize a) (h_val h) e i) -> List.length rates <= i + 77).
Proof.
  intros HT Hes Hv Hrun. assert (HO : plateau_ok (1 # 2) 10 default_lr) by (unfold plateau_ok, default_lr; repeat split; lra).
  split.
  - intros Hlt. destruct (C72_earliest (1 # 2) 10 default_lr default_min a h c rates 7 HO HT Hrun Hlt) as [_ H].
    + intros j Hj. apply Qle_trans with (scaled default_lr (1 # 2) 6); [discriminate|].
      apply scaled_mono; [lra|discriminate|lia].
    + apply H. auto.
  - intros i Hi. apply (C72_latest (1 # 2) 10 default_lr default_min a h c rates 7 i HO HT Hes Hrun); auto; [reflexivity| |change (wait_of 10) with 11; lia].
    intros j Hj. do 7 (destruct j as [|j]; [reflexivity|]). lia.
Qed.

(** Finding: with --lr_scheduler_min 1e-8 (and the other defaults) --early_stop never stops a run. *)
Theorem C72_tiny_minimum_refuted a h c rates patience : (0 <= patience)%Q -> trains a ->
  sched_main (Plateau (1 # 2) patience) default_lr (1 # 100000000) a h = Ok (c, rates) -> List.length rates = r_epochs a.
Proof.
  intros Hp HT Hrun. apply (C72_never (1 # 2) patience default_lr (1 # 100000000) a h c rates 16); auto.
  - unfold plateau_ok, default_lr. repeat split; auto; lra.
  - unfold effective. intros H. apply (Qlt_not_le _ _ H). discriminate.
  - discriminate.
Qed.

(** A run that is stopped: scores that never improve after the first, patience 1. *)
Definition flat_hist : history := mkHistory (fun _ => Some 1%Q) (fun _ => Some (1 # 2)%Q) None (fun _ => false).
Definition flat_args : run_args := mkRun 100 10 true false true false false.

Example C72_ex_flat e : 1 <= e -> last_improvement true (h_val flat_hist) e 1.
Proof.
  induction 1 as [|e He IH]; [eapply li_first; [constructor|reflexivity]|].
  eapply li_worse; [exact IH|lia|reflexivity|reflexivity|]. unfold beats. intros H. apply (Qlt_not_le _ _ H). discriminate.
Qed.

Example C72_ex_run : trains flat_args /\ plateau_ok (1 # 2) 1 default_lr /\ wait_of 1 = 2 /\
  match sched_main (Plateau (1 # 2) 1) default_lr default_min flat_args flat_hist with
  | Ok (_, rates) => List.length rates = 15 | Err _ => False end.
Proof. split; [repeat split; cbn; lia|]. split; [unfold plateau_ok, default_lr; repeat split; lra|]. split; [reflexivity|]. vm_compute. reflexivity. Qed.

Example C72_ex_step : match sched_main (StepLR 3 (1 # 2)) 1 default_min flat_args flat_hist with
  | Ok (_, rates) => firstn 8 rates = [1; 1; 1; 1 # 2; 1 # 2; 1 # 2; 1 # 4; 1 # 4]%Q /\ List.length rates = 100 | Err _ => False end.
Proof. vm_compute. auto. Qed.

Print Assumptions C72_plateau.
Print Assumptions C72_earliest.
Print Assumptions C72_latest.
Print Assumptions C72_never.
Print Assumptions C72_factor.
Print Assumptions C72_step.
Print Assumptions C72_step_zero.
Print Assumptions C72_constant.
Print Assumptions C72_defaults.
Print Assumptions C72_tiny_minimum_refuted.
