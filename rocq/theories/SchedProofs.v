(** Learning-rate schedules, proofs. *)
From Coq Require Import List Arith Lia ZArith QArith Qround Bool Lqa.
From Verif Require Import Base LiftModel ExpModel.
From Verif Require Import SchedModel SchedSpec.
Import ListNotations.
Open Scope nat_scope.

Lemma Qltb_iff a b : Qltb a b = true <-> (a < b)%Q.
Proof. unfold Qltb. rewrite negb_true_iff. split; intros H.
  - destruct (Qlt_le_dec a b) as [|Hle]; auto. apply Qle_bool_iff in Hle. congruence.
  - destruct (Qle_bool b a) eqn:E; auto. apply Qle_bool_iff in E. exfalso. apply (Qlt_not_le _ _ H E).
Qed.
Lemma Qltb_false a b : Qltb a b = false <-> (b <= a)%Q.
Proof. unfold Qltb. rewrite negb_false_iff. apply Qle_bool_iff. Qed.

Lemma patience_wait p n : (0 <= p)%Q -> (Qltb p (inject_Z (Z.of_nat n)) = true <-> wait_of p <= n).
Proof.
  intros Hp. rewrite Qltb_iff. unfold wait_of.
  assert (H0 : (0 <= Qfloor p)%Z). { change 0%Z with (Qfloor 0). apply Qfloor_resp_le; auto. }
  split; intros H.
  - assert (Qfloor p < Z.of_nat n)%Z; [|lia]. rewrite Zlt_Qlt. eapply Qle_lt_trans; [apply Qfloor_le|auto].
  - eapply Qlt_le_trans; [apply Qlt_floor|]. rewrite <- Zle_Qle. lia.
Qed.

Lemma wait_pos p : (0 <= p)%Q -> 1 <= wait_of p.
Proof. intros Hp. unfold wait_of. assert (H0 : (0 <= Qfloor p)%Z). { change 0%Z with (Qfloor 0). apply Qfloor_resp_le; auto. } lia. Qed.

Lemma is_better_iff m v w : is_better m (Some v) (Some w) = true <-> beats m v w.
Proof.
  unfold is_better, beats, threshold. destruct m; rewrite Qltb_iff.
  - assert (E : (1 - (1 # 10000) == 9999 # 10000)%Q) by reflexivity. rewrite E. tauto.
  - assert (E : ((1 # 10000) + 1 == 10001 # 10000)%Q) by reflexivity. rewrite E. tauto.
Qed.

Lemma li_le m val e i : last_improvement m val e i -> i <= e.
Proof. induction 1; lia. Qed.

Lemma li_some m val e i : last_improvement m val e i -> 0 < i -> exists w, val i = Some w.
Proof. induction 1; intros; eauto; lia. Qed.

Lemma li_total m val e : exists i, last_improvement m val e i.
Proof.
  induction e as [|e [i IH]]; [exists 0; constructor|]. destruct (val (S e)) as [v|] eqn:E; [|exists i; apply li_nan; auto].
  destruct i as [|i]; [exists (S e); eapply li_first; eauto|].
  destruct (li_some _ _ _ _ IH ltac:(lia)) as [w Hw].
  destruct (is_better m (Some v) (Some w)) eqn:B.
  - exists (S e). eapply li_better; eauto; [lia|]. apply is_better_iff; auto.
  - exists (S i). eapply li_worse; eauto; [lia|]. intros H. apply is_better_iff in H. congruence.
Qed.

Lemma li_fun m val e i i' : last_improvement m val e i -> last_improvement m val e i' -> i = i'.
Proof.
  intros H. revert i'. induction H; intros i' H'; inversion H'; subst; auto; try congruence;
    match goal with
    | IH : forall i', last_improvement m val e i' -> _ = i', K : last_improvement m val e _ |- _ => apply IH in K; subst; try lia; auto
    end; try congruence.
Qed.

Section Plateau.
Context (m : bool) (val : nat -> option Q) (factor patience lr : Q).
Hypothesis Hp : (0 <= patience)%Q.
Notation w := (wait_of patience).

Fixpoint pl (e : nat) : sched_state :=
  match e with
  | 0 => mkSched lr None 0 0
  | S e' => plateau_step m factor patience (val e) (pl e')
  end.

Definition hit (e : nat) : bool :=
  match e with
  | 0 => false
  | S e' => Qltb patience (inject_Z (Z.of_nat (if is_better m (val e) (s_best (pl e')) then 0 else S (s_bad (pl e')))))
  end.

Lemma pl_inv e : exists i, last_improvement m val e i /\ s_best (pl e) = (if i =? 0 then None else val i) /\
  s_bad (pl e) = (e - i) mod w /\ (hit e = true <-> i < e /\ Nat.divide w (e - i)).
Proof.
  pose proof (wait_pos patience Hp) as Hw.
  assert (NB : forall e i, i <= e -> s_bad (pl e) = (e - i) mod w ->
    let bad := S (s_bad (pl e)) in
    (if Qltb patience (inject_Z (Z.of_nat bad)) then 0 else bad) = (S e - i) mod w /\
    (Qltb patience (inject_Z (Z.of_nat bad)) = true <-> Nat.divide w (S e - i))).
  { clear e; intros e i Hi Hb. cbv zeta. rewrite Hb. replace (S e - i) with (S (e - i)) by lia. set (n := e - i).
    pose proof (Nat.mod_upper_bound n w ltac:(lia)) as HU. pose proof (Nat.div_mod n w ltac:(lia)) as HD.
    destruct (Nat.eq_dec (S (n mod w)) w) as [E|E].
    - assert (D : S n = w * S (n / w)) by nia.
      rewrite E. assert (T : Qltb patience (inject_Z (Z.of_nat w)) = true) by (apply patience_wait; auto). rewrite T.
      split; [rewrite D; symmetry; rewrite Nat.mul_comm; apply Nat.mod_mul; lia|].
      split; auto. intros _. exists (S (n / w)). lia.
    - assert (M : S n mod w = S (n mod w)).
      { symmetry. apply (Nat.mod_unique (S n) w (n / w)); lia. }
      assert (F : Qltb patience (inject_Z (Z.of_nat (S (n mod w)))) = false).
      { destruct (Qltb _ _) eqn:T; auto. apply patience_wait in T; auto. lia. }
      rewrite F, M. split; auto. split; [discriminate|]. intros H. apply Nat.mod_divide in H; lia. }
  induction e as [|e (i & HL & HB & HN & _)].
  - exists 0. split; [constructor|]. cbn [pl s_best s_bad hit]. split; auto. split; [rewrite Nat.mod_0_l; lia|]. split; [discriminate|lia].
  - pose proof (li_le _ _ _ _ HL) as Hi. cbn [pl hit]. unfold plateau_step.
    assert (P0 : Qltb patience (inject_Z (Z.of_nat 0)) = false).
    { destruct (Qltb _ _) eqn:T; auto. apply patience_wait in T; auto. lia. }
    destruct (is_better m (val (S e)) (s_best (pl e))) eqn:B; cbv zeta.
    + rewrite P0. cbn [s_best s_bad]. exists (S e).
      assert (L : last_improvement m val (S e) (S e)).
      { destruct (val (S e)) as [v|] eqn:E; [|discriminate]. destruct i as [|i]; [eapply li_first; eauto|].
        destruct (li_some _ _ _ _ HL ltac:(lia)) as [x Hx]. cbn [Nat.eqb] in HB. rewrite HB, Hx in B.
        eapply li_better; eauto; [lia|]. apply is_better_iff; auto. }
      split; auto. split; auto. split; [rewrite Nat.sub_diag, Nat.mod_0_l; lia|]. split; [discriminate|lia].
    + destruct (NB e i Hi HN) as [N1 N2]. cbv zeta in N1, N2. exists i. split; [|split; [|split]].
      * destruct (val (S e)) as [v|] eqn:E; [|apply li_nan; auto]. destruct i as [|i]; [cbn [Nat.eqb] in HB; rewrite HB in B; discriminate|].
        destruct (li_some _ _ _ _ HL ltac:(lia)) as [x Hx]. cbn [Nat.eqb] in HB. rewrite HB, Hx in B.
        eapply li_worse; eauto; [lia|]. intros H. apply is_better_iff in H. congruence.
      * rewrite <- HB. match goal with |- context [if ?b then _ else _] => destruct b end; auto.
      * rewrite <- N1. match goal with |- context [if ?b then _ else _] => destruct b end; auto.
      * rewrite N2. split; [intros H; split; [lia|auto]|tauto].
Qed.

Lemma hit_due e : hit e = true <-> due m val w e.
Proof.
  destruct (pl_inv e) as (i & HL & _ & _ & HH). rewrite HH. split.
  - intros H. exists i. tauto.
  - intros (i' & HL' & H). assert (i' = i) by (eapply li_fun; eauto). subst. auto.
Qed.

Definition hits (e : nat) : nat := length (filter hit (seq 1 e)).

Lemma hits_S e : hits (S e) = hits e + (if hit (S e) then 1 else 0).
Proof. unfold hits. rewrite seq_S, filter_app, app_length. cbn [plus filter]. destruct (hit (S e)); auto. Qed.

Lemma hits_due e : times_due m val w e (hits e).
Proof.
  exists (filter hit (seq 1 e)). split; [apply NoDup_filter, seq_NoDup|]. split; auto.
  intros e'. rewrite filter_In, in_seq, hit_due. intuition lia.
Qed.

Lemma times_due_fun e k k' : times_due m val w e k -> times_due m val w e k' -> k = k'.
Proof.
  intros (l & N & <- & H) (l' & N' & <- & H'). apply Nat.le_antisymm; apply NoDup_incl_length; auto; intros x Hx.
  - apply H', H; auto.
  - apply H, H'; auto.
Qed.

(** The counter pays for the reductions. *)
Lemma hits_pay e : hits e * w + s_bad (pl e) <= e /\ (val 1 <> None -> 1 <= e -> hits e * w + s_bad (pl e) + 1 <= e).
Proof.
  pose proof (wait_pos patience Hp) as Hw.
  assert (G : forall e, hit (S e) = true -> s_bad (pl (S e)) = 0 /\ w <= S (s_bad (pl e))).
  { intros e0 H. cbn [hit] in H. cbn [pl]. unfold plateau_step. cbv zeta. rewrite H. split; auto.
    apply patience_wait in H; auto. destruct (is_better _ _ _); lia. }
  assert (F : forall e, hit (S e) = false -> s_bad (pl (S e)) <= S (s_bad (pl e))).
  { intros e0 H. cbn [hit] in H. cbn [pl]. unfold plateau_step. cbv zeta. rewrite H. cbn [s_bad]. destruct (is_better _ _ _); lia. }
  induction e as [|e [IH1 IH2]]; [cbn; lia|]. rewrite hits_S. split.
  - destruct (hit (S e)) eqn:H; [destruct (G e H); nia|specialize (F e H); nia].
  - intros Hv _. destruct e as [|e].
    + assert (B : is_better m (val 1) None = true) by (destruct (val 1); [reflexivity|congruence]).
      assert (P0 : Qltb patience (inject_Z (Z.of_nat 0)) = false).
      { destruct (Qltb _ _) eqn:T; auto. apply patience_wait in T; auto. lia. }
      cbn [hit pl s_best]. unfold plateau_step. cbn [s_best]. cbv zeta. rewrite B, P0. cbn. lia.
    + specialize (IH2 Hv ltac:(lia)). destruct (hit (S (S e))) eqn:H; [destruct (G _ H); nia|specialize (F _ H); nia].
Qed.

Hypothesis Hf : (0 <= factor /\ factor < 1)%Q.
Hypothesis Hlr : (0 <= lr)%Q.

Lemma scaled_nonneg j : (0 <= scaled lr factor j)%Q.
Proof. induction j; cbn [scaled]; [apply Hlr|]. apply Qmult_le_0_compat; auto. apply Hf. Qed.

Lemma scaled_le j : (scaled lr factor (S j) <= scaled lr factor j)%Q.
Proof. pose proof (scaled_nonneg j). cbn [scaled]. nra. Qed.

Lemma scaled_mono j j' : j <= j' -> (scaled lr factor j' <= scaled lr factor j)%Q.
Proof. induction 1; [apply Qle_refl|]. eapply Qle_trans; [apply scaled_le|auto]. Qed.

Lemma reduce_scaled r j : (r == scaled lr factor j)%Q ->
  (effective lr factor j -> reduce_lr factor r == scaled lr factor (S j))%Q /\ (~ effective lr factor j -> reduce_lr factor r = r).
Proof.
  intros E. pose proof (scaled_nonneg (S j)) as HN. cbn [scaled] in HN. unfold effective, reduce_lr, reduce_eps. cbn [scaled].
  assert (EN : ((if Qle_bool (r * factor) 0 then 0 else r * factor) == scaled lr factor j * factor)%Q).
  { destruct (Qle_bool _ _) eqn:T; [apply Qle_bool_iff in T; rewrite E in T; lra|rewrite E; reflexivity]. }
  destruct (Qltb _ _) eqn:T.
  - apply Qltb_iff in T. split; [auto|]. intros H. exfalso. apply H. cbv zeta in *. rewrite EN, E in T. exact T.
  - apply Qltb_false in T. split; [|auto]. intros H. exfalso. cbv zeta in *. rewrite EN, E in T. lra.
Qed.

Lemma effective_dec j : {effective lr factor j} + {~ effective lr factor j}.
Proof. unfold effective. destruct (Qlt_le_dec (1 # 100000000) (scaled lr factor j - scaled lr factor (S j))); [left; auto|right; lra]. Qed.

Lemma pl_rate e : reduced lr factor (hits e) (s_lr (pl e)).
Proof.
  induction e as [|e (j & Hj & E & Heff & Hend)].
  - exists 0. cbn. split; auto. split; [reflexivity|]. split; [lia|auto].
  - rewrite hits_S. cbn [pl]. unfold plateau_step. cbv zeta. change (Qltb patience _) with (hit (S e)).
    destruct (hit (S e)) eqn:H; cbn [s_lr].
    + destruct (reduce_scaled _ _ E) as [R1 R2]. destruct (effective_dec j) as [D|D].
      * destruct Hend as [Hend|Hend]; [|tauto]. exists (S j). split; [lia|]. split; [apply R1; auto|]. split; [|left; lia].
        intros j' Hj'. destruct (Nat.eq_dec j' j); [subst; auto|apply Heff; lia].
      * exists j. split; [lia|]. rewrite (R2 D). split; auto.
    + exists j. rewrite Nat.add_0_r. auto.
Qed.


Lemma hits_mono e e' : e <= e' -> hits e <= hits e'.
Proof. induction 1; auto. rewrite hits_S. lia. Qed.

Lemma hits_stuck i K : (forall e, i <= e <= i + K * w -> last_improvement m val e i) -> K <= hits (i + K * w).
Proof.
  pose proof (wait_pos patience Hp) as Hw. intros H.
  assert (G : forall t, t <= K -> t <= hits (i + t * w)).
  { induction t as [|t IH]; intros Ht; [lia|]. specialize (IH ltac:(lia)).
    assert (D : hit (i + S t * w) = true).
    { apply hit_due. exists i. split; [apply H; nia|]. split; [nia|]. exists (S t). lia. }
    assert (E : exists e, i + S t * w = S e /\ i + t * w <= e) by (exists (i + S t * w - 1); nia).
    destruct E as (e & E & He). rewrite E in *. rewrite hits_S, D. pose proof (hits_mono _ _ He). lia. }
  apply G; auto.
Qed.

End Plateau.

(** ** StepLR *)
Fixpoint sl (steps : Z) (gamma lr : Q) (e : nat) : sched_state :=
  match e with
  | 0 => mkSched lr None 0 0
  | S e' => let st := sl steps gamma lr e' in
            mkSched (if Z.eqb (Z.of_nat e mod steps) 0 then (s_lr st * gamma)%Q else s_lr st) None 0 e
  end.

Lemma sl_shape steps gamma lr e : s_best (sl steps gamma lr e) = None /\ s_bad (sl steps gamma lr e) = 0 /\ s_last (sl steps gamma lr e) = e.
Proof. destruct e; cbn; auto. Qed.

Lemma sl_step steps gamma lr e : steps <> 0%Z -> step_lr steps gamma (sl steps gamma lr e) = Ok (sl steps gamma lr (S e)).
Proof.
  intros H. unfold step_lr. rewrite (proj2 (Z.eqb_neq _ _) H). destruct (sl_shape steps gamma lr e) as (-> & -> & ->). reflexivity.
Qed.

Lemma sl_rate steps gamma lr e : steps <> 0%Z -> s_lr (sl steps gamma lr e) = scaled lr gamma (e / Z.abs_nat steps).
Proof.
  intros Hs. assert (Hn : Z.abs_nat steps <> 0) by lia. set (n := Z.abs_nat steps) in *.
  assert (D : forall e, Z.eqb (Z.of_nat e mod steps) 0 = true <-> Nat.divide n e).
  { intros x. rewrite Z.eqb_eq, Z.mod_divide by auto. rewrite <- Z.divide_abs_l. rewrite <- Zabs2Nat.id_abs. fold n. split.
    - intros [z Hz]. exists (Z.to_nat z). nia.
    - intros [z Hz]. exists (Z.of_nat z). nia. }
  induction e as [|e IH]; cbn [sl s_lr]; [rewrite Nat.div_0_l; auto|]. rewrite IH.
  pose proof (Nat.div_mod e n Hn) as HD. pose proof (Nat.mod_upper_bound e n Hn) as HU.
  destruct (Nat.eq_dec (S (e mod n)) n) as [E|E].
  - replace (S e / n) with (S (e / n)); [|apply (Nat.div_unique (S e) n _ 0); nia].
    assert (Z.of_nat (S e) mod steps =? 0 = true)%Z as -> by (apply D; exists (S (e / n)); nia). reflexivity.
  - assert (EQ : S e / n = e / n) by (symmetry; apply (Nat.div_unique (S e) n _ (S (e mod n))); nia). rewrite EQ.
    destruct (Z.of_nat (S e) mod steps =? 0)%Z eqn:T; auto. exfalso. apply D in T as [q Hq].
    assert (S (e mod n) = S e mod n) by (apply (Nat.mod_unique _ _ (e / n)); nia).
    rewrite Hq, Nat.mod_mul in H by auto. lia.
Qed.

(** ** The loop *)
Lemma loop_last a h left : forall n x st' last, epoch_loop a h left n x = Ok (st', last) -> n - 1 <= last.
Proof.
  induction left as [|l IH]; intros n x st' last; cbn [epoch_loop]; [intros H; inversion H; lia|].
  destruct (if n =? 1 then _ else _); [|discriminate]. cbn [bind]. destruct (of_option _ _); [|discriminate]. cbn [bind].
  destruct (_ && _ && _); [intros H; inversion H; lia|]. destruct (py_mod _ _); [|discriminate]. cbn [bind]. intros H. apply IH in H. lia.
Qed.

Lemma loop_length a h left : forall n x st' last, 1 <= n -> epoch_loop a h left n x = Ok (st', last) ->
  List.length (l_val st') = List.length (l_val x) + (last - (n - 1)).
Proof.
  induction left as [|l IH]; intros n x st' last Hn; cbn [epoch_loop]; [intros H; inversion H; subst; lia|].
  destruct (if n =? 1 then _ else _); [|discriminate]. cbn [bind]. destruct (of_option _ _); [|discriminate]. cbn [bind].
  destruct (_ && _ && _); [intros H; inversion H; subst; cbn [l_val]; rewrite app_length; cbn; lia|].
  destruct (py_mod _ _); [|discriminate]. cbn [bind]. intros H. pose proof (loop_last _ _ _ _ _ _ _ H). apply IH in H; [|lia].
  rewrite H. cbn [l_val]. rewrite app_length. cbn. lia.
Qed.

Section Loop.
Context (s : scheduler) (lr_min : Q) (a : run_args) (h : history) (S_ : nat -> sched_state) (b : bool) (low : nat -> bool).
Hypothesis Hstep : forall e, decay s (r_minimize a) (r_early_stop a) lr_min (h_val h (S e)) (S_ e) = Ok (S_ (S e), b && r_early_stop a && low (S e)).

Lemma loop_refines left : forall e st rates,
  sched_loop s lr_min a h left (S e) st (S_ e) rates =
  let* (st', last) := epoch_loop (with_plateau b a) (with_low low h) left (S e) st in
  Ok (st', last, rates ++ map (fun i => s_lr (S_ i)) (seq e (last - e))).
Proof.
  induction left as [|left IH]; intros e st rates; cbn [sched_loop epoch_loop].
  - cbn [bind]. replace (S e - 1 - e) with 0 by lia. rewrite app_nil_r. reflexivity.
  - change (r_period (with_plateau b a)) with (r_period a). change (h_train (with_low low h)) with (h_train h).
    change (h_val (with_low low h)) with (h_val h). change (h_test (with_low low h)) with (h_test h).
    destruct (if S e =? 1 then Ok true else let* m := py_mod (S e) (r_period a) in Ok (m =? 0)) as [due|]; [|reflexivity]. cbn [bind].
    destruct (of_option NameError _) as [t|]; [|reflexivity]. cbn [bind]. rewrite Hstep. cbn [bind].
    change (r_plateau (with_plateau b a)) with b. change (r_early_stop (with_plateau b a)) with (r_early_stop a).
    change (h_low_lr (with_low low h)) with low. destruct (b && r_early_stop a && low (S e)) eqn:E.
    + cbn [bind]. replace (S e - e) with 1 by lia. reflexivity.
    + destruct (py_mod (S e) (r_period a)) as [x|]; [|reflexivity]. cbn [bind]. rewrite IH.
      destruct (epoch_loop (with_plateau b a) (with_low low h) left (S (S e)) _) as [[st' last]|] eqn:EL; [|reflexivity]. cbn [bind].
      pose proof (loop_last _ _ _ _ _ _ _ EL) as Hl.
      replace (last - e) with (S (last - S e)) by lia. cbn [seq map]. rewrite <- app_assoc. reflexivity.
Qed.

Lemma main_refines lr : r_untrained a = false -> make_scheduler s lr = Ok (S_ 0) -> 1 <= r_period a ->
  sched_main s lr lr_min a h =
  let* c := main (with_plateau b a) (with_low low h) in Ok (c, map (fun i => s_lr (S_ i)) (seq 0 (List.length (c_val c)))).
Proof.
  intros Hu Hm Hper. unfold sched_main, main. rewrite Hm. cbn [bind]. change (r_untrained (with_plateau b a)) with (r_untrained a). rewrite Hu.
  change (r_epochs (with_plateau b a)) with (r_epochs a). rewrite loop_refines.
  destruct (epoch_loop (with_plateau b a) (with_low low h) (r_epochs a) 1 (mkLoop [] [] [] None)) as [[st' last]|] eqn:E; [|reflexivity]. cbn [bind].
  change (r_minimize (with_plateau b a)) with (r_minimize a).
  destruct (if r_minimize a then np_argmin (l_val st') else np_argmax (l_val st')) as [best|]; [|reflexivity]. cbn [bind].
  cbn [with_plateau with_low r_sr h_train h_val h_test c_val app]. rewrite Nat.sub_0_r.
  replace (List.length (l_val st')) with last; [reflexivity|].
  apply loop_length in E; [|lia]. cbn in E. lia.
Qed.
End Loop.
