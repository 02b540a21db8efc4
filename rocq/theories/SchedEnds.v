(** Early stopping ends every training whose scores stay between positive bounds (C72). *)
From Coq Require Import List Arith Lia ZArith QArith Qround Bool Lqa.
From Verif Require Import Base LiftModel ExpModel ExpSpec ExpProofs ExpProps.
From Verif Require Import SchedModel SchedSpec SchedProofs SchedProps.
Import ListNotations.
Open Scope nat_scope.

Section Improvements.
Context (m : bool) (val : nat -> option Q) (factor patience lr : Q).
Hypothesis Hp : (0 <= patience)%Q.
Notation w := (wait_of patience).
Notation pl := (pl m val factor patience lr).
Notation hits := (hits m val factor patience lr).

(** [I] improvements up to epoch [e]: each costs at most [w] epochs, as does each reduction. *)
Lemma improvements e : exists I, e <= w * (hits e + I) + s_bad (pl e) /\ s_bad (pl e) < w /\
  match s_best (pl e) with None => I = 0 | Some _ => 1 <= I end /\
  forall lo hi, (0 < lo)%Q -> (forall e' q, 1 <= e' <= e -> val e' = Some q -> (lo <= q <= hi)%Q) ->
    match s_best (pl e) with
    | None => True
    | Some b => if m then (lo <= b /\ b <= scaled hi (9999 # 10000) (I - 1))%Q
                else (scaled lo (10001 # 10000) (I - 1) <= b /\ b <= hi)%Q
    end.
Proof.
  pose proof (wait_pos patience Hp) as Hw.
  induction e as [|e (I & U & B & N & G)].
  - exists 0. cbn [SchedProofs.pl s_bad s_best]. split; [lia|]. split; [lia|]. split; [reflexivity|]. intros; exact Logic.I.
  - rewrite hits_S. cbn [SchedProofs.pl hit]. unfold plateau_step. cbv zeta. set (s := pl e) in *.
    destruct (is_better m (val (S e)) (s_best s)) eqn:IB.
    + assert (P0 : Qltb patience (inject_Z (Z.of_nat 0)) = false).
      { destruct (Qltb _ _) eqn:T; auto. apply patience_wait in T; auto. lia. }
      rewrite P0. cbn [s_bad s_best]. exists (S I). split; [nia|]. split; [lia|].
      destruct (val (S e)) as [a|] eqn:Va; [|discriminate IB]. split; [lia|].
      intros lo hi Hlo HB. assert (Ha := HB (S e) a ltac:(lia) Va).
      specialize (G lo hi Hlo ltac:(intros e' q He; apply HB; lia)).
      destruct (s_best s) as [b|].
      * apply is_better_iff in IB. unfold beats in IB. replace (S I - 1) with (S (I - 1)) by lia.
        destruct m; cbn [scaled]; split; try tauto; destruct G; lra.
      * subst I. cbn [Nat.sub scaled]. destruct m; tauto.
    + assert (N' : match s_best s with None => I = 0 | Some _ => 1 <= I end) by exact N.
      assert (G' : forall lo hi, (0 < lo)%Q -> (forall e' q, 1 <= e' <= S e -> val e' = Some q -> (lo <= q <= hi)%Q) ->
        match s_best s with
        | None => True
        | Some b => if m then (lo <= b /\ b <= scaled hi (9999 # 10000) (I - 1))%Q
                else (scaled lo (10001 # 10000) (I - 1) <= b /\ b <= hi)%Q end).
      { intros lo hi Hlo HB. apply G; auto. intros e' q He. apply HB. lia. }
      exists I. destruct (Qltb patience (inject_Z (Z.of_nat (S (s_bad s))))) eqn:T; cbn [s_bad s_best].
      * split; [nia|]. split; [lia|]. split; [exact N'|exact G'].
      * assert (S (s_bad s) < w).
        { destruct (le_lt_dec w (S (s_bad s))) as [L|L]; auto. apply patience_wait in L; auto. congruence. }
        split; [nia|]. split; [lia|]. split; [exact N'|exact G'].
Qed.
End Improvements.

Lemma scaled_up lo j j' : (0 < lo)%Q -> j <= j' -> (0 < scaled lo (10001 # 10000) j' /\ scaled lo (10001 # 10000) j <= scaled lo (10001 # 10000) j')%Q.
Proof.
  intros Hlo H. assert (P : forall n, (0 < scaled lo (10001 # 10000) n)%Q) by (induction n; cbn [scaled]; lra).
  split; [apply P|]. induction H as [|j' H IH]; [apply Qle_refl|]. cbn [scaled]. specialize (P j'). lra.
Qed.

(** Each reduction that is needed and each of the at most [M] improvements that fit between the bounds accounts for at
    most the patience (plus one) epochs: however many epochs are asked for, and whatever the scores are. *)
Theorem C72_ends factor patience lr lr_min a h c rates K M lo hi : plateau_ok factor patience lr -> trains a -> r_early_stop a = true ->
  sched_main (Plateau factor patience) lr lr_min a h = Ok (c, rates) ->
  1 <= K -> (scaled lr factor K < lr_min)%Q -> (forall j, j < K -> effective lr factor j) ->
  (0 < lo)%Q -> (forall e q, 1 <= e <= r_epochs a -> h_val h e = Some q -> (lo <= q <= hi)%Q) ->
  (if r_minimize a then scaled hi (9999 # 10000) M < lo else hi < scaled lo (10001 # 10000) M)%Q ->
  List.length rates <= wait_of patience * (K + M).
Proof.
  intros HO HT Hes Hrun HK1 HK Heff Hlo HB HM. pose proof HO as (Hf0 & Hf1 & Hp & Hlr).
  pose proof (wait_pos patience Hp) as Hw.
  destruct (C72_plateau factor patience lr lr_min a h HO HT) as (c' & rates' & rate & stop & n & Hrun' & Hrate & Hstop & HL & Er & _).
  assert (ER : rates' = rates) by congruence. rewrite ER in Er. rewrite Er, map_length, seq_length.
  destruct HL as (L1 & L2 & _). destruct n as [|[|n]]; [lia|nia|].
  assert (NS : stop (S n) = false) by (apply L2; lia).
  destruct (Hrate (S n)) as (k & Hk & (j & Hj & E & _ & Hend)).
  assert (k = hits (r_minimize a) (h_val h) factor patience lr (S n)) by (eapply times_due_fun; [exact Hk|apply hits_due; auto]).
  assert (kK : k < K).
  { destruct (le_lt_dec K k) as [L|L]; auto. exfalso.
    assert (K <= j). { destruct Hend as [Hend|Hend]; [lia|]. destruct (le_lt_dec K j); auto. exfalso. apply Hend, Heff. auto. }
    enough (HH : stop (S n) = true) by congruence. apply Hstop. split; auto. rewrite E.
    eapply Qle_lt_trans; [apply (scaled_mono factor lr (conj Hf0 Hf1) Hlr K j); auto|auto]. }
  destruct (improvements (r_minimize a) (h_val h) factor patience lr Hp (S n)) as (I & U & B & N & G).
  specialize (G lo hi Hlo ltac:(intros e q He; apply HB; lia)).
  assert (IM : I <= M).
  { destruct (s_best _) as [b|]; [|lia]. destruct (le_lt_dec I M) as [|L]; auto. exfalso. destruct (r_minimize a); destruct G as [G1 G2].
    - assert (Hh : (0 <= hi)%Q).
      { destruct (Qlt_le_dec hi 0) as [Y|Y]; [|exact Y]. exfalso.
        assert (Z : forall x, (scaled hi (9999 # 10000) x < 0)%Q) by (induction x; cbn [scaled]; lra). specialize (Z (I - 1)). lra. }
      assert (P := scaled_mono (9999 # 10000) hi ltac:(split; [discriminate|reflexivity]) Hh M (I - 1) ltac:(lia)). lra.
    - destruct (scaled_up lo M (I - 1) Hlo ltac:(lia)). lra. }
  subst k. nia.
Qed.

(** The threshold is relative: a negative score that is maximised improves in every epoch although it stays the same, and
    the rate is never reduced. *)
Theorem C72_negative_refuted factor patience lr lr_min a h c rates q : plateau_ok factor patience lr -> trains a ->
  r_minimize a = false -> (q < 0)%Q -> (lr_min <= lr)%Q -> (forall e, h_val h e = Some q) ->
  sched_main (Plateau factor patience) lr lr_min a h = Ok (c, rates) ->
  List.length rates = r_epochs a /\ forall r, In r rates -> (r == lr)%Q.
Proof.
  intros HO HT Hm Hq Hmin Hv Hrun. pose proof HO as (Hf0 & Hf1 & Hp & Hlr).
  destruct (C72_plateau factor patience lr lr_min a h HO HT) as (c' & rates' & rate & stop & n & Hrun' & Hrate & Hstop & HL & Er & _).
  assert (ER : rates' = rates) by congruence. rewrite ER in Er.
  assert (LI : forall e, last_improvement (r_minimize a) (h_val h) e e).
  { induction e as [|e IH]; [constructor|]. destruct e as [|e]; [eapply li_first; eauto|].
    eapply li_better; eauto; [lia|]. rewrite Hm. unfold beats. lra. }
  assert (R : forall e, (rate e == lr)%Q).
  { intros e. destruct (Hrate e) as (k & (l & _ & Hl & Hin) & (j & Hj & E & _)).
    assert (l = []).
    { destruct l as [|x l]; auto. exfalso. destruct (proj1 (Hin x) (or_introl eq_refl)) as [_ (i & Hi & Hlt & _)].
      assert (i = x) by (eapply li_fun; eauto). lia. }
    subst l. cbn in Hl. assert (j = 0) by lia. subst j. exact E. }
  destruct HL as (L1 & _ & L3). split.
  - rewrite Er, map_length, seq_length. destruct L3 as [L3|L3]; auto. exfalso. apply Hstop in L3 as [_ L3]. rewrite R in L3. lra.
  - intros r Hr. rewrite Er in Hr. apply in_map_iff in Hr as (e & <- & _). apply R.
Qed.

(** With the defaults and scores from 1/2 to 5005/10000 at most 11 improvements fit: 198 epochs. *)
Example C72_ex_ends a h c rates : trains a -> r_early_stop a = true -> r_minimize a = false ->
  (forall e q, 1 <= e <= r_epochs a -> h_val h e = Some q -> (1 # 2 <= q <= 5005 # 10000)%Q) ->
  sched_main (Plateau (1 # 2) 10) default_lr default_min a h = Ok (c, rates) -> List.length rates <= 198.
Proof.
  intros HT Hes Hm HB Hrun. assert (HO : plateau_ok (1 # 2) 10 default_lr) by (unfold plateau_ok, default_lr; repeat split; lra).
  apply (C72_ends (1 # 2) 10 default_lr default_min a h c rates 7 11 (1 # 2) (5005 # 10000) HO HT Hes Hrun); auto; [lia|reflexivity| |reflexivity|].
  - intros j Hj. do 7 (destruct j as [|j]; [reflexivity|]). lia.
  - rewrite Hm. reflexivity.
Qed.

Example C72_ex_negative : exists c rates,
  sched_main (Plateau (1 # 2) 1) default_lr default_min (mkRun 20 10 false false true false false)
    (mkHistory (fun _ => Some 1%Q) (fun _ => Some (- (1 # 2))%Q) None (fun _ => false)) = Ok (c, rates) /\ List.length rates = 20.
Proof. eexists _, _. split; [vm_compute; reflexivity|]. reflexivity. Qed.

Print Assumptions C72_ends.
Print Assumptions C72_negative_refuted.
