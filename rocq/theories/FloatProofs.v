From Coq Require Import List Arith ZArith Reals Lia Lra Bool Permutation.
From Flocq Require Import Core BinarySingleNaN Plus_error Relative.
From Verif Require Import Base ScatterModel ScatterSpec.
From Verif Require Import FloatModel FloatSpec.
Import ListNotations.
Open Scope R_scope.

Lemma bpow_pos_Z n : (0 <= n)%Z -> bpow radix2 n = IZR (2 ^ n).
Proof. intros H. rewrite <- IZR_Zpower by auto. reflexivity. Qed.

Lemma u_ro24 : u_ro radix2 24 = unit_roundoff.
Proof.
  unfold u_ro, unit_roundoff. replace (- (24) + 1)%Z with (Z.opp 23) by reflexivity. pose proof (bpow_opp radix2 23) as E.
  rewrite E, (bpow_pos_Z 23) by lia. change (2^24)%Z with (2 * 2^23)%Z. rewrite mult_IZR.
  rewrite Rinv_mult. reflexivity.
Qed.

Lemma u_pos : 0 < unit_roundoff.
Proof. unfold unit_roundoff. apply Rinv_0_lt_compat. apply IZR_lt. lia. Qed.

Lemma overflow_bpow : overflow = bpow radix2 128.
Proof. unfold overflow. symmetry. apply bpow_pos_Z. lia. Qed.

Notation fexp32 := (SpecFloat.fexp 24 128).
Notation rnd := (round radix2 fexp32 (round_mode mode_NE)).

Lemma val_format a : generic_format radix2 fexp32 (val a).
Proof. apply generic_format_B2R. Qed.

(** One addition. *)
Lemma round_add a b : exists e, Rabs e <= unit_roundoff /\ rnd (val a + val b) = (val a + val b) * (1 + e).
Proof.
  destruct (FLT_plus_error_N_ex radix2 (-149) 24 (fun x => negb (Z.even x)) (val a) (val b))
    as (e & He & E).
  - apply val_format.
  - apply val_format.
  - exists e. split; [|exact E]. rewrite u_ro24 in He. eapply Rle_trans; [exact He|].
    pose proof u_pos as U. apply Rmult_le_reg_r with (1 + unit_roundoff); [lra|].
    unfold Rdiv. rewrite Rmult_assoc, Rinv_l by lra. nra.
Qed.

Lemma fadd_spec a b : finite a -> finite b -> (1 + unit_roundoff) * (Rabs (val a) + Rabs (val b)) < overflow ->
  finite (fadd a b) /\ val (fadd a b) = rnd (val a + val b) /\
  Rabs (val (fadd a b) - (val a + val b)) <= unit_roundoff * (Rabs (val a) + Rabs (val b)).
Proof.
  intros Fa Fb H. destruct (round_add a b) as (e & He & E).
  pose proof (Bplus_correct 24 128 _ _ mode_NE a b Fa Fb) as HB. pose proof u_pos as U.
  pose proof (Rabs_triang (val a) (val b)) as T. pose proof (Rabs_pos (val a + val b)) as P.
  rewrite Rlt_bool_true in HB.
  - destruct HB as (Hv & Hf & _). split; [exact Hf|]. split; [exact Hv|].
    unfold fadd. unfold val at 1. rewrite Hv. fold (val a) (val b). rewrite E.
    replace ((val a + val b) * (1 + e) - (val a + val b)) with (e * (val a + val b)) by ring.
    rewrite Rabs_mult. apply Rmult_le_compat; auto; apply Rabs_pos.
  - fold (val a) (val b). rewrite E, Rabs_mult, <- overflow_bpow.
    eapply Rle_lt_trans; [|exact H]. rewrite Rmult_comm. apply Rmult_le_compat; auto using Rabs_pos.
    eapply Rle_trans; [apply Rabs_triang|]. rewrite Rabs_R1. lra.
Qed.

Lemma rsum_app l l' : rsum (l ++ l') = rsum l + rsum l'.
Proof. induction l as [|a l IH]; simpl; [lra|]. rewrite IH. lra. Qed.

Lemma rsum_perm l l' : Permutation l l' -> rsum l = rsum l'.
Proof. induction 1; simpl; lra. Qed.

Lemma rmass_perm l l' : Permutation l l' -> rmass l = rmass l'.
Proof. intros H. apply rsum_perm, Permutation_map, H. Qed.

Lemma rmass_pos l : 0 <= rmass l.
Proof. unfold rmass. induction l as [|a l IH]; simpl; [lra|]. pose proof (Rabs_pos a). lra. Qed.

Lemma pow_ge1 k : 1 <= (1 + unit_roundoff) ^ k.
Proof. apply pow_R1_Rle. pose proof u_pos. lra. Qed.

Lemma fold_err l : forall a, finite a -> Forall finite l ->
  (1 + unit_roundoff) ^ (length l) * (Rabs (val a) + rmass (map val l)) < overflow ->
  let s := fold_left fadd l a in
  finite s /\ Rabs (val s - (val a + rsum (map val l))) <= drift (length l) * (Rabs (val a) + rmass (map val l)).
Proof.
  induction l as [|b l IH]; intros a Fa Fl H; cbn [fold_left length map] in *.
  - unfold rmass, drift in *; simpl in *. split; auto. replace (val a - (val a + 0)) with 0 by ring. rewrite Rabs_R0. lra.
  - inversion Fl; subst. pose proof u_pos as U. pose proof (pow_ge1 (length l)) as P.
    pose proof (rmass_pos (map val l)) as M. pose proof (Rabs_pos (val a)). pose proof (Rabs_pos (val b)).
    assert (EM : rmass (val b :: map val l) = Rabs (val b) + rmass (map val l)) by reflexivity.
    assert (ES : rsum (val b :: map val l) = val b + rsum (map val l)) by reflexivity.
    rewrite EM in *. rewrite ES.
    set (u := unit_roundoff) in *. set (p := (1 + u) ^ length l) in *. set (A := Rabs (val a)) in *.
    set (B := Rabs (val b)) in *. set (L := rmass (map val l)) in *.
    assert (Hp : (1 + u) ^ S (length l) = (1 + u) * p) by reflexivity.
    rewrite Hp in H.
    destruct (fadd_spec a b Fa H2) as (Fs & _ & Es).
    { fold u A B. eapply Rle_lt_trans; [|exact H].
      rewrite Rmult_assoc. apply Rmult_le_compat_l; [lra|].
      rewrite <- (Rmult_1_l (A + B)). apply Rmult_le_compat; lra. }
    fold u A B in Es.
    assert (Ha : Rabs (val (fadd a b)) <= (1 + u) * (A + B)).
    { replace (val (fadd a b)) with ((val (fadd a b) - (val a + val b)) + (val a + val b)) by ring.
      eapply Rle_trans; [apply Rabs_triang|]. pose proof (Rabs_triang (val a) (val b)). fold A B in H4. lra. }
    assert (Hb : Rabs (val (fadd a b)) + L <= (1 + u) * (A + (B + L))) by nra.
    destruct (IH (fadd a b) Fs H3) as (F & E).
    { fold u. fold p. fold L. eapply Rle_lt_trans; [|exact H].
      replace ((1 + u) * p * (A + (B + L))) with (p * ((1 + u) * (A + (B + L)))) by ring.
      apply Rmult_le_compat_l; [lra|exact Hb]. }
    split; [exact F|]. cbv zeta in E.
    set (s := fold_left fadd l (fadd a b)) in *.
    replace (val s - (val a + (val b + rsum (map val l))))
      with ((val s - (val (fadd a b) + rsum (map val l))) + (val (fadd a b) - (val a + val b))) by ring.
    eapply Rle_trans; [apply Rabs_triang|].
    eapply Rle_trans; [apply Rplus_le_compat; [exact E|exact Es]|].
    unfold drift. fold u. rewrite Hp. fold p. fold L.
    assert ((p - 1) * (Rabs (val (fadd a b)) + L) <= (p - 1) * ((1 + u) * (A + (B + L)))).
    { apply Rmult_le_compat_l; lra. }
    nra.
Qed.

Lemma finite_bound a : finite a -> Rabs (val a) < overflow.
Proof. intros _. rewrite overflow_bpow. apply abs_B2R_lt_emax. Qed.

Lemma fadd_zero a : finite a -> finite (fadd fzero a) /\ val (fadd fzero a) = val a.
Proof.
  intros Fa. pose proof (Bplus_correct 24 128 _ _ mode_NE fzero a eq_refl Fa) as HB.
  change (B2R fzero) with 0 in HB. rewrite Rplus_0_l in HB.
  rewrite round_generic in HB; [|apply valid_rnd_round_mode|apply val_format].
  rewrite Rlt_bool_true in HB by (apply abs_B2R_lt_emax). destruct HB as (E & F & _). split; auto.
Qed.

Lemma fsum_err l : Forall finite l -> (1 + unit_roundoff) ^ (length l - 1) * rmass (map val l) < overflow ->
  let s := fold_left fadd l fzero in
  finite s /\ Rabs (val s - rsum (map val l)) <= drift (length l - 1) * rmass (map val l).
Proof.
  intros Fl H. destruct l as [|a l].
  - simpl. split; [reflexivity|]. unfold drift, rmass; simpl. change (val fzero) with 0.
    replace (0 - 0) with 0 by ring. rewrite Rabs_R0. lra.
  - inversion Fl; subst. destruct (fadd_zero a H2) as [F E]. cbn [fold_left length map] in *.
    rewrite Nat.sub_succ, Nat.sub_0_r in *.
    destruct (fold_err l (fadd fzero a) F H3) as [F' E'].
    + rewrite E. exact H.
    + rewrite E in E'. split; auto.
Qed.

(** Maxima and minima are never rounded. *)
Lemma fmax_val a b : finite a -> finite b -> finite (fmax a b) /\ val (fmax a b) = Rmax (val a) (val b).
Proof.
  intros Fa Fb. unfold fmax. rewrite Bltb_correct by auto. fold (val a) (val b).
  destruct (Rlt_bool_spec (val a) (val b)).
  - rewrite Rmax_right by lra. auto.
  - rewrite Rmax_left by lra. auto.
Qed.

Lemma fmin_val a b : finite a -> finite b -> finite (fmin a b) /\ val (fmin a b) = Rmin (val a) (val b).
Proof.
  intros Fa Fb. unfold fmin. rewrite Bltb_correct by auto. fold (val a) (val b).
  destruct (Rlt_bool_spec (val b) (val a)).
  - rewrite Rmin_right by lra. auto.
  - rewrite Rmin_left by lra. auto.
Qed.

Lemma fold_max l : forall a, finite a -> Forall finite l ->
  finite (fold_left fmax l a) /\ is_greatest (val (fold_left fmax l a)) (map val (a :: l)).
Proof.
  induction l as [|b l IH]; intros a Fa Fl; cbn [fold_left].
  - split; auto. split; [left; auto|]. apply Forall_cons; [apply Rle_refl|constructor].
  - inversion Fl; subst. destruct (fmax_val a b Fa H1) as [F E]. destruct (IH _ F H2) as (F' & I & G).
    split; auto. simpl in I, G. rewrite E in I, G. inversion G; subst.
    pose proof (Rmax_l (val a) (val b)). pose proof (Rmax_r (val a) (val b)). split.
    + simpl. destruct I as [I|I]; auto. unfold Rmax in I. destruct (Rle_dec (val a) (val b)); auto.
    + simpl. apply Forall_cons; [lra|]. apply Forall_cons; [lra|auto].
Qed.

Lemma fold_min l : forall a, finite a -> Forall finite l ->
  finite (fold_left fmin l a) /\ is_least (val (fold_left fmin l a)) (map val (a :: l)).
Proof.
  induction l as [|b l IH]; intros a Fa Fl; cbn [fold_left].
  - split; auto. split; [left; auto|]. apply Forall_cons; [apply Rle_refl|constructor].
  - inversion Fl; subst. destruct (fmin_val a b Fa H1) as [F E]. destruct (IH _ F H2) as (F' & I & G).
    split; auto. simpl in I, G. rewrite E in I, G. inversion G; subst.
    pose proof (Rmin_l (val a) (val b)). pose proof (Rmin_r (val a) (val b)). split.
    + simpl. destruct I as [I|I]; auto. unfold Rmin in I. destruct (Rle_dec (val a) (val b)); auto.
    + simpl. apply Forall_cons; [lra|]. apply Forall_cons; [lra|auto].
Qed.

Lemma greatest_perm m l l' : Permutation l l' -> is_greatest m l -> is_greatest m l'.
Proof. intros P [I F]. split; [eapply Permutation_in; eauto|]. rewrite Forall_forall in *. intros x Hx. apply F. eapply Permutation_in; [apply Permutation_sym, P|auto]. Qed.

Lemma greatest_unique m m' l : is_greatest m l -> is_greatest m' l -> m = m'.
Proof. intros [I F] [I' F']. rewrite Forall_forall in *. apply Rle_antisym; auto. Qed.

Lemma least_perm m l l' : Permutation l l' -> is_least m l -> is_least m l'.
Proof. intros P [I F]. split; [eapply Permutation_in; eauto|]. rewrite Forall_forall in *. intros x Hx. apply F. eapply Permutation_in; [apply Permutation_sym, P|auto]. Qed.

Lemma least_unique m m' l : is_least m l -> is_least m' l -> m = m'.
Proof. intros [I F] [I' F']. rewrite Forall_forall in *. apply Rle_antisym; auto. Qed.

(** Integers up to 2^24 are floats. *)
Lemma int_format z : (Z.abs z <= 2 ^ 24)%Z -> generic_format radix2 fexp32 (IZR z).
Proof.
  intros H. apply (generic_format_FLT radix2 (-149) 24).
  destruct (Z.eq_dec (Z.abs z) (2 ^ 24)) as [E|E].
  - exists (Float radix2 (Z.sgn z) 24).
    + unfold F2R; simpl. rewrite <- mult_IZR. f_equal. lia.
    + simpl. lia.
    + simpl. lia.
  - exists (Float radix2 z 0).
    + unfold F2R; simpl. ring.
    + simpl. lia.
    + simpl. lia.
Qed.

Lemma rnd_int z : (Z.abs z <= 2 ^ 24)%Z -> rnd (IZR z) = IZR z.
Proof. intros H. apply round_generic; [apply valid_rnd_round_mode|apply int_format, H]. Qed.

Lemma int_small z : (Z.abs z <= 2 ^ 24)%Z -> Rabs (IZR z) < bpow radix2 128.
Proof. intros H. rewrite <- abs_IZR, (bpow_pos_Z 128) by lia. apply IZR_lt. lia. Qed.

Lemma fZ_val z : (Z.abs z <= 2 ^ 24)%Z -> finite (fZ z) /\ val (fZ z) = IZR z.
Proof.
  intros H. pose proof (binary_normalize_correct 24 128 _ _ mode_NE z 0 false) as HB. cbv zeta in HB.
  assert (E : F2R (Float radix2 z 0) = IZR z) by (unfold F2R; simpl; ring).
  rewrite E, rnd_int, Rlt_bool_true in HB by (auto using int_small). destruct HB as (A & B & _). split; auto.
Qed.

Lemma fadd_int a b x y : finite a -> finite b -> val a = IZR x -> val b = IZR y -> (Z.abs (x + y) <= 2 ^ 24)%Z ->
  finite (fadd a b) /\ val (fadd a b) = IZR (x + y).
Proof.
  intros Fa Fb Ea Eb H. pose proof (Bplus_correct 24 128 _ _ mode_NE a b Fa Fb) as HB.
  fold (val a) (val b) in HB. rewrite Ea, Eb, <- plus_IZR, rnd_int, Rlt_bool_true in HB by (auto using int_small).
  destruct HB as (A & B & _). split; auto.
Qed.

Definition zsum (l : list Z) := fold_right Z.add 0%Z l.
Definition zmass (l : list Z) := zsum (map Z.abs l).

Lemma zmass_pos l : (0 <= zmass l)%Z.
Proof. unfold zmass. induction l as [|a l IH]; cbn [map zsum fold_right]; [lia|]. fold (zsum (map Z.abs l)). lia. Qed.

Lemma fold_int l : forall a x zs, finite a -> val a = IZR x -> Forall2 (fun b z => finite b /\ val b = IZR z) l zs ->
  (Z.abs x + zmass zs <= 2 ^ 24)%Z -> finite (fold_left fadd l a) /\ val (fold_left fadd l a) = IZR (x + zsum zs).
Proof.
  induction l as [|b l IH]; intros a x zs Fa Ea HF H; inversion HF as [|? z ? zs' [Fb Eb] HF']; subst.
  - simpl. rewrite Z.add_0_r. auto.
  - assert (EM : zmass (z :: zs') = (Z.abs z + zmass zs')%Z) by reflexivity.
    pose proof (zmass_pos zs'). rewrite EM in H.
    destruct (fadd_int a b x z Fa Fb Ea Eb) as [F E]; [lia|].
    cbn [fold_left]. destruct (IH _ _ zs' F E HF') as [F' E']; [lia|].
    split; auto. rewrite E'. f_equal. cbn [zsum fold_right]. fold (zsum zs'). lia.
Qed.

(** Division by the count. *)
Lemma eta32 : /2 * bpow radix2 (-149) = underflow.
Proof.
  unfold underflow. pose proof (bpow_opp radix2 149) as E.
  change (bpow radix2 (-149)) with (bpow radix2 (Z.opp 149)). rewrite E, (bpow_pos_Z 149) by lia. change (2^150)%Z with (2 * 2^149)%Z. rewrite mult_IZR.
  rewrite Rinv_mult. reflexivity.
Qed.

Lemma under_pos : 0 < underflow.
Proof. unfold underflow. apply Rinv_0_lt_compat. apply IZR_lt. lia. Qed.

Lemma fdiv_spec a n : finite a -> (1 <= n)%nat -> (Z.of_nat n <= 2 ^ 24)%Z ->
  finite (fdiv a (fZ (Z.of_nat n))) /\
  Rabs (val (fdiv a (fZ (Z.of_nat n))) - val a / INR n) <= unit_roundoff * (Rabs (val a) / INR n) + underflow.
Proof.
  intros Fa Hn Hn'. destruct (fZ_val (Z.of_nat n)) as [Fn En]; [lia|]. rewrite <- INR_IZR_INZ in En.
  assert (P : 1 <= INR n) by (apply (le_INR 1); lia).
  pose proof (Bdiv_correct 24 128 _ _ mode_NE a (fZ (Z.of_nat n))) as HB.
  fold (val a) (val (fZ (Z.of_nat n))) in HB. rewrite En in HB. specialize (HB ltac:(lra)).
  assert (Ha : Rabs (val a / INR n) <= Rabs (val a)).
  { unfold Rdiv. rewrite Rabs_mult, (Rabs_right (/ INR n)).
    - rewrite <- (Rmult_1_r (Rabs (val a))) at 2. apply Rmult_le_compat_l; [apply Rabs_pos|].
      rewrite <- Rinv_1. apply Rinv_le_contravar; lra.
    - apply Rle_ge, Rlt_le, Rinv_0_lt_compat; lra. }
  assert (Hr : Rabs (rnd (val a / INR n)) <= Rabs (val a)).
  { apply abs_round_le_generic; auto.
    - apply fexp_correct. reflexivity.
    - apply valid_rnd_round_mode.
    - apply generic_format_abs, val_format. }
  rewrite Rlt_bool_true in HB.
  - destruct HB as (E & F & _). unfold finite in *. split; [unfold fdiv; rewrite F; auto|].
    unfold fdiv. unfold val at 1. rewrite E.
    destruct (error_N_FLT radix2 (-149) 24 ltac:(lia) (fun x => negb (Z.even x)) (val a / INR n)) as (e & t & He & Ht & _ & R).
    change (round radix2 (FLT_exp (-149) 24) (Znearest (fun x => negb (Z.even x))) (val a / INR n)) with (rnd (val a / INR n)) in R.
    rewrite R. fold (u_ro radix2 24) in He. rewrite u_ro24 in He. rewrite eta32 in Ht.
    replace (val a / INR n * (1 + e) + t - val a / INR n) with (e * (val a / INR n) + t) by ring.
    eapply Rle_trans; [apply Rabs_triang|]. apply Rplus_le_compat; auto. rewrite Rabs_mult.
    assert (Q : Rabs (val a / INR n) = Rabs (val a) / INR n).
    { unfold Rdiv. rewrite Rabs_mult, (Rabs_right (/ INR n)); auto. apply Rle_ge, Rlt_le, Rinv_0_lt_compat; lra. }
    rewrite Q. apply Rmult_le_compat_r; auto. rewrite <- Q. apply Rabs_pos.
  - eapply Rle_lt_trans; [exact Hr|]. rewrite <- overflow_bpow. apply finite_bound, Fa.
Qed.
