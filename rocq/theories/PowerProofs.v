(** Encoding multisets of numbers by sums of powers; the network that separates what colour refinement
    separates. *)
From Coq Require Import List Arith Lia ZArith Bool Permutation.
From Coq Require Cantor.
From Verif Require Import Base ScatterModel ScatterSpec ScatterProofs ComplexModel BatchSpec BatchSpec2
  MPModel MPSpec MPProofs MPBatch MPNets MPIso GraphNetProofs PowerSpec.
Import ListNotations.

(** ** Multisets *)
Definition menc (B : nat) (l : list nat) : nat := list_sum (map (Nat.pow B) l).

Lemma list_sum_perm l l' : Permutation l l' -> list_sum l = list_sum l'.
Proof. induction 1; simpl; lia. Qed.
Lemma menc_perm B l l' : Permutation l l' -> menc B l = menc B l'.
Proof. intros H. apply list_sum_perm, Permutation_map, H. Qed.
Lemma menc_app B l l' : menc B (l ++ l') = menc B l + menc B l'.
Proof. unfold menc. rewrite map_app, list_sum_app. auto. Qed.
Lemma menc_S B l : menc B (map S l) = B * menc B l.
Proof. unfold menc. rewrite map_map. induction l as [|a l IH]; cbn [map list_sum]; [simpl; lia|]. unfold list_sum in *. cbn [fold_right] in *. rewrite IH. cbn [Nat.pow]. lia. Qed.
Lemma menc_0 B z : menc B (repeat 0 z) = z.
Proof. unfold menc. induction z as [|z IH]; [reflexivity|]. cbn [repeat map]. unfold list_sum in *. cbn [fold_right Nat.pow]. lia. Qed.

Lemma split_zeros l : exists z l1, Permutation l (repeat 0 z ++ map S l1) /\ z + length l1 = length l.
Proof.
  induction l as [|[|a] l (z & l1 & H & E)].
  - exists 0, []. split; auto.
  - exists (S z), l1. split; [simpl; auto|simpl; lia].
  - exists z, (a :: l1). split; [|simpl; lia]. cbn [map]. apply Permutation_cons_app. auto.
Qed.

Lemma menc_inj B : forall N l l', Forall (fun x => x < N) l -> Forall (fun x => x < N) l' -> length l < B -> length l' < B ->
  menc B l = menc B l' -> Permutation l l'.
Proof.
  induction N as [|N IH]; intros l l' HF HF' Hl Hl' HE.
  - destruct HF as [|x l Hx]; [|lia]. destruct HF' as [|x l' Hx]; [auto|lia].
  - destruct (split_zeros l) as (z & l1 & HP & E). destruct (split_zeros l') as (z' & l1' & HP' & E').
    rewrite (menc_perm B _ _ HP), (menc_perm B _ _ HP'), !menc_app, !menc_0, !menc_S in HE.
    destruct (Nat.div_mod_unique B (menc B l1) (menc B l1') z z') as [E1 E2]; [lia|lia|lia|].
    assert (HL : Permutation l1 l1').
    { apply IH; auto; try lia.
      - rewrite (Permutation_Forall HP) in HF by auto. apply Forall_app in HF as [_ HF]. rewrite Forall_map in HF.
        eapply Forall_impl; [|exact HF]. cbv beta. lia.
      - rewrite (Permutation_Forall HP') in HF' by auto. apply Forall_app in HF' as [_ HF']. rewrite Forall_map in HF'.
        eapply Forall_impl; [|exact HF']. cbv beta. lia. }
    subst z'. rewrite HP, HP'. apply Permutation_app_head, Permutation_map, HL.
Qed.

Lemma menc_iff B l l' : length l < B -> length l' < B -> (menc B l = menc B l' <-> Permutation l l').
Proof.
  intros Hl Hl'. split; [|apply menc_perm]. apply (menc_inj B (S (list_max (l ++ l')))); auto; apply Forall_forall; intros x Hx;
    apply Nat.lt_succ_r, (proj1 (list_max_le (l ++ l') (list_max (l ++ l'))) (le_n _) x) || idtac.
  - assert (H : Forall (fun k => k <= list_max (l ++ l')) (l ++ l')) by (apply list_max_le; auto).
    rewrite Forall_forall in H. apply Nat.lt_succ_r, H, in_or_app. auto.
  - assert (H : Forall (fun k => k <= list_max (l ++ l')) (l ++ l')) by (apply list_max_le; auto).
    rewrite Forall_forall in H. apply Nat.lt_succ_r, H, in_or_app. auto.
Qed.

Lemma pow_inj B a b : 2 <= B -> B ^ a = B ^ b -> a = b.
Proof. intros H. apply Nat.pow_inj_r. lia. Qed.

Lemma pair_inj a b c d : pair_code a b = pair_code c d -> a = c /\ b = d.
Proof. unfold pair_code. intros H. apply Cantor.to_nat_inj in H. inversion H. auto. Qed.

Lemma perm_transfer {A A' E E'} (p : A -> E) (p' : A' -> E) (q : A -> E') (q' : A' -> E') l l' :
  (forall a a', In a l -> In a' l' -> p a = p' a' -> q a = q' a') ->
  Permutation (map p l) (map p' l') -> Permutation (map q l) (map q' l').
Proof.
  intros H HP. destruct (Permutation_map_inv _ _ HP) as (m & Em & Hm).
  rewrite (Permutation_map q' Hm). cut (map q l = map q' m); [intros ->; auto|].
  assert (HI : forall a', In a' m -> In a' l') by (intros a' Ha; eapply Permutation_in; [apply Permutation_sym, Hm|auto]).
  clear Hm HP. revert m Em HI H. induction l as [|a l IH]; intros [|b m] Em HI H; cbn [map] in *; try discriminate; auto.
  inversion Em. f_equal.
  - apply H; [left; auto|apply HI; left; auto|auto].
  - apply IH; auto; [intros; apply HI; right; auto|]. intros; apply H; [right; auto| |]; auto.
Qed.

(** Own row and messages can be read off their sum. *)
Lemma first_sep B F x x' P P' : length P < B -> length P' < B -> x < F -> x' < F ->
  F * menc B P + x = F * menc B P' + x' <-> x = x' /\ Permutation P P'.
Proof.
  intros HP HP' Hx Hx'. rewrite <- (menc_iff B) by auto. split; [|intros [-> ->]; auto].
  intros H. destruct (Nat.div_mod_unique F (menc B P) (menc B P') x x'); auto.
Qed.

Definition odd_code (e : nat) : nat := 2 * e + 1.
Lemma odd_perm P P' : Permutation (map odd_code P) (map odd_code P') <-> Permutation P P'.
Proof.
  split; [|apply Permutation_map]. intros H. rewrite <- (map_id P), <- (map_id P').
  apply (perm_transfer odd_code odd_code); auto. unfold odd_code. intros; lia.
Qed.

Lemma next_sep B c c' P P' : S (length P) < B -> S (length P') < B ->
  menc B (map odd_code P) + B ^ (2 * c) = menc B (map odd_code P') + B ^ (2 * c') <-> c = c' /\ Permutation P P'.
Proof.
  intros HP HP'. rewrite <- odd_perm.
  assert (E : forall q Q, menc B (map odd_code Q) + B ^ (2 * q) = menc B (2 * q :: map odd_code Q)).
  { intros q Q. unfold menc. cbn [map]. unfold list_sum. cbn [fold_right]. lia. }
  rewrite !E, menc_iff by (cbn [length]; rewrite map_length; auto). split.
  - intros H. assert (Hin : In (2 * c) (2 * c' :: map odd_code P')) by (eapply Permutation_in; [exact H|left; auto]).
    assert (c = c').
    { destruct Hin as [Hin|Hin]; [lia|]. apply in_map_iff in Hin as (e & He & _). unfold odd_code in He. lia. }
    subst c'. split; auto. eapply Permutation_cons_inv; eauto.
  - intros [-> H]. constructor. auto.
Qed.

(** ** The rows after every layer *)
Lemma zsum {A} (g : A -> nat) l : fold_left (vadd Zops) (map (fun e => Z.of_nat (g e)) l) (vzero Zops) = Z.of_nat (list_sum (map g l)).
Proof.
  cbn. assert (H : forall z, fold_left Z.add (map (fun e => Z.of_nat (g e)) l) z = (z + Z.of_nat (list_sum (map g l)))%Z).
  { induction l as [|a l IH]; intros z; cbn [map fold_left]; [unfold list_sum; cbn; lia|]. rewrite IH. unfold list_sum. cbn [fold_right]. lia. }
  rewrite H. lia.
Qed.

Section Rows.
Variables (B F pdim : nat).
Definition code_layer (l : nat) : layer Z := mkLayer (fun d => sparse_rule Zops (code_level B F l d)) None.

Fixpoint rows (S : skel) (X : feats Z) (l : nat) : feats Z :=
  match l with 0 => X | Datatypes.S l' => step Zops pdim true S (code_layer l') (rows S X l') end.

Lemma rows_last S X n : last (history Zops pdim true S (sparse_layers Zops (code_layers B F n)) X) X = rows S X n.
Proof.
  unfold code_layers, sparse_layers. rewrite map_map.
  assert (H : forall n a Y, Y = rows S X a -> last (history Zops pdim true S (map (fun l => mkLayer (fun d => sparse_rule Zops (code_level B F l d)) None) (seq a n)) Y) Y = rows S X (a + n)).
  { clear n. induction n as [|n IH]; intros a Y ->; [cbn; f_equal; lia|].
    cbn [seq map history]. rewrite last_cons'. rewrite (IH (Datatypes.S a)); [f_equal; lia|reflexivity]. }
  apply (H n 0 X eq_refl).
Qed.

Definition num (Y : feats Z) (d i : nat) : nat := Z.to_nat (Y d i).
Definition ups_of (S : skel) (Y : feats Z) (d i : nat) : list nat :=
  map (fun e => pair_code (num Y d (fst (fst e))) (num Y (d + 1) (snd e))) (up_at S d i).
Definition bnds_of (S : skel) (Y : feats Z) (d i : nat) : list nat :=
  map (fun p => num Y (pred d) (fst p)) (bnd_at S d i).

Lemma first_row S X d i : d <= pdim -> (0 <= X d i)%Z -> rows S X 1 d i =
  exp_row B (2 * pair_code (F * menc B (ups_of S X d i) + num X d i) (F * menc B (bnds_of S X d i) + num X d i)).
Proof.
  intros Hd HX. cbn [rows]. unfold step. rewrite (proj2 (Nat.leb_le d pdim) Hd).
  unfold new_feature, agg_up, agg_low, agg_bnd, cob_visible. rewrite orb_true_r.
  cbn [code_layer l_rule code_level Nat.eqb sparse_rule cfg_rule sparse_cfg r_up r_low r_bnd r_aup r_abnd r_upd g_msg_up g_down g_bnd
    g_aggr_up g_aggr_bnd g_msg_bnd msg_fun first_level sp_up sp_bnd sp_upd_up sp_upd_bnd sp_comb sp_s1 sp_s2 reduce_rows].
  unfold out_row. do 2 f_equal.
  rewrite (zsum (fun e => F * B ^ pair_code (Z.to_nat (X d (fst (fst e)))) (Z.to_nat (X (d + 1) (snd e))))).
  rewrite (zsum (fun p => F * B ^ (Z.to_nat (X (pred d) (fst p))))).
  assert (E : forall {A} (g : A -> nat) l, list_sum (map (fun e => F * B ^ g e) l) = F * menc B (map g l)).
  { intros A g l. unfold menc. rewrite map_map. unfold list_sum. induction l as [|a l IH]; cbn [map fold_right]; lia. }
  rewrite !E. cbn [vadd Zops]. unfold ups_of, bnds_of, num in *. f_equal; rewrite <- (Z2Nat.id (X d i)) at 1 by auto; lia.
Qed.

Lemma next_row S X l d i : d <= pdim -> (0 <= rows S X (Datatypes.S l) d i)%Z -> rows S X (Datatypes.S (Datatypes.S l)) d i =
  let Y := rows S X (Datatypes.S l) in
  exp_row B (2 * pair_code (menc B (map odd_code (ups_of S Y d i)) + num Y d i) (menc B (map odd_code (bnds_of S Y d i)) + num Y d i)).
Proof.
  intros Hd HX. cbv zeta. set (Y := rows S X (Datatypes.S l)) in *.
  change (rows S X (Datatypes.S (Datatypes.S l))) with (step Zops pdim true S (code_layer (Datatypes.S l)) Y).
  unfold step. rewrite (proj2 (Nat.leb_le d pdim) Hd).
  unfold new_feature, agg_up, agg_low, agg_bnd, cob_visible. rewrite orb_true_r.
  cbn [code_layer l_rule code_level Nat.eqb sparse_rule cfg_rule sparse_cfg r_up r_low r_bnd r_aup r_abnd r_upd g_msg_up g_down g_bnd
    g_aggr_up g_aggr_bnd g_msg_bnd msg_fun next_level sp_up sp_bnd sp_upd_up sp_upd_bnd sp_comb sp_s1 sp_s2 reduce_rows].
  unfold out_row. unfold exp_row. do 3 f_equal.
  rewrite (zsum (fun e => B ^ (2 * pair_code (Z.to_nat (Y d (fst (fst e)))) (Z.to_nat (Y (d + 1) (snd e))) + 1))).
  rewrite (zsum (fun p => B ^ (2 * Z.to_nat (Y (pred d) (fst p)) + 1))).
  assert (E : forall {A} (g : A -> nat) l, list_sum (map (fun e => B ^ (2 * g e + 1)) l) = menc B (map odd_code (map g l))).
  { intros A g l0. unfold menc. rewrite !map_map. auto. }
  rewrite !E. cbn [vadd Zops]. unfold ups_of, bnds_of, num in *. f_equal; rewrite <- (Z2Nat.id (Y d i)) at 1 by auto; lia.
Qed.

(** Rows are not negative; after the first layer they are even powers of [B]. *)
Lemma rows_nonneg S X : (forall d i, (0 <= X d i)%Z) -> forall l d i, (0 <= rows S X l d i)%Z.
Proof.
  intros HX l. induction l as [|l IH]; intros d i; [apply HX|].
  destruct (Nat.le_gt_cases d pdim) as [Hd|Hd].
  - destruct l as [|l]; [rewrite first_row by auto|rewrite next_row by auto]; unfold exp_row; lia.
  - cbn [rows]. unfold step. replace (d <=? pdim) with false by (symmetry; apply Nat.leb_gt; auto). cbn. auto.
Qed.

Lemma rows_power S X l d i : (forall d i, (0 <= X d i)%Z) -> d <= pdim ->
  exists c, num (rows S X (Datatypes.S l)) d i = B ^ (2 * c).
Proof.
  intros HX Hd. unfold num. destruct l as [|l]; [rewrite first_row by auto|rewrite next_row by (auto; apply rows_nonneg; auto)];
    cbv zeta; unfold exp_row; eexists; apply Nat2Z.id.
Qed.

(** ** Rows are equal exactly when colours are *)
Section Two.
Context {C : Type} (col0 : nat -> Z -> C) (hash : C -> list (C * C) -> list C -> C).
Hypothesis Hcol : ideal_init col0.
Hypothesis Hhash : ideal_hash hash.
Variables (S S' : skel) (X X' : feats Z).

Definition small (S : skel) (X : feats Z) : Prop :=
  (forall d i, (0 <= X d i < Z.of_nat F)%Z) /\
  (forall d i, Datatypes.S (length (up_at S d i)) < B) /\ (forall d i, Datatypes.S (length (bnd_at S d i)) < B) /\
  (forall d, pdim <= d -> s_up S d = []).
Hypothesis HS : small S X.
Hypothesis HS' : small S' X'.

Lemma num_eq Y Y' d i i' : (forall d i, (0 <= Y d i)%Z) -> (forall d i, (0 <= Y' d i)%Z) ->
  (num Y d i = num Y' d i' <-> Y d i = Y' d i').
Proof. intros H H'. unfold num. split; [apply Z2Nat.inj; auto|congruence]. Qed.

Lemma exp_eq e e' : 2 <= B -> (exp_row B (2 * e) = exp_row B (2 * e') <-> e = e').
Proof. intros HB. unfold exp_row. split; [|congruence]. intros H. apply Nat2Z.inj, pow_inj in H; [lia|auto]. Qed.
Lemma pair_eq a b c d : pair_code a b = pair_code c d <-> a = c /\ b = d.
Proof. split; [apply pair_inj|intros [-> ->]; auto]. Qed.

Theorem rows_colours l : forall d i i', d <= pdim ->
  (rows S X l d i = rows S' X' l d i' <-> colour col0 hash S X l d i = colour col0 hash S' X' l d i').
Proof.
  destruct HS as (HX & HU & HB & HT). destruct HS' as (HX' & HU' & HB' & HT').
  assert (N : forall d i, (0 <= X d i)%Z) by (intros; apply HX). assert (N' : forall d i, (0 <= X' d i)%Z) by (intros; apply HX').
  assert (B2 : 2 <= B) by (specialize (HU 0 0); lia).
  induction l as [|l IH]; intros d i i' Hd.
  - cbn [rows colour]. symmetry. apply Hcol.
  - cbn [colour]. rewrite (Hhash _ _ _ _ _ _).
    pose proof (rows_nonneg S X N l) as NR. pose proof (rows_nonneg S' X' N' l) as NR'.
    assert (PU : Permutation (ups_of S (rows S X l) d i) (ups_of S' (rows S' X' l) d i') <->
      Permutation (map (fun e => (colour col0 hash S X l d (fst (fst e)), colour col0 hash S X l (d + 1) (snd e))) (up_at S d i))
                  (map (fun e => (colour col0 hash S' X' l d (fst (fst e)), colour col0 hash S' X' l (d + 1) (snd e))) (up_at S' d i'))).
    { unfold ups_of. assert (L : forall e, In e (up_at S d i) -> d + 1 <= pdim).
      { intros e He. apply filter_In in He as [He _]. destruct (Nat.le_gt_cases pdim d) as [G|G]; [rewrite HT in He by auto; destruct He|lia]. }
      split; apply perm_transfer; intros e e' He _ E; specialize (L e He).
      - apply pair_inj in E as [E1 E2]. apply num_eq in E1, E2; auto. apply IH in E1, E2; auto. congruence.
      - inversion E as [[E1 E2]]. apply IH in E1, E2; auto. apply pair_eq. split; apply num_eq; auto. }
    assert (PB : Permutation (bnds_of S (rows S X l) d i) (bnds_of S' (rows S' X' l) d i') <->
      Permutation (map (fun p => colour col0 hash S X l (pred d) (fst p)) (bnd_at S d i))
                  (map (fun p => colour col0 hash S' X' l (pred d) (fst p)) (bnd_at S' d i'))).
    { unfold bnds_of. split; apply perm_transfer; intros e e' _ _ E.
      - apply num_eq in E; auto. apply IH in E; auto; lia.
      - apply num_eq; auto. apply IH; auto; lia. }
    rewrite <- PU, <- PB, <- IH by auto. clear PU PB.
    rewrite <- (num_eq (rows S X l) (rows S' X' l)) by auto.
    assert (LU : Datatypes.S (length (ups_of S (rows S X l) d i)) < B) by (unfold ups_of; rewrite map_length; auto).
    assert (LU' : Datatypes.S (length (ups_of S' (rows S' X' l) d i')) < B) by (unfold ups_of; rewrite map_length; auto).
    assert (LB : Datatypes.S (length (bnds_of S (rows S X l) d i)) < B) by (unfold bnds_of; rewrite map_length; auto).
    assert (LB' : Datatypes.S (length (bnds_of S' (rows S' X' l) d i')) < B) by (unfold bnds_of; rewrite map_length; auto).
    destruct l as [|l].
    + rewrite !first_row by auto. rewrite exp_eq, pair_eq by auto. cbn [rows] in *.
      assert (num X d i < F) by (unfold num; specialize (HX d i); lia).
      assert (num X' d i' < F) by (unfold num; specialize (HX' d i'); lia).
      rewrite !first_sep by lia. tauto.
    + rewrite !next_row by auto. cbv zeta. rewrite exp_eq, pair_eq by auto.
      destruct (rows_power S X l d i N Hd) as (c & ->). destruct (rows_power S' X' l d i' N' Hd) as (c' & ->).
      rewrite !next_sep by auto. split; [intros [[-> H1] [_ H2]]; auto|].
      intros (E & H1 & H2). apply pow_inj in E; auto. assert (c = c') by lia. subst. auto.
Qed.
End Two.
End Rows.

(** ** Readout *)
Lemma exponents B (Y : feats Z) d : (forall i, exists c, num Y d i = B ^ (2 * c)) -> forall n,
  exists cs, length cs = n /\ map (num Y d) (seq 0 n) = map (Nat.pow B) cs.
Proof.
  intros H n. generalize 0. induction n as [|n IH]; intros a; cbn [seq map]; [exists []; auto|].
  destruct (IH (Datatypes.S a)) as (cs & L & E). destruct (H a) as (c & Hc). exists (2 * c :: cs). cbn [length map]. rewrite Hc, E, L. auto.
Qed.

(** Sums of powers are equal exactly when the multisets of summands are. *)
Lemma pooled_eq B (Y Y' : feats Z) d n n' : 2 <= B -> n < B -> n' < B ->
  (forall i, exists c, num Y d i = B ^ (2 * c)) -> (forall i, exists c, num Y' d i = B ^ (2 * c)) ->
  list_sum (map (num Y d) (seq 0 n)) = list_sum (map (num Y' d) (seq 0 n')) <->
  Permutation (map (num Y d) (seq 0 n)) (map (num Y' d) (seq 0 n')).
Proof.
  intros HB Hn Hn' H H'. destruct (exponents B Y d H n) as (cs & L & ->). destruct (exponents B Y' d H' n') as (cs' & L' & ->).
  fold (menc B cs) (menc B cs'). rewrite menc_iff by lia. split; [apply Permutation_map|].
  intros HP. rewrite <- (map_id cs), <- (map_id cs'). eapply (perm_transfer (Nat.pow B) (Nat.pow B)); [|exact HP].
  intros a a' _ _. apply pow_inj; auto.
Qed.

Lemma dims_eq B dims (g g' : nat -> nat) : length dims < B ->
  menc B (map (fun d => pair_code d (g d)) dims) = menc B (map (fun d => pair_code d (g' d)) dims) <->
  (forall d, In d dims -> g d = g' d).
Proof.
  intros HB. rewrite menc_iff by (rewrite map_length; auto). split.
  - intros HP d Hd. assert (Hin : In (pair_code d (g d)) (map (fun d => pair_code d (g' d)) dims)).
    { eapply Permutation_in; [exact HP|]. apply (in_map (fun d => pair_code d (g d))). auto. }
    apply in_map_iff in Hin as (e & E & _). apply pair_inj in E as [-> E]. auto.
  - intros H. rewrite (map_ext_in _ (fun d => pair_code d (g' d))); [auto|]. intros d Hd. rewrite H; auto.
Qed.

Definition code_arch (B F L max_dim : nat) (dims : list nat) : arch Z :=
  sparse_arch Zops max_dim (code_layers B F L) None RAdd dims (fun d v => exp_row B (pair_code d (Z.to_nat v))) false (fun v => v).

Lemma code_predict B F L max_dim dims S X : predict Zops (code_arch B F L max_dim dims) S X =
  Z.of_nat (menc B (map (fun d => pair_code d (Z.to_nat (fold_left (vadd Zops) (map (rows B F max_dim S X L d) (seq 0 (s_n S d))) (vzero Zops))))
    (filter (fun d => d <=? max_dim) dims))).
Proof.
  unfold predict, code_arch, sparse_arch. cbn [a_jump final_feats a_pdim a_top a_layers]. rewrite rows_last.
  unfold combine_dims. cbn [a_lin1 a_dims a_mean a_lin2 a_pdim a_pool reduce_rows]. unfold exp_row.
  rewrite (zsum (fun d => B ^ pair_code d (Z.to_nat _))). unfold menc. rewrite map_map. do 2 f_equal.
  apply map_ext_in. intros d Hd. apply filter_In in Hd as [_ Hd]. rewrite Hd. auto.
Qed.

Lemma zsum_num (Y : feats Z) d l : (forall d i, (0 <= Y d i)%Z) ->
  Z.to_nat (fold_left (vadd Zops) (map (Y d) l) (vzero Zops)) = list_sum (map (num Y d) l).
Proof.
  intros H. rewrite <- (Nat2Z.id (list_sum (map (num Y d) l))), <- zsum. do 2 f_equal. apply map_ext.
  intros i. unfold num. rewrite Z2Nat.id; auto.
Qed.

Section Predict.
Context {C : Type} (col0 : nat -> Z -> C) (hash : C -> list (C * C) -> list C -> C).
Hypothesis Hcol : ideal_init col0.
Hypothesis Hhash : ideal_hash hash.

Theorem predict_iff B F L max_dim dims S S' X X' : 1 <= L -> length dims < B ->
  small B F max_dim S X -> small B F max_dim S' X' -> (forall d, s_n S d < B) -> (forall d, s_n S' d < B) ->
  (predict Zops (code_arch B F L max_dim dims) S X = predict Zops (code_arch B F L max_dim dims) S' X' <->
   forall d, In d dims -> d <= max_dim ->
     Permutation (map (colour col0 hash S X L d) (seq 0 (s_n S d))) (map (colour col0 hash S' X' L d) (seq 0 (s_n S' d)))).
Proof.
  intros HL HB HS HS' Hn Hn'. rewrite !code_predict, Nat2Z.inj_iff.
  assert (N : forall d i, (0 <= X d i)%Z) by (intros; apply HS). assert (N' : forall d i, (0 <= X' d i)%Z) by (intros; apply HS').
  assert (B2 : 2 <= B) by (destruct HS as (_ & HU & _); specialize (HU 0 0); lia).
  assert (HB' : length (filter (fun d => d <=? max_dim) dims) < B).
  { eapply Nat.le_lt_trans; [|exact HB]. clear. induction dims as [|d l IH]; cbn [filter]; auto. destruct (d <=? max_dim); cbn [length]; lia. }
  pose proof (rows_nonneg B F max_dim S X N L) as NR. pose proof (rows_nonneg B F max_dim S' X' N' L) as NR'.
  rewrite (dims_eq B _ (fun d => Z.to_nat (fold_left (vadd Zops) (map (rows B F max_dim S X L d) (seq 0 (s_n S d))) (vzero Zops)))
    (fun d => Z.to_nat (fold_left (vadd Zops) (map (rows B F max_dim S' X' L d) (seq 0 (s_n S' d))) (vzero Zops)))) by auto.
  assert (K : forall d, d <= max_dim ->
    Z.to_nat (fold_left (vadd Zops) (map (rows B F max_dim S X L d) (seq 0 (s_n S d))) (vzero Zops)) =
    Z.to_nat (fold_left (vadd Zops) (map (rows B F max_dim S' X' L d) (seq 0 (s_n S' d))) (vzero Zops)) <->
    Permutation (map (colour col0 hash S X L d) (seq 0 (s_n S d))) (map (colour col0 hash S' X' L d) (seq 0 (s_n S' d)))).
  { intros d Hd. rewrite !zsum_num by auto. destruct L as [|L]; [lia|].
    rewrite (pooled_eq B) by (auto; intros i; apply rows_power; auto).
    split; apply perm_transfer; intros i i' _ _ E.
    - apply num_eq in E; auto. apply (rows_colours B F max_dim col0 hash Hcol Hhash S S' X X' HS HS' (Datatypes.S L)) in E; auto.
    - apply num_eq; auto. apply (rows_colours B F max_dim col0 hash Hcol Hhash S S' X X' HS HS' (Datatypes.S L)); auto. }
  split.
  - intros H d Hin Hd. apply K; auto. apply H. apply filter_In. split; auto. apply Nat.leb_le; auto.
  - intros H d Hin. apply filter_In in Hin as [Hin Hd]. apply Nat.leb_le in Hd. apply K; auto.
Qed.
End Predict.
