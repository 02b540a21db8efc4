(** Running a network on a batch: the batch stores the disjoint union of the members' skeletons, and
    every member's block evolves as the member alone. *)
From Coq Require Import List Arith Lia ZArith Bool.
From Verif Require Import Base ScatterModel ScatterSpec ScatterProofs ComplexModel BatchSpec BatchSpec2
  BatchProofs BatchProofs2 MPModel MPSpec MPProofs MPEngine.
Import ListNotations.

Section MPBatch.
Context {V : Type} (o : ops V).
Notation complex := (complex V).
Notation cochain := (cochain V).

Definition ups (d : nat) (k : complex) := combine (content (attr c_upper d k)) (content (attr c_shc d k)).
Definition lows (d : nat) (k : complex) := combine (content (attr c_lower d k)) (content (attr c_shb d k)).
Definition bnds (d : nat) (k : complex) := content (attr c_bidx d k).

Lemma attr_none_above {T} (get : cochain -> option (list T)) (k : complex) sz d :
  wf_complex k sz -> k_dim k < d -> attr get d k = None.
Proof.
  intros W Hd. unfold attr. replace (nth_error (k_cochains k) d) with (@None cochain); auto.
  symmetry. apply nth_error_None. rewrite (wfk_len _ _ W). lia.
Qed.

Lemma ups_in (k : complex) sz d j i c : wf_complex k sz -> In ((j, i), c) (ups d k) ->
  d < k_dim k /\ j < sz d /\ i < sz d /\ c < sz (d + 1).
Proof.
  intros W H. unfold ups in H. pose proof (in_combine_l _ _ _ _ H) as H1. pose proof (in_combine_r _ _ _ _ H) as H2.
  unfold attr in *. destruct (nth_error (k_cochains k) d) as [x|] eqn:E; [|destruct H1].
  pose proof (wf_upper _ _ _ _ (wfk_each _ _ W _ _ E)) as Hu.
  destruct (c_upper x) as [u|]; [|destruct H1]. destruct Hu as (Hd & Hb & s & Hs & _ & Hc).
  rewrite Hs in H2. rewrite Nat.add_1_r. destruct (Hb _ _ H1). split; auto.
Qed.

Lemma lows_in (k : complex) sz d j i c : wf_complex k sz -> In ((j, i), c) (lows d k) ->
  0 < d <= k_dim k /\ j < sz d /\ i < sz d /\ c < sz (pred d).
Proof.
  intros W H. unfold lows in H. pose proof (in_combine_l _ _ _ _ H) as H1. pose proof (in_combine_r _ _ _ _ H) as H2.
  unfold attr in *. destruct (nth_error (k_cochains k) d) as [x|] eqn:E; [|destruct H1].
  pose proof (wf_lower _ _ _ _ (wfk_each _ _ W _ _ E)) as Hu.
  destruct (c_lower x) as [u|]; [|destruct H1]. destruct Hu as (Hd & Hb & s & Hs & _ & Hc).
  rewrite Hs in H2. destruct (Hb _ _ H1). split; auto.
  split; auto. assert (d < length (k_cochains k)) by (apply nth_error_Some; congruence).
  rewrite (wfk_len _ _ W) in *. lia.
Qed.

Lemma bnds_in (k : complex) sz d f t : wf_complex k sz -> In (f, t) (bnds d k) ->
  0 < d <= k_dim k /\ f < sz (pred d) /\ t < sz d.
Proof.
  intros W H. unfold bnds, attr in *. destruct (nth_error (k_cochains k) d) as [x|] eqn:E; [|destruct H].
  pose proof (wf_bidx _ _ _ _ (wfk_each _ _ W _ _ E)) as Hu.
  destruct (c_bidx x) as [u|]; [|destruct H]. destruct Hu as (Hd & Hb). destruct (Hb _ _ H). split; auto.
  split; auto. assert (d < length (k_cochains k)) by (apply nth_error_Some; congruence).
  rewrite (wfk_len _ _ W) in *. lia.
Qed.

Lemma nil_of_no_in {A} (l : list A) : (forall a, In a l -> False) -> l = [].
Proof. destruct l as [|a l]; auto. intros H. destruct (H a); left; auto. Qed.

Lemma skel_of_up D (k : complex) sz d : wf_complex k sz -> d < D -> s_up (skel_of D k sz) d = ups d k.
Proof.
  intros W Hd. simpl. destruct (Nat.ltb_spec d (Nat.min (k_dim k) D)); auto.
  symmetry. apply nil_of_no_in. intros [[j i] c] Hin. apply (ups_in _ _ _ _ _ _ W) in Hin. lia.
Qed.
Lemma skel_of_up_top D (k : complex) sz d : D <= d -> s_up (skel_of D k sz) d = [].
Proof. intros Hd. simpl. destruct (Nat.ltb_spec d (Nat.min (k_dim k) D)); auto. lia. Qed.
Lemma skel_of_low D (k : complex) sz d : wf_complex k sz -> d <= D -> s_low (skel_of D k sz) d = lows d k.
Proof.
  intros W Hd. simpl. destruct (Nat.leb_spec d (Nat.min (k_dim k) D)); auto.
  symmetry. apply nil_of_no_in. intros [[j i] c] Hin. apply (lows_in _ _ _ _ _ _ W) in Hin. lia.
Qed.
Lemma skel_of_bnd D (k : complex) sz d : wf_complex k sz -> d <= D -> s_bnd (skel_of D k sz) d = bnds d k.
Proof.
  intros W Hd. simpl. destruct (Nat.leb_spec d (Nat.min (k_dim k) D)); auto.
  symmetry. apply nil_of_no_in. intros [f t] Hin. apply (bnds_in _ _ _ _ _ W) in Hin. lia.
Qed.
Lemma skel_of_low_above D (k : complex) sz d : D < d -> s_low (skel_of D k sz) d = [].
Proof. intros Hd. simpl. destruct (Nat.leb_spec d (Nat.min (k_dim k) D)); auto. lia. Qed.
Lemma skel_of_bnd_above D (k : complex) sz d : D < d -> s_bnd (skel_of D k sz) d = [].
Proof. intros Hd. simpl. destruct (Nat.leb_spec d (Nat.min (k_dim k) D)); auto. lia. Qed.
Lemma skel_of_n D (k : complex) sz d : wf_complex k sz -> d <= D -> s_n (skel_of D k sz) d = sz d.
Proof.
  intros W Hd. simpl. destruct (Nat.leb_spec d (Nat.min (k_dim k) D)); auto.
  symmetry. apply (wfk_above _ _ W). lia.
Qed.

Lemma skel_of_ok D (k : complex) sz : wf_complex k sz -> skel_ok (skel_of D k sz).
Proof.
  intros W. split.
  - intros d j i c H. destruct (Nat.lt_ge_cases d D) as [Hd|Hd].
    + rewrite skel_of_up in H by auto. apply (ups_in _ _ _ _ _ _ W) in H as (H1 & H2 & H3 & H4).
      rewrite !skel_of_n by (auto; lia). simpl. repeat split; auto. lia.
    + rewrite skel_of_up_top in H by auto. destruct H.
  - intros d j i c H. destruct (Nat.le_gt_cases d D) as [Hd|Hd].
    + rewrite skel_of_low in H by auto. apply (lows_in _ _ _ _ _ _ W) in H as (H1 & H2 & H3 & H4).
      rewrite !skel_of_n by (auto; lia). simpl. repeat split; auto; lia.
    + rewrite skel_of_low_above in H by auto. destruct H.
  - intros d f t H. destruct (Nat.le_gt_cases d D) as [Hd|Hd].
    + rewrite skel_of_bnd in H by auto. apply (bnds_in _ _ _ _ _ W) in H as (H1 & H2 & H3).
      rewrite !skel_of_n by (auto; lia). simpl. repeat split; auto; lia.
    + rewrite skel_of_bnd_above in H by auto. destruct H.
  - intros d Hd. simpl in *. destruct (Nat.leb_spec d (Nat.min (k_dim k) D)); auto. lia.
Qed.

(** ** The batch *)
Section Batch.
Variables (ks : list complex) (szs : list (nat -> nat)) (D : nat) (K : complex).
Hypothesis HW : Forall2 wf_complex ks szs.
Hypothesis HU : union_complex ks szs D K.
Hypothesis Hpres : forall d, d <= D -> exists k, In k ks /\ d <= k_dim k.

Let SB := skel_of D K (total szs).
Let XB := feats_of o K.

Lemma K_at d : d <= D -> exists c, nth_error (k_cochains K) d = Some c /\ union_cochain ks szs D d c.
Proof.
  intros Hd. destruct (nth_error (k_cochains K) d) as [c|] eqn:E.
  - exists c. split; auto. apply (uc_each _ _ _ _ HU); auto.
  - apply nth_error_None in E. rewrite (uc_len _ _ _ _ HU) in E. lia.
Qed.

Lemma K_attr {T} (get : cochain -> option (list T)) d c :
  nth_error (k_cochains K) d = Some c -> attr get d K = get c.
Proof. unfold attr. intros ->; auto. Qed.

Lemma wf_of k : In k ks -> exists sz, wf_complex k sz.
Proof.
  intros H. apply In_nth_error in H as [i Hi].
  destruct (Forall2_nth_error_l _ _ _ HW _ _ Hi) as (sz & _ & W); eauto.
Qed.

Definition sh_up (d i : nat) (e : (nat * nat) * nat) : (nat * nat) * nat :=
  ((fst (fst e) + off szs i d, snd (fst e) + off szs i d), snd e + off szs i (d + 1)).
Definition sh_low (d i : nat) (e : (nat * nat) * nat) : (nat * nat) * nat :=
  ((fst (fst e) + off szs i d, snd (fst e) + off szs i d), snd e + off szs i (pred d)).
Definition sh_bnd (d i : nat) (p : nat * nat) : nat * nat :=
  (fst p + off szs i (pred d), snd p + off szs i d).

Lemma SB_up d : d < D -> s_up SB d = concat (mapi (fun i k => map (sh_up d i) (ups d k)) ks).
Proof.
  intros Hd. unfold SB. simpl. rewrite (uc_dim _ _ _ _ HU), Nat.min_id.
  destruct (Nat.ltb_spec d D); [|lia].
  destruct (K_at d) as (c & Hc & U); [lia|]. rewrite !(K_attr _ d c Hc).
  rewrite (un_upper _ _ _ _ _ U), (un_shc _ _ _ _ _ U), joined_combine.
  - f_equal. apply mapi_ext. intros i k _. unfold ups. apply map_ext. intros e.
    unfold sh_up. rewrite Nat.add_1_r. auto.
  - intros k Hk. destruct (wf_of k Hk) as [sz W]. apply (attr_shc_length k sz d W).
Qed.
Lemma SB_low d : d <= D -> s_low SB d = concat (mapi (fun i k => map (sh_low d i) (lows d k)) ks).
Proof.
  intros Hd. unfold SB. simpl. rewrite (uc_dim _ _ _ _ HU), Nat.min_id.
  destruct (Nat.leb_spec d D); [|lia].
  destruct (K_at d) as (c & Hc & U); [lia|]. rewrite !(K_attr _ d c Hc).
  rewrite (un_lower _ _ _ _ _ U), (un_shb _ _ _ _ _ U), joined_combine.
  - reflexivity.
  - intros k Hk. destruct (wf_of k Hk) as [sz W]. apply (attr_shb_length k sz d W).
Qed.
Lemma SB_bnd d : d <= D -> s_bnd SB d = concat (mapi (fun i k => map (sh_bnd d i) (bnds d k)) ks).
Proof.
  intros Hd. unfold SB. simpl. rewrite (uc_dim _ _ _ _ HU), Nat.min_id.
  destruct (Nat.leb_spec d D); [|lia].
  destruct (K_at d) as (c & Hc & U); [lia|]. rewrite !(K_attr _ d c Hc).
  rewrite (un_bidx _ _ _ _ _ U), joined_content, mapi_map. reflexivity.
Qed.
Lemma SB_n d : d <= D -> s_n SB d = total szs d.
Proof.
  intros Hd. unfold SB. simpl. rewrite (uc_dim _ _ _ _ HU), Nat.min_id.
  destruct (Nat.leb_spec d D); [auto|lia].
Qed.
Lemma SB_dim : s_dim SB = D.
Proof. unfold SB. simpl. rewrite (uc_dim _ _ _ _ HU), Nat.min_id. auto. Qed.

Lemma SB_ok : skel_ok SB.
Proof.
  split; rewrite ?SB_dim.
  - intros d j i c H. destruct (Nat.lt_ge_cases d D) as [Hd|Hd].
    + rewrite SB_up in H by auto. apply in_concat_mapi in H as (m & k & Hk & H).
      destruct (Forall2_nth_error_l _ _ _ HW _ _ Hk) as (sz & Es & W).
      apply in_map_iff in H as ([[j' i'] c'] & E & H). inversion E; subst; clear E.
      apply (ups_in _ _ _ _ _ _ W) in H as (H1 & H2 & H3 & H4). cbn [fst snd].
      rewrite !SB_n by lia. split; auto.
      pose proof (off_in_range szs m d sz j' Es H2).
      pose proof (off_in_range szs m d sz i' Es H3).
      pose proof (off_in_range szs m (d + 1) sz c' Es H4). lia.
    + unfold SB in H. rewrite skel_of_up_top in H by auto. destruct H.
  - intros d j i c H. destruct (Nat.le_gt_cases d D) as [Hd|Hd].
    + rewrite SB_low in H by auto. apply in_concat_mapi in H as (m & k & Hk & H).
      destruct (Forall2_nth_error_l _ _ _ HW _ _ Hk) as (sz & Es & W).
      apply in_map_iff in H as ([[j' i'] c'] & E & H). inversion E; subst; clear E.
      apply (lows_in _ _ _ _ _ _ W) in H as (H1 & H2 & H3 & H4). cbn [fst snd].
      rewrite !SB_n by lia. split; [lia|].
      pose proof (off_in_range szs m d sz j' Es H2).
      pose proof (off_in_range szs m d sz i' Es H3).
      pose proof (off_in_range szs m (pred d) sz c' Es H4). lia.
    + unfold SB in H. rewrite skel_of_low_above in H by auto. destruct H.
  - intros d f t H. destruct (Nat.le_gt_cases d D) as [Hd|Hd].
    + rewrite SB_bnd in H by auto. apply in_concat_mapi in H as (m & k & Hk & H).
      destruct (Forall2_nth_error_l _ _ _ HW _ _ Hk) as (sz & Es & W).
      apply in_map_iff in H as ([f' t'] & E & H). inversion E; subst; clear E.
      apply (bnds_in _ _ _ _ _ W) in H as (H1 & H2 & H3). cbn [fst snd].
      rewrite !SB_n by lia. split; [lia|].
      pose proof (off_in_range szs m (pred d) sz f' Es H2).
      pose proof (off_in_range szs m d sz t' Es H3). lia.
    + unfold SB in H. rewrite skel_of_bnd_above in H by auto. destruct H.
  - intros d Hd. unfold SB. simpl. rewrite (uc_dim _ _ _ _ HU), Nat.min_id.
    destruct (Nat.leb_spec d D); auto. lia.
Qed.

(** The features of the batch. *)
Definition all_x (d : nat) : Prop :=
  forall k c, In k ks -> nth_error (k_cochains k) d = Some c -> c_x c <> None.

Lemma K_x d c : all_x d -> d <= D -> nth_error (k_cochains K) d = Some c ->
  exists x, c_x c = Some x /\ length x = total szs d /\ num_cells c = Ok (Some (total szs d)) /\
    x = concat (mapi (fun (_ : nat) k => content (attr c_x d k)) ks).
Proof.
  intros Hall Hd Hc. pose proof (uc_each _ _ _ _ HU _ _ Hc) as U.
  destruct (Hpres d Hd) as (k0 & Hk0 & Hd0).
  assert (Hx : exists x, c_x c = Some x).
  { rewrite (un_x _ _ _ _ _ U). rewrite joined_Some; eauto.
    destruct (wf_of k0 Hk0) as [sz W].
    destruct (nth_error (k_cochains k0) d) as [c0|] eqn:E0.
    2:{ apply nth_error_None in E0. rewrite (wfk_len _ _ W) in E0. lia. }
    pose proof (Hall k0 c0 Hk0 E0) as Hne. destruct (c_x c0) as [l|] eqn:El; [|congruence].
    exists l. apply in_map_iff. exists k0. unfold attr. rewrite E0. auto. }
  destruct Hx as [x Hx]. exists x. split; auto.
  assert (Hn : num_cells c = Ok (Some (total szs d))).
  { apply (union_num_cells ks szs d c); eauto.
    - apply (un_n _ _ _ _ _ U).
    - apply (un_x _ _ _ _ _ U).
    - apply (un_bidx _ _ _ _ _ U). }
  split.
  - unfold num_cells in Hn. rewrite (un_n _ _ _ _ _ U), Hx in Hn. congruence.
  - split; auto. pose proof (un_x _ _ _ _ _ U) as Ux. rewrite Hx in Ux.
    assert (E : x = content (joined (fun (_ : nat) (v : V) => v) (map (attr c_x d) ks))) by (rewrite <- Ux; auto).
    rewrite E, joined_content, mapi_map. f_equal. apply mapi_ext. intros i k _. apply map_id.
Qed.

Lemma batch_shape : uniform_x ks D ->
  forall d c, nth_error (k_cochains K) d = Some c -> rep_shape SB d c.
Proof.
  intros Hux d c Hc. assert (Hd : d <= D).
  { assert (d < length (k_cochains K)) by (apply nth_error_Some; congruence).
    rewrite (uc_len _ _ _ _ HU) in *. lia. }
  pose proof (uc_each _ _ _ _ HU _ _ Hc) as U.
  assert (Hn : num_cells c = Ok (Some (total szs d))).
  { apply (union_num_cells ks szs d c); auto.
    - apply (un_n _ _ _ _ _ U).
    - apply (un_x _ _ _ _ _ U).
    - apply (un_bidx _ _ _ _ _ U). }
  split.
  - rewrite SB_n by auto. auto.
  - rewrite SB_dim. intros Hlt. unfold SB. simpl. rewrite (uc_dim _ _ _ _ HU), Nat.min_id.
    destruct (Nat.ltb_spec d D); [|lia]. rewrite !(K_attr _ d c Hc).
    destruct (c_upper c) as [u|] eqn:Eu; auto.
    assert (Hs : exists s, c_shc c = Some s /\ length s = length u).
    { pose proof (un_upper _ _ _ _ _ U) as E1. pose proof (un_shc _ _ _ _ _ U) as E2.
      rewrite Eu in E1.
      assert (Hl : length (content (c_upper c)) = length (content (c_shc c))).
      { rewrite Eu, E1, E2, !joined_content, !mapi_map. clear E1 E2. unfold mapi. generalize 0.
        generalize (off szs). clear -HW.
        induction HW as [|k sz ks' szs' W HW' IH]; intros f s; cbn; auto.
        rewrite !app_length, !map_length, (attr_shc_length k sz d W). f_equal. apply IH; auto. }
      destruct (c_shc c) as [s|] eqn:Es.
      - exists s. split; auto. rewrite Eu in Hl. simpl in Hl. auto.
      - exfalso. symmetry in E1. unfold joined in E1. destruct (existsb isSome (map (attr c_upper d) ks)) eqn:Ex; [|discriminate].
        apply existsb_exists in Ex as (oo & Hin & Ho). apply in_map_iff in Hin as (k & Ek & Hk).
        destruct (wf_of k Hk) as [sz W]. unfold attr in Ek.
        destruct (nth_error (k_cochains k) d) as [ck|] eqn:Eck; [|subst; discriminate].
        pose proof (wf_upper _ _ _ _ (wfk_each _ _ W _ _ Eck)) as Hw. rewrite Ek in Hw.
        destruct oo as [uu|]; [|discriminate]. destruct Hw as (_ & _ & s & Hs & _).
        symmetry in E2. unfold joined in E2.
        rewrite (proj2 (existsb_exists isSome (map (attr c_shc d) ks))) in E2; [discriminate|].
        exists (Some s). split; auto. apply in_map_iff. exists k. unfold attr. rewrite Eck. auto. }
    destruct Hs as (s & Hs & Hl). rewrite Hs. simpl. rewrite combine_fst by auto. split; auto. f_equal.
    clear -Hl. revert u Hl; induction s as [|a s IH]; intros [|b u] Hl; simpl in *; try discriminate; auto. f_equal; auto.
  - unfold SB. simpl. rewrite (uc_dim _ _ _ _ HU), Nat.min_id.
    destruct (Nat.leb_spec d D); [|lia]. rewrite !(K_attr _ d c Hc).
    destruct (c_lower c) as [u|] eqn:Eu; auto.
    pose proof (un_lower _ _ _ _ _ U) as E1. pose proof (un_shb _ _ _ _ _ U) as E2. rewrite Eu in E1.
    assert (Hl : length (content (c_lower c)) = length (content (c_shb c))).
    { rewrite Eu, E1, E2, !joined_content, !mapi_map. clear E1 E2. unfold mapi. generalize 0.
      generalize (off szs). clear -HW.
      induction HW as [|k sz ks' szs' W HW' IH]; intros f s; cbn; auto.
      rewrite !app_length, !map_length, (attr_shb_length k sz d W). f_equal. apply IH; auto. }
    symmetry in E1. unfold joined in E1. destruct (existsb isSome (map (attr c_lower d) ks)) eqn:Ex; [|discriminate].
    apply existsb_exists in Ex as (oo & Hin & Ho). apply in_map_iff in Hin as (k & Ek & Hk).
    destruct (wf_of k Hk) as [sz W]. unfold attr in Ek.
    destruct (nth_error (k_cochains k) d) as [ck|] eqn:Eck; [|subst; discriminate].
    pose proof (wf_lower _ _ _ _ (wfk_each _ _ W _ _ Eck)) as Hw. rewrite Ek in Hw.
    destruct oo as [uu|]; [|discriminate]. destruct Hw as (Hd0 & _ & s & Hs & _). split; auto.
    destruct (c_shb c) as [s'|] eqn:Es.
    + rewrite Eu in Hl. simpl in Hl. simpl. rewrite combine_fst by auto. split; auto. f_equal.
      symmetry in Hl. clear -Hl. revert u Hl; induction s' as [|a s IH]; intros [|b u] Hl; simpl in *; try discriminate; auto. f_equal; auto.
    + exfalso. symmetry in E2. unfold joined in E2.
      rewrite (proj2 (existsb_exists isSome (map (attr c_shb d) ks))) in E2; [discriminate|].
      exists (Some s). split; auto. apply in_map_iff. exists k. unfold attr. rewrite Eck. auto.
  - unfold SB. simpl. rewrite (uc_dim _ _ _ _ HU), Nat.min_id.
    destruct (Nat.leb_spec d D); [|lia]. rewrite !(K_attr _ d c Hc).
    destruct (c_bidx c) as [u|] eqn:Eu; auto. split; auto.
    destruct d; [|lia]. exfalso. pose proof (un_bidx _ _ _ _ _ U) as E1. rewrite Eu in E1.
    symmetry in E1. unfold joined in E1. destruct (existsb isSome (map (attr c_bidx 0) ks)) eqn:Ex; [|discriminate].
    apply existsb_exists in Ex as (oo & Hin & Ho). apply in_map_iff in Hin as (k & Ek & Hk).
    destruct (wf_of k Hk) as [sz W]. pose proof (attr_bidx_0 [] [] eq_refl k sz W) as Hb0; rewrite Hb0 in Ek. subst; discriminate.
Qed.

Lemma has_all_x d : Forall (has_features D) ks -> d <= D -> all_x d.
Proof. intros HF Hd k c Hk Hc. rewrite Forall_forall in HF. apply (HF k Hk d c); auto. Qed.

Lemma batch_represents : Forall (has_features D) ks -> represents K SB XB.
Proof.
  intros Hfeat. split; rewrite ?SB_dim; try apply HU.
  intros d c Hc. assert (Hd : d <= D).
  { assert (d < length (k_cochains K)) by (apply nth_error_Some; congruence).
    rewrite (uc_len _ _ _ _ HU) in *. lia. }
  destruct (batch_shape) with (d := d) (c := c) as [A B C E]; auto.
  { intros e He. left. apply has_all_x; auto. }
  destruct (K_x d c (has_all_x d Hfeat Hd) Hd Hc) as (x & Hx & Hxl & Hn & _).
  split; auto.
  rewrite SB_n by auto. rewrite Hx. f_equal. unfold XB, feats_of. rewrite (K_attr _ d c Hc), Hx.
  simpl. rewrite <- Hxl. symmetry. apply map_nth_seq.
Qed.

(** ** One member inside the batch *)
Section Member.
Variables (m : nat) (k : complex) (sz : nat -> nat).
Hypothesis Hk : nth_error ks m = Some k.
Hypothesis Hsz : nth_error szs m = Some sz.

Let Sm := skel_of D k sz.

Lemma Wk : wf_complex k sz.
Proof.
  destruct (Forall2_nth_error_l _ _ _ HW _ _ Hk) as (sz' & E & W). congruence.
Qed.

Lemma block_filter {A} (ents : complex -> list A) (sh : nat -> A -> A) (tgt : A -> nat) d j :
  (forall i e, tgt (sh i e) = tgt e + off szs i d) ->
  (forall k' sz' e, wf_complex k' sz' -> In e (ents k') -> tgt e < sz' d) ->
  j < sz d ->
  filter (fun e => tgt e =? off szs m d + j) (concat (mapi (fun i k => map (sh i) (ents k)) ks)) =
  map (sh m) (filter (fun e => tgt e =? j) (ents k)).
Proof.
  intros Hsh Hr Hj. rewrite (filter_concat_mapi _ _ _ m k Hk).
  - induction (ents k) as [|e l IH]; simpl; auto. rewrite Hsh.
    destruct (Nat.eqb_spec (tgt e + off szs m d) (off szs m d + j)), (Nat.eqb_spec (tgt e) j); try lia;
      simpl; rewrite IH; auto.
  - intros i k' Hi Hne. apply filter_none. intros e He. apply in_map_iff in He as (e' & <- & He').
    destruct (Forall2_nth_error_l _ _ _ HW _ _ Hi) as (sz' & Es & W).
    specialize (Hr k' sz' e' W He'). rewrite Hsh. apply Nat.eqb_neq. intros E.
    destruct (block_unique szs d i m sz' sz (tgt e') j Es Hsz Hr Hj); [lia|]. congruence.
Qed.

Lemma up_block d j : j < s_n Sm d ->
  up_at SB d (off szs m d + j) = map (sh_up d m) (up_at Sm d j).
Proof.
  intros Hj. unfold up_at. destruct (Nat.lt_ge_cases d D) as [Hd|Hd].
  - unfold Sm in *. rewrite SB_up, skel_of_up by (auto using Wk). rewrite skel_of_n in Hj by (auto using Wk; lia).
    apply (block_filter (ups d) (sh_up d) (fun e => snd (fst e)) d j); auto.
    intros k' sz' [[a b] c] W Hin. apply (ups_in _ _ _ _ _ _ W) in Hin. simpl; tauto.
  - unfold SB, Sm. rewrite !skel_of_up_top by auto. auto.
Qed.
Lemma low_block d j : j < s_n Sm d ->
  low_at SB d (off szs m d + j) = map (sh_low d m) (low_at Sm d j).
Proof.
  intros Hj. unfold low_at. destruct (Nat.le_gt_cases d D) as [Hd|Hd].
  - unfold Sm in *. rewrite SB_low, skel_of_low by (auto using Wk). rewrite skel_of_n in Hj by (auto using Wk; lia).
    apply (block_filter (lows d) (sh_low d) (fun e => snd (fst e)) d j); auto.
    intros k' sz' [[a b] c] W Hin. apply (lows_in _ _ _ _ _ _ W) in Hin. simpl; tauto.
  - unfold SB, Sm. rewrite !skel_of_low_above by auto. auto.
Qed.
Lemma bnd_block d j : j < s_n Sm d ->
  bnd_at SB d (off szs m d + j) = map (sh_bnd d m) (bnd_at Sm d j).
Proof.
  intros Hj. unfold bnd_at. destruct (Nat.le_gt_cases d D) as [Hd|Hd].
  - unfold Sm in *. rewrite SB_bnd, skel_of_bnd by (auto using Wk). rewrite skel_of_n in Hj by (auto using Wk; lia).
    apply (block_filter (bnds d) (sh_bnd d) snd d j); auto.
    intros k' sz' [a b] W Hin. apply (bnds_in _ _ _ _ _ W) in Hin. simpl; tauto.
  - unfold SB, Sm. rewrite !skel_of_bnd_above by auto. auto.
Qed.

Definition blk (l d i i' : nat) : Prop := i < s_n Sm d /\ i' = off szs m d + i.

Lemma Forall2_map_self {A B} (P : A -> B -> Prop) (f : A -> B) l :
  (forall a, In a l -> P a (f a)) -> Forall2 P l (map f l).
Proof. induction l; intros H; simpl; constructor; auto. apply H; left; auto. apply IHl. intros; apply H; right; auto. Qed.

Lemma blk_refines pdim top : refines (fun A => @eq (list A)) Sm SB pdim top true blk.
Proof.
  pose proof (skel_of_ok D k sz Wk) as HS. fold Sm in HS.
  intros l d i i' [Hi ->]. split; [split; auto|]. intros _. split; [|split].
  - exists (up_at Sm d i). split; auto. rewrite up_block by auto. apply Forall2_map_self.
    intros [[a b] c] He. apply filter_In in He as [He _]. apply (so_up _ HS) in He.
    split; [|intros _]; split; simpl; try tauto; try lia.
  - intros _. exists (low_at Sm d i). split; auto. rewrite low_block by auto. apply Forall2_map_self.
    intros [[a b] c] He. apply filter_In in He as [He _]. apply (so_low _ HS) in He.
    split; split; simpl; try tauto; try lia.
  - exists (bnd_at Sm d i). split; auto. rewrite bnd_block by auto. apply Forall2_map_self.
    intros [a b] He. apply filter_In in He as [He _]. apply (so_bnd _ HS) in He.
    split; simpl; try tauto; try lia.
Qed.

Lemma attr_x_length k' sz' d : all_x d -> wf_complex k' sz' -> d <= D -> In k' ks -> length (content (attr c_x d k')) = sz' d.
Proof.
  intros Hall W Hd Hin. unfold attr. destruct (nth_error (k_cochains k') d) as [c|] eqn:E.
  - pose proof (Hall k' c Hin E). pose proof (wf_x _ _ _ _ (wfk_each _ _ W _ _ E)) as H1.
    destruct (c_x c); [auto|congruence].
  - simpl. symmetry. apply (wfk_above _ _ W). apply nth_error_None in E. rewrite (wfk_len _ _ W) in E. lia.
Qed.

Lemma blk_agree_at d i i' : all_x d -> blk 0 d i i' -> feats_of o k d i = XB d i'.
Proof.
  intros Hax [Hi ->]. unfold Sm in Hi.
  destruct (Nat.le_gt_cases d D) as [Hd|Hd].
  2:{ simpl in Hi. destruct (Nat.leb_spec d (Nat.min (k_dim k) D)); lia. }
  rewrite skel_of_n in Hi by (auto using Wk). unfold XB, feats_of.
  destruct (K_at d Hd) as (c & Hc & _). rewrite (K_attr _ d c Hc).
  destruct (K_x d c Hax Hd Hc) as (x & -> & Hxl & _ & Hx). simpl.
  assert (Hin : In k ks) by (eapply nth_error_In; eauto).
  assert (Hlen : length (concat (mapi_from (fun (_ : nat) k => content (attr c_x d k)) 0 (firstn m ks))) = off szs m d).
  { clear Hx. unfold off. generalize 0. 
    assert (Hall : forall k' sz', In k' ks -> wf_complex k' sz' -> length (content (attr c_x d k')) = sz' d)
      by (intros; apply attr_x_length; auto).
    generalize m. clear -HW Hall. revert Hall.
    induction HW as [|k1 s1 ks1 szs1 W1 HW1 IH]; intros Hall m' s; destruct m' as [|m']; simpl; auto.
    rewrite app_length. rewrite (Hall k1 s1) by (auto; left; auto). f_equal. apply IH; auto.
    intros; apply Hall; auto. right; auto. }
  pose proof (nth_error_concat_mapi_from (fun (_ : nat) k => content (attr c_x d k)) 0 ks m k i Hk) as H.
  cbv beta in H. rewrite (attr_x_length k sz d Hax Wk Hd Hin) in H. specialize (H Hi). rewrite Hlen in H.
  unfold mapi in Hx. rewrite <- Hx in H.
  destruct (nth_error x (off szs m d + i)) as [v|] eqn:Ev.
  - rewrite (nth_error_nth _ _ _ Ev). symmetry in H. rewrite (nth_error_nth _ _ _ H). auto.
  - symmetry in H. apply nth_error_None in H. rewrite (attr_x_length k sz d Hax Wk Hd Hin) in H. lia.
Qed.

Lemma blk_agree : Forall (has_features D) ks -> agree blk 0 (feats_of o k) XB.
Proof.
  intros HF d i i' Hb. destruct (Nat.le_gt_cases d D) as [Hd|Hd].
  - apply blk_agree_at; auto. apply has_all_x; auto.
  - destruct Hb as [Hi _]. unfold Sm in Hi. simpl in Hi.
    destruct (Nat.leb_spec d (Nat.min (k_dim k) D)); lia.
Qed.

End Member.

(** ** Pooling *)
Lemma pool_block (F : nat -> V) d m sz :
  nth_error szs m = Some sz ->
  messages_to m (membership szs d) (map F (seq 0 (total szs d))) =
  map (fun i => F (off szs m d + i)) (seq 0 (sz d)).
Proof.
  intros Hm. unfold messages_to, membership, total, off, mapi.
  assert (G : forall l s base m sz, nth_error l m = Some sz ->
    map snd (filter (fun p => fst p =? s + m)
      (combine (concat (mapi_from (fun i (sz : nat -> nat) => repeat i (sz d)) s l))
               (map F (seq base (list_sum (map (fun sz : nat -> nat => sz d) l)))))) =
    map (fun i => F (base + list_sum (map (fun sz : nat -> nat => sz d) (firstn m l)) + i)) (seq 0 (sz d))).
  { clear. induction l as [|z l IH]; intros s base m sz Hm; [destruct m; discriminate|].
    cbn [mapi_from concat map list_sum fold_right]. fold (list_sum (map (fun sz : nat -> nat => sz d) l)).
    rewrite seq_app, map_app, combine_app' by (rewrite repeat_length, map_length, seq_length; auto).
    rewrite filter_app, map_app.
    destruct m as [|m]; simpl in Hm.
    - inversion Hm; subst z. rewrite (filter_all _ (combine (repeat s (sz d)) _)).
      2:{ intros [a b] Hin. apply in_combine_l in Hin. apply repeat_spec in Hin. simpl. subst a. rewrite Nat.add_0_r. apply Nat.eqb_refl. }
      rewrite (filter_none _ (combine (concat _) _)).
      2:{ intros [a b] Hin. apply in_combine_l in Hin. apply in_concat in Hin as (r & Hr & Ha).
          assert (Hgt : s < a).
          { clear -Hr Ha. assert (G : forall l s', In r (mapi_from (fun i (sz : nat -> nat) => repeat i (sz d)) s' l) -> s' <= a).
            { clear l Hr. induction l as [|z l IH]; intros s' Hr; simpl in Hr; [tauto|]. destruct Hr as [<-|Hr].
              - apply repeat_spec in Ha. lia.
              - specialize (IH _ Hr). lia. }
            specialize (G _ _ Hr). lia. }
          simpl. apply Nat.eqb_neq. lia. }
      simpl. rewrite app_nil_r.
      assert (E : map snd (combine (repeat s (sz d)) (map F (seq base (sz d)))) = map F (seq base (sz d))).
      { clear. generalize base. induction (sz d) as [|n IH]; intros b; simpl; auto. f_equal; auto. }
      rewrite E. rewrite Nat.add_0_r.
      clear. revert base. induction (sz d) as [|n IH]; intros base; simpl; auto.
      rewrite Nat.add_0_r. f_equal. rewrite IH. rewrite <- seq_shift, map_map. apply map_ext. intros; f_equal; lia.
    - rewrite (filter_none _ (combine (repeat s (z d)) _)).
      2:{ intros [a b] Hin. apply in_combine_l in Hin. apply repeat_spec in Hin. simpl. subst a.
          apply Nat.eqb_neq; lia. }
      simpl. replace (s + S m) with (S s + m) by lia.
      rewrite (IH (S s) (base + z d) m sz Hm). apply map_ext. intros i. f_equal. 
      fold (list_sum (map (fun sz : nat -> nat => sz d) (firstn m l))). lia. }
  specialize (G szs 0 0 m sz Hm). simpl in G. exact G.
Qed.

End Batch.
End MPBatch.
