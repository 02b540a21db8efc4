(** C01, C02, C03, C09, C10: batching of complexes. *)
From Coq Require Import List Arith Lia ZArith Bool.
From Verif Require Import Base ComplexModel BatchSpec BatchSpec2 BatchProofs BatchProofs2 DummyModel.
Import ListNotations.

Section Props.
Context {V : Type}.
Notation cochain := (cochain V).
Notation complex := (complex V).

Definition dims (ks : list complex) (max_dim : nat) : nat := Nat.min (list_max (map k_dim ks)) max_dim.

Lemma batch_parts (ks : list complex) szs max_dim b d :
  ks <> [] -> Forall2 wf_complex ks szs -> uniform_x ks (dims ks max_dim) ->
  from_complex_list ks max_dim = Ok b -> d <= dims ks max_dim ->
  exists C, nth_error (k_cochains (kb_complex b)) d = Some C /\
            union_cochain ks szs (dims ks max_dim) d C /\
            num_cells C = Ok (Some (total szs d)) /\
            nth_error (kb_batch b) d = Some (Some (membership szs d)) /\
            nth_error (kb_ptr b) d = Some (Some (boundaries_of ks szs d)).
Proof.
  intros Hne HW HU Hb Hd.
  destruct (from_complex_list_is_batch ks szs max_dim Hne HW HU) as (b' & Hb' & IB & _).
  rewrite Hb in Hb'. inversion Hb'; subst b'. destruct IB as [[Hkd Hkl Hke] Hnum Hbt Hpt].
  fold (dims ks max_dim) in *.
  destruct (nth_error (k_cochains (kb_complex b)) d) as [C|] eqn:EC.
  2:{ apply nth_error_None in EC. lia. }
  exists C. split; auto. specialize (Hke _ _ EC). split; auto.
  assert (Hpres : exists k, In k ks /\ d <= k_dim k).
  { assert (Hin : In (list_max (map k_dim ks)) (map k_dim ks)).
    { apply list_max_exists. destruct ks; [congruence|discriminate]. }
    apply in_map_iff in Hin as (k & Ek & Hk). exists k; split; auto. unfold dims in Hd. lia. }
  split.
  { apply (union_num_cells ks szs); auto; apply Hke. }
  assert (Hsq : nth_error (seq 0 (dims ks max_dim + 1)) d = Some d).
  { rewrite (nth_error_nth' _ 0) by (rewrite seq_length; lia). rewrite seq_nth by lia. auto. }
  rewrite Hbt, Hpt, !nth_error_map, Hsq. auto.
Qed.

(** C01.  [off szs k d] is the number of [d]-cells of the complexes before the [k]-th one. *)
Theorem C01_batch_assigns_cells (ks : list complex) szs max_dim :
  ks <> [] -> Forall2 wf_complex ks szs -> uniform_x ks (dims ks max_dim) ->
  exists b, from_complex_list ks max_dim = Ok b /\
    kb_num b = length ks /\ k_dim (kb_complex b) = dims ks max_dim /\
    forall d, d <= dims ks max_dim ->
      exists C batch ptr,
        nth_error (k_cochains (kb_complex b)) d = Some C /\
        num_cells C = Ok (Some (list_sum (map (fun sz => sz d) szs))) /\
        nth_error (kb_batch b) d = Some (Some batch) /\
        length batch = list_sum (map (fun sz => sz d) szs) /\
        (forall k sz j, nth_error szs k = Some sz -> j < sz d ->
           nth_error batch (off szs k d + j) = Some k) /\
        (forall t k, nth_error batch t = Some k ->
           exists sz, nth_error szs k = Some sz /\ off szs k d <= t < off szs k d + sz d) /\
        nth_error (kb_ptr b) d = Some (Some ptr) /\
        ptr = 0 :: concat (mapi (fun i k => if d <=? k_dim k then [off szs (S i) d] else []) ks) /\
        ((forall k, In k ks -> d <= k_dim k) ->
           length ptr = S (length ks) /\
           forall i, i <= length ks -> nth_error ptr i = Some (off szs i d)).
Proof.
  intros Hne HW HU.
  destruct (from_complex_list_is_batch ks szs max_dim Hne HW HU) as (b & Hb & IB & _).
  exists b. split; auto. split; [apply IB|]. split; [apply IB|].
  intros d Hd. destruct (batch_parts ks szs max_dim b d Hne HW HU Hb Hd) as (C & H1 & H2 & H3 & H4 & H5).
  exists C, (membership szs d), (boundaries_of ks szs d).
  split; auto. split; auto. split; auto. split; [apply membership_length|].
  split; [intros; apply (membership_at _ _ _ sz); auto|].
  split; [apply membership_inv|]. split; auto. split; [reflexivity|].
  intros Hall.
  assert (E : forall s, concat (mapi_from (fun i k => if d <=? k_dim k then [off szs (S i) d] else []) s ks)
            = map (fun i => off szs (S i) d) (seq s (length ks))).
  { clear -Hall. induction ks as [|k ks IH]; intros s; simpl; auto.
    rewrite IH by (intros; apply Hall; right; auto).
    destruct (Nat.leb_spec d (k_dim k)); auto. specialize (Hall k (or_introl eq_refl)). lia. }
  unfold boundaries_of, mapi. rewrite E. split; [simpl; rewrite map_length, seq_length; auto|].
  intros [|i] Hi; simpl; auto. rewrite nth_error_map, (nth_error_nth' _ 0) by (rewrite seq_length; auto).
  rewrite seq_nth by auto. reflexivity.
Qed.

(** C02 *)
Theorem C02_no_cross_links (ks : list complex) szs max_dim b d C :
  ks <> [] -> Forall2 wf_complex ks szs -> uniform_x ks (dims ks max_dim) ->
  from_complex_list ks max_dim = Ok b -> nth_error (k_cochains (kb_complex b)) d = Some C ->
  exists batch, nth_error (kb_batch b) d = Some (Some batch) /\
    (forall u x y, c_upper C = Some u -> In (x, y) u ->
       exists k, nth_error batch x = Some k /\ nth_error batch y = Some k) /\
    (forall u x y, c_lower C = Some u -> In (x, y) u ->
       exists k, nth_error batch x = Some k /\ nth_error batch y = Some k) /\
    (forall u f t, c_bidx C = Some u -> In (f, t) u ->
       exists batch' k, 0 < d /\ nth_error (kb_batch b) (d - 1) = Some (Some batch') /\
          nth_error batch' f = Some k /\ nth_error batch t = Some k) /\
    (forall u s x y c, d < k_dim (kb_complex b) -> c_upper C = Some u -> c_shc C = Some s ->
       In ((x, y), c) (combine u s) ->
       exists batch' k, nth_error (kb_batch b) (S d) = Some (Some batch') /\
          nth_error batch x = Some k /\ nth_error batch y = Some k /\ nth_error batch' c = Some k) /\
    (forall u s x y f, c_lower C = Some u -> c_shb C = Some s ->
       In ((x, y), f) (combine u s) ->
       exists batch' k, 0 < d /\ nth_error (kb_batch b) (d - 1) = Some (Some batch') /\
          nth_error batch x = Some k /\ nth_error batch y = Some k /\ nth_error batch' f = Some k).
Proof.
  intros Hne HW HU Hb HC.
  destruct (from_complex_list_is_batch ks szs max_dim Hne HW HU) as (b' & Hb' & IB & _).
  rewrite Hb in Hb'. inversion Hb'; subst b'. clear Hb'.
  pose proof (uc_len _ _ _ _ (ib_complex _ _ _ _ IB)) as HL. fold (dims ks max_dim) in HL.
  pose proof (uc_dim _ _ _ _ (ib_complex _ _ _ _ IB)) as HD. fold (dims ks max_dim) in HD.
  assert (Hd : d <= dims ks max_dim).
  { assert (d < length (k_cochains (kb_complex b))) by (apply nth_error_Some; congruence). lia. }
  destruct (batch_parts ks szs max_dim b d Hne HW HU Hb Hd) as (C' & H1 & U & _ & H4 & _).
  rewrite HC in H1. inversion H1; subst C'. clear H1.
  exists (membership szs d). split; auto.
  assert (P0 : forall (get : cochain -> option (list (nat * nat))) sh u x y,
     (forall c sz, wf_complex c sz -> attr get 0 c = None) ->
     joined sh (map (attr get d) ks) = Some u -> In (x, y) u -> 0 < d).
  { intros get sh u x y Hg HJ Hin. destruct d; [|lia]. exfalso.
    apply (in_joined _ _ _ _ HJ) in Hin as (i & l & a & Hi & _).
    rewrite nth_error_map in Hi. destruct (nth_error ks i) as [k|] eqn:Ek; [|discriminate].
    destruct (Forall2_nth_error_l _ _ _ HW _ _ Ek) as (sz & _ & W).
    simpl in Hi. rewrite (Hg k sz W) in Hi. discriminate. }
  assert (P1 : forall c sz, wf_complex c sz -> attr (@c_bidx V) 0 c = None).
  { intros c sz W. unfold attr. destruct (nth_error (k_cochains c) 0) as [c0|] eqn:E; auto.
    pose proof (wf_bidx _ _ _ _ (wfk_each _ _ W _ _ E)) as Hl. destruct (c_bidx c0); auto. destruct Hl; lia. }
  assert (P2 : forall c sz, wf_complex c sz -> attr (@c_lower V) 0 c = None).
  { intros c sz W. unfold attr. destruct (nth_error (k_cochains c) 0) as [c0|] eqn:E; auto.
    pose proof (wf_lower _ _ _ _ (wfk_each _ _ W _ _ E)) as Hl. destruct (c_lower c0); auto. destruct Hl; lia. }
  split; [|split; [|split; [|split]]].
  - intros u x y Hu Hin. rewrite (un_upper _ _ _ _ _ U) in Hu.
    apply (adj_in_block c_upper ks szs d u); auto. intros; eapply wf_upper_bound; eauto.
  - intros u x y Hu Hin. rewrite (un_lower _ _ _ _ _ U) in Hu.
    apply (adj_in_block c_lower ks szs d u); auto. intros; eapply wf_lower_bound; eauto.
  - intros u f t Hu Hin. rewrite (un_bidx _ _ _ _ _ U) in Hu.
    assert (Hpos : 0 < d) by (eapply (P0 c_bidx); eauto).
    destruct (bidx_in_block ks szs d u f t HW Hu Hin) as (k & K1 & K2).
    exists (membership szs (d - 1)), k. split; auto.
    destruct (batch_parts ks szs max_dim b (d - 1) Hne HW HU Hb) as (_ & _ & _ & _ & H4' & _); [lia|].
    split; auto. replace (d - 1) with (pred d) by lia. auto.
  - intros u s x y c Hlt Hu Hs Hin.
    rewrite (un_upper _ _ _ _ _ U) in Hu. rewrite (un_shc _ _ _ _ _ U) in Hs.
    destruct (refs_in_block c_upper c_shc ks szs d (S d) (x, y) c HW) as (k & K1 & K2 & K3).
    + intros; eapply attr_shc_length; eauto.
    + intros sz D c0 W. split; [intros u0 Hu0; eapply wf_upper_bound; eauto|].
      intros u0 Hu0 j Hj. pose proof (wf_upper _ _ _ _ W) as Hw.
      destruct (c_upper c0); [|congruence]. destruct Hw as (_ & _ & s0 & E0 & _ & Hb0).
      apply Hb0. congruence.
    + rewrite Hu, Hs. exact Hin.
    + exists (membership szs (S d)), k. split; auto.
      destruct (batch_parts ks szs max_dim b (S d) Hne HW HU Hb) as (_ & _ & _ & _ & H4' & _); [lia|auto].
  - intros u s x y c Hu Hs Hin.
    rewrite (un_lower _ _ _ _ _ U) in Hu. rewrite (un_shb _ _ _ _ _ U) in Hs.
    assert (Hpos : 0 < d) by (eapply (P0 c_lower); eauto; apply in_combine_l in Hin; eauto).
    destruct (refs_in_block c_lower c_shb ks szs d (pred d) (x, y) c HW) as (k & K1 & K2 & K3).
    + intros; eapply attr_shb_length; eauto.
    + intros sz D c0 W. split; [intros u0 Hu0; eapply wf_lower_bound; eauto|].
      intros u0 Hu0 j Hj. pose proof (wf_lower _ _ _ _ W) as Hw.
      destruct (c_lower c0); [|congruence]. destruct Hw as (_ & _ & s0 & E0 & _ & Hb0).
      apply Hb0. congruence.
    + rewrite Hu, Hs. exact Hin.
    + exists (membership szs (d - 1)), k. split; auto.
      destruct (batch_parts ks szs max_dim b (d - 1) Hne HW HU Hb) as (_ & _ & _ & _ & H4' & _); [lia|].
      split; auto. replace (d - 1) with (pred d) by lia. auto.
Qed.

(** C03.  An adjacency that is present but empty in a member is not told apart from an absent
    one ([content]). *)
Theorem C03_batch_lossless (ks : list complex) szs max_dim b i k sz d c C :
  Forall2 wf_complex ks szs -> uniform_x ks (dims ks max_dim) ->
  from_complex_list ks max_dim = Ok b ->
  nth_error ks i = Some k -> nth_error szs i = Some sz ->
  nth_error (k_cochains k) d = Some c ->
  nth_error (k_cochains (kb_complex b)) d = Some C ->
  (c_x c = None <-> c_x C = None) /\
  rows_of (off szs i d) (sz d) (content (c_x C)) = content (c_x c) /\
  restrict (off szs i d) (sz d) (off szs i d) (sz d) (content (c_upper C)) = content (c_upper c) /\
  restrict (off szs i d) (sz d) (off szs i d) (sz d) (content (c_lower C)) = content (c_lower c) /\
  restrict (off szs i (pred d)) (sz (pred d)) (off szs i d) (sz d) (content (c_bidx C))
    = content (c_bidx c) /\
  restrict_refs (off szs i d) (sz d) (off szs i (S d)) (content (c_upper C)) (content (c_shc C))
    = content (c_shc c) /\
  restrict_refs (off szs i d) (sz d) (off szs i (pred d)) (content (c_lower C)) (content (c_shb C))
    = content (c_shb c) /\
  (c_upper C = None -> c_upper c = None) /\ (c_lower C = None -> c_lower c = None) /\
  (c_bidx C = None -> c_bidx c = None).
Proof.
  intros HW HU Hb Hi Hs Hc HC.
  assert (Hne : ks <> []) by (destruct ks; [destruct i; discriminate|discriminate]).
  destruct (from_complex_list_is_batch ks szs max_dim Hne HW HU) as (b' & Hb' & IB & _).
  rewrite Hb in Hb'. inversion Hb'; subst b'. clear Hb'.
  pose proof (uc_len _ _ _ _ (ib_complex _ _ _ _ IB)) as HL. fold (dims ks max_dim) in HL.
  assert (Hd : d <= dims ks max_dim).
  { assert (d < length (k_cochains (kb_complex b))) by (apply nth_error_Some; congruence). lia. }
  pose proof (uc_each _ _ _ _ (ib_complex _ _ _ _ IB) _ _ HC) as U.
  pose proof (nth_error_In _ _ Hi) as Hin.
  assert (AT : forall {T} (get : cochain -> option (list T)), attr get d k = get c).
  { intros T get. unfold attr. rewrite Hc; auto. }
  assert (EN : forall {T} (get : cochain -> option (list T)) sh,
     joined sh (map (attr get d) ks) = None -> get c = None).
  { intros T get sh HJ. rewrite <- AT. destruct (attr get d k) as [l|] eqn:E; auto.
    rewrite joined_Some in HJ; [discriminate|]. exists l. apply in_map_iff. exists k; auto. }
  split; [|split; [|split; [|split; [|split; [|split; [|split; [|split; [|split]]]]]]]].
  - rewrite (un_x _ _ _ _ _ U). split.
    + intros E. apply joined_None. intros l Hl. apply in_map_iff in Hl as (k' & E' & Hk').
      unfold attr in E'. destruct (nth_error (k_cochains k') d) as [c'|] eqn:Ec'; [|discriminate].
      destruct (HU d Hd) as [Hall|Hall].
      * apply (Hall _ _ Hin Hc E).
      * rewrite (Hall _ _ Hk' Ec') in E'. discriminate.
    + apply EN.
  - rewrite (un_x _ _ _ _ _ U), <- AT. destruct (HU d Hd) as [Hall|Hall].
    + apply joined_rows; auto.
    + rewrite joined_None.
      * rewrite AT, (Hall _ _ Hin Hc). simpl. unfold rows_of. rewrite skipn_nil, firstn_nil; auto.
      * intros l Hl. apply in_map_iff in Hl as (k' & E' & Hk'). unfold attr in E'.
        destruct (nth_error (k_cochains k') d) as [c'|] eqn:Ec'; [|discriminate].
        rewrite (Hall _ _ Hk' Ec') in E'. discriminate.
  - rewrite (un_upper _ _ _ _ _ U), <- AT. apply (joined_restrict c_upper); auto. intros; eapply wf_upper_bound; eauto.
  - rewrite (un_lower _ _ _ _ _ U), <- AT. apply (joined_restrict c_lower); auto. intros; eapply wf_lower_bound; eauto.
  - rewrite (un_bidx _ _ _ _ _ U), <- AT. apply (joined_restrict c_bidx); auto. intros; eapply wf_bidx_bound; eauto.
  - rewrite (un_upper _ _ _ _ _ U), (un_shc _ _ _ _ _ U), <- AT. apply (joined_restrict_refs c_upper c_shc); auto.
    + intros; eapply attr_shc_length; eauto.
    + intros; eapply wf_upper_bound; eauto.
  - rewrite (un_lower _ _ _ _ _ U), (un_shb _ _ _ _ _ U), <- AT. apply (joined_restrict_refs c_lower c_shb); auto.
    + intros; eapply attr_shb_length; eauto.
    + intros; eapply wf_lower_bound; eauto.
  - rewrite (un_upper _ _ _ _ _ U). apply EN.
  - rewrite (un_lower _ _ _ _ _ U). apply EN.
  - rewrite (un_bidx _ _ _ _ _ U). apply EN.
Qed.

(** C09.  No well-formedness is needed: the two batches (or the two errors) are identical. *)
Theorem C09_truncation (ks ks' : list complex) max_dim :
  (* the two lists agree once everything above max_dim is removed *)
  map (truncate max_dim) ks = map (truncate max_dim) ks' ->
  from_complex_list ks max_dim = from_complex_list ks' max_dim /\
  from_complex_list ks max_dim = from_complex_list (map (truncate max_dim) ks) max_dim.
Proof.
  intros E. rewrite <- (from_complex_list_truncate ks), <- (from_complex_list_truncate ks'), E.
  split; auto.
Qed.

Theorem C09_top_has_no_upper (ks : list complex) szs max_dim b md top down bnd p :
  ks <> [] -> Forall2 wf_complex ks szs -> uniform_x ks (dims ks max_dim) ->
  from_complex_list ks max_dim = Ok b ->
  get_cochain_params (kb_complex b) (dims ks max_dim) md top down bnd = Ok p ->
  p_up p = None /\ p_up_attr p = None.
Proof.
  intros Hne HW HU Hb Hp.
  destruct (from_complex_list_is_batch ks szs max_dim Hne HW HU) as (b' & Hb' & IB & _).
  rewrite Hb in Hb'. inversion Hb'; subst b'. clear Hb'.
  pose proof (uc_len _ _ _ _ (ib_complex _ _ _ _ IB)) as HL. fold (dims ks max_dim) in HL.
  unfold get_cochain_params in Hp.
  destruct (nth_error (k_cochains (kb_complex b)) (dims ks max_dim)) as [c|]; [|discriminate].
  assert (E : nth_error (k_cochains (kb_complex b)) (S (dims ks max_dim)) = None)
    by (apply nth_error_None; lia).
  rewrite E in Hp.
  destruct (c_upper c); cbn [bind] in Hp; apply bind_ok in Hp as (lo & _ & Hp);
  inversion Hp; auto.
Qed.

(** C10 *)
Theorem C10_batch_labels (ks : list complex) max_dim b :
  from_complex_list ks max_dim = Ok b ->
  (forall ys, map k_y ks = map Some ys -> get_labels (kb_complex b) None = Ok (Some (concat ys))) /\
  ((exists k, In k ks /\ k_y k = None) -> get_labels (kb_complex b) None = Ok None).
Proof.
  intros Hb. simpl. rewrite (from_complex_list_y _ _ _ Hb). unfold batch_labels. split.
  - intros ys E. rewrite label_fold_all; simpl.
    + do 3 f_equal. revert ys E. clear. induction ks as [|k ks IH]; intros [|y ys] E; simpl in *; try discriminate; auto.
      inversion E as [[E1 E2]]. rewrite (IH ys E2), E1. reflexivity.
    + intros k Hk Hy. apply (in_map k_y) in Hk. rewrite E, Hy in Hk.
      apply in_map_iff in Hk as (y & Ey & _). discriminate.
  - intros (k & Hk & Hy). rewrite (label_fold_none ks k true []); auto.
Qed.

End Props.

(** ** Satisfiability of the hypotheses: a batch with the house, a point and a path. *)
Definition trio : list (complex Z) := [house; point; path3].
Definition trio_sz := [house_sz; point_sz; path3_sz].

Lemma trio_wf : Forall2 wf_complex trio trio_sz.
Proof.
  constructor; [apply house_wf|]. constructor; [apply point_wf|].
  constructor; [apply path3_wf|]. constructor.
Qed.

Lemma trio_uniform D : uniform_x trio D.
Proof.
  intros d _. left. intros k c [<-|[<-|[<-|[]]]] Hd; do 4 (try destruct d as [|d]); simpl in Hd;
  try discriminate; inversion Hd; discriminate.
Qed.

Example trio_batch : exists b, from_complex_list trio 2 = Ok b /\
  kb_batch b = [Some [0;0;0;0;0;1;2;2;2]; Some [0;0;0;0;0;0;2;2]; Some [0]] /\
  kb_ptr b = [Some [0;5;6;9]; Some [0;6;8]; Some [0;1]] /\
  map c_upper (k_cochains (kb_complex b)) =
    [Some (cols [0;1;0;3;1;2;2;3;2;4;3;4;6;7;7;8] [1;0;3;0;2;1;3;2;4;2;4;3;7;6;8;7]);
     Some (cols [2;4;2;5;4;5] [4;2;5;2;5;4]); None] /\
  get_labels (kb_complex b) None = Ok None.
Proof. eexists. split; [vm_compute; reflexivity|]. vm_compute. auto. Qed.

Example trio_hyps : trio <> [] /\ Forall2 wf_complex trio trio_sz /\ uniform_x trio (dims trio 2).
Proof. split; [discriminate|]. split; [apply trio_wf|apply trio_uniform]. Qed.

Example truncation_hyps :
  exists ks' : list (complex Z), ks' <> trio /\ map (truncate 1) trio = map (truncate 1) ks'.
Proof. exists [mkComplexRec 1 [house_v; house_e] (Some [5%Z]); point; path3]. split; [discriminate|reflexivity]. Qed.

(** ** Refutations of stronger readings *)

(** [ptr[k]] is not the first cell of complex [k] when a member lacks the dimension: in the batch
    above complex 2 starts at 1-cell 6, but ptr of dimension 1 is [0;6;8] and has no entry 3. *)
Theorem C01_ptr_position_refuted :
  ~ (forall (ks : list (complex Z)) szs max_dim b d ptr i,
       ks <> [] -> Forall2 wf_complex ks szs -> uniform_x ks (dims ks max_dim) ->
       from_complex_list ks max_dim = Ok b -> nth_error (kb_ptr b) d = Some (Some ptr) ->
       i < length ks -> nth_error ptr i = Some (off szs i d)).
Proof.
  intros H. destruct trio_batch as (b & Hb & _ & Hp & _).
  assert (X : nth_error [0;6;8] 2 = Some (off trio_sz 2 1)); [|discriminate X].
  apply (H trio trio_sz 2 b); auto; try discriminate.
  - apply trio_wf.
  - apply trio_uniform.
  - rewrite Hp; reflexivity.
Qed.

(** Without uniform presence of features the cell count of the batch is wrong: a path without edge
    features batched with one that has them. *)
Definition path_bare : complex Z :=
  mkComplexRec 1 [path_v; set_x_raw path_e None] (Some [1%Z]).

Lemma path_bare_wf : wf_complex path_bare path3_sz.
Proof. apply (wf_complexb_ok path_bare [3; 2]). reflexivity. Qed.

Theorem C01_mixed_features_refuted :
  ~ (forall (ks : list (complex Z)) szs max_dim b d C,
       ks <> [] -> Forall2 wf_complex ks szs ->
       from_complex_list ks max_dim = Ok b -> nth_error (k_cochains (kb_complex b)) d = Some C ->
       num_cells C = Ok (Some (total szs d))).
Proof.
  intros H.
  assert (E : exists b C, from_complex_list [path_bare; path3] 1 = Ok b /\
     nth_error (k_cochains (kb_complex b)) 1 = Some C /\ num_cells C = Ok (Some 2) /\ c_x C = Some [10;11]%Z).
  { do 2 eexists. split; [vm_compute; reflexivity|]. vm_compute. auto. }
  destruct E as (b & C & Hb & HC & Hn & _).
  assert (X : num_cells C = Ok (Some (total [path3_sz; path3_sz] 1))); [|rewrite Hn in X; discriminate X].
  apply (H [path_bare; path3] [path3_sz; path3_sz] 1 b); auto; try discriminate.
  constructor; [apply path_bare_wf|constructor; [apply path3_wf|constructor]].
Qed.

Print Assumptions C01_batch_assigns_cells.
Print Assumptions C02_no_cross_links.
Print Assumptions C03_batch_lossless.
Print Assumptions C09_truncation.
Print Assumptions C09_top_has_no_upper.
Print Assumptions C10_batch_labels.
Print Assumptions C01_ptr_position_refuted.
Print Assumptions C01_mixed_features_refuted.
