(** Storing and retrieving datasets: C31 and C32. *)
From Coq Require Import String List Arith Lia ZArith Bool.
From Verif Require Import Base ComplexModel BatchSpec BatchSpec2 BatchProofs LiftSpec DatasetModel DatasetSpec DatasetProofs.
Import ListNotations.

Section Props.
Context {V : Type}.
Notation cochain := (cochain V).
Notation complex := (complex V).

(** A dataset just after loading: storage, no cache. *)
Definition loaded (ds : dataset V) (co : collated V) (max_dim : nat) : Prop :=
  d_data ds = Some co /\ d_max_dim ds = max_dim /\ d_cache ds = None.

(** The complexes and the storage of the statements below. *)
Record collection (ks : list complex) (max_dim : nat) : Prop := {
  cl_store : forall k, In k ks -> exists n, storable k n;
  cl_dims : forall k, In k ks -> k_dim k <= max_dim;
  cl_labels : labelled ks;
  cl_nonvoid : nonvoid ks max_dim
}.

Lemma collection_ne ks md : collection ks md -> ks <> [].
Proof. intros H E. destruct (cl_nonvoid _ _ H) as (k & d & c & Hk & _). subst. destruct Hk. Qed.

Lemma loaded_cache ds co md ks : loaded ds co md -> collate ks md = Ok co -> nonvoid ks md ->
  cache_ok ds (length ks) (fetch co (d_max_dim ds)).
Proof.
  intros (Hd & Hm & Hc) E Hn. split.
  - intros i k (l & El & _). congruence.
  - rewrite Hc. unfold ds_len. rewrite Hd. f_equal. eapply co_len_spec; eauto.
Qed.

(** C31: collating succeeds, the dataset has as many entries as there are complexes, and any
    sequence of accesses, in any order and with any repetitions, returns for every access a complex
    with the dimension, label, features, adjacency and counts of the complex stored at that
    position; accesses at the same position return equal complexes. *)
Theorem C31_collate_get_partial : forall (ks : list complex) max_dim, collection ks max_dim ->
  exists co, collate ks max_dim = Ok co /\ co_len co = length ks /\
  exists f : nat -> complex,
    (forall i k, nth_error ks i = Some k -> same_complex k (f i)) /\
    forall ds idxs, loaded ds co max_dim -> (forall i, In i idxs -> i < length ks) ->
      fst (ds_gets ds idxs) = map (fun i => Ok (f i)) idxs.
Proof.
  intros ks md HC. destruct (collate_ok ks md (collection_ne _ _ HC) (cl_labels _ _ HC)) as (co & E & _ & _).
  exists co. split; [exact E|]. split; [eapply co_len_spec; eauto using cl_nonvoid|].
  exists (fun i => match fetch co md i with Ok k => k | Err _ => mkComplexRec 0 [] None end).
  assert (HF : forall i k, nth_error ks i = Some k -> exists k', fetch co md i = Ok k' /\ same_complex k k').
  { intros i k Hi. assert (Hin : In k ks) by (eapply nth_error_In; eauto).
    destruct (cl_store _ _ HC k Hin) as (n & Hn).
    eapply fetch_spec; eauto using cl_labels, cl_dims. }
  split.
  - intros i k Hi. destruct (HF i k Hi) as (k' & -> & H). exact H.
  - intros ds idxs HL Hi. pose proof (loaded_cache ds co md ks HL E (cl_nonvoid _ _ HC)) as HCk.
    destruct (ds_gets_spec idxs ds co (length ks) (proj1 HL) HCk Hi) as (ds' & -> & _). cbn [fst].
    apply map_ext_in. intros i Hin. destruct HL as (_ & -> & _).
    destruct (nth_error ks i) as [k|] eqn:Ek; [|apply nth_error_None in Ek; specialize (Hi i Hin); lia].
    destruct (HF i k Ek) as (k' & -> & _). reflexivity.
Qed.

(** Equality of the data without tensors of size zero is equality of every attribute, and then also
    the cell counts that the accessors report agree. *)
Lemma full_shrink {T} (o : option (list T)) : full o -> shrink o = o.
Proof. destruct o as [[|t l]|]; auto. intros H; exfalso; apply H; reflexivity. Qed.

Lemma tidy_identical (k k' : complex) : tidy k -> same_complex k k' -> identical k k'.
Proof.
  intros Ht H. constructor.
  - apply H.
  - apply H.
  - apply H.
  - intros d c Hc. destruct (sk_each _ _ H d c Hc) as (c' & Hc' & S). exists c'. split; auto.
    destruct (Ht c (nth_error_In _ _ Hc)) as (H1 & H2 & H3 & H4 & H5 & H6 & H7 & H8 & H9 & H10).
    destruct S as [S0 S1 S2 S3 S4 S5 S6 S7 S8 S9 S10 S11 S12 S13].
    rewrite (full_shrink _ H1) in S1. rewrite (full_shrink _ H2) in S2. rewrite (full_shrink _ H3) in S3.
    rewrite (full_shrink _ H4) in S4. rewrite (full_shrink _ H5) in S5. rewrite (full_shrink _ H6) in S6.
    rewrite (full_shrink _ H7) in S7. rewrite (full_shrink _ H8) in S8. rewrite (full_shrink _ H9) in S9.
    rewrite (full_shrink _ H10) in S10. unfold identical_cochain. destruct c', c. cbn in *.
    subst. f_equal. destruct d; auto. apply S13. lia.
Qed.

Lemma identical_counts d (c c' : cochain) : c_dim c = d -> identical_cochain d c c' ->
  num_cells c' = num_cells c /\ num_cells_up c' = num_cells_up c /\ num_cells_down c' = num_cells_down c.
Proof.
  intros Hd ->. repeat split. unfold num_cells_down. cbn [c_dim c_ndown c_lower]. rewrite Hd.
  destruct (d =? 0); reflexivity.
Qed.

Theorem C31_exact : forall (ks : list complex) max_dim co ds,
  collection ks max_dim -> (forall k, In k ks -> tidy k) ->
  collate ks max_dim = Ok co -> loaded ds co max_dim ->
  forall i k, nth_error ks i = Some k ->
  exists k', fst (ds_get ds i) = Ok k' /\ identical k k' /\
    forall d c, nth_error (k_cochains k) d = Some c ->
    exists c', nth_error (k_cochains k') d = Some c' /\
      num_cells c' = num_cells c /\ num_cells_up c' = num_cells_up c /\ num_cells_down c' = num_cells_down c.
Proof.
  intros ks md co ds HC HT E HL i k Hi.
  assert (Hin : In k ks) by (eapply nth_error_In; eauto).
  destruct (cl_store _ _ HC k Hin) as (n & Hn).
  destruct (fetch_spec ks md co i k n E (cl_labels _ _ HC) Hi Hn (cl_dims _ _ HC k Hin)) as (k' & F & S).
  pose proof (loaded_cache ds co md ks HL E (cl_nonvoid _ _ HC)) as HCk.
  destruct (ds_get_spec ds co (length ks) i (proj1 HL) HCk) as (ds' & -> & _).
  { apply nth_error_Some. congruence. }
  exists k'. cbn [fst]. destruct HL as (_ & -> & _). split; auto.
  pose proof (tidy_identical k k' (HT k Hin) S) as I. split; auto.
  intros d c Hc. destruct (id_each _ _ I d c Hc) as (c' & Hc' & Ic). exists c'. split; auto.
  apply (identical_counts d); auto. apply (so_dim _ _ _ _ (st_each _ _ Hn d c Hc)).
Qed.

(** Mini-batches drawn from the stored dataset are the mini-batches of the original complexes. *)
Lemma key_loop_ident {T C} (f : cochain -> option (list T)) (inc : cochain -> result C) plus shift :
  forall l l', Forall2 (fun c c' => f c' = f c /\ inc c' = inc c) l l' ->
  forall z, key_loop f inc plus shift z l' = key_loop f inc plus shift z l.
Proof.
  intros l l' H. induction H as [|c c' l l' [E1 E2] _ IH]; intros z; auto.
  simpl. rewrite E1, E2. destruct (inc c); simpl; auto. rewrite IH. reflexivity.
Qed.

Lemma batch_key_ident {T C} (f : cochain -> option (list T)) (inc : cochain -> result C) plus z shift l l' :
  Forall2 (fun c c' => f c' = f c /\ inc c' = inc c) l l' ->
  batch_key f inc plus z shift l' = batch_key f inc plus z shift l.
Proof.
  intros H. unfold batch_key. rewrite (key_loop_ident _ _ _ _ _ _ H).
  replace (existsb (fun c => isSome (f c)) l') with (existsb (fun c => isSome (f c)) l); auto.
  induction H as [|c c' l l' [E1 _] _ IH]; auto. simpl. rewrite E1, IH. reflexivity.
Qed.

Lemma batch_loop_ident l l' : Forall2 (fun c c' : cochain => num_cells c' = num_cells c) l l' ->
  forall i p, batch_loop i p l' = batch_loop i p l.
Proof.
  intros H. induction H as [|c c' l l' E _ IH]; intros i p; auto.
  simpl. rewrite E. destruct (num_cells c) as [[n|]|]; simpl; auto. rewrite IH. reflexivity.
Qed.

Lemma Forall2_imp {A B} (P Q : A -> B -> Prop) l l' :
  (forall a b, P a b -> Q a b) -> Forall2 P l l' -> Forall2 Q l l'.
Proof. intros H F. induction F; auto. Qed.

Lemma from_cochain_list_ident d (l l' : list cochain) :
  Forall2 (fun c c' => c_dim c = d /\ identical_cochain d c c') l l' ->
  from_cochain_list l' = from_cochain_list l.
Proof.
  intros H.
  assert (HI : Forall2 (fun c c' : cochain =>
    (c_x c' = c_x c /\ c_upper c' = c_upper c /\ c_lower c' = c_lower c /\ c_shb c' = c_shb c /\
     c_shc c' = c_shc c /\ c_bidx c' = c_bidx c /\ c_uor c' = c_uor c /\ c_lor c' = c_lor c /\
     c_y c' = c_y c /\ c_mask c' = c_mask c /\ c_dim c' = c_dim c) /\
    num_cells c' = num_cells c /\ num_cells_up c' = num_cells_up c /\ num_cells_down c' = num_cells_down c) l l').
  { eapply Forall2_imp; [|exact H]. intros c c' [E I]. pose proof (identical_counts d c c' E I) as N.
    rewrite I in *. cbn in *. intuition. }
  clear H. unfold from_cochain_list.
  destruct HI as [|c c' r r' Hc Hr]; auto. assert (HI : Forall2 (fun c c' : cochain =>
    (c_x c' = c_x c /\ c_upper c' = c_upper c /\ c_lower c' = c_lower c /\ c_shb c' = c_shb c /\
     c_shc c' = c_shc c /\ c_bidx c' = c_bidx c /\ c_uor c' = c_uor c /\ c_lor c' = c_lor c /\
     c_y c' = c_y c /\ c_mask c' = c_mask c /\ c_dim c' = c_dim c) /\
    num_cells c' = num_cells c /\ num_cells_up c' = num_cells_up c /\ num_cells_down c' = num_cells_down c) (c :: r) (c' :: r'))
    by (constructor; auto). clear Hr.
  replace (c_dim c') with (c_dim c) by (symmetry; apply Hc). clear Hc.
  unfold batch_plain.
  rewrite (batch_key_ident c_x inc_none _ _ _ (c :: r) (c' :: r')) by (eapply Forall2_imp; [|exact HI]; intros a b (? & ?); intuition).
  rewrite (batch_key_ident c_upper inc_cells _ _ _ (c :: r) (c' :: r'))
    by (eapply Forall2_imp; [|exact HI]; intros a b (? & E & _); unfold inc_cells; rewrite E; intuition).
  rewrite (batch_key_ident c_lower inc_cells _ _ _ (c :: r) (c' :: r'))
    by (eapply Forall2_imp; [|exact HI]; intros a b (? & E & _); unfold inc_cells; rewrite E; intuition).
  rewrite (batch_key_ident c_shb inc_down _ _ _ (c :: r) (c' :: r'))
    by (eapply Forall2_imp; [|exact HI]; intros a b (? & _ & _ & E); unfold inc_down; rewrite E; intuition).
  rewrite (batch_key_ident c_shc inc_up _ _ _ (c :: r) (c' :: r'))
    by (eapply Forall2_imp; [|exact HI]; intros a b (? & _ & E & _); unfold inc_up; rewrite E; intuition).
  rewrite (batch_key_ident c_bidx inc_boundary _ _ _ (c :: r) (c' :: r'))
    by (eapply Forall2_imp; [|exact HI]; intros a b (? & E & _ & E'); unfold inc_boundary; rewrite E, E'; intuition).
  rewrite (batch_key_ident c_uor inc_none _ _ _ (c :: r) (c' :: r')) by (eapply Forall2_imp; [|exact HI]; intros a b (? & ?); intuition).
  rewrite (batch_key_ident c_lor inc_none _ _ _ (c :: r) (c' :: r')) by (eapply Forall2_imp; [|exact HI]; intros a b (? & ?); intuition).
  rewrite (batch_key_ident c_y inc_none _ _ _ (c :: r) (c' :: r')) by (eapply Forall2_imp; [|exact HI]; intros a b (? & ?); intuition).
  rewrite (batch_key_ident c_mask inc_none _ _ _ (c :: r) (c' :: r')) by (eapply Forall2_imp; [|exact HI]; intros a b (? & ?); intuition).
  rewrite (batch_loop_ident (c :: r) (c' :: r')) by (eapply Forall2_imp; [|exact HI]; intros a b (? & E & _); exact E).
  reflexivity.
Qed.

Lemma member_ident (k k' : complex) d : length (k_cochains k) = k_dim k + 1 -> identical k k' ->
  (forall d c, nth_error (k_cochains k) d = Some c -> c_dim c = d) ->
  (exists c c', member_cochain k d = Ok c /\ member_cochain k' d = Ok c' /\ c_dim c = d /\ identical_cochain d c c') \/
  (exists e, member_cochain k d = Err e /\ member_cochain k' d = Err e).
Proof.
  intros Hl I Hdim. unfold member_cochain. destruct (nth_error (k_cochains k) d) as [c|] eqn:E.
  - destruct (id_each _ _ I d c E) as (c' & -> & Hc). left. exists c, c'. repeat split; auto.
  - assert (E' : nth_error (k_cochains k') d = None).
    { apply nth_error_None. rewrite (id_len _ _ I). apply nth_error_None. auto. }
    rewrite E'. destruct d as [|d'].
    + left. exists (empty_cochain 0), (empty_cochain 0). repeat split.
    + destruct (nth_error (k_cochains k) d') as [c|] eqn:Ed.
      * destruct (id_each _ _ I d' c Ed) as (c' & -> & Hc).
        destruct (identical_counts d' c c' (Hdim _ _ Ed) Hc) as (-> & _).
        destruct (num_cells c) as [n|e]; cbn [bind].
        -- left. eexists _, _. split; [reflexivity|]. split; [reflexivity|]. repeat split.
        -- right. exists e. auto.
      * assert (Ed' : nth_error (k_cochains k') d' = None).
        { apply nth_error_None. rewrite (id_len _ _ I). apply nth_error_None. auto. }
        rewrite Ed'. left. exists (empty_cochain (S d')), (empty_cochain (S d')). repeat split.
Qed.

Lemma from_complex_list_ident (ks ks' : list complex) max_dim :
  Forall2 (fun k k' => length (k_cochains k) = k_dim k + 1 /\ identical k k' /\
     forall d c, nth_error (k_cochains k) d = Some c -> c_dim c = d) ks ks' ->
  from_complex_list ks' max_dim = from_complex_list ks max_dim.
Proof.
  intros H. assert (Hn : length ks' = length ks) by (clear -H; induction H; simpl; auto).
  assert (HD : map k_dim ks' = map k_dim ks).
  { clear Hn. induction H as [|k k' l l' (_ & I & _) _ IH]; auto. simpl. rewrite (id_dim _ _ I), IH. reflexivity. }
  assert (HY : batch_labels ks' = batch_labels ks).
  { unfold batch_labels. clear Hn HD. generalize (true, @nil (list Z)).
    induction H as [|k k' l l' (_ & I & _) _ IH]; intros st; auto. simpl.
    unfold label_step at 2 4. rewrite (id_y _ _ I). apply IH. }
  assert (HM : forall d, (let* cs := mapM (fun k => member_cochain k d) ks' in from_cochain_list cs) =
                         (let* cs := mapM (fun k => member_cochain k d) ks in from_cochain_list cs)).
  { intros d.
    assert (G : (exists cs cs', mapM (fun k => member_cochain k d) ks = Ok cs /\
                   mapM (fun k => member_cochain k d) ks' = Ok cs' /\
                   Forall2 (fun c c' => c_dim c = d /\ identical_cochain d c c') cs cs') \/
                (exists e, mapM (fun k => member_cochain k d) ks = Err e /\
                   mapM (fun k => member_cochain k d) ks' = Err e)).
    { clear Hn HD HY. induction H as [|k k' l l' (L & I & D) _ IH].
      - left. exists [], []. repeat split; constructor.
      - simpl. destruct (member_ident k k' d L I D) as [(c & c' & -> & -> & Hc & Hi)|(e & -> & ->)]; cbn [bind].
        + destruct IH as [(cs & cs' & -> & -> & F)|(e & -> & ->)]; cbn [bind].
          * left. exists (c :: cs), (c' :: cs'). repeat split; auto.
          * right. exists e; auto.
        + right. exists e; auto. }
    destruct G as [(cs & cs' & -> & -> & F)|(e & -> & ->)]; cbn [bind]; auto.
    apply (from_cochain_list_ident d); auto. }
  unfold from_complex_list. destruct H as [|k k' l l' Hk H]; auto.
  rewrite HD, HY, Hn. rewrite (mapM_ext _ _ _ (fun d _ => HM d)). reflexivity.
Qed.

Theorem C31_same_batches : forall (ks : list complex) max_dim co ds,
  collection ks max_dim -> (forall k, In k ks -> tidy k) ->
  collate ks max_dim = Ok co -> loaded ds co max_dim ->
  forall idxs picked, mapM (get ks) idxs = Ok picked ->
  exists picked', fst (ds_gets ds idxs) = map Ok picked' /\
    forall dim, from_complex_list picked' dim = from_complex_list picked dim.
Proof.
  intros ks md co ds HC HT E HL idxs picked HP. apply mapM_ok_iff in HP.
  assert (Hi : forall i, In i idxs -> i < length ks).
  { clear -HP. induction HP as [|i k l l' Hk _ IH]; intros j Hj; [destruct Hj|]. destruct Hj as [->|Hj]; auto.
    apply get_ok in Hk. apply nth_error_Some. congruence. }
  pose proof (loaded_cache ds co md ks HL E (cl_nonvoid _ _ HC)) as HCk.
  destruct (ds_gets_spec idxs ds co (length ks) (proj1 HL) HCk Hi) as (ds' & -> & _). cbn [fst].
  destruct HL as (_ & -> & _). clear HCk Hi.
  assert (G : exists picked', map (fetch co md) idxs = map Ok picked' /\
    Forall2 (fun k k' => length (k_cochains k) = k_dim k + 1 /\ identical k k' /\
     forall d c, nth_error (k_cochains k) d = Some c -> c_dim c = d) picked picked').
  { induction HP as [|i k l l' Hk _ IH].
    - exists []. split; constructor.
    - destruct IH as (p & Ep & Fp). apply get_ok in Hk. assert (Hin : In k ks) by (eapply nth_error_In; eauto).
      destruct (cl_store _ _ HC k Hin) as (n & Hn).
      destruct (fetch_spec ks md co i k n E (cl_labels _ _ HC) Hk Hn (cl_dims _ _ HC k Hin)) as (k' & F & S).
      exists (k' :: p). simpl. rewrite F, Ep. split; auto. constructor; auto. split; [apply Hn|].
      split; [apply tidy_identical; auto|]. intros d c Hc. apply (so_dim _ _ _ _ (st_each _ _ Hn d c Hc)). }
  destruct G as (p & Ep & Fp). exists p. split; auto. intros dim. apply from_complex_list_ident; auto.
Qed.

(** Every well-formed complex with cells in every dimension can be stored. *)
Theorem C31_wf_storable (k : complex) sz : wf_complex k sz -> (forall d, d <= k_dim k -> 0 < sz d) -> storable k sz.
Proof.
  intros W Hp. constructor; [apply W|]. intros d c Hc.
  pose proof (wfk_each _ _ W d c Hc) as Wc.
  assert (Hd : d <= k_dim k).
  { assert (d < length (k_cochains k)) by (apply nth_error_Some; congruence). rewrite (wfk_len _ _ W) in H. lia. }
  constructor.
  - apply Wc.
  - destruct (wf_n _ _ _ _ Wc) as [E|E]; auto. right. pose proof (wf_x _ _ _ _ Wc) as X.
    destruct (c_x c) as [xs|] eqn:Ex.
    + left. split; auto. exists xs. repeat split; auto. intros ->. simpl in X. specialize (Hp d Hd). lia.
    + right. split; auto. split; auto. destruct X as (b & p & Eb & Hin & Hs). exists b. split; auto.
      split; [eauto|]. intros q Hq. pose proof (wf_bidx _ _ _ _ Wc) as B. rewrite Eb in B.
      destruct q as [f t]. destruct B as [_ B]. apply (B f t); auto.
  - pose proof (wf_nup _ _ _ _ Wc) as U. destruct (d <? k_dim k); auto. destruct U as [-> | ->]; discriminate.
  - apply Wc.
Qed.

Lemma content_shrink {T} (o : option (list T)) : content (shrink o) = content o.
Proof. destruct o as [[|t l]|]; reflexivity. Qed.

(** A lifted complex read back from storage still has exactly the cells, relations and features of
    the lifting. *)
Theorem C31_lifted : forall cells down X (k k' : complex),
  has_cells cells down X k -> same_complex k k' -> has_cells cells down X k'.
Proof.
  intros cells down X k k' H S. pose proof (hc_wf _ _ _ _ H) as W.
  assert (HS : forall d c', nth_error (k_cochains k') d = Some c' ->
    exists c, nth_error (k_cochains k) d = Some c /\ same_cochain d c c').
  { intros d c' Hc'. destruct (nth_error (k_cochains k) d) as [c|] eqn:E.
    - destruct (sk_each _ _ S d c E) as (c1 & E1 & Sc). exists c. split; auto. congruence.
    - apply nth_error_None in E. rewrite <- (sk_len _ _ S) in E. apply nth_error_None in E. congruence. }
  constructor.
  - constructor.
    + rewrite (sk_len _ _ S), (sk_dim _ _ S). apply W.
    + intros d c' Hc'. destruct (HS d c' Hc') as (c & Hc & Sc). pose proof (wfk_each _ _ W d c Hc) as Wc.
      rewrite (sk_dim _ _ S).
      assert (Hd : d <= k_dim k).
      { assert (d < length (k_cochains k)) by (apply nth_error_Some; congruence). rewrite (wfk_len _ _ W) in H0. lia. }
      assert (Hp : 0 < length (cells d)).
      { pose proof (hc_occupied _ _ _ _ H d Hd). destruct (cells d); [congruence|simpl; lia]. }
      constructor.
      * rewrite (sa_dim _ _ _ Sc). apply Wc.
      * rewrite (sa_n _ _ _ Sc). apply Wc.
      * rewrite (sa_x _ _ _ Sc), (sa_bidx _ _ _ Sc). pose proof (wf_x _ _ _ _ Wc) as X1.
        destruct (c_x c) as [[|v xs]|]; cbn [shrink]; auto.
        -- simpl in X1. lia.
        -- destruct X1 as (b & p & -> & Hin & Hs). exists b, p. destruct b; [destruct Hin|]. auto.
      * rewrite (sa_upper _ _ _ Sc), (sa_shc _ _ _ Sc). pose proof (wf_upper _ _ _ _ Wc) as U.
        destruct (c_upper c) as [[|p u]|]; cbn [shrink].
        -- destruct U as (_ & _ & s & -> & Hl & _). destruct s; [reflexivity|discriminate].
        -- destruct U as (U1 & U2 & s & -> & Hl & U3). split; [exact U1|]. split; [exact U2|].
           exists s. destruct s; [discriminate|]. auto.
        -- rewrite U. reflexivity.
      * rewrite (sa_lower _ _ _ Sc), (sa_shb _ _ _ Sc). pose proof (wf_lower _ _ _ _ Wc) as U.
        destruct (c_lower c) as [[|p u]|]; cbn [shrink].
        -- destruct U as (_ & _ & s & -> & Hl & _). destruct s; [reflexivity|discriminate].
        -- destruct U as (U1 & U2 & s & -> & Hl & U3). split; [exact U1|]. split; [exact U2|].
           exists s. destruct s; [discriminate|]. auto.
        -- rewrite U. reflexivity.
      * rewrite (sa_bidx _ _ _ Sc). pose proof (wf_bidx _ _ _ _ Wc) as B.
        destruct (c_bidx c) as [[|p b]|]; cbn [shrink]; auto.
      * rewrite (sa_nup _ _ _ Sc). apply Wc.
      * intros Hpos. rewrite (sa_ndown _ _ _ Sc Hpos). apply Wc; auto.
    + intros d Hd. apply (wfk_above _ _ W). rewrite <- (sk_dim _ _ S). auto.
  - intros d Hd. apply (hc_occupied _ _ _ _ H). rewrite <- (sk_dim _ _ S). auto.
  - intros d c' Hc'. destruct (HS d c' Hc') as (c & Hc & Sc). rewrite (sa_x _ _ _ Sc), <- (hc_x _ _ _ _ H d c Hc).
    assert (Hd : d <= k_dim k).
    { assert (d < length (k_cochains k)) by (apply nth_error_Some; congruence). rewrite (wfk_len _ _ W) in H0. lia. }
    pose proof (wf_x _ _ _ _ (wfk_each _ _ W d c Hc)) as X1. destruct (c_x c) as [[|v xs]|]; auto.
    pose proof (hc_occupied _ _ _ _ H d Hd). destruct (cells d); [congruence|discriminate].
  - intros c' Hc'. destruct (HS 0 c' Hc') as (c & Hc & Sc). destruct (hc_bnd0 _ _ _ _ H c Hc) as (E1 & E2 & E3).
    rewrite (sa_bidx _ _ _ Sc), (sa_lower _ _ _ Sc), (sa_shb _ _ _ Sc), E1, E2, E3. auto.
  - intros d c' Hc'. destruct (HS (Datatypes.S d) c' Hc') as (c & Hc & Sc). destruct (hc_bnd _ _ _ _ H d c Hc) as [B1 B2 B3].
    constructor; rewrite (sa_bidx _ _ _ Sc), content_shrink; auto.
  - intros d c' Hc'. destruct (HS d c' Hc') as (c & Hc & Sc). destruct (hc_up _ _ _ _ H d c Hc) as [B1 B2 B3].
    constructor; unfold triples in *; rewrite (sa_upper _ _ _ Sc), (sa_shc _ _ _ Sc), !content_shrink; auto.
  - intros d c' Hc'. destruct (HS (Datatypes.S d) c' Hc') as (c & Hc & Sc). pose proof (hc_low _ _ _ _ H d c Hc) as L.
    destruct down.
    + destruct L as [B1 B2 B3].
      constructor; unfold triples in *; rewrite (sa_lower _ _ _ Sc), (sa_shb _ _ _ Sc), !content_shrink; auto.
    + rewrite (sa_lower _ _ _ Sc), (sa_shb _ _ _ Sc). destruct L as [-> ->]. auto.
Qed.

(** Storing succeeds exactly for non-empty lists in which every label is a single entry and, if the first
    complex has a label, all have one; otherwise it raises and nothing is stored. *)
Theorem C31_labels (ks : list complex) max_dim :
  (exists co, collate ks max_dim = Ok co) <->
  exists k0 r, ks = k0 :: r /\ (forall k y, In k ks -> k_y k = Some y -> length y = 1) /\
    (k_y k0 <> None -> forall k, In k ks -> k_y k <> None).
Proof.
  assert (A : forall l : list complex, (exists us, mapM label_check l = Ok us) <-> (forall k y, In k l -> k_y k = Some y -> length y = 1)).
  { induction l as [|k l IH]; cbn [mapM]; [split; [intros _ ? ? []|intros; eexists; reflexivity]|]. split.
    - intros (us & H). apply bind_ok in H as (u & Hu & H). apply bind_ok in H as (us' & Hus & _).
      intros k' y [<-|Hk] Hy; [|apply (proj1 IH (ex_intro _ us' Hus) k' y); auto].
      unfold label_check in Hu. rewrite Hy in Hu. destruct (Nat.eqb_spec (length y) 1); [auto|discriminate].
    - intros H. destruct (proj2 IH (fun k' y Hk => H k' y (or_intror Hk))) as (us & Hus). rewrite Hus.
      exists (tt :: us). unfold label_check. destruct (k_y k) as [y|] eqn:E; [rewrite (H k y (or_introl eq_refl) E)|]; reflexivity. }
  assert (B : forall l : list complex, (exists ys, mapM (fun k : complex => of_option TypeError (k_y k)) l = Ok ys) <-> (forall k, In k l -> k_y k <> None)).
  { induction l as [|k l IH]; cbn [mapM]; [split; [intros _ ? []|intros; eexists; reflexivity]|]. split.
    - intros (ys & H). apply bind_ok in H as (y & Hy & H). apply bind_ok in H as (ys' & Hys & _).
      intros k' [<-|Hk]; [destruct (k_y k); discriminate|apply (proj1 IH (ex_intro _ ys' Hys) k' Hk)].
    - intros H. destruct (proj2 IH (fun k' Hk => H k' (or_intror Hk))) as (ys & Hys). rewrite Hys.
      destruct (k_y k) as [y|] eqn:E; [eexists; reflexivity|]. destruct (H k (or_introl eq_refl) E). }
  unfold collate. split.
  - intros (co & H). apply bind_ok in H as (us & Hus & H). destruct ks as [|k0 r]; [discriminate|].
    exists k0, r. split; auto. split; [apply A; eauto|]. intros H0. apply bind_ok in H as (ls & Hls & _).
    destruct (k_y k0) as [y|]; [|congruence]. apply bind_ok in Hls as (ys & Hys & _). apply B; eauto.
  - intros (k0 & r & -> & H1 & H2). apply A in H1 as (us & ->). cbn [bind]. destruct (k_y k0) as [y|].
    + destruct (proj2 (B (k0 :: r)) (H2 ltac:(discriminate))) as (ys & ->). eexists; reflexivity.
    + eexists; reflexivity.
Qed.

(** [copy] never returns. *)
Theorem C31_copy_refuted : forall (ds : dataset V) idx, exists e, ds_copy ds idx = Err e.
Proof.
  intros ds idx. unfold ds_copy. destruct (ds_size ds); cbn [bind]; eauto.
  destruct (mapM _ _); cbn [bind]; eauto.
Qed.

(** A dataset whose subclass loads no storage (CLUSTER) has no length and no entries. *)
Theorem C31_no_storage_refuted : forall (ds : dataset V) i,
  d_data ds = None -> d_cache ds = None -> ds_len ds = Err TypeError /\ fst (ds_get ds i) = Err TypeError.
Proof. intros ds i E E'. unfold ds_get, ds_len. rewrite E, E'. auto. Qed.

(** ** C32 *)

(** The list of identifiers that a name stands for. *)
Inductive split_name : string -> Type :=
| Train : split_name "train" | Valid : split_name "valid" | Test : split_name "test".
Definition ids_of {s} (n : split_name s) (ds : dataset V) : option (list nat) :=
  match n with Train => d_train ds | Valid => d_val ds | Test => d_test ds end.

Lemma mapM_get_seq ids n : (forall i, In i ids -> i < n) -> mapM (get (seq 0 n)) ids = Ok ids.
Proof.
  intros H. rewrite (mapM_map _ (fun i => i)); [rewrite map_id; auto|].
  intros i Hi. apply get_ok. rewrite seq_nth_error by auto. reflexivity.
Qed.

(** A split of a whole dataset is the dataset restricted to the identifiers of the split, in their
    order; item [i] of the split is the complex at the [i]-th identifier. *)
Theorem C32_split : forall (ks : list complex) max_dim co ds s (n : split_name s) ids,
  collection ks max_dim -> collate ks max_dim = Ok co -> loaded ds co max_dim -> d_indices ds = None ->
  ids_of n ds = Some ids -> (forall i, In i ids -> i < length ks) ->
  exists sub, get_split ds s = Ok sub /\ ds_size sub = Ok (length ids) /\
    (forall i j, nth_error ids i = Some j -> fst (ds_item sub i) = fst (ds_get ds j)) /\
    (forall i, length ids <= i -> fst (ds_item sub i) = Err IndexError).
Proof.
  intros ks md co ds s n ids HC E HL Hi Hids Hr.
  exists (with_indices ds ids).
  assert (Hsel : ds_select ds ids = Ok (with_indices ds ids)).
  { unfold ds_select, ds_indices. rewrite Hi. unfold ds_len. destruct HL as (-> & _). cbn [bind].
    rewrite (co_len_spec ks md co E (cl_nonvoid _ _ HC)), mapM_get_seq by auto. reflexivity. }
  split.
  - unfold get_split. destruct n; cbn in Hids; cbn [String.eqb]; simpl; rewrite Hids, Hi; simpl; exact Hsel.
  - split; [reflexivity|]. split.
    + intros i j Hj. unfold ds_item, ds_indices. cbn [d_indices with_indices bind].
      rewrite (proj2 (get_ok _ _ _) Hj). unfold ds_get, get_miss, ds_len. cbn [d_cache d_data with_indices with_cache d_max_dim].
      destruct HL as (-> & -> & ->). destruct (fetch co md j); auto.
      destruct (set_nth _ _ _); auto.
    + intros i Hle. unfold ds_item, ds_indices. cbn [d_indices with_indices bind].
      unfold get. rewrite (proj2 (nth_error_None _ _) Hle). reflexivity.
Qed.

(** Every other use raises. *)
Theorem C32_unknown_name : forall (ds : dataset V) s,
  s <> "train"%string -> s <> "valid"%string -> s <> "test"%string -> get_split ds s = Err ValueError.
Proof.
  intros ds s H1 H2 H3. unfold get_split.
  apply String.eqb_neq in H1, H2, H3. rewrite H1, H2, H3. reflexivity.
Qed.

Theorem C32_missing_split : forall (ds : dataset V) s (n : split_name s),
  ids_of n ds = None -> get_split ds s = Err AssertionError.
Proof. intros ds s n H. unfold get_split. destruct n; cbn in H; cbn; rewrite H; reflexivity. Qed.

Theorem C32_split_of_subset : forall (ds : dataset V) idx s (n : split_name s) sub,
  ds_select ds idx = Ok sub -> get_split sub s = Err AssertionError.
Proof.
  intros ds idx s n sub H. unfold ds_select in H. apply bind_ok in H as (l & _ & H).
  apply bind_ok in H as (l' & _ & H). inversion H; subst sub.
  unfold get_split. destruct n; cbn; [destruct (d_train ds)|destruct (d_val ds)|destruct (d_test ds)]; reflexivity.
Qed.

End Props.

(** Contiguous, disjoint, covering, and in correspondence with the parts. *)
Definition good_splits {A} (parts : list (list A)) (r : list A * list (list nat)) : Prop :=
  concat (snd r) = seq 0 (length (fst r)) /\
  Forall2 (fun part ids => map (nth_error (fst r)) ids = map Some part) parts (snd r).

Lemma map_nth_error_seq {A} (a b c : list A) :
  map (nth_error (a ++ b ++ c)) (seq (length a) (length b)) = map Some b.
Proof.
  revert a. induction b as [|x b IH]; intros a; auto. simpl. f_equal.
  - rewrite nth_error_app2, Nat.sub_diag by lia. reflexivity.
  - specialize (IH (a ++ [x])). rewrite app_length in IH. simpl in IH.
    replace (length a + 1) with (S (length a)) in IH by lia. rewrite <- IH, <- app_assoc. reflexivity.
Qed.

Lemma extend_loop_spec {A} (parts : list (list A)) : forall data done idx,
  concat idx = seq 0 (length data) ->
  Forall2 (fun part ids => forall rest, map (nth_error (data ++ rest)) ids = map Some part) done idx ->
  good_splits (done ++ parts) (extend_loop data idx (length data) parts) /\
  fst (extend_loop data idx (length data) parts) = data ++ concat parts.
Proof.
  induction parts as [|p r IH]; intros data done idx Hc Hf.
  - simpl. rewrite !app_nil_r. split; auto. split; auto. cbn [fst snd].
    eapply Forall2_imp; [|exact Hf]. intros a b H. specialize (H []). rewrite app_nil_r in H. auto.
  - cbn [extend_loop]. cbv zeta. rewrite app_length.
    replace (length data + length p - length data) with (length p) by lia.
    rewrite <- app_length.
    destruct (IH (data ++ p) (done ++ [p]) (idx ++ [seq (length data) (length p)])) as [G F].
    + rewrite concat_app, Hc, app_length, seq_app. simpl. rewrite app_nil_r. auto.
    + apply Forall2_app.
      * eapply Forall2_imp; [|exact Hf]. intros a b H rest. rewrite <- app_assoc. apply H.
      * constructor; auto. intros rest. rewrite <- app_assoc. apply map_nth_error_seq.
    + rewrite <- app_assoc in G. split; [exact G|]. rewrite F, <- app_assoc. reflexivity.
Qed.

(** Splits of datasets assembled from parts. *)
Theorem C32_concatenated : forall A (parts : list (list A)),
  good_splits parts (extend_splits parts) /\ fst (extend_splits parts) = concat parts.
Proof.
  intros A parts. apply (extend_loop_spec parts [] [] []); auto.
Qed.

Theorem C32_train_val : forall A (train val : list A), good_splits [train; val] (train_val train val).
Proof.
  intros A train val. unfold train_val. split; cbn [fst snd].
  - rewrite app_length. replace (length train + length val - length train) with (length val) by lia.
    rewrite seq_app. simpl. rewrite app_nil_r. auto.
  - replace (length train + length val - length train) with (length val) by lia.
    repeat constructor.
    + apply (map_nth_error_seq [] train val).
    + pose proof (map_nth_error_seq train val []) as H. rewrite app_nil_r in H. exact H.
Qed.

Theorem C32_zinc_graphs : forall A (train val test : list A),
  good_splits [train; val; test] (zinc_graph_splits train val test).
Proof.
  intros A a b c. unfold zinc_graph_splits. split; cbn [fst snd].
  - replace (length a + length b - length a) with (length b) by lia.
    replace (length a + length b + length c - (length a + length b)) with (length c) by lia.
    rewrite !app_length, !seq_app. simpl. rewrite app_nil_r. auto.
  - replace (length a + length b - length a) with (length b) by lia.
    replace (length a + length b + length c - (length a + length b)) with (length c) by lia.
    repeat constructor.
    + apply (map_nth_error_seq [] a (b ++ c)).
    + apply (map_nth_error_seq a b c).
    + pose proof (map_nth_error_seq (a ++ b) c []) as H. rewrite app_nil_r, app_length, <- app_assoc in H. exact H.
Qed.

(** ** Examples *)

(** Two small complexes: an edge with features, and a single labelled node. *)
Definition ex_edge : complex Z :=
  mkComplexRec 1
    [mkCochain 0 (Some [5; 7]%Z) (Some [(0, 1); (1, 0)]) None None (Some [0; 0]) None None None None None
       None (Some (Some 1)) None;
     mkCochain 1 (Some [9]%Z) None None None None (Some [(0, 0); (1, 0)]) None None None None
       None None (Some (Some 2))]
    (Some [3%Z]).
Definition ex_node : complex Z :=
  mkComplexRec 0 [mkCochain 0 (Some [4]%Z) None None None None None None None None None None None None]
    (Some [8%Z]).
Definition ex_list : list (complex Z) := [ex_edge; ex_node; ex_edge].

Lemma ex_storable : forall k, In k ex_list -> exists n, storable k n.
Proof.
  assert (E : storable ex_edge (fun d => match d with 0 => 2 | 1 => 1 | _ => 0 end)).
  { constructor; [reflexivity|]. intros d c Hc. destruct d as [|[|[|d]]]; try discriminate; inversion Hc; subst.
    - constructor; cbn; auto; try lia. right; left. split; auto. eexists. repeat split. discriminate.
    - constructor; cbn; auto; try discriminate. right; left. split; auto. eexists. repeat split. discriminate. }
  assert (N : storable ex_node (fun d => match d with 0 => 1 | _ => 0 end)).
  { constructor; [reflexivity|]. intros d c Hc. destruct d as [|[|d]]; try discriminate; inversion Hc; subst.
    constructor; cbn; auto; try discriminate; try lia. right; left. split; auto. eexists. repeat split. discriminate. }
  intros k [<-|[<-|[<-|[]]]]; eauto.
Qed.

Example C31_ex_collection : collection ex_list 2 /\ forall k, In k ex_list -> tidy k.
Proof.
  split.
  - constructor.
    + apply ex_storable.
    + intros k [<-|[<-|[<-|[]]]]; simpl; lia.
    + right. intros k [<-|[<-|[<-|[]]]]; simpl; eauto.
    + exists ex_node, 0. eexists. split; [right; left; reflexivity|]. split; [lia|].
      split; [reflexivity|]. left. discriminate.
  - intros k [<-|[<-|[<-|[]]]] c; simpl; intros H; intuition (subst; repeat split; discriminate).
Qed.

Definition ex_ds (ks : list (complex Z)) (md : nat) : dataset Z :=
  mkDataset md (match collate ks md with Ok co => Some co | Err _ => None end) None
    (Some [0; 2]) (Some [1]) None None.

Example C31_ex_run :
  map (fun r => match r with Ok k => (k_dim k, map c_x (k_cochains k), k_y k) | Err _ => (9, [], None) end)
    (fst (ds_gets (ex_ds ex_list 2) [1; 2; 0; 1])) =
  [(0, [Some [4%Z]], Some [8%Z]);
   (1, [Some [5; 7]%Z; Some [9%Z]], Some [3%Z]);
   (1, [Some [5; 7]%Z; Some [9%Z]], Some [3%Z]);
   (0, [Some [4%Z]], Some [8%Z])].
Proof. vm_compute. reflexivity. Qed.

Example C32_ex_split :
  match get_split (ex_ds ex_list 2) "train" with
  | Ok sub => (ds_size sub, map (fun i => match fst (ds_item sub i) with Ok k => Ok (k_y k) | Err e => Err e end) [0; 1; 2])
  | Err e => (Err e, [])
  end = (Ok 2, [Ok (Some [3%Z]); Ok (Some [3%Z]); Err IndexError]) /\
  get_split (ex_ds ex_list 2) "test" = Err AssertionError /\
  get_split (ex_ds ex_list 2) "val" = Err ValueError.
Proof. vm_compute. auto. Qed.

Example C32_ex_parts : extend_splits [["a"; "b"]; ["c"]; ["d"; "e"]]%string =
  (["a"; "b"; "c"; "d"; "e"]%string, [[0; 1]; [2]; [3; 4]]).
Proof. reflexivity. Qed.

(** ** Where the round trip fails *)

(** A tensor without entries comes back as None. *)
Definition ex_zero : complex Z :=
  mkComplexRec 0 [mkCochain 0 (Some [4]%Z) (Some []) None None None None None None None None None None None] None.
Theorem C31_empty_tensor_refuted :
  exists ks i k k', nth_error ks i = Some k /\ fst (ds_get (ex_ds ks 2) i) = Ok k' /\
    map c_upper (k_cochains k) = [Some []] /\ map c_upper (k_cochains k') = [None].
Proof. exists [ex_zero], 0, ex_zero. eexists. split; [reflexivity|]. split; [vm_compute; reflexivity|]. auto. Qed.

(** Features with no rows do not record that there are zero cells. *)
Definition ex_norows : complex Z :=
  mkComplexRec 1
    [mkCochain 0 (Some [4]%Z) None None None None None None None None None None (Some (Some 0)) None;
     mkCochain 1 (Some []) None None None None None None None None None None None (Some (Some 1))] None.
Theorem C31_no_rows_refuted :
  mk_complex [mkCochain 0 (Some [4]%Z) None None None None None None None None None None None None;
              mkCochain 1 (Some []) None None None None None None None None None None None None] None None = Ok ex_norows /\
  fst (ds_get (ex_ds [ex_norows] 2) 0) = Err AssertionError.
Proof. split; vm_compute; reflexivity. Qed.

(** Labelled and unlabelled complexes cannot be stored together. *)
Definition unlabel (k : complex Z) : complex Z := mkComplexRec (k_dim k) (k_cochains k) None.
Theorem C31_mixed_labels_refuted :
  collate [ex_edge; unlabel ex_node] 2 = Err TypeError /\
  (exists co, collate [unlabel ex_node; ex_edge] 2 = Ok co) /\
  fst (ds_get (ex_ds [unlabel ex_node; ex_edge] 2) 1) = Err AssertionError.
Proof. split; [|split; [eexists|]]; vm_compute; reflexivity. Qed.

(** A complex of dimension above [max_dim] is stored but cannot be read. *)
Theorem C31_truncation_refuted :
  (exists co, collate [ex_edge] 0 = Ok co) /\ fst (ds_get (ex_ds [ex_edge] 0) 0) = Err AssertionError.
Proof. split; [eexists|]; vm_compute; reflexivity. Qed.

(** Complexes that only record numbers of cells make a dataset of length zero. *)
Definition ex_void : complex Z :=
  mkComplexRec 0 [mkCochain 0 None None None None None None None None None None (Some (Some 3)) None None] None.
Theorem C31_void_refuted :
  ds_len (ex_ds [ex_void] 2) = Ok 0 /\ fst (ds_get (ex_ds [ex_void] 2) 0) = Err IndexError.
Proof. split; vm_compute; reflexivity. Qed.

Print Assumptions C31_collate_get_partial.
Print Assumptions C31_exact.
Print Assumptions C31_same_batches.
Print Assumptions C31_lifted.
Print Assumptions C31_copy_refuted.
Print Assumptions C31_no_storage_refuted.
Print Assumptions C31_empty_tensor_refuted.
Print Assumptions C31_no_rows_refuted.
Print Assumptions C31_mixed_labels_refuted.
Print Assumptions C31_truncation_refuted.
Print Assumptions C31_void_refuted.
Print Assumptions C32_split.
Print Assumptions C32_unknown_name.
Print Assumptions C32_missing_split.
Print Assumptions C32_split_of_subset.
Print Assumptions C32_concatenated.
Print Assumptions C32_train_val.
Print Assumptions C32_zinc_graphs.
Print Assumptions C31_wf_storable.
Print Assumptions C31_labels.
