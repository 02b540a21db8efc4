(** Permutation matrices and permuted graphs: C40. *)
From Coq Require Import List Arith Lia ZArith Bool Permutation.
From Verif Require Import Base ScatterModel ScatterSpec ScatterProofs ComplexModel LiftModel LiftSpec LiftIso PermModel.
Import ListNotations.
Local Open Scope Z_scope.

(** ** Specification *)
(** [sigma] is a permutation of 0..n-1. *)
Definition permutes (sigma : nat -> nat) (n : nat) : Prop :=
  (forall i, (i < n)%nat -> (sigma i < n)%nat) /\
  forall i j, (i < n)%nat -> (j < n)%nat -> sigma i = sigma j -> i = j.
(** [P] is the n x n matrix whose row [i] is the unit vector [sigma i]. *)
Definition matrix_of (P : matrix) (n : nat) (sigma : nat -> nat) : Prop :=
  length P = n /\ Forall (fun row => length row = n) P /\
  forall i j, (i < n)%nat -> (j < n)%nat -> entry P i j = if (j =? sigma i)%nat then 1 else 0.
Definition rectangular (P : matrix) (n m : nat) : Prop := length P = n /\ Forall (fun row => length row = m) P.

(** ** Rows *)
Lemma zsum_acc l : forall a, fold_left Z.add l a = a + zsum l.
Proof.
  unfold zsum. induction l as [|b l IH]; intros a; simpl; [lia|]. rewrite (IH (a + b)), (IH b). lia.
Qed.
Lemma zsum_cons a l : zsum (a :: l) = a + zsum l.
Proof. unfold zsum at 1. simpl. rewrite zsum_acc. lia. Qed.
Lemma zsum_nonneg l : (forall v, In v l -> 0 <= v) -> 0 <= zsum l.
Proof.
  induction l as [|a l IH]; intros H; [unfold zsum; simpl; lia|]. rewrite zsum_cons.
  pose proof (H a (or_introl eq_refl)). assert (0 <= zsum l) by (apply IH; intros; apply H; right; auto). lia.
Qed.
Lemma zsum_zero l : (forall v, In v l -> 0 <= v) -> zsum l = 0 -> forall v, In v l -> v = 0.
Proof.
  induction l as [|a l IH]; intros H E v Hv; [destruct Hv|]. rewrite zsum_cons in E.
  pose proof (H a (or_introl eq_refl)). assert (Hl : forall v, In v l -> 0 <= v) by (intros; apply H; right; auto).
  pose proof (zsum_nonneg l Hl). destruct Hv as [<-|Hv]; [lia|]. apply IH; auto. lia.
Qed.
Lemma zsum_zeros l : (forall v, In v l -> v = 0) -> zsum l = 0.
Proof.
  induction l as [|a l IH]; intros H; auto. rewrite zsum_cons, IH by (intros; apply H; right; auto). rewrite (H a); [auto|left; auto].
Qed.
Lemma in_nth0 (l : list Z) j : In (nth j l 0) l \/ nth j l 0 = 0.
Proof. destruct (Nat.lt_ge_cases j (length l)); [left; apply nth_In; auto|right; apply nth_overflow; auto]. Qed.
Lemma unit_row l : (forall v, In v l -> v = 0 \/ v = 1) -> zsum l = 1 ->
  exists i, (i < length l)%nat /\ nth i l 0 = 1 /\ forall j, j <> i -> nth j l 0 = 0.
Proof.
  induction l as [|a l IH]; intros H E; [unfold zsum in E; simpl in E; lia|]. rewrite zsum_cons in E.
  assert (Hl : forall v, In v l -> v = 0 \/ v = 1) by (intros; apply H; right; auto).
  destruct (H a (or_introl eq_refl)) as [->| ->].
  - destruct IH as (i & Hi & E1 & E2); auto; try lia. exists (S i). simpl. split; [lia|]. split; auto. intros [|j] Hj; auto. 
  - exists 0%nat. simpl. split; [lia|]. split; auto. intros [|j] Hj; [lia|].
    destruct (in_nth0 l j) as [Hin|]; auto. apply (zsum_zero l); auto; [|lia]. intros v Hv. destruct (Hl v Hv); lia.
Qed.
Lemma unit_sum l i : (i < length l)%nat -> nth i l 0 = 1 -> (forall j, j <> i -> nth j l 0 = 0) -> zsum l = 1.
Proof.
  revert i. induction l as [|a l IH]; intros i Hi E H; [simpl in Hi; lia|]. rewrite zsum_cons. destruct i as [|i].
  - simpl in E. subst a. rewrite zsum_zeros; try lia. intros v Hv. apply In_nth with (d := 0) in Hv as (j & Hj & <-).
    apply (H (S j)). lia.
  - simpl in Hi, E. assert (E2 : zsum l = 1) by (apply (IH i); auto; [lia|intros j Hj; apply (H (S j)); lia]).
    specialize (H 0%nat). simpl in H. rewrite H; lia.
Qed.

Lemma zmax_ge l : forall a, (forall v, In v l -> v <= fold_left Z.max l a) /\ a <= fold_left Z.max l a.
Proof.
  induction l as [|b l IH]; intros a; simpl; [split; [intros v []|lia]|]. destruct (IH (Z.max a b)) as [H1 H2]. split; [|lia].
  intros v [<-|Hv]; [lia|auto].
Qed.
Lemma zmin_le l : forall a, (forall v, In v l -> fold_left Z.min l a <= v) /\ fold_left Z.min l a <= a.
Proof.
  induction l as [|b l IH]; intros a; simpl; [split; [intros v []|lia]|]. destruct (IH (Z.min a b)) as [H1 H2]. split; [|lia].
  intros v [<-|Hv]; [lia|auto].
Qed.
Lemma zmax_in l : forall a, In (fold_left Z.max l a) (a :: l).
Proof.
  induction l as [|b l IH]; intros a; simpl; auto. destruct (IH (Z.max a b)) as [E|H]; auto.
  rewrite <- E. destruct (Z.max_spec a b) as [[_ ->]|[_ ->]]; auto.
Qed.
Lemma zmin_in l : forall a, In (fold_left Z.min l a) (a :: l).
Proof.
  induction l as [|b l IH]; intros a; simpl; auto. destruct (IH (Z.min a b)) as [E|H]; auto.
  rewrite <- E. destruct (Z.min_spec a b) as [[_ ->]|[_ ->]]; auto.
Qed.
Lemma zmax_ok l m : zmax l = Ok m <-> In m l /\ forall v, In v l -> v <= m.
Proof.
  destruct l as [|a l]; cbn [zmax]; [split; [discriminate|intros [[] _]]|]. destruct (zmax_ge l a) as [G1 G2]. pose proof (zmax_in l a) as G3. split.
  - intros E. inversion E; subst m. split; auto. intros v [<-|Hv]; auto.
  - intros [H1 H2]. f_equal. apply Z.le_antisymm; [apply H2; auto|]. destruct H1 as [<-|H1]; auto.
Qed.
Lemma zmin_ok l m : zmin l = Ok m <-> In m l /\ forall v, In v l -> m <= v.
Proof.
  destruct l as [|a l]; cbn [zmin]; [split; [discriminate|intros [[] _]]|]. destruct (zmin_le l a) as [G1 G2]. pose proof (zmin_in l a) as G3. split.
  - intros E. inversion E; subst m. split; auto. intros v [<-|Hv]; auto.
  - intros [H1 H2]. f_equal. apply Z.le_antisymm; [|apply H2; auto]. destruct H1 as [<-|H1]; auto.
Qed.
Lemma mapM_total {A B} (f : A -> result B) l : (forall a, In a l -> exists b, f a = Ok b) -> exists bs, mapM f l = Ok bs.
Proof.
  induction l as [|a l IH]; intros H; simpl; [eauto|]. destruct (H a (or_introl eq_refl)) as [b ->].
  destruct IH as [bs ->]; [intros; apply H; right; auto|]. simpl. eauto.
Qed.
Lemma mapM_const {A} (f : A -> result Z) l bs c n : mapM f l = Ok bs -> all_equal bs n c = true -> forall a, In a l -> f a = Ok c.
Proof.
  intros E H a Ha. unfold all_equal in H. destruct (_ || _); [|discriminate]. rewrite forallb_forall in H.
  apply mapM_ok_iff in E. revert a Ha. induction E as [|a b l bs Eab E IH]; intros a' Ha; [destruct Ha|]. destruct Ha as [<-|Ha].
  - rewrite Eab. f_equal. symmetry. apply Z.eqb_eq, H. left; auto.
  - apply IH; auto. intros; apply H; right; auto.
Qed.
Lemma mapM_const' {A} (f : A -> result Z) l c : (forall a, In a l -> f a = Ok c) -> mapM f l = Ok (repeat c (length l)).
Proof. induction l as [|a l IH]; intros H; simpl; auto. rewrite (H a (or_introl eq_refl)), IH by (intros; apply H; right; auto). auto. Qed.
Lemma all_equal_repeat c n : all_equal (repeat c n) n c = true.
Proof.
  unfold all_equal. rewrite repeat_length, Nat.eqb_refl. cbn [orb]. apply forallb_forall. intros v Hv.
  apply repeat_spec in Hv. subst. apply Z.eqb_refl.
Qed.
Lemma all_equal_In l n c : all_equal l n c = true -> forall v, In v l -> v = c.
Proof.
  unfold all_equal. destruct (_ || _); [|discriminate]. rewrite forallb_forall. intros H v Hv. symmetry. apply Z.eqb_eq. auto.
Qed.
Lemma all_equal_map {A} (f : A -> Z) l n c : length l = n -> (forall a, In a l -> f a = c) -> all_equal (map f l) n c = true.
Proof.
  intros Hl H. unfold all_equal. rewrite map_length, Hl, Nat.eqb_refl. cbn [orb]. apply forallb_forall. intros v Hv.
  apply in_map_iff in Hv as (a & <- & Ha). rewrite (H a Ha). apply Z.eqb_refl.
Qed.

Lemma list_eqb_ok {A} (eqb : A -> A -> bool) (H : forall a b, eqb a b = true <-> a = b) : forall l l', list_eqb eqb l l' = true <-> l = l'.
Proof.
  induction l as [|a l IH]; intros [|b l']; simpl; try (split; congruence). rewrite andb_true_iff, H, IH. split; [intros [-> ->]; auto|intros E; inversion E; auto].
Qed.
Lemma matrix_eqb_ok P Q : matrix_eqb P Q = true <-> P = Q.
Proof. apply list_eqb_ok. intros. apply list_eqb_ok. apply Z.eqb_eq. Qed.

(** ** C40: validity *)
Section Valid.
Variables (P : matrix) (r m : nat).
Hypothesis HR : rectangular P r m.

Lemma cols_m : (0 < r)%nat -> columns P = m.
Proof.
  intros Hr.
  destruct HR as [H1 H2]. unfold columns. rewrite Forall_forall in H2. apply H2, nth_In. lia.
Qed.
Lemma column_length j : length (column P j) = r.
Proof. unfold column. rewrite map_length. apply HR. Qed.
Lemma column_nth i j : nth i (column P j) 0 = entry P i j.
Proof.
  unfold column, entry. destruct (Nat.lt_ge_cases i (length P)) as [H|H].
  - rewrite (nth_indep _ 0 (nth j [] 0)) by (rewrite map_length; auto). rewrite (map_nth (fun row => nth j row 0)). auto.
  - rewrite nth_overflow by (rewrite map_length; auto). rewrite (nth_overflow P) by auto. destruct j; auto.
Qed.
Lemma row_In i : (i < r)%nat -> In (nth i P []) P.
Proof. intros H. apply nth_In. destruct HR. lia. Qed.
Lemma row_len i : (i < r)%nat -> length (nth i P []) = m.
Proof. intros H. destruct HR as [_ H2]. rewrite Forall_forall in H2. apply H2, row_In; auto. Qed.

Lemma small_row l : zmax l = Ok 1 -> zmin l = Ok 0 -> forall v, In v l -> v = 0 \/ v = 1.
Proof. intros H1 H2 v Hv. apply zmax_ok in H1 as [_ H1]. apply zmin_ok in H2 as [_ H2]. specialize (H1 v Hv). specialize (H2 v Hv). lia. Qed.

End Valid.

Theorem C40_valid_iff P r m n : rectangular P r m -> (0 < r)%nat -> (0 < m)%nat -> (0 < n)%nat -> exists b, is_valid_permutation_matrix P n = Ok b /\
  (b = true <-> (exists sigma, permutes sigma n /\ matrix_of P n sigma) /\ ((1 < n)%nat -> P <> eye n)).
Proof.
  intros HR Hr Hm Hn. unfold is_valid_permutation_matrix. rewrite (cols_m P r m HR Hr).
  assert (T : forall f : list Z -> result Z, (forall l, l <> [] -> exists b, f l = Ok b) ->
    (exists b0, mapM f (map (column P) (seq 0 m)) = Ok b0) /\ (exists b1, mapM f P = Ok b1)).
  { intros f Hf. split; apply mapM_total; intros l Hl; apply Hf.
    - apply in_map_iff in Hl as (j & <- & _). pose proof ((column_length P _ _ HR) j). intros E. rewrite E in *. simpl in *. lia.
    - destruct HR as [_ H2]. rewrite Forall_forall in H2. specialize (H2 l Hl). intros E. rewrite E in *. simpl in *. lia. }
  destruct (T zmax) as [[m0 E0] [m1 E1]]; [intros [|a l] H; [congruence|simpl; eauto]|].
  destruct (T zmin) as [[l0 F0] [l1 F1]]; [intros [|a l] H; [congruence|simpl; eauto]|].
  rewrite E0, E1. cbn [bind].
  (* sufficiency *)
  assert (Back : (exists sigma, permutes sigma n /\ matrix_of P n sigma) ->
    (length P =? n)%nat && all_equal (map zsum (map (column P) (seq 0 m))) n 1 && all_equal (map zsum P) n 1 && all_equal m0 n 1 && all_equal m1 n 1 = true /\
    ((1 < n)%nat -> all_equal l0 n 0 && all_equal l1 n 0 = true)).
  { intros (sigma & [S1 S2] & M1 & M2 & M3). pose proof HR as [R1 R2]. rewrite M1 in R1. subst r.
    assert (m = n). { rewrite Forall_forall in R2, M2. assert (In (nth 0 P []) P) by (apply nth_In; lia). rewrite <- (R2 _ H). apply M2; auto. } subst m.
    assert (Rows : forall l, In l P -> exists j, (j < n)%nat /\ length l = n /\ nth j l 0 = 1 /\ forall j', j' <> j -> nth j' l 0 = 0).
    { intros l Hl. assert (Ll : length l = n) by (rewrite Forall_forall in M2; auto). apply In_nth with (d := []) in Hl as (i & Hi & E). rewrite M1 in Hi.
      exists (sigma i). split; auto. split; auto. subst l. split.
      - fold (entry P i (sigma i)). rewrite M3 by auto. rewrite Nat.eqb_refl. auto.
      - intros j Hj. destruct (Nat.lt_ge_cases j n) as [H|H]; [|apply nth_overflow; lia].
        fold (entry P i j). rewrite M3 by auto. destruct (Nat.eqb_spec j (sigma i)); congruence. }
    assert (Cols : forall l, In l (map (column P) (seq 0 n)) -> exists j, (j < n)%nat /\ length l = n /\ nth j l 0 = 1 /\ forall j', j' <> j -> nth j' l 0 = 0).
    { intros l Hl. apply in_map_iff in Hl as (j & <- & Hj). apply in_seq in Hj. rewrite (column_length P _ _ HR).
      assert (Hs : exists i, (i < n)%nat /\ sigma i = j).
      { pose proof (MPIso.bij_perm sigma n S1 S2) as Pm. assert (Hin : In j (map sigma (seq 0 n))).
        { apply (Permutation_in _ (Permutation_sym Pm)). apply in_seq. lia. }
        apply in_map_iff in Hin as (i & E & Hi). apply in_seq in Hi. exists i. split; auto. lia. }
      destruct Hs as (i & Hi & <-). exists i. split; auto. split; auto. split.
      - rewrite (column_nth P), M3 by auto. rewrite Nat.eqb_refl. auto.
      - intros i' Hi'. rewrite (column_nth P). destruct (Nat.lt_ge_cases i' n) as [H|H].
        + rewrite M3 by auto. destruct (Nat.eqb_spec (sigma i) (sigma i')) as [E|]; auto. apply S2 in E; auto. congruence.
        + unfold entry. rewrite (nth_overflow P) by lia. destruct (sigma i); auto. }
    assert (G : forall l, (exists j, (j < n)%nat /\ length l = n /\ nth j l 0 = 1 /\ forall j', j' <> j -> nth j' l 0 = 0) ->
      zsum l = 1 /\ zmax l = Ok 1 /\ ((1 < n)%nat -> zmin l = Ok 0)).
    { intros l (j & Hj & Ll & A & B). split; [apply (unit_sum l j); auto; lia|].
      assert (V01 : forall v, In v l -> v = 0 \/ v = 1).
      { intros v Hv. apply In_nth with (d := 0) in Hv as (i & Hi & <-). destruct (Nat.eq_dec i j) as [->|]; auto. }
      split.
      - apply zmax_ok. split; [rewrite <- A; apply nth_In; lia|]. intros v Hv. destruct (V01 v Hv); lia.
      - intros H1. apply zmin_ok. split; [|intros v Hv; destruct (V01 v Hv); lia].
        assert (Hi : exists i, (i < n)%nat /\ i <> j) by (destruct j; [exists 1%nat|exists 0%nat]; lia).
        destruct Hi as (i & Hi & Hij). rewrite <- (B i Hij). apply nth_In. lia. }
    assert (Lc : length (map (column P) (seq 0 n)) = n) by (rewrite map_length, seq_length; auto).
    split.
    - rewrite M1, Nat.eqb_refl. cbn [andb]. rewrite !andb_true_iff. repeat split.
      + apply all_equal_map; auto. intros l Hl. apply G; auto.
      + apply all_equal_map; auto. intros l Hl. apply G; auto.
      + rewrite (mapM_const' _ _ 1) in E0 by (intros l Hl; apply G; auto). rewrite Lc in E0. inversion E0. apply all_equal_repeat.
      + rewrite (mapM_const' _ _ 1) in E1 by (intros l Hl; apply G; auto). rewrite M1 in E1. inversion E1. apply all_equal_repeat.
    - intros H1. rewrite andb_true_iff. split.
      + rewrite (mapM_const' _ _ 0) in F0 by (intros l Hl; apply G; auto). rewrite Lc in F0. inversion F0. apply all_equal_repeat.
      + rewrite (mapM_const' _ _ 0) in F1 by (intros l Hl; apply G; auto). rewrite M1 in F1. inversion F1. apply all_equal_repeat. }
  (* necessity *)
  assert (Forth : (length P =? n)%nat && all_equal (map zsum (map (column P) (seq 0 m))) n 1 && all_equal (map zsum P) n 1 && all_equal m0 n 1 && all_equal m1 n 1 = true ->
    ((1 < n)%nat -> all_equal l0 n 0 && all_equal l1 n 0 = true) -> exists sigma, permutes sigma n /\ matrix_of P n sigma).
  { intros H1 H2. rewrite !andb_true_iff in H1. destruct H1 as ((((V1 & V2) & V3) & V4) & V5). apply Nat.eqb_eq in V1.
    pose proof HR as [R1 R2]. rewrite V1 in R1. subst r.
    assert (Hmn : m = n).
    { destruct (Nat.eq_dec m n) as [|Hne]; auto. unfold all_equal in V2. rewrite !map_length, seq_length in V2.
      destruct (Nat.eqb_spec m n); [lia|]. cbn [orb] in V2.
      destruct (Nat.eqb_spec m 1) as [E|]; [subst m|].
      - (* one column: n ones in it *)
        exfalso. cbn [orb] in V2. rewrite forallb_forall in V2.
        assert (C1 : zsum (column P 0) = 1). { symmetry. apply Z.eqb_eq, V2. simpl. left; auto. }
        assert (Rw : forall i, (i < n)%nat -> entry P i 0 = 1).
        { intros i Hi. assert (Hin : In (nth i P []) P) by (apply (row_In P _ _ HR); auto).
          pose proof (row_len P _ _ HR i Hi) as Ll. pose proof (all_equal_In _ _ _ V3 _ (in_map zsum _ _ Hin)) as E.
          unfold entry. destruct (nth i P []) as [|v [|? ?]]; simpl in Ll; try lia. rewrite zsum_cons in E. unfold zsum in E. simpl in *. lia. }
        assert (S2 : forall l, (forall v, In v l -> v = 1) -> zsum l = Z.of_nat (length l)).
        { induction l as [|a l IH]; intros H; [reflexivity|]. rewrite zsum_cons, IH by (intros; apply H; right; auto). rewrite (H a) by (left; auto). simpl length. lia. }
        rewrite S2 in C1. { rewrite (column_length P _ _ HR) in C1. lia. }
        intros v Hv. apply In_nth with (d := 0) in Hv as (i & Hi & <-). rewrite (column_length P _ _ HR) in Hi. rewrite (column_nth P). auto.
      - destruct (Nat.eqb_spec n 1) as [En|]; [|discriminate]. exfalso. subst n. cbn [orb] in V2. rewrite forallb_forall in V2.
        assert (Rw : forall j, (j < m)%nat -> nth j (nth 0 P []) 0 = 1).
        { intros j Hj. assert (E : zsum (column P j) = 1). { symmetry. apply Z.eqb_eq, V2. apply in_map, in_map, in_seq. lia. }
          pose proof ((column_length P _ _ HR) j) as Ll. pose proof ((column_nth P) 0 j) as N. unfold entry in N. rewrite <- N.
          destruct (column P j) as [|v [|? ?]]; simpl in Ll; try lia. rewrite zsum_cons in E. unfold zsum in E. simpl in *. lia. }
        pose proof (all_equal_In _ _ _ V3 _ (in_map zsum _ _ (row_In P _ _ HR 0%nat ltac:(lia)))) as E.
        assert (S2 : forall l, (forall v, In v l -> v = 1) -> zsum l = Z.of_nat (length l)).
        { induction l as [|a l IH]; intros H; [reflexivity|]. rewrite zsum_cons, IH by (intros; apply H; right; auto). rewrite (H a) by (left; auto). simpl length. lia. }
        rewrite S2 in E. { rewrite (row_len P _ _ HR) in E by lia. lia. }
        intros v Hv. apply In_nth with (d := 0) in Hv as (i & Hi & <-). rewrite (row_len P _ _ HR) in Hi by lia. auto. }
    subst m.
    assert (Z01 : forall l, (In l P \/ In l (map (column P) (seq 0 n))) -> forall v, In v l -> v = 0 \/ v = 1).
    { intros l Hl. destruct (Nat.lt_ge_cases 1 n) as [Hlt|Hge].
      - specialize (H2 Hlt). apply andb_true_iff in H2 as [W1 W2]. apply small_row.
        + destruct Hl as [Hl|Hl]; [apply (mapM_const _ _ _ _ _ E1 V5 l Hl)|apply (mapM_const _ _ _ _ _ E0 V4 l Hl)].
        + destruct Hl as [Hl|Hl]; [apply (mapM_const _ _ _ _ _ F1 W2 l Hl)|apply (mapM_const _ _ _ _ _ F0 W1 l Hl)].
      - assert (Hn1 : n = 1%nat) by lia.
        assert (S : zsum l = 1 /\ length l = 1%nat).
        { destruct Hl as [Hl|Hl].
          - split; [apply (all_equal_In _ _ _ V3 _ (in_map zsum _ _ Hl))|]. rewrite Forall_forall in R2. rewrite <- Hn1. auto.
          - split; [apply (all_equal_In _ _ _ V2 _ (in_map zsum _ _ Hl))|]. apply in_map_iff in Hl as (j & <- & _). rewrite (column_length P _ _ HR). auto. }
        destruct S as [S1 S2]. destruct l as [|a [|? ?]]; simpl in S2; try lia. rewrite zsum_cons in S1. unfold zsum in S1. simpl in S1.
        intros v [<-|[]]. lia. }
    assert (U : forall i, (i < n)%nat -> exists j, (j < n)%nat /\ entry P i j = 1 /\ forall j', j' <> j -> entry P i j' = 0).
    { intros i Hi. pose proof (row_In P _ _ HR i Hi) as Hin. pose proof (row_len P _ _ HR i Hi) as Ll.
      destruct (unit_row (nth i P [])) as (j & Hj & A & B); [apply Z01; auto|apply (all_equal_In _ _ _ V3 _ (in_map zsum _ _ Hin))|].
      rewrite Ll in Hj. exists j. auto. }
    (* choose the position of the one in every row *)
    set (sigma := fun i => find_idx (Z.eqb 1) (nth i P [])).
    assert (Hs : forall i, (i < n)%nat -> (sigma i < n)%nat /\ entry P i (sigma i) = 1 /\ forall j', j' <> sigma i -> entry P i j' = 0).
    { intros i Hi. destruct (U i Hi) as (j & Hj & A & B). pose proof (row_len P _ _ HR i Hi) as Ll.
      destruct (find_idx_ok (Z.eqb 1) (nth i P []) 1) as (v & N1 & N2).
      - unfold entry in A. rewrite <- A. apply nth_In. lia.
      - apply Z.eqb_refl.
      - fold (sigma i) in N1. apply Z.eqb_eq in N2. subst v.
        assert (entry P i (sigma i) = 1) by (unfold entry; apply nth_error_nth; auto).
        assert (sigma i = j). { destruct (Nat.eq_dec (sigma i) j); auto. rewrite (B (sigma i)) in H by auto. lia. }
        rewrite H0. auto. }
    exists sigma. split; [split|split; [auto|split; [auto|]]].
    - intros i Hi. apply Hs; auto.
    - intros i i' Hi Hi' E. destruct (Hs i Hi) as (A1 & A2 & _). destruct (Hs i' Hi') as (_ & B2 & _). rewrite <- E in B2.
      set (j := sigma i) in *.
      assert (Hc : In (column P j) (map (column P) (seq 0 n))) by (apply in_map, in_seq; lia).
      destruct (unit_row (column P j)) as (q & Hq & Q1 & Q2); [apply Z01; auto|apply (all_equal_In _ _ _ V2 _ (in_map zsum _ _ Hc))|].
      rewrite <- (column_nth P) in A2, B2.
      destruct (Nat.eq_dec i q) as [->|N1]; [|rewrite (Q2 i N1) in A2; lia].
      destruct (Nat.eq_dec i' q) as [->|N2]; [auto|rewrite (Q2 i' N2) in B2; lia].
    - intros i j Hi Hj. destruct (Hs i Hi) as (A1 & A2 & A3). destruct (Nat.eqb_spec j (sigma i)) as [->|]; auto. }
  set (v := (length P =? n)%nat && _ && _ && _ && _) in *.
  destruct (Nat.ltb_spec 1 n) as [Hlt|Hge].
  - rewrite F0, F1. cbn [bind]. eexists. split; [reflexivity|]. rewrite !andb_true_iff, negb_true_iff. split.
    + intros (((H1 & H2) & H3) & H4). split; [apply Forth; auto; intros _; rewrite H2, H3; auto|]. intros _ E.
      apply matrix_eqb_ok in E. congruence.
    + intros [H1 H2]. destruct (Back H1) as [B1 B2]. specialize (B2 Hlt). apply andb_true_iff in B2 as [B2 B3]. repeat split; auto.
      destruct (matrix_eqb P (eye n)) eqn:E; auto. apply matrix_eqb_ok in E. exfalso. apply H2; auto.
  - eexists. split; [reflexivity|]. split.
    + intros H1. split; [apply Forth; auto; lia|lia].
    + intros [H1 _]. apply Back; auto.
Qed.

(** ** C40: permuted graphs *)
Lemma zsum_ext {A} (f g : A -> Z) l : (forall a, In a l -> f a = g a) -> zsum (map f l) = zsum (map g l).
Proof. intros H. f_equal. apply map_ext_in. auto. Qed.
Lemma zsum_pick (f : nat -> Z) k : forall n s, zsum (map (fun u => if (u =? k)%nat then f u else 0) (seq s n)) =
  if ((s <=? k) && (k <? s + n))%nat then f k else 0.
Proof.
  induction n as [|n IH]; intros s.
  - simpl. destruct (Nat.leb_spec s k), (Nat.ltb_spec k (s + 0)); simpl; auto; lia.
  - cbn [seq map]. rewrite zsum_cons, IH. destruct (Nat.eqb_spec s k) as [->|].
    + destruct (Nat.leb_spec k k), (Nat.ltb_spec k (k + S n)), (Nat.leb_spec (S k) k); simpl; lia.
    + destruct (Nat.leb_spec s k), (Nat.ltb_spec k (s + S n)), (Nat.leb_spec (S s) k), (Nat.ltb_spec k (S s + n)); simpl; lia.
Qed.
Lemma adj_entry_In edges u v : adj_entry edges u v <> 0 <-> In (u, v) edges.
Proof.
  unfold adj_entry. split.
  - destruct (filter _ edges) as [|[a b] l] eqn:E; [simpl; lia|]. intros _.
    assert (H : In (a, b) (filter (fun e => (fst e =? u)%nat && (snd e =? v)%nat) edges)) by (rewrite E; left; auto).
    apply filter_In in H as [H1 H2]. simpl in H2. apply andb_true_iff in H2 as [A B]. apply Nat.eqb_eq in A, B. subst; auto.
  - intros H. assert (H' : In (u, v) (filter (fun e => (fst e =? u)%nat && (snd e =? v)%nat) edges)).
    { apply filter_In. simpl. rewrite !Nat.eqb_refl. auto. }
    destruct (filter _ edges); [destruct H'|simpl length; lia].
Qed.
Lemma conj_entry_eq P n sigma edges a b : permutes sigma n -> matrix_of P n sigma -> (a < n)%nat -> (b < n)%nat ->
  conj_entry P edges n a b = adj_entry edges (sigma a) (sigma b).
Proof.
  intros [S1 S2] (M1 & M2 & M3) Ha Hb. unfold conj_entry.
  rewrite (zsum_ext _ (fun v => if (v =? sigma b)%nat then adj_entry edges (sigma a) v else 0)).
  - rewrite zsum_pick. pose proof (S1 b Hb). destruct (Nat.leb_spec 0 (sigma b)), (Nat.ltb_spec (sigma b) (0 + n)); simpl; auto; lia.
  - intros v Hv. apply in_seq in Hv. rewrite (M3 b v) by lia.
    rewrite (zsum_ext _ (fun u => if (u =? sigma a)%nat then adj_entry edges u v else 0)).
    + rewrite zsum_pick. pose proof (S1 a Ha). destruct (Nat.leb_spec 0 (sigma a)), (Nat.ltb_spec (sigma a) (0 + n)); simpl; try lia.
      destruct (v =? sigma b)%nat; lia.
    + intros u Hu. apply in_seq in Hu. rewrite (M3 a u) by lia. destruct (u =? sigma a)%nat; lia.
Qed.

Lemma NoDup_list_prod {A B} (l : list A) (l' : list B) : NoDup l -> NoDup l' -> NoDup (list_prod l l').
Proof.
  intros HN HN'. induction HN as [|a l Ha HN IH]; [constructor|]. simpl. apply LiftBase.NoDup_app; auto.
  - apply FinFun.Injective_map_NoDup; auto. intros ? ? E; congruence.
  - intros [u v] H H0. apply in_map_iff in H as (w & Ew & _). inversion Ew; subst. apply in_prod_iff in H0. tauto.
Qed.

(** What a permuted graph must be: node [a] of the new graph is node [sigma a] of the old one. *)
Record permuted {V} (sigma : nat -> nat) (n : nat) (g g' : graph V) : Prop := {
  pg_n : g_n g' = n /\ length (g_x g') = n;
  pg_x : forall a, (a < n)%nat -> nth_error (g_x g') a = nth_error (g_x g) (sigma a);
  pg_edges : forall a b, In (a, b) (g_edges g') <-> (a < n)%nat /\ (b < n)%nat /\ In (sigma a, sigma b) (g_edges g);
  pg_once : NoDup (g_edges g');
  pg_attr : g_attr g' = None;
  pg_node_y : forall y, g_y g = Some y -> length y = n ->
    exists y', g_y g' = Some y' /\ length y' = n /\ forall a, (a < n)%nat -> nth_error y' a = nth_error y (sigma a);
  pg_graph_y : (forall y, g_y g = Some y -> length y <> n) -> g_y g' = g_y g
}.

Section Permute.
Context {V : Type} (o : ops V) (Ho : ops_ok o).
Variable smul : Z -> V -> V.
Variable coo_order : list (nat * nat) -> list (nat * nat).
Hypothesis smul0 : forall v, smul 0 v = vzero o.
Hypothesis smul1 : forall v, smul 1 v = v.
Hypothesis Hcoo : forall l, Permutation (coo_order l) l.

Lemma fold_zeros : forall (row : list Z) (x : list V) acc, (forall v, In v row -> v = 0) ->
  fold_left (vadd o) (map (fun p => smul (fst p) (snd p)) (combine row x)) acc = acc.
Proof.
  induction row as [|a row IH]; intros [|b x] acc H; simpl; auto. rewrite IH by (intros; apply H; right; auto).
  rewrite (H a) by (left; auto). rewrite smul0, (add_comm _ Ho). apply (add_0_l _ Ho).
Qed.
Lemma fold_unit : forall (row : list Z) (x : list V) j v, nth j row 0 = 1 -> (forall j', j' <> j -> nth j' row 0 = 0) ->
  nth_error x j = Some v -> fold_left (vadd o) (map (fun p => smul (fst p) (snd p)) (combine row x)) (vzero o) = v.
Proof.
  induction row as [|a row IH]; intros [|b x] [|j] v A B E; try discriminate.
  - simpl in A. inversion E; subst. cbn [combine map fold_left fst snd]. rewrite fold_zeros.
    + rewrite smul1. apply (add_0_l _ Ho).
    + intros w Hw. apply In_nth with (d := 0) in Hw as (i & Hi & <-). apply (B (S i)). lia.
  - cbn [combine map fold_left fst snd]. replace a with 0 by (symmetry; apply (B 0%nat); lia). rewrite smul0.
    replace (vadd o (vzero o) (vzero o)) with (vzero o) by (symmetry; apply (add_0_l _ Ho)). apply (IH x j v); auto.
    intros j' Hj'. apply (B (S j')). lia.
Qed.
Lemma unit_sum2 : forall (row y : list Z) j, nth j row 0 = 1 -> (forall j', j' <> j -> nth j' row 0 = 0) ->
  (j < length y)%nat -> zsum (map (fun p => fst p * snd p) (combine row y)) = nth j y 0.
Proof.
  induction row as [|a row IH]; intros [|b y] [|j] A B L; try (simpl in *; discriminate || lia).
  - simpl in A. cbn [combine map fst snd]. rewrite zsum_cons, zsum_zeros; [simpl; lia|].
    intros w Hw. apply in_map_iff in Hw as ([p q] & <- & Hpq). apply in_combine_l in Hpq.
    apply In_nth with (d := 0) in Hpq as (i & Hi & <-). specialize (B (S i)). simpl in *. rewrite B; lia.
  - cbn [combine map fst snd]. rewrite zsum_cons. replace a with 0 by (symmetry; apply (B 0%nat); lia).
    rewrite (IH y j); auto; [intros j' Hj'; apply (B (S j')); lia|simpl in L; lia].
Qed.

Theorem C40_permute_graph g P m :
  rectangular P (length P) m -> (0 < length P)%nat -> (0 < m)%nat -> (0 < length (g_x g))%nat ->
  is_valid_permutation_matrix P (length (g_x g)) = Ok true -> g_attr g = None -> graph_ok (g_edges g) (length (g_x g)) ->
  exists sigma g', permutes sigma (length (g_x g)) /\ matrix_of P (length (g_x g)) sigma /\
    permute_graph o smul coo_order g P = Ok g' /\ permuted sigma (length (g_x g)) g g'.
Proof.
  intros HR Hr Hm Hn Hv Ha Hg. set (n := length (g_x g)) in *.
  destruct (C40_valid_iff P (length P) m n HR Hr Hm Hn) as (b & Eb & Hb). rewrite Hv in Eb. inversion Eb; subst b.
  destruct (proj1 Hb eq_refl) as [(sigma & HS & HM) _]. exists sigma.
  unfold permute_graph. fold n. rewrite Ha, Hv. cbn [isSome negb assert_ bind].
  pose proof HS as [S1 S2]. pose proof HM as (M1 & M2 & M3).
  set (E' := coo_order (filter (fun p => negb (conj_entry P (g_edges g) n (fst p) (snd p) =? 0)) (list_prod (seq 0 n) (seq 0 n)))).
  set (edges' := if (0 <? length (g_edges g))%nat then E' else g_edges g).
  assert (HE : (if (0 <? length (g_edges g))%nat
      then if forallb (fun e => ((fst e <? n) && (snd e <? n))%nat) (g_edges g) then Ok E' else Err ValueError
      else Ok (g_edges g)) = Ok edges').
  { unfold edges'. destruct (0 <? length (g_edges g))%nat; auto.
    replace (forallb _ (g_edges g)) with true; auto. symmetry. apply forallb_forall. intros [u v] Huv. destruct (Hg u v Huv).
    simpl. apply andb_true_iff. split; apply Nat.ltb_lt; auto. }
  rewrite HE. cbn [bind]. eexists. split; [auto|]. split; [auto|]. split; [reflexivity|].
  assert (Lx : length (mat_rows o smul P (g_x g)) = n) by (unfold mat_rows; rewrite map_length; auto).
  assert (Urow : forall a, (a < n)%nat -> exists row, nth_error P a = Some row /\ nth (sigma a) row 0 = 1 /\
    forall j', j' <> sigma a -> nth j' row 0 = 0).
  { intros a Hlt. destruct (nth_error P a) as [row|] eqn:E; [|apply nth_error_None in E; lia].
    exists row. split; auto. assert (Er : nth a P [] = row) by (apply nth_error_nth; auto).
    assert (Lr : length row = n) by (rewrite Forall_forall in M2; apply M2; eapply nth_error_In; eauto).
    subst row. split.
    - fold (entry P a (sigma a)). rewrite M3 by auto. rewrite Nat.eqb_refl; auto.
    - intros j Hj. destruct (Nat.lt_ge_cases j n) as [H|H]; [|apply nth_overflow; lia].
      fold (entry P a j). rewrite M3 by auto. destruct (Nat.eqb_spec j (sigma a)); congruence. }
  split; cbn [g_n g_x g_edges g_attr g_y]; auto.
  - intros a Hlt. destruct (Urow a Hlt) as (row & E & U1 & U2). unfold mat_rows. rewrite nth_error_map, E. cbn [option_map].
    destruct (nth_error (g_x g) (sigma a)) as [v|] eqn:Ev.
    + f_equal. apply (fold_unit row (g_x g) (sigma a)); auto.
    + apply nth_error_None in Ev. pose proof (S1 a Hlt). fold n in Ev. lia.
  - intros a b. unfold edges'. destruct (Nat.ltb_spec 0 (length (g_edges g))) as [Hl|Hl].
    + unfold E'. assert (Hp : In (a, b) (coo_order (filter (fun p => negb (conj_entry P (g_edges g) n (fst p) (snd p) =? 0)) (list_prod (seq 0 n) (seq 0 n)))) <->
        In (a, b) (filter (fun p => negb (conj_entry P (g_edges g) n (fst p) (snd p) =? 0)) (list_prod (seq 0 n) (seq 0 n)))).
      { split; apply Permutation_in; [|apply Permutation_sym]; apply Hcoo. }
      rewrite Hp, filter_In, in_prod_iff, !in_seq, negb_true_iff, Z.eqb_neq. cbn [fst snd]. split.
      * intros [[H1 H2] H3]. rewrite (conj_entry_eq P n sigma) in H3 by (auto; lia). apply adj_entry_In in H3. split; [lia|]. split; [lia|auto].
      * intros (H1 & H2 & H3). split; [lia|]. rewrite (conj_entry_eq P n sigma) by auto. apply adj_entry_In; auto.
    + destruct (g_edges g); [|simpl in Hl; lia]. simpl. tauto.
  - unfold edges'. destruct (Nat.ltb_spec 0 (length (g_edges g))) as [Hl|Hl].
    + apply (Permutation_NoDup (Permutation_sym (Hcoo _))). apply NoDup_filter.
      apply NoDup_list_prod; apply seq_NoDup.
    + destruct (g_edges g); [constructor|simpl in Hl; lia].
  - intros y Ey Ly. rewrite Ey. fold n. rewrite Ly, Nat.eqb_refl. eexists. split; [reflexivity|].
    split; [unfold mat_vec; rewrite map_length; auto|]. intros a Hlt. destruct (Urow a Hlt) as (row & E & U1 & U2).
    unfold mat_vec. rewrite nth_error_map, E. cbn [option_map]. rewrite (unit_sum2 row y (sigma a)); auto; [|rewrite Ly; auto].
    symmetry. apply nth_error_nth'. rewrite Ly. auto.
  - intros Hy. destruct (g_y g) as [y|]; auto. fold n. specialize (Hy y eq_refl). destruct (Nat.eqb_spec (length y) n); congruence.
Qed.
Theorem C40_edge_attributes_refused g P : g_attr g <> None -> permute_graph o smul coo_order g P = Err AssertionError.
Proof. intros H. unfold permute_graph. destruct (g_attr g); [reflexivity|congruence]. Qed.
Theorem C40_invalid_refused g P b : g_attr g = None -> is_valid_permutation_matrix P (length (g_x g)) = Ok b -> b = false ->
  permute_graph o smul coo_order g P = Err AssertionError.
Proof. intros H E ->. unfold permute_graph. rewrite H, E. reflexivity. Qed.

Lemma permuted_iso sigma n (g g' : graph V) : permutes sigma n -> permuted sigma n g g' -> length (g_x g) = n ->
  graph_iso sigma n (g_edges g') (g_edges g) (g_x g') (g_x g).
Proof.
  intros [S1 S2] HP Hn. split; auto.
  - intros u v Hu Hv. unfold adjacent. rewrite !(pg_edges _ _ _ _ HP). split.
    + intros [H1 H2]. split; [intros E; apply H1; apply S2; auto|]. tauto.
    + intros [H1 H2]. split; [congruence|]. tauto.
  - intros v Hv. symmetry. apply (pg_x _ _ _ _ HP); auto.
Qed.
End Permute.

(** data/perm_utils.py:59-72 returns [amount] valid permutation matrices. *)
Lemma perm_rows_rect n perm : Forall (fun p => (p < n)%nat) perm -> rectangular (perm_rows n perm) (length perm) n.
Proof.
  intros H. unfold perm_rows. split; [apply map_length|]. apply Forall_forall. intros row Hr.
  apply in_map_iff in Hr as (p & <- & Hp). rewrite Forall_forall in H. specialize (H p Hp). unfold eye.
  rewrite (nth_indep _ [] (map (fun j => if (0 =? j)%nat then 1 else 0) (seq 0 n))) by (rewrite map_length, seq_length; auto).
  rewrite (map_nth (fun i => map (fun j => if (i =? j)%nat then 1 else 0) (seq 0 n)) (seq 0 n) 0%nat). rewrite map_length, seq_length. auto.
Qed.
Lemma nth_map_seq {A} (f : nat -> A) n i d : (i < n)%nat -> nth i (map f (seq 0 n)) d = f i.
Proof. intros H. rewrite (nth_indep _ d (f 0%nat)) by (rewrite map_length, seq_length; auto). rewrite map_nth, seq_nth; auto. Qed.
Lemma perm_rows_matrix n perm : Permutation perm (seq 0 n) -> matrix_of (perm_rows n perm) n (fun i => nth i perm 0%nat) /\ permutes (fun i => nth i perm 0%nat) n.
Proof.
  intros H. assert (Ln : length perm = n) by (rewrite (Permutation_length H); apply seq_length).
  assert (HF : Forall (fun p => (p < n)%nat) perm).
  { apply Forall_forall. intros p Hp. apply (Permutation_in _ H) in Hp. apply in_seq in Hp. lia. }
  assert (Hi : forall i, (i < n)%nat -> (nth i perm 0 < n)%nat) by (intros; rewrite Forall_forall in HF; apply HF, nth_In; lia).
  split; [split; [|split]|split; auto].
  - unfold perm_rows. rewrite map_length; auto.
  - apply perm_rows_rect; auto.
  - intros i j Hlt Hj. unfold entry, perm_rows.
    rewrite (nth_indep _ [] (nth 0%nat (eye n) [])) by (rewrite map_length; lia).
    rewrite (map_nth (fun p => nth p (eye n) []) perm 0%nat i). unfold eye. rewrite nth_map_seq by auto. rewrite nth_map_seq by auto.
    rewrite Nat.eqb_sym. auto.
  - intros i j Hlt Hj E. assert (HN : NoDup perm) by (apply (Permutation_NoDup (Permutation_sym H)), seq_NoDup).
    eapply NoDup_nth; eauto; lia.
Qed.
Theorem C40_generated draws size : (0 < size)%nat -> Forall (fun p => Permutation p (seq 0 size)) draws ->
  forall amount, exists res, generate_permutation_matrices draws size amount = Ok res /\
    (forall Ps, res = Some Ps -> length Ps = amount /\
       (* the non-identity draws, in order *)
       exists used, (exists rest, draws = used ++ rest) /\
         Ps = map (perm_rows size) (filter (fun p => negb ((1 <? size)%nat && list_eqb Nat.eqb p (seq 0 size))) used) /\
       Forall (fun P => is_valid_permutation_matrix P size = Ok true) Ps) /\
    (res = None -> (length (filter (fun p => negb ((1 <? size)%nat && list_eqb Nat.eqb p (seq 0 size))) draws) < amount)%nat).
Proof.
  intros Hn. set (keep := fun p => negb ((1 <? size)%nat && list_eqb Nat.eqb p (seq 0 size))).
  induction draws as [|perm draws IH]; intros HF amount.
  - destruct amount as [|a]; (eexists; split; [reflexivity|]); split.
    + intros Ps E. inversion E; subst. split; auto. exists []. repeat split; auto. exists []; auto.
    + discriminate.
    + discriminate.
    + simpl. lia.
  - inversion HF as [|? ? Hp HF']; subst. specialize (IH HF'). destruct amount as [|a].
    { eexists; split; [reflexivity|]; split; [|discriminate]. intros Ps E. inversion E; subst. split; auto. exists []. repeat split; auto. eexists; simpl; eauto. }
    cbn [generate_permutation_matrices].
    destruct (perm_rows_matrix size perm Hp) as [HM HS].
    assert (Lp : length perm = size) by (rewrite (Permutation_length Hp); apply seq_length).
    assert (HB : Forall (fun p => (p < size)%nat) perm).
    { apply Forall_forall. intros p Hin. apply (Permutation_in _ Hp) in Hin. apply in_seq in Hin. lia. }
    destruct (C40_valid_iff (perm_rows size perm) (length perm) size size (perm_rows_rect size perm HB)) as (b & Eb & Hb); try lia.
    rewrite Eb. cbn [bind].
    assert (Kb : keep perm = b).
    { apply eq_true_iff_eq. rewrite Hb. unfold keep. rewrite negb_true_iff, andb_false_iff. split.
      - intros Hk. split; [eauto|]. intros H1 E. destruct Hk as [Hk|Hk]; [apply Nat.ltb_ge in Hk; lia|].
        assert (Hne : perm <> seq 0 size). { intros ->. rewrite (proj2 (list_eqb_ok Nat.eqb Nat.eqb_eq _ _) eq_refl) in Hk. discriminate. }
        apply Hne. apply nth_ext with (d := 0%nat) (d' := 0%nat); [rewrite seq_length; auto|]. intros i Hi. rewrite Lp in Hi. rewrite seq_nth by auto. simpl.
        destruct HM as (_ & _ & M3). destruct HS as [S1 _]. specialize (M3 i (nth i perm 0%nat) Hi (S1 i Hi)). rewrite Nat.eqb_refl, E in M3.
        unfold entry, eye in M3. rewrite nth_map_seq in M3 by auto. rewrite nth_map_seq in M3 by (apply S1; auto).
        destruct (Nat.eqb_spec i (nth i perm 0%nat)); [auto|lia].
      - intros [_ Hne]. destruct (Nat.ltb_spec 1 size) as [H1|H1]; auto. right.
        destruct (list_eqb Nat.eqb perm (seq 0 size)) eqn:E; auto. apply (list_eqb_ok Nat.eqb Nat.eqb_eq) in E. exfalso. apply Hne; auto. subst perm.
        unfold perm_rows, eye. apply map_ext_in. intros i Hi. apply in_seq in Hi. rewrite nth_map_seq by lia. auto. }
    destruct b.
    + destruct (IH a) as (res & E & H1 & H2). rewrite E. cbn [bind]. eexists. split; [reflexivity|]. split.
      * intros Ps EP. destruct res as [Ps'|]; [|discriminate]. inversion EP; subst. destruct (H1 Ps' eq_refl) as (L1 & used & (rest & ->) & Eu & V1).
        split; [simpl; lia|]. exists (perm :: used). split; [exists rest; auto|]. split; [|constructor; auto].
        cbn [filter]. rewrite Kb. simpl. f_equal; auto.
      * destruct res; [discriminate|]. intros _. cbn [filter]. rewrite Kb. cbn [length]. specialize (H2 eq_refl). lia.
    + destruct (IH (S a)) as (res & E & H1 & H2). exists res. split; auto. split.
      * intros Ps EP. destruct (H1 Ps EP) as (L1 & used & (rest & ->) & Eu & V1). split; auto.
        exists (perm :: used). split; [exists rest; auto|]. split; auto. cbn [filter]. rewrite Kb. auto.
      * intros ER. cbn [filter]. rewrite Kb. auto.
Qed.
