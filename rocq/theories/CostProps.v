(** C82: the number of messages of a layer. *)
From Coq Require Import List Arith Lia ZArith Bool Permutation.
From Verif Require Import Base ScatterModel ScatterSpec ScatterProofs ComplexModel BatchSpec BatchSpec2 BatchProofs BatchProps
  LiftModel LiftSpec LiftBase LiftProofs LiftClique LiftTables LiftCliqueProps LiftRing LiftProps LiftRingProps LiftRingBoundary LiftRingExamples PermLift LiftDataset.
From Verif Require Import CostSpec.
Import ListNotations.
Open Scope nat_scope.

(** ** Counting *)
Lemma list_sum_cons a l : list_sum (a :: l) = a + list_sum l.
Proof. reflexivity. Qed.
Lemma flat_map_length_sum {A B} (f : A -> list B) l : length (flat_map f l) = list_sum (map (fun a => length (f a)) l).
Proof. induction l as [|a l IH]; auto. cbn [flat_map map]. rewrite app_length, list_sum_cons, IH. reflexivity. Qed.
Lemma sum_ext {A} (f g : A -> nat) l : (forall a, In a l -> f a = g a) -> list_sum (map f l) = list_sum (map g l).
Proof. intros H. f_equal. apply map_ext_in. exact H. Qed.
Lemma sum_le {A} (f g : A -> nat) l : (forall a, In a l -> f a <= g a) -> list_sum (map f l) <= list_sum (map g l).
Proof. induction l as [|a l IH]; intros H; auto. cbn [map]. rewrite !list_sum_cons. pose proof (H a (or_introl eq_refl)). pose proof (IH (fun b Hb => H b (or_intror Hb))). lia. Qed.
Lemma sum_const {A} (c : nat) (l : list A) : list_sum (map (fun _ => c) l) = c * length l.
Proof. induction l as [|a l IH]; cbn [map length]; [cbn; lia|]. rewrite list_sum_cons, IH. lia. Qed.
Lemma sum_plus {A} (f g : A -> nat) l : list_sum (map (fun a => f a + g a) l) = list_sum (map f l) + list_sum (map g l).
Proof. induction l as [|a l IH]; auto. cbn [map]. rewrite !list_sum_cons, IH. lia. Qed.
Lemma sum_zero {A} (f : A -> nat) l : (forall a, In a l -> f a = 0) -> list_sum (map f l) = 0.
Proof. intros H. rewrite (sum_ext f (fun _ => 0) l H), sum_const. reflexivity. Qed.
Lemma sum_nth {A} (f : A -> nat) l d : list_sum (map (fun i => f (nth i l d)) (seq 0 (length l))) = list_sum (map f l).
Proof.
  induction l as [|a l IH]; auto. cbn [length seq map]. rewrite !list_sum_cons. cbn [nth]. f_equal. rewrite <- seq_shift, map_map. exact IH.
Qed.
Lemma sum_shift (g b : nat -> nat) D : list_sum (map (fun d => g (S d) + b d) (seq 0 (S D))) = b 0 + list_sum (map (fun d => g d + b d) (seq 1 D)) + g (S D).
Proof.
  induction D as [|D IH]; [cbn; lia|]. rewrite seq_S, map_app, list_sum_app, IH. cbn [map]. rewrite seq_S, map_app, list_sum_app. cbn [map list_sum fold_right]. cbn [plus]. lia.
Qed.
Lemma filter_none {A} (f : A -> bool) l : (forall a, In a l -> f a = false) -> filter f l = [].
Proof. induction l as [|a l IH]; intros H; auto. cbn. rewrite (H a (or_introl eq_refl)). apply IH. intros; apply H; right; auto. Qed.
Lemma filter_all {A} (f : A -> bool) l : (forall a, In a l -> f a = true) -> filter f l = l.
Proof. induction l as [|a l IH]; intros H; auto. cbn. rewrite (H a (or_introl eq_refl)). f_equal. apply IH. intros; apply H; right; auto. Qed.

Definition distinct_pairs (l : list nat) : list (nat * nat) := filter (fun p => negb (fst p =? snd p)) (list_prod l l).
Lemma others_length (a : nat) l : NoDup l -> length (filter (fun b => negb (a =? b)) l) = if in_dec Nat.eq_dec a l then length l - 1 else length l.
Proof.
  induction l as [|b l IH]; intros N; [destruct (in_dec _ _ _) as [[]|]; reflexivity|]. inversion N as [|? ? Hb Hn]; subst. specialize (IH Hn). cbn [filter].
  destruct (Nat.eqb_spec a b) as [->|Hne]; cbn [negb].
  - destruct (in_dec Nat.eq_dec b (b :: l)) as [_|n]; [|destruct n; left; auto]. destruct (in_dec Nat.eq_dec b l); [contradiction|]. rewrite IH. cbn. lia.
  - cbn [length]. rewrite IH. destruct (in_dec Nat.eq_dec a l) as [i|n]; destruct (in_dec Nat.eq_dec a (b :: l)) as [i'|n'].
    + destruct l; [destruct i|cbn; lia].
    + destruct n'. right. auto.
    + destruct i' as [E|i']; [congruence|contradiction].
    + reflexivity.
Qed.
Lemma distinct_pairs_length l : NoDup l -> length (distinct_pairs l) = length l * (length l - 1).
Proof.
  intros N. unfold distinct_pairs.
  assert (G : forall m, incl m l -> length (filter (fun p => negb (fst p =? snd p)) (list_prod m l)) = length m * (length l - 1)).
  { induction m as [|a m IH]; intros HI; auto. cbn [list_prod]. rewrite filter_app, app_length, IH by (intros x Hx; apply HI; right; auto).
    assert (E : length (filter (fun p : nat * nat => negb (fst p =? snd p)) (map (fun y => (a, y)) l)) = length (filter (fun b => negb (a =? b)) l)).
    { clear. induction l as [|b l IH]; auto. cbn [map filter fst snd]. destruct (negb (a =? b)); cbn [length]; rewrite IH; reflexivity. }
    rewrite E, others_length by auto. destruct (in_dec Nat.eq_dec a l) as [_|n]; [cbn; lia|]. destruct n. apply HI. left. auto. }
  apply G. apply incl_refl.
Qed.
Lemma distinct_pairs_NoDup l : NoDup l -> NoDup (distinct_pairs l).
Proof.
  intros N. apply NoDup_filter. assert (G : forall m : list nat, NoDup m -> NoDup (list_prod m l)); [|auto]. induction m as [|a m IH]; intros Nm; [constructor|]. inversion Nm; subst.
  cbn [list_prod]. apply NoDup_app; [apply FinFun.Injective_map_NoDup; auto; intros x y E; congruence|auto|].
  intros [u v] Hi Hj. apply in_map_iff in Hi as (y & E & _). inversion E; subst. apply in_prod_iff in Hj. tauto.
Qed.

Lemma count_triples (L : list ((nat * nat) * nat)) (T : nat) (F : nat -> list nat) :
  NoDup L -> (forall a b t, In ((a, b), t) L <-> a <> b /\ t < T /\ In a (F t) /\ In b (F t)) -> (forall t, t < T -> NoDup (F t)) ->
  length L = list_sum (map (fun t => length (F t) * (length (F t) - 1)) (seq 0 T)).
Proof.
  intros N HI HF. set (P := flat_map (fun t => map (fun p => (p, t)) (distinct_pairs (F t))) (seq 0 T)).
  assert (NP : NoDup P).
  { unfold P. clear N HI. assert (G : forall l, NoDup l -> incl l (seq 0 T) -> NoDup (flat_map (fun t => map (fun p => (p, t)) (distinct_pairs (F t))) l)).
    { induction l as [|t l IH]; intros Nl Hl; [constructor|]. inversion Nl; subst. cbn [flat_map]. apply NoDup_app.
      - apply FinFun.Injective_map_NoDup; [intros x y E; congruence|]. apply distinct_pairs_NoDup, HF. specialize (Hl t (or_introl eq_refl)). apply in_seq in Hl. lia.
      - apply IH; auto. intros x Hx. apply Hl. right. auto.
      - intros x Hi Hj. apply in_map_iff in Hi as (p & <- & _). apply in_flat_map in Hj as (t' & Ht' & Hj). apply in_map_iff in Hj as (p' & E & _). inversion E; subst. contradiction. }
    apply G; [apply seq_NoDup|apply incl_refl]. }
  assert (HP : Permutation L P).
  { apply NoDup_Permutation; auto. intros [[a b] t]. rewrite HI. unfold P. rewrite in_flat_map. split.
    - intros (Hne & Ht & Ha & Hb). exists t. split; [apply in_seq; lia|]. apply in_map_iff. exists (a, b). split; auto. unfold distinct_pairs. apply filter_In. split.
      + apply in_prod_iff. auto.
      + cbn. apply negb_true_iff, Nat.eqb_neq. auto.
    - intros (t' & Ht & Hp). apply in_map_iff in Hp as ([a' b'] & E & Hp). inversion E; subst. apply in_seq in Ht. unfold distinct_pairs in Hp. apply filter_In in Hp as [Hp Hb].
      apply in_prod_iff in Hp. cbn in Hb. apply negb_true_iff, Nat.eqb_neq in Hb. intuition. }
  rewrite (Permutation_length HP). unfold P. rewrite flat_map_length_sum. apply sum_ext. intros t Ht. rewrite map_length. apply distinct_pairs_length, HF. apply in_seq in Ht. lia.
Qed.
Lemma count_groups (L : list (nat * nat)) (key : nat * nat -> nat) (T : nat) : (forall p, In p L -> key p < T) ->
  length L = list_sum (map (fun t => length (filter (fun p => key p =? t) L)) (seq 0 T)).
Proof.
  induction L as [|p L IH]; intros H; [symmetry; apply sum_zero; auto|]. cbn [length]. rewrite IH by (intros; apply H; right; auto). cbn [filter].
  pose proof (H p (or_introl eq_refl)) as Hp.
  rewrite (sum_ext (fun t => length (if key p =? t then p :: filter (fun q => key q =? t) L else filter (fun q => key q =? t) L))
     (fun t => (if key p =? t then 1 else 0) + length (filter (fun q => key q =? t) L))) by (intros t _; destruct (key p =? t); reflexivity).
  rewrite sum_plus.
  assert (E : list_sum (map (fun t => if key p =? t then 1 else 0) (seq 0 T)) = 1); [|lia].
  clear - Hp. replace T with (key p + S (T - S (key p))) by lia. rewrite seq_app, map_app, list_sum_app. cbn [seq map]. rewrite list_sum_cons, plus_O_n, Nat.eqb_refl.
  rewrite !sum_zero; auto; intros a Ha; apply in_seq in Ha; destruct (Nat.eqb_spec (key p) a); lia.
Qed.
Lemma pred_square n : n + n * (n - 1) = n * n.
Proof. destruct n; [reflexivity|]. cbn [Nat.sub]. rewrite Nat.sub_0_r. nia. Qed.

(** ** Complexes with given cells *)
Section Cells.
Context {V : Type}.
Variables (cells : nat -> list (list nat)) (down : bool) (X : nat -> option (list V)) (K : complex V).
Hypothesis HC : has_cells cells down X K.

(** Faces of cell [t] of dimension [S d], cofaces of cell [f] of dimension [d]. *)
Definition bidx_at (d : nat) : list (nat * nat) := match attr c_bidx (S d) K with Some l => l | None => [] end.
Definition faces (d t : nat) : list nat := map fst (filter (fun p => snd p =? t) (bidx_at d)).
Definition cofs (d f : nat) : list nat := map snd (filter (fun p => fst p =? f) (bidx_at d)).

Lemma top d : k_dim K < d -> cells d = [].
Proof. intros H. pose proof (wfk_above _ _ (hc_wf _ _ _ _ HC) d H) as E. cbn beta in E. destruct (cells d); auto. discriminate E. Qed.
Lemma there d : d <= k_dim K -> exists c, nth_error (k_cochains K) d = Some c.
Proof. intros H. destruct (nth_error (k_cochains K) d) eqn:E; eauto. apply nth_error_None in E. rewrite (wfk_len _ _ (hc_wf _ _ _ _ HC)) in E. lia. Qed.
Lemma above_none d : k_dim K < d -> nth_error (k_cochains K) d = None.
Proof. intros H. apply nth_error_None. rewrite (wfk_len _ _ (hc_wf _ _ _ _ HC)). lia. Qed.
Lemma bidx_iff d f t : In (f, t) (bidx_at d) <-> face_of cells d f t.
Proof.
  unfold bidx_at, attr. destruct (le_lt_dec (S d) (k_dim K)) as [H|H].
  - destruct (there _ H) as [c Hc]. rewrite Hc. apply (be_iff _ _ _ (hc_bnd _ _ _ _ HC d c Hc)).
  - rewrite (above_none _ H). split; [intros []|]. intros (sf & sc & _ & N & _). unfold names in N. rewrite (top _ H) in N. destruct t; discriminate.
Qed.
Lemma bidx_NoDup d : NoDup (bidx_at d).
Proof.
  unfold bidx_at, attr. destruct (nth_error (k_cochains K) (S d)) as [c|] eqn:Hc; [|constructor]. apply (be_once _ _ _ (hc_bnd _ _ _ _ HC d c Hc)).
Qed.
Lemma faces_iff d f t : In f (faces d t) <-> face_of cells d f t.
Proof.
  unfold faces. rewrite <- bidx_iff, in_map_iff. split.
  - intros ((a & b) & <- & H). apply filter_In in H as [H E]. apply Nat.eqb_eq in E. cbn in *. subst. auto.
  - intros H. exists (f, t). split; auto. apply filter_In. split; auto. apply Nat.eqb_refl.
Qed.
Lemma cofs_iff d f t : In t (cofs d f) <-> face_of cells d f t.
Proof.
  unfold cofs. rewrite <- bidx_iff, in_map_iff. split.
  - intros ((a & b) & <- & H). apply filter_In in H as [H E]. apply Nat.eqb_eq in E. cbn in *. subst. auto.
  - intros H. exists (f, t). split; auto. apply filter_In. split; auto. apply Nat.eqb_refl.
Qed.
Lemma faces_NoDup d t : NoDup (faces d t).
Proof.
  unfold faces. apply NoDup_map_inj; [|apply NoDup_filter, bidx_NoDup]. intros [a b] [a' b'] H H' E. apply filter_In in H as [_ H], H' as [_ H']. apply Nat.eqb_eq in H, H'. cbn in *. congruence.
Qed.
Lemma cofs_NoDup d t : NoDup (cofs d t).
Proof.
  unfold cofs. apply NoDup_map_inj; [|apply NoDup_filter, bidx_NoDup]. intros [a b] [a' b'] H H' E. apply filter_In in H as [_ H], H' as [_ H']. apply Nat.eqb_eq in H, H'. cbn in *. congruence.
Qed.
Lemma face_lt d f t : face_of cells d f t -> f < length (cells d) /\ t < length (cells (S d)).
Proof. intros (sf & sc & N1 & N2 & _). split; apply nth_error_Some; unfold names in *; congruence. Qed.

Lemma boundary_columns d : columns c_bidx (S d) K = list_sum (map (fun t => length (faces d t)) (seq 0 (length (cells (S d))))).
Proof.
  unfold columns. fold (bidx_at d). rewrite (count_groups (bidx_at d) snd (length (cells (S d)))).
  - apply sum_ext. intros t _. unfold faces. rewrite map_length. reflexivity.
  - intros [f t] H. apply bidx_iff in H. apply face_lt in H. cbn. tauto.
Qed.
Lemma triples_length {T} (l : list T) (s : list nat) : length l = length s -> length (combine l s) = length l.
Proof. intros H. rewrite combine_length. lia. Qed.
Lemma upper_columns d : d <= k_dim K ->
  columns c_upper d K = list_sum (map (fun t => length (faces d t) * (length (faces d t) - 1)) (seq 0 (length (cells (S d))))).
Proof.
  intros Hd. destruct (there d Hd) as [c Hc]. pose proof (hc_up _ _ _ _ HC d c Hc) as U. unfold columns, attr. rewrite Hc.
  change (match c_upper c with Some l => l | None => [] end) with (content (c_upper c)).
  rewrite <- (triples_length _ _ (ue_aligned _ _ _ U)). apply (count_triples _ _ (faces d)).
  - apply (ue_once _ _ _ U).
  - intros a b t. rewrite (ue_iff _ _ _ U), !faces_iff. split; [|tauto]. intros (H1 & H2 & H3). pose proof (face_lt _ _ _ H2). tauto.
  - intros; apply faces_NoDup.
Qed.
Lemma lower_columns d : down = true -> S d <= k_dim K ->
  columns c_lower (S d) K = list_sum (map (fun f => length (cofs d f) * (length (cofs d f) - 1)) (seq 0 (length (cells d)))).
Proof.
  intros Hdn Hd. destruct (there _ Hd) as [c Hc]. pose proof (hc_low _ _ _ _ HC d c Hc) as U. rewrite Hdn in U. unfold columns, attr. rewrite Hc.
  change (match c_lower c with Some l => l | None => [] end) with (content (c_lower c)).
  rewrite <- (triples_length _ _ (le_aligned _ _ _ U)). apply (count_triples _ _ (cofs d)).
  - apply (le_once _ _ _ U).
  - intros a b f. rewrite (le_iff _ _ _ U), !cofs_iff. split; [|tauto]. intros (H1 & H2 & H3). pose proof (face_lt _ _ _ H2). tauto.
  - intros; apply cofs_NoDup.
Qed.
Lemma no_lower d : down = false -> columns c_lower d K = 0.
Proof.
  intros Hdn. unfold columns, attr. destruct (nth_error (k_cochains K) d) as [c|] eqn:Hc; auto. destruct d as [|d].
  - rewrite (proj1 (proj2 (hc_bnd0 _ _ _ _ HC c Hc))). reflexivity.
  - pose proof (hc_low _ _ _ _ HC d c Hc) as U. rewrite Hdn in U. rewrite (proj1 U). reflexivity.
Qed.
Lemma no_columns0 : columns c_bidx 0 K = 0 /\ columns c_lower 0 K = 0.
Proof.
  unfold columns, attr. destruct (nth_error (k_cochains K) 0) as [c|] eqn:Hc; auto. destruct (hc_bnd0 _ _ _ _ HC c Hc) as (-> & -> & _). auto.
Qed.
(** Cofaces, counted among the cells. *)
Lemma cofs_length d f s : names cells d f s -> length (cofs d f) = length (above cells d s).
Proof.
  intros N. set (Q := fun t => forallb (fun v => existsb (Nat.eqb v) t) s).
  assert (HQ : forall t, Q t = true <-> incl s t).
  { intros t. unfold Q. rewrite forallb_forall. split.
    - intros H v Hv. apply H in Hv. apply existsb_exists in Hv as (w & Hw & E). apply Nat.eqb_eq in E. subst. auto.
    - intros H v Hv. apply existsb_exists. exists v. split; auto. apply Nat.eqb_refl. }
  assert (P : Permutation (cofs d f) (filter (fun i => Q (nth i (cells (S d)) [])) (seq 0 (length (cells (S d)))))).
  { apply NoDup_Permutation; [apply cofs_NoDup|apply NoDup_filter, seq_NoDup|]. intros t. rewrite cofs_iff, filter_In, in_seq, HQ. split.
    - intros H. pose proof (face_lt _ _ _ H). destruct H as (sf & sc & N1 & N2 & HI). unfold names in *. assert (sf = s) by congruence. subst sf.
      split; [lia|]. rewrite (nth_error_nth _ _ _ N2). auto.
    - intros [Ht HI]. exists s, (nth t (cells (S d)) []). split; auto. split; auto. apply nth_error_nth'. lia. }
  rewrite (Permutation_length P). unfold above. fold Q. generalize (cells (S d)). clear. intros l.
  assert (G : forall l k, length (filter (fun i => Q (nth (i - k) l [])) (seq k (length l))) = length (filter Q l)).
  { induction l0 as [|a l0 IH]; intros k; auto. cbn [length seq filter]. rewrite Nat.sub_diag. change (nth 0 (a :: l0) []) with a.
    assert (E : filter (fun i => Q (nth (i - k) (a :: l0) [])) (seq (S k) (length l0)) = filter (fun i => Q (nth (i - S k) l0 [])) (seq (S k) (length l0))).
    { apply filter_ext_in. intros i Hi. apply in_seq in Hi. replace (i - k) with (S (i - S k)) by lia. reflexivity. }
    rewrite E. destruct (Q a); cbn [length]; rewrite IH; reflexivity. }
  rewrite <- (G l 0). f_equal. apply filter_ext_in. intros i _. rewrite Nat.sub_0_r. reflexivity.
Qed.
Lemma lower_above d : S d <= k_dim K ->
  columns c_lower (S d) K = if down then list_sum (map (fun s => length (above cells d s) * (length (above cells d s) - 1)) (cells d)) else 0.
Proof.
  intros Hd. destruct (bool_dec down true) as [E|E]; [|apply not_true_is_false in E; rewrite no_lower by auto; rewrite E; reflexivity].
  rewrite lower_columns by auto. rewrite E. rewrite <- (sum_nth _ (cells d) []). apply sum_ext. intros f Hf. apply in_seq in Hf.
  rewrite (cofs_length d f (nth f (cells d) [])); auto. apply nth_error_nth'. lia.
Qed.
(** Upper and boundary messages together: the squares of the numbers of faces. *)
Lemma messages_squares : messages (k_dim K) K =
  list_sum (map (fun d => list_sum (map (fun t => length (faces (pred d) t) * length (faces (pred d) t)) (seq 0 (length (cells d))))) (seq 1 (k_dim K))).
Proof.
  unfold messages.
  set (g := fun d => list_sum (map (fun t => length (faces (pred d) t) * (length (faces (pred d) t) - 1)) (seq 0 (length (cells d))))).
  rewrite (sum_ext _ (fun d => g (S d) + columns c_bidx d K)) by (intros d Hd; apply in_seq in Hd; rewrite upper_columns by lia; reflexivity).
  rewrite (sum_shift g (fun d => columns c_bidx d K)). rewrite (proj1 no_columns0). unfold g at 2. rewrite (top (S (k_dim K))) by lia. cbn [length seq map list_sum fold_right].
  rewrite Nat.add_0_r, plus_O_n. apply sum_ext. intros [|d] Hd; apply in_seq in Hd; [lia|]. rewrite boundary_columns. unfold g. cbn [pred]. rewrite <- sum_plus. apply sum_ext.
  intros t _. pose proof (pred_square (length (faces d t))). lia.
Qed.
End Cells.

(** ** Liftings *)
Section Lifted.
Context {V : Type} (o : ops V).

(** C82: cliques.  A layer computes (d+1)(d+2) messages for each clique of d+2 nodes from each of its faces to each other, d+1 along its
    boundary; altogether the square of the number of nodes for each clique with at least two. *)
Theorem C82_cliques lib r x edges size k y down K :
  clique_input lib x edges size k y -> compute_clique_complex o lib r x edges size k y down = Ok K ->
  exists cells, clique_cells edges size k cells /\ (forall d, d <= k_dim K <-> cells d <> []) /\
    (forall d, d <= k_dim K -> columns c_upper d K = (d + 1) * (d + 2) * length (cells (d + 1))) /\
    columns c_bidx 0 K = 0 /\ (forall d, d < k_dim K -> columns c_bidx (d + 1) K = (d + 2) * length (cells (d + 1))) /\
    columns c_lower 0 K = 0 /\
    (forall d, d < k_dim K -> columns c_lower (d + 1) K =
       if down then list_sum (map (fun s => length (above cells d s) * (length (above cells d s) - 1)) (cells d)) else 0) /\
    messages (k_dim K) K = list_sum (map (fun d => (d + 1) * (d + 1) * length (cells d)) (seq 1 (k_dim K))).
Proof.
  intros HI E. pose proof (given_inv o lib r x edges size k y down HI K E) as HC. pose proof (given_cells lib x edges size k y HI) as CC.
  destruct (C12_boundary o lib r x edges size k y down HI K E) as (cells' & CC' & _ & HB).
  set (cells := cells_of lib edges size k) in *.
  assert (HF : forall d t, t < length (cells (S d)) -> length (faces K d t) = d + 2).
  { intros d t Ht. assert (Hd : S d <= k_dim K).
    { destruct (le_lt_dec (S d) (k_dim K)) as [|H]; auto. rewrite (top cells down _ K HC _ H) in Ht. cbn in Ht. lia. }
    destruct (there cells down _ K HC _ Hd) as [c Hc]. destruct (HB d c Hc) as [BE' Hcount].
    destruct (nth_error (cells (S d)) t) as [s|] eqn:Es; [|apply nth_error_None in Es; lia].
    pose proof (proj1 (cc_iff _ _ _ _ CC _ _) (nth_error_In _ _ Es)) as ((C1 & C2 & C3 & C4) & Inc & Ls & Hk).
    destruct s as [|v [|w s]]; [cbn in Ls; lia|cbn in Ls; lia|].
    assert (Hf : In (w :: s) (cells d)).
    { apply (cc_iff _ _ _ _ CC). split; [|split; [|split; [cbn in *; lia|lia]]].
      - split; [discriminate|]. split; [inversion C2; auto|]. split; [intros; apply C3; right; auto|]. intros a b Ha Hb. apply C4; right; auto.
      - intros a b p q Ha Hb Hlt. apply (Inc (S a) (S b)); auto. lia. }
    apply In_nth_error in Hf as [f Hf].
    assert (Hin : In (f, t) (bidx_at K d)).
    { apply (bidx_iff cells down _ K HC). exists (w :: s), (v :: w :: s). split; auto. split; auto. intros a Ha. right. exact Ha. }
    assert (Eb : bidx_at K d = content (c_bidx c)) by (unfold bidx_at, attr; rewrite Hc; reflexivity).
    rewrite Eb in Hin. apply (be_iff _ _ _ BE') in Hin as (sf & sc & _ & N2 & _).
    unfold faces. rewrite map_length, Eb. apply Hcount. apply nth_error_Some. unfold names in N2. congruence. }
  exists cells. split; [exact CC|]. split; [|split; [|split; [|split; [|split; [|split]]]]].
  - destruct (given o lib r x edges size k y down HI) as (K' & E' & _ & HD & _). assert (K' = K) by congruence. subst K'. exact HD.
  - intros d Hd. rewrite (upper_columns cells down _ K HC d Hd). replace (d + 1) with (S d) by lia. rewrite <- (seq_length (length (cells (S d))) 0) at 2. rewrite <- sum_const.
    apply sum_ext. intros t Ht. apply in_seq in Ht. rewrite HF by lia. replace (d + 2 - 1) with (S d) by lia. lia.
  - apply (no_columns0 cells down _ K HC).
  - intros d Hd. replace (d + 1) with (S d) by lia. rewrite (boundary_columns cells down _ K HC d). rewrite <- (seq_length (length (cells (S d))) 0) at 2. rewrite <- sum_const.
    apply sum_ext. intros t Ht. apply in_seq in Ht. apply HF. lia.
  - apply (no_columns0 cells down _ K HC).
  - intros d Hd. replace (d + 1) with (S d) by lia. apply (lower_above cells down _ K HC d). lia.
  - rewrite (messages_squares cells down _ K HC). apply sum_ext. intros [|d] Hd; apply in_seq in Hd; [lia|]. cbn [pred].
    rewrite <- (seq_length (length (cells (S d))) 0) at 2. rewrite <- sum_const. apply sum_ext. intros t Ht. apply in_seq in Ht. rewrite HF by lia. f_equal; lia.
Qed.

(** C82: rings.  Four messages for each edge and the square of its size for each ring; so with rings of at most [max_k] nodes the number
    of messages is linear in the number of edges and rings. *)
Theorem C82_rings (veqb : V -> V -> bool) (veqb_ok : forall a b, veqb a b = true <-> a = b)
    lib isos set_order r x edges edge_attr size y max_k down init_edges init_rings K :
  ring_input lib isos set_order x edges size y max_k -> (init_edges = true -> attr_ok edges edge_attr) ->
  compute_ring_2complex o veqb lib isos set_order r x edges edge_attr size y max_k down init_edges init_rings = Ok K ->
  exists cells, ring_cells edges size max_k cells /\
    columns c_upper 0 K = 2 * length (cells 1) /\ columns c_bidx 1 K = 2 * length (cells 1) /\
    columns c_upper 1 K = list_sum (map (fun s => length s * (length s - 1)) (cells 2)) /\
    columns c_bidx 2 K = list_sum (map (@length nat) (cells 2)) /\
    columns c_upper 2 K = 0 /\ columns c_bidx 0 K = 0 /\ columns c_lower 0 K = 0 /\
    (forall d, d < k_dim K -> columns c_lower (d + 1) K =
       if down then list_sum (map (fun s => length (above cells d s) * (length (above cells d s) - 1)) (cells d)) else 0) /\
    messages (k_dim K) K = 4 * length (cells 1) + list_sum (map (fun s => length s * length s) (cells 2)) /\
    messages (k_dim K) K <= 4 * length (cells 1) + max_k * max_k * length (cells 2).
Proof.
  intros HI HA E. destruct (ring_inv o veqb lib isos set_order r x edges edge_attr size y max_k down init_edges init_rings HI veqb_ok K E HA) as (rows & _ & _ & HC).
  pose proof (cells_ring lib isos set_order x edges size y max_k HI) as RC.
  match type of HC with has_cells ?c _ _ _ => set (cells := c) in * end.
  assert (HF1 : forall t, t < length (cells 1) -> length (faces K 0 t) = 2).
  { intros t Ht. destruct (nth_error (cells 1) t) as [s|] eqn:Es; [|apply nth_error_None in Es; lia].
    pose proof (proj1 (rc_edge _ _ _ _ RC s) (nth_error_In _ _ Es)) as (u & v & Hlt & -> & HAd).
    assert (Hsz : u < size /\ v < size) by (destruct HAd as [_ [H|H]]; apply (ri_graph _ _ _ _ _ _ _ _ HI) in H; tauto).
    assert (P : Permutation (faces K 0 t) [u; v]).
    { apply NoDup_Permutation; [apply (faces_NoDup cells down _ K HC)|constructor; [intros [<-|[]]; lia|constructor; [intros []|constructor]]|].
      intros f. rewrite (faces_iff cells down _ K HC). split.
      - intros (sf & sc & N1 & N2 & Hincl). assert (Hf : f < size) by (rewrite <- (rc_vertices _ _ _ _ RC); apply nth_error_Some; unfold names in N1; congruence).
        pose proof (rc_vertex _ _ _ _ RC f Hf) as N1'. unfold names in *. rewrite Es in N2. inversion N2; subst sc. rewrite N1' in N1. inversion N1; subst sf. apply (Hincl f). left. auto.
      - intros Hf. exists [f], [u; v]. assert (f < size) by (destruct Hf as [<-|[<-|[]]]; tauto). split; [apply (rc_vertex _ _ _ _ RC); auto|]. split; [exact Es|]. intros a [<-|[]]. exact Hf. }
    rewrite (Permutation_length P). reflexivity. }
  assert (HF2 : forall t s, names cells 2 t s -> length (faces K 1 t) = length s).
  { intros t s Hs. assert (Hd : 2 <= k_dim K).
    { destruct (le_lt_dec 2 (k_dim K)) as [|H]; auto. unfold names in Hs. rewrite (top cells down _ K HC _ H) in Hs. destruct t; discriminate. }
    destruct (there cells down _ K HC _ Hd) as [c Hc].
    pose proof (ring_boundary_ok edges size max_k cells c RC (hc_bnd _ _ _ _ HC 1 c Hc) t s Hs) as RB.
    unfold faces. rewrite map_length. unfold bidx_at, attr. rewrite Hc. apply (rb_count _ _ _ _ RB). }
  assert (S2 : forall (g : nat -> nat), list_sum (map (fun t => g (length (faces K 1 t))) (seq 0 (length (cells 2)))) = list_sum (map (fun s => g (length s)) (cells 2))).
  { intros g. rewrite <- (sum_nth (fun s => g (length s)) (cells 2) []). apply sum_ext. intros t Ht. apply in_seq in Ht. f_equal. apply HF2. apply nth_error_nth'. lia. }
  assert (S1 : forall (g : nat -> nat), list_sum (map (fun t => g (length (faces K 0 t))) (seq 0 (length (cells 1)))) = g 2 * length (cells 1)).
  { intros g. rewrite <- (seq_length (length (cells 1)) 0) at 2. rewrite <- sum_const. apply sum_ext. intros t Ht. apply in_seq in Ht. rewrite HF1 by lia. reflexivity. }
  assert (S3 : cells 3 = []) by (apply (rc_top _ _ _ _ RC); lia).
  assert (Hdim : k_dim K <= 2).
  { destruct (le_lt_dec (k_dim K) 2) as [|H]; auto. destruct (hc_occupied _ _ _ _ HC 3 ltac:(lia)). exact S3. }
  assert (Hup : forall d, columns c_upper d K = list_sum (map (fun t => length (faces K d t) * (length (faces K d t) - 1)) (seq 0 (length (cells (S d)))))).
  { intros d. destruct (le_lt_dec d (k_dim K)) as [H|H]; [apply (upper_columns cells down _ K HC d H)|].
    unfold columns, attr. rewrite (above_none cells down _ K HC d H), (top cells down _ K HC (S d)) by lia. reflexivity. }
  assert (Hm : messages (k_dim K) K = 4 * length (cells 1) + list_sum (map (fun s => length s * length s) (cells 2))).
  { rewrite (messages_squares cells down _ K HC). rewrite <- (S2 (fun n => n * n)). pose proof (S1 (fun n => n * n)) as S1'. cbn beta in S1'. change (2 * 2) with 4 in S1'. rewrite <- S1'.
    destruct (k_dim K) as [|[|[|n]]] eqn:Ek; [| | |lia]; cbn [seq map]; rewrite ?list_sum_cons; cbn [pred].
    - rewrite (top cells down _ K HC 1), (top cells down _ K HC 2) by lia. reflexivity.
    - rewrite (top cells down _ K HC 2) by lia. reflexivity.
    - cbn [list_sum fold_right]. lia. }
  exists cells. split; [exact RC|]. split; [|split; [|split; [|split; [|split; [|split; [|split; [|split; [|split]]]]]]]].
  - rewrite Hup. apply (S1 (fun n => n * (n - 1))).
  - rewrite (boundary_columns cells down _ K HC 0). apply (S1 (fun n => n)).
  - rewrite Hup. apply (S2 (fun n => n * (n - 1))).
  - rewrite (boundary_columns cells down _ K HC 1). apply (S2 (fun n => n)).
  - rewrite Hup, S3. reflexivity.
  - apply (no_columns0 cells down _ K HC).
  - apply (no_columns0 cells down _ K HC).
  - intros d Hd. replace (d + 1) with (S d) by lia. apply (lower_above cells down _ K HC d). lia.
  - exact Hm.
  - rewrite Hm. apply Nat.add_le_mono_l. rewrite <- sum_const. apply sum_le. intros s Hs. apply (rc_ring _ _ _ _ RC) in Hs as [_ Hs]. apply Nat.mul_le_mono; exact Hs.
Qed.
End Lifted.

(** ** Batches *)
(** C82: a batch has the messages of its members, no more. *)
Theorem C82_batch {V} (ks : list (complex V)) szs max_dim b :
  ks <> [] -> Forall2 wf_complex ks szs -> uniform_x ks (dims ks max_dim) -> from_complex_list ks max_dim = Ok b ->
  (forall d, d <= dims ks max_dim ->
     columns c_upper d (kb_complex b) = list_sum (map (columns c_upper d) ks) /\ columns c_lower d (kb_complex b) = list_sum (map (columns c_lower d) ks) /\
     columns c_bidx d (kb_complex b) = list_sum (map (columns c_bidx d) ks)) /\
  messages (dims ks max_dim) (kb_complex b) = list_sum (map (messages (dims ks max_dim)) ks).
Proof.
  intros Hne HW HU Hb.
  assert (HJ : forall sh (get : cochain V -> option (list (nat * nat))) d, length (content (joined sh (map (attr get d) ks))) = list_sum (map (columns get d) ks)).
  { intros sh get d. unfold joined.
    assert (J : forall i, length (concat (mapi_from (fun i o => match o with Some l => map (sh i) l | None => [] end) i (map (attr get d) ks))) = list_sum (map (columns get d) ks)).
    { clear. induction ks as [|k ks IH]; intros i; auto. cbn [map mapi_from concat]. rewrite app_length, list_sum_cons, IH. f_equal. unfold columns.
      destruct (attr get d k); [apply map_length|reflexivity]. }
    destruct (existsb isSome (map (attr get d) ks)) eqn:E; [apply J|]. cbn [content length]. symmetry. apply sum_zero. intros k Hk. unfold columns.
    destruct (attr get d k) eqn:Ea; auto. assert (X : existsb isSome (map (attr get d) ks) = true); [|congruence]. apply existsb_exists. exists (attr get d k).
    split; [apply in_map; auto|rewrite Ea; reflexivity]. }
  assert (G : forall d, d <= dims ks max_dim ->
     columns c_upper d (kb_complex b) = list_sum (map (columns c_upper d) ks) /\ columns c_lower d (kb_complex b) = list_sum (map (columns c_lower d) ks) /\
     columns c_bidx d (kb_complex b) = list_sum (map (columns c_bidx d) ks)).
  { intros d Hd. destruct (batch_parts ks szs max_dim b d Hne HW HU Hb Hd) as (C & HC & U & _).
    assert (Y : forall sh (get : cochain V -> option (list (nat * nat))), get C = joined sh (map (attr get d) ks) -> columns get d (kb_complex b) = list_sum (map (columns get d) ks)).
    { intros sh get Hg. rewrite <- (HJ sh get d), <- Hg. unfold columns, attr. rewrite HC. destruct (get C); reflexivity. }
    split; [eapply Y, (un_upper _ _ _ _ _ U)|]. split; [eapply Y, (un_lower _ _ _ _ _ U)|eapply Y, (un_bidx _ _ _ _ _ U)]. }
  split; [exact G|].
  assert (X : forall (l : list nat), (forall d, In d l -> d <= dims ks max_dim) ->
    list_sum (map (fun d => columns c_upper d (kb_complex b) + columns c_bidx d (kb_complex b)) l) = list_sum (map (fun k => list_sum (map (fun d => columns c_upper d k + columns c_bidx d k) l)) ks)).
  { induction l as [|d l IH]; intros Hl; [symmetry; apply sum_zero; auto|]. cbn [map]. rewrite list_sum_cons, IH by (intros; apply Hl; right; auto).
    destruct (G d (Hl d (or_introl eq_refl))) as (-> & _ & ->). rewrite <- !sum_plus. apply sum_ext. intros k _. rewrite list_sum_cons. reflexivity. }
  unfold messages. apply X. intros d Hd. apply in_seq in Hd. lia.
Qed.

(** ** Lower adjacencies are not linear *)
Definition star (n : nat) : list (nat * nat) := map (fun i => (0, i)) (seq 1 n).
Lemma star_adjacent n u v : adjacent (star n) u v <-> (u = 0 /\ 1 <= v <= n) \/ (v = 0 /\ 1 <= u <= n).
Proof.
  unfold adjacent, star. rewrite !in_map_iff. split.
  - intros (Hne & [(i & E & Hi)|(i & E & Hi)]); inversion E; subst; apply in_seq in Hi; lia.
  - intros [(-> & Hv)|(-> & Hu)]; (split; [lia|]); [left; exists v|right; exists u]; split; auto; apply in_seq; lia.
Qed.
Lemma cells_NoDup edges size k cells d : clique_cells edges size k cells -> NoDup (cells d).
Proof.
  intros CC. apply NoDup_nth_error. intros i j Hi Hij. destruct (nth_error (cells d) i) as [s|] eqn:E; [|apply nth_error_None in E; lia].
  eapply (cc_once _ _ _ _ CC d i j s s); auto. unfold names. congruence. intros v; tauto.
Qed.
Lemma filter_Permutation {A} (f : A -> bool) l l' : Permutation l l' -> Permutation (filter f l) (filter f l').
Proof.
  induction 1; cbn; auto; [destruct (f x); auto|destruct (f x), (f y); auto; apply perm_swap|eapply Permutation_trans; eauto].
Qed.
Lemma list_sum_Permutation l l' : Permutation l l' -> list_sum l = list_sum l'.
Proof. induction 1; auto; rewrite ?list_sum_cons; lia. Qed.
Lemma star_cells n k cells : 1 <= n -> clique_cells (star n) (S n) k cells ->
  Permutation (cells 0) (map (fun v => [v]) (seq 0 (S n))) /\ Permutation (cells 1) (map (fun i => [0; i]) (seq 1 n)) /\ forall d, 2 <= d -> cells d = [].
Proof.
  intros Hn CC. split; [|split].
  - apply NoDup_Permutation; [eapply cells_NoDup; eauto|apply FinFun.Injective_map_NoDup; [intros a b E; congruence|apply seq_NoDup]|].
    intros s. rewrite (cc_iff _ _ _ _ CC), in_map_iff. split.
    + intros ((_ & _ & Hb & _) & _ & L & _). destruct s as [|v [|w s]]; cbn in L; try lia. exists v. split; auto. apply in_seq. specialize (Hb v (or_introl eq_refl)). lia.
    + intros (v & <- & Hv). apply in_seq in Hv. split; [|split; [|split; [reflexivity|lia]]].
      * split; [discriminate|]. split; [constructor; [intros []|constructor]|]. split; [intros u [<-|[]]; lia|]. intros a b [<-|[]] [<-|[]] H. congruence.
      * intros [|i] [|j] a b Ha Hb Hlt; try lia; destruct j; discriminate.
  - apply NoDup_Permutation; [eapply cells_NoDup; eauto|apply FinFun.Injective_map_NoDup; [intros a b E; congruence|apply seq_NoDup]|].
    intros s. rewrite (cc_iff _ _ _ _ CC), in_map_iff. split.
    + intros ((_ & Nd & Hb & Hc) & Inc & L & _). destruct s as [|u [|v [|w s]]]; cbn in L; try lia.
      pose proof (Inc 0 1 u v eq_refl eq_refl ltac:(lia)) as Hlt.
      pose proof (Hc u v (or_introl eq_refl) (or_intror (or_introl eq_refl)) ltac:(lia)) as HA. apply star_adjacent in HA. exists v. split; [f_equal; lia|apply in_seq; lia].
    + intros (v & <- & Hv). apply in_seq in Hv. split; [|split; [|split; [reflexivity|lia]]].
      * split; [discriminate|]. split; [constructor; [intros [E|[]]; lia|constructor; [intros []|constructor]]|]. split; [intros u [<-|[<-|[]]]; lia|].
        intros a b [<-|[<-|[]]] [<-|[<-|[]]] H; try lia; apply star_adjacent; lia.
      * intros [|[|i]] [|[|j]] a b Ha Hb Hlt; cbn in Ha, Hb; try lia; try (destruct j; discriminate); inversion Ha; inversion Hb; subst; lia.
  - intros d Hd. destruct (cells d) as [|s l] eqn:E; auto. exfalso. assert (Hs : In s (cells d)) by (rewrite E; left; auto).
    apply (cc_iff _ _ _ _ CC) in Hs as ((_ & _ & _ & Hc) & Inc & L & _). destruct s as [|u [|v [|w s]]]; cbn in L; try lia.
    pose proof (Inc 0 1 u v eq_refl eq_refl ltac:(lia)). pose proof (Inc 1 2 v w eq_refl eq_refl ltac:(lia)).
    pose proof (Hc v w ltac:(cbn; auto) ltac:(cbn; auto) ltac:(lia)) as HA. apply star_adjacent in HA. lia.
Qed.
(** C82: without lower adjacencies the messages of a star are linear in its edges, with them they are quadratic. *)
Theorem C82_lower_quadratic {V} (o : ops V) lib r x n k y : 1 <= n -> clique_input lib x (star n) (S n) k y ->
  exists K, compute_clique_complex o lib r x (star n) (S n) k y true = Ok K /\ k_dim K = 1 /\ messages 1 K = 4 * n /\ columns c_lower 1 K = n * (n - 1).
Proof.
  intros Hn HI. destruct (given o lib r x (star n) (S n) k y true HI) as (K & E & _). exists K. split; [exact E|].
  destruct (C82_cliques o lib r x (star n) (S n) k y true K HI E) as (cells & CC & HD & _ & _ & _ & _ & HL & HM).
  destruct (star_cells n k cells Hn CC) as (P0 & P1 & P2). pose proof (Permutation_length P1) as L1. rewrite map_length, seq_length in L1.
  assert (Ek : k_dim K = 1).
  { assert (1 <= k_dim K) by (apply HD; destruct (cells 1); [cbn in L1; lia|discriminate]).
    destruct (le_lt_dec 2 (k_dim K)) as [H2|]; [|lia]. apply HD in H2. destruct H2. apply P2. lia. }
  split; [exact Ek|]. rewrite Ek in HM, HL. split.
  - rewrite HM. cbn [seq map]. rewrite list_sum_cons, L1. cbn [list_sum fold_right]. lia.
  - change 1 with (0 + 1). rewrite (HL 0) by lia. rewrite (list_sum_Permutation _ _ (Permutation_map (fun s => length (above cells 0 s) * (length (above cells 0 s) - 1)) P0)).
    rewrite map_map. cbn [seq map]. rewrite list_sum_cons.
    assert (G : forall v, length (above cells 0 [v]) = length (filter (fun i => (v =? 0) || (v =? i)) (seq 1 n))).
    { intros v. unfold above. rewrite (Permutation_length (filter_Permutation _ _ _ P1)).
      rewrite (filter_ext _ (fun t => existsb (Nat.eqb v) t)) by (intros t; cbn [forallb]; apply andb_true_r).
      clear. induction (seq 1 n) as [|i l IH]; auto. cbn [map filter existsb]. rewrite orb_false_r. destruct ((v =? 0) || (v =? i)); cbn [length]; rewrite IH; reflexivity. }
    assert (G0 : length (above cells 0 [0]) = n) by (rewrite G, filter_all by reflexivity; apply seq_length).
    rewrite G0, sum_zero, Nat.add_0_r; auto. intros v Hv. apply in_seq in Hv. rewrite G.
    assert (G1 : length (filter (fun i => (v =? 0) || (v =? i)) (seq 1 n)) = 1); [|rewrite G1; reflexivity].
    rewrite (filter_ext _ (fun i => v =? i)) by (intros i; destruct (Nat.eqb_spec v 0); [lia|reflexivity]).
    replace n with ((v - 1) + S (n - v)) by lia. rewrite seq_app, filter_app. replace (1 + (v - 1)) with v by lia. cbn [seq filter]. rewrite Nat.eqb_refl, !filter_none; [reflexivity| |];
      intros a Ha; apply in_seq in Ha; apply Nat.eqb_neq; lia.
Qed.

(** ** Examples *)
(** Six edges and two triangles: 4 * 6 + 9 * 2 messages. *)
Example C82_ex_cliques : exists K, clique_input (ref_lib true) diamond_x diamond 6 2 None /\
  compute_clique_complex Zops (ref_lib true) RAdd diamond_x diamond 6 2 None true = Ok K /\ k_dim K = 2 /\
  messages 2 K = 42 /\ map (fun d => columns c_lower d K) [0; 1; 2] = [0; 20; 2].
Proof. eexists. split; [apply diamond_ok; [auto|exact I]|]. split; [vm_compute; reflexivity|]. split; [reflexivity|]. split; vm_compute; reflexivity. Qed.
(** Six edges, a triangle and a square: 4 * 6 + 9 + 16 messages. *)
Example C82_ex_rings : exists K, ring_input (ref_lib true) (ref_isos 5) (@rev _) house_x house 5 None 5 /\
  compute_ring_2complex Zops Z.eqb (ref_lib true) (ref_isos 5) (@rev _) RAdd house_x house None 5 None 5 true true true = Ok K /\ k_dim K = 2 /\
  messages 2 K = 49 /\ map (fun d => columns c_lower d K) [0; 1; 2] = [0; 18; 2].
Proof. eexists. split; [apply house_ok; exact I|]. split; [vm_compute; reflexivity|]. split; [reflexivity|]. split; vm_compute; reflexivity. Qed.
Example C82_ex_star : clique_input (any_lib true) [1; 2; 3; 4; 5]%Z (star 4) 5 2 None.
Proof.
  split; [|lia|reflexivity|exact I|apply any_lib_ok]. intros u v H. unfold star in H. apply in_map_iff in H as (i & E & Hi). inversion E; subst. apply in_seq in Hi. lia.
Qed.
Example C82_star_example := C82_lower_quadratic Zops (any_lib true) RAdd [1; 2; 3; 4; 5]%Z 4 2 None ltac:(lia) C82_ex_star.
(** The two complexes in one batch: 42 + 49 messages. *)
Example C82_ex_batch : exists K L b,
  compute_clique_complex Zops (ref_lib true) RAdd diamond_x diamond 6 2 None true = Ok K /\
  compute_ring_2complex Zops Z.eqb (ref_lib true) (ref_isos 5) (@rev _) RAdd house_x house None 5 None 5 true true true = Ok L /\
  from_complex_list [K; L] 2 = Ok b /\ messages 2 (kb_complex b) = 91.
Proof. do 3 eexists. split; [vm_compute; reflexivity|]. split; [vm_compute; reflexivity|]. split; [vm_compute; reflexivity|]. vm_compute. reflexivity. Qed.
Print Assumptions C82_cliques.
Print Assumptions C82_rings.
Print Assumptions C82_batch.
Print Assumptions C82_lower_quadratic.
