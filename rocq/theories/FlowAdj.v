(** Proofs about signed adjacencies and changes of orientation. *)
From Coq Require Import List Arith Lia ZArith Bool Permutation.
From Verif Require Import Base ComplexModel FlowModel FlowSpec FlowProofs FlowProofs2.
Import ListNotations.

Lemma in_nonzeros A i j v :
  In (i, j, v) (nonzeros A) <-> i < m_r A /\ j < m_c A /\ v = m_at A i j /\ v <> 0%Z.
Proof.
  unfold nonzeros. rewrite in_flat_map. split.
  - intros (i' & Hi & H). apply in_flat_map in H as (j' & Hj & H). apply in_seq in Hi, Hj.
    destruct (Z.eqb_spec (m_at A i' j') 0); [destruct H|]. destruct H as [H|[]].
    injection H as <- <- <-. repeat split; auto; lia.
  - intros (Hi & Hj & -> & Hv). exists i. split; [apply in_seq; lia|]. apply in_flat_map.
    exists j. split; [apply in_seq; lia|]. apply Z.eqb_neq in Hv. rewrite Hv. left; auto.
Qed.

Lemma NoDup_app_intro {A} (l l' : list A) : NoDup l -> NoDup l' -> (forall a, In a l -> In a l' -> False) ->
  NoDup (l ++ l').
Proof.
  induction l as [|a l IH]; intros H1 H2 H3; simpl; auto. inversion H1; subst. constructor.
  - rewrite in_app_iff. intros [?|?]; auto. apply (H3 a); simpl; auto.
  - apply IH; auto. intros b Hb. apply H3. right; auto.
Qed.
Lemma NoDup_flat_map {A B} (f : A -> list B) l : NoDup l -> (forall a, In a l -> NoDup (f a)) ->
  (forall a a' b, In b (f a) -> In b (f a') -> a = a') -> NoDup (flat_map f l).
Proof.
  intros Hl Hf Hd. induction l as [|a l IH]; simpl; [constructor|]. inversion Hl as [|? ? Ha Hl']; subst.
  apply NoDup_app_intro.
  - apply Hf. left; auto.
  - apply IH; auto. intros; apply Hf. right; auto.
  - intros b Hb Hb'. apply in_flat_map in Hb' as (a' & Ha' & Hb'). assert (a = a') by eauto. subst. auto.
Qed.

Lemma nonzeros_NoDup A : NoDup (nonzeros A).
Proof.
  unfold nonzeros. apply NoDup_flat_map; [apply seq_NoDup| |].
  - intros i _. apply NoDup_flat_map; [apply seq_NoDup| |].
    + intros j _. destruct (m_at A i j =? 0)%Z; repeat constructor. intros [].
    + intros j j' b Hb Hb'.
      destruct (m_at A i j =? 0)%Z; [destruct Hb|]. destruct (m_at A i j' =? 0)%Z; [destruct Hb'|].
      destruct Hb as [<-|[]], Hb' as [E|[]]. congruence.
  - intros i i' b Hb Hb'. apply in_flat_map in Hb as (j & _ & Hb), Hb' as (j' & _ & Hb').
    destruct (m_at A i j =? 0)%Z; [destruct Hb|]. destruct (m_at A i' j' =? 0)%Z; [destruct Hb'|].
    destruct Hb as [<-|[]], Hb' as [E|[]]. congruence.
Qed.

Definition lower_entry (p : nat * nat * Z) : bool := snd (fst p) <? fst (fst p).
Definition upper_entry (p : nat * nat * Z) : bool := fst (fst p) <? snd (fst p).
Definition diag_entry (p : nat * nat * Z) : bool := fst (fst p) =? snd (fst p).

Lemma adj_loop_spec coo adj sg : adj_loop coo = Ok (adj, sg) ->
  length adj = 2 * length (filter lower_entry coo) /\ length sg = length adj /\
  (forall i j s, In (i, j, s) (combine adj sg) <->
     exists v, s = Z.sgn v /\ ((j < i /\ In (i, j, v) coo) \/ (i < j /\ In (j, i, v) coo))) /\
  (forall i j v, In (i, j, v) coo -> j < i -> v = 1%Z \/ v = (-1)%Z).
Proof.
  revert adj sg; induction coo as [|[[i0 j0] v0] coo IH]; intros adj sg H; simpl in H.
  - injection H as <- <-. simpl. repeat split; auto; try tauto.
    intros (v & _ & [[_ []]|[_ []]]).
  - destruct (Nat.leb_spec i0 j0).
    + apply IH in H as (H1 & H2 & H3 & H4). split; [|split; [|split]]; auto.
      * cbn [filter]. replace (lower_entry (i0, j0, v0)) with false; auto.
        symmetry. unfold lower_entry. cbn [fst snd]. apply Nat.ltb_ge. lia.
      * intros i j s. rewrite H3. split.
        -- intros (v & ? & H5). exists v. split; auto. simpl. tauto.
        -- intros (v & ? & H5). exists v. split; auto. simpl in H5.
           destruct H5 as [[? [E|?]]|[? [E|?]]]; try tauto; injection E as -> -> ->; exfalso; lia.
      * intros i j v [E|Hi] Hlt; [injection E; lia|]. eapply H4; eauto.
    + apply bind_ok in H as (u & Ha & H). apply bind_ok in H as ([adj' sg'] & Hr & H).
      injection H as <- <-. apply IH in Hr as (H1 & H2 & H3 & H4). cbn [fst snd].
      split; [|split; [|split]].
      * cbn [filter]. replace (lower_entry (i0, j0, v0)) with true; [simpl; lia|].
        symmetry. unfold lower_entry. cbn [fst snd]. apply Nat.ltb_lt. lia.
      * simpl. lia.
      * intros i j s. simpl. rewrite H3. split.
        -- intros [E|[E|(v & ? & H5)]].
           ++ injection E as <- <- <-. exists v0. split; auto.
           ++ injection E as <- <- <-. exists v0. split; auto.
           ++ exists v. split; auto. tauto.
        -- intros (v & Es & [[? [E|?]]|[? [E|?]]]).
           ++ injection E as -> -> ->. left. congruence.
           ++ right. right. exists v. auto.
           ++ injection E as -> -> ->. right. left. congruence.
           ++ right. right. exists v. auto.
      * intros i j v [E|Hi] Hlt; [|eapply H4; eauto]. injection E as -> -> ->.
        unfold assert_ in Ha. destruct ((v =? 1)%Z || (v =? -1)%Z) eqn:E; [|discriminate].
        apply orb_true_iff in E as [E|E]; apply Z.eqb_eq in E; auto.
Qed.

Lemma adj_loop_NoDup coo adj sg : adj_loop coo = Ok (adj, sg) ->
  NoDup (map fst coo) -> NoDup adj.
Proof.
  revert adj sg; induction coo as [|[[i0 j0] v0] coo IH]; intros adj sg H Hn; simpl in H.
  - injection H as <- _. constructor.
  - simpl in Hn. inversion Hn as [|? ? Hni Hn']; subst. destruct (Nat.leb_spec i0 j0).
    + apply (IH adj sg); auto.
    + apply bind_ok in H as (u & Ha & H). apply bind_ok in H as ([adj' sg'] & Hr & H).
      injection H as <- _. cbn [fst].
      pose proof (IH _ _ Hr Hn') as IHn. apply adj_loop_spec in Hr as (H1 & H2 & H3 & _).
      assert (Hin : forall p, In p adj' -> exists s, In (p, s) (combine adj' sg')).
      { clear - H2. revert sg' H2. induction adj' as [|q a IH]; intros sg' H2 p Hp; [destruct Hp|].
        destruct sg' as [|s sg']; simpl in *; [lia|]. destruct Hp as [->|Hp]; [exists s; auto|].
        destruct (IH sg' ltac:(lia) p Hp) as (s' & ?). exists s'. auto. }
      assert (Hni' : forall v, ~ In (i0, j0, v) coo).
      { intros v Hi. apply Hni. apply in_map_iff. exists (i0, j0, v). auto. }
      constructor; [|constructor; auto].
      * intros [E|Hi]; [injection E; lia|]. apply Hin in Hi as (s & Hs). apply H3 in Hs as (v & _ & [[_ Hi]|[? _]]); [|lia].
        eapply Hni'; eauto.
      * intros Hi. apply Hin in Hi as (s & Hs). apply H3 in Hs as (v & _ & [[? _]|[_ Hi]]); [lia|].
        eapply Hni'; eauto.
Qed.

Lemma adj_loop_ok coo : (forall i j v, In (i, j, v) coo -> j < i -> v = 1%Z \/ v = (-1)%Z) ->
  exists r, adj_loop coo = Ok r.
Proof.
  induction coo as [|[[i j] v] coo IH]; intros H; simpl; [eauto|].
  destruct IH as (r & ->); [intros; eapply H; eauto; right; eauto|].
  destruct (Nat.leb_spec i j); [eauto|].
  destruct (H i j v (or_introl eq_refl)) as [-> | ->]; auto; simpl; eauto.
Qed.

Lemma filter_disjoint_length {A} (f g : A -> bool) l : (forall a, In a l -> f a = true -> g a = false) ->
  length (filter (fun a => f a || g a) l) = length (filter f l) + length (filter g l).
Proof.
  induction l as [|a l IH]; intros H; simpl; auto.
  assert (IH' := IH (fun b Hb => H b (or_intror Hb))). specialize (H a (or_introl eq_refl)).
  destruct (f a) eqn:Ef; simpl; [rewrite H by auto; lia|]. destruct (g a); simpl; lia.
Qed.

Lemma nonzeros_count A : m_r A = m_c A -> (forall i j, i < m_r A -> j < m_r A -> m_at A i j = m_at A j i) ->
  length (nonzeros A) - length (filter (fun i => negb (m_at A i i =? 0)%Z) (seq 0 (m_r A))) =
  2 * length (filter lower_entry (nonzeros A)).
Proof.
  intros Hsq Hsym.
  assert (E1 : length (nonzeros A) =
     length (filter lower_entry (nonzeros A)) + length (filter upper_entry (nonzeros A)) +
     length (filter diag_entry (nonzeros A))).
  { rewrite <- !filter_disjoint_length.
    - f_equal. symmetry. rewrite <- (filter_ext (fun _ => true)).
      + induction (nonzeros A); simpl; congruence.
      + intros [[i j] v]. unfold lower_entry, upper_entry, diag_entry. cbn [fst snd].
        destruct (Nat.ltb_spec j i); auto. destruct (Nat.ltb_spec i j); auto.
        destruct (Nat.eqb_spec i j); auto. lia.
    - intros [[i j] v] _. unfold lower_entry, upper_entry, diag_entry. cbn [fst snd].
      destruct (Nat.ltb_spec j i), (Nat.ltb_spec i j), (Nat.eqb_spec i j); simpl; auto; try discriminate; lia.
    - intros [[i j] v] _. unfold lower_entry, upper_entry, diag_entry. cbn [fst snd].
      destruct (Nat.ltb_spec j i), (Nat.ltb_spec i j), (Nat.eqb_spec i j); simpl; auto; try discriminate; lia. }
  assert (E2 : length (filter upper_entry (nonzeros A)) = length (filter lower_entry (nonzeros A))).
  { rewrite <- (map_length (fun p : nat * nat * Z => (snd (fst p), fst (fst p), snd p)) (filter lower_entry _)).
    apply Permutation_length, NoDup_Permutation.
    - apply NoDup_filter, nonzeros_NoDup.
    - apply FinFun.Injective_map_NoDup; [|apply NoDup_filter, nonzeros_NoDup].
      intros [[i j] v] [[i' j'] v'] E. simpl in E. congruence.
    - intros [[i j] v]. rewrite filter_In, in_map_iff, in_nonzeros. unfold upper_entry. cbn [fst snd]. rewrite ?Nat.ltb_lt. split.
      + intros ((H1 & H2 & -> & H3) & H4). exists (j, i, m_at A i j). split; auto.
        rewrite filter_In, in_nonzeros. unfold lower_entry. cbn [fst snd]. rewrite ?Nat.ltb_lt in *. split; auto.
        split; [lia|]. split; [lia|]. split; auto. apply Hsym; lia.
      + intros ([[i' j'] v'] & E & H). simpl in E. injection E as -> -> ->.
        rewrite filter_In, in_nonzeros in H. unfold lower_entry in H. cbn [fst snd] in H. rewrite ?Nat.ltb_lt in *.
        destruct H as ((H1 & H2 & E & H3) & H4). split; auto. split; [lia|]. split; [lia|].
        split; auto. rewrite E. apply Hsym; lia. }
  assert (E3 : length (filter diag_entry (nonzeros A)) =
               length (filter (fun i => negb (m_at A i i =? 0)%Z) (seq 0 (m_r A)))).
  { rewrite <- (map_length (fun i => (i, i, m_at A i i)) (filter _ (seq 0 (m_r A)))).
    apply Permutation_length, NoDup_Permutation.
    - apply NoDup_filter, nonzeros_NoDup.
    - apply FinFun.Injective_map_NoDup; [|apply NoDup_filter, seq_NoDup].
      intros i i' E. congruence.
    - intros [[i j] v]. rewrite filter_In, in_map_iff, in_nonzeros. unfold diag_entry. cbn [fst snd]. split.
      + intros ((H1 & H2 & -> & H3) & H4). apply Nat.eqb_eq in H4. subst j. exists i. split; auto.
        rewrite filter_In, in_seq, negb_true_iff, Z.eqb_neq. split; auto. lia.
      + intros (i' & E & H). injection E as -> <- <-.
        rewrite filter_In, in_seq, negb_true_iff, Z.eqb_neq in H. rewrite Nat.eqb_refl.
        repeat split; try lia. }
  lia.
Qed.

Lemma gram_sym B i j : gram B i j = gram B j i.
Proof. apply sumZ_ext. intros; lia. Qed.

Section Adj.
Variables (order : list (nat * nat * Z) -> list (nat * nat * Z)) (B : mat).
Hypothesis Hord : forall l, Permutation (order l) l.

Lemma filter_perm_length {A} (f : A -> bool) l l' : Permutation l l' ->
  length (filter f l) = length (filter f l').
Proof.
  intros H. induction H; simpl; auto.
  - destruct (f x); simpl; lia.
  - destruct (f x), (f y); simpl; lia.
  - lia.
Qed.

Definition gram_mat : mat :=
  mkMat (m_c B) (m_c B) (fun i j => sumZ (m_c (mtr B)) (fun k => (m_at (mtr B) i k * m_at B k j)%Z)).

Lemma mmul_gram : mmul (mtr B) B = Ok gram_mat.
Proof. unfold mmul. simpl. rewrite Nat.eqb_refl. reflexivity. Qed.
Lemma gram_mat_at i j : m_at gram_mat i j = gram B i j.
Proof. reflexivity. Qed.

Lemma fst_NoDup_nonzeros A : NoDup (map fst (nonzeros A)).
Proof.
  pose proof (nonzeros_NoDup A) as H.
  assert (G : forall p q, In p (nonzeros A) -> In q (nonzeros A) -> fst p = fst q -> p = q).
  { intros [[i j] v] [[i' j'] v'] Hp Hq E. simpl in E. injection E as <- <-.
    apply in_nonzeros in Hp as (_ & _ & -> & _), Hq as (_ & _ & -> & _). auto. }
  revert G. induction H as [|p l Hp Hl IH]; intros G; simpl; constructor.
  - rewrite in_map_iff. intros (q & E & Hq). apply Hp. rewrite (G p q); simpl; auto.
  - apply IH. intros; apply G; simpl; auto.
Qed.

Lemma extract_adj_sound edges adj sg : extract_adj order B edges = Ok (adj, sg) ->
  signed_adjacency B adj sg /\
  (forall i j, i < m_c B -> j < m_c B -> i <> j -> (-1 <= gram B i j <= 1)%Z) /\
  (forall n, edges = Some n -> m_c B = n).
Proof.
  unfold extract_adj. rewrite mmul_gram. cbn [bind]. intros H.
  apply bind_ok in H as (u1 & Ha & H). apply bind_ok in H as (r & Hr & H).
  destruct (_ <? _) eqn:El in H; [discriminate|].
  apply bind_ok in H as (u2 & Hb & H). injection H as ->.
  pose proof (adj_loop_spec _ _ _ Hr) as (H1 & H2 & H3 & H4).
  assert (Hin : forall i j v, In (i, j, v) (order (nonzeros gram_mat)) <->
            i < m_c B /\ j < m_c B /\ v = gram B i j /\ v <> 0%Z).
  { intros i j v. rewrite <- (in_nonzeros gram_mat i j v).
    split; apply Permutation_in; [|apply Permutation_sym]; apply Hord. }
  split; [|split].
  - split; [auto|]. split.
    + eapply adj_loop_NoDup; eauto.
      apply (Permutation_NoDup (l := map fst (nonzeros gram_mat))); [|apply fst_NoDup_nonzeros].
      apply Permutation_map, Permutation_sym, Hord.
    + intros i j s. rewrite H3. split.
      * intros (v & -> & [[L Hi]|[L Hi]]); apply Hin in Hi as (? & ? & -> & ?).
        -- repeat split; auto; lia.
        -- rewrite (gram_sym B i j). repeat split; auto; lia.
      * intros (Hi & Hj & Hne & Hg & ->). exists (gram B i j). split; auto.
        destruct (Nat.lt_total i j) as [L|[?|L]]; [right|lia|left]; split; auto; apply Hin.
        -- rewrite (gram_sym B j i). auto.
        -- auto.
  - intros i j Hi Hj Hne. destruct (Z.eq_dec (gram B i j) 0) as [E|E]; [lia|].
    destruct (Nat.lt_total i j) as [L|[?|L]]; [|lia|].
    + assert (gram B j i = 1 \/ gram B j i = -1)%Z; [|rewrite (gram_sym B i j); lia].
      apply (H4 j i); auto. apply Hin. rewrite (gram_sym B j i). auto.
    + assert (gram B i j = 1 \/ gram B i j = -1)%Z; [|lia].
      apply (H4 i j); auto. apply Hin. auto.
  - intros n ->. apply assert_ok in Ha. apply Nat.eqb_eq in Ha. exact Ha.
Qed.

Lemma extract_adj_ok edges :
  (forall i j, i < m_c B -> j < m_c B -> i <> j -> (-1 <= gram B i j <= 1)%Z) ->
  (forall n, edges = Some n -> m_c B = n) ->
  exists adj sg, extract_adj order B edges = Ok (adj, sg).
Proof.
  intros Hg He. unfold extract_adj. rewrite mmul_gram. cbn [bind].
  rewrite forallb_assert; [cbn [bind]|].
  2:{ destruct edges as [n|]; auto. apply Nat.eqb_eq. simpl. auto. }
  destruct (adj_loop_ok (order (nonzeros gram_mat))) as ([adj sg] & Hr).
  { intros i j v Hi L. apply (Permutation_in _ (Hord _)) in Hi.
    apply in_nonzeros in Hi as (Hi & Hj & -> & Hne). simpl in Hi, Hj.
    rewrite gram_mat_at in *. specialize (Hg i j Hi Hj ltac:(lia)). lia. }
  rewrite Hr. cbn [bind fst].
  pose proof (adj_loop_spec _ _ _ Hr) as (H1 & _).
  rewrite (filter_perm_length _ _ _ (Hord _)) in H1.
  pose proof (nonzeros_count gram_mat eq_refl (fun i j _ _ => gram_sym B i j)) as E.
  rewrite <- E in H1. rewrite H1, Nat.ltb_irrefl, Nat.eqb_refl. simpl. eauto.
Qed.

End Adj.

(** ** Re-orientation *)

Lemma diag_right A n d : m_c A = n -> forall i j, j < n ->
  sumZ n (fun k => (m_at A i k * m_at (diag_mat n d) k j)%Z) = (m_at A i j * d j)%Z.
Proof.
  intros <- i j Hj. rewrite (sumZ_single _ j); auto.
  - simpl. rewrite Nat.eqb_refl. auto.
  - intros k _ Hk. simpl. apply Nat.eqb_neq in Hk. rewrite Hk. lia.
Qed.
Lemma diag_left A n d : m_r A = n -> forall i j, i < n ->
  sumZ n (fun k => (m_at (diag_mat n d) i k * m_at A k j)%Z) = (d i * m_at A i j)%Z.
Proof.
  intros <- i j Hj. rewrite (sumZ_single _ i); auto.
  - simpl. rewrite Nat.eqb_refl. auto.
  - intros k _ Hk. simpl. apply not_eq_sym, Nat.eqb_neq in Hk. rewrite Hk. lia.
Qed.

(** [B'] is [B] with column [i] multiplied by [d i]. *)
Definition rescaled (d : nat -> Z) (B B' : mat) : Prop :=
  m_r B' = m_r B /\ m_c B' = m_c B /\
  forall k i, i < m_c B -> m_at B' k i = (m_at B k i * d i)%Z.

Lemma gram_rescaled d B B' i j : rescaled d B B' -> i < m_c B -> j < m_c B ->
  gram B' i j = (d i * d j * gram B i j)%Z.
Proof.
  intros (Hr & Hc & H) Hi Hj. unfold gram. rewrite Hr, <- sumZ_mul. apply sumZ_ext.
  intros k _. rewrite !H by auto. lia.
Qed.

Lemma signed_adjacency_rescaled d B B' adj sg adj' sg' : signs d -> rescaled d B B' ->
  signed_adjacency B adj sg -> signed_adjacency B' adj' sg' ->
  forall i j s, In (i, j, s) (combine adj' sg') <-> In (i, j, (d i * d j * s)%Z) (combine adj sg).
Proof.
  intros Hd HR (_ & _ & H) (_ & _ & H') i j s. rewrite H, H'. pose proof HR as (_ & Hc & _).
  rewrite Hc. split.
  - intros (Hi & Hj & Hne & Hg & ->). rewrite (gram_rescaled d B B' i j HR Hi Hj) in *.
    repeat split; auto.
    + intros E. apply Hg. rewrite E. lia.
    + rewrite !Z.sgn_mul. destruct (Hd i) as [-> | ->], (Hd j) as [-> | ->]; cbn [Z.sgn]; lia.
  - intros (Hi & Hj & Hne & Hg & E). rewrite (gram_rescaled d B B' i j HR Hi Hj) in *.
    repeat split; auto.
    + destruct (Hd i) as [-> | ->], (Hd j) as [-> | ->]; lia.
    + rewrite !Z.sgn_mul, <- E. destruct (Hd i) as [-> | ->], (Hd j) as [-> | ->]; cbn [Z.sgn]; lia.
Qed.

(** ** The adjacencies of boundary pairs *)

(** No two triangles have the same corners. *)
Definition distinct_tris (ts : list tri) : Prop :=
  forall k k' t t', nth_error ts k = Some t -> nth_error ts k' = Some t' ->
    (forall v, In v (verts t) <-> In v (verts t')) -> k = k'.

Section Grams.
Variables (R : nat -> nat -> Prop) (ts : list tri) (B1 B2 : mat).
Hypothesis BP : boundary_pair R ts B1 B2.

Lemma gram_B1 e e' a b a' b' : e < m_c B1 -> e' < m_c B1 -> e <> e' ->
  edge_col B1 e a b -> edge_col B1 e' a' b' ->
  gram B1 e e' = (ind b b' - ind b a' - ind a b' + ind a a')%Z /\ (a <> a' \/ b <> b').
Proof.
  intros He He' Hne H H'. pose proof H as (Hab & Hb & Hc). pose proof H' as (Hab' & Hb' & Hc'). split.
  - unfold gram. rewrite (sumZ_ext _ _ (fun k => (ind b' k * (ind b k - ind a k) - ind a' k * (ind b k - ind a k))%Z)).
    + rewrite sumZ_sub, !sumZ_ind by lia. lia.
    + intros k _. rewrite Hc, Hc'. lia.
  - destruct (Nat.eq_dec a a') as [<-|]; auto. destruct (Nat.eq_dec b b') as [<-|]; auto. exfalso.
    destruct (bp_cols _ _ _ _ BP e He) as (x & y & HR & Hcx).
    destruct (edge_col_inj _ _ _ _ _ _ H Hcx) as [<- <-].
    destruct (bp_each _ _ _ _ BP a b HR Hab) as (e0 & _ & _ & Hu).
    apply Hne. rewrite (Hu e He H), (Hu e' He' H'). auto.
Qed.

Lemma gram_B1_bound e e' : e < m_c B1 -> e' < m_c B1 -> e <> e' -> (-1 <= gram B1 e e' <= 1)%Z.
Proof.
  intros He He' Hne. destruct (bp_cols _ _ _ _ BP e He) as (a & b & _ & H).
  destruct (bp_cols _ _ _ _ BP e' He') as (a' & b' & _ & H').
  destruct (gram_B1 e e' a b a' b' He He' Hne H H') as (-> & Hd).
  destruct H as (? & _), H' as (? & _). unfold ind. nateqb; lia.
Qed.

(** Two different edges are lower adjacent exactly when they share a node. *)
Lemma gram_B1_share e e' a b a' b' : e < m_c B1 -> e' < m_c B1 -> e <> e' ->
  edge_col B1 e a b -> edge_col B1 e' a' b' ->
  (gram B1 e e' <> 0%Z <-> exists v, (v = a \/ v = b) /\ (v = a' \/ v = b')).
Proof.
  intros He He' Hne H H'. destruct (gram_B1 e e' a b a' b' He He' Hne H H') as (-> & Hd).
  destruct H as (? & _), H' as (? & _). split.
  - intros Hg. unfold ind in Hg. nateqb; try lia; subst; eauto.
  - intros (v & [-> | ->] & [E|E]); subst; unfold ind; nateqb; lia.
Qed.

Definition tri_has_edge (t : tri) (a b : nat) : Prop := In a (verts t) /\ In b (verts t).

Lemma runs_in t a b : proper t -> a < b -> (runs t a b <> 0%Z <-> tri_has_edge t a b).
Proof.
  destruct t as [[p q] r]. intros (H1 & H2 & H3) Hab. unfold tri_has_edge. cbn [verts In].
  destruct (runs_cases p q r a b) as [[Hc E]|[Hc E]]; auto.
  - split; [intros _; destruct Hc as [[]|[[]|[[]|[[]|[[]|[]]]]]]; subst; auto|intros _ E0; rewrite E0 in E; discriminate E].
  - rewrite E. split; [congruence|]. intros [Ha Hb]. exfalso. apply Hc.
    destruct Ha as [<-|[<-|[<-|[]]]], Hb as [<-|[<-|[<-|[]]]]; try lia; auto.
Qed.

Lemma runs_bound t a b : proper t -> a < b -> (-1 <= runs t a b <= 1)%Z.
Proof.
  destruct t as [[p q] r]. intros (H1 & H2 & H3) Hab.
  destruct (runs_cases p q r a b) as [[Hc E]|[Hc E]]; auto; lia.
Qed.

Lemma verts_three t x y z v : In x (verts t) -> In y (verts t) -> In z (verts t) ->
  x <> y -> y <> z -> x <> z -> (In v (verts t) <-> v = x \/ v = y \/ v = z).
Proof.
  destruct t as [[p q] r]. cbn [verts In].
  intros [<-|[<-|[<-|[]]]] [<-|[<-|[<-|[]]]] [<-|[<-|[<-|[]]]] Nxy Nyz Nxz; try congruence;
    (split; [intros [<-|[<-|[<-|[]]]]|intros [->|[->| ->]]]; auto).
Qed.

(** A triangle is determined by two of its sides. *)
Lemma two_edges_determine t t' a b a' b' : a < b -> a' < b' ->
  (a <> a' \/ b <> b') ->
  tri_has_edge t a b -> tri_has_edge t a' b' -> tri_has_edge t' a b -> tri_has_edge t' a' b' ->
  forall v, In v (verts t) <-> In v (verts t').
Proof.
  intros Hab Hab' Hd [H1 H2] [H3 H4] [H5 H6] [H7 H8] v.
  assert (G : exists c, c <> a /\ c <> b /\ In c (verts t) /\ In c (verts t')).
  { destruct (Nat.eq_dec a' a) as [E1|], (Nat.eq_dec a' b) as [E2|],
      (Nat.eq_dec b' a) as [E3|], (Nat.eq_dec b' b) as [E4|]; try lia;
      first [exists a'; repeat split; auto; lia | exists b'; repeat split; auto; lia]. }
  destruct G as (c & Na & Nb & Hc & Hc').
  rewrite (verts_three t a b c v), (verts_three t' a b c v); auto; try tauto; lia.
Qed.

Hypothesis Hdist : distinct_tris ts.

Lemma gram_B2 e e' a b a' b' : e < m_c B1 -> e' < m_c B1 -> e <> e' ->
  edge_col B1 e a b -> edge_col B1 e' a' b' ->
  (gram (mtr B2) e e' = 0%Z /\ forall t, In t ts -> ~ (tri_has_edge t a b /\ tri_has_edge t a' b')) \/
  (exists t, In t ts /\ tri_has_edge t a b /\ tri_has_edge t a' b' /\
     gram (mtr B2) e e' = (runs t a b * runs t a' b')%Z /\ gram (mtr B2) e e' <> 0%Z).
Proof.
  intros He He' Hne H H'. pose proof H as (Hab & _). pose proof H' as (Hab' & _).
  destruct (gram_B1 e e' a b a' b' He He' Hne H H') as (_ & Hd).
  unfold gram. simpl. rewrite (bp_tris _ _ _ _ BP).
  rewrite (sumZ_ext _ _ (fun k => match nth_error ts k with Some t => (runs t a b * runs t a' b')%Z | None => 0%Z end)).
  2:{ intros k Hk. destruct (nth_error ts k) as [t|] eqn:E; [|apply nth_error_None in E; lia].
      rewrite (bp_runs _ _ _ _ BP e a b k t He H E), (bp_runs _ _ _ _ BP e' a' b' k t He' H' E). auto. }
  assert (Hz : forall t, In t ts -> (runs t a b * runs t a' b' <> 0)%Z <-> tri_has_edge t a b /\ tri_has_edge t a' b').
  { intros t Ht. pose proof (bp_proper _ _ _ _ BP t Ht) as Hp.
    rewrite <- (runs_in t a b Hp Hab), <- (runs_in t a' b' Hp Hab'). nia. }
  assert (Hcase : (exists k t, nth_error ts k = Some t /\ tri_has_edge t a b /\ tri_has_edge t a' b') \/
                  forall t, In t ts -> ~ (tri_has_edge t a b /\ tri_has_edge t a' b')).
  { clear - Hz. assert (G : forall l, (exists k t, nth_error l k = Some t /\ tri_has_edge t a b /\ tri_has_edge t a' b') \/
                  forall t, In t l -> ~ (tri_has_edge t a b /\ tri_has_edge t a' b')).
    { induction l as [|t l IH]; [right; intros t []|].
      assert (Hdec : (tri_has_edge t a b /\ tri_has_edge t a' b') \/ ~ (tri_has_edge t a b /\ tri_has_edge t a' b')).
      { unfold tri_has_edge.
        destruct (in_dec Nat.eq_dec a (verts t)), (in_dec Nat.eq_dec b (verts t)),
          (in_dec Nat.eq_dec a' (verts t)), (in_dec Nat.eq_dec b' (verts t)); tauto. }
      destruct Hdec as [?|Hno]; [left; exists 0, t; auto|].
      destruct IH as [(k & t' & ? & ?)|Hall]; [left; exists (S k), t'; auto|].
      right. intros t' [<-|?]; auto. }
    apply G. }
  destruct Hcase as [(k & t & Hk & H1 & H2)|Hno].
  - right. exists t. pose proof (nth_error_In _ _ Hk) as Ht. split; auto. split; auto. split; auto.
    rewrite (sumZ_single _ k).
    + rewrite Hk. split; auto. apply Hz; auto.
    + apply nth_error_Some. congruence.
    + intros k' _ Hk'. destruct (nth_error ts k') as [t'|] eqn:E'; auto.
      destruct (Z.eq_dec (runs t' a b * runs t' a' b') 0) as [|Hnz]; auto. exfalso.
      pose proof (nth_error_In _ _ E') as Ht'. apply Hz in Hnz as (H3 & H4); auto.
      apply Hk'. apply (Hdist k' k t' t E' Hk). intros v.
      apply (two_edges_determine t' t a b a' b'); auto.
  - left. split; auto. apply sumZ_zero. intros k _. destruct (nth_error ts k) as [t|] eqn:E; auto.
    apply nth_error_In in E. destruct (Z.eq_dec (runs t a b * runs t a' b') 0) as [|Hnz]; auto.
    exfalso. apply Hz in Hnz; auto. eapply Hno; eauto.
Qed.

Lemma gram_B2_bound e e' : e < m_c B1 -> e' < m_c B1 -> e <> e' -> (-1 <= gram (mtr B2) e e' <= 1)%Z.
Proof.
  intros He He' Hne. destruct (bp_cols _ _ _ _ BP e He) as (a & b & _ & H).
  destruct (bp_cols _ _ _ _ BP e' He') as (a' & b' & _ & H').
  destruct (gram_B2 e e' a b a' b' He He' Hne H H') as [[-> _]|(t & Ht & _ & _ & -> & _)]; [lia|].
  pose proof (bp_proper _ _ _ _ BP t Ht) as Hp. destruct H as (? & _), H' as (? & _).
  pose proof (runs_bound t a b Hp ltac:(auto)). pose proof (runs_bound t a' b' Hp ltac:(auto)). nia.
Qed.

Lemma gram_B2_share e e' a b a' b' : e < m_c B1 -> e' < m_c B1 -> e <> e' ->
  edge_col B1 e a b -> edge_col B1 e' a' b' ->
  (gram (mtr B2) e e' <> 0%Z <-> exists t, In t ts /\ tri_has_edge t a b /\ tri_has_edge t a' b').
Proof.
  intros He He' Hne H H'.
  destruct (gram_B2 e e' a b a' b' He He' Hne H H') as [[-> Hno]|(t & Ht & ? & ? & _ & Hnz)].
  - split; [congruence|]. intros (t & Ht & ? & ?). exfalso. eapply Hno; eauto.
  - split; eauto.
Qed.

End Grams.
