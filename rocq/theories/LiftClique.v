(** Lifting to clique complexes: the simplex tree, its tables and the features. *)
From Coq Require Import List Arith Lia ZArith Bool Permutation Sorted.
From Verif Require Import Base ScatterModel ScatterSpec ScatterProofs ComplexModel BatchSpec BatchSpec2 BatchProofs
  LiftModel LiftSpec LiftBase LiftProofs.
Import ListNotations.

(** ** Strictly increasing lists *)
Notation sorted := (StronglySorted lt).

Lemma sorted_cons a l : sorted (a :: l) <-> sorted l /\ forall x, In x l -> a < x.
Proof.
  split.
  - intros H. inversion H; subst. split; auto. rewrite Forall_forall in H3. auto.
  - intros [H1 H2]. constructor; auto. apply Forall_forall. auto.
Qed.
Lemma sorted_1 a : sorted [a].
Proof. constructor; [constructor|constructor]. Qed.
Lemma sorted_2 a b : a < b -> sorted [a; b].
Proof. intros H. apply sorted_cons. split; [apply sorted_1|]. intros x [<-|[]]; auto. Qed.
Lemma sorted_NoDup l : sorted l -> NoDup l.
Proof.
  induction l as [|a l IH]; intros H; constructor; apply sorted_cons in H as [H1 H2]; auto.
  intros H. apply H2 in H. lia.
Qed.
Lemma sorted_ext l l' : sorted l -> sorted l' -> same_set l l' -> l = l'.
Proof.
  revert l'; induction l as [|a l IH]; intros [|b l'] H H' HS; auto.
  - destruct (proj2 (HS b)); left; auto.
  - destruct (proj1 (HS a)); left; auto.
  - apply sorted_cons in H as [H1 H2], H' as [H3 H4].
    assert (a = b).
    { destruct (proj1 (HS a) (or_introl eq_refl)) as [E|E]; auto.
      destruct (proj2 (HS b) (or_introl eq_refl)) as [E'|E']; auto.
      apply H2 in E'. apply H4 in E. lia. }
    subst b. f_equal. apply IH; auto. intros v. split; intros Hv.
    + destruct (proj1 (HS v) (or_intror Hv)) as [E|E]; auto. subst v. apply H2 in Hv. lia.
    + destruct (proj2 (HS v) (or_intror Hv)) as [E|E]; auto. subst v. apply H4 in Hv. lia.
Qed.
Lemma sorted_increasing l : sorted l -> increasing l.
Proof.
  induction l as [|a l IH]; intros H i j x y Hi Hj Hlt.
  - destruct i; discriminate.
  - apply sorted_cons in H as [H1 H2]. destruct i as [|i], j as [|j]; simpl in *; try lia.
    + inversion Hi; subst. apply H2. eapply nth_error_In; eauto.
    + eapply (IH H1 i j); eauto. lia.
Qed.

Lemma sinsert_In a l x : In x (sinsert Nat.leb a l) <-> x = a \/ In x l.
Proof.
  split; intros H.
  - apply (Permutation_in _ (Permutation_sym (sinsert_perm Nat.leb a l))) in H. destruct H; auto.
  - apply (Permutation_in _ (sinsert_perm Nat.leb a l)). destruct H; [left|right]; auto.
Qed.
Lemma sort_In l x : In x (sort Nat.leb l) <-> In x l.
Proof.
  split; apply Permutation_in; [apply Permutation_sym|]; apply sort_perm.
Qed.
Lemma sort_sorted l : NoDup l -> sorted (sort Nat.leb l).
Proof.
  induction l as [|a l IH]; intros Hn; simpl; [constructor|]. inversion Hn; subst. specialize (IH H2).
  assert (Hna : ~ In a (sort Nat.leb l)) by (rewrite sort_In; auto).
  clear H1 H2 Hn. induction (sort Nat.leb l) as [|b s IHs]; simpl.
  - constructor; [constructor|constructor].
  - apply sorted_cons in IH as [H1 H2]. destruct (Nat.leb_spec a b).
    + apply sorted_cons. split; [apply sorted_cons; auto|].
      intros x [<-|Hx]; [|apply H2 in Hx; lia].
      assert (a <> b) by (intros ->; apply Hna; left; auto). lia.
    + apply sorted_cons. split.
      * apply IHs; auto. intros Hx; apply Hna; right; auto.
      * intros x Hx. apply sinsert_In in Hx as [->|Hx]; auto.
Qed.

(** ** Combinations *)
Lemma combs_0 {A} (l : list A) : combs 0 l = [[]].
Proof. destruct l; auto. Qed.
Lemma combs_long {A} k (l : list A) : length l < k -> combs k l = [].
Proof.
  revert k; induction l as [|a l IH]; intros [|k] H; simpl in *; try lia; auto.
  rewrite !IH by lia. auto.
Qed.
Lemma combs_all {A} (l : list A) : combs (length l) l = [l].
Proof. induction l as [|a l IH]; simpl; auto. rewrite IH, combs_long by lia. auto. Qed.
Lemma combs_length {A} (l : list A) : l <> [] -> length (combs (length l - 1) l) = length l.
Proof.
  induction l as [|a l IH]; [congruence|]. intros _. destruct l as [|b l]; [auto|].
  replace (length (a :: b :: l) - 1) with (S (length l)) by (simpl; lia).
  assert (E : combs (S (length l)) (a :: b :: l) = map (cons a) (combs (length l) (b :: l)) ++ combs (length (b :: l)) (b :: l)) by reflexivity.
  rewrite E, app_length, map_length, combs_all.
  replace (length l) with (length (b :: l) - 1) at 1 by (simpl; lia).
  rewrite IH by discriminate. simpl. lia.
Qed.

Lemma combs_sorted k l f : sorted l -> (In f (combs k l) <-> length f = k /\ incl f l /\ sorted f).
Proof.
  revert k f; induction l as [|a l IH]; intros k f Hs.
  - destruct k; simpl.
    + split; [intros [<-|[]]; repeat split; [intros x []|constructor]|]. intros (H & _). destruct f; [auto|discriminate].
    + split; [tauto|]. intros (H & H' & _). destruct f; [discriminate|]. destruct (H' n); left; auto.
  - pose proof Hs as Hs0. apply sorted_cons in Hs as [H1 H2]. destruct k; simpl.
    + split; [intros [<-|[]]; repeat split; [intros x []|constructor]|]. intros (H & _). destruct f; [auto|discriminate].
    + rewrite in_app_iff, in_map_iff, IH by auto. split.
      * intros [(g & <- & Hg)|(E1 & E2 & E3)].
        -- apply IH in Hg as (E1 & E2 & E3); auto. repeat split.
           ++ simpl. auto.
           ++ intros x [<-|Hx]; [left; auto|right; auto].
           ++ apply sorted_cons. auto.
        -- repeat split; auto. intros x Hx. right; auto.
      * intros (E1 & E2 & E3). destruct f as [|x g]; [discriminate|]. apply sorted_cons in E3 as [E3 E4].
        destruct (Nat.eq_dec x a) as [->|Hne].
        -- left. exists g. split; auto. apply IH; auto. repeat split; auto.
           intros y Hy. assert (a < y) by auto. destruct (E2 y (or_intror Hy)); [lia|auto].
        -- right. assert (Hx : In x l) by (destruct (E2 x (or_introl eq_refl)); [congruence|auto]).
           repeat split; auto; [|apply sorted_cons; auto].
           intros y [<-|Hy]; auto. assert (a < x) by auto. assert (x < y) by auto.
           destruct (E2 y (or_intror Hy)); [lia|auto].
Qed.
Lemma combs_NoDup {A} k (l : list A) : NoDup l -> NoDup (combs k l).
Proof.
  revert k; induction l as [|a l IH]; intros [|k] Hn; simpl; try (constructor; [simpl; tauto|constructor]); [constructor|].
  inversion Hn; subst. apply NoDup_app; auto.
  - apply NoDup_map_inj; auto. intros x y _ _ E. inversion E; auto.
  - intros f H H'. apply in_map_iff in H as (g & <- & _).
    assert (G : forall k (l : list A) f, In f (combs k l) -> incl f l).
    { clear. intros k l; revert k; induction l as [|a l IH]; intros [|k] f; simpl.
      - intros [<-|[]] x [].
      - tauto.
      - intros [<-|[]] x [].
      - rewrite in_app_iff, in_map_iff. intros [(g & <- & Hg)|Hf].
        + apply IH in Hg. intros x [<-|Hx]; [left; auto|right; auto].
        + apply IH in Hf. intros x Hx. right; auto. }
    apply G in H'. apply H1. apply H'. left; auto.
Qed.

(** ** The simplices inserted *)
Lemma add_new_In tree s x : In x (add_new tree s) <-> In x tree \/ (x = s /\ s <> []).
Proof.
  unfold add_new. destruct s as [|a s]; [split; [auto|intros [H|[_ H]]; [auto|congruence]]|].
  destruct (mem (a :: s) tree) eqn:E.
  - apply mem_In in E. split; auto. intros [H|[-> _]]; auto.
  - rewrite in_app_iff. simpl. split.
    + intros [H|[H|[]]]; auto. right. split; [auto|discriminate].
    + intros [H|[H _]]; auto.
Qed.
Lemma fold_add_In l tree x : In x (fold_left add_new l tree) <-> In x tree \/ (In x l /\ x <> []).
Proof.
  revert tree; induction l as [|s l IH]; intros tree; simpl; [tauto|].
  rewrite IH, add_new_In. intuition (subst; auto).
Qed.
Lemma insert_vertex tree v x : In x (st_insert tree [v]) <-> In x tree \/ x = [v].
Proof.
  unfold st_insert. rewrite fold_add_In. simpl. split.
  - intros [H|[[H|[H|[]]] Hn]]; subst; auto; congruence.
  - intros [H| ->]; auto. right. split; [auto|discriminate].
Qed.
Lemma insert_edge tree u v x : In x (st_insert tree [u; v]) <->
  In x tree \/ x = [u] \/ x = [v] \/ (u <> v /\ x = [Nat.min u v; Nat.max u v]).
Proof.
  unfold st_insert. rewrite fold_add_In.
  assert (E : In x (sublists (sort Nat.leb (nodup Nat.eq_dec [u; v]))) /\ x <> [] <->
              x = [u] \/ x = [v] \/ (u <> v /\ x = [Nat.min u v; Nat.max u v])).
  { simpl. destruct (Nat.eq_dec v u) as [<-|Hne].
    - simpl. split; [intros [[H|[H|[]]] Hn]; subst; auto; congruence|].
      intros [->|[->|[H _]]]; [split; [auto|discriminate]..|congruence].
    - simpl. destruct (Nat.leb_spec u v); simpl.
      + rewrite Nat.min_l, Nat.max_r by lia. split.
        * intros [[H'|[H'|[H'|[H'|[]]]]] Hn]; subst; auto; congruence.
        * intros [->|[->|[_ ->]]]; split; auto; discriminate.
      + rewrite Nat.min_r, Nat.max_l by lia. split.
        * intros [[H'|[H'|[H'|[H'|[]]]]] Hn]; subst; auto; congruence.
        * intros [->|[->|[_ ->]]]; split; auto; discriminate. }
  rewrite E. tauto.
Qed.

Lemma tree_In edges size x : In x (pyg_to_simplex_tree edges size) <->
  (exists v, x = [v] /\ (v < size \/ exists u, In (u, v) edges \/ In (v, u) edges)) \/
  (exists u v, u < v /\ adjacent edges u v /\ x = [u; v]).
Proof.
  unfold pyg_to_simplex_tree.
  assert (G1 : forall l tree, In x (fold_left st_insert (map (fun v => [v]) l) tree) <->
             In x tree \/ exists v, In v l /\ x = [v]).
  { induction l as [|v l IH]; intros tree; simpl.
    - split; [auto|intros [H|(v & [] & _)]; auto].
    - rewrite IH, insert_vertex. split.
      + intros [[H|H]|(w & Hw & H)]; eauto.
      + intros [H|(w & [<-|Hw] & H)]; eauto. }
  assert (G2 : forall l tree, In x (fold_left st_insert (map (fun e => [fst e; snd e]) l) tree) <->
             In x tree \/ exists u v, In (u, v) l /\ (x = [u] \/ x = [v] \/ (u <> v /\ x = [Nat.min u v; Nat.max u v]))).
  { induction l as [|[u v] l IH]; intros tree; cbn [map fold_left fst snd].
    - split; [auto|intros [H|(u & v & [] & _)]; auto].
    - rewrite IH, insert_edge. split.
      + intros [[H|H]|(a & b & Hw & H)]; auto.
        * right. exists u, v. split; [left; auto|auto].
        * right. exists a, b. split; [right; auto|auto].
      + intros [H|(a & b & [E|Hw] & H)]; auto.
        * inversion E; subst. auto.
        * right. exists a, b. auto. }
  rewrite G2, G1. simpl. split.
  - intros [[[]|(v & Hv & ->)]|(u & v & He & H)].
    + left. exists v. apply in_seq in Hv. split; auto. left; lia.
    + destruct H as [->|[->|[Hne ->]]].
      * left. exists u. split; eauto.
      * left. exists v. split; eauto.
      * right. exists (Nat.min u v), (Nat.max u v). split; [lia|]. split; auto. unfold adjacent. split; [lia|].
        destruct (Nat.le_ge_cases u v).
        -- rewrite Nat.min_l, Nat.max_r by lia. auto.
        -- rewrite Nat.min_r, Nat.max_l by lia. auto.
  - intros [(v & -> & [Hv|(u & [He|He])])|(u & v & Hlt & [Hne [He|He]] & ->)].
    + left. right. exists v. split; auto. apply in_seq. lia.
    + right. exists u, v. auto.
    + right. exists v, u. auto.
    + right. exists u, v. split; auto. right; right. split; auto. rewrite Nat.min_l, Nat.max_r by lia. auto.
    + right. exists v, u. split; auto. right; right. split; auto. rewrite Nat.min_r, Nat.max_l by lia. auto.
Qed.

(** ** Expansion *)
Section Expansion.
Variable tree : list cell.
Hypothesis tree_ok : forall u v, In [u; v] tree -> u < v /\ In [u] tree /\ In [v] tree.

(** Increasing lists of [j] vertices with all edges in the tree. *)
Definition flag (j : nat) (s : cell) : Prop :=
  length s = j /\ sorted s /\ (forall v, In v s -> In [v] tree) /\
  forall u v, In u s -> In v s -> u < v -> In [u; v] tree.

Lemma vertices_In v : In v (concat (filter (fun t => length t =? 1) tree)) <-> In [v] tree.
Proof.
  rewrite in_concat. split.
  - intros (t & Ht & Hv). apply filter_In in Ht as [Ht E]. apply Nat.eqb_eq in E.
    destruct t as [|w [|z t]]; try discriminate. destruct Hv as [->|[]]. auto.
  - intros H. exists [v]. split; [apply filter_In; auto|left; auto].
Qed.

Lemma extend_flag j l : 1 <= j -> (forall s, In s l <-> flag j s) ->
  forall s, In s (flat_map (extend tree) l) <-> flag (S j) s.
Proof.
  intros Hj Hl s. rewrite in_flat_map. split.
  - intros (t & Ht & Hs). apply Hl in Ht as (L1 & L2 & L3 & L4). unfold extend in Hs.
    apply in_map_iff in Hs as (v & <- & Hv). apply filter_In in Hv as [Hv HF].
    apply vertices_In in Hv. rewrite forallb_forall in HF.
    assert (HF' : forall u, In u t -> v < u /\ In [v; u] tree).
    { intros u Hu. apply HF in Hu. apply andb_true_iff in Hu as [E1 E2]. apply Nat.ltb_lt in E1. apply mem_In in E2. auto. }
    split; [simpl; auto|]. split; [|split].
    + apply sorted_cons. split; auto. intros x Hx. apply HF'; auto.
    + intros x [<-|Hx]; auto.
    + intros a b [<-|Ha] [<-|Hb] Hab; try lia; auto; try (apply HF'; auto).
      apply HF' in Ha. lia.
  - intros (L1 & L2 & L3 & L4). destruct s as [|v t]; [discriminate|]. simpl in L1.
    apply sorted_cons in L2 as [L2 L5]. exists t. split.
    + apply Hl. split; [lia|]. split; auto. split.
      * intros x Hx. apply L3; right; auto.
      * intros a b Ha Hb. apply L4; right; auto.
    + unfold extend. apply in_map_iff. exists v. split; auto. apply filter_In. split.
      * apply vertices_In. apply L3; left; auto.
      * apply forallb_forall. intros u Hu. apply andb_true_iff. split; [apply Nat.ltb_lt; auto|].
        apply mem_In. apply L4; [left; auto|right; auto|auto].
Qed.

Lemma levels_In k j l s : 1 <= j -> (forall s, In s l <-> flag j s) ->
  (In s (levels tree l k) <-> exists i, j < i <= j + k /\ flag i s).
Proof.
  revert j l; induction k as [|k IH]; intros j l Hj Hl; simpl.
  - split; [tauto|]. intros (i & H & _). lia.
  - pose proof (extend_flag j l Hj Hl) as HE. rewrite in_app_iff, (IH (S j)) by (auto; lia). rewrite HE. split.
    + intros [H|(i & H1 & H2)]; [exists (S j); split; [lia|auto]|exists i; split; [lia|auto]].
    + intros (i & H1 & H2). destruct (Nat.eq_dec i (S j)) as [->|]; [auto|right; exists i; split; [lia|auto]].
Qed.

Lemma level2 s : In s (filter (fun t => length t =? 2) tree) <-> flag 2 s.
Proof.
  rewrite filter_In, Nat.eqb_eq. split.
  - intros [H1 H2]. destruct s as [|u [|v [|w s]]]; try discriminate. pose proof (tree_ok u v H1) as (L & U1 & U2).
    split; auto. split; [|split].
    + apply sorted_2; auto.
    + intros x [<-|[<-|[]]]; auto.
    + intros a b [<-|[<-|[]]] [<-|[<-|[]]] Hab; try lia; auto.
  - intros (L1 & L2 & L3 & L4). split; auto. destruct s as [|u [|v [|w s]]]; try discriminate.
    apply sorted_cons in L2 as [_ L2]. apply L4; [left; auto|right; left; auto|]. apply L2; left; auto.
Qed.

Lemma expansion_In k s : In s (expansion k tree) <-> In s tree \/ exists i, 2 < i <= k + 1 /\ flag i s.
Proof.
  unfold expansion. rewrite in_app_iff, (levels_In (k - 1) 2) by (auto using level2).
  split; (intros [H|(i & H1 & H2)]; [auto|right; exists i; split; [lia|auto]]).
Qed.
End Expansion.

(** The simplices of the clique complex. *)
Lemma clique_simplices edges size k s : graph_ok edges size ->
  (In s (expansion k (pyg_to_simplex_tree edges size)) <->
   clique edges size s /\ sorted s /\ length s <= Nat.max 2 (k + 1)).
Proof.
  intros HG. set (tree := pyg_to_simplex_tree edges size).
  assert (V1 : forall v, In [v] tree <-> v < size).
  { intros v. unfold tree. rewrite tree_In. split.
    - intros [(w & E & H)|(u & w & _ & _ & E)]; [|discriminate]. inversion E; subst w.
      destruct H as [H|(u & [H|H])]; auto; apply HG in H; tauto.
    - intros H. left. exists v. auto. }
  assert (V2 : forall u v, In [u; v] tree <-> u < v /\ adjacent edges u v).
  { intros u v. unfold tree. rewrite tree_In. split.
    - intros [(w & E & H)|(a & b & H1 & H2 & E)]; [discriminate|]. inversion E; subst. auto.
    - intros [H1 H2]. right. exists u, v. auto. }
  assert (Hadj : forall u v, adjacent edges u v -> u < size /\ v < size).
  { intros u v [_ [H|H]]; apply HG in H; tauto. }
  assert (Hok : forall u v, In [u; v] tree -> u < v /\ In [u] tree /\ In [v] tree).
  { intros u v H. apply V2 in H as [H1 H2]. rewrite !V1. pose proof (Hadj _ _ H2). tauto. }
  rewrite (expansion_In tree Hok). split.
  - intros [H|(i & Hi & L1 & L2 & L3 & L4)].
    + apply tree_In in H. destruct H as [(v & -> & Hv)|(u & v & Hlt & Ha & ->)].
      * assert (Hv' : v < size) by (destruct Hv as [H|(u & [H|H])]; auto; apply HG in H; tauto).
        split; [|split; [apply sorted_1|cbn [length]; lia]].
        split; [discriminate|]. split; [repeat constructor; simpl; tauto|]. split.
        -- intros x [<-|[]]; auto.
        -- intros a b [<-|[]] [<-|[]]; congruence.
      * pose proof (Hadj _ _ Ha) as [A1 A2].
        assert (HS : sorted [u; v]).
        { apply sorted_2; auto. }
        split; [|split; [auto|cbn [length]; lia]].
        split; [discriminate|]. split; [apply sorted_NoDup; auto|]. split.
        -- intros x [<-|[<-|[]]]; auto.
        -- intros a b [<-|[<-|[]]] [<-|[<-|[]]] Hne; try congruence; auto.
           destruct Ha as [N1 N2]. split; [auto|tauto].
    + split; [|split; [auto|lia]]. split; [destruct s; [simpl in L1; lia|discriminate]|].
      split; [apply sorted_NoDup; auto|]. split; [intros v Hv; apply V1; auto|].
      intros u v Hu Hv Hne. destruct (Nat.lt_total u v) as [H|[H|H]]; [|congruence|].
      * apply V2. auto.
      * destruct (proj1 (V2 v u)) as [_ [N1 N2]]; [apply L4; auto|]. split; [auto|tauto].
  - intros ((C1 & C2 & C3 & C4) & HS & HL). destruct s as [|u [|v s]]; [congruence| |].
    + left. apply V1. apply C3; left; auto.
    + destruct s as [|w s].
      * left. apply V2. apply sorted_cons in HS as [_ HS]. specialize (HS v (or_introl eq_refl)). split; auto.
        apply C4; [left; auto|right; left; auto|lia].
      * right. exists (length (u :: v :: w :: s)). split; [cbn [length] in *; lia|]. split; auto. split; auto. split.
        -- intros x Hx. apply V1. auto.
        -- intros a b Ha Hb Hab. apply V2. split; auto. apply C4; auto. lia.
Qed.
