(** Proofs about the TU text format. *)
From Coq Require Import List Arith ZArith Bool Lia Permutation.
From Verif Require Import Base RingModel TUModel TUSpec.
Import ListNotations.

(** ** Lines *)
Lemma mapM_ints l : mapM int_of (map (fun v => TInt (Z.of_nat v)) l) = Ok (map Z.of_nat l).
Proof. induction l as [|v l IH]; simpl; auto. rewrite IH. reflexivity. Qed.
Lemma parse_node nd : parse_row (node_words nd) =
  Ok (n_tag nd :: Z.of_nat (length (n_nbrs nd)) :: map Z.of_nat (n_nbrs nd)).
Proof.
  unfold parse_row, node_words. unfold get. cbn [nth_error of_option bind int_of].
  set (k := length (n_nbrs nd)). set (w := map (fun v => TInt (Z.of_nat v)) (n_nbrs nd)).
  assert (Hw : length w = k) by (unfold w; rewrite map_length; auto).
  assert (M : mapM int_of (TInt (n_tag nd) :: TInt (Z.of_nat k) :: w) =
    Ok (n_tag nd :: Z.of_nat k :: map Z.of_nat (n_nbrs nd))).
  { cbn [mapM int_of bind]. unfold w. rewrite mapM_ints. reflexivity. }
  destruct (Z.eqb_spec (Z.of_nat k + 2) (Z.of_nat (length (TInt (n_tag nd) :: TInt (Z.of_nat k) :: w ++ n_attrs nd)))) as [E|E].
  - cbn [length] in E. rewrite app_length, Hw in E. destruct (n_attrs nd); [rewrite app_nil_r; exact M|simpl in E; lia].
  - unfold upto. replace (Z.of_nat k + 2 <? 0)%Z with false by (symmetry; apply Z.ltb_ge; lia).
    replace (Z.to_nat (Z.of_nat k + 2)) with (S (S (length w))) by lia.
    cbn [firstn]. rewrite firstn_app, Nat.sub_diag. simpl firstn at 2. rewrite app_nil_r, firstn_all. exact M.
Qed.

(** ** networkx graphs *)
Lemma mem_In v l : mem v l = true <-> In v l.
Proof.
  unfold mem. rewrite existsb_exists. split.
  - intros (x & H & E). apply Z.eqb_eq in E. subst; auto.
  - intros H. exists v. rewrite Z.eqb_refl. auto.
Qed.
Lemma mem_false v l : mem v l = false <-> ~ In v l.
Proof. rewrite <- mem_In. destruct (mem v l); split; congruence. Qed.

Lemma NoDup_snoc {A} (l : list A) a : NoDup l -> ~ In a l -> NoDup (l ++ [a]).
Proof.
  intros H N. induction H as [|b l Hb H IH]; simpl; [repeat constructor; auto|].
  constructor.
  - rewrite in_app_iff. simpl. intros [X|[X|[]]]; auto. subst. apply N. left; auto.
  - apply IH. intros X. apply N. right; auto.
Qed.

Record nx_ok (g : nxg) (N : Z -> Prop) (R : Z -> Z -> Prop) : Prop := {
  nx_keys : NoDup (map fst g);
  nx_nodes : forall u, In u (map fst g) <-> N u;
  nx_nbrs : forall u nb, In (u, nb) g -> NoDup nb /\ forall v, In v nb <-> R u v;
  nx_rel : forall u v, R u v -> N u
}.

Lemma nx_equiv g N R (N' : Z -> Prop) (R' : Z -> Z -> Prop) : nx_ok g N R ->
  (forall u, N u <-> N' u) -> (forall u v, R u v <-> R' u v) -> nx_ok g N' R'.
Proof.
  intros [H1 H2 H3 H4] EN ER. split; auto.
  - intros u. rewrite H2. auto.
  - intros u nb H. destruct (H3 u nb H) as [A B]. split; auto. intros v. rewrite B. auto.
  - intros u v H. apply EN. apply (H4 u v). apply ER. auto.
Qed.

Lemma add_node_ok g N R u : nx_ok g N R -> nx_ok (add_node g u) (fun x => N x \/ x = u) R.
Proof.
  intros [H1 H2 H3 H4]. unfold add_node, has_node. destruct (mem u (map fst g)) eqn:M.
  - apply mem_In in M. apply H2 in M. split; auto.
    + intros x. rewrite H2. split; auto. intros [A| ->]; auto.
    + intros x v H. left. eauto.
  - apply mem_false in M. split.
    + rewrite map_app. simpl. apply NoDup_snoc; auto.
    + intros x. rewrite map_app, in_app_iff, H2. simpl. intuition.
    + intros x nb H. apply in_app_iff in H as [H|[H|[]]]; auto. inversion H; subst. split; [constructor|].
      intros v. simpl. split; [tauto|]. intros A. apply M. apply H2. eauto.
    + intros x v H. left. eauto.
Qed.

Lemma add_nbr_keys g u v : map fst (add_nbr g u v) = map fst g.
Proof. unfold add_nbr. rewrite map_map. apply map_ext. intros [a nb]. simpl. destruct (a =? u)%Z; auto. Qed.

(** One direction of an edge. *)
Lemma add_nbr_ok g N R u v : nx_ok g N R -> N u ->
  nx_ok (add_nbr g u v) N (fun a b => R a b \/ (a = u /\ b = v)).
Proof.
  intros [H1 H2 H3 H4] Hu. split.
  - rewrite add_nbr_keys. auto.
  - intros a. rewrite add_nbr_keys. auto.
  - intros a nb H. unfold add_nbr in H. apply in_map_iff in H as ([a0 nb0] & E & Hin). simpl in E.
    destruct (H3 _ _ Hin) as [A B]. destruct (Z.eqb_spec a0 u) as [->|Ne]; inversion E; subst; clear E.
    + destruct (mem v nb0) eqn:M.
      * apply mem_In in M. split; auto. intros b. rewrite B. split; auto. intros [X|[_ ->]]; auto. apply B. auto.
      * apply mem_false in M. split; [apply NoDup_snoc; auto|]. intros b. rewrite in_app_iff, B. simpl. intuition.
    + split; auto. intros b. rewrite B. intuition.
  - intros a b [H|[-> ->]]; eauto.
Qed.

Lemma add_edge_ok g N R u v : nx_ok g N R ->
  nx_ok (add_edge g u v) (fun x => N x \/ x = u \/ x = v)
    (fun a b => R a b \/ (a = u /\ b = v) \/ (a = v /\ b = u)).
Proof.
  intros H. unfold add_edge.
  pose proof (add_node_ok _ _ _ v (add_node_ok _ _ _ u H)) as H1.
  pose proof (add_nbr_ok _ _ _ u v H1 ltac:(cbv beta; tauto)) as H2.
  pose proof (add_nbr_ok _ _ _ v u H2 ltac:(cbv beta; tauto)) as H3.
  eapply nx_equiv; [exact H3| |]; intros; cbv beta; tauto.
Qed.

Lemma add_edges_ok u vs : forall g N R, nx_ok g N R ->
  nx_ok (fold_left (fun g v => add_edge g u v) vs g) (fun x => N x \/ (vs <> [] /\ x = u) \/ In x vs)
    (fun a b => R a b \/ (a = u /\ In b vs) \/ (b = u /\ In a vs)).
Proof.
  induction vs as [|v vs IH]; intros g N R H.
  - simpl. eapply nx_equiv; [exact H| |]; intros; simpl; tauto.
  - simpl fold_left. pose proof (IH _ _ _ (add_edge_ok _ _ _ u v H)) as H'.
    eapply nx_equiv; [exact H'| |].
    + intros x. simpl. split; intros X.
      * destruct X as [[X|[X|X]]|[[_ X]|X]]; subst; auto; try (right; left; split; [discriminate|auto]; fail); auto.
      * destruct X as [X|[[_ X]|[X|X]]]; subst; auto.
    + intros a b. simpl. split; intros X.
      * destruct X as [[X|[[-> ->]|[-> ->]]]|[[-> X]|[-> X]]]; auto 6.
      * destruct X as [X|[[-> [<-|X]]|[-> [<-|X]]]]; auto 6.
Qed.

(** *** Edges *)
Definition zocc (e : Z * Z) (es : list (Z * Z)) : nat :=
  length (filter (fun e' => ((fst e' =? fst e) && (snd e' =? snd e))%Z) es).
Lemma zocc_app e a b : zocc e (a ++ b) = zocc e a + zocc e b.
Proof. unfold zocc. rewrite filter_app, app_length. auto. Qed.
Lemma zocc_0 e es : ~ In e es -> zocc e es = 0.
Proof.
  intros H. unfold zocc. destruct (filter _ es) as [|e' r] eqn:E; auto. exfalso.
  assert (In e' (filter (fun e' => ((fst e' =? fst e) && (snd e' =? snd e))%Z) es)) by (rewrite E; left; auto).
  apply filter_In in H0 as [A B]. apply andb_true_iff in B as [B1 B2]. apply Z.eqb_eq in B1, B2.
  destruct e, e'; simpl in *; subst; auto.
Qed.
Lemma zocc_pair u nb v : NoDup nb -> zocc (u, v) (map (pair u) nb) = if mem v nb then 1 else 0.
Proof.
  intros H. induction H as [|w nb Hw H IH]; auto.
  unfold zocc in *. simpl in *. rewrite Z.eqb_refl in *. simpl.
  destruct (Z.eqb_spec w v) as [->|N].
  - rewrite Z.eqb_refl. simpl. rewrite IH. apply mem_false in Hw. rewrite Hw. auto.
  - destruct (Z.eqb_spec v w); [congruence|]. simpl. exact IH.
Qed.
Lemma edges_from_in g : forall seen u v, In (u, v) (edges_from seen g) -> exists nb, In (u, nb) g /\ In v nb /\ ~ In v seen.
Proof.
  induction g as [|[a nb] g IH]; intros seen u v H; [destruct H|]. simpl in H. apply in_app_iff in H as [H|H].
  - apply in_map_iff in H as (w & E & Hw). inversion E; subst. apply filter_In in Hw as [A B].
    exists nb. split; [left; auto|]. split; auto. apply negb_true_iff in B. apply mem_false in B. auto.
  - apply IH in H as (nb' & A & B & C). exists nb'. split; [right; auto|]. split; auto. intros X. apply C. right; auto.
Qed.

Lemma edges_from_occ g1 : forall seen u nb g2 v, NoDup (map fst (g1 ++ (u, nb) :: g2)) -> NoDup nb ->
  zocc (u, v) (edges_from seen (g1 ++ (u, nb) :: g2)) =
  if mem v nb && negb (mem v seen) && negb (mem v (map fst g1)) then 1 else 0.
Proof.
  induction g1 as [|[a na] g1 IH]; intros seen u nb g2 v HN Hnb.
  - simpl. rewrite zocc_app. rewrite zocc_pair by (apply NoDup_filter; auto).
    rewrite (zocc_0 _ (edges_from (u :: seen) g2)).
    + rewrite andb_true_r, Nat.add_0_r.
      destruct (mem v nb) eqn:M, (mem v seen) eqn:M'; simpl;
        match goal with |- (if mem v ?l then 1 else 0) = _ => destruct (mem v l) eqn:Q end; auto; exfalso.
      * apply mem_In, filter_In in Q as [_ Q]. rewrite M' in Q. discriminate.
      * apply mem_false in Q. apply Q. apply filter_In. rewrite M'. split; auto. apply mem_In; auto.
      * apply mem_In, filter_In in Q as [Q _]. apply mem_false in M. auto.
      * apply mem_In, filter_In in Q as [Q _]. apply mem_false in M. auto.
    + intros H. apply edges_from_in in H as (nb' & H & _). simpl in HN. inversion HN; subst.
      apply H2. apply in_map_iff. exists (u, nb'). auto.
  - simpl app. simpl edges_from. rewrite zocc_app. simpl in HN. inversion HN as [|? ? Ha HN']; subst.
    rewrite zocc_0.
    + rewrite IH by auto. simpl. rewrite !negb_orb. destruct (mem v nb), (v =? a)%Z, (mem v seen), (mem v (map fst g1)); auto.
    + intros H. apply in_map_iff in H as (w & E & _). inversion E; subst. apply Ha. rewrite map_app. simpl.
      apply in_app_iff. right. left. auto.
Qed.

Lemma in_split_pair (g : nxg) u : In u (map fst g) -> exists g1 nb g2, g = g1 ++ (u, nb) :: g2.
Proof. intros H. apply in_map_iff in H as ([a nb] & E & H). simpl in E. subst a. apply in_split in H as (g1 & g2 & ->). eauto. Qed.

Lemma nx_edges_in g N R u v : nx_ok g N R -> In (u, v) (nx_edges g) -> R u v.
Proof.
  intros H Hin. apply edges_from_in in Hin as (nb & A & B & _). apply (nx_nbrs _ _ _ H) in A as [_ A]. apply A. auto.
Qed.
Lemma nx_edges_loop g N R u : nx_ok g N R -> R u u -> zocc (u, u) (nx_edges g) = 1.
Proof.
  intros H HR. assert (Hu : In u (map fst g)) by (apply (nx_nodes _ _ _ H), (nx_rel _ _ _ H u u HR)).
  destruct (in_split_pair g u Hu) as (g1 & nb & g2 & ->). unfold nx_edges.
  assert (Hn : In (u, nb) (g1 ++ (u, nb) :: g2)) by (apply in_app_iff; right; left; auto).
  destruct (nx_nbrs _ _ _ H u nb Hn) as [Nn Hnn].
  rewrite edges_from_occ; [|apply (nx_keys _ _ _ H)|auto].
  replace (mem u nb) with true by (symmetry; apply mem_In, Hnn; auto).
  replace (mem u (map fst g1)) with false; auto. symmetry. apply mem_false.
  pose proof (nx_keys _ _ _ H) as K. rewrite map_app in K. simpl in K. apply NoDup_remove_2 in K.
  intros X. apply K. apply in_app_iff. auto.
Qed.
Lemma nx_edges_once g N (R : Z -> Z -> Prop) u v : nx_ok g N R -> (forall a b, R a b -> R b a) -> R u v -> u <> v ->
  zocc (u, v) (nx_edges g) + zocc (v, u) (nx_edges g) = 1.
Proof.
  intros H Sy HR Ne.
  assert (Hu : In u (map fst g)) by (apply (nx_nodes _ _ _ H), (nx_rel _ _ _ H u v HR)).
  assert (Hv : In v (map fst g)) by (apply (nx_nodes _ _ _ H), (nx_rel _ _ _ H v u (Sy _ _ HR))).
  assert (G : forall a b ga na gb, R a b -> a <> b -> g = ga ++ (a, na) :: gb -> In b (map fst gb) ->
    zocc (a, b) (nx_edges g) = 1 /\ zocc (b, a) (nx_edges g) = 0).
  { clear u v HR Ne Hu Hv. intros a b ga na gb HR Ne -> Hb. destruct (in_split_pair gb b Hb) as (gc & nb & gd & ->).
    pose proof (nx_keys _ _ _ H) as K.
    assert (Ha : In (a, na) (ga ++ (a, na) :: gc ++ (b, nb) :: gd)) by (apply in_app_iff; right; left; auto).
    assert (Hb' : In (b, nb) (ga ++ (a, na) :: gc ++ (b, nb) :: gd)) by (apply in_app_iff; right; right; apply in_app_iff; right; left; auto).
    destruct (nx_nbrs _ _ _ H _ _ Ha) as [Na Sa]. destruct (nx_nbrs _ _ _ H _ _ Hb') as [Nb Sb].
    split; unfold nx_edges.
    - rewrite edges_from_occ by auto. replace (mem b na) with true by (symmetry; apply mem_In, Sa; auto).
      replace (mem b (map fst ga)) with false; auto. symmetry. apply mem_false. intros X.
      change (ga ++ (a, na) :: gc ++ (b, nb) :: gd) with (ga ++ ((a, na) :: gc) ++ (b, nb) :: gd) in K.
      rewrite app_assoc, map_app in K. simpl map in K. apply NoDup_remove_2 in K. apply K.
      rewrite in_app_iff, map_app, in_app_iff. auto.
    - change (ga ++ (a, na) :: gc ++ (b, nb) :: gd) with (ga ++ ((a, na) :: gc) ++ (b, nb) :: gd) in *.
      rewrite app_assoc in *. rewrite edges_from_occ by auto.
      replace (mem a (map fst (ga ++ (a, na) :: gc))) with true; [rewrite andb_false_r; auto|].
      symmetry. apply mem_In. rewrite map_app. simpl. apply in_app_iff. right. left. auto. }
  destruct (in_split_pair g u Hu) as (g1 & nb & g2 & E). rewrite E, map_app in Hv. simpl in Hv. apply in_app_iff in Hv as [Hv|[Hv|Hv]].
  - apply in_split_pair in Hv as (ga & na & gb & ->).
    destruct (G v u ga na (gb ++ (u, nb) :: g2)) as [A B]; auto.
    + rewrite E, <- app_assoc. auto.
    + rewrite map_app. simpl. apply in_app_iff. right; left; auto.
    + rewrite A, B. auto.
  - congruence.
  - destruct (G u v g1 nb g2) as [A B]; auto. rewrite A, B. auto.
Qed.

(** ** Numbering *)
Lemma find_key_app d k n k' : find_key (d ++ [(k, n)]) k' =
  match find_key d k' with Some m => Some m | None => if (k =? k')%Z then Some n else None end.
Proof. induction d as [|[a m] d IH]; simpl; auto. destruct (a =? k')%Z; auto. Qed.

Record num_ok (raw : list Z) (nums : list nat) (d : dict) : Prop := {
  no_numbered : numbered raw nums (length d);
  no_find : forall k n, find_key d k = Some n <-> exists i, nth_error raw i = Some k /\ nth_error nums i = Some n
}.
Lemma num_ok_nil : num_ok [] [] [].
Proof.
  split.
  - split; auto; intros; try (destruct i; discriminate); try (simpl in *; lia).
  - intros k n. simpl. split; [discriminate|]. intros (i & H & _). destruct i; discriminate.
Qed.

Lemma nth_snoc {A} (l : list A) a i : nth_error (l ++ [a]) i =
  if i <? length l then nth_error l i else if i =? length l then Some a else None.
Proof.
  destruct (Nat.ltb_spec i (length l)); [apply nth_error_app1; auto|].
  rewrite nth_error_app2 by auto. destruct (Nat.eqb_spec i (length l)) as [->|N].
  - rewrite Nat.sub_diag. auto.
  - destruct (i - length l) as [|m] eqn:E; [lia|]. destruct m; auto.
Qed.

Lemma number_ok raw nums d k : num_ok raw nums d ->
  exists n, lookup_key (number d k) k = Ok n /\ num_ok (raw ++ [k]) (nums ++ [n]) (number d k).
Proof.
  intros [[HL HI HB HF HA] HK]. unfold number, lookup_key. destruct (find_key d k) as [n|] eqn:E.
  - rewrite E. exists n. split; auto.
    pose proof (proj1 (HK _ _) E) as (i0 & A0 & B0). split.
    + split.
      * rewrite !app_length. simpl. lia.
      * intros i j a b m m'. rewrite !nth_snoc, HL.
        destruct (Nat.ltb_spec i (length raw)), (Nat.ltb_spec j (length raw)); intros A B C D.
        -- eapply HI; eauto.
        -- destruct (j =? length raw); [|discriminate]. inversion B; inversion D; subst b m'. eapply HI; eauto.
        -- destruct (i =? length raw); [|discriminate]. inversion A; inversion C; subst a m. eapply HI; eauto.
        -- destruct (i =? length raw), (j =? length raw); try discriminate. inversion A; inversion B; inversion C; inversion D; subst. tauto.
      * intros i m. rewrite nth_snoc. destruct (i <? length nums); eauto. destruct (i =? length nums); [|discriminate].
        intros X; inversion X; subst. eapply HB; eauto.
      * intros i m m'. rewrite nth_snoc. destruct (Nat.ltb_spec i (length nums)).
        -- intros X Y. destruct (HF _ _ _ X Y) as (j & J & Hj). exists j. split; auto. rewrite nth_error_app1 by lia. auto.
        -- destruct (Nat.eqb_spec i (length nums)) as [->|]; [|discriminate]. intros X Y. inversion X; subst m.
           destruct (HF _ _ _ B0 Y) as (j & J & Hj). exists j. assert (j < length nums) by (apply nth_error_Some; congruence).
           split; auto. rewrite nth_error_app1 by lia. auto.
      * intros m Hm. apply in_app_iff. left. auto.
    + intros k' n'. rewrite HK. split.
      * intros (i & A & B). exists i. split; rewrite nth_error_app1; auto; apply nth_error_Some; congruence.
      * intros (i & A & B). rewrite nth_snoc in A. rewrite nth_snoc in B. rewrite HL in B. destruct (i <? length raw); eauto.
        destruct (i =? length raw); [|discriminate]. inversion A; inversion B; subst. eauto.
  - rewrite find_key_app, E, Z.eqb_refl. exists (length d). split; auto.
    assert (Fr : forall i a, nth_error raw i = Some a -> a <> k).
    { intros i a Hi ->. assert (Li : i < length nums) by (rewrite HL; apply nth_error_Some; congruence).
      destruct (nth_error nums i) as [m|] eqn:Em; [|apply nth_error_None in Em; lia].
      assert (find_key d k = Some m) by (apply HK; eauto). congruence. }
    split.
    + split.
      * rewrite !app_length. simpl. lia.
      * intros i j a b m m'. rewrite !nth_snoc, HL.
        destruct (Nat.ltb_spec i (length raw)), (Nat.ltb_spec j (length raw)); intros A B C D.
        -- eapply HI; eauto.
        -- destruct (j =? length raw); [|discriminate]. inversion B; inversion D; subst b m'.
           pose proof (HB _ _ C). split; intros X; [exfalso; eapply Fr; eauto|lia].
        -- destruct (i =? length raw); [|discriminate]. inversion A; inversion C; subst a m.
           pose proof (HB _ _ D). split; intros X; [exfalso; eapply Fr; eauto|lia].
        -- destruct (i =? length raw), (j =? length raw); try discriminate. inversion A; inversion B; inversion C; inversion D; subst. tauto.
      * rewrite app_length. simpl. intros i m. rewrite nth_snoc. destruct (i <? length nums).
        -- intros X. pose proof (HB _ _ X). lia.
        -- destruct (i =? length nums); [|discriminate]. intros X; inversion X; subst. lia.
      * intros i m m'. rewrite nth_snoc. destruct (Nat.ltb_spec i (length nums)).
        -- intros X Y. destruct (HF _ _ _ X Y) as (j & J & Hj). exists j. split; auto. rewrite nth_error_app1 by lia. auto.
        -- destruct (Nat.eqb_spec i (length nums)) as [->|]; [|discriminate]. intros X Y. inversion X; subst m.
           specialize (HA _ Y). apply In_nth_error in HA as (j & Hj). exists j. assert (j < length nums) by (apply nth_error_Some; congruence).
           split; auto. rewrite nth_error_app1 by lia. auto.
      * rewrite app_length. simpl. intros m Hm. apply in_app_iff. destruct (Nat.eq_dec m (length d)) as [->|]; [right; left; auto|left; apply HA; lia].
    + intros k' n'. rewrite find_key_app. split.
      * destruct (find_key d k') as [m|] eqn:E'.
        -- intros X; inversion X; subst. apply HK in E' as (i & A & B). exists i. split; rewrite nth_error_app1; auto; apply nth_error_Some; congruence.
        -- destruct (Z.eqb_spec k k') as [<-|]; [|discriminate]. intros X; inversion X; subst. exists (length raw).
           rewrite !nth_snoc, HL, Nat.ltb_irrefl, Nat.eqb_refl. auto.
      * intros (i & A & B). rewrite nth_snoc in A. rewrite nth_snoc in B. rewrite HL in B. destruct (i <? length raw).
        -- assert (find_key d k' = Some n') as -> by (apply HK; eauto). auto.
        -- destruct (i =? length raw); [|discriminate]. inversion A; inversion B; subst. rewrite E, Z.eqb_refl. auto.
Qed.

(** ** Reading *)
Lemma read_nodes_ok f nds : forall j g (N : Z -> Prop) (R : Z -> Z -> Prop) tags feat raw nums,
  nx_ok g N R -> num_ok raw nums feat ->
  exists g' ts feat', read_nodes (length nds) (Z.of_nat j) g tags feat (map node_words nds ++ f) = Ok (g', tags ++ ts, feat', f) /\
    length ts = length nds /\ num_ok (raw ++ map n_tag nds) (nums ++ ts) feat' /\
    nx_ok g' (fun x => N x \/ exists i nd, nth_error nds i = Some nd /\ (x = Z.of_nat (j + i) \/ In x (map Z.of_nat (n_nbrs nd))))
      (fun a b => R a b \/ exists i nd, nth_error nds i = Some nd /\
         ((a = Z.of_nat (j + i) /\ In b (map Z.of_nat (n_nbrs nd))) \/ (b = Z.of_nat (j + i) /\ In a (map Z.of_nat (n_nbrs nd))))).
Proof.
  induction nds as [|nd nds IH]; intros j g N R tags feat raw nums HG HN.
  - exists g, [], feat. simpl. rewrite !app_nil_r. split; auto. split; auto. split; auto.
    eapply nx_equiv; [exact HG| |]; intros; split; auto; intros [?|(i & nd & X & _)]; auto; destruct i; discriminate.
  - cbn [length read_nodes map app readline]. rewrite parse_node. cbn [bind]. unfold get at 1. cbn [nth_error of_option bind].
    destruct (number_ok _ _ _ (n_tag nd) HN) as (t & -> & HN'). cbn [bind]. unfold get. cbn [nth_error of_option bind skipn].
    pose proof (add_edges_ok (Z.of_nat j) (map Z.of_nat (n_nbrs nd)) _ _ _ (add_node_ok _ _ _ (Z.of_nat j) HG)) as HG'.
    destruct (IH (S j) _ _ _ (tags ++ [t]) _ _ _ HG' HN') as (g' & ts & feat' & E & L & HN'' & HG'').
    replace (Z.of_nat j + 1)%Z with (Z.of_nat (S j)) by lia. rewrite E. exists g', (t :: ts), feat'.
    rewrite <- !app_assoc. simpl app. split; auto. split; [simpl; lia|]. rewrite <- !app_assoc in HN''. split; [exact HN''|].
    eapply nx_equiv; [exact HG''| |].
    + intros x. cbv beta. split.
      * intros [[[X|X]|[[_ X]|X]]|(i & nd' & A & B)].
        -- auto.
        -- right. exists 0, nd. rewrite Nat.add_0_r. auto.
        -- right. exists 0, nd. rewrite Nat.add_0_r. auto.
        -- right. exists 0, nd. auto.
        -- right. exists (S i), nd'. rewrite Nat.add_succ_r. auto.
      * intros [X|([|i] & nd' & A & B)]; auto.
        -- simpl in A. inversion A; subst nd'. rewrite Nat.add_0_r in B. destruct B as [B|B]; auto.
        -- right. exists i, nd'. rewrite Nat.add_succ_r in B. auto.
    + intros a b. cbv beta. split.
      * intros [[X|X]|(i & nd' & A & B)].
        -- auto.
        -- right. exists 0, nd. rewrite Nat.add_0_r. auto.
        -- right. exists (S i), nd'. rewrite Nat.add_succ_r. auto.
      * intros [X|([|i] & nd' & A & B)]; auto.
        -- simpl in A. inversion A; subst nd'. rewrite Nat.add_0_r in B. auto.
        -- right. exists i, nd'. rewrite Nat.add_succ_r in B. auto.
Qed.

(** The graph of a document. *)
Definition doc_node (d : doc) (x : Z) : Prop := exists v, x = Z.of_nat v /\ v < length (d_nodes d).
Definition doc_rel (d : doc) (a b : Z) : Prop := exists u v, a = Z.of_nat u /\ b = Z.of_nat v /\ linked d u v.

Lemma mentions_lt d u v : mentions d u v -> u < length (d_nodes d).
Proof. intros (nd & H & _). apply nth_error_Some. congruence. Qed.

Lemma read_doc_ok d f feat raw nums : doc_ok d -> num_ok raw nums feat ->
  exists g ts feat', read_nodes (length (d_nodes d)) 0 [] [] feat (map node_words (d_nodes d) ++ f) = Ok (g, ts, feat', f) /\
    length ts = length (d_nodes d) /\ num_ok (raw ++ map n_tag (d_nodes d)) (nums ++ ts) feat' /\
    nx_ok g (doc_node d) (doc_rel d) /\ length g = length (d_nodes d).
Proof.
  intros [HD _] HN.
  assert (H0 : nx_ok [] (fun _ => False) (fun _ _ => False)).
  { split; [constructor|intros u; simpl; tauto|intros u nb []|intros u v []]. }
  destruct (read_nodes_ok f (d_nodes d) 0 [] _ _ [] feat raw nums H0 HN) as (g & ts & feat' & E & L & HN' & HG).
  assert (HG' : nx_ok g (doc_node d) (doc_rel d)).
  { eapply nx_equiv; [exact HG| |].
    - intros x. cbv beta. split.
      + intros [[]|(i & nd & A & B)]. destruct B as [B|B].
        * exists i. split; auto. apply nth_error_Some. congruence.
        * apply in_map_iff in B as (v & <- & B). exists v. split; auto. apply (HD i). exists nd; auto.
      + intros (v & -> & Hv). right. destruct (nth_error (d_nodes d) v) as [nd|] eqn:Ev; [|apply nth_error_None in Ev; lia].
        exists v, nd. auto.
    - intros a b. cbv beta. split.
      + intros [[]|(i & nd & A & [[B C]|[B C]])]; apply in_map_iff in C as (v & <- & C); simpl in B; subst.
        * exists i, v. split; auto. split; auto. left. exists nd. auto.
        * exists v, i. split; auto. split; auto. right. exists nd. auto.
      + intros (u & v & -> & -> & [(nd & A & B)|(nd & A & B)]); right.
        * exists u, nd. split; auto. left. split; auto. apply in_map. auto.
        * exists v, nd. split; auto. right. split; auto. apply in_map. auto. }
  exists g, ts, feat'. split; [exact E|]. split; auto. split; auto. split; auto.
  assert (P : Permutation (map fst g) (map Z.of_nat (seq 0 (length (d_nodes d))))).
  { apply NoDup_Permutation.
    - apply (nx_keys _ _ _ HG').
    - apply FinFun.Injective_map_NoDup; [intros a b; lia|apply seq_NoDup].
    - intros x. rewrite (nx_nodes _ _ _ HG'), in_map_iff. unfold doc_node. split.
      + intros (v & -> & Hv). exists v. split; auto. apply in_seq. lia.
      + intros (v & <- & Hv). apply in_seq in Hv. exists v. split; auto. lia. }
  apply Permutation_length in P. rewrite !map_length, seq_length in P. auto.
Qed.

Definition read_as (d : doc) (s : s2v) : Prop :=
  s_label s = d_label d /\ nx_ok (s_g s) (doc_node d) (doc_rel d) /\ length (s_g s) = length (d_nodes d) /\
  length (s_tags s) = length (d_nodes d).

Lemma read_graphs_ok f ds : forall labels feat lraw lnum traw tnum, Forall doc_ok ds ->
  num_ok lraw lnum labels -> num_ok traw tnum feat ->
  exists ss labels' ls feat', read_graphs (length ds) labels feat (flat_map doc_lines ds ++ f) = Ok (ss, labels') /\
    Forall2 read_as ds ss /\ num_ok (lraw ++ map d_label ds) (lnum ++ ls) labels' /\
    num_ok (traw ++ flat_map (fun d => map n_tag (d_nodes d)) ds) (tnum ++ flat_map s_tags ss) feat'.
Proof.
  induction ds as [|d ds IH]; intros labels feat lraw lnum traw tnum HD HL HT.
  - exists [], labels, [], feat. simpl. rewrite !app_nil_r. auto.
  - inversion HD as [|? ? Hd HD']; subst. cbn [length read_graphs flat_map doc_lines app readline mapM int_of bind].
    destruct (number_ok _ _ _ (d_label d) HL) as (l & _ & HL').
    rewrite Nat2Z.id, <- app_assoc.
    destruct (read_doc_ok d (flat_map doc_lines ds ++ f) feat traw tnum Hd HT) as (g & ts & feat' & E & Lt & HT' & HG & Lg).
    rewrite E. cbn [bind]. rewrite Lg, Z.eqb_refl.
    destruct (IH (number labels (d_label d)) feat' _ _ _ _ HD' HL' HT') as (ss & labels' & ls & feat'' & -> & HF & HL'' & HT'').
    cbn [bind fst snd]. exists (mkS2V g (d_label d) ts :: ss), labels', (l :: ls), feat''.
    split; auto. split; [constructor; auto; split; auto|]. rewrite <- !app_assoc in HL'', HT''. split; [exact HL''|exact HT''].
Qed.

(** ** The edge matrix *)
Definition out (v : nat) (es : list (nat * nat)) : nat := length (filter (fun e => fst e =? v) es).
Lemma out_app v a b : out v (a ++ b) = out v a + out v b.
Proof. unfold out. rewrite filter_app, app_length. auto. Qed.

Lemma occ_pos es u v : (forall e, In e es -> (0 <= fst e /\ 0 <= snd e)%Z) ->
  occurrences (u, v) (map pos es) = zocc (Z.of_nat u, Z.of_nat v) es.
Proof.
  unfold occurrences, zocc. induction es as [|[a b] es IH]; intros H; auto. cbn [map filter pos fst snd].
  specialize (IH (fun e He => H e (or_intror He))). cbn [fst snd] in IH. destruct (H (a, b) (or_introl eq_refl)) as [Ha Hb]. simpl in Ha, Hb.
  assert (E1 : (Z.to_nat a =? u) = (a =? Z.of_nat u)%Z) by (destruct (Nat.eqb_spec (Z.to_nat a) u), (Z.eqb_spec a (Z.of_nat u)); auto; lia).
  assert (E2 : (Z.to_nat b =? v) = (b =? Z.of_nat v)%Z) by (destruct (Nat.eqb_spec (Z.to_nat b) v), (Z.eqb_spec b (Z.of_nat v)); auto; lia).
  rewrite E1, E2. destruct ((a =? Z.of_nat u)%Z && (b =? Z.of_nat v)%Z); simpl; rewrite IH; auto.
Qed.
Lemma occ_swap es u v : occurrences (u, v) (map swap es) = occurrences (v, u) es.
Proof.
  unfold occurrences. induction es as [|[a b] es IH]; auto. cbn [map filter swap fst snd] in *.
  rewrite (andb_comm (b =? u)). destruct ((a =? v) && (b =? u)); simpl; rewrite IH; auto.
Qed.
Lemma occ_app e a b : occurrences e (a ++ b) = occurrences e a + occurrences e b.
Proof. unfold occurrences. rewrite filter_app, app_length. auto. Qed.
Lemma occ_In u v es : 0 < occurrences (u, v) es <-> In (u, v) es.
Proof.
  unfold occurrences. split.
  - destruct (filter _ es) as [|[a b] r] eqn:E; [simpl; lia|]. intros _.
    assert (X : In (a, b) (filter (fun e' => (fst e' =? fst (u, v)) && (snd e' =? snd (u, v))) es)) by (rewrite E; left; auto).
    apply filter_In in X as [X Y]. simpl in Y. apply andb_true_iff in Y as [Y1 Y2]. apply Nat.eqb_eq in Y1, Y2. subst. auto.
  - intros H. assert (X : In (u, v) (filter (fun e' => (fst e' =? fst (u, v)) && (snd e' =? snd (u, v))) es)).
    { apply filter_In. simpl. rewrite !Nat.eqb_refl. auto. }
    destruct (filter _ es); [destruct X|simpl; lia].
Qed.

Lemma linked_sym d u v : linked d u v -> linked d v u.
Proof. unfold linked. tauto. Qed.
Lemma linked_lt d u v : doc_ok d -> linked d u v -> u < length (d_nodes d) /\ v < length (d_nodes d).
Proof. intros [H _] [L|L]; split; eauto using mentions_lt. Qed.

Lemma edge_mat_ok d g : nx_ok g (doc_node d) (doc_rel d) ->
  both_directions d (map pos (nx_edges g) ++ map swap (map pos (nx_edges g))).
Proof.
  intros HG.
  assert (Hin : forall e, In e (nx_edges g) -> exists u v, e = (Z.of_nat u, Z.of_nat v) /\ linked d u v).
  { intros [a b] H. apply (nx_edges_in _ _ _ _ _ HG) in H as (u & v & -> & -> & L). eauto. }
  assert (Hp : forall e, In e (nx_edges g) -> (0 <= fst e /\ 0 <= snd e)%Z).
  { intros e H. destruct (Hin e H) as (u & v & -> & _). simpl. lia. }
  assert (Sy : forall a b, doc_rel d a b -> doc_rel d b a).
  { intros a b (u & v & -> & -> & L). exists v, u. split; auto. split; auto. apply linked_sym. auto. }
  split.
  - intros u v L Ne. rewrite occ_app, occ_swap, !occ_pos by auto.
    apply (nx_edges_once _ _ _ _ _ HG Sy); [exists u, v; auto|lia].
  - intros u L. rewrite occ_app, occ_swap, !occ_pos by auto.
    rewrite (nx_edges_loop _ _ _ _ HG); [auto|]. exists u, u. auto.
  - intros u v H. apply in_app_iff in H as [H|H].
    + apply in_map_iff in H as (e & E & H). destruct (Hin e H) as (a & b & -> & L). unfold pos in E. simpl in E.
      rewrite !Nat2Z.id in E. inversion E; subst. auto.
    + apply in_map_iff in H as (e' & E' & H). apply in_map_iff in H as (e & E & H). destruct (Hin e H) as (a & b & -> & L).
      unfold pos in E. simpl in E. rewrite !Nat2Z.id in E. subst e'. unfold swap in E'. simpl in E'. inversion E'; subst.
      apply linked_sym. auto.
Qed.

(** *** Degrees *)
Lemma degree_unique d v k k' : degree_is d v k -> degree_is d v k' -> k = k'.
Proof.
  intros (nb & N & I & H) (nb' & N' & I' & H').
  assert (L : length nb = length nb').
  { apply Permutation_length, NoDup_Permutation; auto. intros w. rewrite I, I'. tauto. }
  destruct H as [[A ->]|[A ->]], H' as [[B ->]|[B ->]]; try tauto; lia.
Qed.
Lemma count_targets v w es : count_occ Nat.eq_dec (map snd (filter (fun e => fst e =? v) es)) w = occurrences (v, w) es.
Proof.
  unfold occurrences. induction es as [|[a b] es IH]; auto. cbn [filter fst snd] in *.
  destruct (a =? v) eqn:Ea; cbn [map snd andb].
  - simpl count_occ. destruct (Nat.eq_dec b w) as [->|N].
    + rewrite Nat.eqb_refl. simpl. rewrite IH. auto.
    + apply Nat.eqb_neq in N. rewrite N. auto.
  - auto.
Qed.
Lemma count_nodup (l : list nat) w : NoDup l -> count_occ Nat.eq_dec l w = if in_dec Nat.eq_dec w l then 1 else 0.
Proof.
  intros H. destruct (in_dec Nat.eq_dec w l) as [I|I].
  - apply NoDup_count_occ'; auto.
  - apply count_occ_not_In. auto.
Qed.
Lemma out_degree d es v : both_directions d es -> degree_is d v (out v es).
Proof.
  intros [H1 H2 H3].
  set (t := map snd (filter (fun e => fst e =? v) es)).
  assert (Lt : out v es = length t) by (unfold t; rewrite map_length; auto).
  assert (It : forall w, In w t <-> linked d v w).
  { intros w. rewrite (count_occ_In Nat.eq_dec). unfold t. rewrite count_targets. split.
    - intros H. apply H3. apply occ_In. lia.
    - intros L. destruct (Nat.eq_dec v w) as [<-|N]; [rewrite H2; auto; lia|rewrite H1; auto]. }
  exists (nodup Nat.eq_dec t). split; [apply NoDup_nodup|]. split; [intros w; rewrite nodup_In; auto|].
  assert (P : forall ex, (forall w, count_occ Nat.eq_dec ex w = if Nat.eq_dec v w then (if in_dec Nat.eq_dec v t then 1 else 0) else 0) ->
    Permutation t (nodup Nat.eq_dec t ++ ex)).
  { intros ex Hex. apply (Permutation_count_occ Nat.eq_dec). intros w. rewrite count_occ_app, Hex.
    rewrite (count_nodup (nodup Nat.eq_dec t)) by apply NoDup_nodup. unfold t at 1. rewrite count_targets.
    destruct (in_dec Nat.eq_dec w (nodup Nat.eq_dec t)) as [I|I].
    - rewrite nodup_In in I. pose proof (proj1 (It _) I) as L. destruct (Nat.eq_dec v w) as [<-|N].
      + destruct (in_dec Nat.eq_dec v t); [|tauto]. rewrite H2; auto.
      + rewrite H1; auto.
    - rewrite nodup_In in I. assert (Z0 : occurrences (v, w) es = 0).
      { rewrite <- count_targets. apply count_occ_not_In. exact I. }
      rewrite Z0. destruct (Nat.eq_dec v w) as [<-|N]; auto. destruct (in_dec Nat.eq_dec v t); tauto. }
  destruct (in_dec Nat.eq_dec v t) as [I|I] eqn:D.
  - left. split; [apply It; auto|]. rewrite Lt. rewrite (Permutation_length (P [v] ltac:(intros w; simpl; destruct (Nat.eq_dec v w); auto))).
    rewrite app_length. auto.
  - right. split; [rewrite <- It; auto|]. rewrite Lt. rewrite (Permutation_length (P [] ltac:(intros w; simpl; destruct (Nat.eq_dec v w); auto))).
    rewrite app_nil_r. auto.
Qed.

Lemma upd_len {A} (l : list A) i f r : upd l i f = Ok r -> length r = length l.
Proof.
  intros H. destruct (Nat.lt_ge_cases i (length l)) as [L|L].
  - destruct (upd_ok l i f L) as (r' & E & Hl & _). congruence.
  - rewrite upd_err in H by auto. discriminate.
Qed.

Lemma add_neighbours_ok es : forall nb,
  (forall e, In e es -> fst e < length nb /\ snd e < length nb) ->
  exists nb', add_neighbours nb es = Ok nb' /\ length nb' = length nb /\
    forall v, option_map (@length nat) (nth_error nb' v) =
      option_map (fun l => length l + out v (es ++ map swap es)) (nth_error nb v).
Proof.
  induction es as [|[i j] es IH]; intros nb H.
  - exists nb. split; auto. split; auto. intros v. destruct (nth_error nb v); simpl; auto.
  - destruct (H (i, j) (or_introl eq_refl)) as [Hi Hj]. simpl in Hi, Hj.
    destruct (upd_ok nb i (fun l => l ++ [j]) Hi) as (n1 & E1 & L1 & N1).
    destruct (upd_ok n1 j (fun l => l ++ [i])) as (n2 & E2 & L2 & N2); [lia|].
    destruct (IH n2) as (nb' & E & L & N). { intros e He. rewrite L2, L1. apply H. right; auto. }
    exists nb'. cbn [add_neighbours]. rewrite E1. cbn [bind]. rewrite E2. cbn [bind]. split; auto. split; [lia|].
    intros v. rewrite N, N2, N1. unfold out. rewrite !filter_app, !app_length. cbn [map swap filter fst snd].
    destruct (Nat.eqb_spec v j) as [Ej|Nj], (Nat.eqb_spec v i) as [Ei|Ni];
      destruct (nth_error nb _) as [l|]; simpl; auto; rewrite ?app_length; f_equal; simpl;
      rewrite ?Nat.eqb_refl; repeat match goal with |- context [?a =? ?b] => destruct (Nat.eqb_spec a b); try lia end; simpl; lia.
Qed.

Lemma list_max_in l : l <> [] -> In (list_max l) l.
Proof.
  induction l as [|a l IH]; intros H; [congruence|]. simpl. destruct l as [|b l]; [simpl; left; lia|].
  destruct (Nat.max_spec a (list_max (b :: l))) as [[_ ->]|[_ ->]]; auto. right. apply IH. discriminate.
Qed.
Lemma list_max_ge l a : In a l -> a <= list_max l.
Proof.
  induction l as [|b l IH]; intros H; [destruct H|]. simpl. destruct H as [->|H]; [lia|]. specialize (IH H). lia.
Qed.

(** What is established about each graph before the features. *)
Record tu_ok (d : doc) (g : tu_graph) : Prop := {
  to_size : u_size g = length (d_nodes d);
  to_edges : both_directions d (u_edge_mat g);
  to_tags : length (u_tags g) = length (d_nodes d);
  to_max : forall v k, v < length (d_nodes d) -> degree_is d v k -> k <= u_max_neighbor g;
  to_attained : exists v, v < length (d_nodes d) /\ degree_is d v (u_max_neighbor g)
}.

Lemma add_edge_mat_ok labels d s l : doc_ok d -> read_as d s -> find_key labels (d_label d) = Some l ->
  exists g, add_edge_mat labels s = Ok g /\ tu_ok d g /\ u_label g = l /\ u_tags g = s_tags s.
Proof.
  intros HD (El & HG & Lg & Lt) Hl. unfold add_edge_mat.
  pose proof (edge_mat_ok d (s_g s) HG) as BD. set (es := map pos (nx_edges (s_g s))) in *.
  assert (Hlt : forall e, In e es -> fst e < length (d_nodes d) /\ snd e < length (d_nodes d)).
  { intros [u v] He. simpl. apply (linked_lt d u v HD). apply (bd_only _ _ BD). apply in_app_iff. auto. }
  destruct (add_neighbours_ok es (repeat [] (length (s_g s)))) as (nb & En & Ln & Nn).
  { rewrite repeat_length, Lg. auto. }
  rewrite En. cbn [bind]. rewrite repeat_length, Lg in Ln.
  destruct (proj2 HD) as (u0 & v0 & Huv). pose proof (mentions_lt _ _ _ Huv) as Lu0.
  destruct nb as [|a0 nb0] eqn:Enb; [simpl in Ln; lia|]. rewrite <- Enb in *. clear Enb.
  unfold lookup_key. rewrite El, Hl. cbn [bind].
  assert (Hne : In (u0, v0) (es ++ map swap es)).
  { apply occ_In. destruct (Nat.eq_dec u0 v0) as [<-|N].
    - rewrite (bd_loop _ _ BD); [lia|left; auto].
    - rewrite (bd_edge _ _ BD); auto. left; auto. }
  destruct (es ++ map swap es) as [|e0 em] eqn:Eem; [destruct Hne|]. rewrite <- Eem in *. clear Eem. cbn [bind].
  assert (Hdeg : forall v, v < length (d_nodes d) -> exists l, nth_error nb v = Some l /\ length l = out v (es ++ map swap es)).
  { intros v Hv. specialize (Nn v). rewrite Lg, nth_error_repeat in Nn by auto. simpl in Nn.
    destruct (nth_error nb v) as [w|]; [|discriminate]. simpl in Nn. inversion Nn. eauto. }
  eexists. split; [reflexivity|]. split; [|split; reflexivity]. split; simpl; auto.
  - intros v k Hv Hk. rewrite (degree_unique _ _ _ _ Hk (out_degree _ _ v BD)).
    destruct (Hdeg v Hv) as (w & Ew & <-). apply list_max_ge. apply in_map. eapply nth_error_In; eauto.
  - assert (Hm : In (list_max (map (@length nat) nb)) (map (@length nat) nb)).
    { apply list_max_in. destruct nb; [simpl in Ln; lia|discriminate]. }
    apply in_map_iff in Hm as (w & Ew & Hw). apply In_nth_error in Hw as (v & Hv).
    assert (Lv : v < length (d_nodes d)) by (rewrite <- Ln; apply nth_error_Some; congruence).
    exists v. split; auto. destruct (Hdeg v Lv) as (w' & Ew' & Lw'). assert (w' = w) by congruence. subst w'.
    rewrite <- Ew, Lw'. apply out_degree. auto.
Qed.

Lemma add_all_ok labels ds ss ls : Forall doc_ok ds -> Forall2 read_as ds ss -> length ls = length ds ->
  (forall i d l, nth_error ds i = Some d -> nth_error ls i = Some l -> find_key labels (d_label d) = Some l) ->
  exists gs, mapM (add_edge_mat labels) ss = Ok gs /\ Forall2 tu_ok ds gs /\ map u_label gs = ls /\ map u_tags gs = map s_tags ss.
Proof.
  intros HD HF. revert ls. induction HF as [|d s ds ss Hs HF IH]; intros ls Hl Hf.
  - exists []. destruct ls; [|discriminate]. simpl. auto.
  - inversion HD; subst. destruct ls as [|l ls]; [discriminate|].
    destruct (add_edge_mat_ok labels d s l) as (g & Eg & Tg & Lg & Ug); auto. { apply (Hf 0); auto. }
    destruct (IH H2 ls) as (gs & Egs & Tgs & Lgs & Ugs). { simpl in Hl; lia. } { intros i. apply (Hf (S i)). }
    exists (g :: gs). simpl. rewrite Eg, Egs. simpl. split; auto. split; [constructor; auto|]. split; congruence.
Qed.

(** ** One-hot rows *)
Lemma one_hot_at k i : i < k -> hot_at k i (one_hot k i).
Proof.
  intros H. unfold hot_at, one_hot. rewrite map_length, seq_length. split; auto. split; auto.
  intros j z Hj. rewrite nth_error_map in Hj. destruct (nth_error (seq 0 k) j) as [q|] eqn:E; [|discriminate].
  assert (q = j).
  { assert (j < k) by (rewrite <- (seq_length k 0); apply nth_error_Some; congruence).
    apply nth_error_nth with (d := 0) in E. rewrite seq_nth in E by auto. auto. }
  subst q. simpl in Hj. inversion Hj. auto.
Qed.
Lemma index_of_some t l : In t l -> exists i, index_of t l = Some i /\ nth_error l i = Some t.
Proof.
  induction l as [|a l IH]; intros H; [destruct H|]. simpl. destruct (Nat.eqb_spec a t) as [->|N]; [exists 0; auto|].
  destruct H as [->|H]; [congruence|]. destruct (IH H) as (i & -> & Hi). exists (S i). auto.
Qed.
Definition place (l : list nat) (t : nat) : nat := match index_of t l with Some i => i | None => 0 end.
Lemma place_nth l t : In t l -> nth_error l (place l t) = Some t.
Proof. intros H. unfold place. destruct (index_of_some t l H) as (i & -> & Hi). auto. Qed.
Lemma place_lt l t : In t l -> place l t < length l.
Proof. intros H. apply nth_error_Some. rewrite place_nth by auto. discriminate. Qed.
Lemma place_inj l a b : In a l -> In b l -> place l a = place l b -> a = b.
Proof. intros Ha Hb E. pose proof (place_nth l a Ha). pose proof (place_nth l b Hb). congruence. Qed.
Lemma hot_ok l t : In t l -> hot l t = Ok (one_hot (length l) (place l t)).
Proof. intros H. unfold hot, place. destruct (index_of_some t l H) as (i & -> & _). auto. Qed.

Lemma tag_features_ok order gs : (forall l, NoDup l -> Permutation (order l) l) ->
  let tagset := order (nodup Nat.eq_dec (flat_map u_tags gs)) in
  tag_features order gs = Ok (map (fun g => mkTUG (u_size g) (u_label g) (u_tags g) (u_max_neighbor g) (u_edge_mat g)
    (map (fun t => one_hot (length tagset) (place tagset t)) (u_tags g))) gs).
Proof.
  intros HO tagset. unfold tag_features. fold tagset. apply mapM_map. intros g Hg.
  rewrite (mapM_map (hot tagset) (fun t => one_hot (length tagset) (place tagset t))); auto.
  intros t Ht. apply hot_ok. eapply Permutation_in; [apply Permutation_sym, HO, NoDup_nodup|].
  apply nodup_In. apply in_flat_map. eauto.
Qed.
