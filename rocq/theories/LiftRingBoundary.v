(** The boundary of a ring: C20. *)
From Coq Require Import List Arith Lia ZArith Bool Permutation Sorted.
From Verif Require Import Base ScatterModel ScatterSpec ScatterProofs ComplexModel BatchSpec BatchSpec2 BatchProofs
  LiftModel LiftSpec LiftBase LiftProofs LiftClique LiftTables LiftCliqueProps LiftRing LiftProps LiftRingProps.
Import ListNotations.

(** ** Specification *)
(** [e] joins the [i]-th vertex of the cycle [s] to the next one. *)
Definition cycle_edge (s e : list nat) (i : nat) : Prop :=
  i < length s /\ same_set e [nth i s 0; nth ((i + 1) mod length s) s 0].

Record ring_boundary (cells : nat -> list (list nat)) (pairs : list (nat * nat)) (t : nat) (s : list nat) : Prop := {
  rb_cycle : forall i, i < length s -> exists f e, In (f, t) pairs /\ names cells 1 f e /\ cycle_edge s e i;
  rb_only : forall f, In (f, t) pairs -> exists i e, names cells 1 f e /\ cycle_edge s e i;
  rb_count : length (filter (fun p => snd p =? t) pairs) = length s;
  rb_once : NoDup (filter (fun p => snd p =? t) pairs);
  rb_two : forall v, In v s -> exists f g, f <> g /\
    forall h, (In (h, t) pairs /\ exists e, names cells 1 h e /\ In v e) <-> h = f \/ h = g
}.

Section Boundary.
Context {V : Type}.
Variables (edges : list (nat * nat)) (size max_k : nat) (cells : nat -> list (list nat)) (c : cochain V).
Hypothesis RC : ring_cells edges size max_k cells.
Hypothesis BE : boundary_exact cells 1 c.
Variables (t : nat) (s : list nat).
Hypothesis Hs : names cells 2 t s.

Lemma s_cycle : induced_cycle edges s.
Proof. apply (rc_ring _ _ _ _ RC). eapply nth_error_In; eauto. Qed.
Let k := length s.

Lemma k_3 : 3 <= k.
Proof. apply s_cycle. Qed.

Lemma edge_at i : i < k -> exists f, names cells 1 f (sort Nat.leb [nth i s 0; nth (nxt k i) s 0]).
Proof.
  intros Hi. pose proof (at_next edges s s_cycle i Hi) as Hne.
  assert (HA : adjacent edges (nth i s 0) (nth (nxt k i) s 0)).
  { apply (adj_iff edges s s_cycle i (nxt k i)); auto. apply nxt_lt; auto. }
  fold k in Hne. rewrite sort_2 by auto. apply In_nth_error. apply (rc_edge _ _ _ _ RC).
  exists (Nat.min (nth i s 0) (nth (nxt k i) s 0)), (Nat.max (nth i s 0) (nth (nxt k i) s 0)).
  split; [lia|]. split; auto. destruct HA as [H1 H2]. split; [lia|].
  destruct (Nat.le_ge_cases (nth i s 0) (nth (nxt k i) s 0)).
  - rewrite Nat.min_l, Nat.max_r by lia. auto.
  - rewrite Nat.min_r, Nat.max_l by lia. tauto.
Qed.
Lemma edge_cycle f i : i < k -> names cells 1 f (sort Nat.leb [nth i s 0; nth (nxt k i) s 0]) ->
  In (f, t) (content (c_bidx c)).
Proof.
  intros Hi Hf. apply (be_iff _ _ _ BE). eexists _, s. split; eauto. split; auto.
  intros v Hv. rewrite sort_In in Hv. destruct Hv as [<-|[<-|[]]]; apply nth_In; auto. apply nxt_lt; auto.
Qed.
Lemma edge_only f : In (f, t) (content (c_bidx c)) ->
  exists i, i < k /\ names cells 1 f (sort Nat.leb [nth i s 0; nth (nxt k i) s 0]).
Proof.
  intros Hf. apply (be_iff _ _ _ BE) in Hf as (e & s' & N1 & N2 & HI). unfold names in N2. rewrite Hs in N2. inversion N2; subst s'.
  pose proof (nth_error_In _ _ N1) as Hin. apply (rc_edge _ _ _ _ RC) in Hin as (u & v & Hlt & -> & HA).
  assert (Hr : In [u; v] (raw_edges s)).
  { apply (raw_In edges s s_cycle). exists u, v. repeat split; auto; try apply HA; apply HI; simpl; auto. }
  unfold raw_edges in Hr. apply in_map_iff in Hr as (i & E & Hi). apply in_seq in Hi. exists i. split; [fold k in Hi; lia|]. unfold k. rewrite E. auto.
Qed.

Lemma nxt_inj i j : i < k -> j < k -> nxt k i = nxt k j -> i = j.
Proof. unfold nxt. destruct (Nat.eqb_spec (i + 1) k), (Nat.eqb_spec (j + 1) k); lia. Qed.
Lemma nxt_surj i : i < k -> exists j, j < k /\ nxt k j = i.
Proof.
  intros Hi. destruct i as [|i].
  - exists (k - 1). split; [lia|]. unfold nxt. destruct (Nat.eqb_spec (k - 1 + 1) k); lia.
  - exists i. split; [lia|]. unfold nxt. destruct (Nat.eqb_spec (i + 1) k); lia.
Qed.
Lemma edge_inj i j f : i < k -> j < k -> names cells 1 f (sort Nat.leb [nth i s 0; nth (nxt k i) s 0]) ->
  names cells 1 f (sort Nat.leb [nth j s 0; nth (nxt k j) s 0]) -> i = j.
Proof.
  intros Hi Hj N1 N2. assert (E : sort Nat.leb [nth i s 0; nth (nxt k i) s 0] = sort Nat.leb [nth j s 0; nth (nxt k j) s 0]) by (unfold names in *; congruence).
  apply sort_same in E.
  pose proof k_3. pose proof (nxt_lt k i Hi). pose proof (nxt_lt k j Hj).
  destruct (proj1 (E _) (or_introl eq_refl)) as [G|[G|[]]].
  - apply (at_inj edges s s_cycle) in G; auto.
  - destruct (proj1 (E _) (or_intror (or_introl eq_refl))) as [G'|[G'|[]]].
    + apply (at_inj edges s s_cycle) in G, G'; auto.
      exfalso. rewrite G' in G. unfold nxt in G, G'. destruct (Nat.eqb_spec (i + 1) k); destruct (Nat.eqb_spec (j + 1) k); try lia;
      repeat match type of G with context [if ?b then _ else _] => destruct b eqn:?; rewrite ?Nat.eqb_eq, ?Nat.eqb_neq in * end; lia.
    + apply (at_inj edges s s_cycle) in G'; auto. apply nxt_inj in G'; auto.
Qed.

Lemma cycle_edge_nxt i : i < k -> cycle_edge s (sort Nat.leb [nth i s 0; nth (nxt k i) s 0]) i.
Proof. intros Hi. split; auto. fold k. rewrite <- nxt_mod by auto. intros v. apply sort_In. Qed.

Lemma ring_boundary_ok : ring_boundary cells (content (c_bidx c)) t s.
Proof.
  pose proof k_3 as K3.
  assert (HN : NoDup (filter (fun p => snd p =? t) (content (c_bidx c)))) by (apply NoDup_filter, (be_once _ _ _ BE)).
  split; auto.
  - intros i Hi. destruct (edge_at i Hi) as [f Hf]. exists f. eexists. split; [|split; [exact Hf|]].
    + apply (edge_cycle f i); auto.
    + apply cycle_edge_nxt; auto.
  - intros f Hf. apply edge_only in Hf as (i & Hi & Hf). exists i. eexists. split; eauto. apply cycle_edge_nxt; auto.
  - set (L := filter _ _) in *.
    assert (HLt : forall p, In p L -> snd p = t) by (intros p Hp; apply filter_In in Hp as [_ Hp]; apply Nat.eqb_eq; auto).
    assert (HL : forall f, In (f, t) L <-> In (f, t) (content (c_bidx c))).
    { intros f. unfold L. rewrite filter_In. cbn [snd]. rewrite Nat.eqb_refl. tauto. }
    set (g := fun p : nat * nat => nth (fst p) (cells 1) []).
    assert (P : Permutation (map g L) (raw_edges s)).
    { apply NoDup_Permutation.
      - apply NoDup_map_inj; auto. intros [f t1] [f' t2] Hp Hq Epq.
        pose proof (HLt _ Hp) as E1. pose proof (HLt _ Hq) as E2. cbn in E1, E2. subst t1 t2.
        apply HL, edge_only in Hp as (i & Hi & N1). apply HL, edge_only in Hq as (j & Hj & N2).
        unfold g in Epq. cbn [fst] in Epq. unfold names in N1, N2.
        rewrite (nth_error_nth _ _ _ N1), (nth_error_nth _ _ _ N2) in Epq. f_equal. rewrite Epq in N1.
        eapply (rc_once _ _ _ _ RC 1 f f'); eauto. intros v; tauto.
      - apply (raw_NoDup edges s s_cycle).
      - intros e. rewrite in_map_iff. unfold raw_edges. rewrite in_map_iff. split.
        + intros ([f t1] & <- & Hp). pose proof (HLt _ Hp) as E1. cbn in E1. subst t1.
          apply HL, edge_only in Hp as (i & Hi & N1). exists i. split; [|apply in_seq; fold k; lia].
          unfold g. cbn [fst]. symmetry. apply nth_error_nth. exact N1.
        + intros (i & <- & Hi). apply in_seq in Hi. fold k in Hi. destruct (edge_at i) as [f Hf]; [lia|]. exists (f, t). split.
          * unfold g. cbn [fst]. apply nth_error_nth. exact Hf.
          * apply HL. apply (edge_cycle f i); auto. lia. }
    apply Permutation_length in P. rewrite map_length in P. rewrite P. unfold raw_edges. rewrite map_length, seq_length. auto.
  - intros v Hv. apply In_nth_error in Hv as [i Hi]. pose proof Hi as Hi'. apply nth_error_nth with (d := 0) in Hi'.
    assert (Hik : i < k) by (apply nth_error_Some; congruence).
    destruct (nxt_surj i Hik) as (j & Hj & Ej).
    destruct (edge_at i Hik) as [f Hf]. destruct (edge_at j Hj) as [g Hg]. exists f, g.
    assert (Hij : i <> j). { intros <-. apply (nxt_neq edges s s_cycle i) in Hik; auto. }
    split.
    + intros <-. apply Hij. eapply edge_inj; eauto.
    + intros h. split.
      * intros (H1 & e & H2 & H3). apply edge_only in H1 as (m & Hm & Nm). assert (e = sort Nat.leb [nth m s 0; nth (nxt k m) s 0]) by (unfold names in *; congruence). subst e.
        rewrite sort_In in H3. destruct H3 as [H3|[H3|[]]].
        -- left. rewrite <- Hi' in H3. apply (at_inj edges s s_cycle) in H3; auto. subst m.
           eapply (rc_once _ _ _ _ RC 1 h f); eauto. intros w; tauto.
        -- right. rewrite <- Hi' in H3. apply (at_inj edges s s_cycle) in H3; auto using nxt_lt. rewrite <- Ej in H3. apply nxt_inj in H3; auto. subst m.
           eapply (rc_once _ _ _ _ RC 1 h g); eauto. intros w; tauto.
      * intros [-> | ->].
        -- split; [apply (edge_cycle f i); auto|]. eexists. split; eauto. apply sort_In. rewrite Hi'. left; auto.
        -- split; [apply (edge_cycle g j); auto|]. eexists. split; eauto. apply sort_In. rewrite Ej, Hi'. right; left; auto.
Qed.
End Boundary.

(** C20: the boundary of a ring in the lifted complex. *)
Section C20.
Context {V : Type} (o : ops V) (veqb : V -> V -> bool).
Theorem C20_ring_boundary lib isos set_order r x edges edge_attr size y max_k down init_edges init_rings :
  ring_input lib isos set_order x edges size y max_k -> (forall a b, veqb a b = true <-> a = b) ->
  (init_edges = true -> attr_ok edges edge_attr) ->
  forall K, compute_ring_2complex o veqb lib isos set_order r x edges edge_attr size y max_k down init_edges init_rings = Ok K ->
  exists cells, ring_cells edges size max_k cells /\
    forall c, nth_error (k_cochains K) 2 = Some c -> forall t s, names cells 2 t s ->
      ring_boundary cells (content (c_bidx c)) t s.
Proof.
  intros HI He HA K E. destruct (ring_inv o veqb lib isos set_order r x edges edge_attr size y max_k down init_edges init_rings HI He K E HA)
    as (rows & _ & _ & HC). eexists. pose proof (cells_ring lib isos set_order x edges size y max_k HI) as RC. split; [exact RC|].
  intros c Hc t s Ht. eapply ring_boundary_ok; eauto. apply (hc_bnd _ _ _ _ HC 1 c Hc).
Qed.
End C20.

(** ** Independence of the listing *)
Lemma lex_total a b : lex_leb a b = true \/ lex_leb b a = true.
Proof.
  revert b. induction a as [|u a IH]; intros [|v b]; simpl; auto.
  destruct (Nat.ltb_spec u v); auto. destruct (Nat.ltb_spec v u); auto.
  assert (u = v) by lia. subst. rewrite !Nat.eqb_refl. destruct (IH b); auto.
Qed.
Lemma lex_antisym a b : lex_leb a b = true -> lex_leb b a = true -> a = b.
Proof.
  revert b. induction a as [|u a IH]; intros [|v b]; simpl; auto; try discriminate.
  destruct (Nat.ltb_spec u v), (Nat.ltb_spec v u), (Nat.eqb_spec u v), (Nat.eqb_spec v u); simpl; intros; try lia; try discriminate.
  f_equal; auto.
Qed.
Lemma lex_trans a b c : lex_leb a b = true -> lex_leb b c = true -> lex_leb a c = true.
Proof.
  revert b c. induction a as [|u a IH]; intros [|v b] [|w c]; simpl; auto; try discriminate.
  destruct (Nat.ltb_spec u v), (Nat.ltb_spec v w), (Nat.eqb_spec u v), (Nat.eqb_spec v w), (Nat.ltb_spec u w), (Nat.eqb_spec u w);
    simpl; intros; try lia; try discriminate; auto. eauto.
Qed.

Section SortPerm.
Context {A : Type} (leb : A -> A -> bool).
Hypothesis total : forall a b, leb a b = true \/ leb b a = true.
Hypothesis antisym : forall a b, leb a b = true -> leb b a = true -> a = b.
Hypothesis trans : forall a b c, leb a b = true -> leb b c = true -> leb a c = true.
Lemma sinsert_comm a b l : sinsert leb a (sinsert leb b l) = sinsert leb b (sinsert leb a l).
Proof.
  induction l as [|c l IH]; simpl.
  - destruct (leb a b) eqn:E1, (leb b a) eqn:E2; auto.
    + rewrite (antisym a b E1 E2). auto.
    + destruct (total a b); congruence.
  - destruct (leb b c) eqn:Eb, (leb a c) eqn:Ea; simpl.
    + destruct (leb a b) eqn:E1, (leb b a) eqn:E2; auto.
      * rewrite (antisym a b E1 E2). auto.
      * rewrite Eb. auto.
      * rewrite Ea. auto.
      * destruct (total a b); congruence.
    + destruct (leb a b) eqn:E1; [rewrite (trans a b c) in Ea by auto; discriminate|]. rewrite Ea, Eb. auto.
    + destruct (leb b a) eqn:E1; [rewrite (trans b a c) in Eb by auto; discriminate|]. rewrite Ea, Eb. auto.
    + rewrite Ea, Eb, IH. auto.
Qed.
Lemma sort_perm_eq l l' : Permutation l l' -> sort leb l = sort leb l'.
Proof. induction 1; simpl; auto; [congruence|apply sinsert_comm|congruence]. Qed.
End SortPerm.

Definition rotate (c : list nat) : list nat := tl c ++ firstn 1 c.

Lemma seq_rev_perm (f : nat -> nat) k :
  (forall i, i < k -> f i < k) -> (forall i j, i < k -> j < k -> f i = f j -> i = j) -> Permutation (map f (seq 0 k)) (seq 0 k).
Proof.
  intros H1 H2. apply NoDup_Permutation_bis.
  - apply NoDup_map_inj; [|apply seq_NoDup]. intros i j Hi Hj. apply in_seq in Hi, Hj. apply H2; lia.
  - rewrite map_length. auto.
  - intros v Hv. apply in_map_iff in Hv as (i & <- & Hi). apply in_seq in Hi. apply in_seq. specialize (H1 i). lia.
Qed.
Lemma nxt_bij k : Permutation (map (nxt k) (seq 0 k)) (seq 0 k).
Proof.
  apply seq_rev_perm; [intros; apply nxt_lt; auto|]. intros i j Hi Hj. unfold nxt.
  destruct (Nat.eqb_spec (i + 1) k), (Nat.eqb_spec (j + 1) k); lia.
Qed.

(** C20: the boundary does not depend on the starting point, nor on the direction, in which a cycle
    is listed; nor on which listing of an induced cycle is used. *)
Theorem C20_rotation c : get_ring_boundaries (rotate c) = get_ring_boundaries c.
Proof.
  rewrite !get_ring_boundaries_ok. f_equal. apply sort_perm_eq; [apply lex_total|apply lex_antisym|apply lex_trans|].
  destruct c as [|a c]; [constructor|]. unfold rotate. cbn [tl firstn]. unfold raw_edges.
  set (k := length (a :: c)). assert (Hk : length (c ++ [a]) = k) by (rewrite app_length; simpl; unfold k; simpl; lia). rewrite Hk.
  assert (G : forall i, i < k -> nth i (c ++ [a]) 0 = nth (nxt k i) (a :: c) 0).
  { intros i Hi. unfold nxt. unfold k in *. simpl in Hi. destruct (Nat.eqb_spec (i + 1) (length (a :: c))) as [E|E]; simpl in E.
    - rewrite app_nth2 by lia. replace (i - length c) with 0 by lia. auto.
    - rewrite app_nth1 by lia. rewrite Nat.add_1_r. auto. }
  rewrite <- (nxt_bij k) at 2. rewrite map_map.
  erewrite map_ext_in; [apply Permutation_refl|]. intros i Hi. apply in_seq in Hi. cbv beta.
  rewrite G by lia. rewrite G by (apply nxt_lt; lia). auto.
Qed.

Lemma sort_swap a b : sort Nat.leb [a; b] = sort Nat.leb [b; a].
Proof.
  apply sort_perm_eq; [| | |constructor].
  - intros u v. rewrite !Nat.leb_le. lia.
  - intros u v. rewrite !Nat.leb_le. lia.
  - intros u v w. rewrite !Nat.leb_le. lia.
Qed.
Theorem C20_reversal c : get_ring_boundaries (rev c) = get_ring_boundaries c.
Proof.
  rewrite !get_ring_boundaries_ok. f_equal. apply sort_perm_eq; [apply lex_total|apply lex_antisym|apply lex_trans|].
  unfold raw_edges. rewrite rev_length. set (k := length c).
  rewrite <- (seq_rev_perm (fun i => k - 1 - nxt k i) k) at 2.
  - rewrite map_map. erewrite map_ext_in; [apply Permutation_refl|]. intros i Hi. apply in_seq in Hi. cbv beta.
    pose proof (nxt_lt k i ltac:(lia)). rewrite !rev_nth by (fold k; lia). fold k.
    rewrite sort_swap. f_equal. f_equal; [f_equal; lia|]. f_equal. f_equal.
    unfold nxt. destruct (Nat.eqb_spec (i + 1) k); cbn; repeat match goal with |- context [?a =? ?b] => destruct (Nat.eqb_spec a b) end; lia.
  - intros i Hi. pose proof (nxt_lt k i Hi). lia.
  - intros i j Hi Hj E. pose proof (nxt_lt k i Hi). pose proof (nxt_lt k j Hj).
    assert (E' : nxt k i = nxt k j) by lia. revert E'. unfold nxt. destruct (Nat.eqb_spec (i + 1) k), (Nat.eqb_spec (j + 1) k); lia.
Qed.
Theorem C20_listing edges c c' : induced_cycle edges c -> induced_cycle edges c' -> same_set c c' ->
  get_ring_boundaries c = get_ring_boundaries c'.
Proof.
  intros H H' HS. rewrite !get_ring_boundaries_ok. f_equal. apply sort_perm_eq; [apply lex_total|apply lex_antisym|apply lex_trans|].
  apply NoDup_Permutation; [eapply raw_NoDup; eauto|eapply raw_NoDup; eauto|]. intros f.
  rewrite (raw_In edges c H), (raw_In edges c' H'). split; intros (u & v & A & B & C & D & E); exists u, v; repeat split; auto; try apply C; apply HS; auto.
Qed.
