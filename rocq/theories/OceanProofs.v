(** Proofs about the ocean data: incidence matrices, stripping of paths, flows of paths. *)
From Coq Require Import List Arith Lia ZArith Bool Permutation Sorted Relations.
From Verif Require Import Base ComplexModel FlowModel FlowSpec FlowProofs FlowProofs2 FlowHole FlowWalk FlowAdj
  FlowProps OceanModel.
Import ListNotations.

(** ** Positions in the sorted node list *)

Lemma node_pos_nth V v i : node_pos V v = Some i -> nth_error V i = Some v.
Proof.
  revert i; induction V as [|u V IH]; intros i H; simpl in H; [discriminate|].
  destruct (Nat.eqb_spec u v) as [->|Hne]; [injection H as <-; auto|].
  destruct (node_pos V v) as [j|]; [|discriminate]. injection H as <-. apply IH; auto.
Qed.
Lemma node_pos_in V v : In v V -> exists i, node_pos V v = Some i.
Proof.
  induction V as [|u V IH]; intros H; [destruct H|]. simpl. destruct (Nat.eqb_spec u v); [eauto|].
  destruct H as [?|H]; [congruence|]. destruct (IH H) as (i & ->). simpl. eauto.
Qed.
Lemma nth_node_pos V v i : NoDup V -> nth_error V i = Some v -> node_pos V v = Some i.
Proof.
  intros Hn H. destruct (node_pos_in V v) as (j & Hj); [eapply nth_error_In; eauto|].
  rewrite Hj. f_equal. apply node_pos_nth in Hj. apply (proj1 (NoDup_nth_error V) Hn).
  - apply nth_error_Some. congruence.
  - congruence.
Qed.
Lemma sorted_nth V : StronglySorted lt V -> forall i j u v, nth_error V i = Some u -> nth_error V j = Some v ->
  (i < j <-> u < v).
Proof.
  intros HS. assert (G : forall i j u v, nth_error V i = Some u -> nth_error V j = Some v -> i < j -> u < v).
  { induction HS as [|a V HS IH HF]; intros i j u v Hi Hj L; [destruct i; discriminate|].
    destruct i as [|i], j as [|j]; try lia; simpl in *.
    - injection Hi as <-. rewrite Forall_forall in HF. apply HF. eapply nth_error_In; eauto.
    - apply (IH i j); auto. lia. }
  intros i j u v Hi Hj. split; [apply G; auto|]. intros L.
  destruct (Nat.lt_total i j) as [?|[->|L']]; auto.
  - assert (u = v) by congruence. lia.
  - specialize (G j i v u Hj Hi L'). lia.
Qed.
Lemma StronglySorted_NoDup V : StronglySorted lt V -> NoDup V.
Proof.
  induction 1 as [|a V HS IH HF]; constructor; auto. intros H. rewrite Forall_forall in HF.
  specialize (HF a H). lia.
Qed.

(** ** The graph *)

Lemma ocean_graph_gen elist : forall g, graph_inv g ->
  let g' := fold_left (fun g p => add_edge g (fst p) (snd p)) elist g in
  graph_inv g' /\
  (forall e, In e (g_edges g') <-> In e (g_edges g) \/ exists a b, In (a, b) elist /\ e = edge_key a b) /\
  (forall v, In v (g_nodes g') <-> In v (g_nodes g) \/ exists a b, In (a, b) elist /\ (v = a \/ v = b)).
Proof.
  induction elist as [|[a b] l IH]; intros g Hg; simpl.
  - split; auto. split; intros; split; auto; intros [?|(? & ? & [] & _)]; auto.
  - destruct (IH (add_edge g a b)) as (H1 & H2 & H3); [apply add_edge_inv; auto|].
    split; auto. split.
    + intros e. rewrite H2, add_edge_edges. split.
      * intros [[?| ->]|(x & y & ? & ->)]; [auto|right; exists a, b; auto|right; exists x, y; auto].
      * intros [?|(x & y & [E|?] & ->)]; auto.
        -- injection E as <- <-. auto.
        -- right. exists x, y. auto.
    + intros v. rewrite H3, add_edge_nodes. split.
      * intros [[?|[->| ->]]|(x & y & ? & ?)]; [auto|right; exists a, b; auto|right; exists a, b; auto|right; exists x, y; auto].
      * intros [?|(x & y & [E|?] & Hv)]; auto.
        -- injection E as <- <-. tauto.
        -- right. exists x, y. auto.
Qed.
Lemma ocean_graph_spec elist : graph_inv (ocean_graph elist) /\
  (forall e, In e (g_edges (ocean_graph elist)) <-> exists a b, In (a, b) elist /\ e = edge_key a b) /\
  (forall v, In v (g_nodes (ocean_graph elist)) <-> exists a b, In (a, b) elist /\ (v = a \/ v = b)).
Proof.
  destruct (ocean_graph_gen elist (mkTG [] [])) as (H1 & H2 & H3).
  { split; simpl; try constructor; tauto. }
  split; auto. split; intros; [rewrite H2|rewrite H3]; simpl; intuition.
Qed.

Lemma sorted_nodes_spec g : StronglySorted lt (sorted_nodes g) /\
  forall v, In v (sorted_nodes g) <-> In v (g_nodes g).
Proof.
  split; [apply filter_sorted, seq_sorted|]. intros v. unfold sorted_nodes.
  rewrite filter_In, in_seq, mem_nat_iff. split; [tauto|]. intros H. split; auto.
  pose proof (list_max_above _ _ H). lia.
Qed.

(** ** The matrices *)

(** [V] lists nodes increasingly, [E] edges (smaller node first) between them, each once. *)
Record ocean_ok (V : list nat) (E : list (nat * nat)) : Prop := {
  oo_sorted : StronglySorted lt V;
  oo_edges : NoDup E;
  oo_ends : forall a b, In (a, b) E -> a < b /\ In a V /\ In b V
}.

Definition b1_at (V : list nat) (E : list (nat * nat)) (k : nat) (M : mat) : Prop :=
  m_r M = length V /\ m_c M = length E /\
  forall e i, m_at M i e =
    match (if e <? k then nth_error E e else None) with
    | Some (a, b) => if match node_pos V b with Some j => i =? j | None => false end then 1%Z
                     else if match node_pos V a with Some j => i =? j | None => false end then (-1)%Z else 0%Z
    | None => 0%Z
    end.

Lemma ltb_S_other e k : e <> k -> (e <? S k) = (e <? k).
Proof.
  intros H. destruct (e <? k) eqn:E1; destruct (e <? S k) eqn:E2; auto;
    rewrite ?Nat.ltb_lt, ?Nat.ltb_ge in *; lia.
Qed.

Lemma nx_incidence_spec V E : ocean_ok V E ->
  exists B1, nx_incidence V E = Ok B1 /\ b1_at V E (length E) B1.
Proof.
  intros H. unfold nx_incidence.
  match goal with |- exists B, foldM ?f ?a ?l = _ /\ _ =>
    destruct (foldM_exists f (fun pre M => b1_at V E (length pre) M) a l) as (B1 & HB & HP) end.
  - split; auto.
  - intros pre [k [a b]] post M El (Hr & Hc & Hat).
    apply combine_seq_split in El as (Hk & Hnth & _). simpl in Hk. subst k.
    assert (Hlt : length pre < length E) by (apply nth_error_Some; congruence).
    pose proof (nth_error_In _ _ Hnth) as Hi. apply (oo_ends _ _ H) in Hi as (L & Ha & Hb).
    replace (a =? b) with false by (symmetry; apply Nat.eqb_neq; lia).
    destruct (node_pos_in V a Ha) as (i & Ei), (node_pos_in V b Hb) as (j & Ej). rewrite Ei, Ej. cbn [of_option bind].
    pose proof (node_pos_nth _ _ _ Ei) as Ni. pose proof (node_pos_nth _ _ _ Ej) as Nj.
    assert (Li : i < length V) by (apply nth_error_Some; congruence).
    assert (Lj : j < length V) by (apply nth_error_Some; congruence).
    destruct (mset_in M i (length pre) (-1)%Z) as (M1 & E1); [lia|lia|]. rewrite E1. cbn [bind].
    apply mset_ok in E1 as (_ & _ & R1 & C1 & A1).
    destruct (mset_in M1 j (length pre) 1%Z) as (M2 & E2); [lia|lia|]. rewrite E2.
    apply mset_ok in E2 as (_ & _ & R2 & C2 & A2).
    exists M2. split; auto. split; [congruence|]. split; [congruence|].
    intros e i'. rewrite A2, A1, Hat, app_length. cbn [length]. rewrite Nat.add_1_r.
    destruct (Nat.eq_dec e (length pre)) as [->|Hne].
    + rewrite Nat.eqb_refl, !andb_true_r, Nat.ltb_irrefl.
      replace (length pre <? S (length pre)) with true by (symmetry; apply Nat.ltb_lt; lia).
      rewrite Hnth, Ei, Ej. reflexivity.
    + rewrite ltb_S_other by auto. apply Nat.eqb_neq in Hne. rewrite Hne, !andb_false_r. reflexivity.
  - exists B1. split; auto. rewrite combine_length, seq_length, Nat.min_id in HP. auto.
Qed.

(** A face: sorted nodes, its three edges in the graph. *)
Definition face_ok (E : list (nat * nat)) (t : tri) : Prop :=
  let '(a, b, c) := t in In (a, b) E /\ In (b, c) E /\ In (a, c) E.

Definition b2_at (E : list (nat * nat)) (faces : list tri) (k : nat) (M : mat) : Prop :=
  m_r M = length E /\ m_c M = length faces /\
  forall e j, m_at M e j =
    match (if j <? k then nth_error faces j else None), nth_error E e with
    | Some t, Some (u, v) => runs t u v
    | _, _ => 0%Z
    end.

Lemma fill_face_ok V E faces M t : ocean_ok V E -> forall k, nth_error faces k = Some t ->
  face_ok E t -> b2_at E faces k M ->
  exists M', fill_face E M (k, t) = Ok M' /\ b2_at E faces (S k) M'.
Proof.
  intros H k Hk Ht (Hr & Hc & Hat). destruct t as [[a b] c]. destruct Ht as (Hab & Hbc & Hac).
  pose proof (oo_ends _ _ H _ _ Hab) as (Lab & _). pose proof (oo_ends _ _ H _ _ Hbc) as (Lbc & _).
  assert (Hlt : k < length faces) by (apply nth_error_Some; congruence).
  unfold fill_face.
  destruct (lookup_in _ _ Hab) as (e1 & E1), (lookup_in _ _ Hbc) as (e2 & E2), (lookup_in _ _ Hac) as (e3 & E3).
  rewrite E1, E2, E3. cbn [bind]. apply lookup_ok in E1, E2, E3.
  assert (L1 : e1 < length E) by (apply nth_error_Some; congruence).
  assert (L2 : e2 < length E) by (apply nth_error_Some; congruence).
  assert (L3 : e3 < length E) by (apply nth_error_Some; congruence).
  destruct (mset_in M e1 k 1%Z) as (M1 & F1); [lia|lia|]. rewrite F1. cbn [bind]. apply mset_ok in F1 as (_ & _ & R1 & C1 & A1).
  destruct (mset_in M1 e2 k 1%Z) as (M2 & F2); [lia|lia|]. rewrite F2. cbn [bind]. apply mset_ok in F2 as (_ & _ & R2 & C2 & A2).
  destruct (mset_in M2 e3 k (-1)%Z) as (M3 & F3); [lia|lia|]. rewrite F3. apply mset_ok in F3 as (_ & _ & R3 & C3 & A3).
  exists M3. split; auto. split; [congruence|]. split; [congruence|].
  intros e j. rewrite A3, A2, A1, Hat. destruct (Nat.eq_dec j k) as [->|Hne].
  - rewrite Nat.eqb_refl, !andb_true_r, Nat.ltb_irrefl.
    replace (k <? S k) with true by (symmetry; apply Nat.ltb_lt; lia). rewrite Hk.
    destruct (nth_error E e) as [[u v]|] eqn:Ee.
    + pose proof (nth_error_In _ _ Ee) as Hi. apply (oo_ends _ _ H) in Hi as (Luv & _).
      assert (U : forall e' p, nth_error E e' = Some p -> (e =? e') = pair_eqb (u, v) p).
      { intros e' p E'. destruct (pair_eqb (u, v) p) eqn:Ep.
        - apply pair_eqb_iff in Ep. subst p. apply Nat.eqb_eq. apply (proj1 (NoDup_nth_error E) (oo_edges _ _ H)).
          + apply nth_error_Some. congruence.
          + congruence.
        - apply Nat.eqb_neq. intros <-. rewrite Ee in E'. injection E' as <-.
          assert (pair_eqb (u, v) (u, v) = true) by (apply pair_eqb_iff; auto). congruence. }
      rewrite (U e1 _ E1), (U e2 _ E2), (U e3 _ E3). unfold pair_eqb, runs, step. cbn [fst snd].
      nateqb; subst; simpl; lia.
    + apply nth_error_None in Ee.
      replace (e =? e3) with false by (symmetry; apply Nat.eqb_neq; lia).
      replace (e =? e2) with false by (symmetry; apply Nat.eqb_neq; lia).
      replace (e =? e1) with false by (symmetry; apply Nat.eqb_neq; lia). auto.
  - rewrite ltb_S_other by auto. apply Nat.eqb_neq in Hne. rewrite Hne, !andb_false_r. reflexivity.
Qed.

Lemma incidence_matrices_spec V E faces : ocean_ok V E -> (forall t, In t faces -> face_ok E t) ->
  exists B1 B2, incidence_matrices V E faces = Ok (B1, B2) /\
    b1_at V E (length E) B1 /\ b2_at E faces (length faces) B2.
Proof.
  intros H HF. unfold incidence_matrices. destruct (nx_incidence_spec V E H) as (B1 & -> & H1). cbn [bind].
  destruct (foldM_exists (fill_face E) (fun pre M => b2_at E faces (length pre) M)
     (mzeros (length E) (length faces)) (combine (seq 0 (length faces)) faces)) as (B2 & -> & HP).
  - split; auto.
  - intros pre [k t] post M El Hf. apply combine_seq_split in El as (Hk & Hnth & _). simpl in Hk. subst k.
    destruct (fill_face_ok V E faces M t H (length pre) Hnth) as (M' & -> & H'); auto.
    { apply HF. eapply nth_error_In; eauto. }
    exists M'. split; auto. rewrite app_length. cbn [length]. rewrite Nat.add_1_r. auto.
  - cbn [bind]. exists B1, B2. rewrite combine_length, seq_length, Nat.min_id in HP. auto.
Qed.

(** Success of the lookups is also necessary. *)
Lemma fill_face_lookups E M k t M' : fill_face E M (k, t) = Ok M' -> face_ok E t.
Proof.
  destruct t as [[a b] c]. unfold fill_face. intros H.
  apply bind_ok in H as (e1 & H1 & H). apply bind_ok in H as (e2 & H2 & H). apply bind_ok in H as (e3 & H3 & _).
  apply lookup_ok in H1, H2, H3. repeat split; eapply nth_error_In; eauto.
Qed.
Lemma incidence_faces V E faces B1 B2 : incidence_matrices V E faces = Ok (B1, B2) ->
  forall t, In t faces -> face_ok E t.
Proof.
  intros H. unfold incidence_matrices in H. apply bind_ok in H as (B1' & _ & H). apply bind_ok in H as (B2' & H & _).
  assert (G : forall t, In t (map snd (combine (seq 0 (length faces)) faces)) -> face_ok E t).
  { revert H. apply (foldM_inv (fill_face E) (fun pre _ => forall t, In t (map snd pre) -> face_ok E t)).
    - intros t [].
    - intros pre [k t] post M M' _ Hp Hf t'. rewrite map_app, in_app_iff. cbn [map snd In].
      intros [?|[<-|[]]]; auto. eapply fill_face_lookups; eauto. }
  rewrite map_snd_combine_seq in G. auto.
Qed.

(** ** A boundary pair over positions *)

Definition posn (V : list nat) (v : nat) : nat := match node_pos V v with Some i => i | None => 0 end.
Definition pos_edge (V : list nat) (E : list (nat * nat)) (i j : nat) : Prop :=
  exists u v, nth_error V i = Some u /\ nth_error V j = Some v /\ (In (u, v) E \/ In (v, u) E).

Lemma pos_edge_sym V E i j : pos_edge V E i j -> pos_edge V E j i.
Proof. intros (u & v & ? & ? & ?). exists v, u. tauto. Qed.

Lemma posn_nth V v : In v V -> nth_error V (posn V v) = Some v.
Proof. intros H. unfold posn. destruct (node_pos_in V v H) as (i & E). rewrite E. apply node_pos_nth; auto. Qed.
Lemma nth_posn V i v : NoDup V -> nth_error V i = Some v -> posn V v = i.
Proof. intros Hn H. unfold posn. rewrite (nth_node_pos V v i); auto. Qed.
Lemma posn_lt V u v : StronglySorted lt V -> In u V -> In v V -> (posn V u < posn V v <-> u < v).
Proof. intros HS Hu Hv. apply (sorted_nth V HS); apply posn_nth; auto. Qed.
Lemma posn_eqb V u v : In u V -> In v V -> (posn V u =? posn V v) = (u =? v).
Proof.
  intros Hu Hv. destruct (Nat.eqb_spec u v) as [->|Hne]; [apply Nat.eqb_refl|].
  apply Nat.eqb_neq. intros E. apply Hne. apply posn_nth in Hu, Hv. rewrite E in Hu. congruence.
Qed.

Lemma ocean_edge_col V E B1 e a b : ocean_ok V E -> b1_at V E (length E) B1 ->
  nth_error E e = Some (a, b) -> edge_col B1 e (posn V a) (posn V b).
Proof.
  intros H (Hr & Hc & Hat) He. pose proof (nth_error_In _ _ He) as Hi.
  apply (oo_ends _ _ H) in Hi as (L & Ha & Hb). split; [apply posn_lt; auto; apply H|].
  split; [rewrite Hr; apply nth_error_Some; rewrite posn_nth; auto; discriminate|].
  intros i. rewrite Hat.
  assert (Le : e < length E) by (apply nth_error_Some; congruence). apply Nat.ltb_lt in Le. rewrite Le, He.
  unfold posn. destruct (node_pos_in V a Ha) as (x & Ex), (node_pos_in V b Hb) as (y & Ey). rewrite Ex, Ey.
  assert (x <> y). { intros ->. apply node_pos_nth in Ex, Ey. rewrite Ex in Ey. injection Ey as ->. lia. }
  unfold ind. nateqb; subst; lia.
Qed.

Lemma runs_posn V t u v : (forall x, In x (verts t) -> In x V) -> In u V -> In v V ->
  runs (tri_map (posn V) t) (posn V u) (posn V v) = runs t u v.
Proof.
  intros Ht Hu Hv. destruct t as [[a b] c]. unfold runs, tri_map, step.
  assert (In a V /\ In b V /\ In c V) as (Ha & Hb & Hc) by (repeat split; apply Ht; simpl; auto).
  rewrite !posn_eqb by auto. reflexivity.
Qed.

Lemma face_nodes V E t : ocean_ok V E -> face_ok E t -> (forall x, In x (verts t) -> In x V) /\ proper t.
Proof.
  destruct t as [[a b] c]. intros H (H1 & H2 & H3).
  apply (oo_ends _ _ H) in H1 as (? & ? & ?), H2 as (? & ? & ?), H3 as (? & ? & ?).
  split; [|simpl; lia]. intros x [<-|[<-|[<-|[]]]]; auto.
Qed.

Lemma ocean_pair V E faces B1 B2 : ocean_ok V E -> (forall t, In t faces -> face_ok E t) ->
  b1_at V E (length E) B1 -> b2_at E faces (length faces) B2 ->
  boundary_pair (pos_edge V E) (map (tri_map (posn V)) faces) B1 B2.
Proof.
  intros H HF H1 H2. pose proof H1 as (Hr & Hc & _). pose proof H2 as (Hr2 & Hc2 & Hat2).
  pose proof (StronglySorted_NoDup _ (oo_sorted _ _ H)) as HnV.
  assert (Hcols : forall e, e < m_c B1 -> exists u v, nth_error E e = Some (u, v) /\ In u V /\ In v V /\
             edge_col B1 e (posn V u) (posn V v)).
  { intros e He. destruct (nth_error E e) as [[u v]|] eqn:Ee; [|apply nth_error_None in Ee; lia].
    exists u, v. split; auto. pose proof (nth_error_In _ _ Ee) as Hi. apply (oo_ends _ _ H) in Hi as (L & Ha & Hb).
    split; auto. split; auto. apply (ocean_edge_col V E); auto. }
  split.
  - congruence.
  - rewrite map_length. auto.
  - intros e He. destruct (Hcols e He) as (u & v & Ee & Hu & Hv & Hcol). exists (posn V u), (posn V v).
    split; auto. exists u, v. rewrite !posn_nth by auto. repeat split; auto. left. eapply nth_error_In; eauto.
  - intros a b (u & v & Ea & Eb & Hi) L.
    assert (Luv : u < v) by (apply (sorted_nth V (oo_sorted _ _ H) a b); auto).
    assert (Hi' : In (u, v) E). { destruct Hi as [?|Hi]; auto. apply (oo_ends _ _ H) in Hi. lia. }
    apply In_nth_error in Hi' as (e & Ee). exists e.
    assert (Le : e < length E) by (apply nth_error_Some; congruence).
    rewrite <- (nth_posn V a u), <- (nth_posn V b v) by auto.
    split; [lia|]. split; [apply (ocean_edge_col V E); auto|].
    intros e' He' Hc'. destruct (Hcols e' He') as (u' & v' & Ee' & Hu' & Hv' & Hcol').
    destruct (edge_col_inj _ _ _ _ _ _ Hc' Hcol') as [E1 E2].
    assert (u = u'). { apply Nat.eqb_eq. rewrite <- (posn_eqb V); auto; [apply Nat.eqb_eq; auto|eapply nth_error_In; eauto]. }
    assert (v = v'). { apply Nat.eqb_eq. rewrite <- (posn_eqb V); auto; [apply Nat.eqb_eq; auto|eapply nth_error_In; eauto]. }
    subst. apply (proj1 (NoDup_nth_error E) (oo_edges _ _ H)); [lia|congruence].
  - intros e a b k t He Hcab Hk. destruct (Hcols e He) as (u & v & Ee & Hu & Hv & Hcol).
    destruct (edge_col_inj _ _ _ _ _ _ Hcab Hcol) as [-> ->].
    rewrite nth_error_map in Hk. destruct (nth_error faces k) as [t0|] eqn:Ek; [|discriminate].
    injection Hk as <-. rewrite runs_posn; auto.
    + rewrite Hat2, Ek, Ee. assert (Lk : k < length faces) by (apply nth_error_Some; congruence).
      apply Nat.ltb_lt in Lk. rewrite Lk. reflexivity.
    + apply (face_nodes V E); auto. apply HF. eapply nth_error_In; eauto.
  - intros t Ht. apply in_map_iff in Ht as (t0 & <- & Ht). pose proof (face_nodes V E t0 H (HF t0 Ht)) as (Hv & Hp).
    destruct t0 as [[a b] c]. assert (In a V /\ In b V /\ In c V) as (Ha & Hb & Hc') by (repeat split; apply Hv; simpl; auto).
    simpl in Hp |- *. rewrite <- !Nat.eqb_neq, !posn_eqb, !Nat.eqb_neq by auto. auto.
  - intros a b (Hne & t & Ht & Ha & Hb). apply in_map_iff in Ht as (t0 & <- & Ht).
    pose proof (face_nodes V E t0 H (HF t0 Ht)) as (Hv & Hp). specialize (HF t0 Ht).
    assert (G : exists u v, In u (verts t0) /\ In v (verts t0) /\ u <> v /\ a = posn V u /\ b = posn V v).
    { destruct t0 as [[x y] z]. simpl in Ha, Hb.
      assert (G1 : exists u, In u (verts (x, y, z)) /\ a = posn V u) by (destruct Ha as [<-|[<-|[<-|[]]]]; [exists x|exists y|exists z]; simpl; auto).
      assert (G2 : exists u, In u (verts (x, y, z)) /\ b = posn V u) by (destruct Hb as [<-|[<-|[<-|[]]]]; [exists x|exists y|exists z]; simpl; auto).
      destruct G1 as (u & ? & ?), G2 as (v & ? & ?). exists u, v. repeat split; auto. intros ->. congruence. }
    destruct G as (u & v & Hu & Hv' & Huv & -> & ->). exists u, v. rewrite !posn_nth by auto. split; auto. split; auto.
    destruct t0 as [[x y] z]. destruct HF as (H3 & H4 & H5). simpl in Hu, Hv'.
    destruct Hu as [<-|[<-|[<-|[]]]], Hv' as [<-|[<-|[<-|[]]]]; auto; congruence.
Qed.

(** ** Stripping *)

Lemma strip_step_top res v : exists below, strip_step res v = v :: below.
Proof.
  unfold strip_step. destruct res as [|a [|b below]]; try (eexists; reflexivity).
  destruct (Nat.eqb_spec v b) as [->|]; eexists; reflexivity.
Qed.

(** No x, y, x anywhere. *)
Fixpoint reduced (p : list nat) : Prop :=
  match p with
  | x :: ((_ :: z :: _) as p') => x <> z /\ reduced p'
  | _ => True
  end.

Lemma reduced_tail x p : reduced (x :: p) -> reduced p.
Proof. destruct p as [|y [|z p]]; simpl; auto. tauto. Qed.

Lemma strip_step_reduced res v : reduced res -> reduced (strip_step res v).
Proof.
  intros H. unfold strip_step. destruct res as [|a [|b below]]; [exact I|exact I|].
  destruct (Nat.eqb_spec v b) as [->|Hne]; [apply (reduced_tail a); auto|].
  split; auto.
Qed.
Lemma fold_strip_reduced p : forall res, reduced res -> reduced (fold_left strip_step p res).
Proof. induction p as [|v p IH]; intros res H; simpl; auto. apply IH, strip_step_reduced; auto. Qed.

Lemma reduced_snoc p : forall x y z, reduced (p ++ [x; y]) -> x <> z -> reduced (p ++ [x; y; z]).
Proof.
  induction p as [|a p IH]; intros x y z H Hz; [simpl; auto|].
  pose proof (reduced_tail _ _ H) as Ht. specialize (IH x y z Ht Hz).
  destruct p as [|b [|c p]]; simpl in *; tauto.
Qed.
Lemma reduced_rev p : reduced p -> reduced (rev p).
Proof.
  induction p as [|x p IH]; intros H; [exact I|]. specialize (IH (reduced_tail _ _ H)).
  destruct p as [|y [|z p]]; simpl in *; try exact I.
  rewrite <- !app_assoc in *. simpl in *. apply reduced_snoc; auto. intros ->. tauto.
Qed.

(** A spur x, y, x is cut down to x. *)
Definition unspur (p q : list nat) : Prop :=
  exists l x y r, p = l ++ x :: y :: x :: r /\ q = l ++ x :: r.

Definition unspurs := clos_refl_trans (list nat) unspur.

Lemma strip_reach p : forall res, unspurs (rev res ++ p) (rev (fold_left strip_step p res)).
Proof.
  induction p as [|v p IH]; intros res; simpl; [rewrite app_nil_r; apply rt_refl|].
  eapply rt_trans; [|apply IH]. unfold strip_step.
  assert (Push : rev res ++ v :: p = rev (v :: res) ++ p) by (simpl; rewrite <- app_assoc; reflexivity).
  destruct res as [|a [|b below]]; try (rewrite Push; apply rt_refl).
  destruct (Nat.eqb_spec v b) as [->|Hne]; [|rewrite Push; apply rt_refl].
  apply rt_step. exists (rev below), b, a, p. simpl. rewrite <- !app_assoc. auto.
Qed.

Lemma strip_invariant p q : unspur p q -> strip_path p = strip_path q.
Proof.
  intros (l & x & y & r & -> & ->). unfold strip_path. f_equal. rewrite !fold_left_app. cbn [fold_left].
  f_equal. set (s0 := fold_left strip_step l []).
  assert (Hr : reduced s0) by (apply fold_strip_reduced; exact I).
  pose proof (strip_step_reduced s0 x Hr) as Hr'. destruct (strip_step_top s0 x) as (below & E). rewrite E in *.
  destruct below as [|b below].
  - simpl. rewrite Nat.eqb_refl. reflexivity.
  - unfold strip_step at 2. destruct (Nat.eqb_spec y b) as [->|Hne].
    + unfold strip_step. destruct below as [|c below]; auto.
      destruct (Nat.eqb_spec x c) as [->|]; auto. exfalso. simpl in Hr'. tauto.
    + unfold strip_step. rewrite Nat.eqb_refl. reflexivity.
Qed.

Lemma strip_fixed p : reduced p -> strip_path p = p.
Proof.
  intros H. unfold strip_path.
  assert (G : forall p res, reduced (rev res ++ p) -> fold_left strip_step p res = rev p ++ res).
  { clear. induction p as [|v p IH]; intros res H; simpl; auto.
    assert (E : strip_step res v = v :: res).
    { unfold strip_step. destruct res as [|a [|b below]]; auto.
      destruct (Nat.eqb_spec v b) as [->|]; auto. exfalso. simpl in H. rewrite <- !app_assoc in H. simpl in H.
      clear - H. induction (rev below) as [|c l IH]; simpl in H; [tauto|].
      apply IH. destruct (l ++ b :: a :: b :: p) as [|d [|e q]]; simpl in *; tauto. }
    rewrite E, IH.
    - rewrite <- app_assoc. reflexivity.
    - simpl. rewrite <- app_assoc. auto. }
  rewrite G by auto. rewrite app_nil_r. apply rev_involutive.
Qed.

Lemma strip_reduced p : reduced (strip_path p).
Proof. apply reduced_rev, fold_strip_reduced. exact I. Qed.

Lemma strip_unique p q : unspurs p q -> reduced q -> strip_path p = q.
Proof.
  intros H Hq. rewrite <- (strip_fixed q Hq). clear Hq. induction H.
  - apply strip_invariant; auto.
  - auto.
  - congruence.
Qed.

(** *** What cutting a spur preserves *)

Lemma net_app l x r u v : net (l ++ x :: r) u v = (net (l ++ [x]) u v + net (x :: r) u v)%Z.
Proof.
  induction l as [|a l IH]; [cbn [app net]; destruct r; lia|].
  destruct l as [|b l].
  - cbn [app net]. destruct r; lia.
  - change (net ((a :: b :: l) ++ x :: r) u v) with (step a b u v + net ((b :: l) ++ x :: r) u v)%Z.
    change (net ((a :: b :: l) ++ [x]) u v) with (step a b u v + net ((b :: l) ++ [x]) u v)%Z. lia.
Qed.
Lemma step_anti a b u v : (step a b u v + step b a u v = 0)%Z.
Proof. unfold step. nateqb; simpl; lia. Qed.

Lemma unspur_net p q u v : unspur p q -> net p u v = net q u v.
Proof.
  intros (l & x & y & r & -> & ->). rewrite (net_app l x (y :: x :: r)), (net_app l x r).
  change (net (x :: y :: x :: r) u v) with (step x y u v + (step y x u v + net (x :: r) u v))%Z.
  pose proof (step_anti x y u v). lia.
Qed.
Lemma walk_app R l x r : walk_along R (l ++ x :: r) <-> walk_along R (l ++ [x]) /\ walk_along R (x :: r).
Proof.
  induction l as [|a l IH]; [simpl; destruct r; simpl; tauto|].
  destruct l as [|b l].
  - simpl. destruct r; simpl; tauto.
  - change (walk_along R ((a :: b :: l) ++ x :: r)) with (R a b /\ walk_along R ((b :: l) ++ x :: r)).
    change (walk_along R ((a :: b :: l) ++ [x])) with (R a b /\ walk_along R ((b :: l) ++ [x])). tauto.
Qed.
Lemma unspur_walk R p q : unspur p q -> walk_along R p -> walk_along R q.
Proof.
  intros (l & x & y & r & -> & ->). rewrite (walk_app R l x (y :: x :: r)), (walk_app R l x r).
  intros (H1 & H2). split; auto. change (R x y /\ (R y x /\ walk_along R (x :: r))) in H2. tauto.
Qed.
Lemma unspur_starts p q v : unspur p q -> starts p v -> starts q v.
Proof. intros (l & x & y & r & -> & ->). destruct l; auto. Qed.
Lemma unspur_ends p q v : unspur p q -> ends p v -> ends q v.
Proof.
  intros (l & x & y & r & -> & ->). unfold ends. rewrite !rev_app_distr. simpl. rewrite <- !app_assoc. simpl.
  destruct (rev r); auto.
Qed.

(** ** The flow of a path *)

Lemma steps_snoc p a b : steps (p ++ [a; b]) = steps (p ++ [a]) ++ [(a, b)].
Proof.
  induction p as [|x p IH]; auto. destruct p as [|y p]; auto.
  change (steps ((x :: y :: p) ++ [a; b])) with ((x, y) :: steps ((y :: p) ++ [a; b])). rewrite IH. reflexivity.
Qed.

Fixpoint net_steps (l : list (nat * nat)) (u v : nat) : Z :=
  match l with [] => 0%Z | (a, b) :: l' => (step a b u v + net_steps l' u v)%Z end.
Lemma net_steps_path p u v : net_steps (steps p) u v = net p u v.
Proof.
  induction p as [|x p IH]; auto. destruct p as [|y p]; auto.
  change (net_steps (steps (x :: y :: p)) u v) with (step x y u v + net_steps (steps (y :: p)) u v)%Z.
  rewrite IH. reflexivity.
Qed.
Lemma net_steps_app l l' u v : net_steps (l ++ l') u v = (net_steps l u v + net_steps l' u v)%Z.
Proof. induction l as [|[a b] l IH]; simpl; auto. rewrite IH. lia. Qed.
Lemma walk_steps R p : walk_along R p <-> forall a b, In (a, b) (steps p) -> R a b.
Proof.
  induction p as [|x p IH]; [simpl; tauto|]. destruct p as [|y p]; [simpl; tauto|].
  change (walk_along R (x :: y :: p)) with (R x y /\ walk_along R (y :: p)). rewrite IH.
  change (steps (x :: y :: p)) with ((x, y) :: steps (y :: p)). split.
  - intros [H1 H2] a b [E|?]; auto. congruence.
  - intros H. split; [apply H; left; auto|]. intros; apply H; right; auto.
Qed.

Definition linked (E : list (nat * nat)) (a b : nat) : Prop := In (a, b) E \/ In (b, a) E.

Lemma flow_step_spec V E f a b f' pre : ocean_ok V E ->
  (if a <? b
   then let* k := lookup_edge E (a, b) in upd f k (fun z => (z + 1)%Z)
   else let* k := lookup_edge E (b, a) in upd f k (fun z => (z - 1)%Z)) = Ok f' ->
  length f = length E ->
  (forall e u v, nth_error E e = Some (u, v) -> nth e f 0%Z = net_steps pre u v) ->
  linked E a b /\ length f' = length E /\
  (forall e u v, nth_error E e = Some (u, v) -> nth e f' 0%Z = net_steps (pre ++ [(a, b)]) u v).
Proof.
  intros H Hs HL Hf.
  assert (U : forall e e' p, nth_error E e = Some p -> nth_error E e' = Some p -> e = e').
  { intros e e' p H1 H2. apply (proj1 (NoDup_nth_error E) (oo_edges _ _ H)); [apply nth_error_Some|]; congruence. }
  destruct (Nat.ltb_spec a b) as [L|L]; apply bind_ok in Hs as (k & Hk & Hs); apply lookup_ok in Hk;
    pose proof (nth_error_In _ _ Hk) as Hin;
    destruct (upd_nth _ _ _ _ 0%Z Hs) as (_ & HL' & Hn & _).
  - split; [left; auto|]. split; [lia|]. intros e u v He. rewrite Hn, net_steps_app, (Hf e u v He). simpl.
    pose proof (nth_error_In _ _ He) as Hi. apply (oo_ends _ _ H) in Hi as (Luv & _).
    destruct (Nat.eqb_spec e k) as [->|Hne].
    + rewrite Hk in He. injection He as <- <-. unfold step. nateqb; simpl; lia.
    + assert (a <> u \/ b <> v).
      { destruct (Nat.eq_dec a u), (Nat.eq_dec b v); subst; auto. exfalso. apply Hne. eapply U; eauto. }
      unfold step. nateqb; simpl; lia.
  - apply (oo_ends _ _ H) in Hin as (Lba & _).
    split; [right; eapply nth_error_In; eauto|]. split; [lia|]. intros e u v He. rewrite Hn, net_steps_app, (Hf e u v He). simpl.
    pose proof (nth_error_In _ _ He) as Hi. apply (oo_ends _ _ H) in Hi as (Luv & _).
    destruct (Nat.eqb_spec e k) as [->|Hne].
    + rewrite Hk in He. injection He as <- <-. unfold step. nateqb; simpl; lia.
    + assert (b <> u \/ a <> v).
      { destruct (Nat.eq_dec b u), (Nat.eq_dec a v); subst; auto. exfalso. apply Hne. eapply U; eauto. }
      unfold step. nateqb; simpl; lia.
Qed.

Lemma path_to_flow_spec V E p x : ocean_ok V E -> path_to_flow E p = Ok x ->
  walk_along (linked E) p /\ length x = length E /\
  forall e a b, nth_error E e = Some (a, b) -> nth e x 0%Z = net p a b.
Proof.
  intros H Hx. unfold path_to_flow in Hx.
  pose (P := fun pre f => (forall a b, In (a, b) pre -> linked E a b) /\ length f = length E /\
               forall e a b, nth_error E e = Some (a, b) -> nth e f 0%Z = net_steps pre a b).
  assert (HP : P (steps p) x).
  { revert Hx. apply foldM_inv.
    - split; [intros ? ? []|]. split; [apply repeat_length|]. intros e a b He. simpl. apply nth_repeat.
    - intros pre [a b] post f f' _ (P1 & P2 & P3) Hs.
      destruct (flow_step_spec V E f a b f' pre H Hs P2 P3) as (Q1 & Q2 & Q3).
      split; [|split; auto]. intros a' b'. rewrite in_app_iff. intros [?|[E'|[]]]; auto. congruence. }
  destruct HP as (P1 & P2 & P3). split; [apply walk_steps; auto|]. split; auto.
  intros e a b He. rewrite <- net_steps_path. auto.
Qed.

Lemma path_to_flow_ok V E p : ocean_ok V E -> walk_along (linked E) p -> exists x, path_to_flow E p = Ok x.
Proof.
  intros H Hw. rewrite walk_steps in Hw. unfold path_to_flow.
  match goal with |- exists x, foldM ?f ?a ?l = _ =>
    destruct (foldM_exists f (fun _ x => length x = length E) a l) as (x & Hx & _) end; [| |eauto].
  - apply repeat_length.
  - intros pre [a b] post f El HL. assert (Hl : linked E a b) by (apply Hw; rewrite El; apply in_or_app; right; left; auto).
    destruct (Nat.ltb_spec a b) as [L|L].
    + assert (Hi : In (a, b) E). { destruct Hl as [?|Hl]; auto. apply (oo_ends _ _ H) in Hl. lia. }
      destruct (lookup_in _ _ Hi) as (k & Hk). rewrite Hk. cbn [bind]. apply lookup_ok in Hk.
      destruct (upd_ok f k (fun z => (z + 1)%Z)) as (r & Er & _); [rewrite HL; apply nth_error_Some; congruence|].
      exists r. split; auto. apply (upd_nth _ _ _ _ 0%Z) in Er as (_ & -> & _). auto.
    + assert (Hi : In (b, a) E). { destruct Hl as [Hl|?]; auto. apply (oo_ends _ _ H) in Hl. lia. }
      destruct (lookup_in _ _ Hi) as (k & Hk). rewrite Hk. cbn [bind]. apply lookup_ok in Hk.
      destruct (upd_ok f k (fun z => (z - 1)%Z)) as (r & Er & _); [rewrite HL; apply nth_error_Some; congruence|].
      exists r. split; auto. apply (upd_nth _ _ _ _ 0%Z) in Er as (_ & -> & _). auto.
Qed.

Lemma walk_in_nodes V E p : ocean_ok V E -> walk_along (linked E) p -> 2 <= length p -> forall v, In v p -> In v V.
Proof.
  intros H Hw Hl v Hv. destruct p as [|a [|b p]]; simpl in Hl; try lia.
  assert (Hab : forall a b, linked E a b -> In a V /\ In b V) by (intros x y [Hi|Hi]; apply (oo_ends _ _ H) in Hi; tauto).
  clear Hl. revert a b Hw Hv. induction p as [|c p IH]; intros a b Hw Hv.
  - simpl in Hw. destruct Hw as (Hw & _). apply Hab in Hw as (Ha & Hb). destruct Hv as [<-|[<-|[]]]; auto.
  - destruct Hw as (Hw & Hw'). destruct Hv as [<-|Hv]; [apply (Hab a b Hw)|]. apply (IH b c); auto.
Qed.

Lemma net_posn V p u v : (forall x, In x p -> In x V) -> In u V -> In v V ->
  net (map (posn V) p) (posn V u) (posn V v) = net p u v.
Proof.
  intros Hp Hu Hv. induction p as [|a p IH]; auto. destruct p as [|b p]; auto.
  change (net (map (posn V) (a :: b :: p)) (posn V u) (posn V v)) with
    (step (posn V a) (posn V b) (posn V u) (posn V v) + net (map (posn V) (b :: p)) (posn V u) (posn V v))%Z.
  rewrite IH by (intros; apply Hp; right; auto). unfold step at 1. rewrite !posn_eqb; auto; try (apply Hp; simpl; auto).
Qed.
Lemma walk_map (f : nat -> nat) (R R' : nat -> nat -> Prop) p : (forall a b, In a p -> In b p -> R a b -> R' (f a) (f b)) ->
  walk_along R p -> walk_along R' (map f p).
Proof.
  induction p as [|a p IH]; intros Hf H; [exact I|]. destruct p as [|b p]; [exact I|].
  destruct H as (H1 & H2). split.
  - apply Hf; simpl; auto.
  - apply IH; auto. intros; apply Hf; simpl in *; auto.
Qed.

(** The divergence of the flow of a path, row by row. *)
Lemma path_outflow V E faces B1 B2 p x s t : ocean_ok V E -> (forall t, In t faces -> face_ok E t) ->
  b1_at V E (length E) B1 -> b2_at E faces (length faces) B2 ->
  path_to_flow E p = Ok x -> starts p s -> ends p t ->
  forall i v, nth_error V i = Some v -> outflow B1 x i = (ind t v - ind s v)%Z.
Proof.
  intros H HF H1 H2 Hx Hs Ht i v Hi. pose proof (ocean_pair V E faces B1 B2 H HF H1 H2) as BP.
  destruct (path_to_flow_spec V E p x H Hx) as (Hw & HL & Hnet).
  pose proof (StronglySorted_NoDup _ (oo_sorted _ _ H)) as HnV.
  pose proof H1 as (Hr & Hc & _).
  destruct p as [|a p]; [discriminate Hs|]. destruct p as [|b p].
  - injection Hs as <-. injection Ht as <-. unfold outflow.
    rewrite (sumZ_ext _ _ (fun _ => 0%Z)); [rewrite sumZ_zero; auto; lia|].
    intros e He. destruct (nth_error E e) as [[u w]|] eqn:Ee; [|apply nth_error_None in Ee; lia].
    rewrite (Hnet e u w Ee). simpl. lia.
  - set (q := a :: b :: p) in *. assert (Hin : forall x, In x q -> In x V) by (apply (walk_in_nodes V E); auto; simpl; lia).
    assert (Hs' : In s V). { apply Hin. unfold starts in Hs. simpl in Hs. injection Hs as <-. left; auto. }
    assert (Ht' : In t V).
    { apply Hin. unfold ends in Ht. apply in_rev. destruct (rev q); [discriminate|]. injection Ht as <-. left; auto. }
    rewrite (net_outflow (pos_edge V E) (map (tri_map (posn V)) faces) B1 B2 (pos_edge_sym V E) BP x (map (posn V) q)
               (posn V s) (posn V t)).
    + rewrite <- (nth_posn V i v) by auto. pose proof (nth_error_In _ _ Hi). unfold ind. rewrite !posn_eqb by auto. auto.
    + unfold starts in *. simpl in *. congruence.
    + unfold ends in *. rewrite <- map_rev. destruct (rev q); [discriminate|]. simpl in *. congruence.
    + apply (walk_map _ (linked E)); auto. intros c d Hc' Hd Hl. split.
      * rewrite <- Nat.eqb_neq, posn_eqb, Nat.eqb_neq by auto.
        destruct Hl as [Hl|Hl]; apply (oo_ends _ _ H) in Hl; lia.
      * exists c, d. rewrite !posn_nth by auto. auto.
    + intros e u w He Hcol. destruct (nth_error E e) as [[u' w']|] eqn:Ee; [|apply nth_error_None in Ee; lia].
      pose proof (ocean_edge_col V E B1 e u' w' H H1 Ee) as Hcol'.
      destruct (edge_col_inj _ _ _ _ _ _ Hcol Hcol') as [-> ->].
      pose proof (nth_error_In _ _ Ee) as Hi'. apply (oo_ends _ _ H) in Hi' as (_ & ? & ?).
      rewrite net_posn by auto. apply Hnet; auto.
Qed.
