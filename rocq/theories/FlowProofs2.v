(** Proofs about boundary matrices: the two matrices of a triangulation form a boundary pair, and
    what follows for every boundary pair. *)
From Coq Require Import List Arith Lia ZArith Bool.
From Verif Require Import Base ComplexModel FlowModel FlowSpec FlowProofs.
Import ListNotations.

Lemma ind_refl v : ind v v = 1%Z.
Proof. unfold ind. rewrite Nat.eqb_refl. auto. Qed.
Lemma ind_neq v i : i <> v -> ind v i = 0%Z.
Proof. intros H. unfold ind. apply Nat.eqb_neq in H. rewrite H. auto. Qed.

Ltac nateqb := repeat match goal with
  | H : context [?a =? ?b] |- _ => destruct (Nat.eqb_spec a b)
  | |- context [?a =? ?b] => destruct (Nat.eqb_spec a b)
  end.

(** ** Consequences of being a boundary pair *)

Lemma edge_col_edge_like B e a b : edge_col B e a b -> edge_like B e.
Proof.
  intros (Hab & Hb & H). exists a, b. rewrite !H, !ind_refl, !ind_neq by lia.
  split; [lia|]. split; [lia|]. split; [lia|]. split; [lia|].
  intros i _ Ha' Hb'. rewrite H, !ind_neq by auto. lia.
Qed.

Lemma edge_col_inj B e a b a' b' : edge_col B e a b -> edge_col B e a' b' -> a = a' /\ b = b'.
Proof.
  intros (H1 & _ & H2) (H3 & _ & H4).
  pose proof (H2 a) as Ea. pose proof (H2 b) as Eb. rewrite H4 in Ea, Eb.
  unfold ind in *. nateqb; subst; try lia; auto.
Qed.

Section Pair.
Variables (R : nat -> nat -> Prop) (ts : list tri) (B1 B2 : mat).
Hypothesis Rsym : forall a b, R a b -> R b a.
Hypothesis BP : boundary_pair R ts B1 B2.

(** The column of an undirected side. *)
Lemma side_column a b : R a b -> a <> b ->
  exists e u v, (e < m_c B1) /\ edge_col B1 e u v /\ ((u = a /\ v = b) \/ (u = b /\ v = a)) /\
    (forall e' u' v', e' < m_c B1 -> edge_col B1 e' u' v' ->
       (u' = a /\ v' = b) \/ (u' = b /\ v' = a) -> e' = e).
Proof.
  intros H Hne. destruct (Nat.lt_total a b) as [L|[E|L]]; [|congruence|].
  - destruct (bp_each _ _ _ _ BP a b H L) as (e & He & Hc & Hu).
    exists e, a, b. split; auto. split; auto. split; auto.
    intros e' u' v' He' Hc' [[-> ->]|[-> ->]]; auto. destruct Hc' as (? & _). lia.
  - destruct (bp_each _ _ _ _ BP b a (Rsym _ _ H) L) as (e & He & Hc & Hu).
    exists e, b, a. split; auto. split; auto. split; auto.
    intros e' u' v' He' Hc' [[-> ->]|[-> ->]]; auto. destruct Hc' as (? & _). lia.
Qed.

(** A signed step as a function of the column. *)
Definition colstep (p q e : nat) : Z :=
  match find (fun ab => (m_at B1 (fst ab) e =? -1)%Z && (m_at B1 (snd ab) e =? 1)%Z)
          (list_prod (seq 0 (m_r B1)) (seq 0 (m_r B1))) with
  | Some (u, v) => step p q u v
  | None => 0%Z
  end.
Lemma colstep_ok p q e u v : edge_col B1 e u v -> colstep p q e = step p q u v.
Proof.
  intros (Hlt & Hb & Hc). unfold colstep. destruct (find _ _) as [[u' v']|] eqn:E.
  - apply find_some in E as [_ E]. simpl in E. apply andb_true_iff in E as [E1 E2].
    apply Z.eqb_eq in E1, E2. rewrite Hc in E1, E2.
    unfold ind in *. nateqb; subst; try lia; auto.
  - pose proof (find_none _ _ E (u, v)) as F. cbn [fst snd] in F.
    rewrite !Hc, !ind_refl, !ind_neq in F by lia. discriminate F.
    apply in_prod; apply in_seq; lia.
Qed.

(** Sum of a signed step against the node-edge matrix. *)
Lemma step_sum (f : nat -> Z) a b i : R a b -> a <> b ->
  (forall e u v, e < m_c B1 -> edge_col B1 e u v -> f e = step a b u v) ->
  sumZ (m_c B1) (fun e => (m_at B1 i e * f e)%Z) = (ind b i - ind a i)%Z.
Proof.
  intros H Hne Hf. destruct (side_column a b H Hne) as (e & u & v & He & Hc & Huv & Hu).
  rewrite (sumZ_single _ e); auto.
  - rewrite (Hf e u v He Hc). destruct Hc as (Hlt & _ & Hc). rewrite Hc.
    unfold step. destruct Huv as [[-> ->]|[-> ->]]; nateqb; simpl; try lia.
  - intros e' He' Hne'. destruct (bp_cols _ _ _ _ BP e' He') as (u' & v' & _ & Hc').
    rewrite (Hf e' u' v' He' Hc').
    replace (step a b u' v') with 0%Z; [lia|]. unfold step.
    nateqb; simpl; try lia; subst; exfalso; apply Hne'; eapply Hu; eauto.
Qed.

Lemma runs_split (f : nat -> Z) a b c i :
  (forall e u v, e < m_c B1 -> edge_col B1 e u v -> f e = runs (a, b, c) u v) ->
  R a b -> R b c -> R c a -> a <> b -> b <> c -> c <> a ->
  sumZ (m_c B1) (fun e => (m_at B1 i e * f e)%Z) = 0%Z.
Proof.
  intros Hf Hab Hbc Hca Na Nb Nc.
  pose (g := colstep).
  assert (Hg : forall p q e u v, e < m_c B1 -> edge_col B1 e u v -> g p q e = step p q u v) by (intros; apply colstep_ok; auto).
  rewrite (sumZ_ext _ _ (fun e => (m_at B1 i e * g a b e + m_at B1 i e * g b c e + m_at B1 i e * g c a e)%Z)).
  - rewrite !sumZ_add, (step_sum (g a b) a b), (step_sum (g b c) b c), (step_sum (g c a) c a) by auto. lia.
  - intros e He. destruct (bp_cols _ _ _ _ BP e He) as (u & v & _ & Hc).
    rewrite (Hf e u v He Hc), !(Hg _ _ e u v He Hc). unfold runs. lia.
Qed.

Lemma sides_R a b c : In (a, b, c) ts -> R a b /\ R b c /\ R c a /\ a <> b /\ b <> c /\ c <> a.
Proof.
  intros H. pose proof (bp_proper _ _ _ _ BP _ H) as (H1 & H2 & H3).
  assert (G : forall x y, In x [a; b; c] -> In y [a; b; c] -> x <> y -> R x y).
  { intros x y Hx Hy Hn. apply (bp_sides _ _ _ _ BP). split; auto. exists (a, b, c). auto. }
  repeat split; auto; apply G; simpl; auto.
Qed.

Lemma pair_product_zero : product_zero B1 B2.
Proof.
  split; [symmetry; apply BP|]. intros i k _ Hk. rewrite (bp_tris _ _ _ _ BP) in Hk.
  destruct (nth_error ts k) as [[[a b] c]|] eqn:E; [|apply nth_error_None in E; lia].
  pose proof (nth_error_In _ _ E) as Hin. apply sides_R in Hin as (? & ? & ? & ? & ? & ?).
  apply (runs_split (fun j => m_at B2 j k) a b c); auto.
  intros e u v He Hc. apply (bp_runs _ _ _ _ BP e u v k _ He Hc E).
Qed.

Lemma pair_edge_like e : e < m_c B1 -> edge_like B1 e.
Proof. intros H. destruct (bp_cols _ _ _ _ BP e H) as (a & b & _ & Hc). eapply edge_col_edge_like; eauto. Qed.

Lemma runs_cases a b c u v : a <> b -> b <> c -> c <> a -> u < v ->
  (((u = a /\ v = b) \/ (u = b /\ v = a) \/ (u = b /\ v = c) \/ (u = c /\ v = b) \/
    (u = c /\ v = a) \/ (u = a /\ v = c)) /\ Z.abs (runs (a, b, c) u v) = 1%Z) \/
  (~ ((u = a /\ v = b) \/ (u = b /\ v = a) \/ (u = b /\ v = c) \/ (u = c /\ v = b) \/
    (u = c /\ v = a) \/ (u = a /\ v = c)) /\ runs (a, b, c) u v = 0%Z).
Proof.
  intros. unfold runs, step. nateqb; subst; simpl; try lia.
Qed.

Lemma pair_triangle_like k : k < m_c B2 -> triangle_like B2 k.
Proof.
  intros Hk. rewrite (bp_tris _ _ _ _ BP) in Hk.
  destruct (nth_error ts k) as [[[a b] c]|] eqn:E; [|apply nth_error_None in E; lia].
  pose proof (nth_error_In _ _ E) as Hin. apply sides_R in Hin as (Rab & Rbc & Rca & Na & Nb & Nc).
  destruct (side_column a b Rab Na) as (e1 & u1 & v1 & He1 & Hc1 & Huv1 & Hu1).
  destruct (side_column b c Rbc Nb) as (e2 & u2 & v2 & He2 & Hc2 & Huv2 & Hu2).
  destruct (side_column c a Rca Nc) as (e3 & u3 & v3 & He3 & Hc3 & Huv3 & Hu3).
  exists e1, e2, e3. rewrite (bp_rows _ _ _ _ BP).
  split; auto. split; auto. split; auto.
  assert (D : forall e e' u v u' v', edge_col B1 e u v -> edge_col B1 e' u' v' -> e = e' -> u = u' /\ v = v').
  { intros e e' u v u' v' H1 H2 <-. eapply edge_col_inj; eauto. }
  split; [intros Ee; destruct (D _ _ _ _ _ _ Hc1 Hc2 Ee); lia|].
  split; [intros Ee; destruct (D _ _ _ _ _ _ Hc2 Hc3 Ee); lia|].
  split; [intros Ee; destruct (D _ _ _ _ _ _ Hc1 Hc3 Ee); lia|].
  assert (S : forall e u v, e < m_c B1 -> edge_col B1 e u v ->
    (u = a /\ v = b) \/ (u = b /\ v = a) \/ (u = b /\ v = c) \/ (u = c /\ v = b) \/
    (u = c /\ v = a) \/ (u = a /\ v = c) -> Z.abs (m_at B2 e k) = 1%Z).
  { intros e u v He Hc Huv. rewrite (bp_runs _ _ _ _ BP e u v k _ He Hc E).
    destruct (runs_cases a b c u v) as [[_ ?]|[? _]]; auto; [apply Hc|contradiction]. }
  split; [apply (S e1 u1 v1); auto; tauto|].
  split; [apply (S e2 u2 v2); auto; tauto|].
  split; [apply (S e3 u3 v3); auto; tauto|].
  intros e He N1 N2 N3. destruct (bp_cols _ _ _ _ BP e He) as (u & v & _ & Hc).
  rewrite (bp_runs _ _ _ _ BP e u v k _ He Hc E).
  destruct (runs_cases a b c u v) as [[Huv _]|[_ ?]]; auto; [apply Hc|].
  exfalso. destruct Huv as [?|[?|[?|[?|[?|?]]]]].
  - apply N1. apply (Hu1 e u v); auto.
  - apply N1. apply (Hu1 e u v); auto.
  - apply N2. apply (Hu2 e u v); auto.
  - apply N2. apply (Hu2 e u v); auto.
  - apply N3. apply (Hu3 e u v); auto.
  - apply N3. apply (Hu3 e u v); auto.
Qed.

(** The divergence of a flow that runs along a walk. *)
Lemma net_outflow (x : list Z) : forall p s t, starts p s -> ends p t ->
  walk_along (fun a b => a <> b /\ R a b) p ->
  (forall e u v, e < m_c B1 -> edge_col B1 e u v -> nth e x 0%Z = net p u v) ->
  forall i, outflow B1 x i = (ind t i - ind s i)%Z.
Proof.
  intros p s t Hs Ht Hw Hx i. unfold outflow.
  pose (g := colstep).
  assert (Hg : forall p q e u v, e < m_c B1 -> edge_col B1 e u v -> g p q e = step p q u v) by (intros; apply colstep_ok; auto).
  pose (G := fix G (p : list nat) (e : nat) : Z := match p with
              | a :: ((b :: _) as p') => (g a b e + G p' e)%Z | _ => 0%Z end).
  assert (HG : forall e u v, e < m_c B1 -> edge_col B1 e u v -> nth e x 0%Z = G p e).
  { intros e u v He Hc. rewrite (Hx e u v He Hc). clear - Hg He Hc.
    induction p as [|a [|b p] IH]; simpl; auto. f_equal; auto. symmetry; auto. }
  rewrite (sumZ_ext _ _ (fun e => (m_at B1 i e * G p e)%Z)).
  2:{ intros e He. destruct (bp_cols _ _ _ _ BP e He) as (u & v & _ & Hc). rewrite (HG e u v He Hc). auto. }
  clear Hx HG. revert s Hs Hw Ht. induction p as [|a p IH]; intros s Hs Hw Ht; [discriminate|].
  injection Hs as ->. destruct p as [|b p].
  - injection Ht as ->. rewrite sumZ_zero; [lia|]. intros; simpl; lia.
  - destruct Hw as [[Hn HR] Hw]. cbn [G].
    rewrite (sumZ_ext _ _ (fun e => (m_at B1 i e * g s b e + m_at B1 i e * G (b :: p) e)%Z)) by (intros; simpl; lia).
    rewrite sumZ_add, (step_sum (g s b) s b) by auto.
    rewrite (IH b); auto; [lia|reflexivity|].
    unfold ends in *. simpl in *. destruct (rev p) as [|z q] eqn:Er; simpl in *; auto.
Qed.

End Pair.

(** ** The flow matrices form a boundary pair *)

Lemma tri_edge_iff t a b :
  tri_edge t (a, b) <-> exists p, In p (tri_pairs t) /\ (a, b) = edge_key (fst p) (snd p).
Proof. reflexivity. Qed.

(** For proper triangles the edges are the ordered sides. *)
Lemma tri_edge_side t a b : a < b -> (tri_edge t (a, b) <-> In a (verts t) /\ In b (verts t)).
Proof.
  intros Hlt. destruct t as [[p q] r]. unfold tri_edge, edge_key. simpl. split.
  - intros ([y z] & [E|[E|[E|[]]]] & H); injection E as <- <-; simpl in H; injection H as -> ->;
      repeat match goal with |- context [Nat.min ?x ?y] => destruct (Nat.min_spec x y) as [[? ->]|[? ->]]
             | |- context [Nat.max ?x ?y] => destruct (Nat.max_spec x y) as [[? ->]|[? ->]] end; tauto.
  - intros [[<-|[<-|[<-|[]]]] [<-|[<-|[<-|[]]]]]; try lia.
    + exists (p, q); split; simpl; auto. f_equal; lia.
    + exists (p, r); split; simpl; auto. f_equal; lia.
    + exists (p, q); split; simpl; auto. f_equal; lia.
    + exists (q, r); split; simpl; auto. f_equal; lia.
    + exists (p, r); split; simpl; auto. f_equal; lia.
    + exists (q, r); split; simpl; auto. f_equal; lia.
Qed.

Lemma b1_edge_col g B1 e a b : b1_filled g (length (g_edges g)) B1 ->
  nth_error (g_edges g) e = Some (a, b) -> a < b -> b < length (g_nodes g) -> edge_col B1 e a b.
Proof.
  intros (Hr & Hc & Hat) He Hlt Hb. split; auto. split; [lia|]. intros i. rewrite Hat.
  assert (L : e < length (g_edges g)) by (apply nth_error_Some; congruence).
  apply Nat.ltb_lt in L. rewrite L, He. rewrite Nat.max_r, Nat.min_l by lia.
  unfold ind. nateqb; lia.
Qed.

Lemma b1_self_loop g B1 e a : b1_filled g (length (g_edges g)) B1 ->
  nth_error (g_edges g) e = Some (a, a) -> a < length (g_nodes g) -> col_abs B1 e = 1%Z.
Proof.
  intros (Hr & Hc & Hat) He Ha. unfold col_abs. rewrite (sumZ_single _ a).
  - rewrite Hat.
    assert (L : e < length (g_edges g)) by (apply nth_error_Some; congruence).
    apply Nat.ltb_lt in L. rewrite L, He, Nat.max_id, Nat.eqb_refl. auto.
  - lia.
  - intros k _ Hk. rewrite Hat.
    destruct (e <? length (g_edges g)); auto. rewrite He, Nat.max_id, Nat.min_id.
    apply Nat.eqb_neq in Hk. rewrite Hk. auto.
Qed.

Lemma side_ok es n1 n2 e o : side es n1 n2 = Ok (e, o) ->
  nth_error es e = Some (edge_key n1 n2) /\ o = (if n1 <? n2 then 1%Z else (-1)%Z).
Proof.
  unfold side. intros H. apply bind_ok in H as (e' & H & E). injection E as <- <-.
  apply lookup_ok in H. auto.
Qed.

Lemma step_side es n1 n2 e0 o e u v : NoDup es -> side es n1 n2 = Ok (e0, o) ->
  nth_error es e = Some (u, v) -> u < v -> step n1 n2 u v = if e =? e0 then o else 0%Z.
Proof.
  intros Hn Hs He Hlt. apply side_ok in Hs as (H0 & ->).
  destruct (Nat.eqb_spec e e0) as [->|Hne].
  - rewrite He in H0. unfold edge_key in H0. injection H0 as -> ->.
    unfold step. destruct (Nat.ltb_spec n1 n2); nateqb; simpl; lia.
  - assert (Hk : (u, v) <> edge_key n1 n2).
    { intros E. apply Hne. rewrite E in He. apply (proj1 (NoDup_nth_error es) Hn).
      - apply nth_error_Some; congruence.
      - congruence. }
    unfold edge_key in Hk. unfold step. nateqb; simpl; try lia; subst; exfalso; apply Hk; f_equal; lia.
Qed.

Definition b2_filled (es : list (nat * nat)) (ts : list tri) (k : nat) (M : mat) : Prop :=
  m_r M = length es /\ m_c M = length ts /\
  forall e j, m_at M e j =
    match (if j <? k then nth_error ts j else None), nth_error es e with
    | Some t, Some (u, v) => runs t u v
    | _, _ => 0%Z
    end.

Lemma fill_tri_spec es ts M M' t : NoDup es -> (forall a b, In (a, b) es -> a < b) ->
  forall k, nth_error ts k = Some t -> b2_filled es ts k M -> fill_tri es M (k, t) = Ok M' ->
  b2_filled es ts (S k) M' /\ proper t.
Proof.
  intros Hn Hlt k Hk (Hr & Hc & Hat) H. destruct t as [[a b] c]. unfold fill_tri in H. cbn [fst snd] in H.
  apply bind_ok in H as ([e1 o1] & H1 & H). apply bind_ok in H as ([e2 o2] & H2 & H).
  apply bind_ok in H as ([e3 o3] & H3 & H). apply bind_ok in H as (u0 & H4 & H). cbn [fst snd] in *.
  unfold assert_ in H4.
  destruct (negb (e1 =? e2) && negb (e1 =? e3) && negb (e2 =? e3)) eqn:E; [|discriminate].
  apply andb_true_iff in E as [E E23]. apply andb_true_iff in E as [E12 E13].
  apply negb_true_iff in E12, E13, E23. apply Nat.eqb_neq in E12, E13, E23.
  apply bind_ok in H as (M1 & S1 & H). apply bind_ok in H as (M2 & S2 & S3).
  apply mset_ok in S1 as (L1 & C1 & R1 & D1 & A1).
  apply mset_ok in S2 as (L2 & C2 & R2 & D2 & A2).
  apply mset_ok in S3 as (L3 & C3 & R3 & D3 & A3).
  assert (Hne : forall x y ex ox, side es x y = Ok (ex, ox) -> x <> y).
  { intros x y ex ox Hs. apply side_ok in Hs as (Hs & _). apply nth_error_In in Hs.
    unfold edge_key in Hs. apply Hlt in Hs. lia. }
  split; [|simpl; split; [|split]; eauto; intros E; symmetry in E; eapply Hne; eauto].
  split; [congruence|]. split; [congruence|]. intros e j. rewrite A3, A2, A1, Hat.
  destruct (Nat.eq_dec j k) as [->|Hj].
  - rewrite Nat.eqb_refl, !andb_true_r, Nat.ltb_irrefl.
    replace (k <? S k) with true by (symmetry; apply Nat.ltb_lt; lia). rewrite Hk.
    destruct (nth_error es e) as [[u v]|] eqn:Ee.
    + unfold runs. pose proof (Hlt _ _ (nth_error_In _ _ Ee)) as Huv.
      rewrite (step_side es a b e1 o1 e u v), (step_side es b c e2 o2 e u v), (step_side es c a e3 o3 e u v) by auto.
      nateqb; subst; lia.
    + apply nth_error_None in Ee.
      replace (e =? e3) with false by (symmetry; apply Nat.eqb_neq; lia).
      replace (e =? e2) with false by (symmetry; apply Nat.eqb_neq; lia).
      replace (e =? e1) with false by (symmetry; apply Nat.eqb_neq; lia). auto.
  - apply Nat.eqb_neq in Hj as Hj'. rewrite Hj', !andb_false_r.
    replace (j <? S k) with (j <? k); auto.
    destruct (j <? k) eqn:E1; destruct (j <? S k) eqn:E2; auto; rewrite ?Nat.ltb_lt, ?Nat.ltb_ge in *; lia.
Qed.

Lemma fill_B2_spec es ts B2 : NoDup es -> (forall a b, In (a, b) es -> a < b) ->
  foldM (fill_tri es) (mzeros (length es) (length ts)) (combine (seq 0 (length ts)) ts) = Ok B2 ->
  b2_filled es ts (length ts) B2 /\ forall t, In t ts -> proper t.
Proof.
  intros Hn Hlt H.
  pose (P := fun (pre : list (nat * tri)) M => b2_filled es ts (length pre) M /\
                forall t, In t (map snd pre) -> proper t).
  assert (HP : P (combine (seq 0 (length ts)) ts) B2).
  { revert H. apply foldM_inv.
    - split; [|simpl; tauto]. split; auto.
    - intros pre [k t] post M M' El (Hf & Hp) H.
      apply combine_seq_split in El as (Hk & Hnth & _). simpl in Hk. subst k.
      destruct (fill_tri_spec es ts M M' t Hn Hlt _ Hnth Hf H) as (Hf' & Hp').
      split; [rewrite app_length; simpl; rewrite Nat.add_1_r; auto|].
      intros t'. rewrite map_app, in_app_iff. simpl. intros [?|[<-|[]]]; auto. }
  destruct HP as (Hf & Hp). rewrite combine_length, seq_length, Nat.min_id in Hf.
  rewrite map_snd_combine_seq in Hp. auto.
Qed.

Lemma assert_ok b u : assert_ b = Ok u -> b = true.
Proof. unfold assert_. destruct b; auto; discriminate. Qed.

Lemma boundary_matrices_pair n ts g B1 B2 :
  create_graph n ts = Ok g -> boundary_matrices g ts = Ok (B1, B2) ->
  boundary_pair (side_of ts) ts B1 B2 /\
  m_r B1 = length (g_nodes g) /\
  (forall e, e < m_c B1 -> exists a b, nth_error (g_edges g) e = Some (a, b) /\ edge_col B1 e a b) /\
  m_c B1 = length (g_edges g) /\
  b1_filled g (length (g_edges g)) B1.
Proof.
  intros HG H. apply create_graph_spec in HG as (GI & GE & GN).
  unfold boundary_matrices in H.
  apply bind_ok in H as (B1' & HB1 & H).
  apply bind_ok in H as (u1 & _ & H).
  apply bind_ok in H as (u2 & Hcol & H).
  apply bind_ok in H as (u3 & _ & H).
  apply bind_ok in H as (B2' & HB2 & H).
  apply bind_ok in H as (u4 & _ & H).
  apply bind_ok in H as (u5 & _ & H).
  injection H as <- <-.
  apply assert_ok in Hcol. rewrite forallb_forall in Hcol.
  apply fill_B1_spec in HB1 as (HF & Hrange).
  pose proof HF as (Hr & Hc & _).
  assert (Hlt : forall a b, In (a, b) (g_edges g) -> a < b).
  { intros a b Hi. pose proof (gi_ends _ GI _ _ Hi) as (Hle & _).
    destruct (Nat.eq_dec a b) as [<-|]; [|lia]. exfalso.
    apply In_nth_error in Hi as He. destruct He as (e & He).
    assert (Le : e < length (g_edges g)) by (apply nth_error_Some; congruence).
    assert (C : col_abs B1' e = 1%Z) by (eapply b1_self_loop; eauto; apply Hrange in Hi; lia).
    specialize (Hcol e). rewrite Hc, in_seq in Hcol. rewrite Z.eqb_eq in Hcol. lia. }
  destruct (fill_B2_spec (g_edges g) ts B2' (gi_edges _ GI) Hlt HB2) as ((Hr2 & Hc2 & Hat2) & Hproper).
  assert (Hcolumns : forall e, e < m_c B1' ->
            exists a b, nth_error (g_edges g) e = Some (a, b) /\ edge_col B1' e a b).
  { intros e He. rewrite Hc in He. destruct (nth_error (g_edges g) e) as [[a b]|] eqn:E.
    - exists a, b. split; auto. pose proof (nth_error_In _ _ E) as Hi.
      eapply b1_edge_col; eauto. apply Hrange in Hi. lia.
    - apply nth_error_None in E. lia. }
  split; [|split; [auto|split; [auto|split; auto]]].
  split.
  - congruence.
  - auto.
  - intros e He. destruct (Hcolumns e He) as (a & b & E & Hcab). exists a, b. split; auto.
    apply nth_error_In in E. pose proof (Hlt _ _ E) as L. apply GE in E as (t & Ht & Et).
    apply tri_edge_side in Et; auto. split; [lia|]. exists t. tauto.
  - intros a b (Hne & t & Ht & Ha & Hb) L.
    assert (Hi : In (a, b) (g_edges g)).
    { apply GE. exists t. split; auto. apply tri_edge_side; auto. }
    apply In_nth_error in Hi as He. destruct He as (e & He).
    assert (Le : e < length (g_edges g)) by (apply nth_error_Some; congruence).
    exists e. split; [lia|]. split; [eapply b1_edge_col; eauto; apply Hrange in Hi; lia|].
    intros e' He' Hc'. destruct (Hcolumns e' He') as (a' & b' & E' & Hcab').
    destruct (edge_col_inj _ _ _ _ _ _ Hc' Hcab') as [<- <-].
    apply (proj1 (NoDup_nth_error _) (gi_edges _ GI)); [lia|congruence].
  - intros e a b k t He Hcab Hk. rewrite Hat2, Hk.
    assert (Lk : k < length ts) by (apply nth_error_Some; congruence).
    apply Nat.ltb_lt in Lk. rewrite Lk.
    destruct (Hcolumns e He) as (a' & b' & E' & Hcab').
    destruct (edge_col_inj _ _ _ _ _ _ Hcab Hcab') as [<- <-]. rewrite E'. reflexivity.
  - auto.
  - auto.
Qed.

Lemma side_of_sym ts a b : side_of ts a b -> side_of ts b a.
Proof. intros (H & t & Ht & Ha & Hb). split; auto. exists t. auto. Qed.

(** ** When the construction succeeds *)

(** The corners are exactly the numbers below [n]. *)
Definition numbered (ts : list tri) (n : nat) : Prop := forall v, corner ts v <-> v < n.

Lemma nodes_count ts g n : graph_of ts g -> numbered ts n -> length (g_nodes g) = n.
Proof.
  intros (GI & _ & GN) Hn.
  assert (L1 : length (g_nodes g) <= length (seq 0 n)).
  { apply NoDup_incl_length; [apply GI|]. intros v Hv. apply in_seq. apply GN, Hn in Hv. lia. }
  assert (L2 : length (seq 0 n) <= length (g_nodes g)).
  { apply NoDup_incl_length; [apply seq_NoDup|]. intros v Hv. apply in_seq in Hv. apply GN, Hn. lia. }
  rewrite seq_length in *. lia.
Qed.

Lemma lookup_side ts g a b : graph_of ts g -> side_of ts a b ->
  exists e, side (g_edges g) a b = Ok (e, if a <? b then 1%Z else (-1)%Z).
Proof.
  intros (GI & GE & _) (Hne & t & Ht & Ha & Hb).
  assert (Hi : In (edge_key a b) (g_edges g)).
  { apply GE. exists t. split; auto. unfold edge_key. apply tri_edge_side; [lia|].
    destruct (Nat.min_spec a b) as [[? ->]|[? ->]]; destruct (Nat.max_spec a b) as [[? ->]|[? ->]]; auto; lia. }
  destruct (lookup_in _ _ Hi) as (e & He). exists e. unfold side. rewrite He. reflexivity.
Qed.

Lemma forallb_assert b : b = true -> assert_ b = Ok tt.
Proof. intros ->. reflexivity. Qed.

Lemma edge_col_abs B e a b : edge_col B e a b -> col_abs B e = 2%Z /\ col_sum B e = 0%Z.
Proof.
  intros (Hlt & Hb & H). split.
  - unfold col_abs. rewrite (sumZ_ext _ _ (fun i => (ind b i * 1 + ind a i * 1)%Z)).
    + rewrite sumZ_add, !sumZ_ind by lia. lia.
    + intros i _. rewrite H. unfold ind. nateqb; lia.
  - unfold col_sum. rewrite (sumZ_ext _ _ (fun i => (ind b i * 1 - ind a i * 1)%Z)).
    + rewrite sumZ_sub, !sumZ_ind by lia. lia.
    + intros i _. rewrite H. unfold ind. nateqb; lia.
Qed.

Lemma three_abs n f a b c : a < n -> b < n -> c < n -> a <> b -> b <> c -> a <> c ->
  Z.abs (f a) = 1%Z -> Z.abs (f b) = 1%Z -> Z.abs (f c) = 1%Z ->
  (forall i, i < n -> i <> a -> i <> b -> i <> c -> f i = 0%Z) -> sumZ n (fun i => Z.abs (f i)) = 3%Z.
Proof.
  intros. rewrite (sumZ_ext _ _ (fun i => (ind a i * 1 + ind b i * 1 + ind c i * 1)%Z)).
  - rewrite !sumZ_add, !sumZ_ind by lia. lia.
  - intros i Hi. unfold ind. nateqb; subst; try lia. rewrite H8 by auto. lia.
Qed.

Lemma boundary_matrices_ok n ts :
  (forall t, In t ts -> proper t) -> numbered ts n ->
  exists g B1 B2, create_graph n ts = Ok g /\ boundary_matrices g ts = Ok (B1, B2) /\ m_r B1 = n.
Proof.
  intros Hp Hn.
  destruct (create_graph_ok n ts) as (g & HG); [intros v; apply Hn|].
  pose proof (create_graph_spec n ts g HG) as G. pose proof G as (GI & GE & GN).
  pose proof (nodes_count ts g n G Hn) as Hlen.
  assert (Hlt : forall a b, In (a, b) (g_edges g) -> a < b).
  { intros a b Hi. pose proof (gi_ends _ GI _ _ Hi) as (Hle & _).
    destruct (Nat.eq_dec a b) as [<-|]; [|lia]. exfalso.
    apply GE in Hi as (t & Ht & (p & Hpp & E)). specialize (Hp t Ht). destruct t as [[x y] z].
    destruct Hp as (? & ? & ?). unfold edge_key in E.
    destruct Hpp as [<-|[<-|[<-|[]]]]; simpl in E; injection E as E1 E2; lia. }
  assert (Hrange : forall a b, In (a, b) (g_edges g) -> a < length (g_nodes g) /\ b < length (g_nodes g)).
  { intros a b Hi. apply (gi_ends _ GI) in Hi as (_ & Ha & Hb). apply GN, Hn in Ha, Hb. lia. }
  destruct (fill_B1_ok g Hrange) as (B1 & HB1).
  pose proof (fill_B1_spec g B1 HB1) as (HF & _). pose proof HF as (Hr & Hc & _).
  assert (Hcolumns : forall e, e < m_c B1 ->
            exists a b, nth_error (g_edges g) e = Some (a, b) /\ edge_col B1 e a b).
  { intros e He. rewrite Hc in He. destruct (nth_error (g_edges g) e) as [[a b]|] eqn:E.
    - exists a, b. split; auto. pose proof (nth_error_In _ _ E) as Hi.
      eapply b1_edge_col; eauto. apply Hrange in Hi. lia.
    - apply nth_error_None in E. lia. }
  (* B2 *)
  assert (HB2 : exists B2, foldM (fill_tri (g_edges g)) (mzeros (length (g_edges g)) (length ts))
               (combine (seq 0 (length ts)) ts) = Ok B2).
  { destruct (foldM_exists (fill_tri (g_edges g))
       (fun pre M => m_r M = length (g_edges g) /\ m_c M = length ts)
       (mzeros (length (g_edges g)) (length ts)) (combine (seq 0 (length ts)) ts)) as (B2 & HB2 & _); eauto.
    intros pre [k t] post M El (Hr2 & Hc2).
    apply combine_seq_split in El as (Hk & Hnth & _). simpl in Hk. subst k.
    pose proof (nth_error_In _ _ Hnth) as Ht.
    assert (Lk : length pre < length ts) by (apply nth_error_Some; congruence).
    destruct t as [[a b] c]. pose proof (Hp _ Ht) as (Nab & Nbc & Nac).
    assert (Hside : forall x y, In x [a; b; c] -> In y [a; b; c] -> x <> y -> side_of ts x y).
    { intros x y Hx Hy Hxy. split; auto. exists (a, b, c). auto. }
    destruct (lookup_side ts g a b G) as (e1 & S1); [apply Hside; simpl; auto|].
    destruct (lookup_side ts g b c G) as (e2 & S2); [apply Hside; simpl; auto|].
    destruct (lookup_side ts g c a G) as (e3 & S3); [apply Hside; simpl; auto|].
    unfold fill_tri. cbn [fst snd]. rewrite S1, S2, S3. cbn [bind fst snd].
    apply side_ok in S1 as (S1 & _), S2 as (S2 & _), S3 as (S3 & _).
    assert (D : forall e e' x y x' y', nth_error (g_edges g) e = Some (edge_key x y) ->
              nth_error (g_edges g) e' = Some (edge_key x' y') -> edge_key x y <> edge_key x' y' -> e =? e' = false).
    { intros e e' x y x' y' H1 H2 H3. apply Nat.eqb_neq. intros <-. congruence. }
    rewrite (D e1 e2 _ _ _ _ S1 S2), (D e1 e3 _ _ _ _ S1 S3), (D e2 e3 _ _ _ _ S2 S3)
      by (unfold edge_key; intros E; injection E; lia).
    cbn [negb andb assert_ bind].
    assert (L1 : e1 < length (g_edges g)) by (apply nth_error_Some; congruence).
    assert (L2 : e2 < length (g_edges g)) by (apply nth_error_Some; congruence).
    assert (L3 : e3 < length (g_edges g)) by (apply nth_error_Some; congruence).
    destruct (mset_in M e1 (length pre) (if a <? b then 1%Z else (-1)%Z)) as (M1 & E1); [lia|lia|].
    rewrite E1. cbn [bind]. apply mset_ok in E1 as (_ & _ & R1 & C1 & _).
    destruct (mset_in M1 e2 (length pre) (if b <? c then 1%Z else (-1)%Z)) as (M2 & E2); [lia|lia|].
    rewrite E2. cbn [bind]. apply mset_ok in E2 as (_ & _ & R2 & C2 & _).
    destruct (mset_in M2 e3 (length pre) (if c <? a then 1%Z else (-1)%Z)) as (M3 & E3); [lia|lia|].
    rewrite E3. exists M3. apply mset_ok in E3 as (_ & _ & R3 & C3 & _). split; auto. split; congruence. }
  destruct HB2 as (B2 & HB2).
  pose proof (fill_B2_spec (g_edges g) ts B2 (gi_edges _ GI) Hlt HB2) as ((Hr2 & Hc2 & Hat2) & _).
  assert (BP : boundary_pair (side_of ts) ts B1 B2).
  { split.
    - congruence.
    - auto.
    - intros e He. destruct (Hcolumns e He) as (a & b & E & Hcab). exists a, b. split; auto.
      apply nth_error_In in E. pose proof (Hlt _ _ E) as L. apply GE in E as (t & Ht & Et).
      apply tri_edge_side in Et; auto. split; [lia|]. exists t. tauto.
    - intros a b (Hne & t & Ht & Ha & Hb) L.
      assert (Hi : In (a, b) (g_edges g)).
      { apply GE. exists t. split; auto. apply tri_edge_side; auto. }
      apply In_nth_error in Hi as He. destruct He as (e & He).
      assert (Le : e < length (g_edges g)) by (apply nth_error_Some; congruence).
      exists e. split; [lia|]. split; [eapply b1_edge_col; eauto; apply Hrange in Hi; lia|].
      intros e' He' Hc'. destruct (Hcolumns e' He') as (a' & b' & E' & Hcab').
      destruct (edge_col_inj _ _ _ _ _ _ Hc' Hcab') as [<- <-].
      apply (proj1 (NoDup_nth_error _) (gi_edges _ GI)); [lia|congruence].
    - intros e a b k t He Hcab Hk. rewrite Hat2, Hk.
      assert (Lk : k < length ts) by (apply nth_error_Some; congruence).
      apply Nat.ltb_lt in Lk. rewrite Lk.
      destruct (Hcolumns e He) as (a' & b' & E' & Hcab').
      destruct (edge_col_inj _ _ _ _ _ _ Hcab Hcab') as [<- <-]. rewrite E'. reflexivity.
    - auto.
    - auto. }
  exists g, B1, B2. split; auto. split; [|lia].
  unfold boundary_matrices. rewrite HB1. cbn [bind].
  rewrite forallb_assert; cbn [bind].
  2:{ apply forallb_forall. intros i Hi. apply in_seq in Hi. apply Z.ltb_lt.
      assert (Hci : corner ts i) by (apply Hn; lia). destruct Hci as (t & Ht & Hv).
      assert (Hs : exists j, side_of ts i j).
      { pose proof (Hp t Ht) as P. destruct t as [[a b] c]. destruct P as (P1 & P2 & P3).
        destruct Hv as [<-|[<-|[<-|[]]]]; [exists b|exists c|exists a]; (split; [congruence|]);
          exists (a, b, c); simpl; tauto. }
      destruct Hs as (j & Hs). 
      destruct (side_column _ ts B1 B2 (side_of_sym ts) BP i j Hs) as (e & u & v & He & Hcol & Huv & _); [apply Hs|].
      unfold row_abs. 
      pose proof (sumZ_ge (m_c B1) e (fun k => Z.abs (m_at B1 i k)) He ltac:(intros; lia)) as Hge. cbv beta in Hge.
      destruct Hcol as (Huv' & _ & Hcol). rewrite Hcol in Hge.
      unfold ind in Hge. nateqb; lia. }
  rewrite forallb_assert; cbn [bind].
  2:{ apply forallb_forall. intros e He. apply in_seq in He. apply Z.eqb_eq.
      destruct (Hcolumns e) as (a & b & _ & Hcab); [lia|]. apply (edge_col_abs _ _ _ _ Hcab). }
  rewrite forallb_assert; cbn [bind].
  2:{ apply forallb_forall. intros e He. apply in_seq in He. apply Z.eqb_eq.
      destruct (Hcolumns e) as (a & b & _ & Hcab); [lia|]. apply (edge_col_abs _ _ _ _ Hcab). }
  rewrite HB2. cbn [bind].
  rewrite forallb_assert; cbn [bind].
  2:{ apply forallb_forall. intros k Hk. apply in_seq in Hk. apply Z.eqb_eq.
      destruct (pair_triangle_like _ ts B1 B2 (side_of_sym ts) BP k) as (x & y & z & ? & ? & ? & ? & ? & ? & ? & ? & ? & ?); [lia|].
      unfold col_abs. apply (three_abs _ (fun i => m_at B2 i k) x y z); auto. }
  rewrite forallb_assert; cbn [bind]; auto.
  apply forallb_forall. intros e He. apply in_seq in He. apply Z.ltb_lt.
  destruct (bp_cols _ _ _ _ BP e) as (a & b & (Hne & t & Ht & Ha & Hb) & Hcab); [lia|].
  apply In_nth_error in Ht as Hk. destruct Hk as (k & Hk).
  assert (Lk : k < length ts) by (apply nth_error_Some; congruence).
  unfold row_abs.
  pose proof (sumZ_ge (m_c B2) k (fun j => Z.abs (m_at B2 e j)) ltac:(lia) ltac:(intros; lia)) as Hge.
  cbv beta in Hge. rewrite (bp_runs _ _ _ _ BP e a b k t ltac:(lia) Hcab Hk) in Hge.
  pose proof (Hp t Ht) as P. destruct t as [[x y] z]. destruct P as (P1 & P2 & P3).
  destruct Hcab as (Hab & _).
  destruct (runs_cases x y z a b) as [[_ E]|[E _]]; auto; [lia|].
  exfalso. apply E. simpl in Ha, Hb. intuition; subst; try lia; auto.
Qed.
