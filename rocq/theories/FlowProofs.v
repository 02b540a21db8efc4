(** Proofs about the graph and the boundary matrices of a triangulation. *)
From Coq Require Import List Arith Lia ZArith Bool.
From Verif Require Import Base ComplexModel FlowModel FlowSpec.
Import ListNotations.

(** ** Finite sums *)

Lemma sumZ_S n f : sumZ (S n) f = (sumZ n f + f n)%Z.
Proof.
  unfold sumZ. rewrite seq_S, fold_right_app. simpl.
  generalize (seq 0 n). intros l. induction l as [|a l IH]; simpl; lia.
Qed.
Lemma sumZ_0 f : sumZ 0 f = 0%Z.
Proof. reflexivity. Qed.

Lemma sumZ_ext n f g : (forall k, k < n -> f k = g k) -> sumZ n f = sumZ n g.
Proof.
  induction n as [|n IH]; intros H; [reflexivity|]. rewrite !sumZ_S, IH by auto.
  rewrite (H n) by lia. reflexivity.
Qed.
Lemma sumZ_zero n f : (forall k, k < n -> f k = 0%Z) -> sumZ n f = 0%Z.
Proof.
  induction n as [|n IH]; intros H; [reflexivity|]. rewrite sumZ_S, IH, (H n) by auto. lia.
Qed.
Lemma sumZ_add n f g : sumZ n (fun k => (f k + g k)%Z) = (sumZ n f + sumZ n g)%Z.
Proof. induction n as [|n IH]; [reflexivity|]. rewrite !sumZ_S, IH. lia. Qed.
Lemma sumZ_sub n f g : sumZ n (fun k => (f k - g k)%Z) = (sumZ n f - sumZ n g)%Z.
Proof. induction n as [|n IH]; [reflexivity|]. rewrite !sumZ_S, IH. lia. Qed.
Lemma sumZ_mul n c f : sumZ n (fun k => (c * f k)%Z) = (c * sumZ n f)%Z.
Proof. induction n as [|n IH]; [rewrite !sumZ_0; lia|]. rewrite !sumZ_S, IH. lia. Qed.
Lemma sumZ_swap n m f :
  sumZ n (fun i => sumZ m (fun j => f i j)) = sumZ m (fun j => sumZ n (fun i => f i j)).
Proof.
  induction n as [|n IH].
  - rewrite sumZ_0. symmetry. apply sumZ_zero. intros. apply sumZ_0.
  - rewrite sumZ_S, IH, <- sumZ_add. apply sumZ_ext. intros. rewrite sumZ_S. reflexivity.
Qed.
Lemma sumZ_single n j f : j < n -> (forall k, k < n -> k <> j -> f k = 0%Z) -> sumZ n f = f j.
Proof.
  induction n as [|n IH]; intros Hj H; [lia|]. rewrite sumZ_S.
  destruct (Nat.eq_dec j n) as [->|].
  - rewrite sumZ_zero; [lia|]. intros k Hk. apply H; lia.
  - rewrite IH by (auto; lia). rewrite (H n) by lia. lia.
Qed.
Lemma sumZ_ind n v f : v < n -> sumZ n (fun k => (ind v k * f k)%Z) = f v.
Proof.
  intros H. rewrite (sumZ_single n v); [unfold ind; rewrite Nat.eqb_refl; lia|auto|].
  intros k _ Hk. unfold ind. apply Nat.eqb_neq in Hk. rewrite Hk. lia.
Qed.
Lemma sumZ_nonneg n f : (forall k, k < n -> (0 <= f k)%Z) -> (0 <= sumZ n f)%Z.
Proof.
  induction n as [|n IH]; intros H; [rewrite sumZ_0; lia|]. rewrite sumZ_S.
  specialize (IH (fun k Hk => H k (Nat.lt_lt_succ_r _ _ Hk))). specialize (H n ltac:(lia)). lia.
Qed.
Lemma sumZ_ge n j f : j < n -> (forall k, k < n -> (0 <= f k)%Z) -> (f j <= sumZ n f)%Z.
Proof.
  induction n as [|n IH]; intros Hj H; [lia|]. rewrite sumZ_S.
  assert (0 <= sumZ n f)%Z by (apply sumZ_nonneg; auto).
  destruct (Nat.eq_dec j n) as [->|]; [lia|].
  specialize (IH ltac:(lia) (fun k Hk => H k (Nat.lt_lt_succ_r _ _ Hk))). specialize (H n ltac:(lia)). lia.
Qed.

(** ** Membership tests *)

Lemma mem_nat_iff a l : mem_nat a l = true <-> In a l.
Proof.
  unfold mem_nat. rewrite existsb_exists. split.
  - intros (b & H & E). apply Nat.eqb_eq in E. subst; auto.
  - intros H. exists a. split; auto. apply Nat.eqb_refl.
Qed.
Lemma mem_nat_false a l : mem_nat a l = false <-> ~ In a l.
Proof. rewrite <- mem_nat_iff. destruct (mem_nat a l); split; congruence. Qed.

Lemma pair_eqb_iff p q : pair_eqb p q = true <-> p = q.
Proof.
  unfold pair_eqb. destruct p, q; simpl. rewrite andb_true_iff, !Nat.eqb_eq.
  split; [intros [-> ->]; auto|intros E; injection E; auto].
Qed.
Lemma pair_eqb_refl p : pair_eqb p p = true.
Proof. apply pair_eqb_iff; auto. Qed.

Lemma edge_key_comm a b : edge_key a b = edge_key b a.
Proof. unfold edge_key. f_equal; lia. Qed.

Lemma has_edge_iff g a b : has_edge g a b = true <-> In (edge_key a b) (g_edges g).
Proof.
  unfold has_edge. rewrite existsb_exists. split.
  - intros (q & H & E). apply pair_eqb_iff in E. subst; auto.
  - intros H. eexists; split; [exact H|]. apply pair_eqb_refl.
Qed.

(** ** The graph *)

Record graph_inv (g : tgraph) : Prop := {
  gi_nodes : NoDup (g_nodes g);
  gi_edges : NoDup (g_edges g);
  gi_ends : forall a b, In (a, b) (g_edges g) -> a <= b /\ In a (g_nodes g) /\ In b (g_nodes g)
}.

Lemma in_dec_nat (a : nat) l : In a l \/ ~ In a l.
Proof. destruct (in_dec Nat.eq_dec a l); auto. Qed.

Lemma add_node_in g v u : In u (g_nodes (add_node g v)) <-> In u (g_nodes g) \/ u = v.
Proof.
  unfold add_node. destruct (mem_nat v (g_nodes g)) eqn:E; simpl.
  - apply mem_nat_iff in E. split; [tauto|]. intros [?| ->]; auto.
  - rewrite in_app_iff. simpl. intuition.
Qed.
Lemma add_node_edges g v : g_edges (add_node g v) = g_edges g.
Proof. unfold add_node. destruct (mem_nat v (g_nodes g)); auto. Qed.
Lemma NoDup_snoc {A} (l : list A) a : NoDup l -> ~ In a l -> NoDup (l ++ [a]).
Proof.
  intros H Ha. apply NoDup_rev in H.
  rewrite <- (rev_involutive (l ++ [a])), rev_app_distr. apply NoDup_rev. simpl.
  constructor; auto. rewrite <- in_rev. auto.
Qed.
Lemma add_node_inv g v : graph_inv g -> graph_inv (add_node g v).
Proof.
  intros [Hn He Hx]. split.
  - unfold add_node. destruct (mem_nat v (g_nodes g)) eqn:E; simpl; auto.
    apply NoDup_snoc; auto. apply mem_nat_false; auto.
  - rewrite add_node_edges; auto.
  - intros a b. rewrite add_node_edges, !add_node_in. intros H. apply Hx in H. tauto.
Qed.

Lemma add_edge_edges g a b e :
  In e (g_edges (add_edge g a b)) <-> In e (g_edges g) \/ e = edge_key a b.
Proof.
  unfold add_edge. destruct (has_edge _ a b) eqn:E.
  - apply has_edge_iff in E. rewrite !add_node_edges in *. split; [tauto|]. intros [?| ->]; auto.
  - simpl. rewrite !add_node_edges, in_app_iff. simpl. intuition.
Qed.
Lemma add_edge_nodes g a b v :
  In v (g_nodes (add_edge g a b)) <-> In v (g_nodes g) \/ v = a \/ v = b.
Proof.
  unfold add_edge. destruct (has_edge _ a b); simpl; rewrite !add_node_in; tauto.
Qed.
Lemma add_edge_inv g a b : graph_inv g -> graph_inv (add_edge g a b).
Proof.
  intros H. split.
  - unfold add_edge. destruct (has_edge _ a b); simpl; apply add_node_inv, add_node_inv; auto.
  - unfold add_edge. destruct (has_edge _ a b) eqn:E; simpl.
    + apply add_node_inv, add_node_inv; auto.
    + apply NoDup_snoc; [apply add_node_inv, add_node_inv; auto|].
      intros Hi. apply has_edge_iff in Hi. congruence.
  - intros u v Hi. apply add_edge_edges in Hi. rewrite !add_edge_nodes. destruct Hi as [Hi|E].
    + apply (gi_ends _ H) in Hi. tauto.
    + unfold edge_key in E. injection E as -> ->. split; [lia|].
      split; [destruct (Nat.min_spec a b) as [[_ ->]|[_ ->]]|destruct (Nat.max_spec a b) as [[_ ->]|[_ ->]]]; auto.
Qed.

(** One triangle side after the other. *)
Lemma pairs_fold ps : forall g, graph_inv g ->
  exists g',
    foldM (fun g p =>
           let g' := if has_edge g (fst p) (snd p) then g else add_edge g (fst p) (snd p) in
           let* _ := assert_ (has_edge g' (snd p) (fst p)) in Ok g') g ps = Ok g' /\
    graph_inv g' /\
    (forall e, In e (g_edges g') <-> In e (g_edges g) \/ exists p, In p ps /\ e = edge_key (fst p) (snd p)) /\
    (forall v, In v (g_nodes g') <-> In v (g_nodes g) \/ exists p, In p ps /\ (v = fst p \/ v = snd p)).
Proof.
  induction ps as [|[a b] ps IH]; intros g Hg; simpl.
  - exists g. split; auto. split; auto. split; intros; split; auto; intros [?|(? & [] & _)]; auto.
  - set (g1 := if has_edge g a b then g else add_edge g a b).
    assert (H1 : graph_inv g1 /\
      (forall e, In e (g_edges g1) <-> In e (g_edges g) \/ e = edge_key a b) /\
      (forall v, In v (g_nodes g1) <-> In v (g_nodes g) \/ v = a \/ v = b)).
    { unfold g1. destruct (has_edge g a b) eqn:E.
      - apply has_edge_iff in E. split; auto. split.
        + intros e. split; [tauto|]. intros [?| ->]; auto.
        + intros v. split; [tauto|]. pose proof (gi_ends _ Hg _ _ E) as (_ & Ha & Hb).
          intros [?|[-> | ->]]; auto.
          * destruct (Nat.min_spec a b) as [[_ Em]|[? Em]]; rewrite Em in Ha; auto.
            destruct (Nat.max_spec a b) as [[_ EM]|[? EM]]; rewrite EM in Hb; auto. assert (a = b) by lia; subst; auto.
          * destruct (Nat.min_spec a b) as [[? Em]|[? Em]]; rewrite Em in Ha; auto.
            destruct (Nat.max_spec a b) as [[_ EM]|[? EM]]; rewrite EM in Hb; auto. lia.
      - split; [apply add_edge_inv; auto|]. split; intros.
        + apply add_edge_edges.
        + apply add_edge_nodes. }
    destruct H1 as (I1 & E1 & N1).
    replace (has_edge g1 b a) with true; simpl.
    2:{ symmetry. apply has_edge_iff. apply E1. right. apply edge_key_comm. }
    destruct (IH g1 I1) as (g' & R & I' & E' & N'). exists g'. split; auto. split; auto. split.
    + intros e. rewrite E', E1. split.
      * intros [[?|?]|(p & ? & ?)]; [tauto| |]; right; [exists (a, b)|exists p]; auto.
      * intros [?|(p & [<-|?] & ?)]; eauto.
    + intros v. rewrite N', N1. split.
      * intros [[?|?]|(p & ? & ?)]; [tauto| |]; right; [exists (a, b)|exists p]; auto.
      * intros [?|(p & [<-|?] & ?)]; eauto.
Qed.

(** Edges and nodes contributed by a triangle. *)
Definition tri_edge (t : tri) (e : nat * nat) : Prop :=
  exists p, In p (tri_pairs t) /\ e = edge_key (fst p) (snd p).

Lemma tri_pairs_nodes t v :
  (exists p, In p (tri_pairs t) /\ (v = fst p \/ v = snd p)) <-> In v (verts t).
Proof.
  destruct t as [[a b] c]. simpl. split.
  - intros (p & [<-|[<-|[<-|[]]]] & [?|?]); simpl in *; subst; auto.
  - intros [<-|[<-|[<-|[]]]].
    + exists (a, b); simpl; auto.
    + exists (a, b); simpl; auto.
    + exists (a, c); simpl; auto.
Qed.

Lemma graph_vertex_spec n t g v g' : In v (verts t) -> graph_inv g ->
  graph_vertex n t g v = Ok g' ->
  graph_inv g' /\
  (forall e, In e (g_edges g') <-> In e (g_edges g) \/ tri_edge t e) /\
  (forall u, In u (g_nodes g') <-> In u (g_nodes g) \/ In u (verts t)).
Proof.
  intros Hv Hg H. unfold graph_vertex in H. apply bind_ok in H as (g1 & H1 & H).
  assert (G1 : graph_inv g1 /\ g_edges g1 = g_edges g /\
               forall u, In u (g_nodes g1) <-> In u (g_nodes g) \/ u = v).
  { destruct (mem_nat v (g_nodes g)) eqn:E.
    - injection H1 as <-. split; auto. split; auto. intros u. split; [tauto|].
      intros [?| ->]; auto. apply mem_nat_iff; auto.
    - destruct (v <? n); [|discriminate]. injection H1 as <-.
      split; [apply add_node_inv; auto|]. split; [apply add_node_edges|]. intros; apply add_node_in. }
  destruct G1 as (I1 & E1 & N1).
  destruct (pairs_fold (tri_pairs t) g1 I1) as (g2 & R & I2 & E2 & N2).
  assert (E : Ok g2 = Ok g') by (rewrite <- R, <- H; reflexivity).
  injection E as <-. split; auto. split.
  - intros e. rewrite E2, E1. reflexivity.
  - intros u. rewrite N2, N1, tri_pairs_nodes. split; [|tauto].
    intros [[?| ->]|?]; auto.
Qed.

Lemma graph_vertex_ok n t g v : graph_inv g -> v < n -> exists g', graph_vertex n t g v = Ok g'.
Proof.
  intros Hg Hv. unfold graph_vertex.
  assert (G1 : exists g1, (if mem_nat v (g_nodes g) then Ok g
             else if v <? n then Ok (add_node g v) else Err IndexError) = Ok g1 /\ graph_inv g1).
  { destruct (mem_nat v (g_nodes g)); [eauto|].
    apply Nat.ltb_lt in Hv. rewrite Hv. eexists; split; [reflexivity|]. apply add_node_inv; auto. }
  destruct G1 as (g1 & -> & I1). cbn [bind].
  destruct (pairs_fold (tri_pairs t) g1 I1) as (g2 & R & _). eauto.
Qed.

Lemma foldM_inv {A B} (f : A -> B -> result A) (P : list B -> A -> Prop) a l r :
  P [] a ->
  (forall pre b post a a', l = pre ++ b :: post -> P pre a -> f a b = Ok a' -> P (pre ++ [b]) a') ->
  foldM f a l = Ok r -> P l r.
Proof.
  intros H0 Hs.
  assert (G : forall post pre a, l = pre ++ post -> P pre a -> foldM f a post = Ok r -> P l r).
  { induction post as [|b post IH]; intros pre a' El Hp H; simpl in H.
    - injection H as <-. rewrite El, app_nil_r. auto.
    - apply bind_ok in H as (a'' & H1 & H). apply (IH (pre ++ [b]) a''); auto.
      + rewrite <- app_assoc. auto.
      + apply (Hs pre b post a'); auto. }
  intros H. apply (G l [] a); auto.
Qed.

Lemma foldM_exists {A B} (f : A -> B -> result A) (P : list B -> A -> Prop) a l :
  P [] a ->
  (forall pre b post a, l = pre ++ b :: post -> P pre a -> exists a', f a b = Ok a' /\ P (pre ++ [b]) a') ->
  exists r, foldM f a l = Ok r /\ P l r.
Proof.
  intros H0 Hs.
  assert (G : forall post pre a, l = pre ++ post -> P pre a -> exists r, foldM f a post = Ok r /\ P l r).
  { induction post as [|b post IH]; intros pre a' El Hp; simpl.
    - exists a'. split; auto. rewrite El, app_nil_r; auto.
    - destruct (Hs pre b post a' El Hp) as (a'' & -> & H'). cbn [bind].
      apply (IH (pre ++ [b])); auto. rewrite <- app_assoc. auto. }
  apply (G l [] a); auto.
Qed.

Definition graph_of (ts : list tri) (g : tgraph) : Prop :=
  graph_inv g /\
  (forall e, In e (g_edges g) <-> exists t, In t ts /\ tri_edge t e) /\
  (forall u, In u (g_nodes g) <-> corner ts u).

Lemma graph_of_nil : graph_of [] (mkTG [] []).
Proof.
  split; [|split]; simpl.
  - split; simpl; try constructor; tauto.
  - intros e. split; [tauto|]. intros (t & [] & _).
  - intros e. unfold corner. split; [tauto|]. intros (t & [] & _).
Qed.

Lemma tri_fold_spec n t g g' : graph_inv g -> foldM (graph_vertex n t) g (verts t) = Ok g' ->
  graph_inv g' /\
  (forall e, In e (g_edges g') <-> In e (g_edges g) \/ tri_edge t e) /\
  (forall u, In u (g_nodes g') <-> In u (g_nodes g) \/ In u (verts t)).
Proof.
  intros Hg H.
  pose (P := fun (l : list nat) g' => graph_inv g' /\
    (l <> [] -> (forall e, In e (g_edges g') <-> In e (g_edges g) \/ tri_edge t e) /\
                (forall u, In u (g_nodes g') <-> In u (g_nodes g) \/ In u (verts t))) /\
    (l = [] -> g' = g)).
  assert (HP : P (verts t) g').
  { apply (foldM_inv (graph_vertex n t) P g); auto.
    - split; auto. split; [congruence|auto].
    - intros pre b post a a' El (Ha & Hne & Hn) Hv.
      assert (Hb : In b (verts t)) by (rewrite El; apply in_elt).
      pose proof (graph_vertex_spec n t a b a' Hb Ha Hv) as (I & E & N).
      split; auto. split; [|intros E0; destruct pre; discriminate]. intros _.
      destruct pre as [|q pre].
      + rewrite (Hn eq_refl) in *. auto.
      + destruct Hne as [E0 N0]; [discriminate|]. split; intros.
        * rewrite E, E0. tauto.
        * rewrite N, N0. tauto. }
  destruct HP as (I & Hne & _). destruct Hne as [E N]; [destruct t as [[? ?] ?]; discriminate|]. auto.
Qed.

Lemma create_graph_spec n ts g : create_graph n ts = Ok g -> graph_of ts g.
Proof.
  intros H. unfold create_graph in H.
  revert H. apply foldM_inv; [apply graph_of_nil|].
  intros pre t post a a' _ (I & E & N) H.
  pose proof (tri_fold_spec n t a a' I H) as (I' & E' & N').
  split; [auto|]. split.
  - intros e. rewrite E', E. split.
    + intros [(t' & ? & ?)|?]; [exists t'|exists t]; rewrite in_app_iff; simpl; auto.
    + intros (t' & Ht & ?). apply in_app_iff in Ht as [?|[<-|[]]]; eauto.
  - intros e. rewrite N', N. split.
    + intros [(t' & ? & ?)|?]; [exists t'|exists t]; rewrite in_app_iff; simpl; auto.
    + intros (t' & Ht & ?). apply in_app_iff in Ht as [?|[<-|[]]]; [left; exists t'|right]; auto.
Qed.

Lemma create_graph_ok n ts : (forall v, corner ts v -> v < n) -> exists g, create_graph n ts = Ok g.
Proof.
  intros H.
  destruct (foldM_exists (fun g t => foldM (graph_vertex n t) g (verts t)) (fun _ => graph_inv)
              (mkTG [] []) ts) as (g & Hg & _).
  - apply graph_of_nil.
  - intros pre t post a El Ha.
    destruct (foldM_exists (graph_vertex n t) (fun _ => graph_inv) a (verts t)) as (g & Hg & I); auto.
    + intros pre' v post' a' El' Ha'.
      assert (Hv : In v (verts t)) by (rewrite El'; apply in_elt).
      destruct (graph_vertex_ok n t a' v Ha') as (g' & Hg').
      { apply H. exists t. split; auto. rewrite El. apply in_elt. }
      exists g'. split; auto. apply (graph_vertex_spec n t a' v g' Hv Ha' Hg').
    + eauto.
  - eauto.
Qed.

(** ** Lookups *)

Lemma find_pair_some es p e : find_pair es p = Some e -> nth_error es e = Some p.
Proof.
  revert e; induction es as [|q es IH]; intros e H; simpl in H; [discriminate|].
  destruct (pair_eqb q p) eqn:E.
  - injection H as <-. apply pair_eqb_iff in E. subst; auto.
  - destruct (find_pair es p) as [k|]; [|discriminate]. injection H as <-. simpl. auto.
Qed.
Lemma find_pair_in es p : In p es -> exists e, find_pair es p = Some e.
Proof.
  induction es as [|q es IH]; intros H; [destruct H|]. simpl.
  destruct (pair_eqb q p) eqn:E; [eauto|].
  destruct H as [->|H]; [rewrite pair_eqb_refl in E; discriminate|].
  destruct (IH H) as (e & ->). simpl. eauto.
Qed.
Lemma find_pair_nth es p e : NoDup es -> nth_error es e = Some p -> find_pair es p = Some e.
Proof.
  intros Hn He. destruct (find_pair_in es p) as (e' & H'); [eapply nth_error_In; eauto|].
  rewrite H'. f_equal. apply find_pair_some in H'.
  apply (proj1 (NoDup_nth_error es) Hn).
  - apply nth_error_Some. congruence.
  - congruence.
Qed.
Lemma lookup_ok es p e : lookup_edge es p = Ok e -> nth_error es e = Some p.
Proof.
  unfold lookup_edge. destruct (find_pair es p) eqn:E; simpl; intros H; [|discriminate].
  injection H as <-. apply find_pair_some; auto.
Qed.
Lemma lookup_in es p : In p es -> exists e, lookup_edge es p = Ok e.
Proof. intros H. destruct (find_pair_in es p H) as (e & E). unfold lookup_edge. rewrite E. simpl. eauto. Qed.

(** ** B1 *)

Lemma mset_ok M i j v M' : mset M i j v = Ok M' ->
  i < m_r M /\ j < m_c M /\ m_r M' = m_r M /\ m_c M' = m_c M /\
  forall a b, m_at M' a b = if (a =? i) && (b =? j) then v else m_at M a b.
Proof.
  unfold mset. destruct ((i <? m_r M) && (j <? m_c M)) eqn:E; [|discriminate].
  apply andb_true_iff in E as [E1 E2]. apply Nat.ltb_lt in E1, E2.
  intros H; injection H as <-. simpl. auto.
Qed.
Lemma mset_in M i j v : i < m_r M -> j < m_c M -> exists M', mset M i j v = Ok M'.
Proof.
  intros H1 H2. unfold mset. apply Nat.ltb_lt in H1, H2. rewrite H1, H2. simpl. eauto.
Qed.

Lemma combine_seq_split {A} (l : list A) s pre k a post :
  combine (seq s (length l)) l = pre ++ (k, a) :: post ->
  k = s + length pre /\ nth_error l (length pre) = Some a /\ map snd pre = firstn (length pre) l.
Proof.
  revert s pre; induction l as [|b l IH]; intros s pre H; simpl in H.
  - destruct pre; discriminate.
  - destruct pre as [|q pre]; simpl in H.
    + injection H as <- <- _. simpl. split; [lia|auto].
    + injection H as <- H. apply IH in H as (-> & H2 & H3). simpl. split; [lia|]. split; auto.
      f_equal; auto.
Qed.

(** The first [k] columns are filled, the others are zero. *)
Definition b1_filled (g : tgraph) (k : nat) (M : mat) : Prop :=
  m_r M = length (g_nodes g) /\ m_c M = length (g_edges g) /\
  forall e i, m_at M i e =
    match (if e <? k then nth_error (g_edges g) e else None) with
    | Some (a, b) => if i =? Nat.max a b then 1%Z else if i =? Nat.min a b then (-1)%Z else 0%Z
    | None => 0%Z
    end.

Lemma map_snd_combine_seq {A} (l : list A) s : map snd (combine (seq s (length l)) l) = l.
Proof. revert s; induction l as [|a l IH]; intros s; simpl; f_equal; auto. Qed.

Lemma fill_B1_spec g B1 : fill_B1 g = Ok B1 ->
  b1_filled g (length (g_edges g)) B1 /\
  forall a b, In (a, b) (g_edges g) -> a < length (g_nodes g) /\ b < length (g_nodes g).
Proof.
  intros H. unfold fill_B1 in H.
  set (es := g_edges g) in *.
  pose (P := fun (pre : list (nat * (nat * nat))) M => b1_filled g (length pre) M /\
     forall a b, In (a, b) (map snd pre) -> a < length (g_nodes g) /\ b < length (g_nodes g)).
  assert (HP : P (combine (seq 0 (length es)) es) B1).
  { revert H. apply foldM_inv.
    - split; [|simpl; tauto]. split; auto.
    - intros pre [k [a b]] post M M' El ((Hr & Hc & Hat) & Hin) H. cbn [fst snd] in H.
      apply combine_seq_split in El as (Hk & Hnth & _). simpl in Hk. subst k.
      apply bind_ok in H as (M1 & H1 & H2).
      apply mset_ok in H1 as (L1 & L2 & R1 & C1 & A1).
      apply mset_ok in H2 as (L3 & L4 & R2 & C2 & A2).
      split.
      + split; [congruence|]. split; [congruence|]. intros e i. rewrite A2, A1, Hat, app_length.
        cbn [length]. rewrite Nat.add_1_r.
        destruct (Nat.eq_dec e (length pre)) as [->|Hne].
        * rewrite Nat.eqb_refl, !andb_true_r. rewrite Nat.ltb_irrefl.
          replace (length pre <? S (length pre)) with true by (symmetry; apply Nat.ltb_lt; lia).
          change (g_edges g) with es. rewrite Hnth. reflexivity.
        * apply Nat.eqb_neq in Hne as Hne'. rewrite Hne', !andb_false_r.
          replace (e <? S (length pre)) with (e <? length pre); auto.
          destruct (e <? length pre) eqn:E1; destruct (e <? S (length pre)) eqn:E2; auto;
            rewrite ?Nat.ltb_lt, ?Nat.ltb_ge in *; lia.
      + intros a' b'. rewrite map_app, in_app_iff. simpl. intros [?|[E|[]]]; auto.
        injection E as <- <-. rewrite R1, Hr in L3. rewrite Hr in L1.
        split; lia. }
  destruct HP as (HP & Hin). rewrite combine_length, seq_length, Nat.min_id in HP.
  split; auto. intros a b Hi. apply Hin.
  rewrite map_snd_combine_seq. auto.
Qed.

Lemma fill_B1_ok g :
  (forall a b, In (a, b) (g_edges g) -> a < length (g_nodes g) /\ b < length (g_nodes g)) ->
  exists B1, fill_B1 g = Ok B1.
Proof.
  intros H. unfold fill_B1.
  destruct (foldM_exists (fun M p =>
           let* M1 := mset M (Nat.min (fst (snd p)) (snd (snd p))) (fst p) (-1)%Z in
           mset M1 (Nat.max (fst (snd p)) (snd (snd p))) (fst p) 1%Z)
        (fun _ M => m_r M = length (g_nodes g) /\ m_c M = length (g_edges g))
        (mzeros (length (g_nodes g)) (length (g_edges g)))
        (combine (seq 0 (length (g_edges g))) (g_edges g))) as (B1 & HB & _).
  - auto.
  - intros pre [k [a b]] post M El (Hr & Hc). cbn [fst snd].
    apply combine_seq_split in El as (Hk & Hnth & _). simpl in Hk. subst k.
    assert (Hlt : length pre < length (g_edges g)) by (apply nth_error_Some; congruence).
    apply nth_error_In, H in Hnth as [Ha Hb].
    destruct (mset_in M (Nat.min a b) (length pre) (-1)%Z) as (M1 & E1); [lia|lia|].
    rewrite E1. cbn [bind]. apply mset_ok in E1 as (_ & _ & R1 & C1 & _).
    destruct (mset_in M1 (Nat.max a b) (length pre) 1%Z) as (M2 & E2); [lia|lia|].
    rewrite E2. exists M2. split; auto. apply mset_ok in E2 as (_ & _ & R2 & C2 & _). split; congruence.
  - eauto.
Qed.
