(** Colour refinement of a lifted complex refines that of the graph; GIN is bounded by the latter. *)
From Coq Require Import List Arith Lia ZArith Bool Permutation.
From Verif Require Import Base ScatterModel ScatterSpec ScatterProofs ComplexModel BatchSpec BatchSpec2
  LiftModel LiftSpec LiftBase MPModel MPSpec MPIso GraphNetModel GraphNetSpec GraphNetProofs PowerSpec PowerProofs WLSpec.
Import ListNotations.

(** ** GIN and colour refinement of graphs *)
Section Gin.
Context {W V C : Type} (o : ops V) (Ho : ops_ok o) (init : W -> C) (hash : C -> list C -> C).
Hypothesis HF : wl_faithful init hash.
Variables (es es' : list (nat * nat)) (n n' : nat) (X X' : nat -> W).
Hypothesis HG : graph_ok es n.
Hypothesis HG' : graph_ok es' n'.
Notation wl := (wl_colour init hash es X).
Notation wl' := (wl_colour init hash es' X').

Lemma wl_down l i i' a : a <= l -> wl l i = wl' l i' -> wl a i = wl' a i'.
Proof.
  intros Ha. replace l with ((l - a) + a) by lia. induction (l - a) as [|m IH]; auto. intros H. apply IH.
  cbn [Nat.add wl_colour] in H. apply HF in H. tauto.
Qed.

(** Nodes of equal colour have equal features after every layer. *)
Lemma gin_history_wl ls : forall a Y Y',
  (forall i i', i < n -> i' < n' -> wl a i = wl' a i' -> Y i = Y' i') ->
  forall i i', i < n -> i' < n' -> wl (a + length ls) i = wl' (a + length ls) i' ->
  map (fun Z : nat -> V => Z i) (gin_history o ls es Y) = map (fun Z : nat -> V => Z i') (gin_history o ls es' Y').
Proof.
  induction ls as [|l ls IH]; intros a Y Y' HY i i' Hi Hi' H; [auto|]. cbn [gin_history map length] in *.
  assert (HS : forall i i', i < n -> i' < n' -> wl (S a) i = wl' (S a) i' -> gin_step o l es Y i = gin_step o l es' Y' i').
  { clear i i' Hi Hi' H. intros i i' Hi Hi' H. cbn [wl_colour] in H. apply HF in H as [Hc Hu]. unfold gin_step.
    rewrite (HY i i') by auto. do 3 f_equal. apply (reduce_rows_perm o Ho).
    revert Hu. apply perm_transfer. intros [u v] [u' v'] Hin Hin' E. apply filter_In in Hin as [Hin _]. apply filter_In in Hin' as [Hin' _].
    cbn [fst] in *. apply HY; auto; [apply (HG u v)|apply (HG' u' v')]; auto. }
  f_equal.
  - apply HS; auto. eapply wl_down; [|exact H]. lia.
  - apply (IH (S a)); auto. replace (S a + length ls) with (a + S (length ls)) by lia. auto.
Qed.
End Gin.

Lemma last_map {A B} (f : A -> B) l d : last (map f l) (f d) = f (last l d).
Proof. induction l as [|a l IH]; auto. destruct l; auto. Qed.

(** Graphs with the same colour multisets get the same prediction. *)
Lemma gin_predict_wl {W V C} (o : ops V) (Ho : ops_ok o) (init : W -> C) hash (m : gin_net V) (g g' : graph V) (X X' : nat -> W) (emb : W -> V) :
  wl_faithful init hash -> pgraph_ok g -> pgraph_ok g' ->
  (forall i, i < length (g_x g) -> node_feats o g i = emb (X i)) -> (forall i, i < length (g_x g') -> node_feats o g' i = emb (X' i)) ->
  let L := S (length (gn_rest m)) in
  Permutation (wl_colours init hash (g_edges g) X (length (g_x g)) L) (wl_colours init hash (g_edges g') X' (length (g_x g')) L) ->
  gin_predict o m g = gin_predict o m g'.
Proof.
  intros HF HG HG' HX HX' L HP. unfold gin_predict. f_equal. apply (reduce_rows_perm o Ho).
  unfold wl_colours in HP. revert HP. apply perm_transfer. intros i i' Hi Hi' E. apply in_seq in Hi, Hi'.
  assert (HY : forall i i', i < length (g_x g) -> i' < length (g_x g') ->
    wl_colour init hash (g_edges g) X 0 i = wl_colour init hash (g_edges g') X' 0 i' -> node_feats o g i = node_feats o g' i').
  { intros j j' Hj Hj' H. rewrite HX, HX' by auto. f_equal. apply HF. exact H. }
  pose proof (gin_history_wl o Ho init hash HF (g_edges g) (g_edges g') (length (g_x g)) (length (g_x g')) X X' HG HG'
    (gn_first m :: gn_rest m) 0 _ _ HY i i' ltac:(lia) ltac:(lia) E) as HH.
  set (h := gin_history o (gn_first m :: gn_rest m) (g_edges g) (node_feats o g)) in *.
  set (h' := gin_history o (gn_first m :: gn_rest m) (g_edges g') (node_feats o g')) in *.
  destruct (gn_jump m) as [j|]; [f_equal; auto|].
  rewrite <- (last_map (fun Z : nat -> V => Z i) h), <- (last_map (fun Z : nat -> V => Z i') h'), HH. f_equal.
  apply HY; [lia|lia|]. apply (wl_down init hash HF (g_edges g) (g_edges g') X X' L); auto. lia.
Qed.

(** ** Lifted complexes *)
Section Lifted.
Context {V : Type} (o : ops V).
Variables (es : list (nat * nat)) (n : nat) (cells : nat -> list (list nat)) (down : bool) (FX : nat -> option (list V)) (k : complex V) (Dm : nat).
Hypothesis HS : simple es n.
Hypothesis HC : graph_cells es n cells.
Hypothesis HK : has_cells cells down FX k.
Hypothesis HD : 1 <= Dm.
Notation Sk := (skel_of Dm k (fun d => length (cells d))).

Lemma lifted_size : s_n Sk 0 = n.
Proof. unfold skel_of. cbn. apply (gc_vertices _ _ _ HC). Qed.

Lemma vertex_name v s : names cells 0 v s <-> v < n /\ s = [v].
Proof.
  split.
  - intros H. assert (v < n) by (rewrite <- (gc_vertices _ _ _ HC); eapply nth_error_Some; unfold names in H; rewrite H; discriminate).
    split; auto. pose proof (gc_vertex _ _ _ HC v ltac:(auto)) as H'. unfold names in *. congruence.
  - intros [H ->]. apply (gc_vertex _ _ _ HC); auto.
Qed.

(** The upper neighbours of a vertex are its neighbours in the graph, once each. *)
Lemma lifted_neighbours i : Permutation (map (fun e => fst (fst e)) (up_at Sk 0 i)) (map fst (into es i)).
Proof.
  assert (HE : forall u v, adjacent es u v -> In (u, v) es).
  { intros u v [_ [H|H]]; auto. apply (si_sym _ _ HS); auto. }
  assert (HU : forall a t, In ((a, i), t) (s_up Sk 0) <-> exists u v, u < v /\ names cells 1 t [u; v] /\ adjacent es u v /\
      ((a = u /\ i = v) \/ (a = v /\ i = u))).
  { intros a t. unfold skel_of. cbn [s_up]. destruct (Nat.ltb_spec 0 (Nat.min (k_dim k) Dm)) as [H|H].
    - destruct (nth_error (k_cochains k) 0) as [c|] eqn:Ec.
      2:{ apply nth_error_None in Ec. rewrite (wfk_len _ _ (hc_wf _ _ _ _ HK)) in Ec. lia. }
      pose proof (hc_up _ _ _ _ HK 0 c Ec) as U. unfold attr. rewrite Ec. fold (triples (c_upper c) (c_shc c)). rewrite (ue_iff _ _ _ U). split.
      + intros (Hai & (sa & st & Na & Nt & Ia) & (si & st' & Ni & Nt' & Ii)).
        unfold names in Nt, Nt'. rewrite Nt in Nt'. inversion Nt'; subst st'. apply vertex_name in Na as [_ ->]. apply vertex_name in Ni as [_ ->].
        destruct (proj1 (gc_edge _ _ _ HC st) (nth_error_In _ _ Nt)) as (u & v & Huv & -> & Hadj). exists u, v.
        specialize (Ia a (or_introl eq_refl)). specialize (Ii i (or_introl eq_refl)). cbn in Ia, Ii. split; auto. split; auto. split; auto. lia.
      + intros (u & v & Huv & Nt & Hadj & Hcase). destruct (si_ok _ _ HS u v (HE u v Hadj)) as [Hu Hv].
        split; [lia|]. split.
        * exists [a], [u; v]. split; [apply vertex_name; split; auto; lia|]. split; auto. intros z [<-|[]]. cbn. lia.
        * exists [i], [u; v]. split; [apply vertex_name; split; auto; lia|]. split; auto. intros z [<-|[]]. cbn. lia.
    - cbn [In]. split; [tauto|]. intros (u & v & _ & Nt & _). exfalso.
      assert (E : k_dim k = 0) by lia. pose proof (wfk_above _ _ (hc_wf _ _ _ _ HK) 1 ltac:(lia)) as Z. cbn beta in Z.
      unfold names in Nt. destruct (cells 1); [destruct t; discriminate|discriminate]. }
  assert (HI : forall a, In a (map fst (into es i)) <-> In (a, i) es).
  { intros a. unfold into. rewrite in_map_iff. split.
    - intros ((u & v) & <- & H). apply filter_In in H as [H E]. cbn [fst snd] in *. apply Nat.eqb_eq in E. subst. auto.
    - intros H. exists (a, i). split; auto. apply filter_In. split; auto. cbn. apply Nat.eqb_refl. }
  assert (ND : NoDup (s_up Sk 0)).
  { unfold skel_of. cbn [s_up]. destruct (0 <? Nat.min (k_dim k) Dm) eqn:H; [|constructor]. unfold attr.
    destruct (nth_error (k_cochains k) 0) as [c|] eqn:Ec; [|constructor]. apply (ue_once _ _ _ (hc_up _ _ _ _ HK 0 c Ec)). }
  apply NoDup_Permutation.
  - unfold up_at. apply NoDup_map_inj.
    + intros [[a b] t] [[a' b'] t'] H H' E. apply filter_In in H as [H Eb]. apply filter_In in H' as [H' Eb'].
      cbn [fst snd] in *. apply Nat.eqb_eq in Eb, Eb'. subst a' b b'. apply HU in H as (u & v & Huv & N & _ & Hc). apply HU in H' as (u' & v' & Huv' & N' & _ & Hc').
      assert (u = u' /\ v = v') as [<- <-] by lia. pose proof (gc_once _ _ _ HC t t' _ N N'). congruence.
    + apply NoDup_filter. auto.
  - unfold into. apply NoDup_map_inj.
    + intros [u v] [u' v'] H H' E. apply filter_In in H as [_ H]. apply filter_In in H' as [_ H']. cbn [fst snd] in *. apply Nat.eqb_eq in H, H'. congruence.
    + apply NoDup_filter. apply (si_once _ _ HS).
  - intros a. rewrite HI. split.
    + intros H. apply in_map_iff in H as ([[a' b] t] & E & H). cbn in E. subst a'. apply filter_In in H as [H Eb]. cbn in Eb. apply Nat.eqb_eq in Eb. subst b.
      apply HU in H as (u & v & _ & _ & Hadj & [[-> ->]|[-> ->]]); [auto|]. apply (si_sym _ _ HS). auto.
    + intros H. pose proof (si_loops _ _ HS a i H) as Hne.
      assert (HA : exists t u v, u < v /\ names cells 1 t [u; v] /\ adjacent es u v /\ ((a = u /\ i = v) \/ (a = v /\ i = u))).
      { destruct (Nat.lt_gt_cases a i) as [HL _]. destruct (HL Hne) as [Hlt|Hlt].
        - assert (Hadj : adjacent es a i) by (split; auto). destruct (In_nth_error (cells 1) [a; i]) as [t Ht]; [apply (gc_edge _ _ _ HC); eauto|].
          exists t, a, i. split; [|split; [|split]]; auto.
        - assert (Hadj : adjacent es i a) by (split; auto). destruct (In_nth_error (cells 1) [i; a]) as [t Ht]; [apply (gc_edge _ _ _ HC); eauto|].
          exists t, i, a. split; [|split; [|split]]; auto. }
      destruct HA as (t & HA). apply HU in HA. apply in_map_iff. exists ((a, i), t). split; auto. apply filter_In. split; auto. cbn. apply Nat.eqb_refl.
Qed.
End Lifted.

(** ** Colours of the complex refine colours of the graph *)
Section Refine.
Context {V C CW : Type} (o : ops V) (col0 : nat -> V -> C) (hash : C -> list (C * C) -> list C -> C) (init : V -> CW) (whash : CW -> list CW -> CW).
Hypothesis Hcol : ideal_init col0.
Hypothesis Hhash : ideal_hash hash.
Hypothesis Hsym : wl_symmetric whash.
Variables (es es' : list (nat * nat)) (Sk Sk' : skel) (X X' : feats V).
Hypothesis HN : forall i, Permutation (map (fun e => fst (fst e)) (up_at Sk 0 i)) (map fst (into es i)).
Hypothesis HN' : forall i, Permutation (map (fun e => fst (fst e)) (up_at Sk' 0 i)) (map fst (into es' i)).

Lemma colour_refines_wl l : forall i i', colour col0 hash Sk X l 0 i = colour col0 hash Sk' X' l 0 i' ->
  wl_colour init whash es (X 0) l i = wl_colour init whash es' (X' 0) l i'.
Proof.
  induction l as [|l IH]; intros i i' H; cbn [colour wl_colour] in *.
  - f_equal. apply Hcol in H. auto.
  - apply Hhash in H as (Hc & Hu & _). rewrite (IH i i' Hc). apply Hsym.
    rewrite <- (map_map fst (wl_colour init whash es (X 0) l) (into es i)), <- (map_map fst (wl_colour init whash es' (X' 0) l) (into es' i')).
    rewrite <- (Permutation_map _ (HN i)), <- (Permutation_map _ (HN' i')), !map_map.
    revert Hu. apply perm_transfer. intros e e' _ _ E. apply IH. inversion E. auto.
Qed.
End Refine.
