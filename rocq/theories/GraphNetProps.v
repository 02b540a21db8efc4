(** C53: the graph networks, the ring networks and the network without message passing answer every
    member of a batch as if it were alone.  C54: how far messages travel. *)
From Coq Require Import List Arith Lia ZArith Bool Permutation.
From Verif Require Import Base ScatterModel ScatterSpec ScatterProofs ComplexModel BatchSpec BatchSpec2
  BatchProofs BatchProofs2 BatchProps MPModel MPSpec MPProofs MPEngine MPBatch MPForward MPNets MPProps LiftSpec
  DummyModel GraphNetModel GraphNetSpec GraphNetProofs RingNetProofs.
Import ListNotations.

Lemma filter_map_comm {A B} (f : A -> B) (P : B -> bool) l :
  filter P (map f l) = map f (filter (fun a => P (f a)) l).
Proof. induction l as [|a l IH]; simpl; auto. rewrite IH. destruct (P (f a)); auto. Qed.

Section Props.
Context {V : Type} (o : ops V).
Notation complex := (complex V).

(** ** C53 *)
(** GIN0, GIN, GIN0WithJK, GINWithJK. *)
Theorem C53_gin (m : gin_net V) gs : gs <> [] -> Forall pgraph_ok gs -> Forall (fun g => g_x g <> []) gs ->
  Forall (fun g => g_mask g = None) gs \/ Forall mask_ok gs ->
  exists b out, batch_graphs gs = Ok b /\ gin_forward o m b = Ok out /\ length out = length gs /\
    forall i g v, nth_error gs i = Some g -> nth_error out i = Some v ->
      exists b1, batch_graphs [g] = Ok b1 /\ gin_forward o m b1 = Ok [v].
Proof.
  intros Hne HG HX HM. destruct (gin_batch o m gs Hne HG HX HM) as (b & Eb & Ef).
  eexists b, _. split; [exact Eb|]. split; [exact Ef|]. rewrite map_length. split; auto.
  intros i g v Hg Hv. rewrite nth_error_map, Hg in Hv. simpl in Hv. inversion Hv; subst v; clear Hv.
  apply nth_error_In in Hg. destruct (gin_batch o m [g]) as (b1 & E1 & F1); [discriminate|..].
  - constructor; auto. rewrite Forall_forall in HG. auto.
  - constructor; auto. rewrite Forall_forall in HX. apply HX; auto.
  - destruct HM as [HM|HM]; rewrite Forall_forall in HM; [left|right]; constructor; auto.
  - exists b1. auto.
Qed.

(** RingGIN: one row for every marked node. *)
Theorem C53_ring_gin (m : ring_gin V) gs : gs <> [] -> Forall pgraph_ok gs -> Forall mask_ok gs ->
  exists b outs, batch_graphs gs = Ok b /\ ring_gin_forward o m b = Ok (concat outs) /\ length outs = length gs /\
    forall i g out, nth_error gs i = Some g -> nth_error outs i = Some out ->
      length out = length (filter (fun f => f) (content (g_mask g))) /\
      exists b1, batch_graphs [g] = Ok b1 /\ ring_gin_forward o m b1 = Ok out.
Proof.
  intros Hne HG HM. destruct (ring_gin_batch o m gs Hne HG HM) as (b & Eb & Ef).
  exists b, (map (ring_gin_answers o m) gs). split; [exact Eb|]. split; [exact Ef|]. rewrite map_length. split; auto.
  intros i g v Hg Hv. rewrite nth_error_map, Hg in Hv. simpl in Hv. inversion Hv; subst v; clear Hv.
  apply nth_error_In in Hg. split.
  - unfold ring_gin_answers. rewrite map_length. unfold marked. generalize (content (g_mask g)) as l. clear.
    induction l as [|a l IH]; [reflexivity|]. cbn [length seq]. rewrite <- seq_shift.
    cbn [filter]. change (nth 0 (a :: l) false) with a.
    assert (E : length (filter (fun i => nth i (a :: l) false) (map S (seq 0 (length l)))) =
      length (filter (fun f => f) l)).
    { rewrite <- IH. rewrite filter_map_comm, map_length. reflexivity. }
    destruct a; cbn [length]; rewrite E; auto.
  - destruct (ring_gin_batch o m [g]) as (b1 & E1 & F1); [discriminate|..].
    + constructor; auto. rewrite Forall_forall in HG. auto.
    + constructor; auto. rewrite Forall_forall in HM. auto.
    + exists b1. split; auto. rewrite F1. simpl. rewrite app_nil_r. auto.
Qed.

(** RingSparseCIN. *)
Theorem C53_ring_cin (Hdiv : vdivn o (vzero o) 1 = vzero o) (m : ring_cin V) ks szs Dm :
  ks <> [] -> Forall2 wf_complex ks szs -> Forall (has_features Dm) ks -> Forall2 masked ks szs ->
  rc_layers m <> [] ->
  exists b b' outs, from_complex_list ks Dm = Ok b /\ ring_cin_forward o m b = Ok (concat outs, b') /\
    length outs = length ks /\
    forall i k out, nth_error ks i = Some k -> nth_error outs i = Some out ->
      exists b1 b1', from_complex_list [k] Dm = Ok b1 /\ ring_cin_forward o m b1 = Ok (out, b1').
Proof.
  intros Hne HW HF HM HL. destruct (ring_cin_batch o Hdiv m ks szs Dm Hne HW HF HM HL) as (b & b' & Eb & Ef).
  eexists b, b', _. split; [exact Eb|]. split; [exact Ef|].
  pose proof (Forall2_length HW) as Hlen. split; [rewrite map_length, combine_length; lia|].
  intros i k out Hk Hv. rewrite nth_error_map, nth_error_combine, Hk in Hv.
  destruct (nth_error szs i) as [sz|] eqn:Es; [|discriminate]. simpl in Hv. inversion Hv; subst out; clear Hv.
  destruct (ring_cin_batch o Hdiv m [k] [sz] Dm) as (b1 & b1' & E1 & F1); auto.
  - discriminate.
  - constructor; auto. eapply Wk; eauto.
  - rewrite Forall_forall in HF. constructor; auto. apply HF. eapply nth_error_In; eauto.
  - constructor; auto. destruct (Forall2_nth_error_l _ _ _ HM _ _ Hk) as (s2 & Es2 & Hm). congruence.
  - exists b1, b1'. split; auto. rewrite F1. simpl. rewrite app_nil_r. auto.
Qed.

(** Without layers there is no answer. *)
Theorem C53_ring_cin_no_layers (m : ring_cin V) b : rc_layers m = [] -> forall r, ring_cin_forward o m b <> Ok r.
Proof. apply ring_cin_no_layers. Qed.

(** MessagePassingAgnostic: batching, and what the answer depends on: two complexes with the same
    features in every dimension, in any order, get the same answer whatever their adjacencies are. *)
Theorem C53_agnostic (Hdiv : vdivn o (vzero o) 1 = vzero o) (m : agnostic V) ks szs Dm :
  ks <> [] -> Forall2 wf_complex ks szs -> Forall (has_features Dm) ks ->
  Forall (fun sz : nat -> nat => 0 < sz 0) szs ->
  exists b out, from_complex_list ks Dm = Ok b /\ agnostic_forward o m b = Ok out /\ length out = length ks /\
    forall i k v, nth_error ks i = Some k -> nth_error out i = Some v ->
      exists b1, from_complex_list [k] Dm = Ok b1 /\ agnostic_forward o m b1 = Ok [v].
Proof.
  intros Hne HW HF Hp. destruct (agnostic_batch o Hdiv m ks szs Dm Hne HW HF Hp) as (b & Eb & Ef).
  eexists b, _. split; [exact Eb|]. split; [exact Ef|].
  pose proof (Forall2_length HW) as Hlen. split; [rewrite map_length, combine_length; lia|].
  intros i k out Hk Hv. rewrite nth_error_map, nth_error_combine, Hk in Hv.
  destruct (nth_error szs i) as [sz|] eqn:Es; [|discriminate]. simpl in Hv. inversion Hv; subst out; clear Hv.
  destruct (agnostic_batch o Hdiv m [k] [sz] Dm) as (b1 & E1 & F1); auto.
  - discriminate.
  - constructor; auto. eapply Wk; eauto.
  - rewrite Forall_forall in HF. constructor; auto. apply HF. eapply nth_error_In; eauto.
  - rewrite Forall_forall in Hp. constructor; auto. apply Hp. eapply nth_error_In; eauto.
  - exists b1. auto.
Qed.

Lemma rows_of_feats (k : complex) sz d : wf_complex k sz -> d <= k_dim k ->
  (forall c, nth_error (k_cochains k) d = Some c -> c_x c <> None) ->
  map (fun i => feats_of o k d i) (seq 0 (sz d)) = content (attr c_x d k).
Proof.
  intros W Hd Hx. unfold feats_of, attr. destruct (nth_error (k_cochains k) d) as [c|] eqn:Ec.
  2:{ apply nth_error_None in Ec. rewrite (wfk_len _ _ W) in Ec. lia. }
  pose proof (wf_x _ _ _ _ (wfk_each _ _ W _ _ Ec)) as Hl. specialize (Hx c eq_refl).
  destruct (c_x c) as [x|]; [|congruence]. simpl. rewrite <- Hl. apply map_nth_seq.
Qed.

Theorem C53_agnostic_features (Ho : ops_ok o) (m : agnostic V) (k k' : complex) sz sz' Dm :
  wf_complex k sz -> wf_complex k' sz' -> has_features Dm k -> has_features Dm k' -> 0 < sz 0 -> 0 < sz' 0 ->
  (forall d, d <= Dm -> Permutation (content (attr c_x d k)) (content (attr c_x d k'))) ->
  exists b b' v, from_complex_list [k] Dm = Ok b /\ from_complex_list [k'] Dm = Ok b' /\
    agnostic_forward o m b = Ok [v] /\ agnostic_forward o m b' = Ok [v].
Proof.
  intros W W' F F' H0 H0' HP.
  destruct (agnostic_batch o (div_0_1 o Ho) m [k] [sz] Dm) as (b & Eb & Ef); [discriminate|auto..].
  destruct (agnostic_batch o (div_0_1 o Ho) m [k'] [sz'] Dm) as (b' & Eb' & Ef'); [discriminate|auto..].
  eexists b, b', _. split; [exact Eb|]. split; [exact Eb'|]. split; [exact Ef|]. rewrite Ef'. simpl. do 2 f_equal.
  unfold agnostic_predict. do 2 f_equal. apply map_ext. intros d. f_equal.
  assert (E : forall (q : complex) s, wf_complex q s -> has_features Dm q ->
    map (fun i => ag_lin0 m d (feats_of o q d i)) (seq 0 (cells_to Dm q s d)) =
    map (ag_lin0 m d) (if d <=? Dm then content (attr c_x d q) else [])).
  { intros q s Wq Fq. unfold cells_to. destruct (Nat.leb_spec d Dm).
    - destruct (Nat.leb_spec d (Nat.min (k_dim q) Dm)).
      + rewrite <- (rows_of_feats q s d) by (auto; try lia; intros; apply (Fq d); auto). rewrite map_map. auto.
      + assert (En : nth_error (k_cochains q) d = None).
        { apply nth_error_None. rewrite (wfk_len _ _ Wq). lia. }
        unfold attr. rewrite En. reflexivity.
    - destruct (Nat.leb_spec d (Nat.min (k_dim q) Dm)); [lia|reflexivity]. }
  rewrite (E k' sz'), (E k sz) by auto. apply (reduce_rows_perm o Ho). apply Permutation_map.
  destruct (Nat.leb_spec d Dm); auto. apply Permutation_sym. auto.
Qed.

(** Renaming the nodes of a graph does not change the prediction of the graph networks. *)
Record renamed (g g' : graph V) (s : nat -> nat) : Prop := {
  rn_perm : Permutation (map s (seq 0 (length (g_x g)))) (seq 0 (length (g_x g')));
  rn_x : forall i, i < length (g_x g) -> nth_error (g_x g') (s i) = nth_error (g_x g) i;
  rn_edges : Permutation (map (fun e => (s (fst e), s (snd e))) (g_edges g)) (g_edges g')
}.

Lemma renamed_inj g g' s : renamed g g' s -> forall i j, i < length (g_x g) -> j < length (g_x g) -> s i = s j -> i = j.
Proof.
  intros R i j Hi Hj E. pose proof (rn_perm _ _ _ R) as HP.
  assert (ND : NoDup (map s (seq 0 (length (g_x g))))).
  { eapply Permutation_NoDup; [apply Permutation_sym, HP|apply seq_NoDup]. }
  apply (proj1 (NoDup_nth_error _) ND).
  - rewrite map_length, seq_length. auto.
  - rewrite !nth_error_map, !(nth_error_nth' _ 0) by (rewrite seq_length; auto). rewrite !seq_nth by auto.
    simpl. congruence.
Qed.

Lemma into_renamed g g' s i : renamed g g' s -> pgraph_ok g -> i < length (g_x g) ->
  Permutation (map (fun e => (s (fst e), s (snd e))) (into (g_edges g) i)) (into (g_edges g') (s i)).
Proof.
  intros R HG Hi. unfold into.
  assert (E : filter (fun e => snd e =? s i) (map (fun e => (s (fst e), s (snd e))) (g_edges g)) =
              map (fun e => (s (fst e), s (snd e))) (filter (fun e => snd e =? i) (g_edges g))).
  { rewrite filter_map_comm. f_equal. apply filter_ext_in. intros [u v] He. cbn [fst snd].
    destruct (HG u v He) as [_ Hv].
    destruct (Nat.eqb_spec (s v) (s i)), (Nat.eqb_spec v i); subst; auto; try congruence.
    exfalso. apply n. eapply renamed_inj; eauto. }
  rewrite <- E. clear E. pose proof (rn_edges _ _ _ R) as HP.
  revert HP. generalize (map (fun e => (s (fst e), s (snd e))) (g_edges g)) as l. generalize (g_edges g') as l'.
  intros l' l HP. induction HP as [|x l l' HP IH|x y l|l1 l2 l3 H1 IH1 H2 IH2]; simpl; auto.
  - destruct (snd x =? s i); auto.
  - destruct (snd y =? s i), (snd x =? s i); auto. constructor.
  - eapply Permutation_trans; eauto.
Qed.

Lemma gin_history_renamed (Ho : ops_ok o) ls g g' s : renamed g g' s -> pgraph_ok g -> forall X X',
  (forall i, i < length (g_x g) -> X i = X' (s i)) ->
  Forall2 (fun Y Y' => forall i, i < length (g_x g) -> Y i = Y' (s i))
    (gin_history o ls (g_edges g) X) (gin_history o ls (g_edges g') X').
Proof.
  intros R HG. induction ls as [|l ls IH]; intros X X' HX; [constructor|]. cbn [gin_history].
  assert (HY : forall i, i < length (g_x g) -> gin_step o l (g_edges g) X i = gin_step o l (g_edges g') X' (s i)).
  { intros i Hi. unfold gin_step. rewrite <- (HX i Hi). do 3 f_equal.
    rewrite <- (reduce_rows_perm o Ho RAdd _ _ (Permutation_map (fun e => X' (fst e)) (into_renamed g g' s i R HG Hi))).
    rewrite map_map. f_equal. apply map_ext_in. intros [u v] He. apply filter_In in He as [He _].
    destruct (HG u v He) as [Hu _]. apply HX; auto. }
  constructor; auto.
Qed.

Theorem C53_gin_isomorphic (Ho : ops_ok o) (m : gin_net V) g g' s :
  renamed g g' s -> pgraph_ok g -> pgraph_ok g' -> g_x g <> [] -> g_mask g = None -> g_mask g' = None ->
  exists b b' v, batch_graphs [g] = Ok b /\ batch_graphs [g'] = Ok b' /\
    gin_forward o m b = Ok [v] /\ gin_forward o m b' = Ok [v].
Proof.
  intros R HG HG' Hx Hm Hm'.
  assert (Hlen : length (g_x g) = length (g_x g')).
  { pose proof (Permutation_length (rn_perm _ _ _ R)) as HL. rewrite map_length, !seq_length in HL. auto. }
  destruct (gin_batch o m [g]) as (b & Eb & Ef); [discriminate|auto..].
  destruct (gin_batch o m [g']) as (b' & Eb' & Ef'); [discriminate|constructor; auto..|left; auto|].
  { intros E. rewrite E in Hlen. destruct (g_x g); [congruence|discriminate]. }
  eexists b, b', _. split; [exact Eb|]. split; [exact Eb'|]. split; [exact Ef|]. rewrite Ef'. simpl. do 2 f_equal.
  unfold gin_predict.
  assert (HX : forall i, i < length (g_x g) -> node_feats o g i = node_feats o g' (s i)).
  { intros i Hi. unfold node_feats. pose proof (rn_x _ _ _ R i Hi) as E.
    rewrite (nth_error_nth' _ (vzero o) Hi) in E. symmetry. apply nth_error_nth. auto. }
  pose proof (gin_history_renamed Ho (gn_first m :: gn_rest m) g g' s R HG _ _ HX) as HH.
  f_equal.
  set (h := gin_history o (gn_first m :: gn_rest m) (g_edges g) (node_feats o g)) in *.
  set (h' := gin_history o (gn_first m :: gn_rest m) (g_edges g') (node_feats o g')) in *.
  rewrite (reduce_rows_perm o Ho _ _ _ (Permutation_map _ (Permutation_sym (rn_perm _ _ _ R)))).
  rewrite map_map. f_equal. apply map_ext_in. intros i Hi. apply in_seq in Hi. symmetry.
  destruct (gn_jump m) as [j|].
  - f_equal. clearbody h h'. clear -HH Hi. induction HH as [|Y Y' h h' HY HH IH]; simpl; auto. f_equal; auto. apply HY; lia.
  - assert (HL : forall i, i < length (g_x g) -> last h (node_feats o g) i = last h' (node_feats o g') (s i)).
    { apply (last_Forall2 (fun Y Y' => forall i, i < length (g_x g) -> Y i = Y' (s i)) h h'); auto. }
    apply HL. lia.
Qed.

(** ** C54 *)
(** A chain of messages: in [n] steps information of cell [c] can reach cell [(d, i)].  [cob]: do
    upper messages carry coboundary features?  [low]: are there lower messages? *)
Inductive sees (K : skel) (cob low : bool) : nat -> nat * nat -> nat * nat -> Prop :=
| sees_self c : sees K cob low 0 c c
| sees_up n d i j t c : In ((j, i), t) (s_up K d) -> sees K cob low n (d, j) c -> sees K cob low (S n) (d, i) c
| sees_cob n d i j t c : cob = true -> In ((j, i), t) (s_up K d) -> sees K cob low n (d + 1, t) c ->
    sees K cob low (S n) (d, i) c
| sees_low n d i j t c : low = true -> In ((j, i), t) (s_low K d) -> sees K cob low n (d, j) c ->
    sees K cob low (S n) (d, i) c
| sees_shared n d i j t c : low = true -> In ((j, i), t) (s_low K d) -> sees K cob low n (pred d, t) c ->
    sees K cob low (S n) (d, i) c
| sees_bnd n d i f c : In (f, i) (s_bnd K d) -> sees K cob low n (pred d, f) c -> sees K cob low (S n) (d, i) c.

Definition uses (cob low : bool) (L : layer V) : Prop :=
  (cob = false -> forall d x a a', r_up (l_rule L d) x a = r_up (l_rule L d) x a') /\
  (low = false -> forall d, r_low (l_rule L d) = None).

Lemma step_local K cob low pdim top L X Y d i : uses cob low L ->
  (forall n e j, n <= 1 -> sees K cob low n (d, i) (e, j) -> X e j = Y e j) ->
  step o pdim top K L X d i = step o pdim top K L Y d i.
Proof.
  intros [HC HL] H. pose proof (H 0 d i (Nat.le_0_l _) (sees_self _ _ _ _)) as Hi.
  unfold step. destruct (d <=? pdim); [|rewrite Hi; auto].
  unfold new_feature, agg_up, agg_low, agg_bnd. rewrite Hi. f_equal.
  - f_equal. apply map_ext_in. intros [[j i'] t] He. apply filter_In in He as [He E]. apply Nat.eqb_eq in E.
    cbn [fst snd] in *. subst i'.
    rewrite (H 1 d j) by (auto; eapply sees_up; eauto using sees_self).
    destruct (cob_visible pdim top d); auto. destruct cob.
    + do 2 f_equal. apply (H 1); auto. eapply sees_cob; eauto using sees_self.
    + apply HC; auto.
  - destruct (r_low (l_rule L d)) as [f|] eqn:Ef; auto. destruct low; [|rewrite HL in Ef; [discriminate|auto]].
    f_equal. apply map_ext_in. intros [[j i'] t] He. apply filter_In in He as [He E]. apply Nat.eqb_eq in E.
    cbn [fst snd] in *. subst i'. f_equal; apply (H 1); auto; [eapply sees_low|eapply sees_shared]; eauto using sees_self.
  - destruct (r_bnd (l_rule L d)) as [f|] eqn:Ef; auto.
    f_equal. apply map_ext_in. intros [j i'] He. apply filter_In in He as [He E]. apply Nat.eqb_eq in E.
    cbn [fst snd] in *. subst i'. f_equal. apply (H 1); auto. eapply sees_bnd; eauto using sees_self.
Qed.

Lemma sees_trans K cob low n n' a b c :
  sees K cob low n a b -> sees K cob low n' b c -> sees K cob low (n + n') a c.
Proof.
  intros H1 H2. induction H1; simpl; auto;
    [eapply sees_up|eapply sees_cob|eapply sees_low|eapply sees_shared|eapply sees_bnd]; eauto.
Qed.

(** The features of a cell after some layers depend only on the cells it sees in at most as many
    steps, for every architecture. *)
Theorem C54_receptive_field K cob low pdim top Ls : Forall (uses cob low) Ls -> forall X Y d i,
  (forall n e j, n <= length Ls -> sees K cob low n (d, i) (e, j) -> X e j = Y e j) ->
  last (history o pdim top K Ls X) X d i = last (history o pdim top K Ls Y) Y d i.
Proof.
  induction 1 as [|L Ls HL HF IH]; intros X Y d i H.
  - simpl. apply (H 0); auto. constructor.
  - cbn [history]. set (X1 := step o pdim top K L X). set (Y1 := step o pdim top K L Y).
    assert (E : forall Z W, last (W :: history o pdim top K Ls W) Z = last (history o pdim top K Ls W) W).
    { intros Z W. destruct (history o pdim top K Ls W) as [|A R]; [reflexivity|].
      change (last (A :: R) Z = last (A :: R) W). clear. revert A. induction R as [|B R IHR]; intros A; [reflexivity|].
      change (last (B :: R) Z = last (B :: R) W). apply IHR. }
    rewrite !E. apply IH. intros n e j Hn Hs. apply (step_local K cob low); auto.
    intros n' e' j' Hn' Hs'. apply (H (n + n')); [cbn [length]; lia|]. eapply sees_trans; eauto.
Qed.

(** The same for graphs. *)
Theorem C54_graph ls es X Y i :
  (forall n k, n <= length ls -> walk es n i k -> X k = Y k) ->
  last (gin_history o ls es X) X i = last (gin_history o ls es Y) Y i.
Proof. apply gin_local. Qed.

End Props.

(** ** Examples *)
Section Examples.
Open Scope Z_scope.

(** A path with two nodes and a triangle; node 0 of each is marked. *)
Definition path2 : graph Z := mkGraph [1; 2] [(0, 1); (1, 0)]%nat (Some [true; false]).
Definition tri : graph Z := mkGraph [3; 4; 6] [(0, 1); (1, 0); (1, 2); (2, 1); (0, 2); (2, 0)]%nat (Some [true; false; true]).
Definition gnet : gin_net Z := mkGinNet (mkGin (fun v => 2 * v) (fun v => v) (fun v => v)) [mkGin (Z.max 0) (fun v => 3 * v) (fun v => v)]
  (Some (fun l => fold_left Z.add l 0)) RAdd (fun v => v + 1).
Definition grnet : ring_gin Z := mkRingGin (fun v => v + 1) (mkGin (fun v => 2 * v) (fun v => v) (Z.max 0))
  [mkGin (Z.max 0) (fun v => 3 * v) (fun v => v)] (fun v => v - 1).

Lemma path2_ok : pgraph_ok path2 /\ mask_ok path2.
Proof. split; [|exists [true; false]; auto]. intros u v H. cbn in H. repeat (destruct H as [H|H]; [inversion H; subst; cbn; lia|]). destruct H. Qed.
Lemma tri_ok : pgraph_ok tri /\ mask_ok tri.
Proof. split; [|exists [true; false; true]; auto]. intros u v H. cbn in H. repeat (destruct H as [H|H]; [inversion H; subst; cbn; lia|]). destruct H. Qed.

Example C53_ex_gin : (let* b := batch_graphs [path2; tri] in gin_forward Zops gnet b) = Ok [61; 469] /\
  (let* b := batch_graphs [tri] in gin_forward Zops gnet b) = Ok [469] /\
  (let* b := batch_graphs [path2] in gin_forward Zops gnet b) = Ok [61].
Proof. vm_compute. auto. Qed.
Example C53_ex_gin_applies := C53_gin Zops gnet [path2; tri] ltac:(discriminate)
  (Forall_cons _ (proj1 path2_ok) (Forall_cons _ (proj1 tri_ok) (Forall_nil _)))
  (Forall_cons path2 (ltac:(discriminate) : g_x path2 <> []) (Forall_cons tri (ltac:(discriminate) : g_x tri <> []) (Forall_nil _)))
  (or_intror (Forall_cons _ (proj2 path2_ok) (Forall_cons _ (proj2 tri_ok) (Forall_nil _)))).
Example C53_ex_ring_gin : (let* b := batch_graphs [path2; tri] in ring_gin_forward Zops grnet b) = Ok [39; 159; 159] /\
  (let* b := batch_graphs [tri] in ring_gin_forward Zops grnet b) = Ok [159; 159].
Proof. vm_compute. auto. Qed.

(** Renaming nodes 0 -> 2 -> 1 -> 0 of the triangle; a network whose rows are pooled by the mean. *)
Definition tri' : graph Z := mkGraph [4; 6; 3] [(2, 0); (0, 2); (0, 1); (1, 0); (2, 1); (1, 2)]%nat None.
Definition turn (i : nat) : nat := nth i [2; 0; 1]%nat i.
Example C53_ex_renamed : renamed tri tri' turn.
Proof.
  split.
  - cbn. apply (perm_trans (l' := [0; 2; 1]%nat)); [apply perm_swap|]. apply perm_skip, perm_swap.
  - intros [|[|[|i]]] H; cbn in *; auto. lia.
  - cbn. auto.
Qed.

(** Complexes with masks: the house and the path of [BatchProps], their first node marked. *)
Definition mark0 (k : complex Z) : complex Z :=
  mkComplexRec (k_dim k)
    (mapi (fun d c => if (d =? 0)%nat then
       mkCochain (c_dim c) (c_x c) (c_upper c) (c_lower c) (c_shb c) (c_shc c) (c_bidx c) (c_uor c) (c_lor c) (c_y c)
         (Some (true :: repeat false (length (content (c_x c)) - 1))) (c_n c) (c_nup c) (c_ndown c) else c) (k_cochains k)) (k_y k).
Definition crnet : ring_cin Z := mkRingCin 2 (fun v => v + 1) [ex_sparse; ex_sparse] (fun v => 2 * v).
Example C53_ex_ring_cin :
  match from_complex_list [mark0 house; mark0 path3] 2, from_complex_list [mark0 house] 2, from_complex_list [mark0 path3] 2 with
  | Ok b, Ok b1, Ok b2 =>
      match ring_cin_forward Zops crnet b, ring_cin_forward Zops crnet b1, ring_cin_forward Zops crnet b2 with
      | Ok (out, _), Ok (o1, _), Ok (o2, _) => out = o1 ++ o2 /\ length out = 2%nat
      | _, _, _ => False
      end
  | _, _, _ => False
  end.
Proof. vm_compute. auto. Qed.
Example C53_ex_masked : Forall2 masked [mark0 house; mark0 path3] [house_sz; path3_sz].
Proof. repeat constructor; eexists; split; reflexivity. Qed.

Definition anet : agnostic Z := mkAgnostic 2 (fun d v => Z.of_nat (d + 1) * v) RMean (fun v => v + 1) (fun v => 3 * v).
Example C53_ex_agnostic :
  match from_complex_list trio 2 with
  | Ok b => match agnostic_forward Zops anet b, mapM (fun k => let* b1 := from_complex_list [k] 2 in agnostic_forward Zops anet b1) trio with
            | Ok out, Ok outs => out = concat outs /\ length out = 3%nat
            | _, _ => False
            end
  | Err _ => False
  end.
Proof. vm_compute. auto. Qed.

(** On a path 0-1-2-3 two layers at node 0 do not see node 3. *)
Definition path4 : list (nat * nat) := [(0, 1); (1, 0); (1, 2); (2, 1); (2, 3); (3, 2)]%nat.
Lemma path4_far k j : walk path4 k 0 j -> (k <= 2)%nat -> j <> 3%nat.
Proof.
  assert (H : forall i j k, walk path4 k i j -> (j <= i + k)%nat).
  { induction 1 as [i|n i j0 k0 Hin Hw IH]; [lia|].
    unfold path4 in Hin. cbn in Hin. repeat (destruct Hin as [Hin|Hin]; [inversion Hin; subst; lia|]). destruct Hin. }
  intros Hw Hk. apply H in Hw. lia.
Qed.
Example C54_ex a : last (gin_history Zops [gn_first gnet; gn_first gnet] path4 (fun i => Z.of_nat i)) (fun i => Z.of_nat i) 0%nat =
  last (gin_history Zops [gn_first gnet; gn_first gnet] path4 (fun i => if (i =? 3)%nat then a else Z.of_nat i)) (fun i => if (i =? 3)%nat then a else Z.of_nat i) 0%nat.
Proof.
  apply C54_graph. intros n k Hn Hw. assert (k <> 3%nat) by (eapply path4_far; eauto). destruct (Nat.eqb_spec k 3); congruence.
Qed.
(** In a complex: after one layer with coboundary messages node 0 of the house sees an edge, and what it
    does not see does not matter. *)
Example C54_ex_sees : sees (skel_of 2 house house_sz) true false 1 (0, 0)%nat (1, 0)%nat.
Proof. eapply sees_cob with (j := 1%nat) (t := 0%nat); auto using sees_self. vm_compute. auto. Qed.
Example C54_ex_uses : uses true false (mkLayer (fun d => sparse_rule Zops (ex_sparse d)) None).
Proof. split; [discriminate|]. intros _ d. reflexivity. Qed.
End Examples.

Print Assumptions C53_gin.
Print Assumptions C53_ring_gin.
Print Assumptions C53_ring_cin.
Print Assumptions C53_ring_cin_no_layers.
Print Assumptions C53_agnostic.
Print Assumptions C53_agnostic_features.
Print Assumptions C53_gin_isomorphic.
Print Assumptions C54_receptive_field.
Print Assumptions C54_graph.
