(** Theorems on the embedding networks: batching, isomorphic complexes, initial features of rings. *)
From Coq Require Import List Arith Lia ZArith Bool Permutation.
From Verif Require Import Base ScatterModel ScatterSpec ScatterProofs ComplexModel BatchSpec BatchSpec2
  BatchProofs BatchProofs2 MPModel MPSpec MPProofs MPEngine MPBatch MPForward MPNets MPProps MPParams MPIso
  EmbedModel EmbedSpec EmbedProofs EmbedNets
  LiftModel LiftSpec LiftBase LiftProofs LiftClique LiftTables LiftCliqueProps LiftRing LiftProps LiftRingProps
  LiftRingBoundary LiftRingExamples.
Import ListNotations.

Section Props.
Context {V : Type} (o : ops V).
Notation complex := (complex V).
Notation cochain := (cochain V).

(** The networks of mp/molec_models.py; [D] bounds the dimension of the batches.  The two networks
    with 2-cells embed every dimension of the batch, or do not use the features of coboundaries in
    their top dimension; the other two ignore the 2-cells. *)
Definition fst_only (m : msg V) : Prop := match m with MsgFst _ => True | _ => False end.

Inductive cwn_enet (D : nat) : enet V -> Prop :=
| CE_sparse e max_dim layers jump pool dims lin1 mean lin2 :
    layers <> [] -> (exists d, In d dims /\ d <= max_dim) -> max_dim <= 2 ->
    D <= max_dim \/ (forall l, In l layers -> fst_only (sp_up (l max_dim))) ->
    cwn_enet D (embed_sparse_cin o e max_dim layers jump pool dims lin1 mean lin2)
| CE_cinpp e max_dim layers jump pool dims lin1 mean lin2 :
    layers <> [] -> (exists d, In d dims /\ d <= max_dim) -> max_dim <= 2 ->
    D <= max_dim \/ (forall l, In l layers -> fst_only (pp_up (l max_dim))) ->
    cwn_enet D (embed_cinpp o e max_dim layers jump pool dims lin1 mean lin2)
| CE_no_rings e layers pool lin1 mean lin2 :
    layers <> [] -> cwn_enet D (embed_no_rings o e layers pool lin1 mean lin2)
| CE_gin e layers pool lin1 lin2 :
    layers <> [] -> cwn_enet D (embed_gin o e layers pool lin1 lin2).

Section Div.
Hypothesis Hdiv : vdivn o (vzero o) 1 = vzero o.

Lemma sparse_ignores (l : sparse_level V) : fst_only (sp_up l) -> ignores_up_attr (sparse_forward o l).
Proof. destruct l as [[f|f|g f] ? ? ? ? ? ?]; simpl; intros []. intros p a. reflexivity. Qed.
Lemma cinpp_ignores (l : cinpp_level V) : fst_only (pp_up l) -> ignores_up_attr (cinpp_forward o l).
Proof. destruct l as [[f|f|g f] ? ? ? ? ? ? ? ? ?]; simpl; intros []. intros p a. reflexivity. Qed.

Lemma cwn_enet_ok D m : cwn_enet D m -> exists a, enet_ok o m a D.
Proof.
  intros [e max_dim layers jump pool dims lin1 mean lin2 H H' H2 H3
        | e max_dim layers jump pool dims lin1 mean lin2 H H' H2 H3
        | e layers pool lin1 mean lin2 H | e layers pool lin1 lin2 H]; eexists; split.
  - apply sparse_ok; auto.
  - simpl; lia.
  - simpl; lia.
  - simpl. intros ls ut Hin. apply in_map_iff in Hin as (l & E & _). congruence.
  - destruct H3 as [H3|H3]; [left; simpl; lia|]. right. right. simpl. intros ls ut l Hin Hl.
    apply in_map_iff in Hin as (l0 & E & Hl0). inversion E; subst ls.
    rewrite nth_error_map_seq in Hl. destruct (Nat.ltb_spec max_dim (max_dim + 1)); [|lia]. inversion Hl; subst l.
    apply sparse_ignores. auto.
  - apply cinpp_ok; auto.
  - simpl; lia.
  - simpl; lia.
  - simpl. intros ls ut Hin. apply in_map_iff in Hin as (l & E & _). congruence.
  - destruct H3 as [H3|H3]; [left; simpl; lia|]. right. right. simpl. intros ls ut l Hin Hl.
    apply in_map_iff in Hin as (l0 & E & Hl0). inversion E; subst ls.
    rewrite nth_error_map_seq in Hl. destruct (Nat.ltb_spec max_dim (max_dim + 1)); [|lia]. inversion Hl; subst l.
    apply cinpp_ignores. auto.
  - apply no_rings_ok; auto.
  - simpl; lia.
  - simpl; lia.
  - simpl. intros ls ut Hin. apply in_map_iff in Hin as (l & E & _). congruence.
  - right. right. simpl. intros ls ut l Hin Hl. apply in_map_iff in Hin as (l0 & E & _). inversion E; subst ls.
    inversion Hl; subst l. intros p a. reflexivity.
  - apply gin_ok; auto.
  - simpl; lia.
  - simpl; lia.
  - simpl. intros ls ut Hin. apply in_map_iff in Hin as (l & E & _). congruence.
  - right. left. simpl. lia.
Qed.

(** Inputs of an embedding network: well-formed complexes whose vertices have features, whose
    cells of positive dimension have boundaries; edge features only with an edge embedding. *)
Record embeddable (m : enet V) (k : complex) (sz : nat -> nat) : Prop := {
  eb_wf : wf_complex k sz;
  eb_vx : forall c, nth_error (k_cochains k) 0 = Some c -> c_x c <> None;
  eb_bd : bounded k sz;
  eb_ex : forall c, nth_error (k_cochains k) 1 = Some c -> c_x c <> None -> em_e (en_emb m) <> None
}.

Lemma embeddable_parts m ks szs : Forall2 (embeddable m) ks szs ->
  Forall2 wf_complex ks szs /\ all_x ks 0 /\ Forall2 bounded ks szs /\
  (forall k, In k ks -> edge_feats k = true -> em_e (en_emb m) <> None).
Proof.
  intros H. split; [|split; [|split]].
  - induction H; constructor; auto. apply H.
  - intros k c Hk Hc. apply In_nth_error in Hk as [i Hi]. destruct (Forall2_nth_error_l _ _ _ H _ _ Hi) as (sz & _ & E).
    apply (eb_vx _ _ _ E c Hc).
  - induction H; constructor; auto. apply H.
  - intros k Hk He. apply In_nth_error in Hk as [i Hi]. destruct (Forall2_nth_error_l _ _ _ H _ _ Hi) as (sz & _ & E).
    unfold edge_feats, attr in He. destruct (nth_error (k_cochains k) 1) as [c|] eqn:Ec; [|discriminate].
    apply (eb_ex _ _ _ E c Ec). destruct (c_x c); [discriminate|discriminate He].
Qed.

Lemma uniform_one (k : complex) D : uniform_x [k] D.
Proof.
  intros d _. destruct (nth_error (k_cochains k) d) as [c|] eqn:E.
  - destruct (c_x c) eqn:Ex; [left|right]; intros k' c' [<-|[]] Hc'; congruence.
  - left. intros k' c' [<-|[]] Hc'. congruence.
Qed.

Lemma cwn_enet_le D D' m : D' <= D -> cwn_enet D m -> cwn_enet D' m.
Proof. intros Hle [ ]; constructor; auto; intuition lia. Qed.

(** C06 for embedding networks: the prediction of a complex in a batch is its prediction alone. *)
Theorem C06_embedding_batch_independence (m : enet V) ks szs max_dim :
  cwn_enet (Nat.min (list_max (map k_dim ks)) max_dim) m ->
  ks <> [] -> Forall2 (embeddable m) ks szs ->
  uniform_x ks (Nat.min (list_max (map k_dim ks)) max_dim) ->
  exists b out b',
    from_complex_list ks max_dim = Ok b /\ embed_forward o m b = Ok (out, b') /\
    length out = length ks /\
    forall i k v, nth_error ks i = Some k -> nth_error out i = Some v ->
      exists b1 b1', from_complex_list [k] max_dim = Ok b1 /\ embed_forward o m b1 = Ok ([v], b1').
Proof.
  intros Hm Hne HE Hu. destruct (cwn_enet_ok _ m Hm) as [a Ha].
  destruct (embeddable_parts m ks szs HE) as (HW & H0 & HB & Hee).
  destruct (embed_list o Hdiv m a ks szs max_dim Ha Hne HW Hu H0 HB Hee) as (b & b' & Hb & Hf).
  eexists b, _, b'. split; [exact Hb|]. split; [exact Hf|].
  pose proof (Forall2_length HW) as Hlen. split.
  { rewrite map_length, combine_length. lia. }
  intros i k v Hk Hv. rewrite nth_error_map, nth_error_combine, Hk in Hv.
  destruct (nth_error szs i) as [sz|] eqn:Es; [|discriminate]. simpl in Hv. inversion Hv; subst v; clear Hv.
  assert (Hin : In k ks) by (eapply nth_error_In; eauto).
  destruct (Forall2_nth_error_l _ _ _ HE _ _ Hk) as (sz' & Hs' & HEk). assert (sz' = sz) by congruence. subst sz'.
  destruct (embeddable_parts m [k] [sz]) as (HW1 & H01 & HB1 & Hee1); auto.
  destruct (embed_list o Hdiv m a [k] [sz] max_dim) as (b1 & b1' & Hb1 & Hf1); auto.
  - assert (Hle : Nat.min (list_max (map k_dim [k])) max_dim <= Nat.min (list_max (map k_dim ks)) max_dim).
    { assert (k_dim k <= list_max (map k_dim ks)) by (apply in_list_max, in_map; auto). simpl. lia. }
    destruct Ha as [N1 N2 N3 N4 N5]. split; auto. destruct N5 as [N5|N5]; [left; lia|right; auto].
  - discriminate.
  - apply uniform_one.
  - exists b1, b1'. auto.
Qed.

End Div.

(** ** C27 *)
Section Iso.
Hypothesis Ho : ops_ok o.

Lemma iso_edge_feats pi sz (k k' : complex) : complex_iso pi sz k k' -> wf_complex k sz -> wf_complex k' sz ->
  0 < sz 1 -> edge_feats k = edge_feats k'.
Proof.
  intros HI W W' Hp. pose proof (iso_x _ _ _ _ HI 1 0 Hp) as E. pose proof (iso_range _ _ _ _ HI 1 0 Hp) as Hr.
  assert (G : forall (q : complex) i, wf_complex q sz -> i < sz 1 ->
     edge_feats q = isSome (nth_error (content (attr c_x 1 q)) i)).
  { intros q i Wq Hi. unfold edge_feats, attr. destruct (nth_error (k_cochains q) 1) as [c|] eqn:Ec; simpl.
    2:{ destruct i; reflexivity. }
    pose proof (wf_x _ _ _ _ (wfk_each _ _ Wq _ _ Ec)) as Hx. destruct (c_x c) as [x|]; simpl.
    - destruct (nth_error x i) eqn:En; auto. apply nth_error_None in En. lia.
    - destruct i; reflexivity. }
  rewrite (G k 0 W Hp), (G k' (pi 1 0) W' Hr), E. auto.
Qed.

Lemma init_iso (e : embedder V) (a : arch V) pi sz (k k' : complex) D :
  complex_iso pi sz k k' -> wf_complex k sz -> wf_complex k' sz ->
  predict o a (skel_of D k sz) (init_feats o e D k sz) = predict o a (skel_of D k' sz) (init_feats o e D k' sz).
Proof.
  intros HI W W'.
  apply (predict_agree o permR R_map (R_reduce o Ho) a (skel_of D k sz) (skel_of D k' sz) true (rel pi sz k D)).
  - apply rel_refines; auto.
  - apply Forall_forall. intros L _ E. discriminate.
  - intros d i i' Hr. unfold init_feats.
    apply (embed_agree o permR R_map (R_reduce o Ho) (skel_of D k sz) (skel_of D k' sz) (rel pi sz k D 0)); auto.
    + clear d i i' Hr. intros d i i' Hd [Hi ->]. apply (rel_matched_bnd pi sz k k' D HI W 0); auto.
    + intros j j' Hj. apply (rel_agree o pi sz k k' D HI 0 0 j j' Hj).
    + intros j j' Hj. split.
      * apply (iso_edge_feats pi sz); auto. destruct Hj as [Hj _]. unfold skel_of in Hj. cbn [s_n] in Hj.
        destruct (1 <=? Nat.min (k_dim k) D); lia.
      * intros _. apply (rel_agree o pi sz k k' D HI 0 1 j j' Hj).
  - intros d _ _. apply rel_cells; auto.
Qed.

Theorem C27_embedding_isomorphism_invariance (m : enet V) ks ks' szs max_dim :
  cwn_enet (Nat.min (list_max (map k_dim ks)) max_dim) m -> ks <> [] ->
  Forall2 (embeddable m) ks szs -> Forall2 (embeddable m) ks' szs ->
  uniform_x ks (Nat.min (list_max (map k_dim ks)) max_dim) ->
  uniform_x ks' (Nat.min (list_max (map k_dim ks)) max_dim) ->
  Forall2 (fun q k' => isomorphic (snd q) (fst q) k') (combine ks szs) ks' ->
  exists b b' out bo bo',
    from_complex_list ks max_dim = Ok b /\ from_complex_list ks' max_dim = Ok b' /\
    embed_forward o m b = Ok (out, bo) /\ embed_forward o m b' = Ok (out, bo').
Proof.
  intros Hm Hne HE HE' Hu Hu' HI. pose proof (div_0_1 _ Ho) as Hdiv.
  destruct (cwn_enet_ok Hdiv _ m Hm) as [a Ha].
  destruct (embeddable_parts m ks szs HE) as (HW & H0 & HB & Hee).
  destruct (embeddable_parts m ks' szs HE') as (HW' & H0' & HB' & Hee').
  assert (Hdims : map k_dim ks' = map k_dim ks).
  { clear -HW HI. revert szs ks' HW HI. induction ks as [|k ks IH]; intros szs ks' HW HI; inversion HW; subst;
      simpl in HI; inversion HI; subst; simpl; auto. f_equal; [|eapply IH; eauto].
    destruct H2 as [pi Hpi]. apply Hpi. }
  assert (Hne' : ks' <> []) by (intros ->; destruct ks; [congruence|discriminate]).
  destruct (embed_list o Hdiv m a ks szs max_dim Ha Hne HW Hu H0 HB Hee) as (b & bo & Hb & Hf).
  destruct (embed_list o Hdiv m a ks' szs max_dim) as (b' & bo' & Hb' & Hf'); try rewrite Hdims; auto.
  exists b, b'. eexists. exists bo, bo'. split; [auto|]. split; [auto|]. split; [exact Hf|].
  rewrite Hf'. do 2 f_equal. symmetry.
  clear -HW HW' HI Ho. revert szs ks' HW HW' HI. induction ks as [|k ks IH]; intros szs ks' HW HW' HI;
    inversion HW; subst; inversion HW'; subst; simpl; auto.
  inversion HI; subst. f_equal; [|apply IH; auto].
  simpl in *. destruct H6 as [pi Hpi]. eapply init_iso; eauto.
Qed.

(** ** C23: initial features of rings *)
Lemma wf_rep_shape (k : complex) sz d c : wf_complex k sz -> nth_error (k_cochains k) d = Some c ->
  rep_shape (skel_of (k_dim k) k sz) d c.
Proof.
  intros W Hc.
  assert (Hdk : d <= k_dim k).
  { assert (d < length (k_cochains k)) by (apply nth_error_Some; congruence). rewrite (wfk_len _ _ W) in *; lia. }
  pose proof (wfk_each _ _ W _ _ Hc) as Wc.
  assert (Ha : forall T (get : cochain -> option (list T)), attr get d k = get c)
    by (intros; unfold attr; rewrite Hc; auto).
  split.
  - rewrite skel_of_n by auto. apply wf_num_cells with (1 := Wc).
  - simpl. intros Hlt. pose proof (wf_upper _ _ _ _ Wc) as Hu. rewrite !Ha.
    destruct (Nat.ltb_spec d (Nat.min (k_dim k) (k_dim k))); [|lia].
    destruct (c_upper c) as [u|]; auto. destruct Hu as (_ & _ & s & -> & Hl & _). simpl.
    rewrite combine_fst by auto. split; auto. f_equal.
    clear -Hl. revert u Hl; induction s as [|a s IH]; intros [|b u] Hl; simpl in *; try discriminate; auto. f_equal; auto.
  - rewrite skel_of_low by auto. unfold lows. rewrite !Ha. pose proof (wf_lower _ _ _ _ Wc) as Hu.
    destruct (c_lower c) as [u|]; auto. destruct Hu as (Hd0 & _ & s & -> & Hl & _). simpl.
    rewrite combine_fst by auto. split; auto. split; auto. f_equal.
    clear -Hl. revert u Hl; induction s as [|a s IH]; intros [|b u] Hl; simpl in *; try discriminate; auto. f_equal; auto.
  - rewrite skel_of_bnd by auto. unfold bnds. rewrite Ha. pose proof (wf_bidx _ _ _ _ Wc) as Hu.
    destruct (c_bidx c) as [u|]; auto. destruct Hu. auto.
Qed.

(** Complexes with the boundaries of the liftings are bounded. *)
Lemma ring_cells_bounded edges size max_k cells down X (K : complex) :
  ring_cells edges size max_k cells -> graph_ok edges size -> has_cells cells down X K ->
  bounded K (fun d => length (cells d)).
Proof.
  intros RC HG HC. pose proof (hc_wf _ _ _ _ HC) as W. split.
  - intros d Hd. pose proof (hc_occupied _ _ _ _ HC d Hd). destruct (cells d); [congruence|simpl; lia].
  - intros d t Hd Ht. destruct d as [|d]; [lia|]. unfold attr.
    destruct (nth_error (k_cochains K) (S d)) as [c|] eqn:Ec.
    2:{ apply nth_error_None in Ec. rewrite (wfk_len _ _ W) in Ec. lia. }
    pose proof (hc_bnd _ _ _ _ HC d c Ec) as BE.
    destruct (nth_error (cells (S d)) t) as [s|] eqn:Es; [|apply nth_error_None in Es; lia].
    destruct d as [|[|d]].
    + pose proof (nth_error_In _ _ Es) as Hin. apply (rc_edge _ _ _ _ RC) in Hin as (u & v & Hlt & -> & HA).
      exists u. apply (be_iff _ _ _ BE). exists [u], [u; v]. split; [|split; auto].
      * apply (rc_vertex _ _ _ _ RC). destruct HA as [_ [HA|HA]]; apply HG in HA; lia.
      * intros w [<-|[]]. left; auto.
    + pose proof (ring_boundary_ok edges size max_k cells c RC BE t s Es) as RB.
      pose proof (nth_error_In _ _ Es) as Hin. apply (rc_ring _ _ _ _ RC) in Hin as [[H3 _] _].
      destruct (rb_cycle _ _ _ _ RB 0) as (f & e & Hf & _); [lia|]. eauto.
    + rewrite (rc_top _ _ _ _ RC) in Es by lia. destruct t; discriminate.
Qed.

Lemma sum_app l l' : reduce_rows o RAdd (l ++ l') = vadd o (reduce_rows o RAdd l) (reduce_rows o RAdd l').
Proof.
  unfold reduce_rows. rewrite fold_left_app. generalize (fold_left (vadd o) l (vzero o)). clear l.
  assert (G : forall a b, fold_left (vadd o) l' (vadd o a b) = vadd o a (fold_left (vadd o) l' b)).
  { induction l' as [|x l' IH]; intros a b; simpl; auto. rewrite <- IH. f_equal. rewrite (add_assoc _ Ho). auto. }
  intros v. rewrite <- G. f_equal. rewrite (add_comm _ Ho), (add_0_l _ Ho). auto.
Qed.
Lemma sum_cons v l : reduce_rows o RAdd (v :: l) = vadd o v (reduce_rows o RAdd l).
Proof. change (v :: l) with ([v] ++ l). rewrite sum_app. f_equal. simpl. apply (add_0_l _ Ho). Qed.

Lemma sum_pairs {A} (f g : A -> V) l :
  reduce_rows o RAdd (map (fun a => vadd o (f a) (g a)) l) =
  vadd o (reduce_rows o RAdd (map f l)) (reduce_rows o RAdd (map g l)).
Proof.
  induction l as [|a l IH]; [symmetry; apply (add_0_l _ Ho)|]. cbn [map]. rewrite !sum_cons, IH.
  rewrite <- !(add_assoc _ Ho). f_equal. rewrite !(add_assoc _ Ho). f_equal. apply (add_comm _ Ho).
Qed.

(** The edges of a ring, listed by position. *)
Lemma ring_boundary_listed edges size max_k cells (c : cochain) t s :
  ring_cells edges size max_k cells -> boundary_exact cells 1 c -> names cells 2 t s ->
  exists F, (forall i, i < length s -> names cells 1 (F i) (sort Nat.leb [nth i s 0; nth (nxt (length s) i) s 0])) /\
    Permutation (filter (fun p => snd p =? t) (content (c_bidx c))) (map (fun i => (F i, t)) (seq 0 (length s))).
Proof.
  intros RC BE Hs.
  assert (HF : exists F, forall i, i < length s -> names cells 1 (F i) (sort Nat.leb [nth i s 0; nth (nxt (length s) i) s 0])).
  { assert (G : forall n, n <= length s -> exists F, forall i, i < n -> names cells 1 (F i) (sort Nat.leb [nth i s 0; nth (nxt (length s) i) s 0])).
    { induction n as [|n IH]; intros Hn; [exists (fun _ => 0); intros; lia|]. destruct IH as [F HF]; [lia|].
      destruct (edge_at edges size max_k cells RC t s Hs n) as [f Hf]; [lia|].
      exists (fun i => if i =? n then f else F i). intros i Hi. destruct (Nat.eqb_spec i n) as [->|]; auto. apply HF. lia. }
    apply (G (length s)); auto. }
  destruct HF as [F HF]. exists F. split; auto.
  apply NoDup_Permutation.
  - apply NoDup_filter, (be_once _ _ _ BE).
  - apply NoDup_map_inj; [|apply seq_NoDup]. intros i j Hi Hj E. apply in_seq in Hi, Hj. inversion E as [E'].
    apply (edge_inj edges size max_k cells RC t s Hs i j (F i)); try lia; [apply HF; lia|]. rewrite E'. apply HF; lia.
  - intros [f u]. rewrite filter_In, in_map_iff. cbn [snd]. split.
    + intros [Hin Hu]. apply Nat.eqb_eq in Hu. subst u.
      destruct (edge_only edges size max_k cells c RC BE t s Hs f Hin) as (i & Hi & Hf). exists i. split; [|apply in_seq; lia].
      f_equal. specialize (HF i Hi). apply (rc_once _ _ _ _ RC 1 _ _ _ _ HF Hf). intros v; tauto.
    + intros (i & E & Hi). injection E as <- <-. apply in_seq in Hi. rewrite Nat.eqb_refl. split; auto.
      apply (edge_cycle cells c BE t s Hs (F i) i); [lia|]. apply HF; lia.
Qed.

(** The endpoints of an edge. *)
Lemma edge_endpoints edges size max_k cells (c : cochain) f u v :
  ring_cells edges size max_k cells -> boundary_exact cells 0 c -> u <> v -> u < size -> v < size ->
  names cells 1 f (sort Nat.leb [u; v]) ->
  Permutation (filter (fun p => snd p =? f) (content (c_bidx c))) [(u, f); (v, f)].
Proof.
  intros RC BE Hne Hu Hv Hf. apply NoDup_Permutation.
  - apply NoDup_filter, (be_once _ _ _ BE).
  - constructor; [intros [E|[]]; congruence|]. constructor; auto. constructor.
  - assert (Hv0 : forall w sw, names cells 0 w sw -> sw = [w]).
    { intros w sw Hw. assert (w < size).
      { rewrite <- (rc_vertices _ _ _ _ RC). unfold names in Hw. apply nth_error_Some. congruence. }
      pose proof (rc_vertex _ _ _ _ RC w H) as E. unfold names in *. congruence. }
    intros [w g]. rewrite filter_In. cbn [snd]. split.
    + intros [Hin Hg]. apply Nat.eqb_eq in Hg. subst g. apply (be_iff _ _ _ BE) in Hin as (sw & sf & N1 & N2 & HI).
      apply Hv0 in N1. subst sw. assert (sf = sort Nat.leb [u; v]) by (unfold names in *; congruence). subst sf.
      pose proof (HI w (or_introl eq_refl)) as Hw. rewrite sort_In in Hw. destruct Hw as [<-|[<-|[]]]; simpl; auto.
    + intros H. assert (Hg : g = f /\ (w = u \/ w = v)) by (destruct H as [E|[E|[]]]; inversion E; auto).
      destruct Hg as [-> Hw]. rewrite Nat.eqb_refl. split; auto. apply (be_iff _ _ _ BE).
      exists [w], (sort Nat.leb [u; v]). split; [apply (rc_vertex _ _ _ _ RC); destruct Hw; subst; auto|]. split; auto.
      intros z [<-|[]]. apply sort_In. destruct Hw; subst; simpl; auto.
Qed.

(** Embedding a ring complex: the initial features of the vertices are their embedded features; an
    edge with features gets its embedded features, an edge without features the sum of its embedded
    endpoints; a ring gets the sum of its embedded vertices, each of which is listed once in it. *)
Theorem C23_ring_initial_features (veqb : V -> V -> bool) lib isos set_order r x edges edge_attr size y max_k
    down init_edges init_rings (e : embedder V) :
  (forall v, vdivn o (vadd o v v) 2 = v) ->
  ring_input lib isos set_order x edges size y max_k -> (forall a b, veqb a b = true <-> a = b) ->
  (init_edges = true -> attr_ok edges edge_attr) ->
  em_red e = RAdd -> (init_edges = true -> em_e e <> None) ->
  exists K cells ps xs,
    compute_ring_2complex o veqb lib isos set_order r x edges edge_attr size y max_k down init_edges init_rings = Ok K /\
    ring_cells edges size max_k cells /\
    get_all_cochain_params K 2 true false true = Ok ps /\ embed_ve o e ps = Ok xs /\
    length xs = k_dim K + 1 /\
    nth_error xs 0 = Some (map (em_v e) x) /\
    (forall x1, nth_error xs 1 = Some x1 -> length x1 = length (cells 1) /\
       forall t s, names cells 1 t s ->
         if init_edges
         then exists f v, em_e e = Some f /\ nth_error (content (attr c_x 1 K)) t = Some v /\ nth_error x1 t = Some (f v)
         else nth_error x1 t = Some (reduce_rows o RAdd (map (fun v => em_v e (nth v x (vzero o))) s))) /\
    (forall x2, nth_error xs 2 = Some x2 -> length x2 = length (cells 2) /\
       forall t s, names cells 2 t s ->
         induced_cycle edges s /\ NoDup s /\
         nth_error x2 t = Some (reduce_rows o RAdd (map (fun v => em_v e (nth v x (vzero o))) s))).
Proof.
  intros Hhalf HI He HA Hred Hee.
  destruct (ring_lift_gen o veqb lib isos set_order r x edges edge_attr size y max_k down init_edges init_rings HI He HA)
    as (K & rows & E & HR & HL & HC & HD & _).
  set (cells := rcells_of lib isos set_order edges size max_k) in *.
  pose proof (cells_ring lib isos set_order x edges size y max_k HI) as RC. fold cells in RC.
  pose proof (hc_wf _ _ _ _ HC) as W. set (sz := fun d => length (cells d)) in *.
  pose proof (ring_cells_bounded edges size max_k cells down _ K RC (ri_graph _ _ _ _ _ _ _ _ HI) HC) as HB. fold sz in HB.
  set (Sk := skel_of (k_dim K) K sz).
  assert (Hsd : s_dim Sk = k_dim K) by (unfold Sk; simpl; lia).
  assert (Hsn : forall d, d <= k_dim K -> s_n Sk d = sz d) by (intros d Hd; apply skel_of_n; auto).
  set (X := feats_of o K).
  assert (HxL : forall d c x', nth_error (k_cochains K) d = Some c -> c_x c = Some x' -> length x' = sz d).
  { intros d c x' Hc Hx'. pose proof (wf_x _ _ _ _ (wfk_each _ _ W _ _ Hc)) as G. rewrite Hx' in G. auto. }
  assert (HdK : forall d c, nth_error (k_cochains K) d = Some c -> d <= k_dim K).
  { intros d c Hc. assert (d < length (k_cochains K)) by (apply nth_error_Some; congruence). rewrite (wfk_len _ _ W) in *. lia. }
  assert (HxR : forall d c x', nth_error (k_cochains K) d = Some c -> c_x c = Some x' -> c_x c = Some (map (X d) (seq 0 (s_n Sk d)))).
  { intros d c x' Hc Hx'. rewrite Hx'. f_equal. rewrite (Hsn d) by (eapply HdK; eauto). rewrite <- (HxL d c x' Hc Hx').
    unfold X, feats_of, attr. rewrite Hc, Hx'. symmetry. apply map_nth_seq. }
  destruct (embed_ve_spec o e K Sk X init_edges 2) as (ps & Hps & Hev); auto.
  - apply skel_of_ok; auto.
  - rewrite Hsd. apply (wfk_len _ _ W).
  - intros d c Hc. apply wf_rep_shape; auto.
  - intros d c x' Hc Hx'. rewrite Hsn by (eapply HdK; eauto). eapply HxL; eauto.
  - intros c Hc. pose proof (hc_x _ _ _ _ HC 0 c Hc) as Hx. eapply HxR; eauto.
  - intros c Hc. pose proof (hc_x _ _ _ _ HC 1 c Hc) as Hx. unfold ring_x in Hx. destruct init_edges; auto. eapply HxR; eauto.
  - rewrite Hsd. intros d Hd. rewrite Hsn by lia. pose proof (bd_pos _ _ HB d ltac:(lia)).
    destruct (bd_face _ _ HB d (sz d - 1)) as (f & Hf); [lia|lia|]. exists (f, sz d - 1).
    split; [|cbn [snd]; lia]. unfold Sk. rewrite skel_of_bnd by (auto; lia). apply Hf.
  - set (F := embed_feats _ _ _ _ _ _ _) in Hev. exists K, cells, ps. eexists. split; [exact E|]. split; [exact RC|].
    split; [exact Hps|]. split; [exact Hev|].
    assert (HK2 : k_dim K <= 2).
    { destruct (Nat.le_gt_cases (k_dim K) 2); auto. exfalso. apply (proj1 (HD (k_dim K)) (Nat.le_refl _)). apply (rc_top _ _ _ _ RC). lia. }
    split. { unfold matrices. rewrite map_length, seq_length, Hsd. lia. }
    assert (Hx0 : forall v, X 0 v = nth v x (vzero o)).
    { intros v. unfold X, feats_of, attr. destruct (nth_error (k_cochains K) 0) as [c|] eqn:Ec.
      - rewrite (hc_x _ _ _ _ HC 0 c Ec). reflexivity.
      - apply nth_error_None in Ec. rewrite (wfk_len _ _ W) in Ec. lia. }
    assert (Hsz0 : sz 0 = length x).
    { unfold sz. rewrite (rc_vertices _ _ _ _ RC). symmetry. apply (ri_x _ _ _ _ _ _ _ _ HI). }
    (* sums over the boundary of an edge *)
    assert (Hend : forall c1 f u v, nth_error (k_cochains K) 1 = Some c1 -> u <> v -> u < size -> v < size ->
       names cells 1 f (sort Nat.leb [u; v]) ->
       from_endpoints o (em_v e) (em_red e) Sk X f = vadd o (em_v e (nth u x (vzero o))) (em_v e (nth v x (vzero o)))).
    { intros c1 f u v Hc1 Huv Hu Hv Hf. unfold from_endpoints, bnd_at. unfold Sk. rewrite skel_of_bnd by (auto; eapply HdK; eauto).
      unfold bnds, attr. rewrite Hc1, Hred.
      rewrite (reduce_rows_perm o Ho RAdd _ (map (fun p => em_v e (X 0 (fst p))) [(u, f); (v, f)])).
      2:{ apply Permutation_map. apply (edge_endpoints edges size max_k cells c1 f u v RC); auto. apply (hc_bnd _ _ _ _ HC 0 c1 Hc1). }
      cbn [map fst]. rewrite !sum_cons, !Hx0. f_equal. unfold reduce_rows; simpl. rewrite (add_comm _ Ho). apply (add_0_l _ Ho). }
    split; [|split].
    + unfold matrices. rewrite nth_error_map_seq. destruct (Nat.ltb_spec 0 (Nat.min 2 (s_dim Sk) + 1)); [|lia]. rewrite Hsn by lia. f_equal.
      change (F 0) with (fun i => em_v e (X 0 i)). rewrite Hsz0.
      rewrite <- (map_nth_seq x (vzero o)) at 2. rewrite map_map. apply map_ext. intros i. rewrite Hx0. auto.
    + intros x1 H1. apply matrices_nth in H1 as [Hd ->]. rewrite Hsd in Hd. rewrite map_length, seq_length, Hsn by lia. split; auto.
      intros t s Hs. assert (Ht : t < sz 1) by (unfold names in Hs; apply nth_error_Some; congruence).
      destruct (nth_error (k_cochains K) 1) as [c1|] eqn:Ec.
      2:{ apply nth_error_None in Ec. rewrite (wfk_len _ _ W) in Ec. lia. }
      rewrite nth_error_map_seq. match goal with |- context [t <? ?n] => destruct (Nat.ltb_spec t n); [|lia] end.
      pose proof (hc_x _ _ _ _ HC 1 c1 Ec) as Hx. unfold ring_x in Hx. unfold F. cbn [embed_feats].
      destruct init_edges.
      * specialize (Hee eq_refl). destruct (em_e e) as [f|] eqn:Ef; [|congruence]. exists f.
        destruct (nth_error rows t) as [v|] eqn:Ev; [|apply nth_error_None in Ev; unfold sz in Ht; lia].
        exists v. split; auto. unfold attr. rewrite Ec, Hx. cbn [content]. split; auto.
        unfold X, feats_of, attr. rewrite Ec, Hx. cbn [content]. rewrite (nth_error_nth _ _ _ Ev). auto.
      * pose proof (nth_error_In _ _ Hs) as Hin. apply (rc_edge _ _ _ _ RC) in Hin as (u & v & Hlt & -> & HAd).
        assert (Huv : u < size /\ v < size) by (destruct HAd as [_ [G|G]]; apply (ri_graph _ _ _ _ _ _ _ _ HI) in G; lia).
        rewrite (Hend c1 t u v eq_refl); try lia.
        -- f_equal. cbn [map]. rewrite !sum_cons. f_equal. unfold reduce_rows; simpl. rewrite (add_comm _ Ho). symmetry. apply (add_0_l _ Ho).
        -- rewrite sort_2 by lia. rewrite Nat.min_l, Nat.max_r by lia. auto.
    + intros x2 H2. apply matrices_nth in H2 as [Hd ->]. rewrite Hsd in Hd. rewrite map_length, seq_length, Hsn by lia. split; auto.
      intros t s Hs. assert (Ht : t < sz 2) by (unfold names in Hs; apply nth_error_Some; congruence).
      pose proof (nth_error_In _ _ Hs) as Hin. apply (rc_ring _ _ _ _ RC) in Hin as [Hcyc _].
      split; auto. split; [apply Hcyc|].
      destruct (nth_error (k_cochains K) 1) as [c1|] eqn:Ec1.
      2:{ apply nth_error_None in Ec1. rewrite (wfk_len _ _ W) in Ec1. lia. }
      destruct (nth_error (k_cochains K) 2) as [c2|] eqn:Ec2.
      2:{ apply nth_error_None in Ec2. rewrite (wfk_len _ _ W) in Ec2. lia. }
      rewrite nth_error_map_seq. match goal with |- context [t <? ?n] => destruct (Nat.ltb_spec t n); [|lia] end. f_equal. unfold F. cbn [embed_feats].
      rewrite <- (Hhalf (reduce_rows o RAdd _)). f_equal.
      destruct (ring_boundary_listed edges size max_k cells c2 t s RC (hc_bnd _ _ _ _ HC 1 c2 Ec2) Hs) as (G & HG & HP).
      assert (HB2 : bnd_at Sk 2 t = filter (fun p => snd p =? t) (content (c_bidx c2))).
      { unfold bnd_at, Sk. rewrite skel_of_bnd by (auto; lia). unfold bnds, attr. rewrite Ec2. auto. }
      rewrite HB2, Hred.
      rewrite (reduce_rows_perm o Ho RAdd _ (map (fun p => from_endpoints o (em_v e) RAdd Sk X (fst p)) (map (fun i => (G i, t)) (seq 0 (length s)))))
        by (apply Permutation_map, HP).
      rewrite map_map. cbn [fst]. set (h := fun v => em_v e (nth v x (vzero o))).
      assert (Hlt : forall i, i < length s -> nth i s 0 < size).
      { intros i Hi. pose proof (nxt_lt (length s) i Hi) as Hn.
        assert (HAd : adjacent edges (nth i s 0) (nth (nxt (length s) i) s 0)) by (apply (adj_iff edges s Hcyc); auto).
        destruct HAd as [_ [Q|Q]]; apply (ri_graph _ _ _ _ _ _ _ _ HI) in Q; lia. }
      rewrite (map_ext_in _ (fun i => vadd o (h (nth i s 0)) (h (nth (nxt (length s) i) s 0)))).
      2:{ intros i Hi. apply in_seq in Hi. pose proof (nxt_lt (length s) i ltac:(lia)) as Hn. rewrite <- Hred.
          rewrite (Hend c1 (G i) (nth i s 0) (nth (nxt (length s) i) s 0) eq_refl); auto.
          - apply (at_next edges s Hcyc). lia.
          - apply Hlt. lia.
          - apply HG. lia. }
      rewrite (sum_pairs (fun i => h (nth i s 0)) (fun i => h (nth (nxt (length s) i) s 0))).
      rewrite <- (map_map (fun i => nth i s 0) h), map_nth_seq. f_equal.
      rewrite <- (map_map (nxt (length s)) (fun i => h (nth i s 0))).
      rewrite (reduce_rows_perm o Ho RAdd _ (map (fun i => h (nth i s 0)) (seq 0 (length s)))) by (apply Permutation_map, nxt_bij).
      rewrite <- (map_map (fun i => nth i s 0) h), map_nth_seq. auto.
Qed.

End Iso.

(** Ring complexes are inputs of the embedding networks. *)
Theorem ring_embeddable (veqb : V -> V -> bool) lib isos set_order r x edges edge_attr size y max_k
    down init_edges init_rings (m : enet V) :
  ring_input lib isos set_order x edges size y max_k -> (forall a b, veqb a b = true <-> a = b) ->
  (init_edges = true -> attr_ok edges edge_attr) -> (init_edges = true -> em_e (en_emb m) <> None) ->
  forall K, compute_ring_2complex o veqb lib isos set_order r x edges edge_attr size y max_k down init_edges init_rings = Ok K ->
  k_dim K <= 2 /\ (exists sz, embeddable m K sz) /\
  forall d c, nth_error (k_cochains K) d = Some c ->
    c_x c <> None <-> d = 0 \/ (d = 1 /\ init_edges = true) \/ (d = 2 /\ init_rings = true).
Proof.
  intros HI He HA Hee K E.
  destruct (ring_lift_gen o veqb lib isos set_order r x edges edge_attr size y max_k down init_edges init_rings HI He HA)
    as (K' & rows & E' & HR & HL & HC & HD & _).
  assert (K' = K) by congruence. subst K'.
  pose proof (cells_ring lib isos set_order x edges size y max_k HI) as RC.
  set (cells := rcells_of lib isos set_order edges size max_k) in *.
  assert (HK2 : k_dim K <= 2).
  { destruct (Nat.le_gt_cases (k_dim K) 2); auto. exfalso. apply (proj1 (HD (k_dim K)) (Nat.le_refl _)). apply (rc_top _ _ _ _ RC). lia. }
  pose proof (hc_wf _ _ _ _ HC) as W.
  assert (HX : forall d c, nth_error (k_cochains K) d = Some c ->
    c_x c <> None <-> d = 0 \/ (d = 1 /\ init_edges = true) \/ (d = 2 /\ init_rings = true)).
  { intros d c Hc. rewrite (hc_x _ _ _ _ HC d c Hc). unfold ring_x.
    assert (d < length (k_cochains K)) by (apply nth_error_Some; congruence). rewrite (wfk_len _ _ W) in *.
    destruct d as [|[|[|d]]]; [| | |lia].
    - split; [auto|discriminate].
    - destruct init_edges; split; intros; auto; try discriminate; try congruence. intuition discriminate.
    - destruct init_rings; split; intros; auto; try discriminate; try congruence. intuition discriminate. }
  split; auto. split; [|auto]. exists (fun d => length (cells d)). split; auto.
  - intros c Hc. apply (HX 0 c Hc). auto.
  - eapply ring_cells_bounded; eauto. apply (ri_graph _ _ _ _ _ _ _ _ HI).
  - intros c Hc Hx. apply (HX 1 c Hc) in Hx as [Hx|[[_ Hx]|[Hx _]]]; try discriminate. auto.
Qed.

End Props.

(** ** Examples *)
Definition ex_emb : embedder Z := mkEmb (fun v => 2 * v + 1)%Z (Some (fun v => v + 5)%Z) RAdd.
Definition ex_lv : sparse_level Z := mkSparseLevel (MsgCat (fun x e => x + 3 * e)%Z) (fun v => v) (fun v => v)
  (fun v => 2 * v)%Z (fun a b => a + 7 * b)%Z (fun v => v) (fun v => v).
Definition ex_enet : enet Z :=
  embed_sparse_cin Zops ex_emb 2 [fun _ => ex_lv; fun _ => ex_lv] None RAdd [0; 1; 2] (fun _ v => v) false (fun v => v).
Definition ex_triangle_edges : list (nat * nat) := [(0,1);(1,0);(1,2);(2,1);(0,2);(2,0)].
Definition ex_house : result (complex Z) :=
  compute_ring_2complex Zops Z.eqb (ref_lib false) (ref_isos 5) (@rev _) RAdd house_x house (Some house_attr) 5 None 5 false true false.
Definition ex_triangle : result (complex Z) :=
  compute_ring_2complex Zops Z.eqb (ref_lib false) (ref_isos 3) (@rev _) RAdd [1;2;3]%Z ex_triangle_edges
    (Some [4;4;5;5;6;6]%Z) 3 None 5 false true false.

(** The same without edge features. *)
Definition ex_bare : result (complex Z) :=
  compute_ring_2complex Zops Z.eqb (ref_lib false) (ref_isos 3) (@rev _) RAdd [1;2;3]%Z ex_triangle_edges
    None 3 None 5 false false false.

(** Embedded vertices 3 21 201 2001 20001; square 0 1 2 3 and triangle 0 1 4. *)
Example ex_embed :
  (let* h := ex_house in let* ps := get_all_cochain_params h 2 true false true in embed_ve Zops ex_emb ps) =
  Ok [[3; 21; 201; 2001; 20001]; [6; 17; 28; 8; 9; 19]; [2226; 20025]]%Z.
Proof. reflexivity. Qed.

Lemma Z_half (v : Z) : vdivn Zops (vadd Zops v v) 2 = v.
Proof. simpl. replace (v + v)%Z with (v * 2)%Z by ring. apply Z.div_mul. discriminate. Qed.

Example C23_example := C23_ring_initial_features Zops Zops_ok Z.eqb (ref_lib false) (ref_isos 5) (@rev _) RAdd house_x house
  (Some house_attr) 5 None 5 false true false ex_emb Z_half (house_ok false None I) Zeqb_ok (fun _ => house_attr_ok) eq_refl
  (fun _ H => ltac:(discriminate H)).

Example C06_embedding_example :
  (let* h := ex_house in let* t := ex_triangle in let* b := from_complex_list [h; t] 2 in
   let* r := embed_forward Zops ex_enet b in Ok (fst r)) = Ok [71256465; 85260]%Z /\
  (let* h := ex_house in let* b := from_complex_list [h] 2 in let* r := embed_forward Zops ex_enet b in Ok (fst r)) = Ok [71256465]%Z /\
  (let* t := ex_triangle in let* b := from_complex_list [t] 2 in let* r := embed_forward Zops ex_enet b in Ok (fst r)) = Ok [85260]%Z.
Proof. repeat split; vm_compute; reflexivity. Qed.

(** The hypotheses of the batching theorem hold for a batch of two copies of the house. *)
Example C06_embedding_hypotheses : exists h, ex_house = Ok h /\ exists b out b',
  from_complex_list [h; h] 2 = Ok b /\ embed_forward Zops ex_enet b = Ok (out, b') /\ length out = 2.
Proof.
  destruct (ring_embeddable Zops Z.eqb (ref_lib false) (ref_isos 5) (@rev _) RAdd house_x house (Some house_attr) 5 None 5
    false true false ex_enet (house_ok false None I) Zeqb_ok (fun _ => house_attr_ok) (fun _ H => ltac:(discriminate H))
    (match ex_house with Ok k => k | Err _ => mkComplexRec 0 [] None end)) as (H2 & (sz & Hsz) & _); [vm_compute; reflexivity|].
  set (h := match ex_house with Ok k => k | Err _ => _ end) in *.
  exists h. split; [vm_compute; reflexivity|].
  assert (HU : uniform_x [h; h] (Nat.min (list_max (map k_dim [h; h])) 2)).
  { intros d _. destruct (nth_error (k_cochains h) d) as [c|] eqn:E.
    - destruct (c_x c) eqn:Ex; [left|right]; intros k' c' [<-|[<-|[]]] Hc'; congruence.
    - left. intros k' c' [<-|[<-|[]]] Hc'; congruence. }
  destruct (C06_embedding_batch_independence Zops Zops_div ex_enet [h; h] [sz; sz] 2) as (b & out & b' & H & H' & Hl & _); auto.
  - apply CE_sparse; auto; try discriminate; try (exists 0; simpl; auto; fail).
  - discriminate.
  - exists b, out, b'. auto.
Qed.

(** Finding: with max_dim 1 and coboundary features the networks cannot process 2-dimensional ring
    complexes, whose 2-cells have no features: the model fails with TypeError. *)
Theorem embed_max_dim_1_type_error : exists (m : enet Z) (k : complex Z) sz,
  ex_bare = Ok k /\ embeddable m k sz /\
  (exists layers dims, m = embed_sparse_cin Zops ex_emb 1 layers None RAdd dims (fun _ v => v) false (fun v => v)) /\
  exists b, from_complex_list [k] 2 = Ok b /\ embed_forward Zops m b = Err TypeError.
Proof.
  set (m := embed_sparse_cin Zops ex_emb 1 [fun _ => ex_lv] None RAdd [0; 1] (fun _ v => v) false (fun v => v)).
  assert (HI : ring_input (ref_lib false) (ref_isos 3) (@rev _) [1;2;3]%Z ex_triangle_edges 3 None 5).
  { assert (Hg : graph_ok ex_triangle_edges 3).
    { intros u v H. unfold ex_triangle_edges in H. repeat (destruct H as [H|H]; [inversion H; subst; lia|]). destruct H. }
    split; [exact Hg|lia| |reflexivity|exact I| | |].
    - right. exists 0, 1. split; [lia|]. left. simpl. auto.
    - cbv zeta. apply ref_lib_ok. apply nodupb_ok. vm_compute. reflexivity.
    - intros k Hk. apply ref_isos_ok; auto.
    - intros l _. apply Permutation_sym, Permutation_rev. }
  destruct (ring_embeddable Zops Z.eqb (ref_lib false) (ref_isos 3) (@rev _) RAdd [1;2;3]%Z ex_triangle_edges
    None 3 None 5 false false false m HI Zeqb_ok) with
    (K := match ex_bare with Ok k => k | Err _ => mkComplexRec 0 [] None end) as (H2 & (sz & Hsz) & _).
  - discriminate.
  - discriminate.
  - vm_compute. reflexivity.
  - exists m, (match ex_bare with Ok k => k | Err _ => mkComplexRec 0 [] None end), sz.
    split; [vm_compute; reflexivity|]. split; [exact Hsz|]. split; [eexists _, _; reflexivity|].
    exists (match from_complex_list [match ex_bare with Ok k => k | Err _ => mkComplexRec 0 [] None end] 2 with
            | Ok b => b | Err _ => mkKBatch (mkComplexRec 0 [] None) [] [] 0 end).
    split; vm_compute; reflexivity.
Qed.

Print Assumptions C06_embedding_batch_independence.
Print Assumptions C27_embedding_isomorphism_invariance.
Print Assumptions C23_ring_initial_features.
Print Assumptions ring_embeddable.
Print Assumptions embed_max_dim_1_type_error.
