(** C77, continued: more cells never separate less. *)
From Coq Require Import List Arith Lia ZArith QArith Bool Permutation.
From Verif Require Import Base ScatterModel ScatterSpec ScatterProofs ComplexModel BatchSpec BatchSpec2
  BatchProofs BatchProofs2 DummyModel BatchProps LiftModel LiftSpec LiftBase LiftProofs LiftClique LiftTables LiftCliqueProps LiftRing LiftProps LiftRingProps LiftRingExamples LiftRingBoundary LiftIso
  MPModel MPSpec MPProofs MPEngine MPBatch MPForward MPNets MPProps MPIso PermLift
  GraphNetModel GraphNetSpec GraphNetProofs GraphNetProps PowerSpec PowerProofs PowerProps WLSpec WLProofs WLProps ExpModel ExpProps CountProps.
From Verif Require Import RedundantSpec RedundantProofs RedundantProps.
From Verif Require Import BlindSpec BlindProps.
From Verif Require Import HierSpec HierProofs PartSpec PartProofs.
Import ListNotations.
Open Scope nat_scope.

(** ** Complexes *)
Lemma skel_n {V} (k : complex V) sz D d : wf_complex k sz -> s_n (skel_of D k sz) d = if d <=? D then sz d else 0.
Proof.
  intros W. unfold skel_of. cbn [s_n]. destruct (Nat.leb_spec d (Nat.min (k_dim k) D)), (Nat.leb_spec d D); try lia; auto.
  symmetry. apply (wfk_above _ _ W d). lia.
Qed.
Lemma skel_bnd {V} (k : complex V) sz D d : wf_complex k sz -> s_bnd (skel_of D k sz) d = if d <=? D then boundary_of k d else [].
Proof.
  intros W. unfold skel_of. cbn [s_bnd]. destruct (Nat.leb_spec d (Nat.min (k_dim k) D)), (Nat.leb_spec d D); try lia; auto.
  symmetry. apply (above_none k sz d W). lia.
Qed.
Lemma selected_part keep (k0 k : complex Z) sz0 sz at_ D : wf_complex k0 sz0 -> wf_complex k sz -> (forall t, faces k 0 t = []) -> boundary_of k0 0 = [] ->
  selected keep k0 sz0 k sz at_ -> part keep (skel_of D k0 sz0) (skel_of D k sz) at_ (feats_of Zops k0) (feats_of Zops k).
Proof.
  intros W0 W Z Z0 SE.
  assert (N0 : forall d i, i < s_n (skel_of D k0 sz0) d -> d <= D /\ i < sz0 d) by (intros d i H; rewrite (skel_n _ _ _ _ W0) in H; destruct (Nat.leb_spec d D); lia).
  assert (N : forall d i, i < s_n (skel_of D k sz) d <-> d <= D /\ i < sz d) by (intros d i; rewrite (skel_n _ _ _ _ W); destruct (Nat.leb_spec d D); lia).
  assert (B : forall d t, d <= D -> bnds (skel_of D k sz) d t = faces k d t).
  { intros d t H. unfold bnds, bnd_at, faces. rewrite (skel_bnd _ _ _ _ W). destruct (Nat.leb_spec d D); [reflexivity|lia]. }
  split.
  - intros d i H. apply N0 in H as [H1 H2]. apply N. split; [exact H1|]. apply (se_cell _ _ _ _ _ _ SE d i H2).
  - intros d i H. apply N0 in H as [H1 H2]. rewrite B by exact H1. apply (se_cell _ _ _ _ _ _ SE d i H2).
  - intros d i j Hi Hj. apply N0 in Hi as [_ Hi], Hj as [_ Hj]. apply (se_once _ _ _ _ _ _ SE); assumption.
  - intros d t Ht. apply N in Ht as [H1 H2]. rewrite B by exact H1. intros K. destruct (se_all _ _ _ _ _ _ SE d t H2 K) as (i & Hi & E). exists i. split; [|exact E].
    rewrite (skel_n _ _ _ _ W0). destruct (Nat.leb_spec d D); lia.
  - intros d i g H. apply N0 in H as [H1 H2]. rewrite (skel_bnd _ _ _ _ W), (skel_bnd _ _ _ _ W0). destruct (Nat.leb_spec d D); [|lia]. destruct d as [|d]; cbn [pred].
    + rewrite Z0. split; [|intros (f & _ & [])]. intros X. specialize (Z (at_ 0 i)). assert (Y : In g (faces k 0 (at_ 0 i))); [|rewrite Z in Y; destruct Y].
      unfold faces. apply in_map_iff. exists (g, at_ 0 i). split; [reflexivity|]. apply filter_In. split; [exact X|]. apply Nat.eqb_refl.
    + apply (se_faces _ _ _ _ _ _ SE). exact H2.
  - intros d i H. apply N0 in H as [H1 H2]. unfold feats_of. pose proof (se_row _ _ _ _ _ _ SE d i H2) as E.
    destruct (nth_error (content (attr c_x d k0)) i) as [v|] eqn:Ev.
    + now rewrite (nth_error_nth _ _ _ Ev), (nth_error_nth _ _ _ (eq_sym E)).
    + symmetry in E. apply nth_error_None in Ev, E. rewrite !nth_overflow by assumption. reflexivity.
Qed.
Lemma num_hash_perm : forall c u b u' b', Permutation u u' -> Permutation b b' -> num_hash c u b = num_hash c u' b'.
Proof. intros. apply num_hash_ideal. auto. Qed.
Lemma cellular_vertices {V} (k : complex V) sz : wf_complex k sz -> boundary_of k 0 = [].
Proof.
  intros W. destruct (boundary_of k 0) as [|[f t] l] eqn:E; [reflexivity|]. exfalso.
  assert (H : In (f, t) (MPBatch.bnds 0 k)) by (change (In (f, t) (boundary_of k 0)); rewrite E; now left). apply (MPBatch.bnds_in k sz 0 f t W) in H. lia.
Qed.

(** One SparseCIN with 2 L + 2 layers, without lower adjacencies, separates the complexes of [ks] whenever any network with at
    most L layers separates the parts [ks0]. *)
Theorem C77_parts keep (ks0 ks : list (complex Z)) szs0 szs down0 down D L : ks <> [] ->
  Forall2 wf_complex ks szs -> Forall (has_features D) ks -> Forall (fun sz : nat -> nat => 0 < sz 0) szs ->
  Forall (fun k => forall d v, In v (content (attr c_x d k)) -> (0 <= v)%Z) ks -> Forall2 (cellular down) ks szs ->
  length ks0 = length ks -> Forall2 wf_complex ks0 szs0 -> Forall (has_features D) ks0 -> Forall (fun sz : nat -> nat => 0 < sz 0) szs0 -> Forall2 (cellular down0) ks0 szs0 ->
  (forall i k0 sz0 k sz, nth_error ks0 i = Some k0 -> nth_error szs0 i = Some sz0 -> nth_error ks i = Some k -> nth_error szs i = Some sz ->
     exists at_, selected keep k0 sz0 k sz at_) ->
  exists layers lin1 b vs bo, length layers = 2 * L + 2 /\
  from_complex_list ks D = Ok b /\
  net_forward Zops (sparse_cin Zops D layers None RAdd (seq 0 (D + 1)) lin1 false (fun v => v)) b = Ok (vs, bo) /\
  length vs = length ks /\
  forall i j k0 k0' sz0 sz0' v, nth_error ks0 i = Some k0 -> nth_error ks0 j = Some k0' ->
    nth_error szs0 i = Some sz0 -> nth_error szs0 j = Some sz0' -> nth_error vs i = Some v -> nth_error vs j = Some v ->
  forall (V : Type) (o : ops V) (m : net V) (code : nat -> Z -> V) kv kv', ops_ok o -> cwn_net o m -> length (n_convs m) <= L ->
    encoded code k0 kv -> encoded code k0' kv' -> wf_complex kv sz0 -> wf_complex kv' sz0' -> has_features D kv -> has_features D kv' ->
  exists b b' w bo bo',
    from_complex_list [kv] D = Ok b /\ from_complex_list [kv'] D = Ok b' /\
    net_forward o m b = Ok ([w], bo) /\ net_forward o m b' = Ok ([w], bo').
Proof.
  intros Hne HW HF Hpos HN HCL HL0 HW0 HF0 Hpos0 HCL0 HSE. destruct (bounded_all ks szs HW HN) as (F & M & HB).
  destruct (C56_colour_refinement_attained (S F) M (2 * L + 2) D (seq 0 (D + 1))) as (layers & lin1 & Hl & Hm);
    [lia|lia|exists 0; split; [apply in_seq; lia|lia]|].
  destruct (Hm ks szs D Hne HW HF Hpos (HB (S F) M ltac:(lia) ltac:(lia)) ltac:(lia)) as (b & vs & bo & Hb & Hf & Hlen & Hiff).
  exists layers, lin1, b, vs, bo. split; auto. split; auto. split; auto. split; auto.
  intros i j k0 k0' sz0 sz0' v Ek0 Ek0' Es0 Es0' Ev Ev' V o m code kv kv' Ho Hnet HL EN EN' Wv Wv' HFv HFv'.
  pose proof (Forall2_length HW) as Lw.
  assert (G : forall i (k0 : complex Z), nth_error ks0 i = Some k0 -> exists k sz, nth_error ks i = Some k /\ nth_error szs i = Some sz).
  { intros i0 c E. assert (i0 < length ks) by (rewrite <- HL0; apply nth_error_Some; congruence).
    destruct (nth_error ks i0) as [k|] eqn:E1; [|apply nth_error_None in E1; lia]. destruct (nth_error szs i0) as [sz|] eqn:E2; [eauto|apply nth_error_None in E2; lia]. }
  destruct (G i k0 Ek0) as (k & sz & Ek & Es). destruct (G j k0' Ek0') as (k' & sz' & Ek' & Es').
  destruct (HSE i k0 sz0 k sz Ek0 Es0 Ek Es) as (e & SE). destruct (HSE j k0' sz0' k' sz' Ek0' Es0' Ek' Es') as (e' & SE').
  pose proof (proj1 (Hiff nat num_init num_hash num_init_ideal num_hash_ideal i j k k' sz sz' v v Ek Es Ev Ek' Es' Ev') eq_refl) as HP.
  pose proof (Forall2_nth_both _ _ _ HW i _ _ Ek Es) as W. pose proof (Forall2_nth_both _ _ _ HW j _ _ Ek' Es') as W'.
  pose proof (Forall2_nth_both _ _ _ HW0 i _ _ Ek0 Es0) as W0. pose proof (Forall2_nth_both _ _ _ HW0 j _ _ Ek0' Es0') as W0'.
  pose proof (Forall2_nth_both _ _ _ HCL i _ _ Ek Es) as CL. pose proof (Forall2_nth_both _ _ _ HCL j _ _ Ek' Es') as CL'.
  pose proof (Forall2_nth_both _ _ _ HCL0 i _ _ Ek0 Es0) as CL0. pose proof (Forall2_nth_both _ _ _ HCL0 j _ _ Ek0' Es0') as CL0'.
  assert (Z : forall (k : complex Z) sz, wf_complex k sz -> forall t, faces k 0 t = []).
  { intros k1 sz1 W1 t. unfold faces. now rewrite (cellular_vertices k1 sz1 W1). }
  rewrite Forall_forall in HF0, Hpos0.
  apply (C70_lower_redundant o m code num_init num_hash k0 k0' kv kv' sz0 sz0' down0 D Ho Hnet) with (L := L); auto;
    try (apply HF0; eapply nth_error_In; eauto); try (apply Hpos0; eapply nth_error_In; eauto).
  - intros d u u' E. apply num_init_ideal in E. exact E.
  - apply separating_num.
  - intros d Hd. unfold colours_of in *.
    apply (part_colours num_init num_hash separating_num num_hash_perm keep (skel_of D k0 sz0) (skel_of D k sz) (skel_of D k0' sz0') (skel_of D k' sz')
      down0 down down0 down e e' (feats_of Zops k0) (feats_of Zops k) (feats_of Zops k0') (feats_of Zops k')).
    + apply skel_of_ok; assumption.
    + apply skel_of_ok; assumption.
    + exact (cellular_regular _ k0 k0 down0 sz0 D W0 CL0 (encoded_id k0)).
    + exact (cellular_regular _ k k down sz D W CL (encoded_id k)).
    + apply selected_part; auto; [apply (Z k sz W)|apply (cellular_vertices k0 sz0 W0)].
    + apply skel_of_ok; assumption.
    + apply skel_of_ok; assumption.
    + exact (cellular_regular _ k0' k0' down0 sz0' D W0' CL0' (encoded_id k0')).
    + exact (cellular_regular _ k' k' down sz' D W' CL' (encoded_id k')).
    + apply selected_part; auto; [apply (Z k' sz' W')|apply (cellular_vertices k0' sz0' W0')].
    + replace (1 + (2 * L + 1)) with (2 * L + 2) by lia. apply HP; [apply in_seq; lia|lia].
Qed.

(** ** Liftings *)
Definition setb (a b : list nat) : bool := forallb (fun x => existsb (Nat.eqb x) b) a && forallb (fun x => existsb (Nat.eqb x) a) b.
Lemma setb_ok a b : setb a b = true <-> same_set a b.
Proof.
  assert (H : forall a b : list nat, forallb (fun x => existsb (Nat.eqb x) b) a = true <-> incl a b).
  { intros x y. rewrite forallb_forall. split; intros H z Hz; specialize (H z Hz).
    - apply existsb_exists in H as (w & Hw & E). apply Nat.eqb_eq in E. now subst.
    - apply existsb_exists. exists z. split; [exact H|]. apply Nat.eqb_refl. }
  unfold setb. rewrite andb_true_iff, !H. split; [intros [H1 H2] x; split; auto|]. intros H1. split; intros x; apply H1.
Qed.
Definition place (cells0 cells : nat -> list (list nat)) (d i : nat) : nat :=
  match find (fun t => setb (nth i (cells0 d) []) (nth t (cells d) [])) (seq 0 (length (cells d))) with Some t => t | None => 0 end.
Lemma selected_cells {V} keep (K0 K : complex V) cells0 cells down0 down FX0 FX :
  has_cells cells0 down0 FX0 K0 -> has_cells cells down FX K ->
  (forall d i j s s', names cells0 d i s -> names cells0 d j s' -> same_set s s' -> i = j) ->
  (forall d i j s s', names cells d i s -> names cells d j s' -> same_set s s' -> i = j) ->
  (forall d i s, names cells0 d i s -> exists t s', names cells d t s' /\ same_set s s') ->
  (forall d t s, names cells d t s -> (keep d (length (faces K d t)) = true <-> exists i s', names cells0 d i s' /\ same_set s' s)) ->
  (forall d i s g sg, names cells0 (S d) i s -> names cells d g sg -> incl sg s -> exists f sf, names cells0 d f sf /\ same_set sf sg) ->
  (forall d i t s s', names cells0 d i s -> names cells d t s' -> same_set s s' ->
     nth_error (content (attr c_x d K0)) i = nth_error (content (attr c_x d K)) t) ->
  selected keep K0 (fun d => length (cells0 d)) K (fun d => length (cells d)) (place cells0 cells).
Proof.
  intros HC0 HC O0 O A C D E.
  assert (P : forall d i s, names cells0 d i s -> exists s', names cells d (place cells0 cells d i) s' /\ same_set s s').
  { intros d i s H. destruct (A d i s H) as (t & s' & Ht & HS). unfold place. rewrite (nth_error_nth _ _ [] H).
    destruct (find _ _) as [u|] eqn:Ef.
    - apply List.find_some in Ef as [E1 E2]. apply in_seq in E1. apply setb_ok in E2. exists (nth u (cells d) []). split; [apply nth_error_nth'; lia|exact E2].
    - assert (L : t < length (cells d)) by (apply nth_error_Some; unfold names in Ht; congruence).
      pose proof (find_none _ _ Ef t ltac:(apply in_seq; lia)) as X. cbn beta in X. rewrite (nth_error_nth _ _ [] Ht) in X. rewrite (proj2 (setb_ok s s') HS) in X. discriminate. }
  pose proof (cells_boundary _ _ _ _ HC) as B. pose proof (cells_boundary _ _ _ _ HC0) as B0.
  assert (R : forall c d i (s : list nat), names c d i s -> i < length (c d)) by (intros c d i s H; apply nth_error_Some; unfold names in H; congruence).
  split.
  - intros d i Hi. destruct (named cells0 d i Hi) as (s & Hs). destruct (P d i s Hs) as (s' & H1 & H2). split; [exact (R _ _ _ _ H1)|]. apply (C d _ s' H1). eauto.
  - intros d i j Hi Hj Eq. destruct (named cells0 d i Hi) as (s & Hs), (named cells0 d j Hj) as (t & Ht). destruct (P d i s Hs) as (s' & H1 & H2), (P d j t Ht) as (t' & H3 & H4).
    rewrite Eq in H1. assert (s' = t') by (unfold names in *; congruence). subst t'. apply (O0 d i j s t Hs Ht). intros x. rewrite (H2 x), (H4 x). tauto.
  - intros d t Ht K1. destruct (named cells d t Ht) as (s & Hs). destruct (proj1 (C d t s Hs) K1) as (i & s' & Hi & HS). exists i. split; [exact (R _ _ _ _ Hi)|].
    destruct (P d i s' Hi) as (s'' & H1 & H2). apply (O d _ _ s'' s H1 Hs). intros x. rewrite <- (H2 x). apply HS.
  - intros d i g Hi. destruct (named cells0 (S d) i Hi) as (s & Hs). destruct (P (S d) i s Hs) as (s' & H1 & H2). rewrite B. split.
    + intros (sg & sc & Hg & Hc & I). assert (sc = s') by (unfold names in *; congruence). subst sc.
      destruct (D d i s g sg Hs Hg) as (f & sf & Hf & HS). { intros x Hx. apply H2. auto. }
      exists f. split.
      * destruct (P d f sf Hf) as (sf' & H3 & H4). apply (O d _ _ sf' sg H3 Hg). intros x. rewrite <- (H4 x). apply HS.
      * apply B0. exists sf, s. split; [exact Hf|]. split; [exact Hs|]. intros x Hx. apply H2, I, HS. exact Hx.
    + intros (f & <- & Hf). apply B0 in Hf as (sf & sc & Hf & Hc & I). assert (sc = s) by (unfold names in *; congruence). subst sc.
      destruct (P d f sf Hf) as (sf' & H3 & H4). exists sf', s'. split; [exact H3|]. split; [exact H1|]. intros x Hx. apply H2, I, H4. exact Hx.
  - intros d i Hi. destruct (named cells0 d i Hi) as (s & Hs). destruct (P d i s Hs) as (s' & H1 & H2). exact (E d i _ s s' Hs H1 H2).
Qed.
Lemma rows_are {V} cells down FX (K : complex V) d i s : has_cells cells down FX K -> names cells d i s -> content (attr c_x d K) = content (FX d).
Proof.
  intros HC H. pose proof (hc_wf _ _ _ _ HC) as W. unfold attr. destruct (nth_error (k_cochains K) d) as [c|] eqn:E; [now rewrite (hc_x _ _ _ _ HC d c E)|].
  apply nth_error_None in E. rewrite (wfk_len _ _ W) in E. pose proof (wfk_above _ _ W d ltac:(lia)) as X. cbv beta in X.
  assert (i < length (cells d)) by (apply nth_error_Some; unfold names in H; congruence). lia.
Qed.
Lemma same_row {V} (o : ops V) r x s s' : ops_ok o -> NoDup s -> NoDup s' -> same_set s s' -> cell_row o r x s = cell_row o r x s'.
Proof. intros Ho N N' HS. unfold cell_row. apply (reduce_rows_perm o Ho). apply Permutation_map. apply NoDup_Permutation; auto. Qed.

(** What a list of graphs, lifted in two ways, needs for [C77_parts]. *)
Definition ready (down : bool) (D : nat) (K : complex Z) (sz : nat -> nat) : Prop :=
  wf_complex K sz /\ has_features D K /\ 0 < sz 0 /\ (forall d v, In v (content (attr c_x d K)) -> (0 <= v)%Z) /\ cellular down K sz.
Lemma lifted_parts {G} keep (lift0 lift : G -> result (complex Z)) (gs : list G) down0 down D L : gs <> [] ->
  (forall g, In g gs -> exists K0 K sz0 sz at_, lift0 g = Ok K0 /\ lift g = Ok K /\ ready down0 D K0 sz0 /\ ready down D K sz /\ selected keep K0 sz0 K sz at_) ->
  exists ks0 ks layers lin1 b vs bo, Forall2 (fun g K => lift0 g = Ok K) gs ks0 /\ Forall2 (fun g K => lift g = Ok K) gs ks /\
  length layers = 2 * L + 2 /\ from_complex_list ks D = Ok b /\
  net_forward Zops (sparse_cin Zops D layers None RAdd (seq 0 (D + 1)) lin1 false (fun v => v)) b = Ok (vs, bo) /\ length vs = length gs /\
  forall i j K K' v, nth_error ks0 i = Some K -> nth_error ks0 j = Some K' -> nth_error vs i = Some v -> nth_error vs j = Some v ->
  forall (V : Type) (o : ops V) (m : net V) (code : nat -> Z -> V), ops_ok o -> cwn_net o m -> length (n_convs m) <= L ->
  exists b b' w bo bo', from_complex_list [recode code K] D = Ok b /\ from_complex_list [recode code K'] D = Ok b' /\
    net_forward o m b = Ok ([w], bo) /\ net_forward o m b' = Ok ([w], bo').
Proof.
  intros Hne HG.
  assert (X : exists ks0 ks szs0 szs, Forall2 (fun g K => lift0 g = Ok K) gs ks0 /\ Forall2 (fun g K => lift g = Ok K) gs ks /\
    Forall2 (ready down0 D) ks0 szs0 /\ Forall2 (ready down D) ks szs /\
    forall i k0 sz0 k sz, nth_error ks0 i = Some k0 -> nth_error szs0 i = Some sz0 -> nth_error ks i = Some k -> nth_error szs i = Some sz ->
      exists at_, selected keep k0 sz0 k sz at_).
  { clear Hne. induction gs as [|g gs IH]; [exists [], [], [], []; repeat (split; [constructor|]); intros [|i] *; discriminate|].
    destruct IH as (ks0 & ks & szs0 & szs & H1 & H2 & H3 & H4 & H5); [intros q Hq; apply HG; now right|].
    destruct (HG g (or_introl eq_refl)) as (K0 & K & sz0 & sz & at_ & E0 & E & R0 & R & SE).
    exists (K0 :: ks0), (K :: ks), (sz0 :: szs0), (sz :: szs). split; [constructor; assumption|]. split; [constructor; assumption|].
    split; [constructor; assumption|]. split; [constructor; assumption|]. intros [|i] a b c d Ha Hb Hc Hd; cbn [nth_error] in Ha, Hb, Hc, Hd.
    - inversion Ha; inversion Hb; inversion Hc; inversion Hd; subst. eauto.
    - exact (H5 i a b c d Ha Hb Hc Hd). }
  destruct X as (ks0 & ks & szs0 & szs & H1 & H2 & H3 & H4 & H5).
  assert (P : forall (down : bool) (P : complex Z -> Prop) ks szs, (forall k sz, ready down D k sz -> P k) -> Forall2 (ready down D) ks szs -> Forall P ks).
  { intros dn P l l' HP H. induction H; constructor; eauto. }
  assert (Q : forall (down : bool) (P : complex Z -> (nat -> nat) -> Prop) ks szs, (forall k sz, ready down D k sz -> P k sz) -> Forall2 (ready down D) ks szs -> Forall2 P ks szs).
  { intros dn P' l l' HP H. induction H; constructor; eauto. }
  assert (S : forall (down : bool) ks szs, Forall2 (ready down D) ks szs -> Forall (fun sz : nat -> nat => 0 < sz 0) szs).
  { intros dn l l' H. induction H; constructor; auto. apply H. }
  destruct (C77_parts keep ks0 ks szs0 szs down0 down D L) as (layers & lin1 & b & vs & bo & G1 & G2 & G3 & G4 & G5).
  - intros ->. inversion H2; subst. congruence.
  - apply (Q down); [|exact H4]. intros k sz R. apply R.
  - apply (P down _ ks szs); [|exact H4]. intros k sz R. apply R.
  - exact (S down ks szs H4).
  - apply (P down _ ks szs); [|exact H4]. intros k sz R. apply R.
  - apply (Q down); [|exact H4]. intros k sz R. apply R.
  - now rewrite <- (Forall2_length H1), <- (Forall2_length H2).
  - apply (Q down0); [|exact H3]. intros k sz R. apply R.
  - apply (P down0 _ ks0 szs0); [|exact H3]. intros k sz R. apply R.
  - exact (S down0 ks0 szs0 H3).
  - apply (Q down0); [|exact H3]. intros k sz R. apply R.
  - exact H5.
  - exists ks0, ks, layers, lin1, b, vs, bo. split; [exact H1|]. split; [exact H2|]. split; [exact G1|]. split; [exact G2|]. split; [exact G3|].
    split; [now rewrite G4, (Forall2_length H2)|]. intros i j K K' v Ei Ej Ev Ev' V o m code Ho HN HL.
    assert (Y : forall i K, nth_error ks0 i = Some K -> exists sz, nth_error szs0 i = Some sz /\ ready down0 D K sz).
    { intros i0 K1 E1. pose proof (Forall2_length H3) as LL. assert (i0 < length ks0) by (apply nth_error_Some; congruence).
      destruct (nth_error szs0 i0) as [sz|] eqn:E2; [|apply nth_error_None in E2; lia]. exists sz. split; [reflexivity|]. exact (Forall2_nth_both _ _ _ H3 i0 _ _ E1 E2). }
    destruct (Y i K Ei) as (sz & Es & R), (Y j K' Ej) as (sz' & Es' & R').
    destruct (C70_recode code K sz D (proj1 R) (proj1 (proj2 R))) as (C1 & C2 & C3). destruct (C70_recode code K' sz' D (proj1 R') (proj1 (proj2 R'))) as (C1' & C2' & C3').
    exact (G5 i j K K' sz sz' v Ei Ej Es Es' Ev Ev' V o m code (recode code K) (recode code K') Ho HN HL C1 C1' C2 C2' C3 C3').
Qed.

(** *** Rings *)
Lemma fewer_rings {V} lib isos set_order (x : list V) edges n y k k' : k <= k' -> ring_input lib isos set_order x edges n y k' -> ring_input lib isos set_order x edges n y k.
Proof. intros H []. split; auto. intros j Hj. apply ri_isos. lia. Qed.
Section Rings.
Variables (edges : list (nat * nat)) (size k0 k : nat) (cells0 cells : nat -> list (list nat)).
Hypothesis Hk : k0 <= k.
Hypothesis RC0 : ring_cells edges size k0 cells0.
Hypothesis RC : ring_cells edges size k cells.
Lemma vertex_name k1 c i s : ring_cells edges size k1 c -> names c 0 i s -> i < size /\ s = [i].
Proof using.
  clear Hk. intros R H. assert (L : i < size) by (rewrite <- (rc_vertices _ _ _ _ R); apply nth_error_Some; unfold names in H; congruence).
  split; [exact L|]. pose proof (rc_vertex _ _ _ _ R i L) as X. unfold names in *. congruence.
Qed.
Lemma ring_nodup k1 c d i s : ring_cells edges size k1 c -> names c d i s -> NoDup s.
Proof using.
  clear Hk. intros R H. destruct d as [|[|[|d]]].
  - destruct (vertex_name _ _ _ _ R H) as [_ ->]. repeat constructor. intros [].
  - apply nth_error_In in H. apply (rc_edge _ _ _ _ R) in H as (u & v & L & -> & _). constructor; [intros [->|[]]; lia|]. constructor; [intros []|constructor].
  - apply nth_error_In in H. apply (rc_ring _ _ _ _ R) in H as [(_ & N & _) _]. exact N.
  - unfold names in H. rewrite (rc_top _ _ _ _ R) in H by lia. destruct i; discriminate.
Qed.
Lemma flat_cells k1 k2 c1 c2 d i s : d < 2 -> ring_cells edges size k1 c1 -> ring_cells edges size k2 c2 -> names c1 d i s -> exists j, names c2 d j s.
Proof using.
  clear Hk. intros Hd R1 R2 H. destruct d as [|[|d]]; [| |lia].
  - destruct (vertex_name _ _ _ _ R1 H) as [L ->]. exists i. apply (rc_vertex _ _ _ _ R2 i L).
  - apply nth_error_In in H. apply (rc_edge _ _ _ _ R1) in H. apply (rc_edge _ _ _ _ R2) in H. apply In_nth_error in H. exact H.
Qed.
Lemma ring_in d i s : names cells0 d i s -> exists t s', names cells d t s' /\ same_set s s'.
Proof.
  intros H. destruct (Nat.lt_ge_cases d 2) as [L|L].
  - destruct (flat_cells _ _ _ _ d i s L RC0 RC H) as (j & Hj). exists j, s. split; [exact Hj|]. intros v. tauto.
  - destruct d as [|[|[|d]]]; try lia.
    + apply nth_error_In in H. apply (rc_ring _ _ _ _ RC0) in H as [H1 H2]. apply (rc_all _ _ _ _ RC s H1). lia.
    + unfold names in H. rewrite (rc_top _ _ _ _ RC0) in H by lia. destruct i; discriminate.
Qed.
Variables (down0 down : bool) (FX0 FX : nat -> option (list Z)) (K0 K : complex Z).
Hypothesis HC0 : has_cells cells0 down0 FX0 K0.
Hypothesis HC : has_cells cells down FX K.
Lemma ring_faces t s : names cells 2 t s -> length (faces K 2 t) = length s.
Proof.
  intros Ht. unfold faces, boundary_of. rewrite map_length. pose proof (hc_wf _ _ _ _ HC) as W. unfold attr. destruct (nth_error (k_cochains K) 2) as [c|] eqn:Ec.
  - apply (rb_count _ _ _ _ (ring_boundary_ok _ _ _ _ c RC (hc_bnd _ _ _ _ HC 1 c Ec) t s Ht)).
  - exfalso. apply nth_error_None in Ec. rewrite (wfk_len _ _ W) in Ec. pose proof (wfk_above _ _ W 2 ltac:(lia)) as X. cbv beta in X.
    assert (t < length (cells 2)) by (apply nth_error_Some; unfold names in Ht; congruence). lia.
Qed.
Definition ring_keep (d n : nat) : bool := negb (d =? 2) || (n <=? k0).
Lemma ring_selected : (forall d i t s s', names cells0 d i s -> names cells d t s' -> same_set s s' ->
     nth_error (content (FX0 d)) i = nth_error (content (FX d)) t) ->
  selected ring_keep K0 (fun d => length (cells0 d)) K (fun d => length (cells d)) (place cells0 cells).
Proof.
  intros E. apply (selected_cells ring_keep K0 K cells0 cells down0 down FX0 FX HC0 HC).
  - exact (rc_once _ _ _ _ RC0).
  - exact (rc_once _ _ _ _ RC).
  - exact ring_in.
  - intros d t s Ht. unfold ring_keep. destruct (Nat.eqb_spec d 2) as [->|Hd]; cbn [negb orb].
    + rewrite (ring_faces t s Ht). pose proof (nth_error_In _ _ Ht) as Hin. apply (rc_ring _ _ _ _ RC) in Hin as [H1 H2]. rewrite Nat.leb_le. split.
      * intros L. destruct (rc_all _ _ _ _ RC0 s H1 L) as (i & s' & Hi & HS). exists i, s'. split; [exact Hi|]. intros v. symmetry. apply HS.
      * intros (i & s' & Hi & HS). pose proof (nth_error_In _ _ Hi) as Hin. apply (rc_ring _ _ _ _ RC0) in Hin as [_ H3].
        assert (length s <= length s'); [|lia]. apply NoDup_incl_length; [exact (ring_nodup _ _ _ _ _ RC Ht)|]. intros v Hv. now apply HS.
    + split; [|reflexivity]. intros _. destruct (Nat.lt_ge_cases d 2) as [L|L].
      * destruct (flat_cells _ _ _ _ d t s L RC RC0 Ht) as (j & Hj). exists j, s. split; [exact Hj|]. intros v. tauto.
      * unfold names in Ht. rewrite (rc_top _ _ _ _ RC) in Ht by lia. destruct t; discriminate.
  - intros d i s g sg Hi Hg _. destruct (Nat.lt_ge_cases d 2) as [L|L].
    + destruct (flat_cells _ _ _ _ d g sg L RC RC0 Hg) as (j & Hj). exists j, sg. split; [exact Hj|]. intros v. tauto.
    + unfold names in Hi. rewrite (rc_top _ _ _ _ RC0) in Hi by lia. destruct i; discriminate.
  - intros d i t s s' Hi Ht HS. rewrite (rows_are _ _ _ _ _ _ _ HC0 Hi), (rows_are _ _ _ _ _ _ _ HC Ht). apply (E d i t s s' Hi Ht HS).
Qed.
End Rings.

Definition ring_lift_z lib isos set_order r max_k down (g : LiftModel.graph Z) : result (complex Z) :=
  compute_ring_2complex Zops Z.eqb lib isos set_order r (LiftModel.g_x g) (LiftModel.g_edges g) (LiftModel.g_attr g) (LiftModel.g_n g) (LiftModel.g_y g) max_k down true true.
Definition nonneg (g : LiftModel.graph Z) : Prop :=
  Forall (fun v => (0 <= v)%Z) (LiftModel.g_x g) /\ Forall (fun v => (0 <= v)%Z) (content (LiftModel.g_attr g)).

Lemma edge_attr_at edges size k c (attr rows : list Z) i s : ring_cells edges size k c -> names c 1 i s ->
  (forall j e i s, nth_error edges j = Some e -> names c 1 i s -> same_set [fst e; snd e] s -> nth_error rows i = nth_error attr j) ->
  exists j e, nth_error edges j = Some e /\ same_set [fst e; snd e] s /\ nth_error rows i = nth_error attr j.
Proof.
  intros R H ER. pose proof (nth_error_In _ _ H) as Hin. apply (rc_edge _ _ _ _ R) in Hin as (u & v & _ & -> & _ & [A|A]);
    apply In_nth_error in A as (j & Hj); exists j; eexists; (split; [exact Hj|]); cbn [fst snd].
  - assert (HS : same_set [u; v] [u; v]) by (intros w; tauto). split; [exact HS|]. exact (ER j _ i _ Hj H HS).
  - assert (HS : same_set [v; u] [u; v]) by (intros w; cbn; tauto). split; [exact HS|]. exact (ER j _ i _ Hj H HS).
Qed.
Lemma ring_pair lib isos set_order r k0 k down0 down D g : k0 <= k ->
  ring_input lib isos set_order (LiftModel.g_x g) (LiftModel.g_edges g) (LiftModel.g_n g) (LiftModel.g_y g) k -> LiftRingProps.attr_ok (LiftModel.g_edges g) (LiftModel.g_attr g) -> nonneg g ->
  exists K0 K sz0 sz at_, ring_lift_z lib isos set_order r k0 down0 g = Ok K0 /\ ring_lift_z lib isos set_order r k down g = Ok K /\
    ready down0 D K0 sz0 /\ ready down D K sz /\ selected (ring_keep k0) K0 sz0 K sz at_.
Proof.
  destruct g as [x edges ea n y]. unfold ring_lift_z, nonneg. cbn [LiftModel.g_x LiftModel.g_edges LiftModel.g_attr LiftModel.g_n LiftModel.g_y].
  intros Hk HI HA [NX NA]. pose proof (fewer_rings _ _ _ _ _ _ _ _ _ Hk HI) as HI0.
  assert (one : forall kk dn (HI' : ring_input lib isos set_order x edges n y kk), exists K rows,
    compute_ring_2complex Zops Z.eqb lib isos set_order r x edges ea n y kk dn true true = Ok K /\
    edge_rows Zops lib isos set_order r x edges ea n kk rows /\ ring_cells edges n kk (rcells_of lib isos set_order edges n kk) /\
    has_cells (rcells_of lib isos set_order edges n kk) dn (ring_x Zops lib isos set_order r x edges n kk true true rows) K /\
    ready dn D K (fun d => length (rcells_of lib isos set_order edges n kk d))).
  { intros kk dn HI'. destruct (ring_lift_gen Zops Z.eqb lib isos set_order r x edges ea n y kk dn true true HI' Zeqb_ok (fun _ => HA)) as (K & rows & E & ER & LR & HC & _).
    specialize (ER eq_refl). pose proof (cells_ring lib isos set_order x edges n y kk HI') as RC. exists K, rows.
    split; [exact E|]. split; [exact ER|]. split; [exact RC|]. split; [exact HC|].
    split; [apply HC|]. split; [|split; [|split]].
    - intros d c _ Ec. rewrite (hc_x _ _ _ _ HC d c Ec). destruct d as [|[|d]]; discriminate.
    - rewrite (rc_vertices _ _ _ _ RC). apply (ri_nodes _ _ _ _ _ _ _ _ HI').
    - intros d v Hv. unfold attr in Hv. destruct (nth_error (k_cochains K) d) as [c|] eqn:Ec; [|destruct Hv].
      rewrite (hc_x _ _ _ _ HC d c Ec) in Hv. unfold ring_x in Hv. destruct d as [|[|d]]; cbn [content] in Hv.
      + rewrite Forall_forall in NX. auto.
      + destruct ea as [attr|]; unfold edge_rows in ER.
        * apply In_nth_error in Hv as (i & Hi). assert (L : i < length rows) by (apply nth_error_Some; congruence). rewrite LR in L.
          destruct (named _ 1 i L) as (s & Hs). destruct (edge_attr_at _ _ _ _ _ _ _ _ RC Hs ER) as (j & e & _ & _ & E1). rewrite Hi in E1. symmetry in E1. apply nth_error_In in E1.
          cbn [content] in NA. rewrite Forall_forall in NA. auto.
        * rewrite ER in Hv. apply in_map_iff in Hv as (s & <- & _). apply cell_row_nonneg. exact NX.
      + apply in_map_iff in Hv as (s & <- & _). apply cell_row_nonneg. exact NX.
    - eapply has_cells_cellular; [exact HC|]. eapply ring_two; [apply (ri_graph _ _ _ _ _ _ _ _ HI')|exact RC|exact HC]. }
  destruct (one k0 down0 HI0) as (K0 & rows0 & E0 & ER0 & RC0 & HC0 & R0). destruct (one k down HI) as (K & rows & E & ER & RC & HC & R).
  exists K0, K. do 3 eexists. split; [exact E0|]. split; [exact E|]. split; [exact R0|]. split; [exact R|].
  apply (ring_selected edges n k0 k _ _ Hk RC0 RC down0 down _ _ K0 K HC0 HC).
  intros d i t s s' Hi Ht HS. pose proof (ring_nodup edges n k0 _ _ _ _ RC0 Hi) as N0. pose proof (ring_nodup edges n k _ _ _ _ RC Ht) as N.
  unfold ring_x. destruct d as [|[|d]]; cbn [content].
  - destruct (vertex_name _ _ _ _ _ _ RC0 Hi) as [_ ->], (vertex_name _ _ _ _ _ _ RC Ht) as [_ ->]. f_equal. destruct (proj1 (HS i) (or_introl eq_refl)) as [->|[]]. reflexivity.
  - destruct ea as [attr|]; unfold edge_rows in ER, ER0.
    + destruct (edge_attr_at _ _ _ _ _ _ _ _ RC0 Hi ER0) as (j & e & Ej & S1 & ->). symmetry. apply (ER j e t s' Ej Ht). intros w. rewrite (S1 w). apply HS.
    + rewrite ER, ER0, !nth_error_map. unfold names in Hi, Ht. rewrite Hi, Ht. cbn [option_map]. f_equal. apply same_row; auto using Zops_ok.
  - rewrite !nth_error_map. unfold names in Hi, Ht. rewrite Hi, Ht. cbn [option_map]. f_equal. apply same_row; auto using Zops_ok.
Qed.

(** Whatever graphs a network of at most [L] layers separates after lifting rings of up to [k0] nodes, one SparseCIN of
    [2 * L + 2] layers without lower adjacencies separates after lifting rings of up to [k >= k0] nodes. *)
Theorem C77_more_rings lib isos set_order r k0 k down0 down D L gs : k0 <= k -> gs <> [] ->
  Forall (fun g => ring_input lib isos set_order (LiftModel.g_x g) (LiftModel.g_edges g) (LiftModel.g_n g) (LiftModel.g_y g) k /\
    LiftRingProps.attr_ok (LiftModel.g_edges g) (LiftModel.g_attr g) /\ nonneg g) gs ->
  exists ks0 ks layers lin1 b vs bo,
  Forall2 (fun g K => ring_lift_z lib isos set_order r k0 down0 g = Ok K) gs ks0 /\ Forall2 (fun g K => ring_lift_z lib isos set_order r k down g = Ok K) gs ks /\
  length layers = 2 * L + 2 /\ from_complex_list ks D = Ok b /\
  net_forward Zops (sparse_cin Zops D layers None RAdd (seq 0 (D + 1)) lin1 false (fun v => v)) b = Ok (vs, bo) /\ length vs = length gs /\
  forall i j K K' v, nth_error ks0 i = Some K -> nth_error ks0 j = Some K' -> nth_error vs i = Some v -> nth_error vs j = Some v ->
  forall (V : Type) (o : ops V) (m : net V) (code : nat -> Z -> V), ops_ok o -> cwn_net o m -> length (n_convs m) <= L ->
  exists b b' w bo bo', from_complex_list [recode code K] D = Ok b /\ from_complex_list [recode code K'] D = Ok b' /\
    net_forward o m b = Ok ([w], bo) /\ net_forward o m b' = Ok ([w], bo').
Proof.
  intros Hk Hne HG. rewrite Forall_forall in HG. apply (lifted_parts (ring_keep k0) _ _ gs down0 down); [exact Hne|]. intros g Hg. destruct (HG g Hg) as (H1 & H2 & H3).
  apply ring_pair; assumption.
Qed.

(** Hexagon and two triangles with edge features; all rings of up to six nodes instead of triangles only. *)
Definition six (es : list (nat * nat)) : LiftModel.graph Z := LiftModel.mkGraph (repeat 1%Z 6) es (Some (repeat 5%Z 6)) 6 (Some [2%Z]).
Example C77_more_rings_example : exists ks0 ks layers lin1 b v v' bo,
  Forall2 (fun g K => ring_lift_z (any_lib true) (search 6) (@rev _) RAdd 3 true g = Ok K) [six (long_cycle 3); six (two_cycles 3)] ks0 /\
  Forall2 (fun g K => ring_lift_z (any_lib true) (search 6) (@rev _) RAdd 6 false g = Ok K) [six (long_cycle 3); six (two_cycles 3)] ks /\
  length layers = 6 /\ from_complex_list ks 2 = Ok b /\
  net_forward Zops (sparse_cin Zops 2 layers None RAdd (seq 0 3) lin1 false (fun v => v)) b = Ok ([v; v'], bo).
Proof.
  destruct (C77_more_rings (any_lib true) (search 6) (@rev _) RAdd 3 6 true false 2 2 [six (long_cycle 3); six (two_cycles 3)])
    as (ks0 & ks & layers & lin1 & b & vs & bo & H1 & H2 & H3 & H4 & H5 & H6 & _).
  - lia.
  - discriminate.
  - assert (X : forall es, In es [long_cycle 3; two_cycles 3] -> graph_ok es 6 /\ adjacent es 0 1 /\ length es = 6 /\ loop_free es).
    { intros es [<-|[<-|[]]]; (split; [apply (long_ok 3 ltac:(lia)) || apply (two_ok 3 ltac:(lia))|]); (split; [apply long_edge || apply two_edge; lia|]); (split; [reflexivity|]);
        vm_compute; intros u v H; repeat (destruct H as [H|H]; [inversion H; discriminate|]); destruct H. }
    assert (Y : forall es, In es [long_cycle 3; two_cycles 3] -> ring_input (any_lib true) (search 6) (@rev _) (repeat 1%Z 6) es 6 (Some [2%Z]) 6 /\
      LiftRingProps.attr_ok es (Some (repeat 5%Z 6)) /\ nonneg (six es)).
    { intros es Hes. destruct (X es Hes) as (G & A & L & F). split; [|split].
      - constructor; [exact G|lia|right; eauto|apply repeat_length|now left|apply any_lib_ok|intros k _; apply search_ok; exact G|intros l _; apply Permutation_sym, Permutation_rev].
      - split; [rewrite L; apply repeat_length|]. split; [exact F|]. intros j j' e e' Hj Hj' _.
        assert (forall j e, nth_error es j = Some e -> nth_error (repeat 5%Z 6) j = Some 5%Z).
        { intros q z Hq. assert (q < 6) by (rewrite <- L; apply nth_error_Some; congruence). apply nth_error_repeat. assumption. }
        rewrite (H j e Hj), (H j' e' Hj'). reflexivity.
      - split; repeat constructor; lia. }
    constructor; [|constructor; [|constructor]]; apply Y; cbn; auto.
  - destruct vs as [|v [|v' [|]]]; try discriminate H6. exists ks0, ks, layers, lin1, b, v, v', bo. auto 10.
Qed.

(** *** Cliques *)
Lemma fewer_dims {V} lib (x : list V) edges n y k0 k : good_lib lib -> clique_input lib x edges n k y -> clique_input lib x edges n k0 y.
Proof. intros HL []. split; auto. Qed.
Definition clique_keep (k0 d n : nat) : bool := d <=? Nat.max 1 k0.
Definition clique_lift_z lib r k down (g : LiftModel.graph Z) : result (complex Z) :=
  compute_clique_complex Zops lib r (LiftModel.g_x g) (LiftModel.g_edges g) (LiftModel.g_n g) k (LiftModel.g_y g) down.
Lemma clique_pair lib r k0 k down0 down D g : k0 <= k -> good_lib lib ->
  clique_input lib (LiftModel.g_x g) (LiftModel.g_edges g) (LiftModel.g_n g) k (LiftModel.g_y g) -> Forall (fun v => (0 <= v)%Z) (LiftModel.g_x g) ->
  exists K0 K sz0 sz at_, clique_lift_z lib r k0 down0 g = Ok K0 /\ clique_lift_z lib r k down g = Ok K /\
    ready down0 D K0 sz0 /\ ready down D K sz /\ selected (clique_keep k0) K0 sz0 K sz at_.
Proof.
  destruct g as [x edges ea n y]. unfold clique_lift_z. cbn [LiftModel.g_x LiftModel.g_edges LiftModel.g_attr LiftModel.g_n LiftModel.g_y].
  intros Hk HL HI NX. pose proof (fewer_dims lib x edges n y k0 k HL HI) as HI0.
  assert (one : forall kk dn (HI' : clique_input lib x edges n kk y), exists K,
    compute_clique_complex Zops lib r x edges n kk y dn = Ok K /\ clique_cells edges n kk (cells_of lib edges n kk) /\
    has_cells (cells_of lib edges n kk) dn (lift_x Zops lib r x edges n kk) K /\
    ready dn D K (fun d => length (cells_of lib edges n kk d))).
  { intros kk dn HI'. destruct (given Zops lib r x edges n kk y dn HI') as (K & E & HC & _).
    pose proof (given_cells lib x edges n kk y HI') as CC. exists K. split; [exact E|]. split; [exact CC|]. split; [exact HC|].
    split; [apply HC|]. split; [|split; [|split]].
    - intros d c _ Ec. rewrite (hc_x _ _ _ _ HC d c Ec). discriminate.
    - pose proof (cc_vertex _ _ _ _ CC 0 (ci_nodes _ _ _ _ _ _ HI')) as Hv. unfold names in Hv. destruct (cells_of lib edges n kk 0); [discriminate|cbn; lia].
    - intros d v Hv. unfold attr in Hv. destruct (nth_error (k_cochains K) d) as [c|] eqn:Ec; [|destruct Hv].
      rewrite (hc_x _ _ _ _ HC d c Ec) in Hv. unfold lift_x in Hv. cbn [content] in Hv. destruct (d =? 0).
      + rewrite Forall_forall in NX. auto.
      + apply in_map_iff in Hv as (s & <- & _). apply cell_row_nonneg. exact NX.
    - eapply has_cells_cellular; [exact HC|]. eapply clique_two, CC. }
  destruct (one k0 down0 HI0) as (K0 & E0 & CC0 & HC0 & R0). destruct (one k down HI) as (K & E & CC & HC & R).
  exists K0, K. do 3 eexists. split; [exact E0|]. split; [exact E|]. split; [exact R0|]. split; [exact R|].
  assert (up : forall d i s, names (cells_of lib edges n k0) d i s -> exists t, names (cells_of lib edges n k) d t s).
  { intros d i s H. apply nth_error_In in H. apply (cc_iff _ _ _ _ CC0) in H as (H1 & H2 & H3 & H4). apply In_nth_error. apply (cc_iff _ _ _ _ CC).
    split; [exact H1|]. split; [exact H2|]. split; [exact H3|]. lia. }
  assert (dn : forall d t s, d <= Nat.max 1 k0 -> names (cells_of lib edges n k) d t s -> exists i, names (cells_of lib edges n k0) d i s).
  { intros d i s Hd H. apply nth_error_In in H. apply (cc_iff _ _ _ _ CC) in H as (H1 & H2 & H3 & H4). apply In_nth_error. apply (cc_iff _ _ _ _ CC0).
    split; [exact H1|]. split; [exact H2|]. split; [exact H3|]. lia. }
  assert (ND : forall kk d i s, clique_cells edges n kk (cells_of lib edges n kk) -> names (cells_of lib edges n kk) d i s -> NoDup s).
  { intros kk d i s C H. apply nth_error_In in H. apply (cc_iff _ _ _ _ C) in H as ((_ & H & _) & _). exact H. }
  assert (vert : forall kk i s, clique_cells edges n kk (cells_of lib edges n kk) -> names (cells_of lib edges n kk) 0 i s -> s = [i]).
  { intros kk i s C H. pose proof (nth_error_In _ _ H) as Hin. apply (cc_iff _ _ _ _ C) in Hin as ((_ & _ & H1 & _) & _ & H3 & _).
    destruct s as [|v [|w s]]; [discriminate| |discriminate H3]. specialize (H1 v (or_introl eq_refl)).
    rewrite (cc_once _ _ _ _ C 0 i v [v] [v] H (cc_vertex _ _ _ _ C v H1)); [reflexivity|]. intros w. tauto. }
  apply (selected_cells (clique_keep k0) K0 K _ _ down0 down _ _ HC0 HC).
  - exact (cc_once _ _ _ _ CC0).
  - exact (cc_once _ _ _ _ CC).
  - intros d i s H. destruct (up d i s H) as (t & Ht). exists t, s. split; [exact Ht|]. intros v. tauto.
  - intros d t s Ht. unfold clique_keep. rewrite Nat.leb_le. split.
    + intros Hd. destruct (dn d t s Hd Ht) as (i & Hi). exists i, s. split; [exact Hi|]. intros v. tauto.
    + intros (i & s' & Hi & _). apply nth_error_In in Hi. apply (cc_iff _ _ _ _ CC0) in Hi. tauto.
  - intros d i s g sg Hi Hg _. apply nth_error_In in Hi. apply (cc_iff _ _ _ _ CC0) in Hi. destruct (dn d g sg ltac:(lia) Hg) as (f & Hf). exists f, sg. split; [exact Hf|]. intros v. tauto.
  - intros d i t s s' Hi Ht HS. rewrite (rows_are _ _ _ _ _ _ _ HC0 Hi), (rows_are _ _ _ _ _ _ _ HC Ht). unfold lift_x. cbn [content]. destruct (Nat.eqb_spec d 0) as [->|Hd].
    + rewrite (vert _ _ _ CC0 Hi), (vert _ _ _ CC Ht) in HS. f_equal. destruct (proj1 (HS i) (or_introl eq_refl)) as [->|[]]. reflexivity.
    + rewrite !nth_error_map. pose proof (ND _ _ _ _ CC0 Hi) as N0. pose proof (ND _ _ _ _ CC Ht) as N1. unfold names in Hi, Ht. rewrite Hi, Ht. cbn [option_map]. f_equal.
      apply same_row; auto using Zops_ok.
Qed.

(** The same for cliques of dimension up to [k0] and up to [k >= k0]. *)
Theorem C77_more_cliques lib r k0 k down0 down D L gs : k0 <= k -> gs <> [] -> good_lib lib ->
  Forall (fun g => clique_input lib (LiftModel.g_x g) (LiftModel.g_edges g) (LiftModel.g_n g) k (LiftModel.g_y g) /\ Forall (fun v => (0 <= v)%Z) (LiftModel.g_x g)) gs ->
  exists ks0 ks layers lin1 b vs bo,
  Forall2 (fun g K => clique_lift_z lib r k0 down0 g = Ok K) gs ks0 /\ Forall2 (fun g K => clique_lift_z lib r k down g = Ok K) gs ks /\
  length layers = 2 * L + 2 /\ from_complex_list ks D = Ok b /\
  net_forward Zops (sparse_cin Zops D layers None RAdd (seq 0 (D + 1)) lin1 false (fun v => v)) b = Ok (vs, bo) /\ length vs = length gs /\
  forall i j K K' v, nth_error ks0 i = Some K -> nth_error ks0 j = Some K' -> nth_error vs i = Some v -> nth_error vs j = Some v ->
  forall (V : Type) (o : ops V) (m : net V) (code : nat -> Z -> V), ops_ok o -> cwn_net o m -> length (n_convs m) <= L ->
  exists b b' w bo bo', from_complex_list [recode code K] D = Ok b /\ from_complex_list [recode code K'] D = Ok b' /\
    net_forward o m b = Ok ([w], bo) /\ net_forward o m b' = Ok ([w], bo').
Proof.
  intros Hk Hne HL HG. rewrite Forall_forall in HG. apply (lifted_parts (clique_keep k0) _ _ gs down0 down); [exact Hne|]. intros g Hg. destruct (HG g Hg) as (H1 & H2).
  apply clique_pair; assumption.
Qed.

Example C77_more_cliques_example : exists ks0 ks layers lin1 b v v' bo,
  Forall2 (fun g K => clique_lift_z (any_lib true) RMean 1 true g = Ok K) [six (long_cycle 3); six (two_cycles 3)] ks0 /\
  Forall2 (fun g K => clique_lift_z (any_lib true) RMean 2 false g = Ok K) [six (long_cycle 3); six (two_cycles 3)] ks /\
  length layers = 6 /\ from_complex_list ks 2 = Ok b /\
  net_forward Zops (sparse_cin Zops 2 layers None RAdd (seq 0 3) lin1 false (fun v => v)) b = Ok ([v; v'], bo).
Proof.
  destruct (C77_more_cliques (any_lib true) RMean 1 2 true false 2 2 [six (long_cycle 3); six (two_cycles 3)])
    as (ks0 & ks & layers & lin1 & b & vs & bo & H1 & H2 & H3 & H4 & H5 & H6 & _).
  - lia.
  - discriminate.
  - exact (any_lib_ok true).
  - assert (Y : forall es, graph_ok es 6 -> clique_input (any_lib true) (repeat 1%Z 6) es 6 2 (Some [2%Z]) /\ Forall (fun v => (0 <= v)%Z) (repeat 1%Z 6)).
    { intros es G. split; [constructor; [exact G|lia|apply repeat_length|now left|apply any_lib_ok]|repeat constructor; lia]. }
    constructor; [|constructor; [|constructor]]; apply Y; [apply (long_ok 3 ltac:(lia))|apply (two_ok 3 ltac:(lia))].
  - destruct vs as [|v [|v' [|]]]; try discriminate H6. exists ks0, ks, layers, lin1, b, v, v', bo. auto 10.
Qed.

Print Assumptions C77_parts.
Print Assumptions C77_more_rings.
Print Assumptions C77_more_cliques.
