(** C73: even graphs look alike. *)
From Coq Require Import List Arith Lia ZArith QArith Bool Permutation.
From Verif Require Import Base ScatterModel ScatterSpec ScatterProofs ComplexModel BatchSpec BatchSpec2
  BatchProofs BatchProofs2 DummyModel BatchProps LiftModel LiftSpec LiftBase LiftProofs LiftClique LiftTables LiftCliqueProps LiftRing LiftProps LiftRingProps LiftRingExamples LiftRingBoundary LiftIso
  MPModel MPSpec MPProofs MPEngine MPBatch MPForward MPNets MPProps MPIso PermLift
  GraphNetModel GraphNetSpec GraphNetProofs GraphNetProps PowerSpec PowerProofs PowerProps WLSpec WLProofs WLProps ExpModel ExpProps CountProps.
From Verif Require Import RedundantSpec RedundantProofs RedundantProps.
From Verif Require Import BlindSpec BlindProofs.
Import ListNotations.
Open Scope nat_scope.

(** ** Complexes *)
Lemma above_none {V} (k : complex V) sz d : wf_complex k sz -> k_dim k < d -> boundary_of k d = [].
Proof.
  intros W Hd. unfold boundary_of, attr. destruct (nth_error (k_cochains k) d) as [c|] eqn:E; [|reflexivity].
  assert (d < length (k_cochains k)) by (apply nth_error_Some; congruence). rewrite (wfk_len _ _ W) in *. lia.
Qed.
Lemma encoded_id {V} (k : complex V) : encoded (fun _ v => v) k k.
Proof. split; auto. intros d. now rewrite map_id. Qed.
Lemma bnds_faces {V} (k : complex V) sz D d t : d <= Nat.min (k_dim k) D -> bnds (skel_of D k sz) d t = faces k d t.
Proof. intros H. unfold bnds, bnd_at, skel_of, faces. cbn [s_bnd]. now destruct (Nat.leb_spec d (Nat.min (k_dim k) D)); [|lia]. Qed.
Lemma cobs_cofaces {V} (k : complex V) sz D d f : wf_complex k sz -> d + 1 <= D -> cobs (skel_of D k sz) (d + 1) f = cofaces k d f.
Proof.
  intros W H. unfold cobs, skel_of, cofaces. cbn [s_bnd]. rewrite Nat.add_1_r. destruct (Nat.leb_spec (S d) (Nat.min (k_dim k) D)); [reflexivity|].
  now rewrite (above_none k sz (S d) W ltac:(lia)).
Qed.

(** Equitable kinds of cells give equal predictions, whatever the network, its depth and its use of lower adjacencies. *)
Theorem C73_equitable {V T} (o : ops V) (m : net V) (k k' : complex V) sz sz' down D (kind kind' : nat -> nat -> T) :
  ops_ok o -> cwn_net o m -> wf_complex k sz -> wf_complex k' sz' -> has_features D k -> has_features D k' ->
  cellular down k sz -> cellular down k' sz' -> 0 < sz 0 -> 0 < sz' 0 -> equitable D k k' sz sz' kind kind' ->
  exists b b' v bo bo',
    from_complex_list [k] D = Ok b /\ from_complex_list [k'] D = Ok b' /\
    net_forward o m b = Ok ([v], bo) /\ net_forward o m b' = Ok ([v], bo').
Proof.
  intros Ho HN W W' HF HF' CL CL' Hp Hp' [E1 E2 E3 E4]. pose proof (div_0_1 _ Ho) as Hdiv.
  destruct (cwn_net_ok o Hdiv m HN) as (a & Ha).
  destruct (forward_list o Hdiv m a [k] [sz] D Ha) as (b & bo & Hb & Hf); auto. { discriminate. }
  destruct (forward_list o Hdiv m a [k'] [sz'] D Ha) as (b' & bo' & Hb' & Hf'); auto. { discriminate. }
  exists b, b'. eexists. exists bo, bo'. split; auto. split; auto. split; [exact Hf|].
  rewrite Hf'. cbn [combine map fst snd]. do 3 f_equal. symmetry.
  assert (N : forall (k0 : complex V) sz0 d i, i < s_n (skel_of D k0 sz0) d -> d <= Nat.min (k_dim k0) D /\ i < sz0 d).
  { intros k0 sz0 d i. unfold skel_of. cbn [s_n]. destruct (Nat.leb_spec d (Nat.min (k_dim k0) D)); lia. }
  pose proof (skel_of_ok D k sz W) as KS. pose proof (skel_of_ok D k' sz' W') as KS'.
  apply (predict_alike (skel_of D k sz) (skel_of D k' sz') down kind kind' KS KS'
    (cellular_regular _ k k down sz D W CL (encoded_id k)) (cellular_regular _ k' k' down sz' D W' CL' (encoded_id k'))); auto.
  - intros d i i' Hi Hi' E. apply N in Hi as [Hd Hi], Hi' as [Hd' Hi']. destruct d as [|d].
    + assert (Z : forall S t, skel_ok S -> bnds S 0 t = []).
      { intros S t HS. destruct (bnds S 0 t) as [|f l] eqn:Eb; [reflexivity|]. assert (Hin : In f (bnds S 0 t)) by (rewrite Eb; now left).
        apply bnds_in in Hin. apply (so_bnd _ HS) in Hin. lia. }
      rewrite !Z by auto. constructor.
    + rewrite !bnds_faces by auto. cbn [pred]. apply E2; auto. lia.
  - intros d i i' Hi Hi' E. apply N in Hi as [Hd Hi], Hi' as [Hd' Hi']. destruct (Nat.le_gt_cases (d + 1) D) as [H|H].
    + rewrite !cobs_cofaces by auto. rewrite Nat.add_1_r. apply E3; auto. lia.
    + assert (Z : forall (k0 : complex V) sz0 f, cobs (skel_of D k0 sz0) (d + 1) f = []).
      { intros k0 sz0 f. unfold cobs, skel_of. cbn [s_bnd]. destruct (Nat.leb_spec (d + 1) (Nat.min (k_dim k0) D)); [lia|reflexivity]. }
      rewrite !Z. constructor.
  - intros d i i' Hi Hi' E. apply N in Hi as [Hd Hi], Hi' as [Hd' Hi']. pose proof (E1 d i i' ltac:(lia) Hi Hi' E) as H. unfold feats_of.
    destruct (nth_error (content (attr c_x d k)) i) as [v|] eqn:Ev.
    + now rewrite (nth_error_nth _ _ _ Ev), (nth_error_nth _ _ _ (eq_sym H)).
    + symmetry in H. apply nth_error_None in Ev, H. now rewrite !nth_overflow by auto.
Qed.

(** ** Counting *)
Lemma inj_le {A B} (R : A -> B -> Prop) l : NoDup l -> forall l', (forall a, In a l -> exists b, In b l' /\ R a b) ->
  (forall a a' b, In a l -> In a' l -> R a b -> R a' b -> a = a') -> length l <= length l'.
Proof.
  induction 1 as [|a l Ha N IH]; intros l' H HJ; cbn; [lia|]. destruct (H a (or_introl eq_refl)) as (b & Hb & Hr).
  apply in_split in Hb as (l1 & l2 & ->). specialize (IH (l1 ++ l2)). rewrite app_length in *. cbn. enough (length l <= length l1 + length l2) by lia.
  apply IH.
  - intros a' Ha'. destruct (H a' (or_intror Ha')) as (b' & Hb' & Hr'). exists b'. split; [|exact Hr'].
    apply in_app_or in Hb' as [Hb'|[<-|Hb']]; [apply in_or_app; auto| |apply in_or_app; auto].
    exfalso. apply Ha. now rewrite (HJ a a' b (or_introl eq_refl) (or_intror Ha') Hr Hr').
  - intros a0 a1 b0 H0 H1. apply HJ; now right.
Qed.
Lemma same_count {A B} (R : A -> B -> Prop) l l' : NoDup l -> NoDup l' ->
  (forall a, In a l -> exists b, In b l' /\ R a b) -> (forall b, In b l' -> exists a, In a l /\ R a b) ->
  (forall a a' b, In a l -> In a' l -> R a b -> R a' b -> a = a') -> (forall a b b', In b l' -> In b' l' -> R a b -> R a b' -> b = b') ->
  length l = length l'.
Proof.
  intros N N' H1 H2 J1 J2. apply Nat.le_antisymm; [exact (inj_le R l N l' H1 J1)|].
  apply (inj_le (fun b a => R a b) l' N' l H2). intros b b' a Hb Hb' Hr Hr'. eapply J2; eauto.
Qed.

Lemma faces_once {V} (k : complex V) d t : NoDup (boundary_of k d) -> NoDup (faces k d t).
Proof.
  intros N. apply NoDup_map_on; [now apply NoDup_filter|]. intros [a b] [a' b'] H H' E. apply filter_In in H as [_ H], H' as [_ H'].
  apply Nat.eqb_eq in H, H'. cbn in *. congruence.
Qed.
Lemma cofaces_once {V} (k : complex V) d f : NoDup (boundary_of k (S d)) -> NoDup (cofaces k d f).
Proof.
  intros N. apply NoDup_map_on; [now apply NoDup_filter|]. intros [a b] [a' b'] H H' E. apply filter_In in H as [_ H], H' as [_ H'].
  apply Nat.eqb_eq in H, H'. cbn in *. congruence.
Qed.
Lemma faces_in {V} (k : complex V) d f t : In f (faces k d t) <-> In (f, t) (boundary_of k d).
Proof.
  unfold faces. rewrite in_map_iff. split.
  - intros ([a b] & <- & H). apply filter_In in H as [H E]. apply Nat.eqb_eq in E. cbn in *. now subst.
  - intros H. exists (f, t). split; [reflexivity|]. apply filter_In. split; [exact H|]. apply Nat.eqb_refl.
Qed.
Lemma cofaces_in {V} (k : complex V) d f t : In t (cofaces k d f) <-> In (f, t) (boundary_of k (S d)).
Proof.
  unfold cofaces. rewrite in_map_iff. split.
  - intros ([a b] & <- & H). apply filter_In in H as [H E]. apply Nat.eqb_eq in E. cbn in *. now subst.
  - intros H. exists (f, t). split; [reflexivity|]. apply filter_In. split; [exact H|]. apply Nat.eqb_refl.
Qed.

Lemma cells_boundary {V} cells down FX (k : complex V) : has_cells cells down FX k ->
  forall d f t, In (f, t) (boundary_of k (S d)) <-> face_of cells d f t.
Proof.
  intros HC d f t. pose proof (hc_wf _ _ _ _ HC) as W. unfold boundary_of, attr. destruct (nth_error (k_cochains k) (S d)) as [c|] eqn:E.
  - apply (be_iff _ _ _ (hc_bnd _ _ _ _ HC d c E)).
  - split; [intros []|]. intros (sf & sc & _ & Ht & _). apply nth_error_None in E. rewrite (wfk_len _ _ W) in E.
    pose proof (wfk_above _ _ W (S d) ltac:(lia)) as H. cbv beta in H. unfold names in Ht. assert (t < length (cells (S d))) by (apply nth_error_Some; congruence). lia.
Qed.
Lemma named cells d i : i < length (cells d) -> exists s : list nat, names cells d i s.
Proof. intros H. unfold names. destruct (nth_error (cells d) i) as [s|] eqn:E; [eauto|]. apply nth_error_None in E. lia. Qed.

(** ** Cliques *)
Section Cliques.
Variables (edges : list (nat * nat)) (size k : nat) (cells : nat -> list (list nat)).
Hypothesis HG : graph_ok edges size.
Hypothesis CC : clique_cells edges size k cells.

Lemma cell_clique d i s : names cells d i s -> clique edges size s /\ length s = d + 1 /\ d <= Nat.max 1 k.
Proof. intros H. apply nth_error_In in H. apply (cc_iff _ _ _ _ CC) in H. tauto. Qed.
Lemma clique_cell d s : clique edges size s -> length s = d + 1 -> d <= Nat.max 1 k -> exists i t, names cells d i t /\ same_set t s.
Proof.
  intros Hs Hl Hd. assert (Hin : In (sort Nat.leb s) (cells d)).
  { apply (cc_iff _ _ _ _ CC). split; [|split; [|split; auto]].
    - destruct Hs as (H1 & H2 & H3 & H4). split; [|split; [|split]].
      + intros E. apply H1. pose proof (sort_perm Nat.leb s) as P. rewrite E in P. now apply Permutation_sym, Permutation_nil in P.
      + now apply (Permutation_NoDup (sort_perm Nat.leb s)).
      + intros v Hv. apply (proj1 (sort_In s v)) in Hv. auto.
      + intros u v Hu Hv. apply (proj1 (sort_In s u)) in Hu. apply (proj1 (sort_In s v)) in Hv. auto.
    - apply sorted_increasing. apply sort_sorted. apply Hs.
    - rewrite <- Hl. symmetry. apply Permutation_length, sort_perm. }
  apply In_nth_error in Hin as (i & Hi). exists i, (sort Nat.leb s). split; [exact Hi|]. intros v. apply sort_In.
Qed.

Lemma drop_node s v : clique edges size s -> 1 < length s -> In v s ->
  clique edges size (others v s) /\ length s = length (others v s) + 1.
Proof.
  intros (H1 & H2 & H3 & H4) Hl Hv. pose proof (Permutation_length (others_perm v s H2 Hv)) as L. cbn in L. split; [|lia].
  split; [|split; [now apply NoDup_filter|split]].
  - intros E. rewrite E in L. cbn in L. lia.
  - intros u Hu. apply others_in in Hu as [Hu _]. auto.
  - intros u w Hu Hw. apply others_in in Hu as [Hu _], Hw as [Hw _]. auto.
Qed.
Lemma add_node s v : clique edges size s -> (forall u, In u s -> adjacent edges u v) ->
  clique edges size (v :: s) /\ ~ In v s.
Proof.
  intros (H1 & H2 & H3 & H4) Hv. assert (Nv : ~ In v s) by (intros H; apply Hv in H as [H _]; congruence). split; [|exact Nv].
  assert (Sv : v < size).
  { destruct s as [|u s]; [congruence|]. destruct (Hv u (or_introl eq_refl)) as (_ & [H|H]); apply HG in H; tauto. }
  split; [discriminate|]. split; [now constructor|]. split.
  - intros u [<-|Hu]; auto.
  - intros u w [<-|Hu] [<-|Hw] N; auto; [congruence|]. destruct (Hv w Hw) as [A B]. split; [congruence|tauto].
Qed.

Variables (V : Type) (K : complex V) (d : nat).
Hypothesis HB : forall f t, In (f, t) (boundary_of K (S d)) <-> face_of cells d f t.
Hypothesis HN : NoDup (boundary_of K (S d)).

Lemma clique_faces t s : names cells (S d) t s -> length (faces K (S d) t) = d + 2.
Proof.
  intros Ht. destruct (cell_clique _ _ _ Ht) as (Hs & Hl & Hd). replace (d + 2) with (length s) by lia.
  apply (same_count (fun f v => exists sf, names cells d f sf /\ same_set s (v :: sf) /\ ~ In v sf)).
  - now apply faces_once.
  - apply Hs.
  - intros f Hf. apply faces_in in Hf. apply HB in Hf as (sf & sc & Hf & Hc & I).
    assert (sc = s) by (unfold names in *; congruence). subst sc. destruct (cell_clique _ _ _ Hf) as (Hsf & Hlf & _).
    destruct Hs as (_ & Ns & _). destruct Hsf as (_ & Nf & _).
    assert (E : exists v, In v s /\ ~ In v sf).
    { destruct (Exists_dec (fun v => ~ In v sf) s) as [X|X]; [intros v; destruct (in_dec Nat.eq_dec v sf); [right; tauto|now left]| |].
      - apply Exists_exists in X. exact X.
      - exfalso. assert (incl s sf). { intros v Hv. destruct (in_dec Nat.eq_dec v sf); auto. exfalso. apply X. apply Exists_exists. eauto. }
        pose proof (NoDup_incl_length Ns H). lia. }
    destruct E as (v & Hv & Nv). exists v. split; [exact Hv|]. exists sf. split; [exact Hf|]. split; [|exact Nv].
    assert (N' : NoDup (v :: sf)) by now constructor. assert (I' : incl (v :: sf) s) by (intros u [<-|Hu]; auto).
    intros u. split; [|apply I']. apply (NoDup_length_incl N'); [cbn; lia|exact I'].
  - intros v Hv. destruct (drop_node s v Hs ltac:(lia) Hv) as [Hs' Hl']. destruct (clique_cell d (others v s) Hs' ltac:(lia) ltac:(lia)) as (f & sf & Hf & Sf).
    exists f. split.
    + apply faces_in, HB. exists sf, s. split; [exact Hf|]. split; [exact Ht|]. intros u Hu. apply Sf in Hu. now apply others_in in Hu.
    + exists sf. split; [exact Hf|]. split.
      * intros u. cbn [In]. rewrite (Sf u), others_in. destruct (Nat.eq_dec v u) as [<-|]; [tauto|]. intuition congruence.
      * rewrite (Sf v), others_in. tauto.
  - intros f f' v _ _ (sf & Hf & S1 & N1) (sf' & Hf' & S2 & N2). apply (cc_once _ _ _ _ CC d f f' sf sf' Hf Hf').
    intros u. specialize (S1 u). specialize (S2 u). cbn [In] in *. destruct (Nat.eq_dec v u) as [<-|]; [tauto|]. split; intros H; [assert (X : In u s) by tauto; apply S2 in X|assert (X : In u s) by tauto; apply S1 in X]; intuition congruence.
  - intros f v v' Hv Hv' (sf & Hf & S1 & N1) (sf' & Hf' & S2 & N2). assert (sf' = sf) by (unfold names in *; congruence). subst sf'.
    apply S2 in Hv. destruct Hv as [<-|Hv]; [reflexivity|tauto].
Qed.

Lemma clique_cofaces deg i s : clique_regular edges size (Nat.max 1 k) deg -> d + 1 <= Nat.max 1 k -> names cells d i s ->
  length (cofaces K d i) = deg (d + 1).
Proof.
  intros HR Hk Hi. destruct (cell_clique _ _ _ Hi) as (Hs & Hl & Hd). destruct (HR s Hs ltac:(lia)) as (l & Nl & Ll & Hin). rewrite Hl in Ll. rewrite <- Ll.
  apply (same_count (fun c v => exists sc, names cells (S d) c sc /\ same_set sc (v :: s) /\ ~ In v s)).
  - now apply cofaces_once.
  - exact Nl.
  - intros c Hc. apply cofaces_in in Hc. apply HB in Hc as (sf & sc & Hf & Hc & I).
    assert (sf = s) by (unfold names in *; congruence). subst sf. destruct (cell_clique _ _ _ Hc) as (Hsc & Hlc & _).
    destruct Hsc as (_ & Nc & _ & Ac). destruct Hs as (_ & Ns & _).
    assert (E : exists v, In v sc /\ ~ In v s).
    { destruct (Exists_dec (fun v => ~ In v s) sc) as [X|X]; [intros v; destruct (in_dec Nat.eq_dec v s); [right; tauto|now left]| |].
      - apply Exists_exists in X. exact X.
      - exfalso. assert (incl sc s). { intros v Hv. destruct (in_dec Nat.eq_dec v s); auto. exfalso. apply X. apply Exists_exists. eauto. }
        pose proof (NoDup_incl_length Nc H). lia. }
    destruct E as (v & Hv & Nv). exists v. split.
    + apply Hin. intros u Hu. apply Ac; auto. congruence.
    + exists sc. split; [exact Hc|]. split; [|exact Nv].
      assert (N' : NoDup (v :: s)) by now constructor. assert (I' : incl (v :: s) sc) by (intros u [<-|Hu]; auto).
      intros u. split; [|apply I']. apply (NoDup_length_incl N'); [cbn; lia|exact I'].
  - intros v Hv. pose proof (proj1 (Hin v) Hv) as Hv1. destruct (add_node s v Hs Hv1) as [Hs' Nv].
    destruct (clique_cell (S d) (v :: s) Hs' ltac:(cbn; lia) ltac:(lia)) as (c & sc & Hc & Sc).
    exists c. split.
    + apply cofaces_in, HB. exists s, sc. split; [exact Hi|]. split; [exact Hc|]. intros u Hu. apply Sc. now right.
    + exists sc. auto.
  - intros c c' v _ _ (sc & Hc & S1 & _) (sc' & Hc' & S2 & _). apply (cc_once _ _ _ _ CC (S d) c c' sc sc' Hc Hc').
    intros u. rewrite (S1 u), (S2 u). tauto.
  - intros c v v' Hv Hv' (sc & Hc & S1 & N1) (sc' & Hc' & S2 & N2). assert (sc' = sc) by (unfold names in *; congruence). subst sc'.
    assert (X : In v sc) by (apply S1; now left). apply S2 in X. destruct X as [<-|X]; [reflexivity|tauto].
Qed.
End Cliques.

(** ** Constant features *)
Lemma nth_error_const {A} (a : A) n i : i < n -> nth_error (repeat a n) i = Some a.
Proof. revert i. induction n as [|n IH]; intros [|i] H; cbn; [lia|lia|reflexivity|apply IH; lia]. Qed.
Lemma cell_row_const {V} (o : ops V) r a n s : (forall v, In v s -> v < n) -> cell_row o r (repeat a n) s = reduce_rows o r (repeat a (length s)).
Proof.
  intros H. unfold cell_row. f_equal. rewrite <- map_const. apply map_ext_in. intros v Hv. apply nth_error_nth. apply nth_error_const. auto.
Qed.

(** Lists of one element repeated are determined by their lengths. *)
Lemma one_kind (l l' : list nat) : length l = length l' -> Permutation (map (fun _ => tt) l) (map (fun _ => tt) l').
Proof. intros E. rewrite !map_const, E. apply Permutation_refl. Qed.

Section Lifted.
Context {V : Type} (o : ops V).

(** The clique lifting of a clique-regular graph with constant features. *)
Lemma clique_even lib r k y down edges n deg (a : V) : clique_input lib (repeat a n) edges n k y -> clique_regular edges n (Nat.max 1 k) deg ->
  exists K sz, compute_clique_complex o lib r (repeat a n) edges n k y down = Ok K /\
    wf_complex K sz /\ cellular down K sz /\ sz 0 = n /\ (forall D, has_features D K) /\
    (forall d i, i < sz d -> nth_error (content (attr c_x d K)) i = Some (if d =? 0 then a else reduce_rows o r (repeat a (d + 1)))) /\
    (forall d t, t < sz (S d) -> length (faces K (S d) t) = d + 2) /\
    (forall d i, i < sz d -> length (cofaces K d i) = if d + 1 <=? Nat.max 1 k then deg (d + 1) else 0).
Proof.
  intros HI HR. destruct (given o lib r (repeat a n) edges n k y down HI) as (K & E & HC & HD & _).
  pose proof (given_cells lib (repeat a n) edges n k y HI) as CC. set (cells := _ : nat -> list (list nat)) in CC.
  change (has_cells cells down (lift_x o lib r (repeat a n) edges n k) K) in HC. change (forall d, d <= k_dim K <-> cells d <> []) in HD.
  pose proof (ci_graph _ _ _ _ _ _ HI) as HG.
  assert (CL : cellular down K (fun d => length (cells d))) by (eapply has_cells_cellular; [exact HC|]; eapply clique_two; exact CC).
  pose proof (hc_wf _ _ _ _ HC) as W.
  assert (some : forall d, cells d <> [] -> exists c, nth_error (k_cochains K) d = Some c).
  { intros d Hd. apply HD in Hd. destruct (nth_error (k_cochains K) d) as [c|] eqn:Ec; [eauto|]. apply nth_error_None in Ec. rewrite (wfk_len _ _ W) in Ec. lia. }
  assert (rows : forall d, cells d <> [] -> content (attr c_x d K) = if d =? 0 then repeat a n else map (cell_row o r (repeat a n)) (cells d)).
  { intros d Hd. destruct (some d Hd) as (c & Ec). unfold attr. rewrite Ec, (hc_x _ _ _ _ HC d c Ec). reflexivity. }
  assert (ne : forall d i, i < length (cells d) -> cells d <> []) by (intros d i Hi Ed; rewrite Ed in Hi; cbn in Hi; lia).
  assert (S0 : length (cells 0) = n).
  { assert (H0 : cells 0 <> []).
    { intros E0. pose proof (cc_vertex _ _ _ _ CC 0 (ci_nodes _ _ _ _ _ _ HI)) as Hv. unfold names in Hv. rewrite E0 in Hv. discriminate. }
    destruct (some 0 H0) as (c & Ec). pose proof (wf_x _ _ _ _ (wfk_each _ _ W 0 c Ec)) as Hx. rewrite (hc_x _ _ _ _ HC 0 c Ec) in Hx.
    cbn in Hx. now rewrite repeat_length in Hx. }
  exists K, (fun d => length (cells d)). split; [exact E|]. split; [exact W|]. split; [exact CL|]. split; [exact S0|]. split; [|split; [|split]].
  - intros D d c _ Ec. rewrite (hc_x _ _ _ _ HC d c Ec). discriminate.
  - intros d i Hi. rewrite (rows d (ne d i Hi)). destruct (named cells d i Hi) as (s & Hs). destruct (cell_clique edges n k cells CC d i s Hs) as (Cs & Ls & _).
    destruct d as [|d].
    + cbn [Nat.eqb]. apply nth_error_const. lia.
    + cbn [Nat.eqb]. unfold names in Hs. rewrite nth_error_map, Hs. cbn. f_equal. rewrite cell_row_const by apply Cs. now rewrite Ls.
  - intros d t Ht. destruct (named cells (S d) t Ht) as (s & Hs).
    apply (clique_faces edges n k cells CC V K d (cells_boundary _ _ _ _ HC d) (cl_once _ _ _ CL (S d)) t s Hs).
  - intros d i Hi. destruct (named cells d i Hi) as (s & Hs). destruct (Nat.leb_spec (d + 1) (Nat.max 1 k)) as [Hk|Hk].
    + apply (clique_cofaces edges n k cells HG CC V K d (cells_boundary _ _ _ _ HC d) (cl_once _ _ _ CL (S d)) deg i s); auto.
    + destruct (cofaces K d i) as [|c l] eqn:Ef; [reflexivity|]. assert (Hin : In c (cofaces K d i)) by (rewrite Ef; now left).
      apply cofaces_in in Hin. apply (cells_boundary _ _ _ _ HC) in Hin as (sf & sc & _ & Hc & _). apply (cell_clique edges n k cells CC) in Hc. lia.
Qed.

(** Clique-regular graphs with the same numbers are not separated. *)
Theorem C73_cliques (m : net V) lib r k y y' down D edges edges' n deg (a : V) : ops_ok o -> cwn_net o m ->
  clique_input lib (repeat a n) edges n k y -> clique_input lib (repeat a n) edges' n k y' ->
  clique_regular edges n (Nat.max 1 k) deg -> clique_regular edges' n (Nat.max 1 k) deg ->
  exists K K' b b' v bo bo',
    compute_clique_complex o lib r (repeat a n) edges n k y down = Ok K /\
    compute_clique_complex o lib r (repeat a n) edges' n k y' down = Ok K' /\
    from_complex_list [K] D = Ok b /\ from_complex_list [K'] D = Ok b' /\
    net_forward o m b = Ok ([v], bo) /\ net_forward o m b' = Ok ([v], bo').
Proof.
  intros Ho HN HI HI' HR HR'.
  destruct (clique_even lib r k y down edges n deg a HI HR) as (K & sz & E & W & CL & S0 & HF & X & F & C).
  destruct (clique_even lib r k y' down edges' n deg a HI' HR') as (K' & sz' & E' & W' & CL' & S0' & HF' & X' & F' & C').
  pose proof (ci_nodes _ _ _ _ _ _ HI) as Hn.
  destruct (C73_equitable o m K K' sz sz' down D (fun _ _ => tt) (fun _ _ => tt) Ho HN W W' (HF D) (HF' D) CL CL' ltac:(lia) ltac:(lia)) as (b & b' & v & bo & bo' & H).
  { split.
    - intros d i i' _ Hi Hi' _. now rewrite X, X'.
    - intros d i i' _ Hi Hi' _. apply one_kind. now rewrite F, F'.
    - intros d i i' _ Hi Hi' _. apply one_kind. now rewrite C, C'.
    - apply one_kind. now rewrite !seq_length, S0, S0'. }
  exists K, K', b, b', v, bo, bo'. auto.
Qed.

(** ** Rings *)
(** The cycles, searched along edges. *)
Fixpoint walks (es : list (nat * nat)) (n k : nat) : list (list nat) :=
  match k with
  | 0 => [[]]
  | S k => flat_map (fun t => map (fun a => a :: t) (filter (fun a => match t with [] => true | b :: _ => adjb es a b end) (seq 0 n))) (walks es n k)
  end.
Lemma walks_In es n c : (forall v, In v c -> v < n) -> (forall i a b, nth_error c i = Some a -> nth_error c (S i) = Some b -> adjacent es a b) ->
  In c (walks es n (length c)).
Proof.
  induction c as [|a c IH]; intros Hr HA; [now left|]. cbn [length walks]. apply in_flat_map. exists c. split.
  - apply IH; [intros v Hv; apply Hr; now right|]. intros i x y Hx Hy. exact (HA (S i) x y Hx Hy).
  - apply in_map_iff. exists a. split; [reflexivity|]. apply filter_In. split; [apply in_seq; specialize (Hr a (or_introl eq_refl)); lia|].
    destruct c as [|b c]; [reflexivity|]. apply adjb_ok. exact (HA 0 a b eq_refl eq_refl).
Qed.
Lemma walks_length es n k : forall c, In c (walks es n k) -> length c = k.
Proof.
  induction k as [|k IH]; cbn [walks]; [intros c [<-|[]]; reflexivity|]. intros c H. apply in_flat_map in H as (t & Ht & H).
  apply in_map_iff in H as (a & <- & _). cbn. f_equal. now apply IH.
Qed.
Definition search (n : nat) (es : list (nat * nat)) (k : nat) : list (list nat) := filter (cycleb es) (walks es n k).
Lemma search_ok n es k : graph_ok es n -> finds_cycles es k (search n es k).
Proof.
  intros HG. split.
  - intros c Hc. apply filter_In in Hc as [H1 H2]. apply walks_length in H1. apply cycleb_ok in H2. auto.
  - intros c Hc Hl. destruct (ref_isos_ok n es k HG) as [_ H]. destruct (H c Hc Hl) as (c' & H1 & HS). exists c'. split; [|exact HS].
    apply filter_In in H1 as [H1 H2]. apply filter_In. split; [|exact H2]. apply tuples_In in H1 as [H1 H3]. rewrite <- H1. apply walks_In.
    + intros v Hv. apply H3, in_seq in Hv. lia.
    + intros i a b Ha Hb. apply cycleb_ok in H2 as (Hl3 & _ & H2). apply (H2 i (S i) a b Ha Hb). split; [lia|]. left.
      assert (S i < length c') by (apply nth_error_Some; congruence). rewrite Nat.mod_small by lia. lia.
Qed.
Section Rings.
Variables (edges : list (nat * nat)) (size max_k : nat) (cells : nat -> list (list nat)).
Hypothesis HG : graph_ok edges size.
Hypothesis RC : ring_cells edges size max_k cells.

Definition graph_cells (d : nat) : list (list nat) := match d with 0 | 1 => cells d | _ => [] end.
Lemma graph_part : clique_cells edges size 1 graph_cells.
Proof.
  split.
  - intros v Hv. apply (rc_vertex _ _ _ _ RC v Hv).
  - intros [|[|d]] s; cbn [graph_cells].
    + split.
      * intros Hin. apply In_nth_error in Hin as (i & Hi). assert (L : i < size).
        { rewrite <- (rc_vertices _ _ _ _ RC). apply nth_error_Some. congruence. }
        pose proof (rc_vertex _ _ _ _ RC i L) as Hv. unfold names in Hv. rewrite Hi in Hv. injection Hv as ->.
        split; [|split; [|split; [reflexivity|cbn; lia]]].
        -- split; [discriminate|]. split; [repeat constructor; auto|]. split; [intros v [<-|[]]; exact L|]. intros u v [<-|[]] [<-|[]]; congruence.
        -- intros [|x] [|y] p q H1 H2 H3; try lia; destruct y; discriminate.
      * intros ((_ & _ & Hr & _) & _ & Hl & _). destruct s as [|v [|]]; try discriminate.
        apply (nth_error_In _ v). exact (rc_vertex _ _ _ _ RC v (Hr v (or_introl eq_refl))).
    + rewrite (rc_edge _ _ _ _ RC). split.
      * intros (u & v & Hlt & -> & HA). assert (R : u < size /\ v < size) by (destruct HA as [_ [H|H]]; apply HG in H; tauto).
        split; [|split; [|split; [reflexivity|cbn; lia]]].
        -- split; [discriminate|]. split; [repeat constructor; cbn; intuition lia|]. split; [intros w [<-|[<-|[]]]; tauto|].
           intros p q [<-|[<-|[]]] [<-|[<-|[]]] N; try congruence. destruct HA; split; [congruence|tauto].
        -- intros x y p q H1 H2 H3. destruct x as [|[|x]], y as [|[|y]]; cbn in *; try lia; try (destruct x; discriminate); try (destruct y; discriminate). congruence.
      * intros ((_ & _ & _ & HA) & Hi & Hl & _). destruct s as [|u [|v [|]]]; try discriminate. exists u, v.
        specialize (Hi 0 1 u v eq_refl eq_refl ltac:(lia)). split; [exact Hi|]. split; [reflexivity|]. apply HA; [now left|right; now left|lia].
    + cbn. split; [intros []|lia].
  - intros [|[|d]] i j t t' H1 H2; [apply (rc_once _ _ _ _ RC 0 i j t t' H1 H2)|apply (rc_once _ _ _ _ RC 1 i j t t' H1 H2)|].
    unfold names in H1. cbn in H1. destruct i; discriminate.
Qed.
Lemma regular_nodes deg : (forall u, u < size -> count_nodes (adjacent edges u) deg) -> clique_regular edges size (Nat.max 1 1) (fun _ => deg).
Proof.
  intros H s (H1 & _ & H3 & _) Hl. destruct s as [|u [|]]; [congruence| |cbn in Hl; lia].
  destruct (H u (H3 u (or_introl eq_refl))) as (l & N & L & Hin). exists l. split; [exact N|]. split; [exact L|].
  intros v. rewrite Hin. split; [intros HA w [<-|[]]; exact HA|]. intros HA. apply HA. now left.
Qed.

Variables (W : Type) (K : complex W).
Hypothesis HB : forall d f t, In (f, t) (boundary_of K (S d)) <-> face_of cells d f t.
Hypothesis HN : forall d, NoDup (boundary_of K d).
Definition len (t : nat) : nat := length (nth t (cells 2) []).

Lemma edge_cycles cyc i s : names cells 1 i s -> (forall u v, adjacent edges u v -> forall k, 3 <= k <= max_k -> exists L, cycles_through edges k u v L /\ length L = cyc k) ->
  forall k, length (filter (fun t => len t =? k) (cofaces K 1 i)) = if (3 <=? k) && (k <=? max_k) then cyc k else 0.
Proof.
  intros Hi HC k. pose proof Hi as Hs. apply nth_error_In in Hs. apply (rc_edge _ _ _ _ RC) in Hs as (u & v & Hlt & -> & HA).
  assert (In2 : forall t, In t (cofaces K 1 i) <-> exists c, names cells 2 t c /\ In u c /\ In v c).
  { intros t. rewrite cofaces_in, HB. split.
    - intros (sf & sc & Hf & Hc & I). assert (sf = [u; v]) by (unfold names in *; congruence). subst sf. exists sc. split; [exact Hc|]. split; apply I; cbn; auto.
    - intros (c & Hc & Hu & Hv). exists [u; v], c. split; [exact Hi|]. split; [exact Hc|]. intros w [<-|[<-|[]]]; auto. }
  assert (Hlen : forall t c, names cells 2 t c -> len t = length c) by (intros t c Hc; unfold len; now rewrite (nth_error_nth _ _ _ Hc)).
  destruct ((3 <=? k) && (k <=? max_k)) eqn:Ek.
  - apply andb_true_iff in Ek as [K1 K2]. apply Nat.leb_le in K1, K2. destruct (HC u v HA k ltac:(lia)) as (L & (L1 & L2 & L3) & <-).
    rewrite <- (seq_length (length L) 0).
    apply (same_count (fun t j => exists c c', names cells 2 t c /\ nth_error L j = Some c' /\ same_set c c')).
    + apply NoDup_filter, cofaces_once, HN.
    + apply seq_NoDup.
    + intros t Ht. apply filter_In in Ht as [Ht El]. apply In2 in Ht as (c & Hc & Hu & Hv). rewrite (Hlen t c Hc) in El. apply Nat.eqb_eq in El.
      destruct (L2 c) as (c' & Hc' & HS); auto. { apply nth_error_In in Hc. now apply (rc_ring _ _ _ _ RC) in Hc. }
      apply In_nth_error in Hc' as (j & Hj). exists j. split; [apply in_seq; assert (j < length L) by (apply nth_error_Some; congruence); lia|]. exists c, c'. auto.
    + intros j Hj. apply in_seq in Hj. destruct (nth_error L j) as [c'|] eqn:Ej; [|apply nth_error_None in Ej; lia].
      pose proof (L1 c' (nth_error_In _ _ Ej)) as (C1 & C2 & C3 & C4). destruct (rc_all _ _ _ _ RC c' C1 ltac:(lia)) as (t & c & Hc & HS).
      exists t. split; [|exists c, c'; split; [exact Hc|split; [reflexivity|intros w; symmetry; apply HS]]].
      apply filter_In. split; [apply In2; exists c; split; [exact Hc|split; now apply HS]|]. rewrite (Hlen t c Hc). apply Nat.eqb_eq.
      pose proof (nth_error_In _ _ Hc) as Hin. apply (rc_ring _ _ _ _ RC) in Hin as [(_ & N & _) _]. destruct C1 as (_ & N' & _).
      rewrite <- C2. apply Permutation_length, NoDup_Permutation; auto. intros w. symmetry. apply HS.
    + intros t t' j _ _ (c & c' & Hc & Hj & HS) (d & d' & Hd & Hj' & HS'). apply (rc_once _ _ _ _ RC 2 t t' c d Hc Hd).
      assert (c' = d') by congruence. subst d'. intros w. rewrite (HS w), (HS' w). tauto.
    + intros t j j' _ _ (c & c' & Hc & Hj & HS) (d & d' & Hd & Hj' & HS'). apply (L3 j j' c' d' Hj Hj').
      assert (c = d) by (unfold names in *; congruence). subst d. intros w. rewrite <- (HS w), <- (HS' w). tauto.
  - destruct (filter _ _) as [|t l] eqn:Ef; [reflexivity|]. exfalso. assert (Hin : In t (t :: l)) by now left. rewrite <- Ef in Hin.
    apply filter_In in Hin as [Ht El]. apply In2 in Ht as (c & Hc & _). rewrite (Hlen t c Hc) in El. apply Nat.eqb_eq in El.
    apply nth_error_In in Hc. apply (rc_ring _ _ _ _ RC) in Hc as [(L3 & _) L4].
    assert (X : (3 <=? k) && (k <=? max_k) = true) by (apply andb_true_iff; split; apply Nat.leb_le; lia). congruence.
Qed.
End Rings.

Lemma count_map {A} (f : A -> nat) l k : count_occ Nat.eq_dec (map f l) k = length (filter (fun a => f a =? k) l).
Proof. induction l as [|a l IH]; cbn; [reflexivity|]. destruct (Nat.eq_dec (f a) k), (Nat.eqb_spec (f a) k); cbn; congruence. Qed.
Lemma perm_by_count {A B} (f : A -> nat) (g : B -> nat) l l' : (forall k, length (filter (fun a => f a =? k) l) = length (filter (fun b => g b =? k) l')) ->
  Permutation (map f l) (map g l').
Proof. intros H. apply (Permutation_count_occ Nat.eq_dec). intros k. rewrite !count_map. apply H. Qed.

(** The ring lifting of a ring-regular graph with constant features. *)
Lemma ring_even veqb lib isos set_order r max_k y down edges n deg cyc (a : V) : (forall a b, veqb a b = true <-> a = b) ->
  ring_input lib isos set_order (repeat a n) edges n y max_k -> ring_regular edges n max_k deg cyc ->
  exists K sz ln, compute_ring_2complex o veqb lib isos set_order r (repeat a n) edges None n y max_k down true true = Ok K /\
    wf_complex K sz /\ cellular down K sz /\ sz 0 = n /\ (forall d, 3 <= d -> sz d = 0) /\ (forall D, has_features D K) /\
    (forall d i, i < sz d -> nth_error (content (attr c_x d K)) i =
       Some (if d =? 0 then a else reduce_rows o r (repeat a (if d =? 1 then 2 else ln i)))) /\
    (forall t, t < sz 1 -> length (faces K 1 t) = 2) /\ (forall t, t < sz 2 -> length (faces K 2 t) = ln t) /\
    (forall i, i < sz 0 -> length (cofaces K 0 i) = deg) /\
    (forall i, i < sz 1 -> forall k, length (filter (fun t => ln t =? k) (cofaces K 1 i)) = if (3 <=? k) && (k <=? max_k) then cyc k else 0) /\
    (forall d i, 2 <= d -> cofaces K d i = []).
Proof.
  intros He HI [HR1 HR2].
  destruct (ring_lift_gen o veqb lib isos set_order r (repeat a n) edges None n y max_k down true true HI He (fun _ => I))
    as (K & rows & E & ER & LR & HC & HD & _).
  pose proof (cells_ring lib isos set_order (repeat a n) edges n y max_k HI) as RC. set (cells := _ : nat -> list (list nat)) in RC.
  change (has_cells cells down (ring_x o lib isos set_order r (repeat a n) edges n max_k true true rows) K) in HC.
  change (forall d, d <= k_dim K <-> cells d <> []) in HD. specialize (ER eq_refl).
  change (rows = map (cell_row o r (repeat a n)) (cells 1)) in ER.
  pose proof (ri_graph _ _ _ _ _ _ _ _ HI) as HG.
  assert (CL : cellular down K (fun d => length (cells d))) by (eapply has_cells_cellular; [exact HC|]; eapply ring_two; [exact HG|exact RC|exact HC]).
  pose proof (hc_wf _ _ _ _ HC) as W.
  assert (some : forall d i, i < length (cells d) -> exists c, nth_error (k_cochains K) d = Some c).
  { intros d i Hi. assert (Hd : cells d <> []) by (intros Ed; rewrite Ed in Hi; cbn in Hi; lia). apply HD in Hd.
    destruct (nth_error (k_cochains K) d) as [c|] eqn:Ec; [eauto|]. apply nth_error_None in Ec. rewrite (wfk_len _ _ W) in Ec. lia. }
  assert (CB : forall d f t, In (f, t) (boundary_of K (S d)) <-> face_of cells d f t) by exact (cells_boundary _ _ _ _ HC).
  pose proof (graph_part edges n max_k cells HG RC) as GP.
  exists K, (fun d => length (cells d)), (len cells). split; [exact E|]. split; [exact W|]. split; [exact CL|].
  split; [apply (rc_vertices _ _ _ _ RC)|]. split; [intros d Hd; now rewrite (rc_top _ _ _ _ RC d Hd)|].
  split; [|split; [|split; [|split; [|split; [|split]]]]].
  - intros D d c _ Ec. rewrite (hc_x _ _ _ _ HC d c Ec). destruct d as [|[|d]]; discriminate.
  - intros d i Hi. destruct (some d i Hi) as (c & Ec). unfold attr. rewrite Ec, (hc_x _ _ _ _ HC d c Ec).
    destruct (named cells d i Hi) as (s & Hs). destruct d as [|[|d]]; cbn [ring_x content Nat.eqb].
    + apply nth_error_const. rewrite <- (rc_vertices _ _ _ _ RC). exact Hi.
    + rewrite ER. unfold names in Hs. rewrite nth_error_map, Hs. cbn. f_equal.
      assert (Cs : names (graph_cells cells) 1 i s) by exact Hs. apply (cell_clique edges n 1 _ GP) in Cs as ((_ & _ & Cs & _) & Ls & _).
      rewrite cell_row_const by exact Cs. now rewrite Ls.
    + destruct d as [|d]; [|rewrite (rc_top _ _ _ _ RC (S (S (S d))) ltac:(lia)) in Hi; cbn in Hi; lia].
      change (nth_error (map (cell_row o r (repeat a n)) (cells 2)) i = Some (reduce_rows o r (repeat a (len cells i)))).
      unfold names in Hs. rewrite nth_error_map, Hs. cbn. f_equal. unfold len. rewrite (nth_error_nth _ _ _ Hs). apply cell_row_const.
      apply nth_error_In in Hs. apply (rc_ring _ _ _ _ RC) in Hs as [(L3 & N & HA) _]. intros v Hv.
      apply In_nth_error in Hv as (p & Hp). assert (Hpl : p < length s) by (apply nth_error_Some; congruence).
      assert (Hq : exists w, nth_error s ((p + 1) mod length s) = Some w).
      { destruct (nth_error s ((p + 1) mod length s)) eqn:Eq; [eauto|]. apply nth_error_None in Eq. pose proof (Nat.mod_upper_bound (p + 1) (length s) ltac:(lia)). lia. }
      destruct Hq as (w & Hq). pose proof (proj2 (HA p _ v w Hp Hq)) as X. destruct X as [_ [X|X]]; [|apply HG in X; tauto|apply HG in X; tauto].
      split; [|left; reflexivity]. destruct (Nat.eq_dec (p + 1) (length s)) as [Eq|Eq].
      * rewrite Eq, Nat.mod_same by lia. lia.
      * rewrite Nat.mod_small by lia. lia.
  - intros t Ht. destruct (named cells 1 t Ht) as (s & Hs).
    exact (clique_faces edges n 1 (graph_cells cells) GP V K 0 (CB 0) (cl_once _ _ _ CL 1) t s Hs).
  - intros t Ht. destruct (named cells 2 t Ht) as (s & Hs). destruct (some 2 t Ht) as (c & Ec).
    pose proof (rb_count _ _ _ _ (ring_boundary_ok edges n max_k cells c RC (hc_bnd _ _ _ _ HC 1 c Ec) t s Hs)) as H.
    unfold faces. rewrite map_length. unfold boundary_of, attr. rewrite Ec. rewrite H. unfold len. now rewrite (nth_error_nth _ _ _ Hs).
  - intros i Hi. destruct (named cells 0 i Hi) as (s & Hs).
    apply (clique_cofaces edges n 1 (graph_cells cells) HG GP V K 0 (CB 0) (cl_once _ _ _ CL 1) (fun _ => deg) i s); auto. now apply regular_nodes.
  - intros i Hi. destruct (named cells 1 i Hi) as (s & Hs). exact (edge_cycles edges n max_k cells RC V K CB (cl_once _ _ _ CL) cyc i s Hs HR2).
  - intros d i Hd. destruct (cofaces K d i) as [|c l] eqn:Ef; [reflexivity|]. assert (Hin : In c (cofaces K d i)) by (rewrite Ef; now left).
    apply cofaces_in, CB in Hin as (sf & sc & _ & Hc & _). unfold names in Hc. rewrite (rc_top _ _ _ _ RC (S d) ltac:(lia)) in Hc. destruct c; discriminate.
Qed.

(** Ring-regular graphs with the same numbers are not separated. *)
Theorem C73_rings (m : net V) veqb lib isos set_order r max_k y y' down D edges edges' n deg cyc (a : V) : ops_ok o -> cwn_net o m ->
  (forall a b, veqb a b = true <-> a = b) ->
  ring_input lib isos set_order (repeat a n) edges n y max_k -> ring_input lib isos set_order (repeat a n) edges' n y' max_k ->
  ring_regular edges n max_k deg cyc -> ring_regular edges' n max_k deg cyc ->
  exists K K' b b' v bo bo',
    compute_ring_2complex o veqb lib isos set_order r (repeat a n) edges None n y max_k down true true = Ok K /\
    compute_ring_2complex o veqb lib isos set_order r (repeat a n) edges' None n y' max_k down true true = Ok K' /\
    from_complex_list [K] D = Ok b /\ from_complex_list [K'] D = Ok b' /\
    net_forward o m b = Ok ([v], bo) /\ net_forward o m b' = Ok ([v], bo').
Proof.
  intros Ho HN He HI HI' HR HR'.
  destruct (ring_even veqb lib isos set_order r max_k y down edges n deg cyc a He HI HR) as (K & sz & ln & E & W & CL & S0 & S3 & HF & X & F1 & F2 & C0 & C1 & C2).
  destruct (ring_even veqb lib isos set_order r max_k y' down edges' n deg cyc a He HI' HR') as (K' & sz' & ln' & E' & W' & CL' & S0' & S3' & HF' & X' & F1' & F2' & C0' & C1' & C2').
  pose proof (ri_nodes _ _ _ _ _ _ _ _ HI) as Hn.
  assert (Zk : forall (l l' : list nat), length l = length l' -> Permutation (map (fun _ => 0) l) (map (fun _ => 0) l')) by (intros l l' El; rewrite !map_const, El; apply Permutation_refl).
  set (kd := fun (ln : nat -> nat) (d i : nat) => if d =? 2 then ln i else 0).
  destruct (C73_equitable o m K K' sz sz' down D (kd ln) (kd ln') Ho HN W W' (HF D) (HF' D) CL CL' ltac:(lia) ltac:(lia)) as (b & b' & v & bo & bo' & H).
  { split.
    - intros d i i' _ Hi Hi' Ek. rewrite X, X' by assumption. destruct d as [|[|[|d]]]; [reflexivity|reflexivity| |rewrite S3 in Hi; lia].
      unfold kd in Ek. cbn in Ek |- *. now rewrite Ek.
    - intros d i i' _ Hi Hi' Ek. destruct d as [|[|d]].
      + apply Zk. now rewrite F1, F1'.
      + apply Zk. rewrite F2, F2' by assumption. exact Ek.
      + rewrite S3 in Hi; lia.
    - intros d i i' _ Hi Hi' _. destruct d as [|[|d]].
      + apply Zk. now rewrite C0, C0'.
      + apply perm_by_count. intros k. change (length (filter (fun t => ln t =? k) (cofaces K 1 i)) = length (filter (fun t => ln' t =? k) (cofaces K' 1 i'))). now rewrite C1, C1'.
      + rewrite C2, C2' by lia. constructor.
    - apply Zk. now rewrite !seq_length, S0, S0'. }
  exists K, K', b, b', v, bo, bo'. auto.
Qed.
End Lifted.

(** ** Batches *)
(** Complexes that are not separated in pairs get one prediction in a batch, and no pair of samples counts as told apart. *)
Definition one_answer {V} (o : ops V) (m : net V) (ks : list (complex V)) (D : nat) : Prop :=
  exists b v bo, from_complex_list ks D = Ok b /\ net_forward o m b = Ok (repeat v (length ks), bo) /\
  forall (dist : V -> V -> score) eps q, dist v v = Some q -> (q < eps)%Q -> 2 <= length ks ->
    exists rate, isomorphism_metric dist eps true (repeat v (length ks)) = Ok rate /\ (rate == 1)%Q.

Lemma row_pairs_const {A} (v : A) n : forall p, In p (row_pairs (repeat v n)) -> p = (v, v).
Proof.
  induction n as [|n IH]; cbn; [tauto|]. intros p Hp. apply in_app_or in Hp as [Hp|Hp]; [|auto].
  apply in_map_iff in Hp as (w & <- & Hw). apply repeat_spec in Hw. congruence.
Qed.
Lemma all_close {A} (v : A) n (dist : A -> A -> score) eps q : dist v v = Some q -> (q < eps)%Q -> 2 <= n ->
  exists rate, isomorphism_metric dist eps true (repeat v n) = Ok rate /\ (rate == 1)%Q.
Proof.
  intros Hd Hq Hn. unfold isomorphism_metric. cbn [assert_ bind].
  assert (F : filter (below eps) (map (fun ab => dist (fst ab) (snd ab)) (row_pairs (repeat v n))) = map (fun ab => dist (fst ab) (snd ab)) (row_pairs (repeat v n))).
  { apply filter_all. intros s Hs. apply in_map_iff in Hs as (p & <- & Hp). apply row_pairs_const in Hp as ->. cbn [fst snd]. rewrite Hd. cbn.
    apply negb_true_iff. apply not_true_is_false. intros H. apply Qle_bool_iff in H. apply (Qlt_not_le _ _ Hq H). }
  rewrite F, map_length. destruct n as [|[|n]]; try lia. cbn [repeat row_pairs map app length].
  eexists. split; [reflexivity|]. unfold Qeq. cbn [Qnum Qden]. lia.
Qed.
Lemma together {V} (o : ops V) (m : net V) ks szs D : ops_ok o -> cwn_net o m -> ks <> [] -> Forall2 wf_complex ks szs ->
  Forall (has_features D) ks -> Forall (fun sz : nat -> nat => 0 < sz 0) szs ->
  (forall k k', In k ks -> In k' ks -> exists b b' v bo bo', from_complex_list [k] D = Ok b /\ from_complex_list [k'] D = Ok b' /\
     net_forward o m b = Ok ([v], bo) /\ net_forward o m b' = Ok ([v], bo')) ->
  one_answer o m ks D.
Proof.
  intros Ho HN Hne HW HF Hp HS.
  destruct (C06_batch_independence o (div_0_1 _ Ho) m ks szs D HN Hne HW HF Hp) as (b & out & b' & Hb & Hf & Hl & Hout).
  destruct ks as [|k0 ks0]; [congruence|]. destruct out as [|v out0]; [discriminate|]. set (ks := k0 :: ks0) in *. set (out := v :: out0) in *.
  assert (E : out = repeat v (length ks)).
  { assert (G : forall i w, nth_error out i = Some w -> w = v).
    { intros i w Hw. assert (Hi : i < length ks) by (rewrite <- Hl; apply nth_error_Some; congruence).
      destruct (nth_error ks i) as [k|] eqn:Ek; [|apply nth_error_None in Ek; lia].
      destruct (Hout i k w Ek Hw) as (c & c' & H1 & H2). destruct (Hout 0 k0 v eq_refl eq_refl) as (d & d' & H3 & H4).
      destruct (HS k k0 (nth_error_In _ _ Ek) (or_introl eq_refl)) as (e & e' & u & eo & eo' & H5 & H6 & H7 & H8).
      assert (c = e) by congruence. assert (d = e') by congruence. subst. congruence. }
    rewrite <- Hl. clear - G. clearbody out. revert G. generalize out. induction out as [|w l IH] using (@list_ind V); intros l0 G.
    all: revert G; induction l0 as [|w0 l0 IH0]; intros G; cbn; [reflexivity|]; rewrite (G 0 w0 eq_refl); f_equal; apply IH0; intros i x Hx; exact (G (S i) x Hx). }
  exists b, v, b'. split; [exact Hb|]. rewrite <- E. split; [exact Hf|]. rewrite E. intros dist eps q. apply all_close.
Qed.

(** A lifting of graphs all of which look alike. *)
Lemma alike_batch {V G} (o : ops V) (m : net V) (lift : G -> result (complex V)) gs D : ops_ok o -> cwn_net o m -> gs <> [] ->
  (forall g, In g gs -> exists K sz, lift g = Ok K /\ wf_complex K sz /\ has_features D K /\ 0 < sz 0) ->
  (forall g g', In g gs -> In g' gs -> exists K K' b b' v bo bo', lift g = Ok K /\ lift g' = Ok K' /\
     from_complex_list [K] D = Ok b /\ from_complex_list [K'] D = Ok b' /\ net_forward o m b = Ok ([v], bo) /\ net_forward o m b' = Ok ([v], bo')) ->
  exists ks, Forall2 (fun g K => lift g = Ok K) gs ks /\ one_answer o m ks D.
Proof.
  intros Ho HN Hne HL HS.
  assert (X : exists ks szs, Forall2 (fun g K => lift g = Ok K) gs ks /\ Forall2 wf_complex ks szs /\ Forall (has_features D) ks /\ Forall (fun sz : nat -> nat => 0 < sz 0) szs).
  { clear Hne HS. induction gs as [|g gs IH]; [exists [], []; repeat constructor|].
    destruct IH as (ks & szs & A & B & C & E); [intros; apply HL; now right|].
    destruct (HL g (or_introl eq_refl)) as (K & sz & H1 & H2 & H3 & H4). exists (K :: ks), (sz :: szs). repeat split; constructor; auto. }
  destruct X as (ks & szs & A & B & C & E). exists ks. split; [exact A|]. apply (together o m ks szs D); auto.
  - intros E0. subst. inversion A. congruence.
  - assert (P : forall k, In k ks -> exists g, In g gs /\ lift g = Ok k).
    { clear - A. induction A as [|g k gs ks H A IH]; [intros k []|]. intros k' [<-|Hk]; [exists g; split; [now left|exact H]|].
      destruct (IH k' Hk) as (g' & H1 & H2). exists g'. split; [now right|exact H2]. }
    intros k k' Hk Hk'. destruct (P k Hk) as (g & Hg & Eg). destruct (P k' Hk') as (g' & Hg' & Eg').
    destruct (HS g g' Hg Hg') as (K & K' & b & b' & v & bo & bo' & H1 & H2 & H). assert (K = k) by congruence. assert (K' = k') by congruence. subst. exists b, b', v, bo, bo'. exact H.
Qed.

Theorem C73_clique_batch {V} (o : ops V) (m : net V) lib r k down D gs n deg (a : V) : ops_ok o -> cwn_net o m -> gs <> [] ->
  (forall es, In es gs -> clique_input lib (repeat a n) es n k None /\ clique_regular es n (Nat.max 1 k) deg) ->
  exists ks, Forall2 (fun es K => compute_clique_complex o lib r (repeat a n) es n k None down = Ok K) gs ks /\ one_answer o m ks D.
Proof.
  intros Ho HN Hne HG. apply alike_batch; auto.
  - intros es Hes. destruct (HG es Hes) as [HI HR]. destruct (clique_even o lib r k None down es n deg a HI HR) as (K & sz & E & W & _ & S0 & HF & _).
    exists K, sz. pose proof (ci_nodes _ _ _ _ _ _ HI). rewrite S0. auto.
  - intros es es' Hes Hes'. destruct (HG es Hes) as [HI HR], (HG es' Hes') as [HI' HR'].
    apply (C73_cliques o m lib r k None None down D es es' n deg a); auto.
Qed.
Theorem C73_ring_batch {V} (o : ops V) (m : net V) veqb lib isos set_order r max_k down D gs n deg cyc (a : V) : ops_ok o -> cwn_net o m -> gs <> [] ->
  (forall a b, veqb a b = true <-> a = b) ->
  (forall es, In es gs -> ring_input lib isos set_order (repeat a n) es n None max_k /\ ring_regular es n max_k deg cyc) ->
  exists ks, Forall2 (fun es K => compute_ring_2complex o veqb lib isos set_order r (repeat a n) es None n None max_k down true true = Ok K) gs ks /\ one_answer o m ks D.
Proof.
  intros Ho HN Hne He HG. apply alike_batch; auto.
  - intros es Hes. destruct (HG es Hes) as [HI HR]. destruct (ring_even o veqb lib isos set_order r max_k None down es n deg cyc a He HI HR) as (K & sz & ln & E & W & _ & S0 & _ & HF & _).
    exists K, sz. pose proof (ri_nodes _ _ _ _ _ _ _ _ HI). rewrite S0. auto.
  - intros es es' Hes Hes'. destruct (HG es Hes) as [HI HR], (HG es' Hes') as [HI' HR'].
    apply (C73_rings o m veqb lib isos set_order r max_k None None down D es es' n deg cyc a); auto.
Qed.

(** ** Strongly regular graphs *)
Lemma strongly_clique edges n deg lam mu : strongly_regular edges n deg lam mu ->
  clique_regular edges n 2 (fun s => if s =? 1 then deg else lam).
Proof.
  intros (H1 & H2 & _) s (Hs & N & Hr & HA) Hl. destruct s as [|u [|v [|]]]; [congruence| | |cbn in Hl; lia].
  - destruct (H1 u (Hr u (or_introl eq_refl))) as (l & A & B & C). exists l. split; [exact A|]. split; [exact B|].
    intros w. rewrite C. split; [intros X z [<-|[]]; exact X|]. intros X. apply X. now left.
  - assert (Huv : u <> v) by (inversion N; subst; cbn in *; intuition congruence).
    destruct (H2 u v) as (l & A & B & C); [apply Hr; now left|apply Hr; right; now left|apply HA; [now left|right; now left|exact Huv]|].
    exists l. split; [exact A|]. split; [exact B|]. intros w. rewrite C. split.
    + intros [X Y] z [<-|[<-|[]]]; assumption.
    + intros X. split; apply X; [now left|right; now left].
Qed.
Lemma fewer_cliques edges n k k' deg : k' <= k -> clique_regular edges n k deg -> clique_regular edges n k' deg.
Proof. intros Hk H s Hs Hl. apply H; [exact Hs|lia]. Qed.

(** Edges and triangles do not help with strongly regular graphs: all networks give all graphs of a family the same
    embedding, and the rate of failures is one. *)
Theorem C73_strongly_regular {V} (o : ops V) (m : net V) lib r k down D gs n deg lam mu (a : V) : ops_ok o -> cwn_net o m -> gs <> [] -> good_lib lib ->
  0 < n -> k <= 2 -> (forall es, In es gs -> graph_ok es n /\ strongly_regular es n deg lam mu) ->
  exists ks, Forall2 (fun es K => compute_clique_complex o lib r (repeat a n) es n k None down = Ok K) gs ks /\ one_answer o m ks D.
Proof.
  intros Ho HN Hne Hlib Hn Hk HG. apply (C73_clique_batch o m lib r k down D gs n (fun s => if s =? 1 then deg else lam) a); auto.
  intros es Hes. destruct (HG es Hes) as [Hg HR]. split.
  - constructor; [exact Hg|exact Hn|apply repeat_length|exact I|apply Hlib].
  - eapply fewer_cliques; [|eapply strongly_clique; exact HR]. lia.
Qed.

(** ** Examples *)
Lemma count_nodesb n (p : nat -> bool) (P : nat -> Prop) c : (forall v, p v = true <-> P v) -> (forall v, P v -> v < n) ->
  length (filter p (seq 0 n)) = c -> count_nodes P c.
Proof.
  intros Hp Hr Hl. exists (filter p (seq 0 n)). split; [apply NoDup_filter, seq_NoDup|]. split; [exact Hl|].
  intros v. rewrite filter_In, Hp, in_seq. split; [tauto|]. intros X. split; [|exact X]. specialize (Hr v X). lia.
Qed.
Lemma adjacent_range es n u v : graph_ok es n -> adjacent es u v -> v < n.
Proof. intros HG [_ [H|H]]; apply HG in H; tauto. Qed.
Definition stronglyb (es : list (nat * nat)) (n deg lam mu : nat) : bool :=
  forallb (fun u => (length (filter (adjb es u) (seq 0 n)) =? deg) &&
    forallb (fun v => (u =? v) || (length (filter (fun w => adjb es u w && adjb es v w) (seq 0 n)) =? if adjb es u v then lam else mu)) (seq 0 n)) (seq 0 n).
Lemma stronglyb_ok es n deg lam mu : graph_ok es n -> stronglyb es n deg lam mu = true -> strongly_regular es n deg lam mu.
Proof.
  intros HG H. unfold stronglyb in H. rewrite forallb_forall in H.
  assert (C : forall u v c, length (filter (fun w => adjb es u w && adjb es v w) (seq 0 n)) = c -> count_nodes (fun w => adjacent es u w /\ adjacent es v w) c).
  { intros u v c. apply (count_nodesb n); [intros w; now rewrite andb_true_iff, !adjb_ok|]. intros w [X _]. exact (adjacent_range es n u w HG X). }
  assert (P : forall u v, u < n -> v < n -> u <> v -> length (filter (fun w => adjb es u w && adjb es v w) (seq 0 n)) = if adjb es u v then lam else mu).
  { intros u v Hu Hv N. specialize (H u ltac:(apply in_seq; lia)). apply andb_true_iff in H as [_ H]. rewrite forallb_forall in H.
    specialize (H v ltac:(apply in_seq; lia)). apply orb_true_iff in H as [H|H]; [apply Nat.eqb_eq in H; congruence|now apply Nat.eqb_eq in H]. }
  split; [|split].
  - intros u Hu. specialize (H u ltac:(apply in_seq; lia)). apply andb_true_iff in H as [H _]. apply Nat.eqb_eq in H.
    apply (count_nodesb n (adjb es u)); [apply adjb_ok|intros v; apply (adjacent_range es n u v HG)|exact H].
  - intros u v Hu Hv HA. apply C. rewrite (P u v Hu Hv) by apply HA. apply adjb_ok in HA. now rewrite HA.
  - intros u v Hu Hv N HA. apply C. rewrite (P u v Hu Hv N). destruct (adjb es u v) eqn:E; [|reflexivity]. apply adjb_ok in E. tauto.
Qed.
Lemma rook_strong : strongly_regular (g_edges rook) 16 6 2 2.
Proof. apply stronglyb_ok; [apply rook_regular|vm_compute; reflexivity]. Qed.
Lemma shrikhande_strong : strongly_regular (g_edges shrikhande) 16 6 2 2.
Proof. apply stronglyb_ok; [apply shrikhande_regular|vm_compute; reflexivity]. Qed.

(** Triangles do not separate Rook's graph from the Shrikhande graph, tetrahedra do. *)
Theorem C73_tetrahedra_needed lib r down : good_lib lib ->
  (forall (V : Type) (o : ops V) (m : net V) a k D, ops_ok o -> cwn_net o m -> k <= 2 ->
     exists K K', compute_clique_complex o lib r (repeat a 16) (g_edges rook) 16 k None down = Ok K /\
       compute_clique_complex o lib r (repeat a 16) (g_edges shrikhande) 16 k None down = Ok K' /\ one_answer o m [K; K'] D) /\
  exists K K' layers lin1 b v v' bo,
    clique_lift_of lib r 3 down rook = Ok K /\ clique_lift_of lib r 3 down shrikhande = Ok K' /\ length layers = 1 /\ from_complex_list [K; K'] 3 = Ok b /\
    net_forward Zops (sparse_cin Zops 3 layers None RAdd (seq 0 4) lin1 false (fun v => v)) b = Ok ([v; v'], bo) /\ v <> v'.
Proof.
  intros Hlib. split.
  - intros V o m a k D Ho HN Hk.
    destruct (C73_strongly_regular o m lib r k down D [g_edges rook; g_edges shrikhande] 16 6 2 2 a Ho HN) as (ks & HF & HO); auto; [discriminate|lia| |].
    + intros es [<-|[<-|[]]]; split; [apply rook_regular|apply rook_strong|apply shrikhande_regular|apply shrikhande_strong].
    + inversion HF as [|? K ? ks' E1 HF']; subst. inversion HF' as [|? K' ? ks'' E2 HF'']; subst. inversion HF''; subst. exists K, K'. auto.
  - destruct (C59_strongly_regular lib r down Hlib) as (K & K' & layers & lin1 & b & v & v' & bo & H1 & H2 & H3 & H4 & H5 & H6 & _).
    exists K, K', layers, lin1, b, v, v', bo. auto 10.
Qed.

(** ** Rings *)
Fixpoint once (l : list (list nat)) : list (list nat) :=
  match l with [] => [] | c :: l' => if existsb (same_setb c) l' then once l' else c :: once l' end.
Lemma once_In l c : In c (once l) -> In c l.
Proof. induction l as [|d l IH]; cbn; [auto|]. destruct (existsb (same_setb d) l); cbn; intuition. Qed.
Lemma once_keeps l c : In c l -> exists c', In c' (once l) /\ same_set c c'.
Proof.
  revert c. induction l as [|d l IH]; intros c; cbn; [intros []|]. intros [<-|Hc].
  - destruct (existsb (same_setb d) l) eqn:E; [|exists d; split; [now left|intros v; tauto]].
    apply existsb_exists in E as (e & He & E). apply same_setb_ok in E. destruct (IH e He) as (c' & H1 & H2).
    exists c'. split; [exact H1|]. intros v. rewrite (E v). apply H2.
  - destruct (IH c Hc) as (c' & H1 & H2). exists c'. split; [|exact H2]. destruct (existsb (same_setb d) l); [exact H1|now right].
Qed.
Lemma once_apart l : forall i j c c', nth_error (once l) i = Some c -> nth_error (once l) j = Some c' -> same_set c c' -> i = j.
Proof.
  induction l as [|d l IH]; cbn; [intros [|] j c c' H; discriminate|]. destruct (existsb (same_setb d) l) eqn:E; [exact IH|].
  assert (N : forall c, In c (once l) -> ~ same_set d c).
  { intros c Hc HS. apply once_In in Hc. assert (existsb (same_setb d) l = true); [|congruence]. apply existsb_exists. exists c. split; [exact Hc|now apply same_setb_ok]. }
  intros [|i] [|j] c c' Hi Hj HS; cbn in Hi, Hj; [reflexivity| | |f_equal; eapply IH; eauto].
  - injection Hi as <-. apply nth_error_In in Hj. destruct (N _ Hj HS).
  - injection Hj as <-. apply nth_error_In in Hi. destruct (N _ Hi). intros v. symmetry. apply HS.
Qed.
Lemma cycles_once es n k : graph_ok es n -> forall u v, cycles_through es k u v (once (filter (fun c => existsb (Nat.eqb u) c && existsb (Nat.eqb v) c) (search n es k))).
Proof.
  intros HG u v. destruct (search_ok n es k HG) as [A B].
  assert (M : forall w c, existsb (Nat.eqb w) c = true <-> In w c).
  { intros w c. rewrite existsb_exists. split; [intros (z & Hz & E); apply Nat.eqb_eq in E; now subst|]. intros H. exists w. split; [exact H|apply Nat.eqb_refl]. }
  split; [|split].
  - intros c Hc. apply once_In, filter_In in Hc as [Hc E]. rewrite andb_true_iff, !M in E. destruct (A c Hc). tauto.
  - intros c Hc Hl Hu Hv. destruct (B c Hc Hl) as (c1 & H1 & HS). destruct (once_keeps (filter (fun c => existsb (Nat.eqb u) c && existsb (Nat.eqb v) c) (search n es k)) c1) as (c2 & H2 & HS2).
    + apply filter_In. split; [exact H1|]. rewrite andb_true_iff, !M, <- (HS u), <- (HS v). auto.
    + exists c2. split; [exact H2|]. intros w. rewrite (HS w). apply HS2.
  - apply once_apart.
Qed.
Definition ring_regularb (es : list (nat * nat)) (n max_k deg : nat) (cyc : nat -> nat) : bool :=
  forallb (fun u => length (filter (adjb es u) (seq 0 n)) =? deg) (seq 0 n) &&
  forallb (fun k => let R := search n es k in forallb (fun u => forallb (fun v => negb (adjb es u v) ||
    (length (once (filter (fun c => existsb (Nat.eqb u) c && existsb (Nat.eqb v) c) R)) =? cyc k)) (seq 0 n)) (seq 0 n)) (seq 3 (max_k - 2)).
Lemma ring_regularb_ok es n max_k deg cyc : graph_ok es n -> ring_regularb es n max_k deg cyc = true -> ring_regular es n max_k deg cyc.
Proof.
  intros HG H. apply andb_true_iff in H as [H1 H2]. rewrite forallb_forall in H1, H2. split.
  - intros u Hu. specialize (H1 u ltac:(apply in_seq; lia)). apply Nat.eqb_eq in H1.
    apply (count_nodesb n (adjb es u)); [apply adjb_ok|intros v; apply (adjacent_range es n u v HG)|exact H1].
  - intros u v HA k Hk. exists (once (filter (fun c => existsb (Nat.eqb u) c && existsb (Nat.eqb v) c) (search n es k))). split; [apply (cycles_once es n k HG)|].
    specialize (H2 k ltac:(apply in_seq; lia)). cbv zeta in H2. rewrite forallb_forall in H2.
    assert (HA' : adjacent es v u) by (destruct HA; split; [congruence|tauto]).
    specialize (H2 u ltac:(apply in_seq; pose proof (adjacent_range es n v u HG HA'); lia)). rewrite forallb_forall in H2.
    specialize (H2 v ltac:(apply in_seq; pose proof (adjacent_range es n u v HG HA); lia)). apply adjb_ok in HA. rewrite HA in H2. now apply Nat.eqb_eq in H2.
Qed.

(** Triangles as rings are no better than triangles as cliques. *)
Lemma triangle_cycle es u v w : adjacent es u v -> adjacent es v w -> adjacent es u w -> induced_cycle es [u; v; w].
Proof.
  intros A B C. assert (S : forall x y, adjacent es x y -> adjacent es y x) by (intros x y [? ?]; split; [congruence|tauto]).
  assert (I : forall x, ~ adjacent es x x) by (intros x [X _]; congruence).
  split; [cbn; lia|]. split.
  - destruct A as [A _], B as [B _], C as [C _]. repeat constructor; cbn; intuition congruence.
  - intros [|[|[|i]]] [|[|[|j]]] a b Ha Hb; cbn in Ha, Hb; try (destruct i; discriminate); try (destruct j; discriminate);
      injection Ha as <-; injection Hb as <-; unfold next_to; cbn; split; intros H; auto; try (exfalso; eapply I; eassumption); try lia.
Qed.
Lemma cycle_triangle es c u v : induced_cycle es c -> length c = 3 -> In u c -> In v c -> u <> v ->
  exists w, adjacent es u w /\ adjacent es v w /\ same_set c [u; v; w].
Proof.
  intros (_ & N & H) Hl Hu Hv Huv. destruct c as [|x [|y [|z [|]]]]; try discriminate.
  assert (S : forall p q, adjacent es p q -> adjacent es q p) by (intros p q [? ?]; split; [congruence|tauto]).
  assert (A : adjacent es x y) by (apply (H 0 1 x y eq_refl eq_refl); unfold next_to; cbn; lia).
  assert (B : adjacent es y z) by (apply (H 1 2 y z eq_refl eq_refl); unfold next_to; cbn; lia).
  assert (C : adjacent es x z) by (apply (H 0 2 x z eq_refl eq_refl); unfold next_to; cbn; lia).
  unfold same_set. cbn in Hu, Hv. destruct Hu as [<-|[<-|[<-|[]]]], Hv as [<-|[<-|[<-|[]]]]; try congruence;
    [exists z|exists y|exists z|exists x|exists y|exists x].
  all: split; [auto|split; [auto|]]; intros t; cbn; tauto.
Qed.

Lemma strongly_ring edges n deg lam mu max_k : graph_ok edges n -> max_k <= 3 -> strongly_regular edges n deg lam mu -> ring_regular edges n max_k deg (fun _ => lam).
Proof.
  intros HG Hk (H1 & H2 & _). split; [exact H1|]. intros u v HA k Hk'. assert (k = 3) by lia. subst k.
  assert (S : forall p q, adjacent edges p q -> adjacent edges q p) by (intros p q [? ?]; split; [congruence|tauto]).
  destruct (H2 u v) as (l & N & Hl & HI); [exact (adjacent_range edges n v u HG (S _ _ HA))|exact (adjacent_range edges n u v HG HA)|exact HA|].
  exists (map (fun w => [u; v; w]) l). split; [|now rewrite map_length]. split; [|split].
  - intros c Hc. apply in_map_iff in Hc as (w & <- & Hw). apply HI in Hw as [X Y]. split; [now apply triangle_cycle|]. cbn. auto.
  - intros c Hc Hl3 Hu Hv. destruct (cycle_triangle edges c u v Hc Hl3 Hu Hv) as (w & X & Y & HS); [apply HA|].
    exists [u; v; w]. split; [|exact HS]. apply in_map_iff. exists w. split; [reflexivity|]. apply HI. auto.
  - intros i j c c' Hi Hj HS. rewrite nth_error_map in Hi, Hj. destruct (nth_error l i) as [w|] eqn:Ei; [|discriminate]. destruct (nth_error l j) as [w'|] eqn:Ej; [|discriminate].
    injection Hi as <-. injection Hj as <-. apply (proj1 (NoDup_nth_error _) N); [apply nth_error_Some; congruence|]. rewrite Ei, Ej. f_equal.
    assert (X : In w [u; v; w']) by (apply HS; cbn; auto). apply nth_error_In, HI in Ei as [[A1 _] [A2 _]]. cbn in X. intuition congruence.
Qed.
Theorem C73_strongly_regular_rings {V} (o : ops V) (m : net V) veqb lib isos set_order r max_k down D gs n deg lam mu (a : V) :
  ops_ok o -> cwn_net o m -> gs <> [] -> (forall a b, veqb a b = true <-> a = b) -> max_k <= 3 ->
  (forall es, In es gs -> ring_input lib isos set_order (repeat a n) es n None max_k /\ strongly_regular es n deg lam mu) ->
  exists ks, Forall2 (fun es K => compute_ring_2complex o veqb lib isos set_order r (repeat a n) es None n None max_k down true true = Ok K) gs ks /\ one_answer o m ks D.
Proof.
  intros Ho HN Hne He Hk HG. apply (C73_ring_batch o m veqb lib isos set_order r max_k down D gs n deg (fun _ => lam) a); auto.
  intros es Hes. destruct (HG es Hes) as [HI HS]. split; [exact HI|]. eapply strongly_ring; [apply HI|exact Hk|exact HS].
Qed.

(** Squares separate the two graphs: Rook's graph has 36 chordless ones, the Shrikhande graph 12. *)
Lemma rings16 g lib isos set_order : CountProps.regular g 16 6 1%Z -> good_lib lib -> good_isos isos 16 -> good_set set_order ->
  (exists u v, adjacent (g_edges g) u v) ->
  ring_input lib isos set_order (g_x g) (g_edges g) (length (g_x g)) None 4 /\ nonneg_graph g.
Proof.
  intros (HX & HG & _) Hlib Hiso Hset HA. assert (HL : length (g_x g) = 16) by (rewrite HX; apply repeat_length). split.
  - rewrite HL. constructor; [exact HG|lia|now right|exact HL|exact I|apply Hlib|intros k _; apply Hiso; exact HG|exact Hset].
  - unfold nonneg_graph. rewrite HX. apply Forall_forall. intros v Hv. apply repeat_spec in Hv. lia.
Qed.
Lemma rook_edge : exists u v, adjacent (g_edges rook) u v.
Proof. exists 0, 1. apply adjb_ok. reflexivity. Qed.
Lemma shrikhande_edge : exists u v, adjacent (g_edges shrikhande) u v.
Proof. exists 0, 1. apply adjb_ok. reflexivity. Qed.
Lemma cycles_listed es n k : graph_ok es n -> lists_cycles es k (once (flat_map (search n es) (seq 3 (k - 2)))).
Proof.
  intros HG. split; [|split; [|apply once_apart]].
  - intros c Hc. apply once_In, in_flat_map in Hc as (j & Hj & Hc). apply in_seq in Hj. apply (search_ok n es j HG) in Hc as [H1 H2]. split; [exact H1|lia].
  - intros c Hc Hl. destruct (search_ok n es (length c) HG) as [_ H]. destruct (H c Hc eq_refl) as (c1 & H1 & HS).
    destruct (once_keeps (flat_map (search n es) (seq 3 (k - 2))) c1) as (c2 & H2 & HS2).
    + apply in_flat_map. exists (length c). split; [|exact H1]. apply in_seq. destruct Hc as [Hc _]. lia.
    + exists c2. split; [exact H2|]. intros v. rewrite (HS v). apply HS2.
Qed.
Lemma rook_rings : length (once (flat_map (search 16 (g_edges rook)) (seq 3 (4 - 2)))) = 68.
Proof. vm_compute. reflexivity. Qed.
Lemma shrikhande_rings : length (once (flat_map (search 16 (g_edges shrikhande)) (seq 3 (4 - 2)))) = 44.
Proof. vm_compute. reflexivity. Qed.
Theorem C73_squares_suffice lib isos set_order r down : good_lib lib -> good_isos isos 16 -> good_set set_order ->
  exists K K' layers lin1 b v v' bo,
    ring_lift_of lib isos set_order r 4 down rook = Ok K /\ ring_lift_of lib isos set_order r 4 down shrikhande = Ok K' /\ length layers = 1 /\ from_complex_list [K; K'] 2 = Ok b /\
    net_forward Zops (sparse_cin Zops 2 layers None RAdd (seq 0 3) lin1 false (fun v => v)) b = Ok ([v; v'], bo) /\ v <> v'.
Proof.
  intros Hlib Hiso Hset.
  destruct (C59_ring_counts lib isos set_order r 4 down [rook; shrikhande] 2) as (ks & layers & lin1 & b & vs & bo & H1 & H2 & H3 & H4 & H5 & H6).
  { discriminate. } { lia. }
  { constructor; [|constructor; [|constructor]]; apply rings16; auto; [apply rook_regular|apply rook_edge|apply shrikhande_regular|apply shrikhande_edge]. }
  inversion H1 as [|? K ? ks' E1 H1']; subst. inversion H1' as [|? K' ? ks'' E2 H1'']; subst. inversion H1''; subst.
  destruct vs as [|v [|v' [|]]]; try discriminate H5. exists K, K', layers, lin1, b, v, v', bo.
  split; [exact E1|]. split; [exact E2|]. split; [exact H2|]. split; [exact H3|]. split; [exact H4|]. intros <-.
  pose proof (H6 0 1 rook shrikhande v eq_refl eq_refl eq_refl eq_refl _ _ (cycles_listed _ 16 4 (proj1 (proj2 rook_regular))) (cycles_listed _ 16 4 (proj1 (proj2 shrikhande_regular)))) as E.
  apply Permutation_length in E. rewrite !map_length, rook_rings, shrikhande_rings in E. discriminate E.
Qed.
Example C73_squares_example := C73_squares_suffice (any_lib true) (search 16) (@rev _) RAdd true (any_lib_ok true) (fun es k => search_ok 16 es k)
  (fun l _ => Permutation_sym (Permutation_rev l)).

(** The circulant graphs with 17 nodes and steps 1, 4 and 1, 5: squares do not help. *)
Definition circulant (n : nat) (steps : list nat) : list (nat * nat) :=
  flat_map (fun u => flat_map (fun s => [(u, (u + s) mod n); ((u + s) mod n, u)]) steps) (seq 0 n).
Lemma circulant_ok n steps : 0 < n -> graph_ok (circulant n steps) n.
Proof.
  intros Hn u v H. apply in_flat_map in H as (w & Hw & H). apply in_seq in Hw. apply in_flat_map in H as (s & Hs & H). pose proof (Nat.mod_upper_bound (w + s) n ltac:(lia)).
  destruct H as [H|[H|[]]]; injection H as <- <-; lia.
Qed.
Lemma circulants_even : ring_regular (circulant 17 [1; 4]) 17 4 4 (fun k => if k =? 4 then 2 else 0) /\ ring_regular (circulant 17 [1; 5]) 17 4 4 (fun k => if k =? 4 then 2 else 0).
Proof. split; apply ring_regularb_ok; try (apply circulant_ok; lia); vm_compute; reflexivity. Qed.
Example C73_rings_example {V} (o : ops V) (m : net V) veqb r down D (a : V) : ops_ok o -> cwn_net o m -> (forall a b, veqb a b = true <-> a = b) ->
  exists ks, Forall2 (fun es K => compute_ring_2complex o veqb (any_lib true) (search 17) (@rev _) r (repeat a 17) es None 17 None 4 down true true = Ok K)
    [circulant 17 [1; 4]; circulant 17 [1; 5]] ks /\ one_answer o m ks D.
Proof.
  intros Ho HN He. apply (C73_ring_batch o m veqb _ _ _ r 4 down D _ 17 4 (fun k => if k =? 4 then 2 else 0) a); auto; [discriminate|].
  assert (HI : forall steps, (exists u v, adjacent (circulant 17 steps) u v) -> ring_input (any_lib true) (search 17) (@rev _) (repeat a 17) (circulant 17 steps) 17 None 4).
  { intros steps HA. assert (G : graph_ok (circulant 17 steps) 17) by (apply circulant_ok; lia).
    constructor; [exact G|lia|now right|apply repeat_length|exact I|apply any_lib_ok|intros k _; apply search_ok; exact G|intros l _; apply Permutation_sym, Permutation_rev]. }
  intros es [<-|[<-|[]]]; (split; [apply HI; exists 0, 1; apply adjb_ok; reflexivity|apply circulants_even]).
Qed.
Example C73_strongly_regular_example {V} (o : ops V) (m : net V) (a : V) : ops_ok o -> cwn_net o m ->
  exists K K', compute_clique_complex o (any_lib true) RAdd (repeat a 16) (g_edges rook) 16 2 None true = Ok K /\
    compute_clique_complex o (any_lib true) RAdd (repeat a 16) (g_edges shrikhande) 16 2 None true = Ok K' /\ one_answer o m [K; K'] 2.
Proof. intros Ho HN. apply (C73_tetrahedra_needed (any_lib true) RAdd true (any_lib_ok true)); auto. Qed.

Print Assumptions C73_equitable.
Print Assumptions C73_cliques.
Print Assumptions C73_rings.
Print Assumptions C73_clique_batch.
Print Assumptions C73_ring_batch.
Print Assumptions C73_strongly_regular.
Print Assumptions C73_strongly_regular_rings.
Print Assumptions C73_tetrahedra_needed.
Print Assumptions C73_squares_suffice.
