(** Networks do not separate cells of the same kind; what kinds there are in lifted graphs. *)
From Coq Require Import List Arith Lia ZArith Bool Permutation.
From Verif Require Import Base ScatterModel ScatterSpec ScatterProofs ComplexModel BatchSpec BatchSpec2
  BatchProofs BatchProofs2 DummyModel MPModel MPSpec MPProofs MPEngine MPBatch MPForward MPNets MPIso LiftSpec LiftBase.
From Verif Require Import RedundantSpec RedundantProofs.
From Verif Require Import BlindSpec.
Import ListNotations.

Section Two.
Context {T : Type}.
Variables (S S' : skel) (down : bool) (kind kind' : nat -> nat -> T).
Hypothesis HS : skel_ok S.
Hypothesis HS' : skel_ok S'.
Hypothesis HR : regular down S.
Hypothesis HR' : regular down S'.
Hypothesis Hf : forall d i i', i < s_n S d -> i' < s_n S' d -> kind d i = kind' d i' ->
  Permutation (map (kind (pred d)) (bnds S d i)) (map (kind' (pred d)) (bnds S' d i')).
Hypothesis Hc : forall d i i', i < s_n S d -> i' < s_n S' d -> kind d i = kind' d i' ->
  Permutation (map (kind (d + 1)) (cobs S (d + 1) i)) (map (kind' (d + 1)) (cobs S' (d + 1) i')).

Definition alike (_ d i i' : nat) : Prop := i < s_n S d /\ i' < s_n S' d /\ kind d i = kind' d i'.

(** Without the cell itself. *)
Lemma others_kinds (ki ki' : nat -> T) i i' l l' : ki i = ki' i' -> NoDup l -> NoDup l' -> In i l -> In i' l' ->
  Permutation (map ki l) (map ki' l') -> Permutation (map ki (others i l)) (map ki' (others i' l')).
Proof.
  intros E N N' Hi Hi' H. rewrite (Permutation_map ki (others_perm i l N Hi)), (Permutation_map ki' (others_perm i' l' N' Hi')) in H.
  cbn [map] in H. rewrite E in H. now apply Permutation_cons_inv in H.
Qed.

Lemma alike_refines pdim top : refines permR S S' pdim top true alike.
Proof.
  intros l d i i' (Hi & Hi' & H). split; [repeat split; assumption|]. intros _.
  assert (Rb : forall d f t, In f (bnds S d t) -> 0 < d /\ f < s_n S (pred d) /\ t < s_n S d).
  { intros d0 f t Hin. apply bnds_in in Hin. apply (so_bnd _ HS) in Hin. tauto. }
  assert (Rb' : forall d f t, In f (bnds S' d t) -> 0 < d /\ f < s_n S' (pred d) /\ t < s_n S' d).
  { intros d0 f t Hin. apply bnds_in in Hin. apply (so_bnd _ HS') in Hin. tauto. }
  assert (Rc : forall d f t, In t (cobs S (d + 1) f) -> f < s_n S d /\ t < s_n S (d + 1)).
  { intros d0 f t Hin. apply cobs_in in Hin. apply (so_bnd _ HS) in Hin. rewrite Nat.add_1_r in *. cbn [pred] in Hin. tauto. }
  assert (Rc' : forall d f t, In t (cobs S' (d + 1) f) -> f < s_n S' d /\ t < s_n S' (d + 1)).
  { intros d0 f t Hin. apply cobs_in in Hin. apply (so_bnd _ HS') in Hin. rewrite Nat.add_1_r in *. cbn [pred] in Hin. tauto. }
  split; [|split].
  - eapply matched_perm; [apply (up_form S down HR)|apply (up_form S' down HR')|].
    eapply matched_flat; [exact (perm_matched _ _ _ _ (Hc d i i' Hi Hi' H))|]. intros c c' Hin Hin' Ec. cbv beta in Ec.
    destruct (Rc _ _ _ Hin) as [_ Hcn]. destruct (Rc' _ _ _ Hin') as [_ Hcn'].
    pose proof (Hf (d + 1) c c' Hcn Hcn' Ec) as HP. replace (pred (d + 1)) with d in HP by lia.
    apply cobs_in in Hin. apply cobs_in in Hin'. apply (bnds_in S) in Hin. apply (bnds_in S') in Hin'.
    apply (others_kinds _ _ i i' _ _ H (bnds_once S down HR _ _) (bnds_once S' down HR' _ _) Hin Hin') in HP.
    destruct (perm_matched _ _ _ _ HP) as (m & Q & F). unfold permR in Q.
    exists (map (fun j => (j, i, c)) m). split; [unfold permR; now apply Permutation_map|].
    assert (Hm : forall j, In j m -> j < s_n S d).
    { intros j Hj. apply (Permutation_in _ Q) in Hj. apply others_in in Hj as [Hj _]. apply Rb in Hj. replace (pred (d + 1)) with d in Hj by lia. tauto. }
    assert (Hm' : forall j, In j (others i' (bnds S' (d + 1) c')) -> j < s_n S' d).
    { intros j Hj. apply others_in in Hj as [Hj _]. apply Rb' in Hj. replace (pred (d + 1)) with d in Hj by lia. tauto. }
    clear - F Hm Hm' Hcn Hcn' Ec. induction F as [|j j' m l' Hj F IH]; cbn [map]; constructor.
    + split; [|intros _]; cbn [fst snd]; repeat split; auto; [apply Hm; now left|apply Hm'; now left].
    + apply IH; intros; [apply Hm|apply Hm']; now right.
  - intros _. eapply matched_perm; [apply (low_form S down HR)|apply (low_form S' down HR')|].
    destruct (bool_dec down true) as [Ed|Ed]; [rewrite Ed|apply not_true_is_false in Ed; rewrite Ed; exists []; split; constructor].
    pose proof (Hf d i i' Hi Hi' H) as HB. unfold bnds in HB. rewrite !map_map in HB.
    eapply matched_flat; [exact (perm_matched _ _ _ _ HB)|]. intros [f t] [f' t'] Hp Hp' E. cbn [fst] in *.
    apply filter_In in Hp as [Hp Et], Hp' as [Hp' Et']. apply Nat.eqb_eq in Et, Et'. cbn [snd] in Et, Et'. subst t t'.
    pose proof (so_bnd _ HS _ _ _ Hp) as (Hd & Rf & _). pose proof (so_bnd _ HS' _ _ _ Hp') as (_ & Rf' & _).
    destruct d as [|d]; [lia|]. cbn [pred] in *.
    pose proof (Hc d f f' Rf Rf' E) as HP. rewrite Nat.add_1_r in HP.
    apply (others_kinds _ _ i i' _ _ H (cobs_once S down HR _ _) (cobs_once S' down HR' _ _)) in HP; [|now apply cobs_in|now apply cobs_in].
    destruct (perm_matched _ _ _ _ HP) as (m & Q & F). unfold permR in Q.
    exists (map (fun j => (j, i, f)) m). split; [unfold permR; now apply Permutation_map|].
    assert (Hm : forall j, In j m -> j < s_n S (Datatypes.S d)).
    { intros j Hj. apply (Permutation_in _ Q) in Hj. apply others_in in Hj as [Hj _]. rewrite <- Nat.add_1_r in Hj |- *. now apply Rc in Hj as [_ Hj]. }
    assert (Hm' : forall j, In j (others i' (cobs S' (Datatypes.S d) f')) -> j < s_n S' (Datatypes.S d)).
    { intros j Hj. apply others_in in Hj as [Hj _]. rewrite <- Nat.add_1_r in Hj |- *. now apply Rc' in Hj as [_ Hj]. }
    clear - F Hm Hm' E Rf Rf'. induction F as [|j j' m l' Hj F IH]; cbn [map]; constructor.
    + split; cbn [fst snd pred]; repeat split; auto; [apply Hm; now left|apply Hm'; now left].
    + apply IH; intros; [apply Hm|apply Hm']; now right.
  - pose proof (Hf d i i' Hi Hi' H) as HB. unfold bnds in HB. rewrite !map_map in HB.
    eapply matched_with; [|exact (perm_matched _ _ _ _ HB)]. intros [f t] [f' t'] Hp Hp' E. cbn [fst] in *.
    apply filter_In in Hp as [Hp _], Hp' as [Hp' _]. apply (so_bnd _ HS) in Hp as (_ & Rf & _). apply (so_bnd _ HS') in Hp' as (_ & Rf' & _).
    repeat split; assumption.
Qed.

(** Counting incidences from both sides: as many cells of every kind one dimension up. *)
Lemma incidences (S0 : skel) (ki : nat -> T) d : skel_ok S0 -> regular down S0 ->
  Permutation (flat_map (fun f => map ki (cobs S0 (d + 1) f)) (seq 0 (s_n S0 d)))
              (flat_map (fun t => repeat (ki t) (length (bnds S0 (d + 1) t))) (seq 0 (s_n S0 (d + 1)))).
Proof.
  intros H0 R0.
  assert (P1 : Permutation (flat_map (fun f => map (fun t => (f, t)) (cobs S0 (d + 1) f)) (seq 0 (s_n S0 d))) (s_bnd S0 (d + 1))).
  { apply NoDup_Permutation; [|apply (rg_once _ _ R0)|].
    - apply NoDup_flat_map; [apply seq_NoDup| |].
      + intros f _. apply NoDup_map_on; [apply (cobs_once S0 down R0)|]. intros; congruence.
      + intros f f' e _ _ H H'. apply in_map_iff in H as (t & <- & _), H' as (t' & E & _). congruence.
    - intros [f t]. rewrite in_flat_map. split.
      + intros (f0 & _ & H). apply in_map_iff in H as (t0 & E & H). injection E as -> ->. now apply cobs_in in H.
      + intros H. exists f. split; [apply in_seq; pose proof (so_bnd _ H0 _ _ _ H) as (_ & Hlt & _); replace (pred (d + 1)) with d in Hlt by lia; lia|].
        apply in_map_iff. exists t. split; [reflexivity|now apply cobs_in]. }
  assert (P2 : Permutation (flat_map (fun t => map (fun f => (f, t)) (bnds S0 (d + 1) t)) (seq 0 (s_n S0 (d + 1)))) (s_bnd S0 (d + 1))).
  { apply NoDup_Permutation; [|apply (rg_once _ _ R0)|].
    - apply NoDup_flat_map; [apply seq_NoDup| |].
      + intros f _. apply NoDup_map_on; [apply (bnds_once S0 down R0)|]. intros; congruence.
      + intros f f' e _ _ H H'. apply in_map_iff in H as (t & <- & _), H' as (t' & E & _). congruence.
    - intros [f t]. rewrite in_flat_map. split.
      + intros (f0 & _ & H). apply in_map_iff in H as (t0 & E & H). injection E as -> ->. now apply bnds_in in H.
      + intros H. exists t. split; [apply in_seq; pose proof (so_bnd _ H0 _ _ _ H) as (_ & _ & Hlt); lia|].
        apply in_map_iff. exists f. split; [reflexivity|now apply bnds_in]. }
  pose proof (Permutation_map (fun p => ki (snd p)) (Permutation_trans P1 (Permutation_sym P2))) as P.
  rewrite !map_flat in P. eapply Permutation_trans; [|eapply Permutation_trans; [exact P|]].
  - erewrite flat_map_ext_on; [apply Permutation_refl|]. intros f _. cbv beta. now rewrite map_map.
  - erewrite flat_map_ext_on; [apply Permutation_refl|]. intros t _. cbv beta. rewrite map_map. cbn [snd]. apply map_const.
Qed.

Lemma flat_kinds {A B C} (P : A -> B -> Prop) (F : A -> list C) (F' : B -> list C) l l' : matched permR P l l' ->
  (forall a b, In a l -> In b l' -> P a b -> Permutation (F a) (F' b)) -> Permutation (flat_map F l) (flat_map F' l').
Proof.
  intros (m & Q & HF) H. unfold permR in Q. rewrite <- (Permutation_flat_map F Q).
  assert (Hm : forall a, In a m -> In a l) by (intros a; now apply Permutation_in). clear Q.
  induction HF as [|a b m l' Hab HF IH]; cbn [flat_map]; [constructor|]. apply Permutation_app.
  - apply H; [apply Hm; now left|now left|exact Hab].
  - apply IH; [intros; apply H; auto; now right|intros; apply Hm; now right].
Qed.

Lemma all_kinds : Permutation (map (kind 0) (seq 0 (s_n S 0))) (map (kind' 0) (seq 0 (s_n S' 0))) ->
  forall d, Permutation (map (kind d) (seq 0 (s_n S d))) (map (kind' d) (seq 0 (s_n S' d))).
Proof.
  intros H0. induction d as [|d IH]; [exact H0|]. rewrite <- Nat.add_1_r.
  apply (cancel_repeat _ (fun t => length (bnds S (d + 1) t)) _ (fun t => length (bnds S' (d + 1) t))).
  - intros t Ht. apply in_seq in Ht. destruct (rg_two _ _ HR (d + 1) t ltac:(lia) ltac:(lia)) as (f & _ & _ & H & _).
    apply bnds_in in H. destruct (bnds S (d + 1) t); [destruct H|cbn; lia].
  - intros t Ht. apply in_seq in Ht. destruct (rg_two _ _ HR' (d + 1) t ltac:(lia) ltac:(lia)) as (f & _ & _ & H & _).
    apply bnds_in in H. destruct (bnds S' (d + 1) t); [destruct H|cbn; lia].
  - intros t t' Ht Ht' E. apply in_seq in Ht, Ht'. pose proof (Permutation_length (Hf (d + 1) t t' ltac:(lia) ltac:(lia) E)) as L.
    now rewrite !map_length in L.
  - rewrite <- (incidences S (kind (d + 1)) d HS HR), <- (incidences S' (kind' (d + 1)) d HS' HR').
    eapply flat_kinds; [exact (perm_matched _ _ _ _ IH)|]. intros f f' Hin Hin' E. apply in_seq in Hin, Hin'. apply Hc; [lia|lia|exact E].
Qed.

Lemma predict_alike {V} (o : ops V) (Ho : ops_ok o) (a : arch V) (X X' : feats V) :
  (forall d i i', i < s_n S d -> i' < s_n S' d -> kind d i = kind' d i' -> X d i = X' d i') ->
  Permutation (map (kind 0) (seq 0 (s_n S 0))) (map (kind' 0) (seq 0 (s_n S' 0))) ->
  predict o a S X = predict o a S' X'.
Proof.
  intros HX H0. apply (predict_agree o permR R_map (R_reduce o Ho) a S S' true alike).
  - apply alike_refines.
  - apply Forall_forall. intros L _ E. discriminate.
  - intros d i i' (Hi & Hi' & E). now apply HX.
  - intros d _ _. eapply matched_with; [|exact (perm_matched _ _ _ _ (all_kinds H0 d))].
    intros i i' Hi Hi' E. apply in_seq in Hi, Hi'. repeat split; [lia|lia|exact E].
Qed.
End Two.
