(** Colours of a complex determine those of a part of it. *)
From Coq Require Import List Arith Lia ZArith Bool Permutation.
From Verif Require Import Base ScatterModel ScatterSpec ScatterProofs ComplexModel BatchSpec BatchSpec2
  BatchProofs BatchProofs2 DummyModel MPModel MPSpec MPProofs MPEngine MPBatch MPForward MPNets MPIso LiftBase PowerSpec PowerProofs.
From Verif Require Import RedundantSpec RedundantProofs.
From Verif Require Import BlindSpec.
From Verif Require Import PartSpec.
Import ListNotations.

Record part {W} (keep : nat -> nat -> bool) (S0 S : skel) (e : nat -> nat -> nat) (X0 X : feats W) : Prop := {
  pt_in : forall d i, i < s_n S0 d -> e d i < s_n S d;
  pt_keep : forall d i, i < s_n S0 d -> keep d (length (bnds S d (e d i))) = true;
  pt_inj : forall d i j, i < s_n S0 d -> j < s_n S0 d -> e d i = e d j -> i = j;
  pt_all : forall d t, t < s_n S d -> keep d (length (bnds S d t)) = true -> exists i, i < s_n S0 d /\ e d i = t;
  pt_bnd : forall d i g, i < s_n S0 d -> (In (g, e d i) (s_bnd S d) <-> exists f, e (pred d) f = g /\ In (f, i) (s_bnd S0 d));
  pt_row : forall d i, i < s_n S0 d -> X0 d i = X d (e d i)
}.

Section One.
Context {W : Type} (keep : nat -> nat -> bool) (S0 S : skel) (down0 down : bool) (e : nat -> nat -> nat) (X0 X : feats W).
Hypothesis HS0 : skel_ok S0.
Hypothesis HS : skel_ok S.
Hypothesis R0 : regular down0 S0.
Hypothesis R : regular down S.
Hypothesis P : part keep S0 S e X0 X.

Lemma part_bnd d i : i < s_n S0 d -> Permutation (map (e (pred d)) (bnds S0 d i)) (bnds S d (e d i)).
Proof.
  intros Hi. apply NoDup_Permutation.
  - apply NoDup_map_on; [eapply bnds_once; exact R0|]. intros a b Ha Hb E. apply bnds_in in Ha, Hb. apply (so_bnd _ HS0) in Ha as (_ & Ha & _), Hb as (_ & Hb & _).
    exact (pt_inj _ _ _ _ _ _ P _ _ _ Ha Hb E).
  - eapply bnds_once; exact R.
  - intros g. rewrite bnds_in, (pt_bnd _ _ _ _ _ _ P d i g Hi), in_map_iff. split; intros (f & E & H); exists f; (split; [exact E|]); now apply bnds_in.
Qed.
Definition kept (d : nat) (u : (nat * nat) * nat) : bool := keep (d + 1) (length (bnds S (d + 1) (snd u))).
Definition moved (d : nat) (u : (nat * nat) * nat) : (nat * nat) * nat := ((e d (fst (fst u)), e d (snd (fst u))), e (d + 1) (snd u)).
Lemma part_up d i : i < s_n S0 d -> Permutation (map (moved d) (up_at S0 d i)) (filter (kept d) (up_at S d (e d i))).
Proof.
  intros Hi.
  assert (B0 : forall f t, In (f, t) (s_bnd S0 (d + 1)) -> f < s_n S0 d /\ t < s_n S0 (d + 1)).
  { intros f t H. apply (so_bnd _ HS0) in H as (_ & H1 & H2). replace (pred (d + 1)) with d in H1 by lia. auto. }
  assert (HB : forall f t g, In (f, t) (s_bnd S0 (d + 1)) -> e d f = g -> In (g, e (d + 1) t) (s_bnd S (d + 1))).
  { intros f t g H E. destruct (B0 _ _ H) as [_ Ht]. apply (pt_bnd _ _ _ _ _ _ P (d + 1) t g Ht). exists f. replace (pred (d + 1)) with d by lia. auto. }
  apply NoDup_Permutation.
  - apply NoDup_map_on; [apply NoDup_filter, (rg_up_once _ _ R0)|]. intros [[a b] t] [[a' b'] t'] H H' E.
    apply filter_In in H as [H _], H' as [H' _]. apply (rg_up _ _ R0) in H as (_ & H1 & H2), H' as (_ & H1' & H2'). apply B0 in H1 as [H1 H3], H2 as [H2 _], H1' as [H1' H3'], H2' as [H2' _].
    unfold moved in E. cbn [fst snd] in E. injection E as Ea Eb Et. apply (pt_inj _ _ _ _ _ _ P) in Ea, Eb, Et; auto. congruence.
  - apply NoDup_filter, NoDup_filter, (rg_up_once _ _ R).
  - intros [[a b] t]. unfold up_at. rewrite in_map_iff, !filter_In, (rg_up _ _ R). cbn [fst snd]. rewrite Nat.eqb_eq. split.
    + intros ([[a0 b0] t0] & E & H). apply filter_In in H as [H Eb]. apply Nat.eqb_eq in Eb. cbn [fst snd] in Eb. subst b0. apply (rg_up _ _ R0) in H as (N & H1 & H2).
      unfold moved in E. cbn [fst snd] in E. injection E as <- <- <-. destruct (B0 _ _ H1) as [L1 L2]. split; [split; [|reflexivity]|].
      * split; [intros E; apply N; exact (pt_inj _ _ _ _ _ _ P _ _ _ L1 Hi E)|]. split; [exact (HB _ _ _ H1 eq_refl)|exact (HB _ _ _ H2 eq_refl)].
      * unfold kept. cbn [snd]. exact (pt_keep _ _ _ _ _ _ P _ _ L2).
    + intros [[(N & H1 & H2) ->] K]. unfold kept in K. cbn [snd] in K. pose proof (so_bnd _ HS _ _ _ H1) as (_ & _ & Ht).
      destruct (pt_all _ _ _ _ _ _ P _ _ Ht K) as (t0 & L0 & <-).
      apply (pt_bnd _ _ _ _ _ _ P (d + 1) t0 _ L0) in H1 as (a0 & Ea & H1). apply (pt_bnd _ _ _ _ _ _ P (d + 1) t0 _ L0) in H2 as (b0 & Eb & H2).
      replace (pred (d + 1)) with d in * by lia. destruct (B0 _ _ H2) as [Lb _]. apply (pt_inj _ _ _ _ _ _ P _ _ _ Lb Hi) in Eb. subst b0.
      exists ((a0, i), t0). split; [unfold moved; cbn [fst snd]; congruence|]. apply filter_In. cbn [fst snd]. rewrite Nat.eqb_refl. split; [|reflexivity].
      apply (rg_up _ _ R0). split; [|auto]. intros ->. congruence.
Qed.
Lemma part_all d : Permutation (map (e d) (seq 0 (s_n S0 d))) (filter (fun t => keep d (length (bnds S d t))) (seq 0 (s_n S d))).
Proof.
  apply NoDup_Permutation.
  - apply NoDup_map_on; [apply seq_NoDup|]. intros a b Ha Hb. apply in_seq in Ha, Hb. apply (pt_inj _ _ _ _ _ _ P); lia.
  - apply NoDup_filter, seq_NoDup.
  - intros t. rewrite in_map_iff, filter_In, in_seq. split.
    + intros (i & <- & Hi). apply in_seq in Hi. split; [pose proof (pt_in _ _ _ _ _ _ P d i ltac:(lia)); lia|]. apply (pt_keep _ _ _ _ _ _ P). lia.
    + intros [Ht K]. destruct (pt_all _ _ _ _ _ _ P d t ltac:(lia) K) as (i & Hi & <-). exists i. split; [reflexivity|]. apply in_seq. lia.
Qed.
End One.

Lemma perm_filtered {A B C} (f : A -> C) (f' : B -> C) (p : A -> bool) (p' : B -> bool) l l' :
  Permutation (map f l) (map f' l') -> (forall a b, In a l -> In b l' -> f a = f' b -> p a = p' b) -> Permutation (map f (filter p l)) (map f' (filter p' l')).
Proof.
  revert l'. induction l as [|a l IH]; intros l' H HP.
  - cbn in H. apply Permutation_nil, map_eq_nil in H. subst l'. constructor.
  - assert (Hin : In (f a) (map f' l')) by (apply (Permutation_in _ H); now left). apply in_map_iff in Hin as (b & Eb & Hb). apply in_split in Hb as (l1 & l2 & ->).
    assert (E : p a = p' b) by (apply HP; [now left|apply in_or_app; right; now left|now symmetry]).
    assert (H' : Permutation (map f l) (map f' (l1 ++ l2))).
    { rewrite map_app in H |- *. cbn [map] in H. rewrite Eb in H. exact (Permutation_cons_app_inv _ _ H). }
    assert (IH' : Permutation (map f (filter p l)) (map f' (filter p' (l1 ++ l2)))).
    { apply IH; [exact H'|]. intros x y Hx Hy. apply HP; [now right|]. apply in_app_or in Hy. apply in_or_app. destruct Hy; [now left|right; now right]. }
    rewrite filter_app in IH' |- *. cbn [filter]. rewrite E. destruct (p' b); [|exact IH']. rewrite map_app in IH' |- *. cbn [map]. rewrite <- Eb. now apply Permutation_cons_app.
Qed.

Lemma colour_next {W C} (col0 : nat -> W -> C) hash S X l d i : colour col0 hash S X (Datatypes.S l) d i =
  hash (colour col0 hash S X l d i) (map (fun u => (colour col0 hash S X l d (fst (fst u)), colour col0 hash S X l (d + 1) (snd u))) (up_at S d i))
    (map (fun p => colour col0 hash S X l (pred d) (fst p)) (bnd_at S d i)).
Proof. reflexivity. Qed.

Section Two.
Context {W C : Type} (col0 : nat -> W -> C) (hash : C -> list (C * C) -> list C -> C).
Hypothesis hash_faithful : forall c u b c' u' b', hash c u b = hash c' u' b' -> c = c' /\ Permutation u u' /\ Permutation b b'.
Hypothesis hash_perm : forall c u b u' b', Permutation u u' -> Permutation b b' -> hash c u b = hash c u' b'.
Variables (keep : nat -> nat -> bool) (S0 S S0' S' : skel) (down0 down down0' down' : bool) (e e' : nat -> nat -> nat) (X0 X X0' X' : feats W).
Hypothesis HS0 : skel_ok S0.
Hypothesis HS : skel_ok S.
Hypothesis R0 : regular down0 S0.
Hypothesis R : regular down S.
Hypothesis P : part keep S0 S e X0 X.
Hypothesis HS0' : skel_ok S0'.
Hypothesis HS' : skel_ok S'.
Hypothesis R0' : regular down0' S0'.
Hypothesis R' : regular down' S'.
Hypothesis P' : part keep S0' S' e' X0' X'.
Notation col := (colour col0 hash S X).
Notation col' := (colour col0 hash S' X').

Lemma kept_same l d t t' : col (1 + l) d t = col' (1 + l) d t' -> keep d (length (bnds S d t)) = keep d (length (bnds S' d t')).
Proof.
  intros H. cbn [Nat.add colour] in H. apply hash_faithful in H as (_ & _ & H). apply Permutation_length in H. rewrite !map_length in H. unfold bnds. rewrite !map_length. congruence.
Qed.
Lemma part_colour l : forall d i i', i < s_n S0 d -> i' < s_n S0' d -> col (1 + l) d (e d i) = col' (1 + l) d (e' d i') ->
  colour col0 hash S0 X0 l d i = colour col0 hash S0' X0' l d i'.
Proof.
  induction l as [|l IH]; intros d i i' Hi Hi' H.
  - cbn [Nat.add colour] in H |- *. apply hash_faithful in H as (H & _). rewrite (pt_row _ _ _ _ _ _ P d i Hi), (pt_row _ _ _ _ _ _ P' d i' Hi'). exact H.
  - change (1 + Datatypes.S l) with (Datatypes.S (Datatypes.S l)) in H. change (1 + l) with (Datatypes.S l) in IH. rewrite (colour_next col0 hash S), (colour_next col0 hash S') in H.
    apply hash_faithful in H as (H1 & H2 & H3). rewrite !colour_next, (IH d i i' Hi Hi' H1). apply hash_perm.
    + assert (HF : Permutation (map (fun u => (col (Datatypes.S l) d (fst (fst u)), col (Datatypes.S l) (d + 1) (snd u))) (filter (kept keep S d) (up_at S d (e d i))))
         (map (fun u => (col' (Datatypes.S l) d (fst (fst u)), col' (Datatypes.S l) (d + 1) (snd u))) (filter (kept keep S' d) (up_at S' d (e' d i'))))).
      { apply perm_filtered; [exact H2|]. intros a b _ _ E. injection E as _ E. unfold kept. apply (kept_same l). exact E. }
      rewrite <- (Permutation_map _ (part_up keep S0 S down0 down e X0 X HS0 HS R0 R P d i Hi)), <- (Permutation_map _ (part_up keep S0' S' down0' down' e' X0' X' HS0' HS' R0' R' P' d i' Hi')) in HF.
      rewrite !map_map in HF. revert HF. apply perm_transfer. intros [[a b] t] [[a' b'] t'] Ha Ha' E. unfold moved in E. cbn [fst snd] in *. injection E as E1 E2.
      apply filter_In in Ha as [Ha _], Ha' as [Ha' _]. apply (so_up _ HS0) in Ha as (_ & La & _ & Lt). apply (so_up _ HS0') in Ha' as (_ & La' & _ & Lt').
      f_equal; apply IH; assumption.
    + rewrite <- (map_map fst (col (Datatypes.S l) (pred d))), <- (map_map fst (col' (Datatypes.S l) (pred d))) in H3.
      change (map fst (bnd_at S d (e d i))) with (bnds S d (e d i)) in H3. change (map fst (bnd_at S' d (e' d i'))) with (bnds S' d (e' d i')) in H3.
      rewrite <- (Permutation_map _ (part_bnd keep S0 S down0 down e X0 X HS0 R0 R P d i Hi)), <- (Permutation_map _ (part_bnd keep S0' S' down0' down' e' X0' X' HS0' R0' R' P' d i' Hi')) in H3.
      rewrite <- (map_map fst (colour col0 hash S0 X0 l (pred d))), <- (map_map fst (colour col0 hash S0' X0' l (pred d))).
      change (map fst (bnd_at S0 d i)) with (bnds S0 d i). change (map fst (bnd_at S0' d i')) with (bnds S0' d i').
      rewrite !map_map in H3. revert H3. apply perm_transfer. intros a a' Ha Ha' E. apply bnds_in in Ha, Ha'. apply (so_bnd _ HS0) in Ha as (_ & Ha & _). apply (so_bnd _ HS0') in Ha' as (_ & Ha' & _).
      apply IH; assumption.
Qed.
Lemma part_colours l d : Permutation (map (col (1 + l) d) (seq 0 (s_n S d))) (map (col' (1 + l) d) (seq 0 (s_n S' d))) ->
  Permutation (map (colour col0 hash S0 X0 l d) (seq 0 (s_n S0 d))) (map (colour col0 hash S0' X0' l d) (seq 0 (s_n S0' d))).
Proof.
  intros H. assert (HF := perm_filtered _ _ (fun t => keep d (length (bnds S d t))) (fun t => keep d (length (bnds S' d t))) _ _ H (fun a b _ _ E => kept_same l d a b E)).
  rewrite <- (Permutation_map _ (part_all keep S0 S e X0 X P d)), <- (Permutation_map _ (part_all keep S0' S' e' X0' X' P' d)), !map_map in HF.
  revert HF. apply perm_transfer. intros a b Ha Hb E. apply in_seq in Ha, Hb. apply part_colour; auto; lia.
Qed.
End Two.
