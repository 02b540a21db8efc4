(** Two runs of the same layers agree on cells related level by level.  This single induction is
    behind batch independence, invariance under isomorphism and the colour-refinement bound. *)
From Coq Require Import List Arith Lia ZArith Bool Permutation.
From Verif Require Import Base ScatterModel ScatterSpec ScatterProofs ComplexModel MPSpec.
Import ListNotations.

Section Engine.
Context {V : Type} (o : ops V).
(** [R]: how lists of messages may differ ([eq], or [Permutation] for commutative reductions). *)
Variable R : forall A : Type, list A -> list A -> Prop.
Hypothesis R_map : forall (A B : Type) (f : A -> B) l l', R A l l' -> R B (map f l) (map f l').
Hypothesis R_reduce : forall r l l', R V l l' -> reduce_rows o r l = reduce_rows o r l'.

Definition matched {A B} (P : A -> B -> Prop) (l : list A) (l' : list B) : Prop :=
  exists m, R A l m /\ Forall2 P m l'.

Lemma Forall2_map_eq {A B C} (f : A -> C) (g : B -> C) l l' :
  Forall2 (fun a b => f a = g b) l l' -> map f l = map g l'.
Proof. induction 1; simpl; congruence. Qed.

Lemma Forall2_impl' {A B} (P Q : A -> B -> Prop) l l' :
  (forall a b, P a b -> Q a b) -> Forall2 P l l' -> Forall2 Q l l'.
Proof. intros H; induction 1; constructor; auto. Qed.

Lemma matched_reduce {A B} (P : A -> B -> Prop) (f : A -> V) (g : B -> V) r l l' :
  matched P l l' -> (forall a b, P a b -> f a = g b) ->
  reduce_rows o r (map f l) = reduce_rows o r (map g l').
Proof.
  intros (m & HR & HF) H. rewrite (R_reduce r _ _ (R_map _ _ f _ _ HR)). f_equal.
  apply Forall2_map_eq. eapply Forall2_impl'; eauto.
Qed.

(** [rho l d i i']: cell [i] of dimension [d] of [S] and cell [i'] of [S'] are related at level [l]. *)
Variables (S S' : skel) (pdim : nat) (top low : bool).
Variable rho : nat -> nat -> nat -> nat -> Prop.

Definition rho_up (l d : nat) (e e' : (nat * nat) * nat) : Prop :=
  rho l d (fst (fst e)) (fst (fst e')) /\
  (cob_visible pdim top d = true -> rho l (d + 1) (snd e) (snd e')).
Definition rho_low (l d : nat) (e e' : (nat * nat) * nat) : Prop :=
  rho l d (fst (fst e)) (fst (fst e')) /\ rho l (pred d) (snd e) (snd e').
Definition rho_bnd (l d : nat) (p p' : nat * nat) : Prop := rho l (pred d) (fst p) (fst p').

Definition refines : Prop :=
  forall l d i i', rho (l + 1) d i i' ->
    rho l d i i' /\
    (d <= pdim ->
       matched (rho_up l d) (up_at S d i) (up_at S' d i') /\
       (low = true -> matched (rho_low l d) (low_at S d i) (low_at S' d i')) /\
       matched (rho_bnd l d) (bnd_at S d i) (bnd_at S' d i')).

Hypothesis Href : refines.

Definition agree (l : nat) (X X' : feats V) : Prop :=
  forall d i i', rho l d i i' -> X d i = X' d i'.

(** Layers without lower messages, unless [low]. *)
Definition low_ok (L : layer V) : Prop := low = false -> forall d, r_low (l_rule L d) = None.

Lemma step_agree l L X X' : low_ok L ->
  agree l X X' -> agree (l + 1) (step o pdim top S L X) (step o pdim top S' L X').
Proof.
  intros HL HX d i i' Hr. destruct (Href _ _ _ _ Hr) as [H0 Hm]. unfold step.
  destruct (Nat.leb_spec d pdim) as [Hd|Hd].
  - specialize (Hm Hd) as (Hu & Hl & Hb). unfold new_feature. f_equal.
    + apply HX; auto.
    + unfold agg_up. eapply matched_reduce; [exact Hu|]. intros e e' [E1 E2].
      rewrite (HX _ _ _ E1). destruct (cob_visible pdim top d); auto.
      rewrite (HX _ _ _ (E2 eq_refl)). auto.
    + unfold agg_low. destruct (r_low (l_rule L d)) as [f|] eqn:El; auto.
      destruct low eqn:Elow.
      * eapply matched_reduce; [exact (Hl eq_refl)|]. intros e e' [E1 E2].
        rewrite (HX _ _ _ E1), (HX _ _ _ E2); auto.
      * rewrite (HL Elow) in El. discriminate.
    + unfold agg_bnd. destruct (r_bnd (l_rule L d)) as [f|]; auto.
      eapply matched_reduce; [exact Hb|]. intros p p' E. rewrite (HX _ _ _ E). auto.
  - rewrite (HX _ _ _ H0). auto.
Qed.

Lemma rho_le l l' d i i' : l <= l' -> rho l' d i i' -> rho l d i i'.
Proof.
  intros Hle. induction Hle as [|l' Hle IH]; auto.
  intros H. apply IH. rewrite <- Nat.add_1_r in H. apply Href in H. tauto.
Qed.

Lemma history_agree Ls l X X' : Forall low_ok Ls -> agree l X X' ->
  Forall2 (fun Y Y' => agree (l + length Ls) Y Y')
    (history o pdim top S Ls X) (history o pdim top S' Ls X').
Proof.
  intros HF. revert l X X'. induction HF as [|L Ls HL HF IH]; intros l X X' HX; cbn [history length].
  - constructor.
  - pose proof (step_agree l L X X' HL HX) as H1. constructor.
    + intros d i i' Hr. apply H1. apply rho_le with (l' := l + Datatypes.S (length Ls)); auto. lia.
    + replace (l + Datatypes.S (length Ls)) with (l + 1 + length Ls) by lia. apply IH; auto.
Qed.

Lemma last_Forall2 {A B} (P : A -> B -> Prop) l l' x x' :
  Forall2 P l l' -> P x x' -> P (last l x) (last l' x').
Proof.
  intros HF HP. induction HF as [|a b l l' Hab HF IH]; auto.
  destruct HF; auto.
Qed.

Lemma final_agree jump Ls X X' : Forall low_ok Ls -> agree 0 X X' ->
  agree (length Ls) (final_feats jump (history o pdim top S Ls X) X)
                    (final_feats jump (history o pdim top S' Ls X') X').
Proof.
  intros HF HX. pose proof (history_agree Ls 0 X X' HF HX) as H. simpl in H.
  unfold final_feats. destruct jump as [j|].
  - intros d i i' Hr. f_equal. apply Forall2_map_eq. eapply Forall2_impl'; [|exact H].
    intros Y Y' HY. apply HY; auto.
  - apply (last_Forall2 (fun Y Y' => agree (length Ls) Y Y')); auto.
    intros d i i' Hr. apply HX. apply rho_le with (l' := length Ls); auto. lia.
Qed.

End Engine.

(** Equal predictions when the cells of every dimension can be matched. *)
Lemma predict_agree {V} (o : ops V) (R : forall A : Type, list A -> list A -> Prop)
    (R_map : forall (A B : Type) (f : A -> B) l l', R A l l' -> R B (map f l) (map f l'))
    (R_reduce : forall r l l', R V l l' -> reduce_rows o r l = reduce_rows o r l')
    (a : arch V) (S S' : skel) (low : bool) (rho : nat -> nat -> nat -> nat -> Prop) X X' :
  refines R S S' (a_pdim a) (a_top a) low rho ->
  Forall (low_ok low) (a_layers a) ->
  agree rho 0 X X' ->
  (forall d, d <= a_pdim a -> In d (a_dims a) ->
     matched R (rho (length (a_layers a)) d) (seq 0 (s_n S d)) (seq 0 (s_n S' d))) ->
  predict o a S X = predict o a S' X'.
Proof.
  intros Href HL HX Hm. unfold predict, combine_dims.
  assert (E : forall d, In d (a_dims a) ->
    (if d <=? a_pdim a then reduce_rows o (a_pool a)
       (map (final_feats (a_jump a) (history o (a_pdim a) (a_top a) S (a_layers a) X) X d) (seq 0 (s_n S d))) else vzero o) =
    (if d <=? a_pdim a then reduce_rows o (a_pool a)
       (map (final_feats (a_jump a) (history o (a_pdim a) (a_top a) S' (a_layers a) X') X' d) (seq 0 (s_n S' d))) else vzero o)).
  { intros d Hd. destruct (Nat.leb_spec d (a_pdim a)); auto.
    eapply (matched_reduce o R R_map R_reduce); [exact (Hm d H Hd)|].
    intros i i' Hr.
    apply (final_agree o R R_map R_reduce S S' (a_pdim a) (a_top a) low rho Href (a_jump a) (a_layers a) X X' HL HX).
    auto. }
  rewrite (map_ext_in _ _ (a_dims a) (fun d Hd => f_equal (a_lin1 a d) (E d Hd))). reflexivity.
Qed.
