(** Isomorphic complexes and colour refinement: C26, C27, C47. *)
From Coq Require Import List Arith Lia ZArith Bool Permutation.
From Verif Require Import Base ScatterModel ScatterSpec ScatterProofs ComplexModel BatchSpec BatchSpec2
  BatchProofs BatchProofs2 DummyModel MPModel MPSpec MPProofs MPEngine MPBatch MPForward MPNets BatchProps MPProps.
Import ListNotations.

(** ** Isomorphism of complexes *)
Section IsoSpec.
Context {V : Type}.
Notation complex := (complex V).

(** Adjacencies with their shared cell, and boundary pairs, of a complex. *)
Definition upper_of (k : complex) (d : nat) : list ((nat * nat) * nat) :=
  combine (content (attr c_upper d k)) (content (attr c_shc d k)).
Definition lower_of (k : complex) (d : nat) : list ((nat * nat) * nat) :=
  combine (content (attr c_lower d k)) (content (attr c_shb d k)).
Definition boundary_of (k : complex) (d : nat) : list (nat * nat) := content (attr c_bidx d k).

(** [pi d] renames the [d]-cells of [k] (there are [sz d] of them) into those of [k']. *)
Record complex_iso (pi : nat -> nat -> nat) (sz : nat -> nat) (k k' : complex) : Prop := {
  iso_dim : k_dim k' = k_dim k;
  iso_range : forall d i, i < sz d -> pi d i < sz d;
  iso_inj : forall d i j, i < sz d -> j < sz d -> pi d i = pi d j -> i = j;
  iso_x : forall d i, i < sz d ->
    nth_error (content (attr c_x d k')) (pi d i) = nth_error (content (attr c_x d k)) i;
  iso_up : forall d, Permutation (upper_of k' d)
    (map (fun e => ((pi d (fst (fst e)), pi d (snd (fst e))), pi (d + 1) (snd e))) (upper_of k d));
  iso_low : forall d, Permutation (lower_of k' d)
    (map (fun e => ((pi d (fst (fst e)), pi d (snd (fst e))), pi (pred d) (snd e))) (lower_of k d));
  iso_bnd : forall d, Permutation (boundary_of k' d)
    (map (fun p => (pi (pred d) (fst p), pi d (snd p))) (boundary_of k d))
}.

Definition isomorphic (sz : nat -> nat) (k k' : complex) : Prop := exists pi, complex_iso pi sz k k'.

End IsoSpec.

Lemma bij_perm (f : nat -> nat) n :
  (forall i, i < n -> f i < n) -> (forall i j, i < n -> j < n -> f i = f j -> i = j) ->
  Permutation (map f (seq 0 n)) (seq 0 n).
Proof.
  intros Hr Hi. apply NoDup_Permutation_bis.
  - clear Hr. assert (G : forall l, NoDup l -> (forall i, In i l -> i < n) -> NoDup (map f l)).
    { induction l as [|a l IH]; intros Hn Hl; simpl; constructor; inversion Hn; subst.
      - intros H. apply in_map_iff in H as (b & E & Hb). apply Hi in E; subst; auto.
        + apply Hl; right; auto.
        + apply Hl; left; auto.
      - apply IH; auto. intros; apply Hl; right; auto. }
    apply G; [apply seq_NoDup|]. intros i H. apply in_seq in H. lia.
  - rewrite map_length. auto.
  - intros x Hx. apply in_map_iff in Hx as (i & <- & H). apply in_seq in H. apply in_seq.
    specialize (Hr i). lia.
Qed.

Lemma perm_filter {A} (f : A -> bool) l l' : Permutation l l' -> Permutation (filter f l) (filter f l').
Proof.
  induction 1; simpl; auto.
  - destruct (f x); auto.
  - destruct (f x), (f y); auto. apply perm_swap.
  - eapply Permutation_trans; eauto.
Qed.

Lemma filter_map_inj {A B} (f : A -> B) (P : B -> bool) (Q : A -> bool) l :
  (forall a, In a l -> P (f a) = Q a) -> filter P (map f l) = map f (filter Q l).
Proof.
  induction l as [|a l IH]; intros H; simpl; auto. rewrite (H a) by (left; auto).
  rewrite IH by (intros; apply H; right; auto). destruct (Q a); auto.
Qed.

Definition permR (A : Type) (l l' : list A) : Prop := Permutation l' l.

Section Iso.
Context {V : Type} (o : ops V) (Ho : ops_ok o).
Notation complex := (complex V).
Notation R := permR.

Lemma R_map (A B : Type) (f : A -> B) l l' : R A l l' -> R B (map f l) (map f l').
Proof. apply Permutation_map. Qed.
Lemma R_reduce r l l' : R V l l' -> reduce_rows o r l = reduce_rows o r l'.
Proof. intros H. apply reduce_rows_perm; auto. apply Permutation_sym; auto. Qed.

Section Pair.
Variables (pi : nat -> nat -> nat) (sz : nat -> nat) (k k' : complex) (D : nat).
Hypothesis HI : complex_iso pi sz k k'.
Hypothesis W : wf_complex k sz.
Hypothesis W' : wf_complex k' sz.
Let Sk := skel_of D k sz.
Let Sk' := skel_of D k' sz.

Definition rel (l d i i' : nat) : Prop := i < s_n Sk d /\ i' = pi d i.

Lemma s_n_eq d : s_n Sk' d = s_n Sk d.
Proof. simpl. rewrite (iso_dim _ _ _ _ HI). auto. Qed.

Lemma s_n_le d : s_n Sk d <= sz d.
Proof. simpl. destruct (d <=? _); lia. Qed.

Lemma s_n_range d i : i < s_n Sk d -> pi d i < s_n Sk d.
Proof.
  simpl. destruct (d <=? _); [|lia]. apply HI.
Qed.

Lemma rel_matched_up (pdim : nat) (top : bool) l d i : i < s_n Sk d ->
  matched R (rho_up pdim top rel l d) (up_at Sk d i) (up_at Sk' d (pi d i)).
Proof.
  intros Hi. pose proof (skel_of_ok D k sz W) as HS. fold Sk in HS.
  set (f := fun e : (nat * nat) * nat => ((pi d (fst (fst e)), pi d (snd (fst e))), pi (d + 1) (snd e))).
  assert (HP : Permutation (s_up Sk' d) (map f (s_up Sk d))).
  { simpl. rewrite (iso_dim _ _ _ _ HI). destruct (d <? _); [|constructor]. apply HI. }
  assert (HE : filter (fun e => snd (fst e) =? pi d i) (map f (s_up Sk d)) = map f (up_at Sk d i)).
  { apply filter_map_inj. intros [[a b] c] He. apply (so_up _ HS) in He as (_ & _ & Hb & _). simpl.
    pose proof (s_n_le d). destruct (Nat.eqb_spec (pi d b) (pi d i)) as [E|E], (Nat.eqb_spec b i); subst; auto; try congruence.
    apply (iso_inj _ _ _ _ HI) in E; [congruence|lia|lia]. }
  pose proof (perm_filter (fun e => snd (fst e) =? pi d i) _ _ HP) as HP2. rewrite HE in HP2.
  fold (up_at Sk' d (pi d i)) in HP2.
  destruct (Permutation_map_inv _ _ HP2) as (m & Em & HPm).
  exists m. split; [apply Permutation_sym; auto|]. rewrite Em.
  assert (Hin : forall e, In e m -> In e (s_up Sk d)).
  { intros e He. apply (Permutation_in _ (Permutation_sym HPm)) in He. apply filter_In in He; tauto. }
  clear -Hin HS. induction m as [|e m IH]; simpl; constructor.
  - destruct e as [[a b] c]. destruct (so_up _ HS _ _ _ _ (Hin _ (or_introl eq_refl))) as (_ & Ha & _ & Hc).
    split; simpl; intros; split; auto.
  - apply IH. intros; apply Hin; right; auto.
Qed.

Lemma rel_matched_low l d i : i < s_n Sk d ->
  matched R (rho_low rel l d) (low_at Sk d i) (low_at Sk' d (pi d i)).
Proof.
  intros Hi. pose proof (skel_of_ok D k sz W) as HS. fold Sk in HS.
  set (f := fun e : (nat * nat) * nat => ((pi d (fst (fst e)), pi d (snd (fst e))), pi (pred d) (snd e))).
  assert (HP : Permutation (s_low Sk' d) (map f (s_low Sk d))).
  { simpl. rewrite (iso_dim _ _ _ _ HI). destruct (d <=? _); [|constructor]. apply HI. }
  assert (HE : filter (fun e => snd (fst e) =? pi d i) (map f (s_low Sk d)) = map f (low_at Sk d i)).
  { apply filter_map_inj. intros [[a b] c] He. apply (so_low _ HS) in He as (_ & _ & Hb & _). simpl.
    pose proof (s_n_le d). destruct (Nat.eqb_spec (pi d b) (pi d i)) as [E|E], (Nat.eqb_spec b i); subst; auto; try congruence.
    apply (iso_inj _ _ _ _ HI) in E; [congruence|lia|lia]. }
  pose proof (perm_filter (fun e => snd (fst e) =? pi d i) _ _ HP) as HP2. rewrite HE in HP2.
  fold (low_at Sk' d (pi d i)) in HP2.
  destruct (Permutation_map_inv _ _ HP2) as (m & Em & HPm).
  exists m. split; [apply Permutation_sym; auto|]. rewrite Em.
  assert (Hin : forall e, In e m -> In e (s_low Sk d)).
  { intros e He. apply (Permutation_in _ (Permutation_sym HPm)) in He. apply filter_In in He; tauto. }
  clear -Hin HS. induction m as [|e m IH]; simpl; constructor.
  - destruct e as [[a b] c]. destruct (so_low _ HS _ _ _ _ (Hin _ (or_introl eq_refl))) as (_ & Ha & _ & Hc).
    split; simpl; intros; split; auto.
  - apply IH. intros; apply Hin; right; auto.
Qed.

Lemma rel_matched_bnd l d i : i < s_n Sk d ->
  matched R (rho_bnd rel l d) (bnd_at Sk d i) (bnd_at Sk' d (pi d i)).
Proof.
  intros Hi. pose proof (skel_of_ok D k sz W) as HS. fold Sk in HS.
  set (f := fun e : nat * nat => (pi (pred d) (fst e), pi d (snd e))).
  assert (HP : Permutation (s_bnd Sk' d) (map f (s_bnd Sk d))).
  { simpl. rewrite (iso_dim _ _ _ _ HI). destruct (d <=? _); [|constructor]. apply HI. }
  assert (HE : filter (fun e => snd e =? pi d i) (map f (s_bnd Sk d)) = map f (bnd_at Sk d i)).
  { apply filter_map_inj. intros [a b] He. apply (so_bnd _ HS) in He as (_ & _ & Hb). simpl.
    pose proof (s_n_le d). destruct (Nat.eqb_spec (pi d b) (pi d i)) as [E|E], (Nat.eqb_spec b i); subst; auto; try congruence.
    apply (iso_inj _ _ _ _ HI) in E; [congruence|lia|lia]. }
  pose proof (perm_filter (fun e => snd e =? pi d i) _ _ HP) as HP2. rewrite HE in HP2.
  fold (bnd_at Sk' d (pi d i)) in HP2.
  destruct (Permutation_map_inv _ _ HP2) as (m & Em & HPm).
  exists m. split; [apply Permutation_sym; auto|]. rewrite Em.
  assert (Hin : forall e, In e m -> In e (s_bnd Sk d)).
  { intros e He. apply (Permutation_in _ (Permutation_sym HPm)) in He. apply filter_In in He; tauto. }
  clear -Hin HS. induction m as [|e m IH]; simpl; constructor.
  - destruct e as [a b]. destruct (so_bnd _ HS _ _ _ (Hin _ (or_introl eq_refl))) as (_ & Ha & Hc).
    split; simpl; intros; auto.
  - apply IH. intros; apply Hin; right; auto.
Qed.

Lemma rel_refines pdim top : refines R Sk Sk' pdim top true rel.
Proof.
  intros l d i i' [Hi ->]. split; [split; auto|]. intros _. split; [|split].
  - apply rel_matched_up; auto.
  - intros _. apply rel_matched_low; auto.
  - apply rel_matched_bnd; auto.
Qed.

Lemma rel_agree l : agree rel l (feats_of o k) (feats_of o k').
Proof.
  intros d i i' [Hi ->]. unfold feats_of. pose proof (s_n_le d).
  pose proof (iso_x _ _ _ _ HI d i ltac:(lia)) as E.
  destruct (nth_error (content (attr c_x d k)) i) as [v|] eqn:Ev.
  - rewrite (nth_error_nth _ _ _ Ev), (nth_error_nth _ _ _ E). auto.
  - apply nth_error_None in Ev, E. rewrite !nth_overflow; auto.
Qed.

Lemma rel_cells l d : matched R (rel l d) (seq 0 (s_n Sk d)) (seq 0 (s_n Sk' d)).
Proof.
  assert (HP : Permutation (seq 0 (s_n Sk' d)) (map (pi d) (seq 0 (s_n Sk d)))).
  { rewrite s_n_eq. apply Permutation_sym, bij_perm.
    - apply s_n_range.
    - intros i j Hi Hj. pose proof (s_n_le d). apply (iso_inj _ _ _ _ HI); lia. }
  destruct (Permutation_map_inv _ _ HP) as (m & Em & HPm).
  exists m. split; [apply Permutation_sym; auto|]. rewrite Em.
  assert (Hin : forall e, In e m -> e < s_n Sk d).
  { intros e He. apply (Permutation_in _ (Permutation_sym HPm)) in He. apply in_seq in He; lia. }
  clear -Hin. induction m as [|e m IH]; simpl; constructor.
  - split; auto. apply Hin; left; auto.
  - apply IH. intros; apply Hin; right; auto.
Qed.

Lemma predict_iso (a : arch V) :
  predict o a Sk (feats_of o k) = predict o a Sk' (feats_of o k').
Proof.
  apply (predict_agree o R R_map R_reduce a Sk Sk' true rel).
  - apply rel_refines.
  - apply Forall_forall. intros L _ E. discriminate.
  - apply rel_agree.
  - intros d _ _. apply rel_cells.
Qed.

End Pair.

(** ** C26 *)
Lemma truncate_self (k : complex) sz : wf_complex k sz -> truncate (k_dim k) k = k.
Proof.
  intros W. unfold truncate. rewrite Nat.min_id, <- (wfk_len _ _ W), firstn_all. destruct k; auto.
Qed.

(** Every cochain convolution is equivariant: renaming the cells and reordering the columns of all
    index tensors renames the rows of the output. *)
Theorem C26_conv_equivariance (l : level V) pi sz (k k' : complex) d pdim top down :
  cwn_level o l (cob_visible pdim top d) down ->
  complex_iso pi sz k k' -> wf_complex k sz -> wf_complex k' sz ->
  has_features (k_dim k) k -> has_features (k_dim k') k' -> d <= k_dim k ->
  exists p p' out out',
    get_cochain_params k d pdim top down true = Ok p /\ l p = Ok out /\
    get_cochain_params k' d pdim top down true = Ok p' /\ l p' = Ok out' /\
    length out = sz d /\ length out' = sz d /\
    forall i, i < sz d -> nth_error out' (pi d i) = nth_error out i.
Proof.
  intros HL HI W W' HF HF' Hd. destruct (cwn_level_ok o (div_0_1 _ Ho) _ _ _ HL) as [rl Himp].
  pose proof (iso_dim _ _ _ _ HI) as HD. set (D := k_dim k) in *. rewrite HD in HF'.
  pose proof (truncate_represents o D k sz W HF) as HR. unfold D in HR at 1. rewrite (truncate_self k sz W) in HR.
  pose proof (truncate_represents o D k' sz W' HF') as HR'. rewrite <- HD in HR' at 1. rewrite (truncate_self k' sz W') in HR'.
  pose proof (skel_of_ok D k sz W) as HS. pose proof (skel_of_ok D k' sz W') as HS'.
  destruct (params_of_rep k _ _ d pdim top down HR HS) as (p & Hp & Pok). { simpl. fold D. lia. }
  destruct (params_of_rep k' _ _ d pdim top down HR' HS') as (p' & Hp' & Pok'). { simpl. rewrite HD. lia. }
  exists p, p'. rewrite (Himp _ _ _ _ HS Pok), (Himp _ _ _ _ HS' Pok').
  rewrite !skel_of_n by auto. eexists _, _. split; [auto|]. split; [reflexivity|]. split; [auto|]. split; [reflexivity|].
  rewrite !map_length, !seq_length. split; auto. split; auto. intros i Hi.
  assert (Hpi : pi d i < sz d) by (apply HI; auto).
  rewrite !nth_error_map_seq. destruct (Nat.ltb_spec (pi d i) (sz d)); [|lia]. destruct (Nat.ltb_spec i (sz d)); [|lia].
  f_equal. symmetry.
  assert (Hi' : i < s_n (skel_of D k sz) d) by (rewrite skel_of_n; auto).
  pose proof (rel_agree pi sz k k' D HI 0) as HX.
  unfold new_feature. f_equal.
  - apply HX. split; auto.
  - unfold agg_up. eapply (matched_reduce o R R_map R_reduce).
    + apply (rel_matched_up pi sz k k' D HI W pdim top 0 d i); auto.
    + intros e e' [E1 E2]. rewrite (HX _ _ _ E1). destruct (cob_visible pdim top d); auto.
      rewrite (HX _ _ _ (E2 eq_refl)). auto.
  - unfold agg_low. destruct (r_low rl); auto. eapply (matched_reduce o R R_map R_reduce).
    + apply (rel_matched_low pi sz k k' D HI W 0 d i); auto.
    + intros e e' [E1 E2]. rewrite (HX _ _ _ E1), (HX _ _ _ E2). auto.
  - unfold agg_bnd. destruct (r_bnd rl); auto. eapply (matched_reduce o R R_map R_reduce).
    + apply (rel_matched_bnd pi sz k k' D HI W 0 d i); auto.
    + intros e e' E1. rewrite (HX _ _ _ E1). auto.
Qed.

(** ** C27 *)
(** Batches whose members are pairwise isomorphic receive the same predictions. *)
Theorem C27_isomorphism_invariance (m : net V) ks ks' szs max_dim :
  cwn_net o m -> ks <> [] ->
  Forall2 wf_complex ks szs -> Forall2 wf_complex ks' szs ->
  Forall (has_features max_dim) ks -> Forall (has_features max_dim) ks' ->
  Forall (fun sz => 0 < sz 0) szs ->
  Forall2 (fun q k' => isomorphic (snd q) (fst q) k') (combine ks szs) ks' ->
  exists b b' out bo bo',
    from_complex_list ks max_dim = Ok b /\ from_complex_list ks' max_dim = Ok b' /\
    net_forward o m b = Ok (out, bo) /\ net_forward o m b' = Ok (out, bo').
Proof.
  intros Hm Hne HW HW' HF HF' Hpos HI. pose proof (div_0_1 _ Ho) as Hdiv.
  destruct (cwn_net_ok o Hdiv m Hm) as [a Ha].
  assert (Hne' : ks' <> []).
  { intros ->. apply Forall2_length in HW, HW'. destruct ks, szs; simpl in *; congruence. }
  destruct (forward_list o Hdiv m a ks szs max_dim Ha Hne HW HF Hpos) as (b & bo & Hb & Hf).
  destruct (forward_list o Hdiv m a ks' szs max_dim Ha Hne' HW' HF' Hpos) as (b' & bo' & Hb' & Hf').
  exists b, b'. eexists. exists bo, bo'. split; [auto|]. split; [auto|]. split; [exact Hf|].
  rewrite Hf'. do 2 f_equal. symmetry.
  clear -HW HW' HI Ho. revert szs ks' HW HW' HI. induction ks as [|k ks IH]; intros szs ks' HW HW' HI;
    inversion HW; subst; inversion HW'; subst; simpl; auto.
  inversion HI; subst. f_equal; [|apply IH; auto].
  simpl in *. destruct H6 as [pi Hpi]. eapply predict_iso; eauto.
Qed.

(** ** C47: cellular colour refinement *)
Section Colours.
Context {C : Type}.
Variable col0 : nat -> V -> C.                        (* initial colour of a cell with this feature *)
Variable hash : C -> list (C * C) -> list C -> C.     (* refinement *)

(** The colour of cell [i] of dimension [d] after [l] rounds. *)
Fixpoint colour (S : skel) (X : feats V) (l d i : nat) : C :=
  match l with
  | 0 => col0 d (X d i)
  | Datatypes.S l' =>
      hash (colour S X l' d i)
           (map (fun e => (colour S X l' d (fst (fst e)), colour S X l' (d + 1) (snd e))) (up_at S d i))
           (map (fun p => colour S X l' (pred d) (fst p)) (bnd_at S d i))
  end.

(** The hash separates different multisets. *)
Hypothesis col0_faithful : forall d v v', col0 d v = col0 d v' -> v = v'.
Hypothesis hash_faithful : forall c u b c' u' b', hash c u b = hash c' u' b' ->
  c = c' /\ Permutation u u' /\ Permutation b b'.

Lemma perm_matched {A B E} (f : A -> E) (g : B -> E) l l' :
  Permutation (map f l) (map g l') -> matched R (fun a b => f a = g b) l l'.
Proof.
  intros H. apply Permutation_sym in H. destruct (Permutation_map_inv _ _ H) as (m & Em & Hm).
  exists m. split; [apply Permutation_sym; auto|]. clear -Em. revert m Em.
  induction l' as [|b l' IH]; intros [|a m] Em; simpl in Em; try discriminate; constructor; inversion Em; auto.
Qed.

Lemma matched_impl {A B} (P Q : A -> B -> Prop) l l' :
  (forall a b, P a b -> Q a b) -> matched R P l l' -> matched R Q l l'.
Proof. intros H (m & H1 & H2). exists m. split; auto. eapply Forall2_impl'; eauto. Qed.

Section Two.
Variables (Sk Sk' : skel) (X X' : feats V).
Definition same_colour (l d i i' : nat) : Prop := colour Sk X l d i = colour Sk' X' l d i'.

Lemma colour_refines pdim top : refines R Sk Sk' pdim top false same_colour.
Proof.
  intros l d i i' H. unfold same_colour in H. rewrite Nat.add_1_r in H. cbn [colour] in H.
  apply hash_faithful in H as (Hc & Hu & Hb). split; auto. intros _. split; [|split].
  - eapply matched_impl; [|apply (perm_matched _ _ _ _ Hu)]. intros e e' E. inversion E. split; auto.
  - discriminate.
  - eapply matched_impl; [|apply (perm_matched _ _ _ _ Hb)]. intros e e' E. exact E.
Qed.

Lemma colour_agree : agree same_colour 0 X X'.
Proof. intros d i i' H. apply (col0_faithful d). exact H. Qed.

Lemma predict_colours (a : arch V) :
  Forall (low_ok false) (a_layers a) ->
  (forall d, d <= a_pdim a -> In d (a_dims a) ->
     Permutation (map (colour Sk X (length (a_layers a)) d) (seq 0 (s_n Sk d)))
                 (map (colour Sk' X' (length (a_layers a)) d) (seq 0 (s_n Sk' d)))) ->
  predict o a Sk X = predict o a Sk' X'.
Proof.
  intros HL HP. apply (predict_agree o R R_map R_reduce a Sk Sk' false same_colour); auto.
  - apply colour_refines.
  - apply colour_agree.
  - intros d Hd Hin. apply (perm_matched _ _ _ _ (HP d Hd Hin)).
Qed.
End Two.

(** The colour multiset of dimension [d] of a complex. *)
Definition colours_of (D : nat) (k : complex) (sz : nat -> nat) (l d : nat) : list C :=
  map (colour (skel_of D k sz) (feats_of o k) l d) (seq 0 (s_n (skel_of D k sz) d)).

Inductive no_lower_net : net V -> nat -> Prop :=
| NL_sparse max_dim layers jump pool dims lin1 mean lin2 :
    layers <> [] -> (exists d, In d dims /\ d <= max_dim) ->
    no_lower_net (sparse_cin o max_dim layers jump pool dims lin1 mean lin2) (length layers)
| NL_cinpp max_dim layers jump pool dims lin1 mean lin2 :
    layers <> [] -> (exists d, In d dims /\ d <= max_dim) ->
    no_lower_net (cinpp o max_dim layers jump pool dims lin1 mean lin2) (length layers).

(** Complexes with the same colour multisets after as many rounds as there are layers receive the
    same prediction. *)
Theorem C47_colour_refinement_bound (m : net V) L (k k' : complex) sz sz' max_dim :
  no_lower_net m L ->
  wf_complex k sz -> wf_complex k' sz' -> has_features max_dim k -> has_features max_dim k' ->
  0 < sz 0 -> 0 < sz' 0 ->
  (forall d, d <= n_max_dim m ->
     Permutation (colours_of max_dim k sz L d) (colours_of max_dim k' sz' L d)) ->
  exists b b' v bo bo',
    from_complex_list [k] max_dim = Ok b /\ from_complex_list [k'] max_dim = Ok b' /\
    net_forward o m b = Ok ([v], bo) /\ net_forward o m b' = Ok ([v], bo').
Proof.
  intros HN W W' HF HF' Hp Hp' HC. pose proof (div_0_1 _ Ho) as Hdiv.
  assert (Ha : exists a, net_ok o m a /\ Forall (low_ok false) (a_layers a) /\ length (a_layers a) = L /\ a_pdim a = n_max_dim m).
  { destruct HN.
    - exists (sparse_arch o max_dim0 layers jump pool dims lin1 mean lin2). split; [apply sparse_ok; auto|].
      split; [|split; [apply map_length|reflexivity]].
      simpl. unfold sparse_layers. apply Forall_forall. intros Ly Hin. apply in_map_iff in Hin as (l & <- & _). intros _ d. reflexivity.
    - exists (cinpp_arch o max_dim0 layers jump pool dims lin1 mean lin2). split; [apply cinpp_ok; auto|].
      split; [|split; [apply map_length|reflexivity]].
      simpl. unfold cinpp_layers. apply Forall_forall. intros Ly Hin. apply in_map_iff in Hin as (l & <- & _). intros _ d. reflexivity. }
  destruct Ha as (a & Ha & HL & Hlen & Hpd).
  destruct (forward_list o Hdiv m a [k] [sz] max_dim Ha) as (b & bo & Hb & Hf); auto. { discriminate. }
  destruct (forward_list o Hdiv m a [k'] [sz'] max_dim Ha) as (b' & bo' & Hb' & Hf'); auto. { discriminate. }
  exists b, b'. eexists. exists bo, bo'. split; auto. split; auto. split; [exact Hf|].
  rewrite Hf'. simpl. do 3 f_equal. symmetry. apply predict_colours; auto.
  rewrite Hlen, Hpd. intros d Hd _. apply HC; auto.
Qed.

(** Layers cannot separate cells of equal colour: after all layers, cells with the same colour
    carry the same feature row. *)
Theorem C47_cells_of_equal_colour (m : net V) L (k k' : complex) sz sz' D :
  no_lower_net m L ->
  wf_complex k sz -> wf_complex k' sz' -> has_features D k -> has_features D k' ->
  k_dim k <= D -> k_dim k' <= D ->
  exists kf kf' h h',
    run_convs (n_max_dim m) (n_pdim m) (n_top m) (n_down m) (n_convs m) k = Ok (kf, h) /\
    run_convs (n_max_dim m) (n_pdim m) (n_top m) (n_down m) (n_convs m) k' = Ok (kf', h') /\
    forall d i i', i < sz d -> i' < sz' d ->
      colour (skel_of D k sz) (feats_of o k) L d i = colour (skel_of D k' sz') (feats_of o k') L d i' ->
      exists v, nth_error (content (attr c_x d kf)) i = Some v /\ nth_error (content (attr c_x d kf')) i' = Some v.
Proof.
  intros HN W W' HF HF' Hk Hk'. pose proof (div_0_1 _ Ho) as Hdiv.
  assert (Ha : exists a, net_ok o m a /\ Forall (low_ok false) (a_layers a) /\ length (a_layers a) = L).
  { destruct HN.
    - exists (sparse_arch o max_dim layers jump pool dims lin1 mean lin2). split; [apply sparse_ok; auto|].
      split; [|apply map_length].
      simpl. unfold sparse_layers. apply Forall_forall. intros Ly Hin. apply in_map_iff in Hin as (l & <- & _). intros _ d. reflexivity.
    - exists (cinpp_arch o max_dim layers jump pool dims lin1 mean lin2). split; [apply cinpp_ok; auto|].
      split; [|apply map_length].
      simpl. unfold cinpp_layers. apply Forall_forall. intros Ly Hin. apply in_map_iff in Hin as (l & <- & _). intros _ d. reflexivity. }
  destruct Ha as (a & Ha & HL & Hlen). pose proof Ha as [N1 N2 N3 N4 N5 N6 N7 N8 N9 N10 N11 N12 N13].
  assert (Htr : forall (k : complex) sz, wf_complex k sz -> k_dim k <= D -> truncate D k = k).
  { intros q s Wq Hq. unfold truncate. rewrite Nat.min_l by auto. rewrite firstn_all2 by (rewrite (wfk_len _ _ Wq); lia). destruct q; auto. }
  pose proof (truncate_represents o D k sz W HF) as HR. rewrite (Htr k sz W Hk) in HR.
  pose proof (truncate_represents o D k' sz' W' HF') as HR'. rewrite (Htr k' sz' W' Hk') in HR'.
  pose proof (skel_of_ok D k sz W) as HS. pose proof (skel_of_ok D k' sz' W') as HS'.
  destruct (run_convs_spec o (n_max_dim m) (n_pdim m) (n_top m) (n_down m) (n_convs m) (a_layers a) k _ _ HS N2 N4 HR) as (kf & E1 & R1).
  destruct (run_convs_spec o (n_max_dim m) (n_pdim m) (n_top m) (n_down m) (n_convs m) (a_layers a) k' _ _ HS' N2 N4 HR') as (kf' & E2 & R2).
  eexists kf, kf', _, _. split; [exact E1|]. split; [exact E2|]. intros d i i' Hi Hi' HCol.
  assert (Hd : d <= k_dim k).
  { destruct (Nat.le_gt_cases d (k_dim k)); auto. rewrite (wfk_above _ _ W) in Hi by auto. lia. }
  assert (Hd' : d <= k_dim k').
  { destruct (Nat.le_gt_cases d (k_dim k')); auto. rewrite (wfk_above _ _ W') in Hi' by auto. lia. }
  destruct (rep_get kf _ _ d R1) as (c & Hc & Rc). { simpl; lia. }
  destruct (rep_get kf' _ _ d R2) as (c' & Hc' & Rc'). { simpl; lia. }
  unfold attr. rewrite Hc, Hc', (rc_x _ _ _ _ Rc), (rc_x _ _ _ _ Rc'). cbn [content].
  rewrite !nth_error_map_seq, !skel_of_n by (auto; lia).
  destruct (Nat.ltb_spec i (sz d)); [|lia]. destruct (Nat.ltb_spec i' (sz' d)); [|lia].
  eexists. split; [reflexivity|]. f_equal. symmetry.
  pose proof (final_agree o R R_map R_reduce _ _ (n_pdim m) (n_top m) false _
     (colour_refines (skel_of D k sz) (skel_of D k' sz') (feats_of o k) (feats_of o k') (n_pdim m) (n_top m))
     None (a_layers a) (feats_of o k) (feats_of o k') HL (colour_agree _ _ _ _)) as HA.
  unfold final_feats in HA. apply HA. rewrite Hlen. exact HCol.
Qed.

End Colours.
End Iso.

(** ** Examples *)
Section PermB.
Context {A : Type} (eqb : A -> A -> bool).
Fixpoint remove1 (a : A) (l : list A) : option (list A) :=
  match l with
  | [] => None
  | b :: l' => if eqb a b then Some l' else option_map (cons b) (remove1 a l')
  end.
Fixpoint permb (l l' : list A) : bool :=
  match l with
  | [] => match l' with [] => true | _ => false end
  | a :: l1 => match remove1 a l' with Some l2 => permb l1 l2 | None => false end
  end.
Hypothesis eqb_ok : forall a b, eqb a b = true -> a = b.
Lemma remove1_perm a l r : remove1 a l = Some r -> Permutation l (a :: r).
Proof.
  revert r; induction l as [|b l IH]; intros r; simpl; [discriminate|].
  destruct (eqb a b) eqn:E.
  - intros H; inversion H; subst. apply eqb_ok in E; subst. auto.
  - destruct (remove1 a l); simpl; [|discriminate]. intros H; inversion H; subst.
    rewrite (IH _ eq_refl). apply perm_swap.
Qed.
Lemma permb_ok l l' : permb l l' = true -> Permutation l l'.
Proof.
  revert l'; induction l as [|a l IH]; intros l'; simpl.
  - destruct l'; [auto|discriminate].
  - destruct (remove1 a l') as [r|] eqn:E; [|discriminate]. intros H.
    apply remove1_perm in E. rewrite E. constructor. auto.
Qed.
End PermB.

Definition eqb2 (a b : nat * nat) : bool := (fst a =? fst b) && (snd a =? snd b).
Definition eqb3 (a b : (nat * nat) * nat) : bool := eqb2 (fst a) (fst b) && (snd a =? snd b).
Lemma eqb2_ok a b : eqb2 a b = true -> a = b.
Proof. destruct a, b. unfold eqb2. simpl. rewrite andb_true_iff, !Nat.eqb_eq. intuition congruence. Qed.
Lemma eqb3_ok a b : eqb3 a b = true -> a = b.
Proof.
  destruct a, b. unfold eqb3. simpl. rewrite andb_true_iff, Nat.eqb_eq. intros [H1 H2].
  apply eqb2_ok in H1. congruence.
Qed.

(** The path of DummyModel with vertices and edges renamed and all columns reordered. *)
Definition path3' : complex Z := mkComplexRec 1
  [mkCochain 0 (Some [8;9;7]%Z) (Some (cols [1;0;2;0] [0;1;0;2])) None None
     (Some [0;0;1;1]) None None None None None None (Some (Some 2)) None;
   mkCochain 1 (Some [11;10]%Z) None (Some (cols [0;1] [1;0])) (Some [0;0]) None
     (Some (cols [1;0;0;2] [0;0;1;1])) None None None None None None (Some (Some 3))] (Some [1%Z]).
Definition path_pi (d i : nat) : nat := nth i (nth d [[2;0;1]; [1;0]] []) i.

Lemma path3'_wf : wf_complex path3' path3_sz.
Proof. apply (wf_complexb_ok path3' [3; 2]). reflexivity. Qed.

Example path_iso : complex_iso path_pi path3_sz path3 path3'.
Proof.
  split.
  - reflexivity.
  - intros [|[|d]] i; unfold path3_sz, path_pi; simpl; [| |destruct d; lia].
    + intros. destruct i as [|[|[|i]]]; simpl; lia.
    + intros. destruct i as [|[|i]]; simpl; lia.
  - intros [|[|d]] i j; unfold path3_sz, path_pi; simpl; [| |destruct d; lia].
    + intros. destruct i as [|[|[|i]]], j as [|[|[|j]]]; simpl in *; lia.
    + intros. destruct i as [|[|i]], j as [|[|j]]; simpl in *; lia.
  - intros [|[|d]] i; unfold path3_sz; simpl; [| |destruct d; lia].
    + intros. destruct i as [|[|[|i]]]; simpl; auto; lia.
    + intros. destruct i as [|[|i]]; simpl; auto; lia.
  - intros [|[|d]]; try (apply (permb_ok eqb3 eqb3_ok); reflexivity). destruct d; constructor.
  - intros [|[|d]]; try (apply (permb_ok eqb3 eqb3_ok); reflexivity). destruct d; constructor.
  - intros [|[|d]]; try (apply (permb_ok eqb2 eqb2_ok); reflexivity). destruct d; constructor.
Qed.

Lemma path_features D : has_features D path3 /\ has_features D path3'.
Proof.
  split; intros d c _; destruct d as [|[|d]]; simpl; intros H; inversion H; subst; try discriminate; destruct d; discriminate.
Qed.

Example C27_example : exists b b' out bo bo',
  from_complex_list [path3] 2 = Ok b /\ from_complex_list [path3'] 2 = Ok b' /\ net_forward Zops ex_net b = Ok (out, bo) /\ net_forward Zops ex_net b' = Ok (out, bo').
Proof.
  apply (C27_isomorphism_invariance Zops Zops_ok ex_net [path3] [path3'] [path3_sz] 2).
  - apply C06_hyps.
  - discriminate.
  - constructor; [apply path3_wf|constructor].
  - constructor; [apply path3'_wf|constructor].
  - constructor; auto; apply path_features.
  - constructor; auto; apply path_features.
  - repeat constructor.
  - simpl. constructor; [|constructor]. exists path_pi. exact path_iso.
Qed.

Definition ex_level := dummy_forward Zops true true.
Example C26_example : exists p p' out out',
  get_cochain_params path3 0 2 true true true = Ok p /\ ex_level p = Ok out /\
  get_cochain_params path3' 0 2 true true true = Ok p' /\ ex_level p' = Ok out' /\
  length out = 3 /\ length out' = 3 /\ forall i, i < 3 -> nth_error out' (path_pi 0 i) = nth_error out i.
Proof.
  apply (C26_conv_equivariance Zops Zops_ok ex_level path_pi path3_sz path3 path3' 0 2 true true).
  - unfold ex_level. constructor.
  - exact path_iso.
  - apply path3_wf.
  - apply path3'_wf.
  - apply path_features.
  - apply path_features.
  - simpl; lia.
Qed.

(** Free colours: trees. *)
Inductive ctree := CLeaf (v : Z) | CNode (c : ctree) (u : list (ctree * ctree)) (b : list ctree).
Lemma CNode_faithful c u b c' u' b' : CNode c u b = CNode c' u' b' ->
  c = c' /\ Permutation u u' /\ Permutation b b'.
Proof. intros H; inversion H; subst. auto. Qed.

(** Six vertices and six edges with constant features: a hexagon and two triangles. *)
Definition cycles (ends : list (nat * nat)) : complex Z :=
  let n := length ends in
  mkComplexRec 1
  [mkCochain 0 (Some (repeat 1%Z 6)) (Some (flat_map (fun e => [e; (snd e, fst e)]) ends)) None None
     (Some (concat (mapi (fun i _ => [i; i]) ends))) None None None None None None (Some (Some n)) None;
   mkCochain 1 (Some (repeat 2%Z n)) None None None None
     (Some (concat (mapi (fun i e => [(fst e, i); (snd e, i)]) ends))) None None None None None None (Some (Some 6))] None.
Definition hexagon := cycles [(0,1);(1,2);(2,3);(3,4);(4,5);(5,0)].
Definition triangles := cycles [(0,1);(1,2);(2,0);(3,4);(4,5);(5,3)].
Definition six (d : nat) : nat := nth d [6; 6] 0.

Lemma hexagon_wf : wf_complex hexagon six.
Proof. apply (wf_complexb_ok hexagon [6; 6]). reflexivity. Qed.
Lemma triangles_wf : wf_complex triangles six.
Proof. apply (wf_complexb_ok triangles [6; 6]). reflexivity. Qed.

Fixpoint uni (l d : nat) : ctree :=
  match l with
  | 0 => CLeaf (if d =? 0 then 1%Z else 2%Z)
  | S l' => if d =? 0 then CNode (uni l' 0) [(uni l' 0, uni l' 1); (uni l' 0, uni l' 1)] []
            else CNode (uni l' 1) [] [uni l' 0; uni l' 0]
  end.

Lemma uni_colours (k : complex Z) : k = hexagon \/ k = triangles -> forall l d i, d <= 1 -> i < 6 ->
  colour (fun _ v => CLeaf v) CNode (skel_of 2 k six) (feats_of Zops k) l d i = uni l d.
Proof.
  intros Hk l. induction l as [|l IH]; intros d i Hd Hi.
  - destruct Hk as [-> | ->]; destruct d as [|[|d]]; try lia;
      destruct i as [|[|[|[|[|[|i]]]]]]; try lia; reflexivity.
  - cbn [colour uni]. destruct d as [|[|d]]; try lia; cbn [Nat.eqb].
    + rewrite (IH 0 i) by lia. f_equal.
      * destruct Hk as [-> | ->]; destruct i as [|[|[|[|[|[|i]]]]]]; try lia;
          match goal with |- map ?f (up_at ?s ?d ?j) = _ => let e := eval vm_compute in (up_at s d j) in change (up_at s d j) with e end;
          cbn [map fst snd]; rewrite !IH by lia; reflexivity.
      * destruct Hk as [-> | ->]; destruct i as [|[|[|[|[|[|i]]]]]]; try lia; reflexivity.
    + rewrite (IH 1 i) by lia. f_equal.
      * destruct Hk as [-> | ->]; destruct i as [|[|[|[|[|[|i]]]]]]; try lia; reflexivity.
      * destruct Hk as [-> | ->]; destruct i as [|[|[|[|[|[|i]]]]]]; try lia;
          match goal with |- map ?f (bnd_at ?s ?d ?j) = _ => let e := eval vm_compute in (bnd_at s d j) in change (bnd_at s d j) with e end;
          cbn [map fst snd pred]; rewrite !IH by lia; reflexivity.
Qed.

Lemma cycles_features D : has_features D hexagon /\ has_features D triangles.
Proof.
  split; intros d c _; destruct d as [|[|d]]; simpl; intros H; inversion H; subst; try discriminate; destruct d; discriminate.
Qed.

(** No SparseCIN (or CIN++), of whatever depth and weights, distinguishes the two graphs when no rings are
    attached. *)
Example C47_hexagon_triangles (m : net Z) L : no_lower_net Zops m L ->
  exists b b' v bo bo',
    from_complex_list [hexagon] 2 = Ok b /\ from_complex_list [triangles] 2 = Ok b' /\ net_forward Zops m b = Ok ([v], bo) /\ net_forward Zops m b' = Ok ([v], bo').
Proof.
  intros HN. apply (C47_colour_refinement_bound Zops Zops_ok (fun _ v => CLeaf v) CNode) with (sz := six) (sz' := six) (L := L); auto.
  - intros d v v' H; inversion H; auto.
  - apply CNode_faithful.
  - apply hexagon_wf.
  - apply triangles_wf.
  - apply cycles_features.
  - apply cycles_features.
  - unfold six; simpl; lia.
  - unfold six; simpl; lia.
  - intros d _. unfold colours_of. destruct (Nat.le_gt_cases d 1) as [Hd|Hd].
    + assert (E1 : s_n (skel_of 2 hexagon six) d = 6) by (destruct d as [|[|d]]; auto; lia).
      assert (E2 : s_n (skel_of 2 triangles six) d = 6) by (destruct d as [|[|d]]; auto; lia).
      rewrite E1, E2. rewrite (map_ext_in _ (fun _ => uni L d)).
      2:{ intros i Hi. apply in_seq in Hi. apply uni_colours; auto; lia. }
      rewrite (map_ext_in (colour _ _ (skel_of 2 triangles six) _ _ _) (fun _ => uni L d)).
      2:{ intros i Hi. apply in_seq in Hi. apply uni_colours; auto; lia. }
      apply Permutation_refl.
    + destruct d as [|[|d]]; try lia. simpl. constructor.
Qed.

Print Assumptions C26_conv_equivariance.
Print Assumptions C27_isomorphism_invariance.
Print Assumptions C47_colour_refinement_bound.
Print Assumptions C47_cells_of_equal_colour.
Print Assumptions C47_hexagon_triangles.
