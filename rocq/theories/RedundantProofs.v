(** Colours of [2 l + 1] rounds with boundary and upper adjacencies determine what [l] layers see along lower
    adjacencies. *)
From Coq Require Import List Arith Lia ZArith Bool Permutation.
From Verif Require Import Base ScatterModel ScatterSpec ScatterProofs ComplexModel BatchSpec BatchSpec2
  BatchProofs BatchProofs2 DummyModel MPModel MPSpec MPProofs MPEngine MPBatch MPForward MPNets MPIso LiftBase.
From Verif Require Import RedundantSpec.
Import ListNotations.

(** ** Lists *)
(** Repetitions can be cancelled when equal values are repeated equally often. *)
Lemma cancel_repeat {A B C} (g : A -> C) (n : A -> nat) (g' : B -> C) (n' : B -> nat) l l' :
  (forall a, In a l -> 0 < n a) -> (forall b, In b l' -> 0 < n' b) ->
  (forall a b, In a l -> In b l' -> g a = g' b -> n a = n' b) ->
  Permutation (flat_map (fun a => repeat (g a) (n a)) l) (flat_map (fun b => repeat (g' b) (n' b)) l') ->
  Permutation (map g l) (map g' l').
Proof.
  revert l'. induction l as [|a l IH]; intros l' Hn Hn' He HP.
  - destruct l' as [|b l']; [constructor|]. exfalso. cbn [flat_map] in HP. specialize (Hn' b (or_introl eq_refl)).
    destruct (n' b) as [|m]; [lia|]. cbn in HP. apply Permutation_nil in HP. discriminate.
  - assert (Hin : In (g a) (flat_map (fun b => repeat (g' b) (n' b)) l')).
    { apply (Permutation_in _ HP). cbn [flat_map]. apply in_or_app. left. specialize (Hn a (or_introl eq_refl)).
      destruct (n a); [lia|]. now left. }
    apply in_flat_map in Hin as (b & Hb & Hr). apply repeat_spec in Hr. apply in_split in Hb as (l1 & l2 & ->).
    assert (N : n a = n' b) by (apply He; [now left|apply in_or_app; right; now left|exact Hr]).
    rewrite flat_map_app in HP. cbn [flat_map] in HP. rewrite <- Hr, <- N in HP.
    rewrite map_app. cbn [map]. rewrite <- Hr. apply Permutation_cons_app. rewrite <- map_app. apply IH.
    + intros; apply Hn; now right.
    + intros b' Hb'. apply Hn'. apply in_app_or in Hb'. apply in_or_app. destruct Hb'; [now left|right; now right].
    + intros a' b' Ha' Hb'. apply He; [now right|]. apply in_app_or in Hb'. apply in_or_app. destruct Hb'; [now left|right; now right].
    + rewrite flat_map_app. apply (Permutation_app_inv_l (repeat (g a) (n a))). rewrite HP.
      rewrite !app_assoc. apply Permutation_app_tail. apply Permutation_app_comm.
Qed.

Lemma forall2_perm {A B} (P : A -> B -> Prop) m l l' : Forall2 P m l -> Permutation l l' ->
  exists m', Permutation m m' /\ Forall2 P m' l'.
Proof.
  intros H HP. revert m H. induction HP as [|b l l' HP IH|b c l|l l1 l2 H1 IH1 H2 IH2]; intros m H.
  - exists m. auto.
  - inversion H as [|a ? m0 ? Hab Hm]; subst. destruct (IH _ Hm) as (m' & Q & F). exists (a :: m'). split; [now constructor|now constructor].
  - inversion H as [|a ? m0 ? Hab Hm]; subst. inversion Hm as [|a2 ? m2 ? Hab2 Hm2]; subst.
    exists (a2 :: a :: m2). split; [apply perm_swap|]. now repeat constructor.
  - destruct (IH1 _ H) as (m1 & Q1 & F1). destruct (IH2 _ F1) as (m2 & Q2 & F2). exists m2. split; [|exact F2]. now rewrite Q1.
Qed.
Lemma matched_perm {A B} (P : A -> B -> Prop) l l' l1 l1' :
  Permutation l l1 -> Permutation l' l1' -> matched permR P l1 l1' -> matched permR P l l'.
Proof.
  intros H H' (m & HR & HF). destruct (forall2_perm P m l1' l' HF (Permutation_sym H')) as (m' & Q & F).
  exists m'. split; [|exact F]. unfold permR in *. now rewrite <- Q, HR, H.
Qed.
Lemma matched_flat {A B A' B'} (P : A -> B -> Prop) (Q : A' -> B' -> Prop) F F' l l' :
  matched permR P l l' -> (forall a b, In a l -> In b l' -> P a b -> matched permR Q (F a) (F' b)) ->
  matched permR Q (flat_map F l) (flat_map F' l').
Proof.
  intros (m & HR & HF) H. unfold permR in HR.
  assert (Hm : forall a, In a m -> In a l) by (intros a Ha; now apply (Permutation_in _ HR)).
  apply (matched_perm Q (flat_map F l) (flat_map F' l') (flat_map F m) (flat_map F' l'));
    [apply Permutation_flat_map; now symmetry|reflexivity|]. clear HR.
  induction HF as [|a b m l' Hab HF IH].
  - exists []. split; [constructor|constructor].
  - destruct IH as (m1 & R1 & F1); [intros; apply H; auto; now right|intros; apply Hm; now right|].
    destruct (H a b (Hm _ (or_introl eq_refl)) (or_introl eq_refl) Hab) as (m2 & R2 & F2).
    exists (m2 ++ m1). unfold permR in *. split; [now apply Permutation_app|now apply Forall2_app].
Qed.

Definition others (a : nat) (l : list nat) : list nat := filter (fun j => negb (j =? a)) l.
Lemma others_in a l j : In j (others a l) <-> In j l /\ j <> a.
Proof. unfold others. rewrite filter_In, negb_true_iff, Nat.eqb_neq. tauto. Qed.
Lemma others_perm a l : NoDup l -> In a l -> Permutation l (a :: others a l).
Proof.
  intros N Hin. apply NoDup_Permutation; [exact N| |].
  - constructor; [|now apply NoDup_filter]. rewrite others_in. tauto.
  - intros b. cbn [In]. rewrite others_in. destruct (Nat.eq_dec a b) as [<-|]; [tauto|]. split; [intuition congruence|].
    intros [?|[? _]]; congruence || auto.
Qed.
Lemma filter_map_comm {A B} (f : A -> B) (P : B -> bool) l : filter P (map f l) = map f (filter (fun a => P (f a)) l).
Proof. induction l as [|a l IH]; cbn; [reflexivity|]. destruct (P (f a)); cbn; now rewrite IH. Qed.
Lemma NoDup_map_on {A B} (f : A -> B) l : NoDup l -> (forall a b, In a l -> In b l -> f a = f b -> a = b) -> NoDup (map f l).
Proof.
  induction 1 as [|a l Ha N IH]; intros H; cbn; constructor.
  - intros Hin. apply in_map_iff in Hin as (b & E & Hb). apply H in E; [subst; auto|now right|now left].
  - apply IH. intros; apply H; auto; now right.
Qed.

(** ** Skeletons *)
Record regular (down : bool) (S : skel) : Prop := {
  rg_once : forall d, NoDup (s_bnd S d);
  rg_two : forall d t, 0 < d -> t < s_n S d -> exists f f', f <> f' /\ In (f, t) (s_bnd S d) /\ In (f', t) (s_bnd S d);
  rg_up : forall d a b t, In ((a, b), t) (s_up S d) <-> a <> b /\ In (a, t) (s_bnd S (d + 1)) /\ In (b, t) (s_bnd S (d + 1));
  rg_up_once : forall d, NoDup (s_up S d);
  rg_low : forall d a b f, In ((a, b), f) (s_low S d) <-> down = true /\ a <> b /\ In (f, a) (s_bnd S d) /\ In (f, b) (s_bnd S d);
  rg_low_once : forall d, NoDup (s_low S d)
}.

Section One.
Variables (S : skel) (down : bool).
Hypothesis HS : skel_ok S.
Hypothesis HR : regular down S.

(** The cells of dimension [d] on which [f] lies, and the boundary cells of [t]. *)
Definition cobs (d f : nat) : list nat := map snd (filter (fun p => fst p =? f) (s_bnd S d)).
Definition bnds (d t : nat) : list nat := map fst (bnd_at S d t).
Lemma cobs_in d f t : In t (cobs d f) <-> In (f, t) (s_bnd S d).
Proof.
  unfold cobs. rewrite in_map_iff. split.
  - intros ([a b] & <- & H). apply filter_In in H as [H E]. apply Nat.eqb_eq in E. cbn in *. now subst.
  - intros H. exists (f, t). split; [reflexivity|]. apply filter_In. split; [exact H|]. apply Nat.eqb_refl.
Qed.
Lemma bnds_in d f t : In f (bnds d t) <-> In (f, t) (s_bnd S d).
Proof.
  unfold bnds, bnd_at. rewrite in_map_iff. split.
  - intros ([a b] & <- & H). apply filter_In in H as [H E]. apply Nat.eqb_eq in E. cbn in *. now subst.
  - intros H. exists (f, t). split; [reflexivity|]. apply filter_In. split; [exact H|]. apply Nat.eqb_refl.
Qed.
Lemma cobs_once d f : NoDup (cobs d f).
Proof.
  apply NoDup_map_on; [apply NoDup_filter, (rg_once _ _ HR)|]. intros [a b] [a' b'] H H' E. apply filter_In in H as [_ H], H' as [_ H'].
  apply Nat.eqb_eq in H, H'. cbn in *. congruence.
Qed.
Lemma bnds_once d t : NoDup (bnds d t).
Proof.
  apply NoDup_map_on; [apply NoDup_filter, (rg_once _ _ HR)|]. intros [a b] [a' b'] H H' E. apply filter_In in H as [_ H], H' as [_ H'].
  apply Nat.eqb_eq in H, H'. cbn in *. congruence.
Qed.

Lemma up_form d f : Permutation (up_at S d f)
  (flat_map (fun c => map (fun j => ((j, f), c)) (others f (bnds (d + 1) c))) (cobs (d + 1) f)).
Proof.
  apply NoDup_Permutation.
  - apply NoDup_filter, (rg_up_once _ _ HR).
  - apply NoDup_flat_map; [apply cobs_once| |].
    + intros c _. apply NoDup_map_on; [apply NoDup_filter, bnds_once|]. intros; congruence.
    + intros c c' e _ _ H H'. apply in_map_iff in H as (j & <- & _), H' as (j' & E & _). congruence.
  - intros [[a b] t]. unfold up_at. rewrite filter_In, (rg_up _ _ HR), in_flat_map. cbn [fst snd]. rewrite Nat.eqb_eq. split.
    + intros [(N & H1 & H2) ->]. exists t. rewrite cobs_in. split; [exact H2|]. apply in_map_iff. exists a. split; [reflexivity|].
      apply others_in. rewrite bnds_in. auto.
    + intros (c & Hc & H). apply in_map_iff in H as (j & E & H). injection E as <- <- <-. apply others_in in H as [H N].
      rewrite bnds_in in H. rewrite cobs_in in Hc. auto.
Qed.
Lemma low_form d i : Permutation (low_at S d i)
  (flat_map (fun p => map (fun j => ((j, i), fst p)) (others i (cobs d (fst p)))) (if down then bnd_at S d i else [])).
Proof.
  pose proof cobs_once as CO. pose proof (rg_once _ _ HR) as BO.
  apply NoDup_Permutation.
  - apply NoDup_filter, (rg_low_once _ _ HR).
  - clear HR. destruct down; [|constructor]. apply NoDup_flat_map; [apply NoDup_filter, BO| |].
    + intros c _. apply NoDup_map_on; [apply NoDup_filter, CO|]. intros; congruence.
    + intros [a b] [a' b'] e Ha Ha' H H'. apply in_map_iff in H as (j & <- & _), H' as (j' & E & _).
      apply filter_In in Ha as [_ Ha], Ha' as [_ Ha']. apply Nat.eqb_eq in Ha, Ha'. cbn in *. congruence.
  - intros [[a b] f]. unfold low_at. rewrite filter_In, (rg_low _ _ HR), in_flat_map. cbn [fst snd]. rewrite Nat.eqb_eq. split.
    + intros [(-> & N & H1 & H2) ->]. exists (f, i). split; [apply filter_In; split; [exact H2|apply Nat.eqb_refl]|].
      apply in_map_iff. exists a. split; [reflexivity|]. apply others_in. rewrite cobs_in. auto.
    + destruct down; [|intros (p & [] & _)]. intros ([f' b'] & Hp & H). apply in_map_iff in H as (j & E & H). injection E as <- <- <-.
      apply filter_In in Hp as [Hp E]. apply Nat.eqb_eq in E. cbn [fst snd] in *. subst b'.
      apply others_in in H as [H N]. rewrite cobs_in in H. auto.
Qed.
Lemma many d c f : 0 < d -> In f (bnds d c) -> length (bnds d c) = length (others f (bnds d c)) + 1 /\ 0 < length (others f (bnds d c)).
Proof.
  intros Hd Hf. pose proof (Permutation_length (others_perm f _ (bnds_once d c) Hf)) as L. cbn in L. split; [lia|].
  pose proof Hf as Hb. rewrite bnds_in in Hb. apply (so_bnd _ HS) in Hb as (_ & _ & Hc).
  destruct (rg_two _ _ HR d c Hd Hc) as (a & b & N & H1 & H2). rewrite <- bnds_in in H1, H2.
  assert (X : exists j, In j (others f (bnds d c))).
  { destruct (Nat.eq_dec a f) as [->|]; [exists b|exists a]; apply others_in; auto. }
  destruct X as (j & X). destruct (others f (bnds d c)); [destruct X|cbn; lia].
Qed.
End One.

Lemma map_const {A B} (b : B) (l : list A) : map (fun _ => b) l = repeat b (length l).
Proof. induction l; cbn; congruence. Qed.
Lemma flat_map_ext_on {A B} (f g : A -> list B) l : (forall a, In a l -> f a = g a) -> flat_map f l = flat_map g l.
Proof. induction l as [|a l IH]; intros H; cbn; [reflexivity|]. rewrite (H a) by now left. rewrite IH; [reflexivity|]. intros; apply H; now right. Qed.
Lemma map_flat {A B C} (f : B -> C) (g : A -> list B) l : map f (flat_map g l) = flat_map (fun a => map f (g a)) l.
Proof. induction l; cbn; [reflexivity|]. now rewrite map_app, IHl. Qed.

(** ** Two complexes *)
Section Two.
Context {W C : Type} (col0 : nat -> W -> C) (hash : C -> list (C * C) -> list C -> C).
Hypothesis hash_faithful : forall c u b c' u' b', hash c u b = hash c' u' b' ->
  c = c' /\ Permutation u u' /\ Permutation b b'.
Variables (S S' : skel) (down : bool) (X X' : feats W).
Hypothesis HS : skel_ok S.
Hypothesis HS' : skel_ok S'.
Hypothesis HR : regular down S.
Hypothesis HR' : regular down S'.
Let col := colour col0 hash S X.
Let col' := colour col0 hash S' X'.

Lemma col_step l d i i' : col (Datatypes.S l) d i = col' (Datatypes.S l) d i' ->
  col l d i = col' l d i' /\
  Permutation (map (fun e => (col l d (fst (fst e)), col l (d + 1) (snd e))) (up_at S d i))
              (map (fun e => (col' l d (fst (fst e)), col' l (d + 1) (snd e))) (up_at S' d i')) /\
  Permutation (map (fun p => col l (pred d) (fst p)) (bnd_at S d i)) (map (fun p => col' l (pred d) (fst p)) (bnd_at S' d i')).
Proof. intros H. apply hash_faithful in H. exact H. Qed.
Lemma col_down l m d i i' : m <= l -> col l d i = col' l d i' -> col m d i = col' m d i'.
Proof. intros L. induction L as [|l L IH]; [auto|]. intros H. apply IH. now apply col_step in H as [H _]. Qed.

(** Cells with equal colours lie on equally coloured cells. *)
Lemma cobs_colours l d f f' : col (Datatypes.S (Datatypes.S l)) d f = col' (Datatypes.S (Datatypes.S l)) d f' ->
  Permutation (map (col (Datatypes.S l) (d + 1)) (cobs S (d + 1) f)) (map (col' (Datatypes.S l) (d + 1)) (cobs S' (d + 1) f')).
Proof.
  intros H. apply col_step in H as (_ & H & _).
  apply (Permutation_map snd) in H. rewrite !map_map in H. cbn [snd] in H.
  rewrite (Permutation_map _ (up_form S down HR d f)), (Permutation_map _ (up_form S' down HR' d f')) in H.
  rewrite !map_flat in H.
  set (n := fun c => length (others f (bnds S (d + 1) c))). set (n' := fun c => length (others f' (bnds S' (d + 1) c))).
  apply (cancel_repeat _ n _ n').
  - intros c Hc. apply cobs_in in Hc. apply bnds_in in Hc. now apply (many S down HS HR (d + 1) c f ltac:(lia)).
  - intros c Hc. apply cobs_in in Hc. apply bnds_in in Hc. now apply (many S' down HS' HR' (d + 1) c f' ltac:(lia)).
  - intros c c' Hc Hc' E. apply cobs_in in Hc, Hc'. apply bnds_in in Hc, Hc'.
    pose proof (many S down HS HR (d + 1) c f ltac:(lia) Hc) as [L _].
    pose proof (many S' down HS' HR' (d + 1) c' f' ltac:(lia) Hc') as [L' _].
    apply col_step in E as (_ & _ & E). apply Permutation_length in E. rewrite !map_length in E.
    unfold bnds in L, L' at 1. rewrite map_length in L, L'. unfold n, n'. unfold bnds. unfold bnds in L, L'. lia.
  - erewrite flat_map_ext_on in H; [erewrite (flat_map_ext_on _ _ (cobs S' (d + 1) f')) in H; [exact H|]|].
    + intros c _. cbv beta. rewrite map_map. cbn [snd]. apply map_const.
    + intros c _. cbv beta. rewrite map_map. cbn [snd]. apply map_const.
Qed.

Definition related (l d i i' : nat) : Prop :=
  i < s_n S d /\ i' < s_n S' d /\ col (2 * l + 1) d i = col' (2 * l + 1) d i'.

Lemma matched_with {A B} (P Q : A -> B -> Prop) l l' : (forall a b, In a l -> In b l' -> P a b -> Q a b) ->
  matched permR P l l' -> matched permR Q l l'.
Proof.
  intros H (m & HP & HF). exists m. split; [exact HP|]. unfold permR in HP.
  assert (Hm : forall a, In a m -> In a l) by (intros a; now apply Permutation_in). clear HP.
  induction HF as [|a b m l' Hab HF IH]; constructor.
  - apply H; [apply Hm; now left|now left|exact Hab].
  - apply IH; [|intros; apply Hm; now right]. intros; apply H; auto; now right.
Qed.

Lemma related_refines pdim top : refines permR S S' pdim top true related.
Proof.
  intros l d i i' (Hi & Hi' & H). replace (2 * (l + 1) + 1) with (Datatypes.S (Datatypes.S (2 * l + 1))) in H by lia.
  assert (H1 : col (2 * l + 1) d i = col' (2 * l + 1) d i') by (eapply col_down; [|exact H]; lia).
  pose proof (col_step _ _ _ _ H) as (_ & Hu & Hb). split; [repeat split; assumption|]. intros _.
  assert (Hbm : matched permR (fun p p' => col (Datatypes.S (2 * l + 1)) (pred d) (fst p) = col' (Datatypes.S (2 * l + 1)) (pred d) (fst p'))
                  (bnd_at S d i) (bnd_at S' d i')) by exact (perm_matched _ _ _ _ Hb).
  split; [|split].
  - eapply matched_with; [|exact (perm_matched _ _ _ _ Hu)]. intros [[a b] t] [[a' b'] t'] He He' E. cbn [fst snd] in E.
    apply filter_In in He as [He _], He' as [He' _]. apply (so_up _ HS) in He as (_ & Ra & _ & Rt). apply (so_up _ HS') in He' as (_ & Ra' & _ & Rt').
    injection E as E1 E2. split; [|intros _]; cbn [fst snd]; (repeat split; [assumption|assumption|]); [eapply col_down; [|exact E1]|eapply col_down; [|exact E2]]; lia.
  - intros _. eapply matched_perm; [apply (low_form S down HR)|apply (low_form S' down HR')|].
    destruct (bool_dec down true) as [Ed|Ed]; [rewrite Ed|apply not_true_is_false in Ed; rewrite Ed; exists []; split; constructor].
    eapply matched_flat; [exact Hbm|]. intros [f t] [f' t'] Hp Hp' E. cbn [fst] in *.
    apply filter_In in Hp as [Hp Et], Hp' as [Hp' Et']. apply Nat.eqb_eq in Et, Et'. cbn [snd] in Et, Et'. subst t t'.
    pose proof (so_bnd _ HS _ _ _ Hp) as (Hd & Rf & _). pose proof (so_bnd _ HS' _ _ _ Hp') as (_ & Rf' & _).
    destruct d as [|d]; [lia|]. cbn [pred] in *.
    replace (2 * l + 1) with (Datatypes.S (2 * l)) in E by lia. pose proof (cobs_colours _ _ _ _ E) as HC.
    replace (d + 1) with (Datatypes.S d) in HC by lia. replace (Datatypes.S (2 * l)) with (2 * l + 1) in HC, E by lia.
    rewrite (Permutation_map _ (others_perm i _ (cobs_once S down HR (Datatypes.S d) f) (proj2 (cobs_in S (Datatypes.S d) f i) Hp))) in HC.
    rewrite (Permutation_map _ (others_perm i' _ (cobs_once S' down HR' (Datatypes.S d) f') (proj2 (cobs_in S' (Datatypes.S d) f' i') Hp'))) in HC.
    cbn [map] in HC. rewrite H1 in HC. apply Permutation_cons_inv in HC.
    assert (E1 : col (2 * l + 1) d f = col' (2 * l + 1) d f') by (eapply col_down; [|exact E]; lia).
    destruct (perm_matched _ _ _ _ HC) as (m & Q & F). unfold permR in Q.
    exists (map (fun j => (j, i, f)) m). split; [unfold permR; now apply Permutation_map|].
    assert (Hm : forall j, In j m -> j < s_n S (Datatypes.S d)).
    { intros j Hj. apply (Permutation_in _ Q) in Hj. apply others_in in Hj as [Hj _]. apply cobs_in in Hj. now apply (so_bnd _ HS) in Hj as (_ & _ & Hj). }
    assert (Hm' : forall j, In j (others i' (cobs S' (Datatypes.S d) f')) -> j < s_n S' (Datatypes.S d)).
    { intros j Hj. apply others_in in Hj as [Hj _]. apply cobs_in in Hj. now apply (so_bnd _ HS') in Hj as (_ & _ & Hj). }
    clear - F Hm Hm' E1 Rf Rf'. induction F as [|j j' m l' Hj F IH]; cbn [map]; constructor.
    + split; cbn [fst snd pred]; (repeat split; [..|assumption]); auto; [apply Hm; now left|apply Hm'; now left].
    + apply IH; intros; [apply Hm|apply Hm']; now right.
  - eapply matched_with; [|exact Hbm]. intros [f t] [f' t'] Hp Hp' E. cbn [fst] in *.
    apply filter_In in Hp as [Hp _], Hp' as [Hp' _]. apply (so_bnd _ HS) in Hp as (_ & Rf & _). apply (so_bnd _ HS') in Hp' as (_ & Rf' & _).
    repeat split; [assumption|assumption|]. eapply col_down; [|exact E]. lia.
Qed.

(** Equal colours of [2 L + 1] rounds give equal predictions of [L] layers. *)
Lemma predict_related {V} (o : ops V) (Ho : ops_ok o) (a : arch V) (Y Y' : feats V) :
  (forall d i i', i < s_n S d -> i' < s_n S' d -> col 0 d i = col' 0 d i' -> Y d i = Y' d i') ->
  (forall d, d <= a_pdim a -> In d (a_dims a) ->
     Permutation (map (col (2 * length (a_layers a) + 1) d) (seq 0 (s_n S d)))
                 (map (col' (2 * length (a_layers a) + 1) d) (seq 0 (s_n S' d)))) ->
  predict o a S Y = predict o a S' Y'.
Proof.
  intros HY HP. apply (predict_agree o permR R_map (R_reduce o Ho) a S S' true related).
  - apply related_refines.
  - apply Forall_forall. intros L _ E. discriminate.
  - intros d i i' (Hi & Hi' & E). apply HY; auto. eapply col_down; [|exact E]. lia.
  - intros d Hd Hin. eapply matched_with; [|exact (perm_matched _ _ _ _ (HP d Hd Hin))].
    intros i i' Hi Hi' E. apply in_seq in Hi, Hi'. repeat split; [lia|lia|exact E].
Qed.
End Two.
