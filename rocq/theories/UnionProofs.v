(** The batch of complexes with given cells has the union of their cells; liftings of disjoint unions. *)
From Coq Require Import List Arith Lia ZArith Bool Permutation.
From Verif Require Import Base ScatterModel ScatterSpec ScatterProofs ComplexModel BatchSpec BatchSpec2 BatchProofs BatchProofs2
  MPModel MPSpec MPProofs MPEngine MPBatch
  LiftModel LiftSpec LiftBase LiftProofs LiftClique LiftTables LiftCliqueProps LiftRing LiftProps LiftRingProps LiftIso UnionSpec.
Import ListNotations.

Section Cells.
Variable cs : list (nat -> list (list nat)).
Notation szs := (sizes_of cs).

Lemma szs_at i c : nth_error cs i = Some c -> nth_error szs i = Some (fun d => length (c d)).
Proof. intros H. unfold sizes_of. rewrite nth_error_map, H. auto. Qed.
Lemma szs_inv i sz : nth_error szs i = Some sz -> exists c, nth_error cs i = Some c /\ sz = (fun d => length (c d)).
Proof. unfold sizes_of. rewrite nth_error_map. destruct (nth_error cs i) as [c|]; [|discriminate]. intros E. inversion E. eauto. Qed.

Lemma prefix_length (f : nat -> nat -> nat) s d i :
  length (concat (mapi_from (fun j (c : nat -> list (list nat)) => map (map (f j)) (c d)) s (firstn i cs))) = off szs i d.
Proof.
  unfold off, sizes_of. revert s i. induction cs as [|c l IH]; intros s [|i]; cbn [firstn map list_sum mapi_from concat fold_right]; auto.
  rewrite app_length, map_length, IH. auto.
Qed.
Lemma union_length d : length (union_cells cs d) = total szs d.
Proof.
  pose proof (prefix_length (fun j v => v + off szs j 0) 0 d (length cs)) as E. rewrite firstn_all in E.
  unfold union_cells, mapi. rewrite E, <- off_all. unfold sizes_of. rewrite map_length. auto.
Qed.

Lemma union_names d t s : names (union_cells cs) d t s <->
  exists i c j s0, nth_error cs i = Some c /\ names c d j s0 /\ t = j + off szs i d /\ s = map (fun v => v + off szs i 0) s0.
Proof.
  assert (G : forall i c j s0, nth_error cs i = Some c -> names c d j s0 ->
    names (union_cells cs) d (j + off szs i d) (map (fun v => v + off szs i 0) s0)).
  { intros i c j s0 Hi Hj. assert (Lj : j < length (c d)) by (apply nth_error_Some; unfold names in Hj; congruence).
    unfold names, union_cells, mapi. rewrite Nat.add_comm, <- (prefix_length (fun j v => v + off szs j 0) 0 d i).
    rewrite (nth_error_concat_mapi_from _ 0 cs i c j Hi) by (rewrite map_length; auto).
    rewrite nth_error_map. unfold names in Hj. rewrite Hj. auto. }
  split.
  - intros H. assert (Lt : t < total szs d).
    { rewrite <- union_length. apply nth_error_Some. unfold names in H. congruence. }
    destruct (block_of szs d t Lt) as (i & sz & j & Hi & Hj & ->). apply szs_inv in Hi as (c & Hi & ->).
    destruct (nth_error (c d) j) as [s0|] eqn:E; [|apply nth_error_None in E; lia].
    exists i, c, j, s0. split; auto. split; auto. split; auto. pose proof (G i c j s0 Hi E) as H'. unfold names in *. congruence.
  - intros (i & c & j & s0 & Hi & Hj & -> & ->). apply G with (c := c); auto.
Qed.

Hypothesis HV : forall i c d s, nth_error cs i = Some c -> In s (c d) -> s <> [] /\ forall v, In v s -> v < length (c 0).

(** Cells of different members have no vertex in common. *)
Lemma vertex_block i i' c c' d d' s s' v v' : nth_error cs i = Some c -> nth_error cs i' = Some c' ->
  In s (c d) -> In s' (c' d') -> In v s -> In v' s' -> v + off szs i 0 = v' + off szs i' 0 -> i = i' /\ v = v'.
Proof.
  intros Hi Hi' Hs Hs' Hv Hv'. apply (block_unique szs 0 i i' (fun d => length (c d)) (fun d => length (c' d))).
  - apply szs_at; auto.
  - apply szs_at; auto.
  - eapply HV; eauto.
  - eapply HV; eauto.
Qed.

Lemma union_face d f t : face_of (union_cells cs) d f t <->
  exists i c f0 t0, nth_error cs i = Some c /\ face_of c d f0 t0 /\ f = f0 + off szs i d /\ t = t0 + off szs i (S d).
Proof.
  split.
  - intros (sf & st & Hf & Ht & Hin). apply union_names in Hf as (i & c & f0 & s0 & Hi & Hf & -> & ->).
    apply union_names in Ht as (i' & c' & t0 & s1 & Hi' & Ht & -> & ->).
    pose proof (nth_error_In _ _ Hf) as If. pose proof (nth_error_In _ _ Ht) as It.
    destruct (HV _ _ _ _ Hi If) as [Hne _].
    assert (G : forall v, In v s0 -> i = i' /\ In v s1).
    { intros v Hv. specialize (Hin (v + off szs i 0) (in_map _ _ _ Hv)). apply in_map_iff in Hin as (w & E & Hw).
      destruct (vertex_block i' i c' c (S d) d s1 s0 w v Hi' Hi It If Hw Hv E) as [-> ->]. auto. }
    destruct s0 as [|v0 s0]; [congruence|]. destruct (G v0 (or_introl eq_refl)) as [<- _].
    rewrite Hi in Hi'. inversion Hi'; subst c'. exists i, c, f0, t0. split; auto. split; [|auto].
    exists (v0 :: s0), s1. split; auto. split; auto. intros v Hv. apply G; auto.
  - intros (i & c & f0 & t0 & Hi & (sf & st & Hf & Ht & Hin) & -> & ->).
    exists (map (fun v => v + off szs i 0) sf), (map (fun v => v + off szs i 0) st).
    split; [apply union_names; exists i, c, f0, sf; auto|]. split; [apply union_names; exists i, c, t0, st; auto|].
    intros v Hv. apply in_map_iff in Hv as (u & <- & Hu). apply (in_map (fun v => v + off szs i 0)). auto.
Qed.

Lemma union_once : (forall i c, nth_error cs i = Some c -> forall d a b s s', names c d a s -> names c d b s' -> same_set s s' -> a = b) ->
  forall d a b s s', names (union_cells cs) d a s -> names (union_cells cs) d b s' -> same_set s s' -> a = b.
Proof.
  intros HO d a b s s' Ha Hb HS. apply union_names in Ha as (i & c & j & s0 & Hi & Ha & -> & ->).
  apply union_names in Hb as (i' & c' & j' & s1 & Hi' & Hb & -> & ->).
  pose proof (nth_error_In _ _ Ha) as Ia. pose proof (nth_error_In _ _ Hb) as Ib.
  destruct (HV _ _ _ _ Hi Ia) as [Hne _]. destruct s0 as [|v0 s0]; [congruence|].
  assert (E : i = i').
  { destruct (proj1 (in_map_iff _ _ _) (proj1 (HS _) (or_introl eq_refl))) as (w & E & Hw).
    symmetry. exact (proj1 (vertex_block i' i c' c d d s1 (v0 :: s0) w v0 Hi' Hi Ib Ia Hw (or_introl eq_refl) E)). }
  subst i'. rewrite Hi in Hi'. inversion Hi'; subst c'. f_equal. eapply (HO i c Hi); eauto.
  intros v. split; intros Hv.
  - destruct (proj1 (in_map_iff _ _ _) (proj1 (HS _) (in_map _ _ _ Hv))) as (w & E & Hw). assert (w = v) by lia. subst; auto.
  - destruct (proj1 (in_map_iff _ _ _) (proj2 (HS _) (in_map _ _ _ Hv))) as (w & E & Hw). assert (w = v) by lia. subst; auto.
Qed.
End Cells.

(** ** The batch *)
Section Batch.
Context {V : Type} (o : ops V).
Variables (ks : list (complex V)) (cs : list (nat -> list (list nat))) (down : bool) (D : nat) (KB : complex V).
Notation szs := (sizes_of cs).
Hypothesis HC : Forall2 (fun k c => has_cells c down (fun d => attr c_x d k) k) ks cs.
Hypothesis HV : forall i c d s, nth_error cs i = Some c -> In s (c d) -> s <> [] /\ forall v, In v s -> v < length (c 0).
Hypothesis HX : forall k d c, In k ks -> nth_error (k_cochains k) d = Some c -> c_x c <> None.
Hypothesis HU : union_complex ks szs D KB.
Hypothesis HD : forall k, In k ks -> k_dim k <= D.
Hypothesis HP : exists k, In k ks /\ k_dim k = D.

Lemma U_wf : Forall2 wf_complex ks szs.
Proof. clear -HC. unfold sizes_of. induction HC; simpl; constructor; auto. apply H. Qed.
Lemma U_pres d : d <= D -> exists k, In k ks /\ d <= k_dim k.
Proof. intros Hd. destruct HP as (k & Hk & E). exists k. split; auto. lia. Qed.
Lemma U_mem i k : nth_error ks i = Some k -> exists c, nth_error cs i = Some c /\ nth_error szs i = Some (fun d => length (c d)) /\
  has_cells c down (fun d => attr c_x d k) k.
Proof. intros Hi. destruct (Forall2_nth_error_l _ _ _ HC _ _ Hi) as (c & Hc & H). exists c. split; auto. split; auto. apply szs_at; auto. Qed.
Lemma U_mem' i c : nth_error cs i = Some c -> exists k, nth_error ks i = Some k /\ has_cells c down (fun d => attr c_x d k) k.
Proof.
  intros Hi. assert (L : i < length ks).
  { rewrite (Forall2_length HC). apply nth_error_Some. congruence. }
  destruct (nth_error ks i) as [k|] eqn:E; [|apply nth_error_None in E; lia].
  destruct (U_mem i k E) as (c' & Hc & _ & H). exists k. split; auto. congruence.
Qed.

Lemma U_at d c : nth_error (k_cochains KB) d = Some c -> d <= D.
Proof. intros H. assert (d < length (k_cochains KB)) by (apply nth_error_Some; congruence). rewrite (uc_len _ _ _ _ HU) in *. lia. Qed.

(** The triples and pairs of the batch. *)
Lemma U_up d c : nth_error (k_cochains KB) d = Some c ->
  triples (c_upper c) (c_shc c) = concat (mapi (fun i k => map (fun q => ((fst (fst q) + off szs i d, snd (fst q) + off szs i d), snd q + off szs i (S d)))
    (combine (content (attr c_upper d k)) (content (attr c_shc d k)))) ks) /\
  length (content (c_upper c)) = length (content (c_shc c)).
Proof.
  intros Hc. pose proof (uc_each _ _ _ _ HU _ _ Hc) as U. unfold triples.
  rewrite (un_upper _ _ _ _ _ U), (un_shc _ _ _ _ _ U). split.
  - rewrite joined_combine; [reflexivity|]. intros k Hk. apply In_nth_error in Hk as [i Hi].
    destruct (U_mem i k Hi) as (c' & _ & _ & H). eapply attr_shc_length. apply H.
  - rewrite !joined_content, !mapi_map. unfold mapi. generalize 0. pose proof U_wf as HW. revert HW. generalize (off szs). clear. intros f HW.
    induction HW as [|k sz ks' szs' W HW' IH]; intros s; cbn; auto. rewrite !app_length, !map_length, (attr_shc_length k sz d W). f_equal. auto.
Qed.
Lemma U_low d c : nth_error (k_cochains KB) d = Some c ->
  triples (c_lower c) (c_shb c) = concat (mapi (fun i k => map (fun q => ((fst (fst q) + off szs i d, snd (fst q) + off szs i d), snd q + off szs i (pred d)))
    (combine (content (attr c_lower d k)) (content (attr c_shb d k)))) ks) /\
  length (content (c_lower c)) = length (content (c_shb c)).
Proof.
  intros Hc. pose proof (uc_each _ _ _ _ HU _ _ Hc) as U. unfold triples.
  rewrite (un_lower _ _ _ _ _ U), (un_shb _ _ _ _ _ U). split.
  - rewrite joined_combine; [reflexivity|]. intros k Hk. apply In_nth_error in Hk as [i Hi].
    destruct (U_mem i k Hi) as (c' & _ & _ & H). eapply attr_shb_length. apply H.
  - rewrite !joined_content, !mapi_map. unfold mapi. generalize 0. pose proof U_wf as HW. revert HW. generalize (off szs). clear. intros f HW.
    induction HW as [|k sz ks' szs' W HW' IH]; intros s; cbn; auto. rewrite !app_length, !map_length, (attr_shb_length k sz d W). f_equal. auto.
Qed.
Lemma U_bnd d c : nth_error (k_cochains KB) d = Some c ->
  content (c_bidx c) = concat (mapi (fun i k => map (fun q => (fst q + off szs i (pred d), snd q + off szs i d)) (content (attr c_bidx d k))) ks).
Proof.
  intros Hc. pose proof (uc_each _ _ _ _ HU _ _ Hc) as U. rewrite (un_bidx _ _ _ _ _ U), joined_content, mapi_map. auto.
Qed.

(** Without repetitions in the members there are none in the batch. *)
Lemma nodup_blocks {A B} (f : nat -> A -> list B) l :
  (forall i a, nth_error l i = Some a -> NoDup (f i a)) ->
  (forall i j a b x, nth_error l i = Some a -> nth_error l j = Some b -> In x (f i a) -> In x (f j b) -> i = j) ->
  NoDup (concat (mapi f l)).
Proof.
  unfold mapi. assert (G : forall s, (forall i a, nth_error l i = Some a -> NoDup (f (s + i) a)) ->
    (forall i j a b x, nth_error l i = Some a -> nth_error l j = Some b -> In x (f (s + i) a) -> In x (f (s + j) b) -> i = j) ->
    NoDup (concat (mapi_from f s l))).
  2:{ intros H1 H2. apply (G 0); auto. }
  induction l as [|a l IH]; intros s H1 H2; cbn; [constructor|].
  apply NoDup_app.
  - specialize (H1 0 a eq_refl). rewrite Nat.add_0_r in H1. auto.
  - apply IH.
    + intros i b Hi. specialize (H1 (S i) b Hi). rewrite Nat.add_succ_r in H1. auto.
    + intros i j b b' x Hi Hj X1 X2. specialize (H2 (S i) (S j) b b' x Hi Hj). rewrite !Nat.add_succ_r in H2. specialize (H2 X1 X2). congruence.
  - intros x Hx Hx'. apply in_concat in Hx' as (y & Hy & Hx'). apply In_nth_error in Hy as [j Hj]. rewrite nth_error_mapi_from in Hj.
    destruct (nth_error l j) as [b|] eqn:E; [|discriminate]. inversion Hj; subst y.
    specialize (H2 0 (S j) a b x eq_refl E). rewrite Nat.add_0_r, Nat.add_succ_r in H2. specialize (H2 Hx Hx'). discriminate.
Qed.

Definition pairwise {A} (R : A -> A -> Prop) (l : list A) : Prop :=
  forall i j p q, nth_error l i = Some p -> nth_error l j = Some q -> i < j -> R p q.
Lemma pairwise_app {A} (R : A -> A -> Prop) l l' : pairwise R l -> pairwise R l' ->
  (forall p q, In p l -> In q l' -> R p q) -> pairwise R (l ++ l').
Proof.
  intros H H' HR i j p q Hi Hj Hlt. destruct (Nat.lt_ge_cases j (length l)) as [Lj|Lj].
  - rewrite nth_error_app1 in Hi, Hj by lia. eapply H; eauto.
  - rewrite nth_error_app2 in Hj by lia. destruct (Nat.lt_ge_cases i (length l)) as [Li|Li].
    + rewrite nth_error_app1 in Hi by lia. apply HR; eapply nth_error_In; eauto.
    + rewrite nth_error_app2 in Hi by lia. eapply (H' (i - length l) (j - length l)); eauto. lia.
Qed.
Lemma pairwise_blocks {A B} (R : B -> B -> Prop) (f : nat -> A -> list B) l :
  (forall i a, nth_error l i = Some a -> pairwise R (f i a)) ->
  (forall i j a b x y, nth_error l i = Some a -> nth_error l j = Some b -> i < j -> In x (f i a) -> In y (f j b) -> R x y) ->
  pairwise R (concat (mapi f l)).
Proof.
  unfold mapi. assert (G : forall s, (forall i a, nth_error l i = Some a -> pairwise R (f (s + i) a)) ->
    (forall i j a b x y, nth_error l i = Some a -> nth_error l j = Some b -> i < j -> In x (f (s + i) a) -> In y (f (s + j) b) -> R x y) ->
    pairwise R (concat (mapi_from f s l))).
  2:{ intros H1 H2. apply (G 0); auto. }
  induction l as [|a l IH]; intros s H1 H2; cbn; [intros [|i] j p q Hi; discriminate|].
  apply pairwise_app.
  - specialize (H1 0 a eq_refl). rewrite Nat.add_0_r in H1. auto.
  - apply IH.
    + intros i b Hi. specialize (H1 (S i) b Hi). rewrite Nat.add_succ_r in H1. auto.
    + intros i j b b' x y Hi Hj Hlt X1 X2. apply (H2 (S i) (S j) b b' x y); auto; try lia; rewrite Nat.add_succ_r; auto.
  - intros x y Hx Hy. apply in_concat in Hy as (z & Hz & Hy). apply In_nth_error in Hz as [j Hj]. rewrite nth_error_mapi_from in Hj.
    destruct (nth_error l j) as [b|] eqn:E; [|discriminate]. inversion Hj; subst z.
    apply (H2 0 (S j) a b x y eq_refl E); [lia|rewrite Nat.add_0_r; auto|rewrite Nat.add_succ_r; auto].
Qed.

(** What a member records, whether or not it has the dimension. *)
Lemma no_level (k : complex V) c X d : has_cells c down X k -> nth_error (k_cochains k) d = None -> c d = [].
Proof.
  intros H E. apply nth_error_None in E. rewrite (wfk_len _ _ (hc_wf _ _ _ _ H)) in E.
  apply length_zero_iff_nil. apply (wfk_above _ _ (hc_wf _ _ _ _ H)). lia.
Qed.
Lemma M_bnd (k : complex V) c X d : has_cells c down X k ->
  (forall f t, In (f, t) (content (attr c_bidx (S d) k)) <-> face_of c d f t) /\
  NoDup (content (attr c_bidx (S d) k)) /\ pairwise (fun p q => snd p <= snd q) (content (attr c_bidx (S d) k)).
Proof.
  intros H. unfold attr. destruct (nth_error (k_cochains k) (S d)) as [c'|] eqn:E.
  - destruct (hc_bnd _ _ _ _ H d c' E) as [B1 B2 B3]. auto.
  - cbn. split; [|split; [constructor|intros [|i] j p q Hi; discriminate]]. intros f t. split; [intros []|].
    intros (a & b & _ & Hb & _). unfold names in Hb. rewrite (no_level _ _ _ _ H E) in Hb. destruct t; discriminate.
Qed.
Lemma M_up (k : complex V) c X d : has_cells c down X k ->
  (forall a b t, In ((a, b), t) (combine (content (attr c_upper d k)) (content (attr c_shc d k))) <->
     a <> b /\ face_of c d a t /\ face_of c d b t) /\
  NoDup (combine (content (attr c_upper d k)) (content (attr c_shc d k))).
Proof.
  intros H. unfold attr. destruct (nth_error (k_cochains k) d) as [c'|] eqn:E.
  - destruct (hc_up _ _ _ _ H d c' E) as [B1 B2 B3]. auto.
  - cbn. split; [|constructor]. intros a b t. split; [intros []|].
    intros (_ & (s & s' & Hs & _) & _). unfold names in Hs. rewrite (no_level _ _ _ _ H E) in Hs. destruct a; discriminate.
Qed.
Lemma M_low (k : complex V) c X d : down = true -> has_cells c down X k ->
  (forall a b t, In ((a, b), t) (combine (content (attr c_lower (S d) k)) (content (attr c_shb (S d) k))) <->
     a <> b /\ face_of c d t a /\ face_of c d t b) /\
  NoDup (combine (content (attr c_lower (S d) k)) (content (attr c_shb (S d) k))).
Proof.
  intros Hd H. unfold attr. destruct (nth_error (k_cochains k) (S d)) as [c'|] eqn:E.
  - pose proof (hc_low _ _ _ _ H d c' E) as U. rewrite Hd in U. destruct U as [B1 B2 B3]. auto.
  - cbn. split; [|constructor]. intros a b t. split; [intros []|].
    intros (_ & (s & s' & _ & Hs & _) & _). unfold names in Hs. rewrite (no_level _ _ _ _ H E) in Hs. destruct a; discriminate.
Qed.

Lemma face_lt c d f t : face_of c d f t -> f < length (c d) /\ t < length (c (S d)).
Proof. apply face_range. Qed.

Lemma isSome_false {A} (a : option A) : isSome a = false -> a = None.
Proof. destruct a; [discriminate|auto]. Qed.
Lemma isSome_joined {T} (sh : nat -> T -> T) ls : isSome (joined sh ls) = existsb isSome ls.
Proof. unfold joined. destruct (existsb isSome ls); auto. Qed.
Lemma existsb_attr_ext {T U} (g : cochain V -> option (list T)) (h : cochain V -> option (list U)) d :
  (forall k, In k ks -> isSome (attr g d k) = isSome (attr h d k)) ->
  existsb isSome (map (attr g d) ks) = existsb isSome (map (attr h d) ks).
Proof.
  clear. induction ks as [|k l IH]; intros H; cbn; auto. rewrite (H k (or_introl eq_refl)), IH; auto. intros. apply H. right; auto.
Qed.

Lemma joined_shape {T} (get : cochain V -> option (list T)) (sh : nat -> T -> T) d :
  (forall k, In k ks -> attr get d k = None) -> joined sh (map (attr get d) ks) = None.
Proof. intros H. apply joined_None. intros l Hl. apply in_map_iff in Hl as (k & E & Hk). rewrite H in E by auto. discriminate. Qed.

Lemma U_cochain_wf d c : nth_error (k_cochains KB) d = Some c -> wf_cochain (fun d => length (union_cells cs d)) (k_dim KB) d c.
Proof.
  intros Hc. pose proof (U_at d c Hc) as Hd. pose proof (uc_each _ _ _ _ HU _ _ Hc) as U. pose proof U_wf as HW.
  rewrite (uc_dim _ _ _ _ HU). split.
  - apply U.
  - left. apply U.
  - destruct (K_x ks szs D KB HW HU U_pres d c) as (x & -> & L & _); auto.
    + intros k c' Hk. apply HX; auto.
    + rewrite union_length. auto.
  - destruct (c_upper c) as [u|] eqn:Eu.
    + pose proof (un_upper _ _ _ _ _ U) as E1. rewrite Eu in E1. symmetry in E1. split; [|split].
      * destruct (Nat.lt_ge_cases d D); auto. exfalso. rewrite joined_shape in E1; [discriminate|].
        intros k Hk. unfold attr. destruct (nth_error (k_cochains k) d) as [c'|] eqn:E'; auto.
        destruct (wf_of ks szs HW k Hk) as [sz W]. pose proof (wf_upper _ _ _ _ (wfk_each _ _ W _ _ E')) as Hw.
        destruct (c_upper c'); auto. destruct Hw as (Hlt & _). specialize (HD k Hk). lia.
      * intros a b Hab. apply (in_joined _ _ _ _ E1) in Hab as (i & l & [a0 b0] & Hi & Hin & Eq).
        destruct (attr_at _ _ _ _ _ _ HW Hi) as (k & sz & c' & _ & Es & _ & Hget & W).
        destruct (wf_upper_bound _ _ _ _ _ W Hget a0 b0 Hin) as [A B]. cbn in Eq. inversion Eq; subst. rewrite !union_length.
        pose proof (off_in_range szs i d sz a0 Es A). pose proof (off_in_range szs i d sz b0 Es B). lia.
      * destruct (U_up d c Hc) as [_ L]. pose proof (un_shc _ _ _ _ _ U) as E2.
        assert (Hs : isSome (c_shc c) = true).
        { rewrite E2, isSome_joined, <- (existsb_attr_ext c_upper c_shc).
          - rewrite <- (isSome_joined (fun (i : nat) p => (fst p + off szs i d, snd p + off szs i d))), E1. auto.
          - intros k Hk. unfold attr. destruct (nth_error (k_cochains k) d) as [c'|] eqn:E'; auto.
            destruct (wf_of ks szs HW k Hk) as [sz W]. pose proof (wf_upper _ _ _ _ (wfk_each _ _ W _ _ E')) as Hw.
            destruct (c_upper c'); [destruct Hw as (_ & _ & s & -> & _)|rewrite Hw]; auto. }
        destruct (c_shc c) as [s|] eqn:Es; [|discriminate]. exists s. split; auto. split; [rewrite Eu in L; cbn in L; auto|].
        intros j Hj. symmetry in E2. apply (in_joined _ _ _ _ E2) in Hj as (i & l & j0 & Hi & Hin & ->).
        destruct (attr_at _ _ _ _ _ _ HW Hi) as (k & sz & c' & _ & Ez & _ & Hget & W).
        pose proof (wf_upper _ _ _ _ W) as Hw. destruct (c_upper c'); [|congruence].
        destruct Hw as (_ & _ & s' & Hs' & _ & Hr). rewrite Hget in Hs'. inversion Hs'; subst s'.
        rewrite union_length. pose proof (off_in_range szs i (S d) sz j0 Ez (Hr _ Hin)). lia.
    + rewrite (un_shc _ _ _ _ _ U). pose proof (un_upper _ _ _ _ _ U) as E1. rewrite Eu in E1.
      assert (Hs : isSome (joined (fun (i : nat) j => j + off szs i (S d)) (map (attr c_shc d) ks)) = false).
      { rewrite isSome_joined, <- (existsb_attr_ext c_upper c_shc).
        - rewrite <- (isSome_joined (fun (i : nat) p => (fst p + off szs i d, snd p + off szs i d))), <- E1. auto.
        - intros k Hk. unfold attr. destruct (nth_error (k_cochains k) d) as [c'|] eqn:E'; auto.
          destruct (wf_of ks szs HW k Hk) as [sz W]. pose proof (wf_upper _ _ _ _ (wfk_each _ _ W _ _ E')) as Hw.
          destruct (c_upper c'); [destruct Hw as (_ & _ & s & -> & _)|rewrite Hw]; auto. }
      apply isSome_false; auto.
  - destruct (c_lower c) as [u|] eqn:Eu.
    + pose proof (un_lower _ _ _ _ _ U) as E1. rewrite Eu in E1. symmetry in E1. split; [|split].
      * destruct d; [|lia]. exfalso. rewrite joined_shape in E1; [discriminate|].
        intros k Hk. unfold attr. destruct (nth_error (k_cochains k) 0) as [c'|] eqn:E'; auto.
        destruct (wf_of ks szs HW k Hk) as [sz W]. pose proof (wf_lower _ _ _ _ (wfk_each _ _ W _ _ E')) as Hw.
        destruct (c_lower c'); auto. destruct Hw as (Hlt & _). lia.
      * intros a b Hab. apply (in_joined _ _ _ _ E1) in Hab as (i & l & [a0 b0] & Hi & Hin & Eq).
        destruct (attr_at _ _ _ _ _ _ HW Hi) as (k & sz & c' & _ & Es & _ & Hget & W).
        destruct (wf_lower_bound _ _ _ _ _ W Hget a0 b0 Hin) as [A B]. cbn in Eq. inversion Eq; subst. rewrite !union_length.
        pose proof (off_in_range szs i d sz a0 Es A). pose proof (off_in_range szs i d sz b0 Es B). lia.
      * destruct (U_low d c Hc) as [_ L]. pose proof (un_shb _ _ _ _ _ U) as E2.
        assert (Hs : isSome (c_shb c) = true).
        { rewrite E2, isSome_joined, <- (existsb_attr_ext c_lower c_shb).
          - rewrite <- (isSome_joined (fun (i : nat) p => (fst p + off szs i d, snd p + off szs i d))), E1. auto.
          - intros k Hk. unfold attr. destruct (nth_error (k_cochains k) d) as [c'|] eqn:E'; auto.
            destruct (wf_of ks szs HW k Hk) as [sz W]. pose proof (wf_lower _ _ _ _ (wfk_each _ _ W _ _ E')) as Hw.
            destruct (c_lower c'); [destruct Hw as (_ & _ & s & -> & _)|rewrite Hw]; auto. }
        destruct (c_shb c) as [s|] eqn:Es; [|discriminate]. exists s. split; auto. split; [rewrite Eu in L; cbn in L; auto|].
        intros j Hj. symmetry in E2. apply (in_joined _ _ _ _ E2) in Hj as (i & l & j0 & Hi & Hin & ->).
        destruct (attr_at _ _ _ _ _ _ HW Hi) as (k & sz & c' & _ & Ez & _ & Hget & W).
        pose proof (wf_lower _ _ _ _ W) as Hw. destruct (c_lower c'); [|congruence].
        destruct Hw as (_ & _ & s' & Hs' & _ & Hr). rewrite Hget in Hs'. inversion Hs'; subst s'.
        rewrite union_length. pose proof (off_in_range szs i (pred d) sz j0 Ez (Hr _ Hin)). lia.
    + rewrite (un_shb _ _ _ _ _ U). pose proof (un_lower _ _ _ _ _ U) as E1. rewrite Eu in E1.
      assert (Hs : isSome (joined (fun (i : nat) j => j + off szs i (pred d)) (map (attr c_shb d) ks)) = false).
      { rewrite isSome_joined, <- (existsb_attr_ext c_lower c_shb).
        - rewrite <- (isSome_joined (fun (i : nat) p => (fst p + off szs i d, snd p + off szs i d))), <- E1. auto.
        - intros k Hk. unfold attr. destruct (nth_error (k_cochains k) d) as [c'|] eqn:E'; auto.
          destruct (wf_of ks szs HW k Hk) as [sz W]. pose proof (wf_lower _ _ _ _ (wfk_each _ _ W _ _ E')) as Hw.
          destruct (c_lower c'); [destruct Hw as (_ & _ & s & -> & _)|rewrite Hw]; auto. }
      apply isSome_false; auto.
  - destruct (c_bidx c) as [u|] eqn:Eu; auto.
    pose proof (un_bidx _ _ _ _ _ U) as E1. rewrite Eu in E1. symmetry in E1. split.
    + destruct d; [|lia]. exfalso. rewrite joined_shape in E1; [discriminate|].
      intros k Hk. destruct (wf_of ks szs HW k Hk) as [sz W]. exact (attr_bidx_0 [] [] eq_refl k sz W).
    + intros f t Hab. apply (in_joined _ _ _ _ E1) in Hab as (i & l & [a0 b0] & Hi & Hin & Eq).
      destruct (attr_at _ _ _ _ _ _ HW Hi) as (k & sz & c' & _ & Es & _ & Hget & W).
      destruct (wf_bidx_bound _ _ _ _ _ W Hget a0 b0 Hin) as [A B]. cbn in Eq. inversion Eq; subst. rewrite !union_length.
      pose proof (off_in_range szs i (pred d) sz a0 Es A). pose proof (off_in_range szs i d sz b0 Es B). lia.
  - pose proof (un_nup _ _ _ _ _ U) as E. destruct (d <? D); [rewrite union_length|]; auto.
  - intros H0. rewrite union_length. apply (un_ndown _ _ _ _ _ U H0).
Qed.

Theorem batch_cells : has_cells (union_cells cs) down (fun d => attr c_x d KB) KB.
Proof.
  pose proof U_wf as HW.
  assert (Mem : forall i k, nth_error ks i = Some k -> exists c, nth_error cs i = Some c /\ has_cells c down (fun d => attr c_x d k) k).
  { intros i k Hi. destruct (U_mem i k Hi) as (c & H1 & _ & H2). eauto. }
  assert (BU : forall d i j c c' a b, nth_error cs i = Some c -> nth_error cs j = Some c' -> a < length (c d) -> b < length (c' d) ->
    a + off szs i d = b + off szs j d -> i = j /\ a = b).
  { intros d i j c c' a b Hi Hj. apply (block_unique szs d i j (fun d => length (c d)) (fun d => length (c' d))); apply szs_at; auto. }
  split.
  - split.
    + rewrite (uc_dim _ _ _ _ HU). apply (uc_len _ _ _ _ HU).
    + apply U_cochain_wf.
    + intros d Hd. rewrite (uc_dim _ _ _ _ HU) in Hd. rewrite union_length. unfold total.
      clear -HW HD Hd. induction HW as [|k sz ks szs W HW IH]; cbn; auto.
      assert (E1 : sz d = 0) by (apply (wfk_above _ _ W); specialize (HD k (or_introl eq_refl)); lia).
      assert (E2 : forall k, In k ks -> k_dim k <= D) by (intros; apply HD; right; auto).
      rewrite E1. apply IH; auto.
  - intros d Hd. rewrite (uc_dim _ _ _ _ HU) in Hd. destruct (U_pres d Hd) as (k & Hk & Hkd).
    apply In_nth_error in Hk as [i Hi]. destruct (Mem i k Hi) as (c & Hc & H). pose proof (hc_occupied _ _ _ _ H d Hkd) as Ne.
    destruct (c d) as [|s l] eqn:E; [congruence|]. intros E0.
    assert (N : names (union_cells cs) d (0 + off szs i d) (map (fun v => v + off szs i 0) s)).
    { apply union_names. exists i, c, 0, s. unfold names. rewrite E. auto. }
    unfold names in N. rewrite E0 in N. destruct (0 + off szs i d); discriminate.
  - intros d c Hc. unfold attr. rewrite Hc. auto.
  - intros c Hc. pose proof (uc_each _ _ _ _ HU _ _ Hc) as U.
    rewrite (un_bidx _ _ _ _ _ U), (un_lower _ _ _ _ _ U), (un_shb _ _ _ _ _ U).
    assert (G : forall k, In k ks -> attr c_bidx 0 k = None /\ attr c_lower 0 k = None /\ attr c_shb 0 k = None).
    { intros k Hk. apply In_nth_error in Hk as [i Hi]. destruct (Mem i k Hi) as (c' & _ & H). unfold attr.
      destruct (nth_error (k_cochains k) 0) eqn:E; auto. apply (hc_bnd0 _ _ _ _ H); auto. }
    rewrite !joined_shape; auto; intros k Hk; apply G; auto.
  - intros d c Hc. split.
    + intros f t. rewrite (U_bnd _ _ Hc), in_concat_mapi, union_face by auto. cbn [pred]. split.
      * intros (i & k & Hi & Hin). apply in_map_iff in Hin as ([f0 t0] & E & Hin). cbn in E. inversion E; subst.
        destruct (Mem i k Hi) as (c' & Hc' & H). apply (proj1 (M_bnd k c' _ d H)) in Hin. exists i, c', f0, t0. auto.
      * intros (i & c' & f0 & t0 & Hc' & HF & -> & ->). destruct (U_mem' i c' Hc') as (k & Hi & H).
        exists i, k. split; auto. apply in_map_iff. exists (f0, t0). split; auto. apply (proj1 (M_bnd k c' _ d H)); auto.
    + rewrite (U_bnd _ _ Hc). cbn [pred]. apply nodup_blocks.
      * intros i k Hi. destruct (Mem i k Hi) as (c' & Hc' & H). apply NoDup_map_inj; [|apply (M_bnd k c' _ d H)].
        intros [a b] [a' b'] _ _ E. cbn in E. inversion E. f_equal; lia.
      * intros i j k k' [f t] Hi Hj X1 X2. apply in_map_iff in X1 as ([f0 t0] & E & X1), X2 as ([f1 t1] & E' & X2). cbn in E, E'.
        destruct (Mem i k Hi) as (c1 & Hc1 & H1). destruct (Mem j k' Hj) as (c2 & Hc2 & H2).
        apply (proj1 (M_bnd k c1 _ d H1)), face_lt in X1. apply (proj1 (M_bnd k' c2 _ d H2)), face_lt in X2.
        inversion E; subst. inversion E'. eapply (BU d i j c1 c2 f0 f1); eauto; tauto.
    + rewrite (U_bnd _ _ Hc). cbn [pred]. intros i j p q. revert i j p q.
      change (pairwise (fun p q : nat * nat => snd p <= snd q) (concat (mapi (fun i k => map (fun q => (fst q + off szs i d, snd q + off szs i (S d))) (content (attr c_bidx (S d) k))) ks))).
      apply pairwise_blocks.
      * intros i k Hi. destruct (Mem i k Hi) as (c' & Hc' & H). destruct (M_bnd k c' _ d H) as (_ & _ & PW).
        intros a b p q Ha Hb Hlt. rewrite nth_error_map in Ha, Hb.
        destruct (nth_error _ a) as [p0|] eqn:Ea; [|discriminate]. destruct (nth_error (content (attr c_bidx (S d) k)) b) as [q0|] eqn:Eb; [|discriminate].
        cbn in Ha, Hb. inversion Ha; inversion Hb; subst. cbn. specialize (PW a b p0 q0 Ea Eb Hlt). cbn in PW. lia.
      * intros i j k k' x y Hi Hj Hlt X1 X2. apply in_map_iff in X1 as ([f0 t0] & <- & X1), X2 as ([f1 t1] & <- & X2). cbn.
        destruct (Mem i k Hi) as (c1 & Hc1 & H1). apply (proj1 (M_bnd k c1 _ d H1)), face_lt in X1.
        pose proof (off_S szs i (S d) _ (szs_at _ _ _ Hc1)). pose proof (off_mono szs (S i) j (S d) Hlt). lia.
  - intros d c Hc. destruct (U_up d c Hc) as [ET EL]. split; auto; rewrite ET.
    + intros a b t. rewrite in_concat_mapi, !union_face by auto. split.
      * intros (i & k & Hi & Hin). apply in_map_iff in Hin as ([[a0 b0] t0] & E & Hin). cbn in E. inversion E; subst.
        destruct (Mem i k Hi) as (c' & Hc' & H). destruct (M_up k c' _ d H) as [MI _]; apply MI in Hin; destruct Hin as (Hne & F1 & F2).
        split; [lia|]. split; [exists i, c', a0, t0|exists i, c', b0, t0]; auto.
      * intros (Hne & (i & c1 & a0 & t0 & Hc1 & F1 & -> & ->) & (j & c2 & b0 & t1 & Hc2 & F2 & -> & E)).
        destruct (BU (S d) i j c1 c2 t0 t1 Hc1 Hc2) as [-> ->]; auto; [apply face_lt in F1; tauto|apply face_lt in F2; tauto|].
        rewrite Hc1 in Hc2. inversion Hc2; subst c2. destruct (U_mem' j c1 Hc1) as (k & Hi & H). exists j, k. split; auto.
        apply in_map_iff. exists ((a0, b0), t1). split; auto. apply (proj1 (M_up k c1 _ d H)). split; [lia|auto].
    + apply nodup_blocks.
      * intros i k Hi. destruct (Mem i k Hi) as (c' & Hc' & H). apply NoDup_map_inj; [|apply (M_up k c' _ d H)].
        intros [[a b] t] [[a' b'] t'] _ _ E. cbn in E. inversion E. repeat f_equal; lia.
      * intros i j k k' [[a b] t] Hi Hj X1 X2. apply in_map_iff in X1 as ([[a0 b0] t0] & E & X1), X2 as ([[a1 b1] t1] & E' & X2). cbn in E, E'.
        destruct (Mem i k Hi) as (c1 & Hc1 & H1). destruct (Mem j k' Hj) as (c2 & Hc2 & H2).
        destruct (M_up k c1 _ d H1) as [MI1 _], (M_up k' c2 _ d H2) as [MI2 _]; apply MI1 in X1; apply MI2 in X2; destruct X1 as (_ & X1 & _), X2 as (_ & X2 & _).
        apply face_lt in X1, X2. inversion E; subst. inversion E'. eapply (BU d i j c1 c2 a0 a1); eauto; tauto.
  - intros d c Hc. pose proof (uc_each _ _ _ _ HU _ _ Hc) as U.
    destruct (Bool.bool_dec down true) as [Ed|Ed]; [rewrite Ed|apply not_true_is_false in Ed; rewrite Ed].
    2:{ rewrite (un_lower _ _ _ _ _ U), (un_shb _ _ _ _ _ U).
        assert (G : forall k, In k ks -> attr c_lower (S d) k = None /\ attr c_shb (S d) k = None).
        { intros k Hk. apply In_nth_error in Hk as [i Hi]. destruct (Mem i k Hi) as (c' & _ & H). unfold attr.
          destruct (nth_error (k_cochains k) (S d)) as [c0|] eqn:E; auto. pose proof (hc_low _ _ _ _ H d c0 E) as HL. rewrite Ed in HL. exact HL. }
        rewrite !joined_shape; auto; intros k Hk; apply G; auto. }
    destruct (U_low (S d) c Hc) as [ET EL]. cbn [pred] in ET.
    pose proof (fun k c X H => M_low k c X d Ed H) as ML.
    split; auto; rewrite ET.
    + intros a b t. rewrite in_concat_mapi, !union_face by auto. split.
      * intros (i & k & Hi & Hin). apply in_map_iff in Hin as ([[a0 b0] t0] & E & Hin). cbn in E. inversion E; subst.
        destruct (Mem i k Hi) as (c' & Hc' & H). destruct (ML k c' _ H) as [MI _]; apply MI in Hin; destruct Hin as (Hne & F1 & F2).
        split; [lia|]. split; [exists i, c', t0, a0|exists i, c', t0, b0]; auto.
      * intros (Hne & (i & c1 & t0 & a0 & Hc1 & F1 & -> & ->) & (j & c2 & t1 & b0 & Hc2 & F2 & E & ->)).
        destruct (BU d i j c1 c2 t0 t1 Hc1 Hc2) as [-> ->]; auto; [apply face_lt in F1; tauto|apply face_lt in F2; tauto|].
        rewrite Hc1 in Hc2. inversion Hc2; subst c2. destruct (U_mem' j c1 Hc1) as (k & Hi & H). exists j, k. split; auto.
        apply in_map_iff. exists ((a0, b0), t1). split; auto. apply (proj1 (ML k c1 _ H)). split; [lia|auto].
    + apply nodup_blocks.
      * intros i k Hi. destruct (Mem i k Hi) as (c' & Hc' & H). apply NoDup_map_inj; [|apply (ML k c' _ H)].
        intros [[a b] t] [[a' b'] t'] _ _ E. cbn in E. inversion E. repeat f_equal; lia.
      * intros i j k k' [[a b] t] Hi Hj X1 X2. apply in_map_iff in X1 as ([[a0 b0] t0] & E & X1), X2 as ([[a1 b1] t1] & E' & X2). cbn in E, E'.
        destruct (Mem i k Hi) as (c1 & Hc1 & H1). destruct (Mem j k' Hj) as (c2 & Hc2 & H2).
        destruct (ML k c1 _ H1) as [MI1 _], (ML k' c2 _ H2) as [MI2 _]; apply MI1 in X1; apply MI2 in X2; destruct X1 as (_ & X1 & _), X2 as (_ & X2 & _).
        apply face_lt in X1, X2. inversion E; subst. inversion E'. eapply (BU (S d) i j c1 c2 a0 a1); eauto; tauto.
Qed.
End Batch.
