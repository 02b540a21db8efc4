From Coq Require Import List Arith Lia ZArith Bool.
From Verif Require Import Base ComplexModel BatchSpec BatchSpec2 BatchProofs.
Import ListNotations.

Lemma in_block_iff lo n j : in_block lo n j = true <-> lo <= j < lo + n.
Proof.
  unfold in_block. rewrite andb_true_iff, Nat.leb_le, Nat.ltb_lt. tauto.
Qed.

Lemma filter_all {A} (P : A -> bool) l : (forall a, In a l -> P a = true) -> filter P l = l.
Proof.
  induction l as [|a l IH]; intros H; simpl; auto. rewrite H by (left; auto).
  f_equal. apply IH. intros; apply H; right; auto.
Qed.

Lemma filter_none {A} (P : A -> bool) l : (forall a, In a l -> P a = false) -> filter P l = [].
Proof.
  induction l as [|a l IH]; intros H; simpl; auto. rewrite H by (left; auto).
  apply IH. intros; apply H; right; auto.
Qed.

(** Only block [k] survives a filter that rejects all other blocks. *)
Lemma filter_concat_mapi_from {A T} (P : T -> bool) (f : nat -> A -> list T) s l k a :
  nth_error l k = Some a ->
  (forall i b, nth_error l i = Some b -> i <> k -> filter P (f (s + i) b) = []) ->
  filter P (concat (mapi_from f s l)) = filter P (f (s + k) a).
Proof.
  revert s k; induction l as [|b l IH]; intros s [|k] Hk H; simpl in *; try discriminate.
  - inversion Hk; subst b. rewrite filter_app, Nat.add_0_r.
    assert (E : filter P (concat (mapi_from f (S s) l)) = []).
    { assert (H' : forall i c, nth_error l i = Some c -> filter P (f (S s + i) c) = []).
      { intros i c Hi. rewrite <- (H (S i) c Hi) by lia. do 2 f_equal. lia. }
      clear -H'. revert s H'; induction l as [|c l IH]; intros s H'; simpl; auto.
      rewrite filter_app. rewrite (IH (S s)).
      - specialize (H' 0 c eq_refl). rewrite Nat.add_0_r in H'. rewrite H'; auto.
      - intros i e Hi. rewrite <- (H' (S i) e Hi). do 2 f_equal. lia. }
    rewrite E, app_nil_r; auto.
  - rewrite filter_app.
    pose proof (H 0 b eq_refl) as H0. rewrite Nat.add_0_r in H0. rewrite H0 by lia. simpl.
    rewrite (IH (S s) k Hk).
    + do 2 f_equal. lia.
    + intros i c Hi Hne. rewrite <- (H (S i) c Hi) by lia. do 2 f_equal. lia.
Qed.

Lemma filter_concat_mapi {A T} (P : T -> bool) (f : nat -> A -> list T) l k a :
  nth_error l k = Some a ->
  (forall i b, nth_error l i = Some b -> i <> k -> filter P (f i b) = []) ->
  filter P (concat (mapi f l)) = filter P (f k a).
Proof. intros; apply (filter_concat_mapi_from P f 0); auto. Qed.

(** Selecting rows of a concatenation. *)
Lemma nth_error_concat_mapi_from {A T} (f : nat -> A -> list T) s l k a j :
  nth_error l k = Some a -> j < length (f (s + k) a) ->
  nth_error (concat (mapi_from f s l))
    (length (concat (mapi_from f s (firstn k l))) + j) = nth_error (f (s + k) a) j.
Proof.
  revert s k; induction l as [|b l IH]; intros s [|k] Hk Hj; simpl in *; try discriminate.
  - inversion Hk; subst. rewrite Nat.add_0_r in *. apply nth_error_app1; auto.
  - rewrite app_length. rewrite nth_error_app2 by lia.
    replace (length (f s b) + length (concat (mapi_from f (S s) (firstn k l))) + j - length (f s b))
      with (length (concat (mapi_from f (S s) (firstn k l))) + j) by lia.
    rewrite Nat.add_succ_r in *. apply (IH (S s)); auto.
Qed.

Lemma rows_of_concat {A T} (f : nat -> A -> list T) s l k a :
  nth_error l k = Some a ->
  rows_of (length (concat (mapi_from f s (firstn k l)))) (length (f (s + k) a))
    (concat (mapi_from f s l)) = f (s + k) a.
Proof.
  revert s k; induction l as [|b l IH]; intros s [|k] Hk; simpl in *; try discriminate.
  - inversion Hk; subst. rewrite Nat.add_0_r. unfold rows_of; simpl.
    rewrite firstn_app, Nat.sub_diag, firstn_all, firstn_O, app_nil_r; auto.
  - rewrite app_length. unfold rows_of in *. rewrite skipn_app.
    rewrite skipn_all2 by lia. simpl.
    replace (length (f s b) + length (concat (mapi_from f (S s) (firstn k l))) - length (f s b))
      with (length (concat (mapi_from f (S s) (firstn k l)))) by lia.
    rewrite Nat.add_succ_r. apply (IH (S s)); auto.
Qed.

Section Proofs.
Context {V : Type}.
Notation cochain := (cochain V).
Notation complex := (complex V).

Lemma membership_length szs d : length (membership szs d) = total szs d.
Proof.
  unfold membership, total, mapi. generalize 0. induction szs as [|s szs IH]; intros i; simpl; auto.
  rewrite app_length, repeat_length, IH; auto.
Qed.

Lemma off_membership szs s k d :
  length (concat (mapi_from (fun i (sz : nat -> nat) => repeat i (sz d)) s (firstn k szs))) = off szs k d.
Proof.
  unfold off. revert s k. induction szs as [|z szs IH]; intros s [|k]; simpl; auto.
  rewrite app_length, repeat_length, IH; auto.
Qed.

Lemma membership_at szs d i sz j :
  nth_error szs i = Some sz -> j < sz d ->
  nth_error (membership szs d) (off szs i d + j) = Some i.
Proof.
  intros Hi Hj. unfold membership, mapi.
  pose proof (nth_error_concat_mapi_from (fun i (sz : nat -> nat) => repeat i (sz d)) 0 szs i sz j Hi) as H.
  rewrite off_membership in H. rewrite H by (rewrite repeat_length; auto). simpl.
  rewrite (nth_error_nth' _ i) by (rewrite repeat_length; auto). f_equal.
  apply nth_repeat.
Qed.

Lemma membership_inv szs d t i :
  nth_error (membership szs d) t = Some i ->
  exists sz, nth_error szs i = Some sz /\ off szs i d <= t < off szs i d + sz d.
Proof.
  intros H. assert (Ht : t < total szs d) by (rewrite <- membership_length; apply nth_error_Some; congruence).
  destruct (block_of szs d t Ht) as (i' & sz & j & Hi & Hj & ->).
  rewrite Nat.add_comm in H. rewrite (membership_at szs d i' sz j Hi Hj) in H.
  inversion H; subst. exists sz. split; auto. lia.
Qed.

(** ** Pairs stay in their block *)
Lemma attr_at {T} (get : cochain -> option (list T)) d ks szs i l :
  Forall2 wf_complex ks szs ->
  nth_error (map (attr get d) ks) i = Some (Some l) ->
  exists k sz c, nth_error ks i = Some k /\ nth_error szs i = Some sz /\
    nth_error (k_cochains k) d = Some c /\ get c = Some l /\ wf_cochain sz (k_dim k) d c.
Proof.
  intros HW Hi. rewrite nth_error_map in Hi.
  destruct (nth_error ks i) as [k|] eqn:Ei; [|discriminate].
  destruct (Forall2_nth_error_l _ _ _ HW _ _ Ei) as (sz & Es & W).
  simpl in Hi. unfold attr in Hi. destruct (nth_error (k_cochains k) d) as [c|] eqn:E; [|discriminate].
  exists k, sz, c. split; [auto|]. split; [auto|]. split; [auto|]. split; [congruence|].
  apply (wfk_each _ _ W _ _ E).
Qed.

Lemma adj_in_block (get : cochain -> option (list (nat * nat))) ks szs d L a b :
  (forall sz D c u, wf_cochain sz D d c -> get c = Some u ->
     forall a b, In (a, b) u -> a < sz d /\ b < sz d) ->
  Forall2 wf_complex ks szs ->
  joined (fun i p => (fst p + off szs i d, snd p + off szs i d)) (map (attr get d) ks) = Some L ->
  In (a, b) L ->
  exists i, nth_error (membership szs d) a = Some i /\ nth_error (membership szs d) b = Some i.
Proof.
  intros Hg HW HJ Hin. apply (in_joined _ _ _ _ HJ) in Hin as (i & l & [a0 b0] & Hi & Ha & E).
  destruct (attr_at _ _ _ _ _ _ HW Hi) as (k & sz & c & _ & Es & _ & Hget & W).
  destruct (Hg _ _ _ _ W Hget a0 b0 Ha). simpl in E. inversion E; subst.
  exists i. rewrite !(Nat.add_comm _ (off szs i d)). split; apply (membership_at _ _ _ sz); auto.
Qed.

Lemma wf_upper_bound sz D d (c : cochain) u :
  wf_cochain sz D d c -> c_upper c = Some u -> forall a b, In (a, b) u -> a < sz d /\ b < sz d.
Proof. intros W E. pose proof (wf_upper _ _ _ _ W) as H. rewrite E in H. apply H. Qed.

Lemma wf_lower_bound sz D d (c : cochain) u :
  wf_cochain sz D d c -> c_lower c = Some u -> forall a b, In (a, b) u -> a < sz d /\ b < sz d.
Proof. intros W E. pose proof (wf_lower _ _ _ _ W) as H. rewrite E in H. apply H. Qed.

Lemma wf_bidx_bound sz D d (c : cochain) u :
  wf_cochain sz D d c -> c_bidx c = Some u -> forall a b, In (a, b) u -> a < sz (pred d) /\ b < sz d.
Proof. intros W E. pose proof (wf_bidx _ _ _ _ W) as H. rewrite E in H. apply H. Qed.

Lemma bidx_in_block (ks : list complex) szs d L f t :
  Forall2 wf_complex ks szs ->
  joined (fun i p => (fst p + off szs i (pred d), snd p + off szs i d)) (map (attr c_bidx d) ks) = Some L ->
  In (f, t) L ->
  exists i, nth_error (membership szs (pred d)) f = Some i /\ nth_error (membership szs d) t = Some i.
Proof.
  intros HW HJ Hin. apply (in_joined _ _ _ _ HJ) in Hin as (i & l & [a0 b0] & Hi & Ha & E).
  destruct (attr_at _ _ _ _ _ _ HW Hi) as (k & sz & c & _ & Es & _ & Hget & W).
  destruct (wf_bidx_bound _ _ _ _ _ W Hget a0 b0 Ha). simpl in E. inversion E; subst.
  exists i. rewrite !(Nat.add_comm _ (off szs i _)). split; apply (membership_at _ _ _ sz); auto.
Qed.

(** Columns paired with their references. *)
Lemma combine_app' {A B} (l1 l2 : list A) (m1 m2 : list B) :
  length l1 = length m1 -> combine (l1 ++ l2) (m1 ++ m2) = combine l1 m1 ++ combine l2 m2.
Proof.
  revert m1; induction l1 as [|a l1 IH]; intros [|b m1] H; simpl in *; try discriminate; auto.
  f_equal; auto.
Qed.

Lemma combine_concat_mapi {A B C} (f : nat -> C -> list A) (g : nat -> C -> list B) s l :
  (forall i c, nth_error l i = Some c -> length (f (s + i) c) = length (g (s + i) c)) ->
  combine (concat (mapi_from f s l)) (concat (mapi_from g s l)) =
  concat (mapi_from (fun i c => combine (f i c) (g i c)) s l).
Proof.
  revert s; induction l as [|c l IH]; intros s H; simpl; auto.
  rewrite combine_app'.
  - f_equal. apply IH. intros i e Hi. specialize (H (S i) e Hi). rewrite Nat.add_succ_r in H; auto.
  - specialize (H 0 c eq_refl). rewrite Nat.add_0_r in H; auto.
Qed.

Lemma combine_map2 {A B C D} (f : A -> C) (g : B -> D) l m :
  combine (map f l) (map g m) = map (fun q => (f (fst q), g (snd q))) (combine l m).
Proof.
  revert m; induction l as [|a l IH]; intros [|b m]; simpl; auto. f_equal; auto.
Qed.

Lemma joined_content {T} (shift : nat -> T -> T) ls :
  content (joined shift ls) = concat (mapi (fun i o => map (shift i) (content o)) ls).
Proof.
  assert (E : forall s, mapi_from (fun i o => match o with Some l => map (shift i) l | None => [] end) s ls
    = mapi_from (fun i o => map (shift i) (content o)) s ls).
  { intros s. apply mapi_from_ext. intros i [l|] _; auto. }
  unfold joined, mapi. rewrite <- E. destruct (existsb isSome ls) eqn:Ex; simpl; auto.
  clear E. symmetry. generalize 0.
  induction ls as [|o ls IH]; intros s; simpl in *; auto.
  destruct o; [discriminate|]. simpl. apply IH; auto.
Qed.

(** Pairs of two adjacent list-valued attributes of the members. *)
Lemma joined_combine {T U} (get1 : cochain -> option (list T)) (get2 : cochain -> option (list U))
    sh1 sh2 (ks : list complex) d :
  (forall k, In k ks -> length (content (attr get1 d k)) = length (content (attr get2 d k))) ->
  combine (content (joined sh1 (map (attr get1 d) ks))) (content (joined sh2 (map (attr get2 d) ks))) =
  concat (mapi (fun i k => map (fun q => (sh1 i (fst q), sh2 i (snd q)))
                             (combine (content (attr get1 d k)) (content (attr get2 d k)))) ks).
Proof.
  intros H. rewrite !joined_content, !mapi_map. unfold mapi. rewrite combine_concat_mapi.
  - f_equal. apply mapi_from_ext. intros i k _. apply combine_map2.
  - intros i k Hi. rewrite !map_length. apply H. eapply nth_error_In; eauto.
Qed.

Lemma attr_shc_length (k : complex) sz d : wf_complex k sz ->
  length (content (attr c_upper d k)) = length (content (attr c_shc d k)).
Proof.
  intros W. unfold attr. destruct (nth_error (k_cochains k) d) as [c|] eqn:E; auto.
  pose proof (wf_upper _ _ _ _ (wfk_each _ _ W _ _ E)) as H.
  destruct (c_upper c) as [u|].
  - destruct H as (_ & _ & s & -> & Hl & _). simpl; auto.
  - rewrite H; auto.
Qed.

Lemma attr_shb_length (k : complex) sz d : wf_complex k sz ->
  length (content (attr c_lower d k)) = length (content (attr c_shb d k)).
Proof.
  intros W. unfold attr. destruct (nth_error (k_cochains k) d) as [c|] eqn:E; auto.
  pose proof (wf_lower _ _ _ _ (wfk_each _ _ W _ _ E)) as H.
  destruct (c_lower c) as [u|].
  - destruct H as (_ & _ & s & -> & Hl & _). simpl; auto.
  - rewrite H; auto.
Qed.

(** A column and its reference belong to the same member. *)
Lemma refs_in_block (getp : cochain -> option (list (nat * nat))) (getr : cochain -> option (list nat))
    ks szs d e p s :
  Forall2 wf_complex ks szs ->
  (forall k sz, wf_complex k sz -> length (content (attr getp d k)) = length (content (attr getr d k))) ->
  (forall sz D c, wf_cochain sz D d c ->
     (forall u, getp c = Some u -> forall a b, In (a, b) u -> a < sz d /\ b < sz d) /\
     (forall u, getr c = Some u -> forall j, In j u -> j < sz e)) ->
  In (p, s) (combine
     (content (joined (fun i p => (fst p + off szs i d, snd p + off szs i d)) (map (attr getp d) ks)))
     (content (joined (fun i j => j + off szs i e) (map (attr getr d) ks)))) ->
  exists i, nth_error (membership szs d) (fst p) = Some i /\
            nth_error (membership szs d) (snd p) = Some i /\
            nth_error (membership szs e) s = Some i.
Proof.
  intros HW HL HB Hin. rewrite joined_combine in Hin.
  2:{ intros k Hk. apply In_nth_error in Hk as [i Hi].
      destruct (Forall2_nth_error_l _ _ _ HW _ _ Hi) as (sz & _ & W). eapply HL; eauto. }
  apply in_concat_mapi in Hin as (i & k & Hi & Hin).
  destruct (Forall2_nth_error_l _ _ _ HW _ _ Hi) as (sz & Es & W).
  apply in_map_iff in Hin as ([q r] & E & Hin). simpl in E. inversion E; subst p s; clear E.
  pose proof (in_combine_l _ _ _ _ Hin) as H1. pose proof (in_combine_r _ _ _ _ Hin) as H2.
  unfold attr in H1, H2. destruct (nth_error (k_cochains k) d) as [c|] eqn:Ec; [|destruct H1].
  destruct (HB _ _ _ (wfk_each _ _ W _ _ Ec)) as [B1 B2].
  destruct (getp c) as [u|] eqn:Eu; [|destruct H1]. destruct (getr c) as [v|] eqn:Ev; [|destruct H2].
  destruct q as [a b]. destruct (B1 u eq_refl a b H1). specialize (B2 v eq_refl r H2).
  exists i. simpl. rewrite !(Nat.add_comm _ (off szs i _)).
  split; [|split]; apply (membership_at _ _ _ sz); auto.
Qed.

(** ** Losslessness *)
Lemma block_other szs d i k szi szk j :
  nth_error szs i = Some szi -> nth_error szs k = Some szk -> i <> k -> j < szi d ->
  in_block (off szs k d) (szk d) (j + off szs i d) = false.
Proof.
  intros Hi Hk Hne Hj. apply not_true_is_false. rewrite in_block_iff. intros H.
  destruct (block_unique szs d i k szi szk j (j + off szs i d - off szs k d)); auto; lia.
Qed.

Lemma block_self szs d k szk j : j < szk d ->
  in_block (off szs k d) (szk d) (j + off szs k d) = true.
Proof. intros. apply in_block_iff. lia. Qed.

Lemma joined_restrict (get : cochain -> option (list (nat * nat))) (ks : list complex) szs e d i k sz :
  (forall sz D c u, wf_cochain sz D d c -> get c = Some u ->
     forall a b, In (a, b) u -> a < sz e /\ b < sz d) ->
  Forall2 wf_complex ks szs -> nth_error ks i = Some k -> nth_error szs i = Some sz ->
  restrict (off szs i e) (sz e) (off szs i d) (sz d)
    (content (joined (fun i p => (fst p + off szs i e, snd p + off szs i d)) (map (attr get d) ks)))
  = content (attr get d k).
Proof.
  intros Hg HW Hi Hs. unfold restrict. rewrite joined_content, mapi_map.
  assert (HB : forall j k' sz', nth_error ks j = Some k' -> nth_error szs j = Some sz' ->
     forall p, In p (content (attr get d k')) -> fst p < sz' e /\ snd p < sz' d).
  { intros j k' sz' Hj Hs' [a b] Hp.
    destruct (Forall2_nth_error_l _ _ _ HW _ _ Hj) as (sz'' & Es & W).
    assert (sz'' = sz') by congruence. subst.
    unfold attr in Hp. destruct (nth_error (k_cochains k') d) as [c|] eqn:Ec; [|destruct Hp].
    destruct (get c) as [u|] eqn:Eu; [|destruct Hp].
    apply (Hg _ _ _ _ (wfk_each _ _ W _ _ Ec) Eu _ _ Hp). }
  rewrite (filter_concat_mapi _ _ _ i k Hi).
  - rewrite filter_all.
    + rewrite map_map. rewrite <- (map_id (content (attr get d k))) at 2. apply map_ext.
      intros [a b]; simpl. f_equal; lia.
    + intros p Hp. apply in_map_iff in Hp as (q & <- & Hq).
      destruct (HB _ _ _ Hi Hs q Hq). simpl. rewrite !block_self; auto.
  - intros j k' Hj Hne. apply filter_none. intros p Hp.
    apply in_map_iff in Hp as (q & <- & Hq).
    destruct (Forall2_nth_error_l _ _ _ HW _ _ Hj) as (sz' & Es & W).
    destruct (HB _ _ _ Hj Es q Hq). simpl. rewrite (block_other szs e j i sz' sz); auto.
Qed.

Lemma joined_restrict_refs (getp : cochain -> option (list (nat * nat)))
    (getr : cochain -> option (list nat)) (ks : list complex) szs e d i k sz :
  (forall k sz, wf_complex k sz -> length (content (attr getp d k)) = length (content (attr getr d k))) ->
  (forall sz D c u, wf_cochain sz D d c -> getp c = Some u ->
     forall a b, In (a, b) u -> a < sz d /\ b < sz d) ->
  Forall2 wf_complex ks szs -> nth_error ks i = Some k -> nth_error szs i = Some sz ->
  restrict_refs (off szs i d) (sz d) (off szs i e)
    (content (joined (fun i p => (fst p + off szs i d, snd p + off szs i d)) (map (attr getp d) ks)))
    (content (joined (fun i j => j + off szs i e) (map (attr getr d) ks)))
  = content (attr getr d k).
Proof.
  intros HL Hg HW Hi Hs. unfold restrict_refs. rewrite joined_combine.
  2:{ intros k' Hk. apply In_nth_error in Hk as [j Hj].
      destruct (Forall2_nth_error_l _ _ _ HW _ _ Hj) as (sz' & _ & W). eapply HL; eauto. }
  assert (HB : forall j k' sz', nth_error ks j = Some k' -> nth_error szs j = Some sz' ->
     forall p r, In (p, r) (combine (content (attr getp d k')) (content (attr getr d k'))) ->
        fst p < sz' d /\ snd p < sz' d).
  { intros j k' sz' Hj Hs' [a b] r Hp. apply in_combine_l in Hp.
    destruct (Forall2_nth_error_l _ _ _ HW _ _ Hj) as (sz'' & Es & W).
    assert (sz'' = sz') by congruence. subst.
    unfold attr in Hp. destruct (nth_error (k_cochains k') d) as [c|] eqn:Ec; [|destruct Hp].
    destruct (getp c) as [u|] eqn:Eu; [|destruct Hp].
    apply (Hg _ _ _ _ (wfk_each _ _ W _ _ Ec) Eu _ _ Hp). }
  rewrite (filter_concat_mapi _ _ _ i k Hi).
  - rewrite filter_all.
    + rewrite map_map. simpl.
      assert (EL : length (content (attr getp d k)) = length (content (attr getr d k))).
      { destruct (Forall2_nth_error_l _ _ _ HW _ _ Hi) as (sz' & _ & W). eapply HL; eauto. }
      clear -EL. revert EL. generalize (content (attr getp d k)) (content (attr getr d k)).
      intros l; induction l as [|p l IH]; intros [|r m] EL; simpl in *; try discriminate; auto.
      f_equal; [lia|]. apply IH; auto.
    + intros p Hp. apply in_map_iff in Hp as ([q r] & <- & Hq).
      destruct (HB _ _ _ Hi Hs q r Hq). simpl. rewrite !block_self; auto.
  - intros j k' Hj Hne. apply filter_none. intros p Hp.
    apply in_map_iff in Hp as ([q r] & <- & Hq).
    destruct (Forall2_nth_error_l _ _ _ HW _ _ Hj) as (sz' & Es & W).
    destruct (HB _ _ _ Hj Es q r Hq). simpl. rewrite (block_other szs d j i sz' sz); auto.
Qed.

(** Rows of the joined features. *)
Lemma joined_rows (ks : list complex) szs d i k sz :
  Forall2 wf_complex ks szs ->
  (forall k c, In k ks -> nth_error (k_cochains k) d = Some c -> c_x c <> None) ->
  nth_error ks i = Some k -> nth_error szs i = Some sz ->
  rows_of (off szs i d) (sz d) (content (joined (fun _ v => v) (map (attr c_x d) ks)))
  = content (attr c_x d k).
Proof.
  intros HW HU Hi Hs. rewrite joined_content, mapi_map.
  assert (HL : forall k sz, In k ks -> wf_complex k sz -> length (content (attr c_x d k)) = sz d).
  { intros k' sz' Hk W. unfold attr. destruct (nth_error (k_cochains k') d) as [c|] eqn:E.
    - pose proof (wf_x _ _ _ _ (wfk_each _ _ W _ _ E)) as Hx. specialize (HU _ _ Hk E).
      destruct (c_x c); [auto|congruence].
    - simpl. symmetry. apply (wfk_above _ _ W). apply nth_error_None in E.
      rewrite (wfk_len _ _ W) in E. lia. }
  pose proof (rows_of_concat (fun (_ : nat) k => map (fun v : V => v) (content (attr c_x d k))) 0 ks i k Hi) as H.
  cbv beta in H. rewrite map_id in H.
  assert (E1 : length (concat (mapi_from (fun (_ : nat) k => map (fun v : V => v) (content (attr c_x d k))) 0
                  (firstn i ks))) = off szs i d).
  { unfold off. clear H Hi Hs. revert i HL. generalize 0.
    induction HW as [|k0 sz0 ks szs W0 HW IH]; intros s [|i] HL; simpl; auto.
    rewrite app_length, map_length, (HL k0 sz0) by (auto; left; auto). f_equal.
    apply IH.
    - intros; eapply HU; eauto; right; auto.
    - intros; apply HL; auto; right; auto. }
  rewrite E1 in H. rewrite (HL k sz) in H.
  - exact H.
  - eapply nth_error_In; eauto.
  - destruct (Forall2_nth_error_l _ _ _ HW _ _ Hi) as (sz' & Es & W). congruence.
Qed.

(** ** Truncation *)
Lemma nth_error_firstn_lt {A} (l : list A) n i : i < n -> nth_error (firstn n l) i = nth_error l i.
Proof.
  revert n i; induction l as [|a l IH]; intros [|n] [|i] H; simpl; auto; try lia.
  apply IH; lia.
Qed.

Lemma member_truncate (k : complex) D d : d <= D -> member_cochain (truncate D k) d = member_cochain k d.
Proof.
  intros H. unfold member_cochain, truncate; simpl.
  rewrite nth_error_firstn_lt by lia. destruct d as [|d']; auto.
  rewrite nth_error_firstn_lt by lia. reflexivity.
Qed.

Lemma list_max_min (l : list nat) D :
  Nat.min (list_max (map (fun n => Nat.min n D) l)) D = Nat.min (list_max l) D.
Proof. induction l as [|a l IH]; simpl; auto; lia. Qed.

Lemma fold_label_ext (ks ks' : list complex) st :
  Forall2 (fun k k' : complex => k_y k = k_y k') ks ks' ->
  fold_left label_step ks st = fold_left label_step ks' st.
Proof.
  intros H; revert st; induction H as [|k k' ks ks' E _ IH]; intros st; simpl; auto.
  rewrite IH. unfold label_step. rewrite E; auto.
Qed.

Lemma from_complex_list_truncate (ks : list complex) D :
  from_complex_list (map (truncate D) ks) D = from_complex_list ks D.
Proof.
  destruct ks as [|k0 ks0] eqn:Eks; [reflexivity|]. rewrite <- Eks.
  assert (Hun : forall l : list complex, l <> [] -> from_complex_list l D =
    let D' := Nat.min (list_max (map k_dim l)) D in
    let* bs := mapM (fun d => let* cs := mapM (fun k => member_cochain k d) l in
                              from_cochain_list cs) (seq 0 (D' + 1)) in
    let* k := mk_complex (map cb_cochain bs) (batch_labels l) None in
    Ok (mkKBatch k (map cb_batch bs) (map cb_ptr bs) (length l))).
  { intros [|? ?] H; [congruence|reflexivity]. }
  rewrite !Hun by (subst; discriminate). cbv zeta.
  assert (E1 : Nat.min (list_max (map k_dim (map (truncate D) ks))) D = Nat.min (list_max (map k_dim ks)) D).
  { rewrite map_map. simpl. rewrite <- (map_map k_dim (fun n => Nat.min n D)). apply list_max_min. }
  rewrite E1.
  assert (E2 : mapM (fun d => let* cs := mapM (fun k => member_cochain k d) (map (truncate D) ks) in
                              from_cochain_list cs) (seq 0 (Nat.min (list_max (map k_dim ks)) D + 1)) =
               mapM (fun d => let* cs := mapM (fun k => member_cochain k d) ks in
                              from_cochain_list cs) (seq 0 (Nat.min (list_max (map k_dim ks)) D + 1))).
  { apply mapM_ext. intros d Hd. apply in_seq in Hd. f_equal.
    clear -Hd. assert (H : d <= D) by lia. clear Hd. induction ks as [|k ks IH]; simpl; auto.
    rewrite member_truncate by auto. rewrite IH; auto. }
  rewrite E2.
  assert (E3 : batch_labels (map (truncate D) ks) = batch_labels ks).
  { unfold batch_labels. rewrite (fold_label_ext (map (truncate D) ks) ks); auto.
    clear. induction ks; simpl; constructor; auto. }
  rewrite E3, map_length. reflexivity.
Qed.

(** ** Labels *)
Lemma label_fold_false (ks : list complex) ls :
  fst (fold_left label_step ks (false, ls)) = false.
Proof.
  revert ls; induction ks as [|k ks IH]; intros ls; simpl; auto.
  unfold label_step at 2. simpl. destruct (k_y k); apply IH.
Qed.

Lemma label_fold_all (ks : list complex) ls :
  (forall k : complex, In k ks -> k_y k <> None) ->
  fold_left label_step ks (true, ls) = (true, ls ++ map (fun k : complex => content (k_y k)) ks).
Proof.
  revert ls; induction ks as [|k ks IH]; intros ls H; simpl.
  - rewrite app_nil_r; auto.
  - unfold label_step at 2. simpl. pose proof (H k (or_introl eq_refl)) as Hk.
    destruct (k_y k) as [y|]; [|congruence]. rewrite IH by (intros; apply H; right; auto).
    rewrite <- app_assoc; auto.
Qed.

Lemma label_fold_none (ks : list complex) k b ls :
  In k ks -> k_y k = None -> fst (fold_left label_step ks (b, ls)) = false.
Proof.
  revert b ls; induction ks as [|k0 ks IH]; intros b ls Hin Hk; [destruct Hin|]. simpl.
  destruct Hin as [->|Hin].
  - unfold label_step at 2. rewrite Hk. apply label_fold_false.
  - destruct (label_step (b, ls) k0) as [b' ls']. apply IH; auto.
Qed.

Lemma mk_complex_y (cs : list cochain) y dm k : mk_complex cs y dm = Ok k -> k_y k = y.
Proof.
  unfold mk_complex. destruct cs; [discriminate|].
  destruct (_ <? _); [discriminate|]. intros H. apply bind_ok in H as (? & _ & H).
  inversion H; auto.
Qed.

Lemma from_complex_list_y (ks : list complex) D b :
  from_complex_list ks D = Ok b -> k_y (kb_complex b) = batch_labels ks.
Proof.
  destruct ks as [|k0 ks0] eqn:Eks; [discriminate|]. unfold from_complex_list. rewrite <- Eks at 1 2.
  intros H. apply bind_ok in H as (bs & _ & H). apply bind_ok in H as (k & Hk & H).
  inversion H; subst; simpl. eapply mk_complex_y; eauto.
Qed.

End Proofs.
