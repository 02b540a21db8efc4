(** Cutting a hole: specification and proofs about [create_hole]. *)
From Coq Require Import List Arith Lia ZArith Bool Sorted.
From Verif Require Import Base ComplexModel FlowModel FlowSpec FlowProofs FlowProofs2.
Import ListNotations.

Section Spec.
Context {P : Type}.

(** No corner of the triangle is a point of the hole. *)
Definition untouched (inside : P -> bool) (points : list P) (t : tri) : bool :=
  forallb (fun v => match nth_error points v with Some p => negb (inside p) | None => true end)
    (verts t).

(** [points'], [ts'] are what is left of [points], [ts]; [idx] tells the old number of every new
    point. *)
Record hole_cut (inside : P -> bool) (points : list P) (ts : list tri)
    (points' : list P) (ts' : list tri) (idx : list nat) : Prop := {
  (* the order of the points is kept *)
  hc_order : StronglySorted lt idx;
  (* the new points are the old points *)
  hc_points : Forall2 (fun p v => nth_error points v = Some p) points' idx;
  (* none is in the hole *)
  hc_outside : forall p, In p points' -> inside p = false;
  (* the untouched triangles, in their order, with the same geometric corners *)
  hc_same : Forall2 (fun t t' => Forall2 (fun v u => nth_error idx u = Some v) (verts t) (verts t'))
              (filter (untouched inside points) ts) ts';
  (* exactly the new points are used *)
  hc_used : forall u, corner ts' u <-> u < length points'
}.
End Spec.

(** ** Renumbering *)

Definition shift_one (v a : nat) : nat := if v <=? a then a - 1 else a.

Lemma tri_map_map f g t : tri_map f (tri_map g t) = tri_map (fun a => f (g a)) t.
Proof. destruct t as [[a b] c]; reflexivity. Qed.

Lemma renumber_fold l : forall ts,
  fold_left (fun ts v => map (tri_map (fun a => if v <=? a then a - 1 else a)) ts) l ts =
  map (tri_map (fun a => fold_left (fun a v => shift_one v a) l a)) ts.
Proof.
  induction l as [|v l IH]; intros ts; simpl.
  - rewrite <- (map_id ts) at 1. apply map_ext. intros [[a b] c]; reflexivity.
  - rewrite IH, map_map. apply map_ext. intros t. rewrite tri_map_map. reflexivity.
Qed.

Lemma shift_desc l : forall a, StronglySorted gt l -> ~ In a l ->
  fold_left (fun a v => shift_one v a) l a = a - length (filter (fun w => w <? a) l).
Proof.
  induction l as [|v l IH]; intros a Hs Ha; simpl; [lia|].
  inversion Hs as [|? ? Hs' HF]; subst. rewrite Forall_forall in HF.
  assert (Hne : v <> a) by (intros ->; apply Ha; left; auto).
  assert (Hal : ~ In a l) by (intros H; apply Ha; right; auto).
  unfold shift_one at 2. destruct (Nat.leb_spec v a).
  - assert (HL : forall b, v <= b -> filter (fun w => w <? b) l = l).
    { intros b Hb. clear - HF Hb. induction l as [|w l IH]; simpl; auto.
      assert (v > w) by (apply HF; left; auto).
      replace (w <? b) with true by (symmetry; apply Nat.ltb_lt; lia). f_equal. apply IH.
      intros; apply HF; right; auto. }
    rewrite IH; auto.
    + replace (v <? a) with true by (symmetry; apply Nat.ltb_lt; lia).
      rewrite !HL by lia. simpl. lia.
    + intros Hi. apply HF in Hi. lia.
  - rewrite IH; auto. replace (v <? a) with false by (symmetry; apply Nat.ltb_ge; lia). auto.
Qed.

Lemma sorted_desc_sorted n s : StronglySorted gt (sorted_desc n s).
Proof.
  unfold sorted_desc. induction n as [|n IH]; [constructor|].
  rewrite seq_S, rev_app_distr. simpl.
  destruct (mem_nat n s); auto. constructor; auto. apply Forall_forall. intros v Hv.
  apply filter_In in Hv as [Hv _]. apply in_rev in Hv. apply in_seq in Hv. lia.
Qed.
Lemma sorted_desc_in n s v : In v (sorted_desc n s) <-> v < n /\ In v s.
Proof.
  unfold sorted_desc. rewrite filter_In, <- in_rev, in_seq, mem_nat_iff. intuition lia.
Qed.

Lemma filter_length_split {A} (f : A -> bool) l :
  length (filter f l) + length (filter (fun a => negb (f a)) l) = length l.
Proof. induction l as [|a l IH]; simpl; auto. destruct (f a); simpl; lia. Qed.

Lemma filter_rev {A} (f : A -> bool) l : filter f (rev l) = rev (filter f l).
Proof.
  induction l as [|a l IH]; simpl; auto. rewrite filter_app, IH. simpl.
  destruct (f a); simpl; auto. rewrite app_nil_r. auto.
Qed.
Lemma filter_filter {A} (f g : A -> bool) l : filter f (filter g l) = filter (fun a => g a && f a) l.
Proof.
  induction l as [|a l IH]; simpl; auto. destruct (g a); simpl; auto. destruct (f a); simpl; rewrite IH; auto.
Qed.

Lemma filter_lt_seq f n a : a <= n -> filter (fun w => f w && (w <? a)) (seq 0 n) = filter f (seq 0 a).
Proof.
  intros H. replace n with (a + (n - a)) by lia. rewrite seq_app, filter_app. simpl.
  replace (filter (fun w => f w && (w <? a)) (seq a (n - a))) with (@nil nat).
  - rewrite app_nil_r. apply filter_ext_in. intros w Hw. apply in_seq in Hw.
    replace (w <? a) with true by (symmetry; apply Nat.ltb_lt; lia). apply andb_true_r.
  - symmetry. assert (G : forall w, In w (seq a (n - a)) -> f w && (w <? a) = false).
    { intros w Hw. apply in_seq in Hw. replace (w <? a) with false by (symmetry; apply Nat.ltb_ge; lia).
      apply andb_false_r. }
    revert G. generalize (seq a (n - a)). intros l. induction l as [|w l IH]; intros G; simpl; auto.
    rewrite G by (left; auto). apply IH. intros; apply G; right; auto.
Qed.

Lemma nth_filter_seq f n a : a < n -> f a = true ->
  nth_error (filter f (seq 0 n)) (length (filter f (seq 0 a))) = Some a.
Proof.
  intros H Hf. replace n with (a + S (n - S a)) by lia. rewrite seq_app, filter_app. simpl. rewrite Hf.
  rewrite nth_error_app2 by lia. rewrite Nat.sub_diag. reflexivity.
Qed.

Lemma renumber_correct n s a : a < n -> ~ In a s ->
  nth_error (filter (fun i => negb (mem_nat i s)) (seq 0 n))
    (fold_left (fun a v => shift_one v a) (sorted_desc n s) a) = Some a.
Proof.
  intros Ha Hs. rewrite shift_desc; [|apply sorted_desc_sorted|rewrite sorted_desc_in; tauto].
  unfold sorted_desc. rewrite filter_filter, filter_rev, rev_length, filter_lt_seq by lia.
  pose proof (filter_length_split (fun i => mem_nat i s) (seq 0 a)) as E. rewrite seq_length in E.
  replace (a - length (filter (fun i => mem_nat i s) (seq 0 a)))
    with (length (filter (fun i => negb (mem_nat i s)) (seq 0 a))) by lia.
  apply nth_filter_seq; auto. apply negb_true_iff, mem_nat_false; auto.
Qed.

Lemma seq_sorted a n : StronglySorted lt (seq a n).
Proof.
  revert a; induction n as [|n IH]; intros a; simpl; constructor; auto.
  apply Forall_forall. intros v Hv. apply in_seq in Hv. lia.
Qed.
Lemma filter_sorted {A} (R : A -> A -> Prop) f l : StronglySorted R l -> StronglySorted R (filter f l).
Proof.
  induction l as [|a l IH]; intros H; simpl; auto. inversion H as [|? ? H1 H2]; subst.
  destruct (f a); auto. constructor; auto. rewrite Forall_forall in *. intros b Hb.
  apply filter_In in Hb as [Hb _]. auto.
Qed.

(** ** The pass over the triangles *)

Section Hole.
Context {P : Type} (inside : P -> bool) (points : list P).

Lemma np_delete_spec removed :
  Forall2 (fun p v => nth_error points v = Some p) (np_delete points removed)
    (filter (fun i => negb (mem_nat i removed)) (seq 0 (length points))).
Proof.
  unfold np_delete.
  assert (G : forall s l, (forall i p, nth_error l i = Some p -> nth_error points (s + i) = Some p) ->
    Forall2 (fun p v => nth_error points v = Some p)
      (map snd (filter (fun p => negb (mem_nat (fst p) removed)) (combine (seq s (length l)) l)))
      (filter (fun i => negb (mem_nat i removed)) (seq s (length l)))).
  { intros s l. revert s. induction l as [|p l IH]; intros s H; simpl; [constructor|].
    assert (H' : forall i p0, nth_error l i = Some p0 -> nth_error points (S s + i) = Some p0).
    { intros i q Hq. specialize (H (S i) q Hq). rewrite <- H. f_equal. lia. }
    destruct (mem_nat s removed); simpl; auto. constructor; auto.
    rewrite <- (H 0 p eq_refl). f_equal. lia. }
  apply G. auto.
Qed.

Lemma hole_pass_spec ts kept removed : hole_pass inside points ts = Ok (kept, removed) ->
  kept = filter (untouched inside points) ts /\
  (forall v, In v removed <-> exists t p, In t ts /\ In v (verts t) /\
                                nth_error points v = Some p /\ inside p = true) /\
  (forall v, corner ts v -> v < length points).
Proof.
  revert kept removed; induction ts as [|t ts IH]; intros kept removed H; simpl in H.
  - injection H as <- <-. split; auto. split.
    + intros v. split; [intros []|]. intros (t & p & [] & _).
    + intros v (t & [] & _).
  - apply bind_ok in H as (xs & Hxs & H). apply bind_ok in H as ([k r] & Hr & H).
    destruct (IH k r Hr) as (Hk & Hrem & Hrange). cbn [fst snd] in H.
    set (gone := map fst (filter (fun p => inside (snd p)) (combine (verts t) xs))) in H.
    apply mapM_ok_iff in Hxs.
    assert (Hg : forall v, In v gone <-> exists p, In v (verts t) /\ nth_error points v = Some p /\ inside p = true).
    { intros v. unfold gone. clear - Hxs. induction Hxs as [|a x l xs Ha Hxs IH]; simpl.
      - split; [tauto|]. intros (p & [] & _).
      - apply get_ok in Ha. destruct (inside x) eqn:Ex; simpl.
        + rewrite IH. split.
          * intros [<-|(p & ? & ?)]; [exists x|exists p]; tauto.
          * intros (p & [->|?] & ? & ?); [left; auto|]. right. exists p. auto.
        + rewrite IH. split.
          * intros (p & ? & ?); exists p; tauto.
          * intros (p & [->|?] & ? & ?); [congruence|]. exists p. auto. }
    assert (Hu : untouched inside points t = match gone with [] => true | _ => false end).
    { unfold untouched. destruct gone as [|v gone'] eqn:Eg.
      - apply forallb_forall. intros v Hv. destruct (nth_error points v) as [p|] eqn:Ep; auto.
        apply negb_true_iff. destruct (inside p) eqn:Ei; auto. exfalso.
        apply (proj2 (Hg v)). exists p. auto.
      - destruct (proj1 (Hg v) (or_introl eq_refl)) as (p & Hv & Ep & Ei).
        destruct (forallb _ (verts t)) eqn:E; auto. rewrite forallb_forall in E. specialize (E v Hv).
        rewrite Ep, Ei in E. discriminate. }
    injection H as <- <-. split; [|split].
    + simpl. rewrite Hu. destruct gone; congruence.
    + intros v. rewrite in_app_iff, Hg, Hrem. split.
      * intros [(p & ? & ?)|(t' & p & ? & ?)]; [exists t, p|exists t', p]; simpl; tauto.
      * intros (t' & p & [<-|?] & ?); [left; exists p|right; exists t', p]; tauto.
    + intros v (t' & [<-|Ht'] & Hv); [|apply Hrange; exists t'; auto].
      clear - Hxs Hv. induction Hxs as [|a x l xs Ha Hxs IH]; [destruct Hv|].
      destruct Hv as [->|Hv]; auto. apply get_ok in Ha. apply nth_error_Some. congruence.
Qed.

Lemma hole_pass_ok ts : (forall v, corner ts v -> v < length points) ->
  exists r, hole_pass inside points ts = Ok r.
Proof.
  induction ts as [|t ts IH]; intros H; simpl; [eauto|].
  destruct (points) as [|p0 ps] eqn:E0.
  { exfalso. destruct t as [[a b] c]. assert (a < 0); [|lia]. apply (H a). exists (a, b, c). simpl; auto. }
  rewrite <- E0 in *.
  rewrite (index_select_nth points (verts t) p0).
  - cbn [bind]. destruct IH as (r & ->); [|cbn [bind]; eauto].
    intros v (t' & Ht & Hv). apply H. exists t'. split; auto. right; auto.
  - apply Forall_forall. intros v Hv. apply H. exists t. split; auto. left; auto.
Qed.

Lemma create_hole_spec ts points' ts' : create_hole inside points ts = Ok (points', ts') ->
  exists idx, hole_cut inside points ts points' ts' idx.
Proof.
  intros H. unfold create_hole in H. apply bind_ok in H as ([kept rem] & Hp & H).
  destruct (hole_pass_spec ts kept rem Hp) as (Hk & Hrem & Hrange). cbn [fst snd] in H.
  destruct kept as [|t0 kept0] eqn:Ek; [discriminate|]. rewrite <- Ek in *. clear Ek t0 kept0.
  set (unused := filter (fun i => negb (existsb (fun t => mem_nat i (verts t)) kept))
                      (seq 0 (length points))) in H.
  set (removed := rem ++ unused) in H.
  injection H as <- <-. rewrite renumber_fold.
  set (idx := filter (fun i => negb (mem_nat i removed)) (seq 0 (length points))).
  assert (Hkc : forall v, corner kept v -> v < length points).
  { intros v (t & Ht & Hv). apply Hrange. exists t. split; auto. rewrite Hk in Ht.
    apply filter_In in Ht. tauto. }
  assert (Hexists : forall v, existsb (fun t => mem_nat v (verts t)) kept = true <-> corner kept v).
  { intros v. rewrite existsb_exists. unfold corner. split; intros (t & ? & Hv); exists t; split; auto;
      apply mem_nat_iff; auto. }
  assert (Hremoved : forall v, v < length points -> (~ In v removed <-> corner kept v)).
  { intros v Hv. unfold removed. rewrite in_app_iff. split.
    - intros Hn. destruct (existsb (fun t => mem_nat v (verts t)) kept) eqn:E; [apply Hexists; auto|].
      exfalso. apply Hn. right. unfold unused. apply filter_In. rewrite in_seq, E. split; [lia|auto].
    - intros Hc [Hi|Hi].
      + apply Hrem in Hi as (t & p & _ & _ & Ep & Ei). destruct Hc as (t' & Ht' & Hv').
        rewrite Hk in Ht'. apply filter_In in Ht' as [_ Hu]. unfold untouched in Hu.
        rewrite forallb_forall in Hu. specialize (Hu v Hv'). rewrite Ep, Ei in Hu. discriminate.
      + unfold unused in Hi. apply filter_In in Hi as [_ Hi]. apply Hexists in Hc. rewrite Hc in Hi. discriminate. }
  pose proof (np_delete_spec removed) as HD. fold idx in HD.
  assert (Hidx : forall v, In v idx <-> corner kept v).
  { intros v. unfold idx. rewrite filter_In, in_seq, negb_true_iff, mem_nat_false. split.
    - intros [? Hn]. apply Hremoved in Hn; auto. lia.
    - intros Hc. split; [|apply Hremoved; auto]. specialize (Hkc v Hc). lia. }
  assert (Hnum : forall v, corner kept v ->
     nth_error idx (fold_left (fun a v => shift_one v a) (sorted_desc (length points) removed) v) = Some v).
  { intros v Hc. unfold idx. apply renumber_correct; auto. apply Hremoved; auto. }
  exists idx. split.
  - apply filter_sorted, seq_sorted.
  - exact HD.
  - intros p Hi. clear - HD Hi Hidx Hk.
    assert (Hv : exists v, In v idx /\ nth_error points v = Some p).
    { revert Hi. clear Hidx. induction HD as [|a x l xs Ha HD IH]; intros Hi; [destruct Hi|].
      destruct Hi as [->|Hi]; [exists x; split; [left|]; auto|].
      destruct (IH Hi) as (v & ? & ?). exists v. split; [right|]; auto. }
    destruct Hv as (v & Hv & Ep). apply Hidx in Hv as (t & Ht & Hv).
    rewrite Hk in Ht. apply filter_In in Ht as [_ Hu]. unfold untouched in Hu.
    rewrite forallb_forall in Hu. specialize (Hu v Hv). rewrite Ep in Hu. apply negb_true_iff in Hu; auto.
  - rewrite <- Hk. assert (Hc : forall t, In t kept -> forall v, In v (verts t) -> corner kept v).
    { intros t Ht v Hv. exists t. auto. }
    revert Hc. generalize kept at 1 3 4. intros l. induction l as [|t l IH]; intros Hc; simpl; constructor.
    + destruct t as [[a b] c]. simpl. repeat constructor; apply Hnum; apply (Hc (a, b, c)); simpl; auto.
    + apply IH. intros; eapply Hc; eauto. right; auto.
  - intros u. rewrite (Forall2_length HD). split.
    + intros (t' & Ht' & Hu). apply in_map_iff in Ht' as (t & <- & Ht).
      destruct t as [[a b] c]. apply nth_error_Some.
      assert (Hc : forall v, In v [a; b; c] -> corner kept v) by (intros; exists (a, b, c); auto).
      destruct Hu as [<-|[<-|[<-|[]]]]; rewrite Hnum; try discriminate; apply Hc; simpl; auto.
    + intros Hu. destruct (nth_error idx u) as [v|] eqn:Ev; [|apply nth_error_None in Ev; lia].
      pose proof (nth_error_In _ _ Ev) as Hv. apply Hidx in Hv as Hc.
      assert (Eu : u = fold_left (fun a v => shift_one v a) (sorted_desc (length points) removed) v).
      { apply (proj1 (NoDup_nth_error idx)).
        - unfold idx. apply NoDup_filter, seq_NoDup.
        - auto.
        - rewrite Hnum; auto. }
      destruct Hc as (t & Ht & Hvt). exists (tri_map (fun a => fold_left (fun a v => shift_one v a) (sorted_desc (length points) removed) a) t).
      split; [apply in_map; auto|]. rewrite Eu. clear - Hvt. destruct t as [[a b] c].
      destruct Hvt as [<-|[<-|[<-|[]]]]; simpl; auto.
Qed.

Lemma create_hole_ok ts t : (forall v, corner ts v -> v < length points) ->
  In t ts -> untouched inside points t = true -> exists r, create_hole inside points ts = Ok r.
Proof.
  intros Hr Ht Hu. destruct (hole_pass_ok ts Hr) as ([kept rem] & Hp).
  unfold create_hole. rewrite Hp. cbn [bind fst snd].
  destruct (hole_pass_spec ts kept rem Hp) as (Hk & _).
  destruct kept as [|t0 k0]; [|eauto].
  assert (Hi : In t (filter (untouched inside points) ts)) by (apply filter_In; auto).
  rewrite <- Hk in Hi. destruct Hi.
Qed.

(** Proper triangles stay proper. *)
Lemma hole_cut_proper ts points' ts' idx : hole_cut inside points ts points' ts' idx ->
  (forall t, In t ts -> proper t) -> forall t', In t' ts' -> proper t'.
Proof.
  intros H Hp t' Ht'. pose proof (hc_same _ _ _ _ _ _ H) as HF.
  assert (Hpk : forall t, In t (filter (untouched inside points) ts) -> proper t).
  { intros t Ht. apply filter_In in Ht. apply Hp; tauto. }
  clear H. revert Hpk Ht'. induction HF as [|t t0 l l' Ht HF IH]; intros Hpk Ht'; [destruct Ht'|].
  destruct Ht' as [->|Ht']; [|apply IH; auto; intros; apply Hpk; right; auto].
  specialize (Hpk t (or_introl eq_refl)). destruct t as [[a b] c], t' as [[a' b'] c'].
  simpl in Ht. inversion Ht as [|? ? ? ? E1 Ht2]; subst. inversion Ht2 as [|? ? ? ? E2 Ht3]; subst.
  inversion Ht3 as [|? ? ? ? E3 _]; subst. destruct Hpk as (? & ? & ?).
  repeat split; intros E; subst; congruence.
Qed.

End Hole.
