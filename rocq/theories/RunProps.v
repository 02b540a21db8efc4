(** C87: running averages of batch normalisation. *)
From Coq Require Import List Arith Lia Bool QArith Qround Qabs Qfield Lqa.
From Verif Require Import Base ScatterModel ComplexModel MPModel NormModel NormSpec.
From Verif Require Import RunModel RunProofs RunNum.
Import ListNotations.

(** The outputs in training mode are those of C71, whatever the running statistics are; so
    are the exceptions. *)
Theorem C87_training_outputs {V St} (o : ops V) (upd : nat -> St -> St -> St)
    (l : tcin_level V St) (ps : list (params V)) (s : cin_state St) :
  fits_cin l s ->
  (let* (outs, _) := run_cin_conv o upd l s ps in Ok outs) = mapM (tcin_forward o l) ps.
Proof.
  intros F. pose proof (run_cin_conv_ok o upd l ps s F) as H.
  destruct (mapM (tcin_forward o l) ps) as [outs|e].
  - destruct H as [s' [E _]]. now rewrite E.
  - now rewrite H.
Qed.

(** Evaluation mode is a network with fixed statistics, as in C71. *)
Theorem C87_evaluation {V St} (o : ops V) md jump pool head dims lin1 mean lin2
    (ls : list (tcin_level V St * cin_state St))
    (ks : list ((nat -> tsparse_level V St) * (nat -> sparse_state St))) :
  Forall (fun ls => fits_cin (fst ls) (snd ls)) ls ->
  Forall (fun ks => forall d, fits_sparse (fst ks d) (snd ks d)) ks ->
  freezes_net (St := St) o
    (tcin0 o md (map (fun l _ => fst l) ls) jump pool head)
    (cin0 o md (map (fun l _ => eval_cin (fst l) (snd l)) ls) jump pool head) /\
  freezes_net (St := St) o
    (tsparse_cin o md (map fst ks) jump pool dims lin1 mean lin2)
    (sparse_cin o md (map (fun k d => eval_sparse (fst k d) (snd k d)) ks) jump pool dims lin1 mean lin2).
Proof.
  intros Hl Hk. split; constructor.
  - induction Hl as [|[l s] ls [A [B C]] _ IH]; cbn [map]; constructor; [|exact IH].
    intros _. cbn [fst snd] in *. unfold freezes_cin, eval_cin.
    do 3 eexists. split; [apply eval_nn_freezes; exact A|]. split; [apply eval_nn_freezes; exact B|].
    split; [apply eval_nn_freezes; exact C|]. reflexivity.
  - induction Hk as [|[k s] ks H _ IH]; cbn [map]; constructor; [|exact IH].
    intros d. cbn [fst snd] in *. destruct (H d) as [A [B C]]. unfold freezes_sparse, eval_sparse.
    do 3 eexists. split; [apply eval_nn_freezes; exact A|]. split; [apply eval_nn_freezes; exact B|].
    split; [apply eval_nn_freezes; exact C|]. reflexivity.
Qed.

Section Steps.
Context {V : Type} (o : ops V) (col : nat -> V -> Q).
Notation St := (nat -> Q * Q).

(** CIN0.  After any number of training steps with any weights the i-th layer of the update
    network, a normalisation, carries the fading averages of the means and unbiased variances
    of all inputs it has seen: of all steps and, within a step, of all dimensions in order. *)
Theorem C87_shared_statistics (i : nat) (steps : list (tcin_level V St * list (params V)))
    (s : cin_state St) (rss : list (list (list V))) :
  (forall l ps, In (l, ps) steps ->
     fits_cin l s /\ (exists f, nth_error (tc_update l) i = Some (BatchNorm (col_stats col) f)) /\
     exists outs, mapM (tcin_forward o l) ps = Ok outs) ->
  Forall2 (fun lp rs => mapM (tcin_forward o (cut_cin i (fst lp))) (snd lp) = Ok rs) steps rss ->
  nth_error (cs_update s) i = Some col_init ->
  exists s' r, run_cin_steps o col_upd steps s = Ok s' /\ nth_error (cs_update s') i = Some r /\
    forall j,
      fst (r j) == fading (col_means col j (concat rss)) /\
      snd (r j) == qpow (9 # 10) (length (filter nonempty (concat rss))) + fading (col_spreads col j (concat rss)).
Proof.
  intros H H2 Hs.
  destruct (run_cin_steps_ok o col_upd i (col_stats col) steps s col_init rss) as [s' [E Hn]]; auto.
  - intros l ps Hin. destruct (H l ps Hin) as [A [B _]]. now split.
  - intros l ps Hin. now destruct (H l ps Hin) as [_ [_ C]].
  - exists s'. eexists. split; [exact E|]. split; [exact Hn|]. intros j.
    destruct (fold_sees col j (concat rss) col_init) as [A B]. rewrite A, B.
    cbn [col_init bn_init fst snd]. split; ring.
Qed.
End Steps.

(** SparseCIN.  Every dimension has networks of its own: the statistics of dimension [d] come
    from the inputs of dimension [d] only. *)
Section Own.
Context {V : Type} (o : ops V) (col : nat -> V -> Q).
Notation St := (nat -> Q * Q).

Definition own_rows (i d : nat) (lp : list (tsparse_level V St) * list (params V)) : result (list (list V)) :=
  match nth_error (fst lp) d, nth_error (snd lp) d with
  | Some l, Some p => let* r := tsparse_forward o (cut_sparse i l) p in Ok [r]
  | _, _ => Ok []
  end.

Lemma combine_nth_error {A B} : forall (l : list A) (l' : list B) d x y,
  nth_error l d = Some x -> nth_error l' d = Some y -> nth_error (combine l l') d = Some (x, y).
Proof.
  induction l as [|a l IH]; intros [|b l'] [|d] x y H H'; try discriminate; cbn in *.
  - congruence.
  - now apply IH.
Qed.

Lemma run_sparse_conv_beyond (upd : nat -> St -> St -> St) : forall lss ps outs ss' d,
  run_sparse_conv o upd lss ps = Ok (outs, ss') -> nth_error ps d = None ->
  nth_error ss' d = option_map snd (nth_error lss d).
Proof.
  induction lss as [|[l s] lss IH]; intros [|p ps] outs ss' d H Hd; cbn [run_sparse_conv] in H; try discriminate.
  - injection H as <- <-. now destruct d.
  - assert (E : ss' = map snd ((l, s) :: lss)) by congruence. rewrite E. apply nth_error_map.
  - destruct (run_sparse_level o upd l s p) as [[out s1]|e]; [|discriminate]. cbn [bind] in H.
    destruct (run_sparse_conv o upd lss ps) as [[outs' ss1]|e] eqn:E; [|discriminate]. cbn [bind] in H.
    injection H as <- <-. destruct d as [|d]; [discriminate|]. cbn [nth_error] in *. eapply IH; eauto.
Qed.

Definition same_shape (s s' : sparse_state St) : Prop :=
  length (ss_up s') = length (ss_up s) /\ length (ss_bnd s') = length (ss_bnd s) /\
  length (ss_comb s') = length (ss_comb s).

Lemma run_nn_shape (upd : nat -> St -> St -> St) (ls : list (nn_layer V St)) : forall ss t out ss',
  run_nn upd ls ss t = Ok (out, ss') -> length ss' = length ss.
Proof.
  induction ls as [|[f|st f] ls IH]; intros [|s ss] t out ss' H; cbn [run_nn] in H; try discriminate;
    try (injection H as <- <-; reflexivity).
  - destruct (run_nn upd ls ss (map f t)) as [[t' ss1]|e] eqn:E; [|discriminate]. injection H as <- <-.
    cbn. f_equal. eapply IH; eauto.
  - destruct (length t =? 1)%nat; [discriminate|].
    destruct (run_nn upd ls ss _) as [[t' ss1]|e] eqn:E; [|discriminate]. injection H as <- <-.
    cbn. f_equal. eapply IH; eauto.
Qed.

Lemma run_sparse_conv_shape (upd : nat -> St -> St -> St) : forall lss ps outs ss',
  run_sparse_conv o upd lss ps = Ok (outs, ss') -> Forall2 same_shape (map snd lss) ss'.
Proof.
  induction lss as [|[l s] lss IH]; intros [|p ps] outs ss' H; cbn [run_sparse_conv] in H; try discriminate.
  - injection H as <- <-. constructor.
  - assert (E : ss' = map snd ((l, s) :: lss)) by congruence. rewrite E.
    generalize (map snd ((l, s) :: lss)). clear. intros L.
    induction L; constructor; auto. split; [reflexivity|split; reflexivity].
  - destruct (run_sparse_level o upd l s p) as [[out s1]|e] eqn:El; [|discriminate]. cbn [bind] in H.
    destruct (run_sparse_conv o upd lss ps) as [[outs' ss1]|e] eqn:E; [|discriminate]. cbn [bind] in H.
    injection H as <- <-. cbn [map snd]. constructor; [|eapply IH; eauto].
    unfold run_sparse_level in El. destruct (propagate o _ p) as [[[up down] bnd]|e]; [|discriminate].
    cbn [bind] in El.
    destruct (run_nn upd (ts_upd_up l) _ _) as [[a s2]|e] eqn:E1; [|discriminate]. cbn [bind] in El.
    destruct (run_nn upd (ts_upd_bnd l) _ _) as [[b s3]|e] eqn:E2; [|discriminate]. cbn [bind] in El.
    destruct (run_nn upd (ts_comb l) _ _) as [[c s4]|e] eqn:E3; [|discriminate]. cbn [bind] in El.
    injection El as <- <-. apply run_nn_shape in E1, E2, E3. repeat split; assumption.
Qed.

Lemma fits_shape : forall (ls : list (tsparse_level V St)) ss ss',
  Forall2 (fun l s => fits_sparse l s) ls ss -> Forall2 same_shape ss ss' ->
  Forall2 (fun l s => fits_sparse l s) ls ss'.
Proof.
  intros ls ss ss' H. revert ss'. induction H as [|l s ls ss F H IH]; intros ss' H'; inversion H'; subst; constructor.
  - destruct F as [A [B C]]. match goal with X : same_shape _ _ |- _ => destruct X as [A' [B' C']] end.
    repeat split; congruence.
  - now apply IH.
Qed.

Lemma map_snd_combine' {A B} : forall (l : list A) (l' : list B), length l = length l' -> map snd (combine l l') = l'.
Proof. induction l as [|a l IH]; intros [|b l'] H; try discriminate; cbn; [reflexivity|]. f_equal. apply IH. now injection H. Qed.

Lemma mapM_combine_fst : forall (ls : list (tsparse_level V St)) (ss : list (sparse_state St)) (ps : list (params V)),
  length ls = length ss ->
  mapM (fun lp => tsparse_forward o (fst (fst lp)) (snd lp)) (combine (combine ls ss) ps) =
  mapM (fun lp => tsparse_forward o (fst lp) (snd lp)) (combine ls ps).
Proof.
  induction ls as [|l ls IH]; intros [|s ss] [|p ps] H; try discriminate; try reflexivity.
  cbn [combine mapM fst snd]. rewrite IH by now injection H. reflexivity.
Qed.

Lemma Forall_combine {A B} (P : A -> B -> Prop) : forall l l', Forall2 P l l' -> Forall (fun x => P (fst x) (snd x)) (combine l l').
Proof. induction 1; cbn; constructor; auto. Qed.

Lemma own_steps (upd : nat -> St -> St -> St) st (i d : nat) : forall (steps : list (list (tsparse_level V St) * list (params V)))
    (ss : list (sparse_state St)) (rss : list (list (list V))) s r0,
  (forall ls ps, In (ls, ps) steps ->
     length ls = length ss /\ (length ps <= length ss)%nat /\ Forall2 (fun l s => fits_sparse l s) ls ss /\
     (exists l f, nth_error ls d = Some l /\ nth_error (ts_comb l) i = Some (BatchNorm st f)) /\
     exists outs, mapM (fun lp => tsparse_forward o (fst lp) (snd lp)) (combine ls ps) = Ok outs) ->
  Forall2 (fun lp rs => own_rows i d lp = Ok rs) steps rss ->
  nth_error ss d = Some s -> nth_error (ss_comb s) i = Some r0 ->
  exists ss' s', run_sparse_steps o upd steps ss = Ok ss' /\
    nth_error ss' d = Some s' /\
    nth_error (ss_comb s') i = Some (fold_left (fun s r => sees upd st r s) (concat rss) r0).
Proof.
  induction steps as [|[ls ps] steps IH]; intros ss rss s r0 Hst H2 Hs Hr.
  - inversion H2; subst. exists ss, s. repeat split; assumption.
  - inversion H2 as [|? rs ? rss' Hrs H2']; subst.
    destruct (Hst ls ps (or_introl eq_refl)) as [L1 [L2 [F [[l [f [Hl Hf]]] [outs Hout]]]]].
    destruct (run_sparse_conv_ok o upd (combine ls ss) ps outs) as [ss1 [E [Ln U]]].
    { apply Forall_combine. exact F. }
    { rewrite mapM_combine_fst by exact L1. exact Hout. }
    { rewrite combine_length. lia. }
    pose proof (run_sparse_conv_shape upd _ _ _ _ E) as Sh. rewrite map_snd_combine' in Sh by exact L1.
    assert (Hss : length ss1 = length ss) by (rewrite Ln, combine_length; lia).
    assert (Hcd := combine_nth_error ls ss d l s Hl Hs).
    assert (Step : exists s1, nth_error ss1 d = Some s1 /\
      nth_error (ss_comb s1) i = Some (fold_left (fun s r => sees upd st r s) rs r0)).
    { unfold own_rows in Hrs. cbn [fst snd] in Hrs. rewrite Hl in Hrs.
      destruct (nth_error ps d) as [p|] eqn:Ep.
      - destruct (U d l s p Hcd Ep) as [s1 [Hs1 [_ U1]]]. destruct (U1 i st f r0 Hf Hr) as [r [Er Hn]].
        rewrite Er in Hrs. cbn [bind] in Hrs. injection Hrs as <-. exists s1. split; [exact Hs1|]. exact Hn.
      - injection Hrs as <-. exists s. cbn [fold_left]. split; [|exact Hr].
        rewrite (run_sparse_conv_beyond upd _ _ _ _ d E Ep), Hcd. reflexivity. }
    destruct Step as [s1 [Hs1 Hn1]].
    assert (Hst' : forall ls' ps', In (ls', ps') steps ->
      length ls' = length ss1 /\ (length ps' <= length ss1)%nat /\ Forall2 (fun l s => fits_sparse l s) ls' ss1 /\
      (exists l f, nth_error ls' d = Some l /\ nth_error (ts_comb l) i = Some (BatchNorm st f)) /\
      exists outs, mapM (fun lp => tsparse_forward o (fst lp) (snd lp)) (combine ls' ps') = Ok outs).
    { intros ls' ps' Hin. destruct (Hst ls' ps' (or_intror Hin)) as [A [B [C D]]].
      rewrite Hss. split; [exact A|]. split; [exact B|]. split; [|exact D]. eapply fits_shape; eauto. }
    destruct (IH ss1 rss' s1 _ Hst' H2' Hs1 Hn1) as [ss2 [s2 [E2 [Hs2 Hn2]]]].
    exists ss2, s2. cbn [run_sparse_steps]. rewrite E. cbn [bind]. split; [exact E2|]. split; [exact Hs2|].
    cbn [concat]. rewrite fold_left_app. exact Hn2.
Qed.

Theorem C87_own_statistics (i d : nat) (steps : list (list (tsparse_level V St) * list (params V)))
    (ss : list (sparse_state St)) (rss : list (list (list V))) s :
  (forall ls ps, In (ls, ps) steps ->
     length ls = length ss /\ (length ps <= length ss)%nat /\ Forall2 (fun l s => fits_sparse l s) ls ss /\
     (exists l f, nth_error ls d = Some l /\ nth_error (ts_comb l) i = Some (BatchNorm (col_stats col) f)) /\
     exists outs, mapM (fun lp => tsparse_forward o (fst lp) (snd lp)) (combine ls ps) = Ok outs) ->
  Forall2 (fun lp rs => own_rows i d lp = Ok rs) steps rss ->
  nth_error ss d = Some s -> nth_error (ss_comb s) i = Some col_init ->
  exists ss' s' r, run_sparse_steps o col_upd steps ss = Ok ss' /\
    nth_error ss' d = Some s' /\ nth_error (ss_comb s') i = Some r /\
    forall j,
      fst (r j) == fading (col_means col j (concat rss)) /\
      snd (r j) == qpow (9 # 10) (length (filter nonempty (concat rss))) + fading (col_spreads col j (concat rss)).
Proof.
  intros H H2 Hs Hr.
  destruct (own_steps col_upd (col_stats col) i d steps ss rss s col_init H H2 Hs Hr) as [ss' [s' [E [Hs' Hn]]]].
  exists ss', s'. eexists. split; [exact E|]. split; [exact Hs'|]. split; [exact Hn|]. intros j.
  destruct (fold_sees col j (concat rss) col_init) as [A B]. rewrite A, B.
  cbn [col_init bn_init fst snd]. split; ring.
Qed.
End Own.

(** * What the averages are *)
Local Open Scope Q_scope.
Section Values.
Context {V : Type} (col : nat -> V -> Q).

(** The running statistics of column [j] after the inputs [rs]. *)
Definition running (rs : list (list V)) (j : nat) : Q * Q :=
  fold_left (fun s r => sees col_upd (col_stats col) r s) rs col_init j.

Lemma running_eq rs j :
  fst (running rs j) == fading (col_means col j rs) /\
  snd (running rs j) == qpow (9 # 10) (length (filter nonempty rs)) + fading (col_spreads col j rs).
Proof.
  destruct (fold_sees col j rs col_init) as [A B]. unfold running. rewrite A, B.
  cbn [col_init bn_init fst snd]. split; ring.
Qed.

Lemma average_bounds a b t : nonempty t = true -> (forall x, In x t -> a <= x <= b) -> a <= average t <= b.
Proof.
  intros Ht H. unfold average. pose proof (qlen_pos t Ht) as P.
  assert (S : a * inject_Z (Z.of_nat (length t)) <= fold_right Qplus 0 t <= b * inject_Z (Z.of_nat (length t))).
  { clear P Ht. induction t as [|x t IH]; [cbn; split; ring_simplify; discriminate|].
    cbn [fold_right length]. rewrite Nat2Z.inj_succ. unfold Z.succ. rewrite inject_Z_plus.
    assert (IH' := IH (fun y Hy => H y (or_intror Hy))). assert (Hx := H x (or_introl eq_refl)).
    change (inject_Z 1) with 1. lra. }
  split; [apply Qle_shift_div_l|apply Qle_shift_div_r]; tauto.
Qed.

(** The running mean stays within any range that contains 0 and all entries; the running
    variance is positive, so evaluation never divides by zero. *)
Theorem C87_bounds rs j a b :
  a <= 0 <= b -> (forall r, In r rs -> length r <> 1%nat) ->
  (forall r v, In r rs -> In v r -> a <= col j v <= b) ->
  a <= fst (running rs j) <= b /\ 0 < snd (running rs j) /\
  qpow (9 # 10) (length (filter nonempty rs)) <= snd (running rs j).
Proof.
  intros Hab Hlen H. destruct (running_eq rs j) as [A B]. rewrite A, B.
  set (k := length (filter nonempty rs)). pose proof (qpow_pos k) as P. pose proof (qpow_le1 k) as P1.
  assert (M : (1 - qpow (9 # 10) k) * a <= fading (col_means col j rs) <= (1 - qpow (9 # 10) k) * b).
  { assert (L : length (col_means col j rs) = k) by (unfold col_means; apply map_length).
    rewrite <- L. apply fading_bounds. intros m Hm. apply in_map_iff in Hm as [r [<- Hr]].
    apply filter_In in Hr as [Hr Hn]. apply average_bounds; [destruct r; [discriminate|reflexivity]|].
    intros x Hx. apply in_map_iff in Hx as [v [<- Hv]]. eapply H; eauto. }
  assert (N : 0 <= fading (col_spreads col j rs)).
  { assert (G : forall ms, (forall m, In m ms -> 0 <= m) -> 0 <= fading ms).
    { induction ms as [|m ms IH]; intros Hm; cbn [fading]; [discriminate|].
      assert (0 <= (1 # 10) * qpow (9 # 10) (length ms) * m).
      { pose proof (qpow_pos (length ms)). apply Qmult_le_0_compat; [|apply Hm; now left]. lra. }
      assert (0 <= fading ms) by (apply IH; intros; apply Hm; now right). lra. }
    apply G. intros m Hm. apply in_map_iff in Hm as [r [<- Hr]]. apply filter_In in Hr as [Hr Hn].
    apply spread_nonneg. rewrite map_length. specialize (Hlen r Hr). destruct r as [|x [|y r]]; cbn in *; try lia; discriminate. }
  assert (Qa : 0 <= qpow (9 # 10) k * (- a)) by (apply Qmult_le_0_compat; lra).
  assert (Qb : 0 <= qpow (9 # 10) k * b) by (apply Qmult_le_0_compat; lra).
  repeat split; lra.
Qed.

(** If all inputs of a module have about the same mean the running mean approaches it: the
    initial value fades by 9/10 with every input. *)
Theorem C87_tracks rs j m e :
  (forall r, In r rs -> nonempty r = true -> m - e <= average (map (col j) r) <= m + e) ->
  let q := qpow (9 # 10) (length (filter nonempty rs)) in
  (1 - q) * (m - e) <= fst (running rs j) <= (1 - q) * (m + e).
Proof.
  intros H q. destruct (running_eq rs j) as [A _]. rewrite A. subst q.
  assert (L : length (col_means col j rs) = length (filter nonempty rs)) by (unfold col_means; apply map_length).
  rewrite <- L. apply fading_bounds. intros x Hx. apply in_map_iff in Hx as [r [<- Hr]].
  apply filter_In in Hr as [Hr Hn]. now apply H.
Qed.

(** ** A module shared by several dimensions *)

(** [T] steps in each of which the dimensions show the rows [rs], with means [ms]: the running
    mean approaches one weighted average of the means of the dimensions. *)
Theorem C87_shared_limit rs j T :
  (forall r, In r rs -> nonempty r = true) -> rs <> [] ->
  let ms := map (fun r => average (map (col j) r)) rs in
  let q := qpow (9 # 10) (length rs) in
  fst (running (concat (repeat rs T)) j) == (1 - qpow q T) * (fading ms / (1 - q)).
Proof.
  intros Hn Hne ms q. destruct (running_eq (concat (repeat rs T)) j) as [A _]. rewrite A.
  assert (E : col_means col j (concat (repeat rs T)) = concat (repeat ms T)).
  { assert (F : filter nonempty rs = rs).
    { clear - Hn. induction rs as [|r rs IH]; [reflexivity|]. cbn [filter].
      rewrite (Hn r (or_introl eq_refl)). f_equal. apply IH. intros; apply Hn; now right. }
    unfold col_means. clear A. induction T as [|T IH]; [reflexivity|]. cbn [repeat concat].
    rewrite filter_app, map_app, F. f_equal. exact IH. }
  rewrite E. pose proof (fading_repeat ms T) as R.
  assert (Lm : length ms = length rs) by (unfold ms; apply map_length). rewrite Lm in R. fold q in R.
  assert (Q1 : q < 1). { unfold q. destruct rs; [contradiction|]. apply qpow_lt1. }
  setoid_replace ((1 - qpow q T) * (fading ms / (1 - q))) with ((1 - qpow q T) * fading ms / (1 - q)) by (field; lra).
  rewrite <- R. field. lra.
Qed.

(** The limit is the mean of every dimension exactly if all dimensions have the same mean. *)
Theorem C87_shared_agrees ms :
  ms <> [] ->
  (forall m, In m ms -> fading ms / (1 - qpow (9 # 10) (length ms)) == m) <->
  (forall m m', In m ms -> In m' ms -> m == m').
Proof.
  intros Hne. assert (Q1 : qpow (9 # 10) (length ms) < 1) by (destruct ms; [contradiction|apply qpow_lt1]).
  split.
  - intros H m m' Hm Hm'. now rewrite <- (H m Hm), <- (H m' Hm').
  - intros H m Hm.
    assert (B : (1 - qpow (9 # 10) (length ms)) * m <= fading ms <= (1 - qpow (9 # 10) (length ms)) * m).
    { apply fading_bounds. intros x Hx. pose proof (H m x Hm Hx). lra. }
    assert (E : fading ms == (1 - qpow (9 # 10) (length ms)) * m) by lra.
    rewrite E. field. lra.
Qed.
End Values.

(** ** Vertices of mean 0 and edges of mean 1 *)

(** However long the training, the statistics that CIN0 uses for vertices and edges alike are
    those of neither: the running mean stays between 1/10 and 10/19. *)
Theorem C87_shared_refuted : forall T, (1 <= T)%nat ->
  exists (vertices edges : list Q),
    average vertices == 0 /\ average edges == 1 /\ (2 <= length vertices)%nat /\ (2 <= length edges)%nat /\
    let m := fst (running (fun _ x => x) (concat (repeat [vertices; edges] T)) 0) in
    (1 # 10) <= m <= (10 # 19).
Proof.
  intros T HT. exists [-(1); 1], [0; 2].
  split; [reflexivity|]. split; [reflexivity|]. split; [cbn; lia|]. split; [cbn; lia|]. cbn zeta.
  rewrite (C87_shared_limit (fun _ x => x) [[-(1); 1]; [0; 2]] 0 T).
  - set (q := qpow (9 # 10) (length _)).
    assert (Eq : q == 81 # 100) by reflexivity.
    set (W := fading _ / (1 - q)). assert (EW : W == 10 # 19) by reflexivity. rewrite EW.
    assert (P : 0 <= qpow q T <= 81 # 100).
    { clear W EW. assert (G : forall n, 0 <= qpow q n <= 1).
      { induction n as [|n IH]; cbn [qpow]; [split; discriminate|].
        assert (M : q * qpow q n == (81 # 100) * qpow q n) by (apply Qmult_comp; [exact Eq|reflexivity]). lra. }
      destruct T as [|T]; [lia|]. cbn [qpow]. specialize (G T).
      assert (M : q * qpow q T == (81 # 100) * qpow q T) by (apply Qmult_comp; [exact Eq|reflexivity]). lra. }
    lra.
  - intros r [<-|[<-|[]]]; reflexivity.
  - discriminate.
Qed.

(** A module of its own (SparseCIN) finds the mean up to the fading initial value. *)
Theorem C87_own_limit {V} (col : nat -> V -> Q) r j T : nonempty r = true ->
  fst (running col (repeat r T) j) == (1 - qpow (9 # 10) T) * average (map (col j) r).
Proof.
  intros H. assert (E : repeat r T = concat (repeat [r] T)).
  { induction T as [|T IH]; [reflexivity|]. cbn [repeat concat app]. now f_equal. }
  rewrite E, (C87_shared_limit col [r] j T); [|intros x [<-|[]]; exact H|discriminate].
  cbn [map fading length qpow]. set (a := average _).
  assert (P : forall q q', q == q' -> qpow q T == qpow q' T).
  { intros q q' Hq. clear E. induction T as [|T IH]; cbn [qpow]; [reflexivity|]. now rewrite IH, Hq. }
  rewrite (P ((9 # 10) * 1) (9 # 10)) by reflexivity. field.
Qed.

Print Assumptions C87_training_outputs.
Print Assumptions C87_evaluation.
Print Assumptions C87_shared_statistics.
Print Assumptions C87_own_statistics.
Print Assumptions C87_bounds.
Print Assumptions C87_tracks.
Print Assumptions C87_shared_limit.
Print Assumptions C87_shared_agrees.
Print Assumptions C87_shared_refuted.
Print Assumptions C87_own_limit.

(** * Examples: a path of three vertices and its two edges *)
Definition ex_col : nat -> Z -> Q := fun _ v => inject_Z v.
Definition ex_bn : nn_layer Z (nat -> Q * Q) :=
  BatchNorm (col_stats ex_col) (fun s v => (v - Qfloor (fst (s 0%nat)))%Z).
Definition ex_cin (w : Z) : tcin_level Z (nat -> Q * Q) :=
  mkTCin (fun v => v) Z.add [RowFun (Z.mul w); ex_bn] Z.sub [ex_bn] [RowFun (Z.mul w); ex_bn] (fun v => v).
Definition ex_vertices : params Z :=
  mkParams (Some [1; 2; 3]%Z) (Some [(0, 1); (1, 0); (1, 2); (2, 1)]%nat) None (Some [5; 5; 7; 7]%Z) None None None.
Definition ex_edges : params Z :=
  mkParams (Some [5; 7]%Z) None (Some [(0, 1); (1, 0)]%nat) None (Some [2; 2]%Z) None None.
Definition ex_steps := [(ex_cin 1, [ex_vertices; ex_edges]); (ex_cin 3, [ex_vertices; ex_edges])].
Definition ex_cin_state : cin_state (nat -> Q * Q) :=
  mkCinState [col_init; col_init] [col_init] [col_init; col_init].
Definition ex_rss : list (list (list Z)) := [[[1; 4; 7]; [11; 13]]; [[-3; 12; 27]; [33; 39]]]%Z.

(** Two steps with different weights: the update network has seen the vertices, the edges, the
    vertices, the edges, with means 4, 12, 12 and 36. *)
Example C87_ex_cin0 : exists s' r,
  run_cin_steps Zops col_upd ex_steps ex_cin_state = Ok s' /\ nth_error (cs_update s') 1 = Some r /\
  fst (r 0%nat) == 14859 # 2500 /\ snd (r 0%nat) == 117621 # 5000.
Proof.
  destruct (C87_shared_statistics Zops ex_col 1 ex_steps ex_cin_state ex_rss) as [s' [r [E [Hn H]]]].
  - intros l ps [H|[H|[]]]; injection H as <- <-; (split; [repeat split|]);
      (split; [eexists; reflexivity|]); eexists; vm_compute; reflexivity.
  - repeat constructor.
  - reflexivity.
  - exists s', r. split; [exact E|]. split; [exact Hn|]. destruct (H 0%nat) as [A B].
    rewrite A, B. split; vm_compute; reflexivity.
Qed.

(** A SparseCIN layer on the same path: vertices and edges keep their own averages. *)
Definition ex_sparse (w : Z) : tsparse_level Z (nat -> Q * Q) :=
  mkTSparse (MsgFst (fun v => v)) (fun v => v) [ex_bn] [] Z.add [RowFun (Z.mul w); ex_bn] (fun v => v) (fun v => v).
Definition ex_sparse_state : sparse_state (nat -> Q * Q) := mkSparseState [col_init] [] [col_init; col_init].
Definition ex_edges_b : params Z :=
  mkParams (Some [5; 7]%Z) None None None None (Some [1; 2; 3]%Z) (Some [(0, 0); (1, 0); (1, 1); (2, 1)]%nat).
Definition ex_sparse_steps :=
  [([ex_sparse 1; ex_sparse 2], [ex_vertices; ex_edges_b]); ([ex_sparse 3; ex_sparse 1], [ex_vertices; ex_edges_b])].

Definition ex_own (d : nat) : list (list (list Z)) :=
  match mapM (own_rows Zops 1 d) ex_sparse_steps with Ok r => r | Err _ => [] end.

Example C87_ex_sparse : forall d, (d < 2)%nat -> exists ss' s' r,
  run_sparse_steps Zops col_upd ex_sparse_steps [ex_sparse_state; ex_sparse_state] = Ok ss' /\
  nth_error ss' d = Some s' /\ nth_error (ss_comb s') 1 = Some r /\
  fst (r 0%nat) == fading (col_means ex_col 0 (concat (ex_own d))) /\ length (concat (ex_own d)) = 2%nat.
Proof.
  intros d Hd.
  destruct (C87_own_statistics Zops ex_col 1 d ex_sparse_steps [ex_sparse_state; ex_sparse_state] (ex_own d) ex_sparse_state)
    as [ss' [s' [r [E [Hs [Hn H]]]]]].
  - intros ls ps [H|[H|[]]]; injection H as <- <-; (split; [reflexivity|]); (split; [cbn; lia|]);
      (split; [repeat constructor|]);
      (split; [destruct d as [|[|d]]; [| |lia]; do 2 eexists; split; reflexivity|]); eexists; vm_compute; reflexivity.
  - destruct d as [|[|d]]; [| |lia]; repeat constructor.
  - destruct d as [|[|d]]; [| |lia]; reflexivity.
  - reflexivity.
  - exists ss', s', r. split; [exact E|]. split; [exact Hs|]. split; [exact Hn|].
    split; [apply H|]. destruct d as [|[|d]]; [| |lia]; reflexivity.
Qed.


Example C87_ex_bounds :
  let m := running ex_col (concat ex_rss) 0 in -(3) <= fst m <= 39 /\ 0 < snd m.
Proof.
  cbn zeta. destruct (C87_bounds ex_col (concat ex_rss) 0 (-(3)) 39) as [A [B _]].
  - split; discriminate.
  - intros r H. cbn in H. repeat (destruct H as [<-|H]; [discriminate|]). destruct H.
  - intros r v H Hv. cbn in H.
    repeat (destruct H as [<-|H]; [cbn in Hv; repeat (destruct Hv as [<-|Hv]; [split; discriminate|]); destruct Hv|]).
    destruct H.
  - now split.
Qed.

(** Dimensions with equal means do share their statistics. *)
Example C87_ex_agrees : forall m, In m [2; 2; 2] -> fading [2; 2; 2] / (1 - qpow (9 # 10) 3) == m.
Proof.
  apply (proj2 (C87_shared_agrees [2; 2; 2] ltac:(discriminate))).
  intros m m' H H'. cbn in H, H'. intuition congruence || (destruct H as [<-|[<-|[<-|[]]]]; destruct H' as [<-|[<-|[<-|[]]]]; reflexivity).
Qed.
