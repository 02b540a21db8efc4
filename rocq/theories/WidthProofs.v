From Coq Require Import List Arith Lia Bool.
From Verif Require Import Base.
From Verif Require Import WidthModel WidthSpec.
Import ListNotations.

(** * Lists *)
Lemma w_map_const : forall {A B} (b : B) (l : list A), map (fun _ => b) l = repeat b (length l).
Proof. induction l; simpl; congruence. Qed.

Lemma w_mapM_const : forall {A B} (f : A -> result B) (b : B) l,
  (forall a, In a l -> f a = Ok b) -> mapM f l = Ok (repeat b (length l)).
Proof.
  induction l as [|a l IH]; intros H; [reflexivity|]. cbn.
  rewrite (H a (or_introl eq_refl)); cbn. rewrite IH by (intros; apply H; now right). reflexivity.
Qed.

Lemma w_mapM_last : forall {A B} (f : A -> result B) (b : B) l x e,
  (forall a, In a l -> f a = Ok b) -> f x = Err e -> mapM f (l ++ [x]) = Err e.
Proof.
  induction l as [|a l IH]; intros x e H Hx; cbn.
  - rewrite Hx. reflexivity.
  - rewrite (H a (or_introl eq_refl)); cbn.
    rewrite (IH x e) by (auto; intros; apply H; now right). reflexivity.
Qed.

Lemma w_mapM_total : forall {A B} (f : A -> result B) l,
  (forall a, In a l -> exists b, f a = Ok b) ->
  exists r, mapM f l = Ok r /\ Forall2 (fun a b => f a = Ok b) l r.
Proof.
  induction l as [|a l IH]; intros H.
  - exists []. split; [reflexivity|constructor].
  - destruct (H a (or_introl eq_refl)) as [b Hb].
    destruct IH as [r [Hr Hf]]; [intros; apply H; now right|].
    exists (b :: r). cbn. rewrite Hb; cbn. rewrite Hr. split; [reflexivity|now constructor].
Qed.

Lemma w_F2_len : forall {A B} (R : A -> B -> Prop) l r, Forall2 R l r -> length l = length r.
Proof. induction 1; simpl; congruence. Qed.

Lemma w_F2_nth : forall {A B} (R : A -> B -> Prop) l r, Forall2 R l r ->
  forall i b, nth_error r i = Some b -> exists a, nth_error l i = Some a /\ R a b.
Proof.
  induction 1; intros [|i] z Hz; simpl in Hz; try discriminate.
  - inversion Hz; subst. exists x; split; auto.
  - apply IHForall2 in Hz. exact Hz.
Qed.

Lemma w_nth_seq : forall n s i a, nth_error (seq s n) i = Some a -> a = s + i /\ i < n.
Proof.
  induction n; intros s i a H; destruct i; simpl in H; try discriminate.
  - inversion H; subst. lia.
  - apply IHn in H. lia.
Qed.

Lemma w_combine_repeat : forall {L P} (l : L) n (ps : list P),
  length ps <= n -> combine (repeat l n) ps = map (fun p => (l, p)) ps.
Proof.
  intros L P l n ps; revert n. induction ps as [|p ps IH]; intros [|n] H; simpl in *;
    try reflexivity; try lia. rewrite IH by lia. reflexivity.
Qed.

Lemma w_mapM_map : forall {A B C} (f : B -> result C) (g : A -> B) l,
  mapM f (map g l) = mapM (fun a => f (g a)) l.
Proof. induction l as [|a l IH]; [reflexivity|]. cbn. destruct (f (g a)); cbn; now rewrite ?IH. Qed.

Lemma w_repeat_snoc : forall {A} (x : A) k, repeat x k ++ [x] = repeat x (S k).
Proof. induction k; simpl in *; congruence. Qed.

(** * torch *)
Lemma wadd_same : forall a, wadd a a = Ok a.
Proof. intros; unfold wadd. now rewrite Nat.eqb_refl. Qed.
Lemma wiadd_same : forall a, wiadd a a = Ok a.
Proof. intros; unfold wiadd. rewrite wadd_same; cbn. now rewrite Nat.eqb_refl. Qed.
Lemma wlin_ok : forall i o, wrun1 (WLin i o) i = Ok o.
Proof. intros; cbn. now rewrite Nat.eqb_refl. Qed.
Lemma wnorm_ok : forall g n, wrun1 (wnorm g n) n = Ok n.
Proof. intros [] n; cbn; now rewrite ?Nat.eqb_refl. Qed.
Lemma wlin_bad : forall i o w, w <> i -> wrun1 (WLin i o) w = Err RuntimeError.
Proof. intros i o w H; cbn. apply Nat.eqb_neq in H. now rewrite H. Qed.

Lemma sp_update_ok : forall g w h, wrun (sp_update g w h) w = Ok h.
Proof.
  intros. unfold wrun, sp_update. cbn [foldM].
  rewrite wlin_ok; cbn [bind]. rewrite wnorm_ok; cbn [bind wrun1].
  rewrite Nat.eqb_refl; cbn [bind]. rewrite wnorm_ok; reflexivity.
Qed.

Lemma sp_update_bad : forall g w h x, x <> w -> wrun (sp_update g w h) x = Err RuntimeError.
Proof. intros. unfold wrun, sp_update. cbn [foldM]. now rewrite wlin_bad. Qed.

Lemma wstack_same : forall h n, 1 <= n -> wstack (repeat h n) = Ok h.
Proof.
  intros h [|n] H; [lia|]. simpl.
  replace (forallb (Nat.eqb h) (repeat h n)) with true; [reflexivity|].
  symmetry. apply forallb_forall. intros x Hx. apply repeat_spec in Hx. subst. apply Nat.eqb_refl.
Qed.

Lemma w_sum_repeat : forall h n, list_sum (repeat h n) = n * h.
Proof. induction n; simpl; [reflexivity|]. rewrite IHn. reflexivity. Qed.

Lemma wjump_run_ok : forall j h n, j <> JLstm -> 1 <= n ->
  wjump_run j (repeat h n) = Ok (lin1_in (Some j) n h).
Proof.
  intros [] h n Hj Hn; cbn.
  - destruct n; [lia|]. cbn [repeat wcat]. f_equal. exact (w_sum_repeat h (S n)).
  - now apply wstack_same.
  - congruence.
Qed.

Lemma wpool_ok : forall md w m, 1 <= m <= S md -> wpool md (repeat w m) = Ok w.
Proof.
  intros md w [|m] H; [lia|]. cbn [repeat wpool].
  change (w :: repeat w m) with (repeat w (S m)). rewrite repeat_length.
  replace (S m <=? S md) with true by (symmetry; apply Nat.leb_le; lia).
  rewrite (w_mapM_const _ w).
  - reflexivity.
  - intros a Ha. apply repeat_spec in Ha; subst. unfold wassign. now rewrite Nat.eqb_refl.
Qed.

(** * The data *)
Definition pre (n w : nat) (K : list wco) : Prop :=
  forall d c, d < n -> nth_error K d = Some c -> w_x c = Some w.

Lemma featured_pre : forall w K n, featured w K -> pre n w K.
Proof. intros w K n H d c _ E. apply H. eapply nth_error_In; eauto. Qed.

Lemma pre_wx : forall n w K d, pre n w K -> d < n -> d < length K -> wx_of K d = Some w.
Proof.
  intros n w K d H Hd Hl. unfold wx_of. destruct (nth_error K d) eqn:E.
  - eapply H; eauto.
  - apply nth_error_None in E. lia.
Qed.

Lemma w_params : forall K md top down,
  exists ps, wall_params K md top down = Ok ps /\
    length ps = Nat.min (S md) (length K) /\
    (forall d p, nth_error ps d = Some p -> wparams_of K d md top down = Ok p).
Proof.
  intros K md top down. unfold wall_params.
  destruct (w_mapM_total (fun d => wparams_of K d md top down)
              (seq 0 (Nat.min (S md) (length K)))) as [ps [Hps F2]].
  - intros d Hd. apply in_seq in Hd. unfold wparams_of.
    destruct (nth_error K d) eqn:E; [eauto|]. apply nth_error_None in E. lia.
  - exists ps. split; [exact Hps|]. split.
    + apply w_F2_len in F2. now rewrite seq_length in F2.
    + intros d p Hp. destruct (w_F2_nth _ _ _ F2 d p Hp) as [a [Ha Hb]].
      apply w_nth_seq in Ha. destruct Ha as [-> _]. exact Hb.
Qed.

Lemma w_params_facts : forall K md top down w d p,
  pre (S md) w K -> grounded K -> d <= md -> wparams_of K d md top down = Ok p ->
  p_x p = Some w /\
  (p_up p = true -> d < md -> p_ua p = Some w) /\
  (p_up p = true -> d = md -> top = true -> S d < length K /\ p_ua p = wx_of K (S d)) /\
  (p_up p = true -> d = md -> top = false -> p_ua p = None) /\
  (p_down p = true -> 1 <= d /\ p_da p = Some w) /\
  (p_bnd p = true -> p_ba p = Some w).
Proof.
  intros K md top down w d p HP HG Hd HE. unfold wparams_of in HE.
  destruct (nth_error K d) as [c|] eqn:E; [|discriminate].
  assert (Hl : d < length K) by (apply nth_error_Some; congruence).
  inversion HE; subst p; clear HE; cbn [p_x p_up p_ua p_down p_da p_bnd p_ba].
  assert (Hlow : d = 0 -> w_down c = false /\ w_bnd c = false).
  { intros ->. destruct K; simpl in *; [contradiction|]. inversion E; subst; exact HG. }
  assert (Hlow' : forall e, d = S e -> wx_of K e = Some w) by (intros; subst; apply (pre_wx (S md)); auto; lia).
  split; [apply (HP d c); auto; lia|].
  split.
  { intros Hu Hdm. rewrite Hu. replace (d <? md) with true by (symmetry; apply Nat.ltb_lt; lia).
    cbn. apply andb_prop in Hu. destruct Hu as [_ Hu]. apply Nat.ltb_lt in Hu.
    apply (pre_wx (S md)); auto; lia. }
  split.
  { intros Hu -> ->. rewrite Hu. rewrite orb_true_r. cbn. apply andb_prop in Hu.
    destruct Hu as [_ Hu]. apply Nat.ltb_lt in Hu. auto. }
  split.
  { intros Hu -> ->. rewrite Hu. rewrite Nat.ltb_irrefl. reflexivity. }
  split.
  { intros Hu. rewrite Hu. destruct d as [|e].
    - destruct (Hlow eq_refl) as [Hw _]. rewrite Hw, andb_false_r in Hu. discriminate.
    - split; [lia|]. now apply Hlow'. }
  { intros Hu. rewrite Hu. destruct d as [|e].
    - destruct (Hlow eq_refl) as [_ Hw]. congruence.
    - now apply Hlow'. }
Qed.

Lemma wzip_len : forall K xs, length (wzip_put K xs) = length K.
Proof. induction K; intros [|x xs]; simpl; auto. Qed.

Lemma wzip_nth : forall K xs d c, nth_error (wzip_put K xs) d = Some c ->
  exists c0, nth_error K d = Some c0 /\
    w_up c = w_up c0 /\ w_down c = w_down c0 /\ w_bnd c = w_bnd c0 /\
    w_x c = match nth_error xs d with Some x => Some x | None => w_x c0 end.
Proof.
  induction K as [|k K IH]; intros [|x xs] [|d] c H; simpl in *; try discriminate;
    try (inversion H; subst; eauto 8; fail); try (eapply IH; eauto; fail).
Qed.

Lemma wset_ok : forall K xs, length xs <= length K -> wset_xs K xs = Ok (wzip_put K xs).
Proof. intros. unfold wset_xs. apply Nat.leb_le in H. rewrite H. reflexivity. Qed.

Lemma wzip_grounded : forall K xs, grounded K -> grounded (wzip_put K xs).
Proof. intros [|c K] [|x xs] H; simpl in *; auto. Qed.

Lemma w_nth_repeat : forall {A} (x : A) n d, d < n -> nth_error (repeat x n) d = Some x.
Proof. induction n; intros [|d] H; simpl; try lia; auto. apply IHn. lia. Qed.

Lemma wzip_pre : forall K h n m, n <= m \/ length K <= m ->
  pre n h (wzip_put K (repeat h m)).
Proof.
  intros K h n m Hm d c Hd E. destruct (wzip_nth _ _ _ _ E) as [c0 [E0 [_ [_ [_ Ex]]]]].
  assert (d < length K) by (apply nth_error_Some; congruence).
  rewrite w_nth_repeat in Ex by lia. exact Ex.
Qed.

Lemma wzip_pre_keep : forall K h n m, pre n h K -> pre n h (wzip_put K (repeat h m)).
Proof.
  intros K h n m H d c Hd E. destruct (wzip_nth _ _ _ _ E) as [c0 [E0 [_ [_ [_ Ex]]]]].
  rewrite Ex. destruct (nth_error (repeat h m) d) eqn:Er.
  - apply nth_error_In in Er. apply repeat_spec in Er. now subst.
  - eapply H; eauto.
Qed.

(** * The loop *)
Section Loop.
  Context {C : Type} (step : C -> list wco -> result (list nat * list wco)) (h m : nat).

  Fixpoint runs (cs : list C) (K : list wco) : Prop :=
    match cs with
    | [] => True
    | c :: cs' => exists K', step c K = Ok (repeat h m, K') /\ runs cs' K'
    end.

  Lemma wpush_repeat : forall k n, wpush (repeat (repeat h k) n) (repeat h n) = repeat (repeat h (S k)) n.
  Proof.
    induction n; [reflexivity|]. cbn [repeat wpush]. rewrite IHn. f_equal.
    apply w_repeat_snoc.
  Qed.

  Lemma wloop_runs_from : forall cs K xs k, runs cs K ->
    exists K' xs', wloop step cs K xs (Some (repeat (repeat h k) m))
      = Ok (K', xs', Some (repeat (repeat h (k + length cs)) m)) /\
      (xs = Some (repeat h m) -> xs' = Some (repeat h m)).
  Proof.
    induction cs as [|c cs IH]; intros K xs k H.
    - exists K, xs. cbn. rewrite Nat.add_0_r. auto.
    - destruct H as [K1 [E H]]. cbn [wloop]. rewrite E. cbn [bind].
      rewrite wpush_repeat.
      destruct (IH K1 (Some (repeat h m)) (S k) H) as [K2 [xs2 [E2 Hx]]].
      exists K2, xs2. rewrite E2. split.
      + replace (k + length (c :: cs)) with (S k + length cs) by (cbn [length]; lia). reflexivity.
      + auto.
  Qed.

  Lemma wloop_runs : forall c cs K xs, runs (c :: cs) K ->
    exists K', wloop step (c :: cs) K xs None
      = Ok (K', Some (repeat h m), Some (repeat (repeat h (S (length cs))) m)).
  Proof.
    intros c cs K xs [K1 [E H]]. cbn [wloop]. rewrite E. cbn [bind].
    replace (map (fun _ : nat => @nil nat) (repeat h m)) with (repeat (repeat h 0) m)
      by (rewrite w_map_const, repeat_length; reflexivity).
    rewrite wpush_repeat.
    destruct (wloop_runs_from cs K1 (Some (repeat h m)) 1 H) as [K2 [xs2 [E2 Hx]]].
    exists K2. rewrite E2, (Hx eq_refl). reflexivity.
  Qed.
End Loop.

Lemma wjumped_ok : forall jm h m L, jumps jm -> 1 <= L ->
  wjumped jm (Some (repeat h m)) (Some (repeat (repeat h L) m))
  = Ok (repeat (lin1_in jm L h) m).
Proof.
  intros [j|] h m L Hj HL; [|reflexivity]. cbn [wjumped of_option bind].
  rewrite (w_mapM_const _ (lin1_in (Some j) L h)), repeat_length; [reflexivity|].
  intros a Ha. apply repeat_spec in Ha. subst. apply wjump_run_ok; auto.
  intros ->. now apply Hj.
Qed.

Lemma wjump_init_ok : forall jm, jumps jm -> wjump_init jm = Ok tt.
Proof. intros [[]|] H; try reflexivity. now elim H. Qed.

Lemma wreadout_le : forall dims md d, In d (wreadout dims md) -> d <= md.
Proof.
  intros [ds|] md d H; simpl in H.
  - apply filter_In in H. destruct H as [_ H]. now apply Nat.leb_le.
  - destruct H as [<-|H]; [lia|]. apply in_seq in H. lia.
Qed.

Lemma wreadout_len : forall dims md, reads dims md -> 1 <= length (wreadout dims md).
Proof.
  intros [ds|] md H; simpl in *; [|lia].
  destruct H as [d [Hd Hl]]. assert (Hin : In d (filter (fun d => d <=? md) ds)).
  { apply filter_In. split; auto. now apply Nat.leb_le. }
  destruct (filter _ ds); [contradiction|]. simpl. lia.
Qed.

Lemma sp_head_ok : forall n_out L h mult md jm dims m,
  jumps jm -> 1 <= L -> 1 <= m <= S md ->
  (forall d, In d dims -> d <= md) -> 1 <= length dims ->
  sp_head n_out L h mult md jm dims (Some (repeat h m)) (Some (repeat (repeat h L) m)) = Ok n_out.
Proof.
  intros n_out L h mult md jm dims m Hj HL Hm Hd Hl. unfold sp_head.
  rewrite wjumped_ok by auto. cbn [bind]. rewrite wpool_ok by auto. cbn [bind].
  rewrite (w_mapM_const _ (mult * h)).
  - cbn [bind]. rewrite wstack_same by auto. cbn [bind]. apply wlin_ok.
  - intros d Hin. rewrite w_map_const. unfold get.
    rewrite w_nth_repeat by (rewrite seq_length; specialize (Hd d Hin); lia).
    cbn [of_option bind]. apply wlin_ok.
Qed.

(** * Convolutions with equal levels *)
Lemma wconv_repeat : forall {L} (fwd : L -> wparams -> result nat) l n ps,
  length ps <= n -> wconv fwd (repeat l n) ps = mapM (fwd l) ps.
Proof.
  intros L fwd l n ps H. unfold wconv. rewrite repeat_length.
  pose proof H as H'. apply Nat.leb_le in H'. rewrite H'. cbn [assert_ bind].
  rewrite w_combine_repeat by auto. rewrite w_mapM_map. reflexivity.
Qed.

Definition the_sp_level (pp cob : bool) (g : gnorm) (w h : nat) : sp_level :=
  {| sl_up_size := w; sl_down_size := w; sl_bnd_size := w;
     sl_msg_up := if cob then Some [WLin (w * 2) w; WKeep] else None;
     sl_update_up := sp_update g w h;
     sl_update_bnd := sp_update g w h;
     sl_update_down := if pp then Some (sp_update g w h) else None;
     sl_combine := [WLin (h * (if pp then 3 else 2)) h; wnorm g h; WKeep] |}.

Lemma sp_conv_eq : forall pp cob g w h md,
  sp_conv pp cob g w h md = repeat (the_sp_level pp cob g w h) (S md).
Proof. intros. unfold sp_conv. now rewrite w_map_const, seq_length. Qed.

Lemma sp_combine_ok : forall (pp : bool) g h n,
  n = h * (if pp then 3 else 2) ->
  wrun [WLin (h * (if pp then 3 else 2)) h; wnorm g h; WKeep] n = Ok h.
Proof.
  intros pp g h n ->. unfold wrun. cbn [foldM]. rewrite wlin_ok. cbn [bind].
  rewrite wnorm_ok. reflexivity.
Qed.

Lemma sp_level_ok : forall pp cob g w h p,
  p_x p = Some w ->
  (cob = true -> p_up p = true -> p_ua p = Some w) ->
  (p_bnd p = true -> p_ba p = Some w) ->
  sp_level_fwd (the_sp_level pp cob g w h) p = Ok h.
Proof.
  intros pp cob g w h p Hx Hu Hb. unfold sp_level_fwd. rewrite Hx. cbn [wneed of_option bind].
  assert (E1 : wprop true (p_up p) (sl_up_size (the_sp_level pp cob g w h))
                 (sp_msg_up (the_sp_level pp cob g w h) w (p_ua p)) = Ok w).
  { unfold wprop. cbn [andb]. destruct (p_up p); [|reflexivity].
    unfold sp_msg_up. cbn [sl_msg_up the_sp_level]. destruct cob; [|reflexivity].
    rewrite (Hu eq_refl eq_refl). cbn [of_option bind wcat list_sum fold_right].
    unfold wrun. cbn [foldM]. replace (w + (w + 0)) with (w * 2) by lia.
    rewrite wlin_ok. reflexivity. }
  rewrite E1. cbn [bind].
  replace (wprop false (p_down p) (sl_down_size (the_sp_level pp cob g w h)) (Ok w)) with (Ok w)
    by reflexivity.
  cbn [bind].
  assert (E3 : wprop true (p_bnd p) (sl_bnd_size (the_sp_level pp cob g w h))
                 (sp_msg_bnd (p_ba p)) = Ok w).
  { unfold wprop. cbn [andb]. destruct (p_bnd p); [|reflexivity].
    rewrite (Hb eq_refl). reflexivity. }
  rewrite E3.
  cbn [bind]. rewrite wiadd_same. cbn [bind].
  destruct pp; cbn [sl_update_down the_sp_level sl_update_up sl_update_bnd sl_combine];
    rewrite ?wiadd_same; cbn [bind]; rewrite ?wiadd_same; cbn [bind];
    rewrite ?sp_update_ok; cbn [bind]; rewrite ?sp_update_ok; cbn [bind];
    rewrite ?sp_update_ok; cbn [bind wcat list_sum fold_right].
  - apply (sp_combine_ok true). lia.
  - apply (sp_combine_ok false). lia.
Qed.

(** What a layer of a sparse network needs. *)
Definition sp_fit (cob : bool) (md w : nat) (K : list wco) : Prop :=
  grounded K /\ pre (S md) w K /\
  (cob = false \/ length K <= S md \/ pre (S (S md)) w K).

Lemma grounded_len : forall K, grounded K -> 1 <= length K.
Proof. intros [|c K] H; simpl in *; [contradiction|lia]. Qed.

Lemma sp_step_ok : forall pp cob g md w h K, sp_fit cob md w K ->
  exists K', sp_step md (sp_conv pp cob g w h md) K
      = Ok (repeat h (Nat.min (S md) (length K)), K') /\
    K' = wzip_put K (repeat h (Nat.min (S md) (length K))).
Proof.
  intros pp cob g md w h K [HG [HP HC]]. unfold sp_step.
  destruct (w_params K md true false) as [ps [Eps [Lps Fps]]]. rewrite Eps. cbn [bind].
  rewrite sp_conv_eq, wconv_repeat by lia.
  rewrite (w_mapM_const _ h).
  - cbn [bind]. rewrite Lps. rewrite wset_ok by (rewrite repeat_length; lia). cbn [bind].
    eexists; split; reflexivity.
  - intros p Hp. apply In_nth_error in Hp. destruct Hp as [d Hd].
    assert (Hdl : d < length ps) by (apply nth_error_Some; congruence).
    pose proof (Fps d p Hd) as Hd'.
    destruct (w_params_facts K md true false w d p HP HG ltac:(lia) Hd')
      as [Fx [Fu [Ft [_ [_ Fb]]]]].
    apply sp_level_ok; auto. intros Hcob Hup.
    destruct (Nat.eq_dec d md) as [->|Hne].
    + destruct (Ft Hup eq_refl eq_refl) as [Hlen Hua]. rewrite Hua.
      destruct HC as [HC|[HC|HC]]; [congruence|lia|].
      apply (pre_wx (S (S md))); auto; lia.
    + apply Fu; auto; lia.
Qed.

Lemma sp_fit_next : forall cob md w h K,
  sp_fit cob md w K -> (cob = false \/ length K <= S md \/ pre (S (S md)) h K) ->
  sp_fit cob md h (wzip_put K (repeat h (Nat.min (S md) (length K)))).
Proof.
  intros cob md w h K [HG [HP _]] HC. split; [now apply wzip_grounded|]. split.
  - apply wzip_pre. lia.
  - rewrite wzip_len. destruct HC as [HC|[HC|HC]]; auto. right; right. now apply wzip_pre_keep.
Qed.

Lemma sp_runs_h : forall pp cob g md h n L K s, sp_fit cob md h K -> length K = n -> 1 <= s ->
  runs (sp_step md) h (Nat.min (S md) n)
    (map (fun i => sp_conv pp cob g (layer_dim 0 h i) h md) (seq s L)) K.
Proof.
  intros pp cob g md h n L. induction L as [|L IH]; intros K s HK Hn Hs; [exact I|].
  cbn [seq map runs].
  replace (layer_dim 0 h s) with h by (unfold layer_dim; destruct s; [lia|reflexivity]).
  destruct (sp_step_ok pp cob g md h h K HK) as [K' [E EK]]. rewrite Hn in E.
  exists K'. split; [exact E|]. apply IH; [|subst K'; rewrite wzip_len; auto|lia].
  subst K'. apply sp_fit_next with h; auto. destruct HK as [_ [_ HC]]. exact HC.
Qed.

Lemma sp_convs_S : forall pp cob g w L h md,
  sp_convs pp cob g w (S L) h md =
  sp_conv pp cob g w h md :: map (fun i => sp_conv pp cob g (layer_dim 0 h i) h md) (seq 1 L).
Proof.
  intros. unfold sp_convs. cbn [seq map]. f_equal. apply map_ext_in. intros i Hi.
  apply in_seq in Hi. unfold layer_dim. destruct i; [lia|reflexivity].
Qed.

Lemma sp_loop_ok : forall pp cob g md w h L K xs,
  sp_fit cob md w K -> 1 <= L ->
  (cob = false \/ length K <= S md \/ L = 1 \/ w = h) ->
  exists K', wloop (sp_step md) (sp_convs pp cob g w L h md) K xs None
    = Ok (K', Some (repeat h (Nat.min (S md) (length K))),
          Some (repeat (repeat h L) (Nat.min (S md) (length K)))).
Proof.
  intros pp cob g md w h [|L] K xs HK HL HC; [lia|]. rewrite sp_convs_S.
  destruct (sp_step_ok pp cob g md w h K HK) as [K' [E EK]].
  destruct (wloop_runs (sp_step md) h (Nat.min (S md) (length K))
    (sp_conv pp cob g w h md)
    (map (fun i => sp_conv pp cob g (layer_dim 0 h i) h md) (seq 1 L)) K xs) as [K2 E2].
  - exists K'. split; [exact E|]. destruct L as [|L]; [exact I|].
    apply sp_runs_h; [|subst K'; apply wzip_len|lia]. subst K'.
    apply sp_fit_next with w; auto.
    destruct HC as [HC|[HC|[HC|HC]]]; auto; [lia|].
    subst h. destruct HK as [_ [_ HC]]. exact HC.
  - exists K2. rewrite E2. rewrite map_length, seq_length. reflexivity.
Qed.

Theorem sparse_cin_ok : forall pp cob g n_in n_out L h mult md jm dims K,
  featured n_in K -> grounded K -> 1 <= L -> jumps jm -> reads dims md ->
  (cob = false \/ length K <= S md \/ L = 1 \/ n_in = h) ->
  sparse_cin pp cob g n_in n_out L h mult md jm dims K = Ok n_out.
Proof.
  intros pp cob g n_in n_out L h mult md jm dims K HF HG HL HJ HR HC.
  unfold sparse_cin. rewrite wjump_init_ok by auto. cbn [bind].
  destruct (sp_loop_ok pp cob g md n_in h L K None) as [K' E]; auto.
  - split; [exact HG|]. split; [now apply featured_pre|].
    right; right. now apply featured_pre.
  - rewrite E. cbn [bind]. apply sp_head_ok; auto.
    + pose proof (grounded_len K HG). lia.
    + apply wreadout_le.
    + now apply wreadout_len.
Qed.

(** A layer whose features of the dimension above the last one have another
    width. *)
Lemma w_params_split : forall K md top down, S md <= length K ->
  exists ps p, wall_params K md top down = Ok (ps ++ [p]) /\ length ps = md /\
    wparams_of K md md top down = Ok p /\
    (forall q, In q ps -> exists d, d < md /\ wparams_of K d md top down = Ok q).
Proof.
  intros K md top down Hl. destruct (w_params K md top down) as [ps [E [L F]]].
  assert (Hps : length ps = S md) by lia.
  destruct (exists_last (l := ps)) as [qs [p Eq]]; [intros ->; simpl in *; lia|].
  subst ps. rewrite app_length in Hps; simpl in Hps.
  exists qs, p. split; [exact E|]. split; [lia|]. split.
  - apply F. rewrite nth_error_app2 by lia. replace (md - length qs) with 0 by lia. reflexivity.
  - intros q Hq. apply In_nth_error in Hq. destruct Hq as [d Hd].
    assert (d < length qs) by (apply nth_error_Some; congruence).
    exists d. split; [lia|]. apply F. rewrite nth_error_app1 by lia. exact Hd.
Qed.

Lemma sp_level_stale : forall pp g w w' h p,
  p_x p = Some w -> p_up p = true -> p_ua p = Some w' -> w' <> w ->
  sp_level_fwd (the_sp_level pp true g w h) p = Err RuntimeError.
Proof.
  intros pp g w w' h p Hx Hu Ha Hne. unfold sp_level_fwd. rewrite Hx. cbn [wneed of_option bind].
  unfold wprop at 1. cbn [andb]. rewrite Hu. unfold sp_msg_up. cbn [sl_msg_up the_sp_level].
  rewrite Ha. cbn [of_option bind wcat list_sum fold_right]. unfold wrun. cbn [foldM].
  rewrite wlin_bad by lia. reflexivity.
Qed.

Lemma sp_step_stale : forall pp g md w w' h K v,
  grounded K -> pre (S md) w K -> nth_error K md = Some v -> w_up v = true ->
  wx_of K (S md) = Some w' -> w' <> w ->
  sp_step md (sp_conv pp true g w h md) K = Err RuntimeError.
Proof.
  intros pp g md w w' h K v HG HP Hv Hup Hx Hne. unfold sp_step.
  assert (Hl : S md < length K).
  { apply nth_error_Some. unfold wx_of in Hx. destruct (nth_error K (S md)); congruence. }
  destruct (w_params_split K md true false) as [ps [p [E [Lp [Ep F]]]]]; [lia|].
  rewrite E. cbn [bind]. rewrite sp_conv_eq, wconv_repeat by (rewrite app_length; simpl; lia).
  assert (Hpu : p_up p = true).
  { unfold wparams_of in Ep. rewrite Hv in Ep. inversion Ep; subst p; cbn [p_up].
    apply Nat.ltb_lt in Hl. now rewrite Hup, Hl. }
  destruct (w_params_facts K md true false w md p HP HG (le_n _) Ep) as [Fx [_ [Ft _]]].
  destruct (Ft Hpu eq_refl eq_refl) as [_ Hua].
  rewrite (w_mapM_last _ h _ _ RuntimeError); [reflexivity| |].
  - intros q Hq. destruct (F q Hq) as [d [Hd Eq]].
    destruct (w_params_facts K md true false w d q HP HG ltac:(lia) Eq) as [Gx [Gu [_ [_ [_ Gb]]]]].
    apply sp_level_ok; auto.
  - apply sp_level_stale with w'; auto. congruence.
Qed.

Theorem sparse_cin_stale : forall pp g n_in n_out L h mult md jm dims K v,
  featured n_in K -> grounded K -> 2 <= L -> jumps jm ->
  S md < length K -> nth_error K md = Some v -> w_up v = true -> n_in <> h ->
  sparse_cin pp true g n_in n_out L h mult md jm dims K = Err RuntimeError.
Proof.
  intros pp g n_in n_out L h mult md jm dims K v HF HG HL HJ Hlen Hv Hup Hne.
  destruct L as [|[|L]]; [lia|lia|].
  unfold sparse_cin. rewrite wjump_init_ok by auto. cbn [bind]. rewrite sp_convs_S.
  assert (HK : sp_fit true md n_in K).
  { split; [exact HG|]. split; [now apply featured_pre|]. right; right. now apply featured_pre. }
  destruct (sp_step_ok pp true g md n_in h K HK) as [K' [E EK]].
  cbn [wloop]. rewrite E. cbn [bind seq map wloop].
  replace (layer_dim 0 h 1) with h by reflexivity.
  assert (Hm : Nat.min (S md) (length K) = S md) by lia. rewrite Hm in EK.
  assert (Hv' : exists v', nth_error K' md = Some v' /\ w_up v' = true).
  { destruct (nth_error K' md) as [v'|] eqn:E'.
    - subst K'. destruct (wzip_nth _ _ _ _ E') as [c0 [E0 [Eu _]]]. exists v'. split; auto.
      congruence.
    - apply nth_error_None in E'. subst K'. rewrite wzip_len in E'. lia. }
  destruct Hv' as [v' [Ev' Eu']].
  rewrite (sp_step_stale pp g md h n_in h K' v'); auto.
  - subst K'. now apply wzip_grounded.
  - subst K'. apply wzip_pre. lia.
  - subst K'. unfold wx_of. destruct (nth_error (wzip_put K (repeat h (S md))) (S md)) as [c|] eqn:Ec.
    + destruct (wzip_nth _ _ _ _ Ec) as [c0 [E0 [_ [_ [_ Ex]]]]]. rewrite Ex.
      assert (Hn : nth_error (repeat h (S md)) (S md) = None)
        by (apply nth_error_None; rewrite repeat_length; lia).
      rewrite Hn. apply HF. eapply nth_error_In; eauto.
    + apply nth_error_None in Ec. rewrite wzip_len in Ec. lia.
Qed.
