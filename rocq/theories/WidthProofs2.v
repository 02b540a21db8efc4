From Coq Require Import List Arith Lia Bool.
From Verif Require Import Base.
From Verif Require Import WidthModel WidthSpec WidthProofs.
Import ListNotations.

(** * CIN0 *)
Definition the_cin_level (w h : nat) : cin_level :=
  {| cl_up_size := w; cl_down_size := w;
     cl_msg_up := [WLin (w * 2) w; WKeep; WNorm w];
     cl_msg_down := Some [WLin (w * 2) w; WKeep; WNorm w];
     cl_update := [WLin w h; WKeep; WLin h h; WKeep; WNorm h] |}.

Lemma cin0_conv_eq : forall w h md, cin0_conv w h md = repeat (the_cin_level w h) (S md).
Proof. intros. unfold cin0_conv. now rewrite w_map_const, seq_length. Qed.

Lemma cin_msg_ok : forall i w, wrun [WLin i w; WKeep; WNorm w] i = Ok w.
Proof. intros. unfold wrun. cbn [foldM]. rewrite wlin_ok. cbn. now rewrite Nat.eqb_refl. Qed.

Lemma cin_update_ok : forall w h, wrun [WLin w h; WKeep; WLin h h; WKeep; WNorm h] w = Ok h.
Proof.
  intros. unfold wrun. cbn [foldM]. rewrite wlin_ok. cbn [bind wrun1].
  rewrite Nat.eqb_refl. cbn [bind]. now rewrite Nat.eqb_refl.
Qed.

Lemma cin_cat : forall w, wcat [w; w] = Ok (w * 2).
Proof. intros. unfold wcat. f_equal. simpl. lia. Qed.

Lemma cin_level_ok : forall l w h p,
  cl_up_size l = w -> cl_down_size l = w ->
  cl_update l = [WLin w h; WKeep; WLin h h; WKeep; WNorm h] ->
  p_x p = Some w ->
  (p_up p = true -> cin_msg_up l w (p_ua p) = Ok w) ->
  (p_down p = true -> cin_msg_down l w (p_da p) = Ok w) ->
  cin_level_fwd l p = Ok h.
Proof.
  intros l w h p Hus Hds Hupd Hx Hu Hd. unfold cin_level_fwd. rewrite Hx. cbn [wneed of_option bind].
  assert (E1 : wprop true (p_up p) (cl_up_size l) (cin_msg_up l w (p_ua p)) = Ok w).
  { unfold wprop. cbn [andb]. destruct (p_up p); [auto|congruence]. }
  assert (E2 : wprop true (p_down p) (cl_down_size l) (cin_msg_down l w (p_da p)) = Ok w).
  { unfold wprop. cbn [andb]. destruct (p_down p); [auto|congruence]. }
  rewrite E1; cbn [bind]. rewrite E2; cbn [bind]. rewrite !wiadd_same; cbn [bind].
  rewrite wadd_same; cbn [bind]. rewrite Hupd. apply cin_update_ok.
Qed.

Lemma cin_level_up_err : forall l w p e,
  p_x p = Some w -> p_up p = true -> cin_msg_up l w (p_ua p) = Err e ->
  cin_level_fwd l p = Err e.
Proof.
  intros l w p e Hx Hu He. unfold cin_level_fwd. rewrite Hx. cbn [wneed of_option bind].
  unfold wprop at 1. cbn [andb]. now rewrite Hu, He.
Qed.

Lemma cin_up_two : forall l w, cl_msg_up l = [WLin (w * 2) w; WKeep; WNorm w] ->
  cin_msg_up l w (Some w) = Ok w.
Proof. intros l w H. unfold cin_msg_up. rewrite cin_cat. cbn [bind]. rewrite H. apply cin_msg_ok. Qed.

Lemma cin_up_two_bad : forall l w w', cl_msg_up l = [WLin (w * 2) w; WKeep; WNorm w] -> w' <> w ->
  cin_msg_up l w (Some w') = Err RuntimeError.
Proof.
  intros l w w' H Hne. unfold cin_msg_up. cbn [wcat bind list_sum fold_right]. rewrite H.
  unfold wrun. cbn [foldM]. rewrite wlin_bad by lia. reflexivity.
Qed.

Lemma cin_down_two : forall l w, cl_msg_down l = Some [WLin (w * 2) w; WKeep; WNorm w] ->
  cin_msg_down l w (Some w) = Ok w.
Proof.
  intros l w H. unfold cin_msg_down. cbn [of_option bind]. rewrite cin_cat. cbn [bind].
  rewrite H. apply cin_msg_ok.
Qed.

Definition cin0_step (md : nat) (conv : list cin_level) (K : list wco)
  : result (list nat * list wco) :=
  let* ps := wall_params K md true true in
  let* xs := wconv cin_level_fwd conv ps in
  let* K := wset_xs K xs in Ok (xs, K).

Lemma cin0_step_ok : forall md w h K, sp_fit true md w K ->
  exists K', cin0_step md (cin0_conv w h md) K
      = Ok (repeat h (Nat.min (S md) (length K)), K') /\
    K' = wzip_put K (repeat h (Nat.min (S md) (length K))).
Proof.
  intros md w h K [HG [HP HC]]. unfold cin0_step.
  destruct (w_params K md true true) as [ps [Eps [Lps Fps]]]. rewrite Eps. cbn [bind].
  rewrite cin0_conv_eq, wconv_repeat by lia.
  rewrite (w_mapM_const _ h).
  - cbn [bind]. rewrite Lps. rewrite wset_ok by (rewrite repeat_length; lia). cbn [bind].
    eexists; split; reflexivity.
  - intros p Hp. apply In_nth_error in Hp. destruct Hp as [d Hd].
    assert (Hdl : d < length ps) by (apply nth_error_Some; congruence).
    destruct (w_params_facts K md true true w d p HP HG ltac:(lia) (Fps d p Hd))
      as [Fx [Fu [Ft [_ [Fd _]]]]].
    apply (cin_level_ok _ w); auto.
    + intros Hup. replace (p_ua p) with (Some w); [now apply cin_up_two|]. symmetry.
      destruct (Nat.eq_dec d md) as [->|Hne].
      * destruct (Ft Hup eq_refl eq_refl) as [Hlen Hua]. rewrite Hua.
        destruct HC as [HC|[HC|HC]]; [congruence|lia|]. apply (pre_wx (S (S md))); auto; lia.
      * apply Fu; auto; lia.
    + intros Hdn. destruct (Fd Hdn) as [_ Hda]. rewrite Hda. now apply cin_down_two.
Qed.

Lemma cin0_runs_h : forall md h n L K s, sp_fit true md h K -> length K = n -> 1 <= s ->
  runs (cin0_step md) h (Nat.min (S md) n)
    (map (fun i => cin0_conv (layer_dim 0 h i) h md) (seq s L)) K.
Proof.
  intros md h n L. induction L as [|L IH]; intros K s HK Hn Hs; [exact I|].
  cbn [seq map runs].
  replace (layer_dim 0 h s) with h by (unfold layer_dim; destruct s; [lia|reflexivity]).
  destruct (cin0_step_ok md h h K HK) as [K' [E EK]]. rewrite Hn in E.
  exists K'. split; [exact E|]. apply IH; [|subst K'; rewrite wzip_len; auto|lia].
  subst K'. apply sp_fit_next with h; auto. destruct HK as [_ [_ HC]]. exact HC.
Qed.

Lemma cin0_convs_S : forall w L h md,
  map (fun i => cin0_conv (layer_dim w h i) h md) (seq 0 (S L)) =
  cin0_conv w h md :: map (fun i => cin0_conv (layer_dim 0 h i) h md) (seq 1 L).
Proof.
  intros. cbn [seq map]. f_equal. apply map_ext_in. intros i Hi.
  apply in_seq in Hi. unfold layer_dim. destruct i; [lia|reflexivity].
Qed.

(** The common end of CIN0 and EdgeCIN0. *)
Definition cin_head (n_out L h md : nat) (jm : option wjump) (xs : option (list nat))
  (jx : option (list (list nat))) : result nat :=
  let* xs := wjumped jm xs jx in
  let* x := wpool md xs in
  let* x := wrun1 (WLin (lin1_in jm L h) h) x in
  wrun1 (WLin h n_out) x.

Lemma cin_head_ok : forall n_out L h md jm m, jumps jm -> 1 <= L -> 1 <= m <= S md ->
  cin_head n_out L h md jm (Some (repeat h m)) (Some (repeat (repeat h L) m)) = Ok n_out.
Proof.
  intros. unfold cin_head. rewrite wjumped_ok by auto. cbn [bind]. rewrite wpool_ok by auto.
  cbn [bind]. rewrite wlin_ok. cbn [bind]. apply wlin_ok.
Qed.

Lemma featured_fit : forall cob md w K, featured w K -> grounded K -> sp_fit cob md w K.
Proof.
  intros cob md w K HF HG. split; [exact HG|]. split; [now apply featured_pre|].
  right; right. now apply featured_pre.
Qed.

Lemma cin0_eq : forall n_in n_out L h md jm K,
  cin0 n_in n_out L h md jm K =
  (let* _ := wjump_init jm in
   let* (_, xs, jx) := wloop (cin0_step md)
      (map (fun i => cin0_conv (layer_dim n_in h i) h md) (seq 0 L)) K None None in
   cin_head n_out L h md jm xs jx).
Proof. reflexivity. Qed.

Theorem cin0_ok : forall n_in n_out L h md jm K,
  featured n_in K -> grounded K -> 1 <= L -> jumps jm ->
  (length K <= S md \/ L = 1 \/ n_in = h) ->
  cin0 n_in n_out L h md jm K = Ok n_out.
Proof.
  intros n_in n_out [|L] h md jm K HF HG HL HJ HC; [lia|].
  rewrite cin0_eq, wjump_init_ok by auto. cbn [bind]. rewrite cin0_convs_S.
  pose proof (featured_fit true md n_in K HF HG) as HK.
  destruct (cin0_step_ok md n_in h K HK) as [K' [E EK]].
  destruct (wloop_runs (cin0_step md) h (Nat.min (S md) (length K)) (cin0_conv n_in h md)
    (map (fun i => cin0_conv (layer_dim 0 h i) h md) (seq 1 L)) K None) as [K2 E2].
  - exists K'. split; [exact E|]. destruct L as [|L]; [exact I|].
    apply cin0_runs_h; [|subst K'; apply wzip_len|lia]. subst K'.
    apply sp_fit_next with n_in; auto.
    destruct HC as [HC|[HC|HC]]; auto; [lia|].
    subst h. right; right. now apply featured_pre.
  - rewrite E2. cbn [bind]. rewrite map_length, seq_length. apply cin_head_ok; auto.
    pose proof (grounded_len K HG). lia.
Qed.

Theorem cin0_stale : forall n_in n_out L h md jm K v,
  featured n_in K -> grounded K -> 2 <= L -> jumps jm ->
  S md < length K -> nth_error K md = Some v -> w_up v = true -> n_in <> h ->
  cin0 n_in n_out L h md jm K = Err RuntimeError.
Proof.
  intros n_in n_out L h md jm K v HF HG HL HJ Hlen Hv Hup Hne.
  destruct L as [|[|L]]; [lia|lia|].
  rewrite cin0_eq, wjump_init_ok by auto. cbn [bind]. rewrite cin0_convs_S.
  destruct (cin0_step_ok md n_in h K (featured_fit true md n_in K HF HG)) as [K' [E EK]].
  cbn [wloop]. rewrite E. cbn [bind seq map wloop].
  replace (layer_dim 0 h 1) with h by reflexivity.
  assert (Hm : Nat.min (S md) (length K) = S md) by lia. rewrite Hm in EK.
  assert (HG' : grounded K') by (subst K'; now apply wzip_grounded).
  assert (HP' : pre (S md) h K') by (subst K'; apply wzip_pre; lia).
  assert (Hl' : length K' = length K) by (subst K'; apply wzip_len).
  assert (Hx' : wx_of K' (S md) = Some n_in).
  { subst K'. unfold wx_of.
    destruct (nth_error (wzip_put K (repeat h (S md))) (S md)) as [c|] eqn:Ec.
    + destruct (wzip_nth _ _ _ _ Ec) as [c0 [E0 [_ [_ [_ Ex]]]]]. rewrite Ex.
      assert (Hn : nth_error (repeat h (S md)) (S md) = None)
        by (apply nth_error_None; rewrite repeat_length; lia).
      rewrite Hn. apply HF. eapply nth_error_In; eauto.
    + apply nth_error_None in Ec. rewrite wzip_len in Ec. lia. }
  unfold cin0_step at 1.
  destruct (w_params_split K' md true true) as [ps [p [Eps [Lp [Ep F]]]]]; [lia|].
  rewrite Eps. cbn [bind]. rewrite cin0_conv_eq, wconv_repeat by (rewrite app_length; simpl; lia).
  assert (Hpu : p_up p = true).
  { assert (Ev' : exists v', nth_error K' md = Some v' /\ w_up v' = true).
    { destruct (nth_error K' md) as [v'|] eqn:E'.
      - subst K'. destruct (wzip_nth _ _ _ _ E') as [c0 [E0 [Eu _]]]. exists v'. split; congruence.
      - apply nth_error_None in E'. lia. }
    destruct Ev' as [v' [Ev' Eu']]. unfold wparams_of in Ep. rewrite Ev' in Ep.
    inversion Ep; subst p; cbn [p_up]. rewrite Eu'.
    replace (S md <? length K') with true by (symmetry; apply Nat.ltb_lt; lia). reflexivity. }
  destruct (w_params_facts K' md true true h md p HP' HG' (le_n _) Ep) as [Fx [_ [Ft _]]].
  destruct (Ft Hpu eq_refl eq_refl) as [_ Hua].
  rewrite (w_mapM_last _ h _ _ RuntimeError); [reflexivity| |].
  - intros q Hq. destruct (F q Hq) as [d [Hd Eq]].
    destruct (w_params_facts K' md true true h d q HP' HG' ltac:(lia) Eq) as [Gx [Gu [_ [_ [Gd _]]]]].
    apply (cin_level_ok _ h); auto.
    + intros Hu. rewrite (Gu Hu Hd). now apply cin_up_two.
    + intros Hdn. destruct (Gd Hdn) as [_ Hda]. rewrite Hda. now apply cin_down_two.
  - apply (cin_level_up_err _ h); auto. rewrite Hua, Hx'. now apply cin_up_two_bad.
Qed.

(** * EdgeCIN0 *)
Lemma wparams1 : forall K top down, 1 <= length K ->
  exists ps p0, wall_params K 1 top down = Ok (p0 :: ps) /\
    wparams_of K 0 1 top down = Ok p0 /\
    ((length K = 1 /\ ps = []) \/
     (2 <= length K /\ exists p1, ps = [p1] /\ wparams_of K 1 1 top down = Ok p1)).
Proof.
  intros K top down HK. destruct (w_params K 1 top down) as [ps [E [L F]]].
  destruct ps as [|p0 [|p1 [|p2 ps]]]; cbn [length] in L; try lia.
  - exists [], p0. split; [exact E|]. split; [now apply F|]. left. split; auto. lia.
  - exists [p1], p0. split; [exact E|]. split; [now apply F|]. right. split; [lia|].
    exists p1. split; auto.
Qed.

(** What one layer of EdgeCIN0 needs. *)
Definition edge_fit (top : bool) (w : nat) (K : list wco) : Prop :=
  grounded K /\ pre 2 w K /\
  (top = false \/ length K <= 2 \/ wx_of K 2 = Some w).

Lemma edge_conv_ok : forall top w h K, edge_fit top w K ->
  exists ps, wall_params K 1 top true = Ok ps /\
    wconv cin_level_fwd (edge_conv top w h) ps = Ok (repeat h (Nat.min 2 (length K))).
Proof.
  intros top w h K [HG [HP HC]]. pose proof (grounded_len K HG) as HL.
  destruct (wparams1 K top true HL) as [ps [p0 [E [E0 H]]]]. exists (p0 :: ps). split; [exact E|].
  destruct (w_params_facts K 1 top true w 0 p0 HP HG ltac:(lia) E0) as [Fx [Fu [_ [_ [Fd _]]]]].
  assert (H0 : cin_level_fwd (nth 0 (edge_conv top w h) (the_cin_level 0 0)) p0 = Ok h).
  { apply (cin_level_ok _ w); auto.
    - intros Hu. rewrite (Fu Hu ltac:(lia)). now apply cin_up_two.
    - intros Hd. destruct (Fd Hd). lia. }
  destruct H as [[Hl ->]|[Hl [p1 [-> E1]]]].
  - unfold wconv. cbn [length edge_conv Nat.leb assert_ bind combine mapM fst snd].
    cbn [nth edge_conv] in H0. rewrite H0. rewrite Hl. reflexivity.
  - destruct (w_params_facts K 1 top true w 1 p1 HP HG ltac:(lia) E1)
      as [Gx [_ [Gt [Gn [Gd _]]]]].
    assert (H1 : cin_level_fwd (nth 1 (edge_conv top w h) (the_cin_level 0 0)) p1 = Ok h).
    { apply (cin_level_ok _ w); auto.
      - intros Hu. destruct top.
        + destruct (Gt Hu eq_refl eq_refl) as [Hlen Hua]. rewrite Hua.
          destruct HC as [HC|[HC|HC]]; [congruence|lia|]. rewrite HC. now apply cin_up_two.
        + rewrite (Gn Hu eq_refl eq_refl). unfold cin_msg_up. cbn [cl_msg_up nth edge_conv].
          apply cin_msg_ok.
      - intros Hd. destruct (Gd Hd) as [_ Hda]. rewrite Hda. now apply cin_down_two. }
    unfold wconv. cbn [length edge_conv Nat.leb assert_ bind combine mapM fst snd].
    cbn [nth edge_conv] in H0, H1. rewrite H0. cbn [bind]. rewrite H1. cbn [bind].
    replace (Nat.min 2 (length K)) with 2 by lia. reflexivity.
Qed.

Lemma edge_keep_fit : forall top w h K,
  edge_fit top w K -> (top = false \/ length K <= 2 \/ wx_of K 2 = Some h) ->
  edge_fit top h (wzip_put K (repeat h (Nat.min 2 (length K)))).
Proof.
  intros top w h K [HG [HP _]] HC. split; [now apply wzip_grounded|]. split.
  - apply wzip_pre. lia.
  - rewrite wzip_len. destruct HC as [HC|[HC|HC]]; auto.
    destruct (Nat.le_gt_cases (length K) 2) as [Hl|Hl]; auto. right; right.
    unfold wx_of in *. destruct (nth_error (wzip_put K (repeat h (Nat.min 2 (length K)))) 2) eqn:E.
    + destruct (wzip_nth _ _ _ _ E) as [c0 [E0 [_ [_ [_ Ex]]]]]. rewrite Ex.
      rewrite E0 in HC. destruct (nth_error (repeat h _) 2) eqn:Er; auto.
      apply nth_error_In in Er. apply repeat_spec in Er. now subst.
    + apply nth_error_None in E. rewrite wzip_len in E. lia.
Qed.

Lemma edge_step_plain : forall top update w h K (nn : option (list wmod)),
  edge_fit top w K -> (update && (2 <? length K) = false \/ nn = None) ->
  exists K', edge_step top update (edge_conv top w h, nn) K
      = Ok (repeat h (Nat.min 2 (length K)), K') /\
    K' = wzip_put K (repeat h (Nat.min 2 (length K))).
Proof.
  intros top update w h K nn HK Hnn. unfold edge_step.
  destruct (edge_conv_ok top w h K HK) as [ps [E1 E2]]. rewrite E1. cbn [bind fst snd].
  rewrite E2. cbn [bind].
  replace (if update && (2 <? length K) then nn else None) with (@None (list wmod))
    by (destruct Hnn as [Hnn | ->]; [rewrite Hnn|destruct (_ && _)]; reflexivity).
  rewrite wset_ok by (rewrite repeat_length; lia). cbn [bind]. eexists; split; reflexivity.
Qed.

Lemma edge_step_top : forall w h K, edge_fit true w K -> 2 < length K ->
  exists K', edge_step true true (edge_conv true w h, Some (edge_top_nn w h)) K
      = Ok (repeat h (Nat.min 2 (length K)), K') /\
    length K' = length K /\ edge_fit true h K'.
Proof.
  intros w h K HK Hl. unfold edge_step.
  destruct (edge_conv_ok true w h K HK) as [ps [E1 E2]]. rewrite E1. cbn [bind fst snd].
  rewrite E2. cbn [bind].
  replace (true && (2 <? length K)) with true by (symmetry; apply Nat.ltb_lt in Hl; now rewrite Hl).
  destruct HK as [HG [HP [HC|[HC|HC]]]]; [congruence|lia|].
  rewrite HC. cbn [wneed of_option bind].
  replace (wrun (edge_top_nn w h) w) with (Ok h : result nat)
    by (symmetry; apply cin_update_ok).
  cbn [bind]. replace (Nat.min 2 (length K)) with 2 by lia.
  change (repeat h 2 ++ [h]) with (repeat h 3).
  rewrite wset_ok by (rewrite repeat_length; lia). cbn [bind].
  eexists. split; [reflexivity|]. split; [apply wzip_len|].
  split; [now apply wzip_grounded|]. split; [apply wzip_pre; lia|]. right; right.
  apply (pre_wx 3); [apply wzip_pre; lia|lia|rewrite wzip_len; lia].
Qed.

Definition edge_conv_i (top : bool) (num_layers w h i : nat) :=
  (edge_conv top (layer_dim w h i) h,
   if S i <? num_layers then Some (edge_top_nn (layer_dim w h i) h) else None).

Lemma edge_runs : forall (top update : bool) num_layers w h n L K s,
  s + L = num_layers ->
  edge_fit top (layer_dim w h s) K -> length K = n -> update = (top && update) ->
  (top = false \/ n <= 2 \/ update = true \/ w = h \/ num_layers = 1) ->
  runs (edge_step top update) h (Nat.min 2 n)
    (map (edge_conv_i top num_layers w h) (seq s L)) K.
Proof.
  intros top update num_layers w h n L. induction L as [|L IH]; intros K s HN HK Hn Hut HC; [exact I|].
  cbn [seq map runs]. unfold edge_conv_i at 1.
  destruct (Bool.bool_dec update true) as [Hu|Hu]; [destruct (Nat.le_gt_cases n 2) as [Hl|Hl];
    [|destruct L as [|L]]|].
  - (* no 2-cells *)
    destruct (edge_step_plain top update (layer_dim w h s) h K
      (if S s <? num_layers then Some (edge_top_nn (layer_dim w h s) h) else None) HK) as [K' [E EK]].
    { left. subst n. replace (2 <? length K) with false by (symmetry; apply Nat.ltb_ge; lia).
      apply andb_false_r. }
    rewrite Hn in E. exists K'. split; [exact E|]. apply IH; auto; [lia| |subst K'; rewrite wzip_len; auto].
    subst K'. change (layer_dim w h (S s)) with h. apply edge_keep_fit with (layer_dim w h s); auto. lia.
  - (* the last layer *)
    destruct (edge_step_plain top update (layer_dim w h s) h K None HK) as [K' [E EK]]; auto.
    replace (S s <? num_layers) with false by (symmetry; apply Nat.ltb_ge; lia).
    rewrite Hn in E. exists K'. split; [exact E|exact I].
  - (* a layer that updates the top features *)
    assert (top = true) by (destruct top; [reflexivity|rewrite Hut in Hu; discriminate]). subst top update.
    replace (S s <? num_layers) with true by (symmetry; apply Nat.ltb_lt; lia).
    destruct (edge_step_top (layer_dim w h s) h K HK) as [K' [E [EL EF]]]; [lia|].
    rewrite Hn in E. exists K'. split; [exact E|]. apply IH; auto; try lia.
  - (* the top features are not updated *)
    assert (update = false) by (destruct update; congruence).
    destruct (edge_step_plain top update (layer_dim w h s) h K
      (if S s <? num_layers then Some (edge_top_nn (layer_dim w h s) h) else None) HK) as [K' [E EK]].
    { left. now rewrite H. }
    rewrite Hn in E. exists K'. split; [exact E|].
    destruct L as [|L]; [exact I|].
    apply IH; auto; [lia| |subst K'; rewrite wzip_len; auto].
    subst K'. change (layer_dim w h (S s)) with h. apply edge_keep_fit with (layer_dim w h s); auto.
    destruct HC as [HC|[HC|[HC|[HC|HC]]]]; auto; [lia|congruence| |lia].
    subst w. replace (layer_dim h h s) with h in HK by (unfold layer_dim; destruct (s =? 0); reflexivity).
    destruct HK as [_ [_ HK]]. exact HK.
Qed.

Lemma edge_cin0_eq : forall n_in n_out L h jm top upd K,
  edge_cin0 n_in n_out L h jm top upd K =
  (let* _ := wjump_init jm in
   let* (_, xs, jx) := wloop (edge_step top (top && upd))
      (map (edge_conv_i top L n_in h) (seq 0 L)) K None None in
   cin_head n_out L h 1 jm xs jx).
Proof. reflexivity. Qed.

Theorem edge_cin0_ok : forall n_in n_out L h jm top upd K,
  featured n_in K -> grounded K -> 1 <= L -> jumps jm ->
  (top = false \/ upd = true \/ length K <= 2 \/ L = 1 \/ n_in = h) ->
  edge_cin0 n_in n_out L h jm top upd K = Ok n_out.
Proof.
  intros n_in n_out [|L] h jm top upd K HF HG HL HJ HC; [lia|].
  rewrite edge_cin0_eq, wjump_init_ok by auto. cbn [bind].
  destruct (wloop_runs (edge_step top (top && upd)) h (Nat.min 2 (length K))
    (edge_conv_i top (S L) n_in h 0) (map (edge_conv_i top (S L) n_in h) (seq 1 L)) K None)
    as [K2 E2].
  - apply (edge_runs top (top && upd) (S L) n_in h (length K) (S L) K 0); auto.
    + split; [exact HG|]. split; [now apply featured_pre|].
      destruct (Nat.le_gt_cases (length K) 2) as [Hl|Hl]; auto. right; right.
      apply (pre_wx 3); [now apply featured_pre|lia|lia].
    + destruct top, upd; reflexivity.
    + destruct HC as [HC|[HC|[HC|[HC|HC]]]]; auto.
      subst upd. destruct top; auto.
  - cbn [seq map]. rewrite E2. cbn [bind]. rewrite map_length, seq_length. apply cin_head_ok; auto.
    pose proof (grounded_len K HG). lia.
Qed.

Theorem edge_cin0_stale : forall n_in n_out L h jm K v,
  featured n_in K -> grounded K -> 2 <= L -> jumps jm ->
  2 < length K -> nth_error K 1 = Some v -> w_up v = true -> n_in <> h ->
  edge_cin0 n_in n_out L h jm true false K = Err RuntimeError.
Proof.
  intros n_in n_out L h jm K v HF HG HL HJ Hlen Hv Hup Hne.
  destruct L as [|[|L]]; [lia|lia|].
  rewrite edge_cin0_eq, wjump_init_ok by auto. cbn [bind andb].
  assert (HK : edge_fit true n_in K).
  { split; [exact HG|]. split; [now apply featured_pre|]. right; right.
    apply (pre_wx 3); [now apply featured_pre|lia|lia]. }
  cbn [seq map wloop]. unfold edge_conv_i at 1.
  destruct (edge_step_plain true false (layer_dim n_in h 0) h K
      (if 1 <? S (S L) then Some (edge_top_nn (layer_dim n_in h 0) h) else None) HK) as [K' [E EK]]; auto.
  rewrite E. cbn [bind]. replace (Nat.min 2 (length K)) with 2 in EK by lia.
  assert (HG' : grounded K') by (subst K'; now apply wzip_grounded).
  assert (HP' : pre 2 h K') by (subst K'; apply wzip_pre; lia).
  assert (Hl' : length K' = length K) by (subst K'; apply wzip_len).
  assert (Hx' : wx_of K' 2 = Some n_in).
  { subst K'. unfold wx_of. destruct (nth_error (wzip_put K (repeat h 2)) 2) as [c|] eqn:Ec.
    + destruct (wzip_nth _ _ _ _ Ec) as [c0 [E0 [_ [_ [_ Ex]]]]]. rewrite Ex. cbn.
      apply HF. eapply nth_error_In; eauto.
    + apply nth_error_None in Ec. lia. }
  unfold edge_conv_i at 1, edge_step at 1.
  destruct (wparams1 K' true true) as [ps [p0 [Eps [E0 H]]]]; [lia|].
  rewrite Eps. cbn [bind fst snd].
  destruct H as [[Hl _]|[_ [p1 [-> E1]]]]; [lia|].
  destruct (w_params_facts K' 1 true true h 0 p0 HP' HG' ltac:(lia) E0) as [Fx [Fu [_ [_ [Fd _]]]]].
  destruct (w_params_facts K' 1 true true h 1 p1 HP' HG' ltac:(lia) E1) as [Gx [_ [Gt _]]].
  change (layer_dim n_in h 1) with h.
  assert (H0 : cin_level_fwd (nth 0 (edge_conv true h h) (the_cin_level 0 0)) p0 = Ok h).
  { apply (cin_level_ok _ h); auto.
    - intros Hu. rewrite (Fu Hu ltac:(lia)). now apply cin_up_two.
    - intros Hd. destruct (Fd Hd). lia. }
  assert (Hpu : p_up p1 = true).
  { assert (Ev' : exists v', nth_error K' 1 = Some v' /\ w_up v' = true).
    { destruct (nth_error K' 1) as [v'|] eqn:E'.
      - subst K'. destruct (wzip_nth _ _ _ _ E') as [c0 [E0' [Eu _]]]. exists v'. split; congruence.
      - apply nth_error_None in E'. lia. }
    destruct Ev' as [v' [Ev' Eu']]. unfold wparams_of in E1. rewrite Ev' in E1.
    inversion E1; subst p1; cbn [p_up]. rewrite Eu'.
    replace (2 <? length K') with true by (symmetry; apply Nat.ltb_lt; lia). reflexivity. }
  destruct (Gt Hpu eq_refl eq_refl) as [_ Hua].
  assert (H1 : cin_level_fwd (nth 1 (edge_conv true h h) (the_cin_level 0 0)) p1 = Err RuntimeError).
  { apply (cin_level_up_err _ h); auto. rewrite Hua, Hx'. now apply cin_up_two_bad. }
  unfold wconv. cbn [length edge_conv Nat.leb assert_ bind combine mapM fst snd].
  cbn [nth edge_conv] in H0, H1. rewrite H0. cbn [bind]. rewrite H1. reflexivity.
Qed.
