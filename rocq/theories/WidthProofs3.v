From Coq Require Import List Arith Lia Bool.
From Verif Require Import Base.
From Verif Require Import WidthModel WidthSpec WidthProofs WidthProofs2.
Import ListNotations.

Lemma w_foldM_const : forall {A B} (f : A -> B -> result A) a l,
  (forall b, In b l -> f a b = Ok a) -> foldM f a l = Ok a.
Proof.
  induction l as [|b l IH]; intros H; [reflexivity|]. cbn [foldM].
  rewrite (H b (or_introl eq_refl)). cbn [bind]. apply IH. intros; apply H; now right.
Qed.

(** * Dummy *)
Lemma wadd_one : forall w, wadd w 1 = Ok w.
Proof.
  intros w. unfold wadd. destruct (w =? 1) eqn:E; [|reflexivity].
  reflexivity.
Qed.

Lemma dummy_level_ok : forall w p,
  p_x p = Some w -> (p_up p = true -> p_ua p = Some w) -> (p_down p = true -> p_da p = Some w) ->
  dummy_level_fwd tt p = Ok w.
Proof.
  intros w p Hx Hu Hd. unfold dummy_level_fwd. rewrite Hx. cbn [wneed of_option bind].
  assert (E1 : exists u, wprop true (p_up p) 1
     (let* a := of_option TypeError (p_ua p) in wadd w a) = Ok u /\ wadd w u = Ok w).
  { unfold wprop. cbn [andb]. destruct (p_up p).
    - rewrite (Hu eq_refl). cbn [of_option bind]. exists w. rewrite wadd_same. auto.
    - exists 1. split; [reflexivity|apply wadd_one]. }
  assert (E2 : exists u, wprop true (p_down p) 1
     (let* a := of_option TypeError (p_da p) in wadd w a) = Ok u /\ wadd w u = Ok w).
  { unfold wprop. cbn [andb]. destruct (p_down p).
    - rewrite (Hd eq_refl). cbn [of_option bind]. exists w. rewrite wadd_same. auto.
    - exists 1. split; [reflexivity|apply wadd_one]. }
  destruct E1 as [u [-> Eu]]. destruct E2 as [v [-> Ev]]. cbn [bind].
  replace (wprop false (p_bnd p) 1 (of_option TypeError (p_ba p))) with (Ok 1 : result nat) by reflexivity.
  cbn [bind]. rewrite Eu. cbn [bind]. rewrite Ev. cbn [bind]. apply wadd_one.
Qed.

Definition dummy_step (conv : list unit) (K : list wco) : result (list nat * list wco) :=
  let* ps := wall_params K 2 true true in
  let* xs := wconv dummy_level_fwd conv ps in
  let* K := wset_xs K xs in Ok (xs, K).

Lemma dummy_step_ok : forall md w K, sp_fit true 2 w K -> Nat.min 3 (length K) <= S md ->
  exists K', dummy_step (repeat tt (S md)) K = Ok (repeat w (Nat.min 3 (length K)), K') /\
    K' = wzip_put K (repeat w (Nat.min 3 (length K))).
Proof.
  intros md w K [HG [HP HC]] Hm. unfold dummy_step.
  destruct (w_params K 2 true true) as [ps [Eps [Lps Fps]]]. rewrite Eps. cbn [bind].
  rewrite wconv_repeat by lia. rewrite (w_mapM_const _ w).
  - cbn [bind]. rewrite Lps. rewrite wset_ok by (rewrite repeat_length; lia). cbn [bind].
    eexists; split; reflexivity.
  - intros p Hp. apply In_nth_error in Hp. destruct Hp as [d Hd].
    assert (Hdl : d < length ps) by (apply nth_error_Some; congruence).
    destruct (w_params_facts K 2 true true w d p HP HG ltac:(lia) (Fps d p Hd))
      as [Fx [Fu [Ft [_ [Fd _]]]]].
    apply dummy_level_ok; auto.
    + intros Hup. destruct (Nat.eq_dec d 2) as [->|Hne].
      * destruct (Ft Hup eq_refl eq_refl) as [Hlen Hua]. rewrite Hua.
        destruct HC as [HC|[HC|HC]]; [congruence|lia|]. apply (pre_wx 4); auto; lia.
      * apply Fu; auto; lia.
    + intros Hdn. now destruct (Fd Hdn).
Qed.

Lemma dummy_runs : forall md w n L K, sp_fit true 2 w K -> length K = n -> Nat.min 3 n <= S md ->
  runs dummy_step w (Nat.min 3 n) (repeat (repeat tt (S md)) L) K.
Proof.
  intros md w n L. induction L as [|L IH]; intros K HK Hn Hm; [exact I|].
  destruct (dummy_step_ok md w K HK) as [K' [E EK]]; [lia|]. rewrite Hn in E.
  exists K'. split; [exact E|]. apply IH; auto; [|subst K'; rewrite wzip_len; auto].
  subst K'. apply sp_fit_next with w; auto. destruct HK as [_ [_ HC]]. exact HC.
Qed.

Lemma dummy_eq : forall n_in n_out L md K,
  dummy n_in n_out L md K =
  (let* (_, xs, _) := wloop dummy_step (repeat (repeat tt (S md)) L) K None None in
   let* xs := of_option TypeError xs in
   let* x := wpool md xs in wrun1 (WLin n_in n_out) x).
Proof. reflexivity. Qed.

Theorem dummy_ok : forall n_in n_out L md K,
  featured n_in K -> grounded K -> 1 <= L -> Nat.min 3 (length K) <= S md ->
  dummy n_in n_out L md K = Ok n_out.
Proof.
  intros n_in n_out [|L] md K HF HG HL Hm; [lia|]. rewrite dummy_eq. cbn [repeat].
  destruct (wloop_runs dummy_step n_in (Nat.min 3 (length K)) (repeat tt (S md))
     (repeat (repeat tt (S md)) L) K None) as [K' E].
  - apply (dummy_runs md n_in (length K) (S L) K); auto. now apply featured_fit.
  - cbn [repeat] in E. rewrite E. cbn [bind of_option].
    pose proof (grounded_len K HG). rewrite wpool_ok by lia. cbn [bind]. apply wlin_ok.
Qed.

Theorem dummy_low : forall n_in n_out L md K,
  1 <= L -> S md < Nat.min 3 (length K) ->
  dummy n_in n_out L md K = Err AssertionError.
Proof.
  intros n_in n_out [|L] md K HL Hm; [lia|]. rewrite dummy_eq. cbn [repeat wloop].
  unfold dummy_step at 1. destruct (w_params K 2 true true) as [ps [Eps [Lps _]]].
  rewrite Eps. cbn [bind]. unfold wconv.
  change (tt :: repeat tt md) with (repeat tt (S md)). rewrite repeat_length.
  replace (length ps <=? S md) with false by (symmetry; apply Nat.leb_gt; lia). reflexivity.
Qed.

(** * MessagePassingAgnostic *)
Theorem mp_agnostic_ok : forall n_in n_out h md K,
  featured n_in K -> grounded K -> mp_agnostic n_in n_out h md K = Ok n_out.
Proof.
  intros n_in n_out h md K HF HG. unfold mp_agnostic.
  destruct (w_params K md true false) as [ps [Eps [Lps Fps]]]. rewrite Eps. cbn [bind].
  pose proof (grounded_len K HG) as HL.
  rewrite (w_mapM_const _ h).
  - cbn [bind]. rewrite combine_length, seq_length, Nat.min_id.
    rewrite wpool_ok by lia. cbn [bind]. rewrite wlin_ok. cbn [bind]. apply wlin_ok.
  - intros [d p] Hp. cbn [fst snd].
    pose proof (in_combine_l _ _ _ _ Hp) as Hd. apply in_seq in Hd.
    rewrite w_map_const. unfold get. rewrite w_nth_repeat by (rewrite seq_length; lia).
    cbn [of_option bind].
    pose proof (in_combine_r _ _ _ _ Hp) as Hp'. apply In_nth_error in Hp'.
    destruct Hp' as [d' Hd'].
    assert (d' < length ps) by (apply nth_error_Some; congruence).
    destruct (w_params_facts K md true false n_in d' p (featured_pre _ _ _ HF) HG ltac:(lia) (Fps _ _ Hd'))
      as [Fx _].
    rewrite Fx. cbn [wneed of_option bind]. apply wlin_ok.
Qed.

(** * EdgeOrient and EdgeMPNN *)
Lemma oriented_ok : forall o w h up, oriented_fwd o w h up w = Ok h.
Proof.
  intros. unfold oriented_fwd.
  replace (if o then wadd w 1 else Ok w) with (Ok w : result nat)
    by (destruct o; [symmetry; apply wadd_one|reflexivity]).
  cbn [bind]. rewrite wlin_ok. cbn [bind].
  destruct up; cbn [bind]; rewrite wadd_same; cbn [bind]; rewrite ?wadd_same; reflexivity.
Qed.

Theorem edge_net_ok : forall up o n_in n_out L h jm,
  1 <= L -> jumps jm -> edge_net up o n_in n_out L h jm n_in = Ok n_out.
Proof.
  intros up o n_in n_out [|L] h jm HL HJ; [lia|]. unfold edge_net.
  rewrite wjump_init_ok by auto. cbn [bind seq foldM].
  change (layer_dim n_in h 0) with n_in. rewrite oriented_ok. cbn [bind].
  rewrite w_foldM_const.
  - cbn [bind]. rewrite wlin_ok. cbn [bind]. apply wlin_ok.
  - intros i Hi. apply in_seq in Hi. unfold layer_dim. destruct i; [lia|]. cbn [Nat.eqb].
    apply oriented_ok.
Qed.

Theorem edge_net_bad : forall up o n_in n_out L h jm w,
  1 <= L -> jumps jm -> w <> n_in -> edge_net up o n_in n_out L h jm w = Err RuntimeError.
Proof.
  intros up o n_in n_out [|L] h jm w HL HJ Hw; [lia|]. unfold edge_net.
  rewrite wjump_init_ok by auto. cbn [bind seq foldM].
  change (layer_dim n_in h 0) with n_in. unfold oriented_fwd at 1.
  replace (if o then wadd w 1 else Ok w) with (Ok w : result nat)
    by (destruct o; [symmetry; apply wadd_one|reflexivity]).
  cbn [bind]. now rewrite wlin_bad.
Qed.

(** * The embedding networks *)
Lemma enc_v_ok : forall e dim w, atom_columns e w -> enc_v e dim w = Ok dim.
Proof.
  intros [] dim w H; cbn in *; [subst; reflexivity|].
  destruct w; [lia|]. cbn [Nat.eqb]. destruct H as [_ H]. apply Nat.leb_le in H. now rewrite H.
Qed.
Lemma enc_e_ok : forall e dim w, bond_columns e w -> enc_e e dim w = Ok dim.
Proof.
  intros [] dim w H; cbn in *; [subst; reflexivity|].
  destruct w; [lia|]. cbn [Nat.eqb]. destruct H as [_ H]. apply Nat.leb_le in H. now rewrite H.
Qed.

Lemma wparams_x : forall K d md top down p, wparams_of K d md top down = Ok p ->
  p_x p = wx_of K d /\ (forall c, nth_error K d = Some c -> p_bnd p = w_bnd c) /\ d < length K.
Proof.
  intros K d md top down p H. unfold wparams_of, wx_of in *.
  destruct (nth_error K d) as [c|] eqn:E; [|discriminate].
  inversion H; subst p; cbn. split; [reflexivity|]. split; [congruence|].
  apply nth_error_Some. congruence.
Qed.

(** [winit] reads the features and whether there is a boundary index. *)
Lemma winit_ok : forall e dim ee K (ps : list wparams),
  molecular e ee K -> bounded K -> 1 <= length ps <= 3 -> length ps <= length K ->
  (forall d p, nth_error ps d = Some p ->
     p_x p = wx_of K d /\ (forall c, nth_error K d = Some c -> p_bnd p = w_bnd c)) ->
  winit e dim ee ps = Ok (repeat dim (length ps)).
Proof.
  intros e dim ee K ps [[v [w [Ev [Ew Ha]]]] Hb] HB Hl HK F.
  destruct ps as [|p0 rest]; [simpl in Hl; lia|].
  unfold winit. replace (length (p0 :: rest) <=? 3) with true by (symmetry; apply Nat.leb_le; lia).
  cbn [assert_ bind]. destruct (F 0 p0 eq_refl) as [F0 _]. rewrite F0.
  unfold wx_of. rewrite Ev, Ew. cbn [of_option bind]. rewrite (enc_v_ok e dim w Ha). cbn [bind].
  assert (HBd : forall d p, nth_error (p0 :: rest) (S d) = Some p -> p_bnd p = true).
  { intros d p Hp. destruct (F (S d) p Hp) as [_ Fb].
    destruct (nth_error K (S d)) as [c|] eqn:Ec.
    - rewrite (Fb c eq_refl). apply (HB d c Ec).
    - apply nth_error_None in Ec.
      assert (S d < length (p0 :: rest)) by (apply nth_error_Some; congruence). lia. }
  destruct rest as [|p1 rest]; [reflexivity|].
  rewrite (HBd 0 p1 eq_refl). cbn [bind].
  destruct (F 1 p1 eq_refl) as [F1 _].
  assert (E1 : match p_x p1 with
     | None => Ok dim
     | Some xe => let* _ := assert_ ee in let* ex := enc_e e dim xe in
                  let* _ := assert_ (ex =? dim) in Ok ex
     end = Ok dim).
  { destruct (p_x p1) as [xe|] eqn:Ex; [|reflexivity].
    unfold wx_of in F1. destruct (nth_error K 1) as [c|] eqn:Ec; [|congruence].
    destruct (Hb c xe eq_refl (eq_sym F1)) as [-> Hc]. cbn [assert_ bind].
    rewrite (enc_e_ok e dim xe Hc). cbn [bind]. rewrite Nat.eqb_refl. reflexivity. }
  rewrite E1. cbn [bind].
  destruct rest as [|p2 rest]; [reflexivity|].
  rewrite (HBd 1 p2 eq_refl). cbn [bind].
  destruct rest; [reflexivity|]. simpl in Hl. lia.
Qed.

Lemma molecular_grounded_len : forall e ee K, molecular e ee K -> 1 <= length K.
Proof.
  intros e ee K [[v [w [Ev _]]] _]. assert (0 < length K) by (apply nth_error_Some; congruence). lia.
Qed.

Lemma wscalar_ok : forall e ee K, molecular e ee K -> wscalar e K = Ok tt.
Proof.
  intros [] ee K [[v [w [Ev [Ew Ha]]]] Hb]; [|reflexivity]. unfold wscalar, wx_of.
  rewrite Ev, Ew. cbn in Ha. subst w. cbn [wneed of_option bind Nat.eqb assert_].
  destruct (nth_error K 1) as [c|] eqn:Ec; [|reflexivity].
  destruct (w_x c) as [y|] eqn:Ey; [|reflexivity].
  destruct (Hb c y eq_refl Ey) as [_ Hy]. cbn in Hy. subst y. reflexivity.
Qed.

Lemma grounded_fit_put : forall cob md w K, grounded K ->
  (cob = false \/ length K <= S md) ->
  sp_fit cob md w (wzip_put K (repeat w (Nat.min (S md) (length K)))).
Proof.
  intros cob md w K HG HC. split; [now apply wzip_grounded|]. split; [apply wzip_pre; lia|].
  rewrite wzip_len. tauto.
Qed.

Theorem embed_sparse_cin_ok : forall e pp cob g ee ed n_out L h mult md jm dims K,
  molecular e ee K -> grounded K -> bounded K -> Nat.min (S md) (length K) <= 3 ->
  1 <= L -> jumps jm -> reads dims md ->
  (cob = false \/ length K <= S md) ->
  embed_sparse_cin e pp cob g ee ed n_out L h mult md jm dims K = Ok n_out.
Proof.
  intros e pp cob g ee ed n_out L h mult md jm dims K HM HG HB H3 HL HJ HR HC.
  unfold embed_sparse_cin. rewrite wjump_init_ok by auto. cbn [bind].
  rewrite (wscalar_ok e ee K HM). cbn [bind].
  destruct (w_params K md true false) as [ps [Eps [Lps Fps]]]. rewrite Eps. cbn [bind].
  pose proof (molecular_grounded_len _ _ _ HM) as HL1.
  rewrite (winit_ok e _ ee K ps); auto; try lia.
  2: { intros d p Hp. destruct (wparams_x _ _ _ _ _ _ (Fps d p Hp)) as [A [B _]]. auto. }
  cbn [bind]. rewrite Lps. rewrite wset_ok by (rewrite repeat_length; lia). cbn [bind].
  set (emb := wembed ed h). set (m := Nat.min (S md) (length K)).
  destruct (sp_loop_ok pp cob g md emb h L (wzip_put K (repeat emb m)) (Some (repeat emb m)))
    as [K' E]; auto.
  - now apply grounded_fit_put.
  - rewrite wzip_len. tauto.
  - rewrite E. cbn [bind]. rewrite wzip_len. apply sp_head_ok; auto.
    + lia.
    + apply wreadout_le.
    + now apply wreadout_len.
Qed.

(** Without layers the embeddings go to the linear layers as they are. *)
Theorem embed_sparse_cin_zero : forall e pp cob g ee ed n_out h mult md dims K,
  molecular e ee K -> grounded K -> bounded K -> Nat.min (S md) (length K) <= 3 ->
  reads dims md ->
  embed_sparse_cin e pp cob g ee ed n_out 0 h mult md None dims K =
  if wembed ed h =? h then Ok n_out else Err RuntimeError.
Proof.
  intros e pp cob g ee ed n_out h mult md dims K HM HG HB H3 HR.
  unfold embed_sparse_cin. cbn [wjump_init bind].
  rewrite (wscalar_ok e ee K HM). cbn [bind].
  destruct (w_params K md true false) as [ps [Eps [Lps Fps]]]. rewrite Eps. cbn [bind].
  pose proof (molecular_grounded_len _ _ _ HM) as HL1.
  rewrite (winit_ok e _ ee K ps); auto; try lia.
  2: { intros d p Hp. destruct (wparams_x _ _ _ _ _ _ (Fps d p Hp)) as [A [B _]]. auto. }
  cbn [bind]. rewrite Lps. rewrite wset_ok by (rewrite repeat_length; lia). cbn [bind].
  set (emb := wembed ed h). unfold sp_convs. cbn [seq map wloop bind].
  unfold sp_head. cbn [wjumped of_option bind]. rewrite wpool_ok by lia. cbn [bind lin1_in].
  pose proof (wreadout_len dims md HR) as HRl. pose proof (wreadout_le dims md) as HRd.
  rewrite w_map_const, seq_length.
  destruct (emb =? h) eqn:Eh.
  - apply Nat.eqb_eq in Eh. rewrite Eh.
    rewrite (w_mapM_const _ (mult * h)).
    + cbn [bind]. rewrite wstack_same by auto. cbn [bind]. apply wlin_ok.
    + intros d Hin. unfold get. rewrite w_nth_repeat by (specialize (HRd d Hin); lia).
      cbn [of_option bind]. apply wlin_ok.
  - apply Nat.eqb_neq in Eh. destruct (wreadout dims md) as [|d ds]; [simpl in HRl; lia|].
    cbn [mapM]. unfold get at 1.
    rewrite w_nth_repeat by (specialize (HRd d (or_introl eq_refl)); lia).
    cbn [of_option bind]. rewrite wlin_bad by auto. reflexivity.
Qed.

(** * EmbedSparseCINNoRings *)
Definition norings_step (conv : list sp_level) (K : list wco) : result (list nat * list wco) :=
  let* ps := wall_params K 1 true false in
  let* xs := wconv sp_level_fwd conv (wno_up1 ps) in
  let* K := wset_xs K xs in Ok (xs, K).

Lemma norings_step_ok : forall cob g w h K, grounded K -> pre 2 w K ->
  exists K', norings_step (sp_conv false cob g w h 1) K
      = Ok (repeat h (Nat.min 2 (length K)), K') /\
    K' = wzip_put K (repeat h (Nat.min 2 (length K))).
Proof.
  intros cob g w h K HG HP. unfold norings_step. pose proof (grounded_len K HG) as HL.
  destruct (wparams1 K true false HL) as [ps [p0 [E [E0 H]]]]. rewrite E. cbn [bind].
  destruct (w_params_facts K 1 true false w 0 p0 HP HG ltac:(lia) E0) as [Fx [Fu [_ [_ [_ Fb]]]]].
  assert (H0 : sp_level_fwd (the_sp_level false cob g w h) p0 = Ok h)
    by (apply sp_level_ok; auto).
  destruct H as [[Hl ->]|[Hl [p1 [-> E1]]]].
  - cbn [wno_up1]. rewrite sp_conv_eq, wconv_repeat by (simpl; lia). cbn [mapM]. rewrite H0.
    cbn [bind]. rewrite Hl. change [h] with (repeat h 1). rewrite wset_ok by (simpl; lia).
    cbn [bind]. eexists; split; reflexivity.
  - destruct (w_params_facts K 1 true false w 1 p1 HP HG ltac:(lia) E1) as [Gx [_ [_ [_ [_ Gb]]]]].
    cbn [wno_up1]. rewrite sp_conv_eq, wconv_repeat by (simpl; lia). cbn [mapM]. rewrite H0.
    cbn [bind]. rewrite sp_level_ok; [|exact Gx|intros _ Hf; discriminate Hf|exact Gb].
    cbn [bind]. replace (Nat.min 2 (length K)) with 2 by lia.
    change [h; h] with (repeat h 2). rewrite wset_ok by (simpl; lia).
    cbn [bind]. eexists; split; reflexivity.
Qed.

Lemma norings_runs : forall cob g h n L K s, grounded K -> pre 2 h K -> length K = n -> 1 <= s ->
  runs norings_step h (Nat.min 2 n)
    (map (fun i => sp_conv false cob g (layer_dim 0 h i) h 1) (seq s L)) K.
Proof.
  intros cob g h n L. induction L as [|L IH]; intros K s HG HP Hn Hs; [exact I|].
  cbn [seq map runs].
  replace (layer_dim 0 h s) with h by (unfold layer_dim; destruct s; [lia|reflexivity]).
  destruct (norings_step_ok cob g h h K HG HP) as [K' [E EK]]. rewrite Hn in E.
  exists K'. split; [exact E|]. subst K'. apply IH; [now apply wzip_grounded| |now rewrite wzip_len|lia].
  apply wzip_pre. lia.
Qed.

Lemma wno_up1_len : forall ps, length (wno_up1 ps) = length ps.
Proof. intros [|p0 [|p1 ps]]; reflexivity. Qed.

Lemma wno_up1_nth : forall ps d p, nth_error (wno_up1 ps) d = Some p ->
  exists q, nth_error ps d = Some q /\ p_x p = p_x q /\ p_bnd p = p_bnd q.
Proof.
  intros [|p0 [|p1 ps]] d p H; try (exists p; auto; fail).
  destruct d as [|[|d]]; cbn in H.
  - inversion H; subst. exists p. auto.
  - inversion H; subst. exists p1. auto.
  - exists p. auto.
Qed.

Lemma embed_no_rings_eq : forall cob g ee ed n_out L h mult K,
  embed_no_rings cob g ee ed n_out L h mult K =
  (let* _ := wscalar EEmb K in
   let* ps := wall_params K 1 true false in
   let* xs := winit EEmb (wembed ed h) ee (wno_up1 ps) in
   let* K := wset_xs K xs in
   let* (_, xs, jx) := wloop norings_step (sp_convs false cob g (wembed ed h) L h 1) K (Some xs) None in
   sp_head n_out L h mult 1 None [0; 1] xs jx).
Proof. reflexivity. Qed.

Theorem embed_no_rings_ok : forall cob g ee ed n_out L h mult K,
  molecular EEmb ee K -> grounded K -> bounded K -> 1 <= L ->
  embed_no_rings cob g ee ed n_out L h mult K = Ok n_out.
Proof.
  intros cob g ee ed n_out [|L] h mult K HM HG HB HL; [lia|].
  rewrite embed_no_rings_eq, (wscalar_ok _ _ _ HM). cbn [bind].
  destruct (w_params K 1 true false) as [ps [Eps [Lps Fps]]]. rewrite Eps. cbn [bind].
  pose proof (grounded_len K HG) as HL1.
  rewrite (winit_ok EEmb _ ee K (wno_up1 ps)); auto; rewrite ?wno_up1_len; try lia.
  2: { intros d p Hp. destruct (wno_up1_nth _ _ _ Hp) as [q [Hq [Ex Eb]]].
       destruct (wparams_x _ _ _ _ _ _ (Fps d q Hq)) as [A [B _]]. rewrite Ex, Eb. auto. }
  cbn [bind]. rewrite Lps. rewrite wset_ok by (rewrite repeat_length; lia). cbn [bind].
  set (emb := wembed ed h). rewrite sp_convs_S.
  set (K1 := wzip_put K (repeat emb (Nat.min 2 (length K)))).
  assert (HG1 : grounded K1) by (now apply wzip_grounded).
  assert (HP1 : pre 2 emb K1) by (apply wzip_pre; lia).
  assert (Hl1 : length K1 = length K) by apply wzip_len.
  destruct (norings_step_ok cob g emb h K1 HG1 HP1) as [K2 [E2 EK2]].
  destruct (wloop_runs norings_step h (Nat.min 2 (length K)) (sp_conv false cob g emb h 1)
    (map (fun i => sp_conv false cob g (layer_dim 0 h i) h 1) (seq 1 L)) K1
    (Some (repeat emb (Nat.min 2 (length K))))) as [K3 E3].
  - rewrite Hl1 in *. exists K2. split; [exact E2|]. subst K2. apply norings_runs.
    + now apply wzip_grounded.
    + apply wzip_pre. lia.
    + rewrite wzip_len. exact Hl1.
    + lia.
  - rewrite E3. cbn [bind]. rewrite map_length, seq_length. apply sp_head_ok.
    + discriminate.
    + lia.
    + lia.
    + simpl. intros d [<-|[<-|[]]]; lia.
    + simpl; lia.
Qed.

(** * EmbedGIN *)
Lemma gine_nn_ok : forall i h, wrun [WLin i h; WNorm h; WKeep; WLin h h; WNorm h; WKeep] i = Ok h.
Proof.
  intros. unfold wrun. cbn [foldM]. rewrite wlin_ok. cbn [bind wrun1].
  rewrite !Nat.eqb_refl. cbn [bind]. rewrite !Nat.eqb_refl. cbn [bind]. rewrite !Nat.eqb_refl. reflexivity.
Qed.

Lemma gine_ok : forall i h, gine_fwd [WLin i h; WNorm h; WKeep; WLin h h; WNorm h; WKeep] i i = Ok h.
Proof.
  intros. unfold gine_fwd. rewrite Nat.eqb_refl. cbn [assert_ bind]. rewrite wadd_same. cbn [bind].
  rewrite wadd_same. cbn [bind]. apply gine_nn_ok.
Qed.

(** The node features and the edge features that the loop starts with. *)
Lemma embed_gin_start : forall ee ed n_out L h K,
  molecular EEmb ee K -> grounded K -> bounded K ->
  embed_gin ee ed n_out L h K =
  (let emb := wembed ed h in
   let* x := foldM (fun x i => gine_fwd [WLin (layer_dim emb h i) h; WNorm h; WKeep;
               WLin h h; WNorm h; WKeep] emb x) emb (seq 0 L) in
   let* x := wrun1 (WLin h h) x in
   wrun1 (WLin h n_out) x).
Proof.
  intros ee ed n_out L h K HM HG HB. unfold embed_gin.
  rewrite (wscalar_ok _ _ _ HM). cbn [bind].
  destruct (w_params K 1 true false) as [ps [Eps [Lps Fps]]]. rewrite Eps. cbn [bind].
  pose proof (grounded_len K HG) as HL1.
  rewrite (winit_ok EEmb _ ee K ps); auto; try lia.
  2: { intros d p Hp. destruct (wparams_x _ _ _ _ _ _ (Fps d p Hp)) as [A [B _]]. auto. }
  cbn [bind]. rewrite Lps. rewrite wset_ok by (rewrite repeat_length; lia). cbn [bind].
  set (emb := wembed ed h). set (K1 := wzip_put K (repeat emb (Nat.min 2 (length K)))).
  assert (HP1 : pre 2 emb K1) by (apply wzip_pre; lia).
  assert (Hl1 : length K1 = length K) by apply wzip_len.
  unfold wparams_of. destruct (nth_error K1 0) as [c|] eqn:Ec.
  2: { apply nth_error_None in Ec. lia. }
  cbn [bind p_x p_up p_ua]. rewrite (HP1 0 c ltac:(lia) Ec). cbn [wneed of_option bind].
  assert (Eea : (if w_up c && (1 <? length K1)
     then of_option AssertionError (if w_up c && (1 <? length K1) && ((0 <? 0) || true) then wx_of K1 1 else None)
     else Ok emb) = Ok emb).
  { destruct (w_up c && (1 <? length K1)) eqn:Eu; [|reflexivity]. cbn [andb orb].
    apply andb_prop in Eu. destruct Eu as [_ Eu]. apply Nat.ltb_lt in Eu.
    change ((0 <? 0) || true) with true. cbv iota.
    rewrite (pre_wx 2 emb K1 1) by (auto; lia). reflexivity. }
  rewrite Eea. reflexivity.
Qed.

Theorem embed_gin_ok : forall ee ed n_out L h K,
  molecular EEmb ee K -> grounded K -> bounded K -> 1 <= L -> L = 1 \/ wembed ed h = h ->
  embed_gin ee ed n_out L h K = Ok n_out.
Proof.
  intros ee ed n_out [|L] h K HM HG HB HL HC; [lia|]. rewrite embed_gin_start by auto.
  cbv zeta. cbn [seq foldM]. change (layer_dim (wembed ed h) h 0) with (wembed ed h).
  rewrite gine_ok. cbn [bind].
  destruct HC as [HC|HC].
  - assert (L = 0) by lia. subst L. cbn [seq foldM bind]. rewrite wlin_ok. cbn [bind]. apply wlin_ok.
  - rewrite HC. rewrite w_foldM_const.
    + cbn [bind]. rewrite wlin_ok. cbn [bind]. apply wlin_ok.
    + intros i Hi. unfold layer_dim. destruct (i =? 0); apply gine_ok.
Qed.

Theorem embed_gin_bad : forall ee ed n_out L h K,
  molecular EEmb ee K -> grounded K -> bounded K -> 2 <= L -> wembed ed h <> h ->
  embed_gin ee ed n_out L h K = Err AssertionError.
Proof.
  intros ee ed n_out L h K HM HG HB HL HC. destruct L as [|[|L]]; [lia|lia|].
  rewrite embed_gin_start by auto.
  cbv zeta. cbn [seq foldM]. change (layer_dim (wembed ed h) h 0) with (wembed ed h).
  rewrite gine_ok. cbn [bind]. unfold gine_fwd at 1.
  replace (h =? wembed ed h) with false by (symmetry; apply Nat.eqb_neq; auto). reflexivity.
Qed.

(** * The ring networks *)
Theorem ring_sparse_cin_ok : forall cob g n_in n_out L h md K,
  featured n_in K -> grounded K -> 1 <= L ->
  (cob = false \/ length K <= S md \/ L = 1 \/ n_in = h) ->
  ring_sparse_cin cob g n_in n_out L h md K = Ok n_out.
Proof.
  intros cob g n_in n_out L h md K HF HG HL HC. unfold ring_sparse_cin.
  pose proof (grounded_len K HG) as HL1.
  rewrite (pre_wx 1 n_in K 0) by (auto; apply featured_pre; auto). cbn [wneed of_option bind].
  rewrite wlin_ok. cbn [bind]. change [n_in] with (repeat n_in 1).
  rewrite wset_ok by (simpl; lia). cbn [bind].
  destruct (sp_loop_ok false cob g md n_in h L (wzip_put K (repeat n_in 1)) None) as [K' E]; auto.
  - split; [now apply wzip_grounded|]. split.
    + apply wzip_pre_keep. now apply featured_pre.
    + right; right. apply wzip_pre_keep. now apply featured_pre.
  - now rewrite wzip_len.
  - rewrite E. cbn [bind of_option]. rewrite wzip_len. unfold get.
    rewrite w_nth_repeat by lia. cbn [of_option bind]. apply wlin_ok.
Qed.

Lemma gin_nn_ok : forall g i h, gin_fwd (gin_nn g i h) i = Ok h.
Proof. intros. unfold gin_fwd. rewrite wadd_same. cbn [bind]. apply sp_update_ok. Qed.

Lemma gin_nn_bad : forall g i h w, w <> i -> gin_fwd (gin_nn g i h) w = Err RuntimeError.
Proof. intros. unfold gin_fwd. rewrite wadd_same. cbn [bind]. now apply sp_update_bad. Qed.

Lemma gin_convs_ok : forall g i L h,
  foldM (fun x nn => gin_fwd nn x) i (gin_convs g i L h) = Ok h.
Proof.
  intros. unfold gin_convs. cbn [foldM]. rewrite gin_nn_ok. cbn [bind]. apply w_foldM_const.
  intros nn Hn. apply repeat_spec in Hn. subst. apply gin_nn_ok.
Qed.

Theorem ring_gin_ok : forall g n_in L h n_out, ring_gin g n_in L h n_out n_in = Ok n_out.
Proof.
  intros. unfold ring_gin. rewrite wlin_ok. cbn [bind]. rewrite gin_convs_ok. cbn [bind]. apply wlin_ok.
Qed.

(** * The baselines *)
Theorem gin_ok : forall n_in L h n_out, gin n_in L h n_out n_in = Ok n_out.
Proof.
  intros. unfold gin. rewrite gin_convs_ok. cbn [bind]. rewrite wlin_ok. cbn [bind]. apply wlin_ok.
Qed.

Theorem gin_bad : forall n_in L h n_out w, w <> n_in -> gin n_in L h n_out w = Err RuntimeError.
Proof.
  intros. unfold gin, gin_convs. cbn [foldM]. now rewrite gin_nn_bad.
Qed.

Lemma gin_jk_fold : forall g h k n,
  foldM (fun s nn => let* y := gin_fwd nn (fst s) in Ok (y, snd s ++ [y]))
    (h, repeat h k) (repeat (gin_nn g h h) n) = Ok (h, repeat h (k + n)).
Proof.
  intros g h k n. revert k. induction n as [|n IH]; intros k; cbn [repeat foldM].
  - now rewrite Nat.add_0_r.
  - cbn [fst snd]. rewrite gin_nn_ok. cbn [bind]. rewrite w_repeat_snoc, IH.
    replace (S k + n) with (k + S n) by lia. reflexivity.
Qed.

Lemma gin_jk_eq : forall n_in L h n_out mode, mode <> JLstm ->
  gin_jk n_in L h n_out mode n_in =
  (let* x := wjump_run mode (repeat h (S (L - 1))) in
   let* x := wrun1 (WLin (lin1_in (Some mode) L h) h) x in wrun1 (WLin h n_out) x).
Proof.
  intros n_in L h n_out mode Hm. unfold gin_jk. rewrite wjump_init_ok by congruence. cbn [bind].
  unfold gin_convs. cbn [foldM fst snd]. rewrite gin_nn_ok. cbn [bind app].
  change [h] with (repeat h 1). rewrite gin_jk_fold. cbn [bind].
  replace (1 + (L - 1)) with (S (L - 1)) by lia. reflexivity.
Qed.

Theorem gin_jk_ok : forall n_in L h n_out mode, 1 <= L -> mode <> JLstm ->
  gin_jk n_in L h n_out mode n_in = Ok n_out.
Proof.
  intros. rewrite gin_jk_eq by auto. replace (S (L - 1)) with L by lia.
  rewrite wjump_run_ok by auto. cbn [bind]. rewrite wlin_ok. cbn [bind]. apply wlin_ok.
Qed.

(** * Features of another width *)
Lemma wiadd_bad : forall a b, b <> a -> b <> 1 -> wiadd a b = Err RuntimeError.
Proof.
  intros a b H1 H2. unfold wiadd, wadd.
  replace (a =? b) with false by (symmetry; apply Nat.eqb_neq; auto).
  replace (b =? 1) with false by (symmetry; apply Nat.eqb_neq; auto).
  destruct (a =? 1) eqn:E; [|reflexivity]. cbn [bind].
  replace (b =? a) with false by (symmetry; apply Nat.eqb_neq; auto). reflexivity.
Qed.

Lemma sp_level_bad : forall pp cob g n w h p,
  p_x p = Some w -> (p_up p = true -> p_ua p = Some w) -> p_bnd p = false ->
  w <> n -> (w <> 1 \/ p_up p = true) ->
  sp_level_fwd (the_sp_level pp cob g n h) p = Err RuntimeError.
Proof.
  intros pp cob g n w h p Hx Hu Hb Hn Hw. unfold sp_level_fwd. rewrite Hx. cbn [wneed of_option bind].
  destruct (p_up p) eqn:Eu.
  - unfold wprop at 1. cbn [andb]. unfold sp_msg_up. cbn [sl_msg_up the_sp_level].
    destruct cob.
    + rewrite (Hu eq_refl). cbn [of_option bind wcat list_sum fold_right]. unfold wrun. cbn [foldM].
      rewrite wlin_bad by lia. reflexivity.
    + cbn [bind]. rewrite Hb. cbn [wprop andb bind sl_down_size sl_bnd_size the_sp_level].
      rewrite wiadd_same. cbn [bind].
      destruct pp; cbn [sl_update_down the_sp_level].
      * destruct (Nat.eq_dec w 1) as [->|H1].
        -- assert (E : wiadd n 1 = Ok n) by (unfold wiadd; rewrite wadd_one; cbn; now rewrite Nat.eqb_refl).
           rewrite E. cbn [bind]. cbn [sl_update_up the_sp_level].
           rewrite sp_update_bad by auto. reflexivity.
        -- rewrite wiadd_bad by auto. reflexivity.
      * destruct (Nat.eq_dec w 1) as [->|H1].
        -- assert (E : wiadd n 1 = Ok n) by (unfold wiadd; rewrite wadd_one; cbn; now rewrite Nat.eqb_refl).
           rewrite E. cbn [bind]. cbn [sl_update_up the_sp_level].
           rewrite sp_update_bad by auto. reflexivity.
        -- rewrite wiadd_bad by auto. reflexivity.
  - destruct Hw as [Hw|Hw]; [|discriminate].
    rewrite Hb. cbn [wprop andb bind sl_up_size sl_down_size sl_bnd_size the_sp_level].
    rewrite wiadd_bad by auto. reflexivity.
Qed.

Theorem sparse_cin_bad : forall pp cob g n_in n_out L h mult md jm dims K w,
  featured w K -> grounded K -> 1 <= L -> jumps jm -> w <> n_in ->
  (w <> 1 \/ exists v e K', K = v :: e :: K' /\ w_up v = true) ->
  sparse_cin pp cob g n_in n_out L h mult md jm dims K = Err RuntimeError.
Proof.
  intros pp cob g n_in n_out [|L] h mult md jm dims K w HF HG HL HJ Hne Hw; [lia|].
  unfold sparse_cin. rewrite wjump_init_ok by auto. cbn [bind]. rewrite sp_convs_S. cbn [wloop].
  unfold sp_step at 1. destruct (w_params K md true false) as [ps [E [Lp F]]]. rewrite E. cbn [bind].
  pose proof (grounded_len K HG) as HL1.
  rewrite sp_conv_eq, wconv_repeat by lia.
  destruct ps as [|p0 ps]; [cbn [length] in Lp; lia|].
  pose proof (F 0 p0 eq_refl) as E0.
  assert (Hw' : w <> 1 \/ p_up p0 = true).
  { destruct Hw as [Hw|[v [e [K' [-> Hv]]]]]; auto. right.
    unfold wparams_of in E0. cbn [nth_error] in E0. inversion E0; subst p0; cbn [p_up].
    rewrite Hv. reflexivity. }
  assert (Hp : p_x p0 = Some w /\ p_bnd p0 = false /\ (p_up p0 = true -> p_ua p0 = Some w)).
  { unfold wparams_of in E0. destruct K as [|v K']; [simpl in HL1; lia|]. cbn [nth_error] in E0.
    inversion E0; subst p0; cbn [p_x p_bnd p_up p_ua]. split; [apply HF; now left|].
    split; [apply HG|]. intros Hu. rewrite Hu. rewrite orb_true_r. cbn [andb].
    apply andb_prop in Hu. destruct Hu as [_ Hu]. apply Nat.ltb_lt in Hu.
    apply (pre_wx 2); [now apply featured_pre|lia|exact Hu]. }
  destruct Hp as [Hx [Hb Hu]]. cbn [mapM].
  rewrite (sp_level_bad pp cob g n_in w h p0); auto.
Qed.

(** * Modes that cannot be built *)
Theorem lstm_refused : forall pp cob g n_in n_out L h mult md dims K top upd e ee ed up o x,
  sparse_cin pp cob g n_in n_out L h mult md (Some JLstm) dims K = Err AssertionError /\
  cin0 n_in n_out L h md (Some JLstm) K = Err AssertionError /\
  edge_cin0 n_in n_out L h (Some JLstm) top upd K = Err AssertionError /\
  embed_sparse_cin e pp cob g ee ed n_out L h mult md (Some JLstm) dims K = Err AssertionError /\
  edge_net up o n_in n_out L h (Some JLstm) x = Err AssertionError /\
  gin_jk n_in L h n_out JLstm x = Err AssertionError.
Proof. intros. repeat split. Qed.
