(** The forward pass of an embedding network on a batch returns the specified prediction of every
    member. *)
From Coq Require Import List Arith Lia ZArith Bool Permutation.
From Verif Require Import Base ScatterModel ScatterSpec ScatterProofs ComplexModel BatchSpec BatchSpec2
  BatchProofs BatchProofs2 MPModel MPSpec MPProofs MPEngine MPBatch MPForward MPNets MPParams EmbedModel EmbedSpec
  EmbedProofs.
Import ListNotations.

Lemma Forall2_of_nth {A B} (R : A -> B -> Prop) l l' : length l = length l' ->
  (forall i a b, nth_error l i = Some a -> nth_error l' i = Some b -> R a b) -> Forall2 R l l'.
Proof.
  revert l'. induction l as [|x l IH]; intros [|y l'] Hl H; try discriminate; constructor.
  - apply (H 0); auto.
  - apply IH; [auto|]. intros i a b Ha Hb. apply (H (S i)); auto.
Qed.

Lemma nth_error_skip {A} n (l : list A) i : nth_error (skipn n l) i = nth_error l (n + i).
Proof. revert l. induction n as [|n IH]; intros [|x l]; simpl; auto. destruct i; auto. Qed.

Section Nets.
Context {V : Type} (o : ops V).
Hypothesis Hdiv : vdivn o (vzero o) 1 = vzero o.
Notation complex := (complex V).
Notation cochain := (cochain V).

(** ** EmbedSparseCINNoRings and EmbedGIN implement architectures *)
Definition drop_up (rl : rule V) : rule V :=
  mkRule (r_up rl) (r_low rl) (r_bnd rl) (r_aup rl) (r_alow rl) (r_abnd rl)
    (fun x _ w b => r_upd rl x (vzero o) w b).

Lemma no_up_implements l rl cob down :
  implements o l rl cob down -> implements o (fun p => l (no_up p)) (drop_up rl) cob down.
Proof.
  intros H Sk X d p HS [Px Pu Pl Pb].
  set (S0 := mkSkel (s_dim Sk) (s_n Sk) (fun _ => []) (s_low Sk) (s_bnd Sk)).
  rewrite (H S0 X d (no_up p)).
  - f_equal. apply map_ext. intros i. unfold new_feature. simpl. f_equal.
    unfold agg_up, up_at. simpl. rewrite reduce_nil; auto.
  - split; simpl; try tauto; apply HS.
  - split; simpl; auto.
Qed.

Definition no_rings_arch (layers : list (nat -> sparse_level V)) pool lin1 mean lin2 : arch V :=
  mkArch 1 true
    (map (fun l => mkLayer (fun d => if d =? 0 then sparse_rule o (l 0) else drop_up (sparse_rule o (l 1))) None) layers)
    None pool [0; 1] lin1 mean lin2.

Lemma no_rings_ok e layers pool lin1 mean lin2 : layers <> [] ->
  net_ok o (en_net (embed_no_rings o e layers pool lin1 mean lin2)) (no_rings_arch layers pool lin1 mean lin2).
Proof.
  intros Hl. split; simpl; auto; try discriminate.
  - clear Hl. induction layers as [|l layers IH]; simpl; constructor; auto.
    split; [|split; [reflexivity|simpl; congruence]]. intros d Hd.
    destruct d as [|[|d]]; [| |lia]; simpl; eexists; (split; [reflexivity|]); unfold cob_visible; simpl.
    + apply sparse_implements; auto.
    + apply no_up_implements. apply sparse_implements; auto.
  - apply map_ne; auto.
  - intros d [<-|[<-|[]]]; lia.
Qed.

Definition gine_cfg (l : gine_level V) : mpcfg V :=
  mkCfg false false RAdd RAdd RAdd (MsgCat (fun x e => gi_relu l (vadd o x e))) (MsgFst (fun v => v)) (fun v => v).
Definition gine_rule (l : gine_level V) : rule V :=
  cfg_rule o (gine_cfg l) (fun x u _ _ => gi_nn l (vadd o u (gi_scale l x))).

Lemma gine_implements l : implements o (gine_forward o l) (gine_rule l) true false.
Proof.
  intros S X d p HS HP. unfold gine_forward. fold (gine_cfg l).
  rewrite (propagate_spec o Hdiv _ (fun x u _ _ => gi_nn l (vadd o u (gi_scale l x))) S X d true false)
    by (auto; discriminate).
  simpl bind. rewrite (the_x_ok _ _ _ _ _ _ HP). unfold addt.
  rewrite !map_map, !zipw_map, !map_map. reflexivity.
Qed.

Definition gin_arch (layers : list (gine_level V)) pool (lin1 lin2 : V -> V) : arch V :=
  mkArch 0 true (map (fun l => mkLayer (fun _ => gine_rule l) None) layers) None pool [0] (fun _ => lin1) false lin2.

Lemma gin_ok e layers pool lin1 lin2 : layers <> [] ->
  net_ok o (en_net (embed_gin o e layers pool lin1 lin2)) (gin_arch layers pool lin1 lin2).
Proof.
  intros Hl. split; simpl; auto; try discriminate.
  - clear Hl. induction layers as [|l layers IH]; simpl; constructor; auto.
    split; [|split; [reflexivity|simpl; congruence]]. intros d Hd.
    destruct d as [|d]; [|lia]. simpl. eexists; (split; [reflexivity|]). apply gine_implements.
  - apply map_ne; auto.
  - intros d [<-|[]]; lia.
Qed.

(** ** Embedding networks *)

(** [enet_ok m a D]: [m] implements [a] on embedded features, for complexes of dimension at most [D]. *)
Record enet_ok (m : enet V) (a : arch V) (D : nat) : Prop := {
  ek_net : net_ok o (en_net m) a;
  ek_dim : en_dim m <= 2;
  ek_pdim : n_pdim (en_net m) <= en_dim m;
  ek_top : forall ls ut, In (ls, ut) (n_convs (en_net m)) -> ut = None;
  ek_reads : D <= en_dim m \/ n_pdim (en_net m) < en_dim m \/
             forall ls ut l, In (ls, ut) (n_convs (en_net m)) -> nth_error ls (n_pdim (en_net m)) = Some l ->
               ignores_up_attr l
}.

Definition init_feats (e : embedder V) (D : nat) (k : complex) (sz : nat -> nat) : feats V :=
  embed_feats o (em_v e) (match em_e e with Some f => f | None => fun v => v end) (em_red e)
    (edge_feats k) (skel_of D k sz) (feats_of o k).

Section Batch.
Variables (ks : list complex) (szs : list (nat -> nat)) (D : nat) (K : complex).
Hypothesis HW : Forall2 wf_complex ks szs.
Hypothesis HU : union_complex ks szs D K.
Hypothesis Hpres : forall d, d <= D -> exists k, In k ks /\ d <= k_dim k.
Hypothesis Hux : uniform_x ks D.
Hypothesis Hx0 : all_x ks 0.
Hypothesis HB : Forall2 bounded ks szs.

Let SB := skel_of D K (total szs).
Let XB := feats_of o K.

Lemma K_d d c : nth_error (k_cochains K) d = Some c -> d <= D.
Proof.
  intros Hc. assert (d < length (k_cochains K)) by (apply nth_error_Some; congruence).
  rewrite (uc_len _ _ _ _ HU) in *. lia.
Qed.

Lemma K_no_x d c : (forall k c, In k ks -> nth_error (k_cochains k) d = Some c -> c_x c = None) ->
  nth_error (k_cochains K) d = Some c -> c_x c = None.
Proof.
  intros H Hc. rewrite (un_x _ _ _ _ _ (uc_each _ _ _ _ HU _ _ Hc)). apply joined_None.
  intros l Hl. apply in_map_iff in Hl as (k & Ek & Hk). unfold attr in Ek.
  destruct (nth_error (k_cochains k) d) as [c'|] eqn:E; [|discriminate]. rewrite (H k c' Hk E) in Ek. discriminate.
Qed.

Lemma K_x_len d c x : nth_error (k_cochains K) d = Some c -> c_x c = Some x -> length x = s_n SB d.
Proof.
  intros Hc Hx. pose proof (K_d d c Hc) as Hd. unfold SB. rewrite (SB_n ks szs D K HU) by auto.
  destruct (Hux d Hd) as [H|H].
  - destruct (K_x ks szs D K HW HU Hpres d c H Hd Hc) as (x' & Hx' & Hl & _). congruence.
  - rewrite (K_no_x d c H Hc) in Hx. discriminate.
Qed.

Lemma K_x_rows d c : all_x ks d -> nth_error (k_cochains K) d = Some c ->
  c_x c = Some (map (XB d) (seq 0 (s_n SB d))).
Proof.
  intros H Hc. pose proof (K_d d c Hc) as Hd. unfold SB. rewrite (SB_n ks szs D K HU) by auto.
  destruct (K_x ks szs D K HW HU Hpres d c H Hd Hc) as (x & Hx & Hl & _). rewrite Hx. f_equal.
  unfold XB, feats_of, attr. rewrite Hc, Hx. simpl. rewrite <- Hl. symmetry. apply map_nth_seq.
Qed.

Lemma edge_feats_K : 1 <= D ->
  (all_x ks 1 /\ edge_feats K = true) \/
  ((forall k c, In k ks -> nth_error (k_cochains k) 1 = Some c -> c_x c = None) /\ edge_feats K = false).
Proof.
  intros HD. destruct (K_at ks szs D K HU 1 HD) as (c & Hc & _). unfold edge_feats, attr. rewrite Hc.
  destruct (Hux 1 HD) as [H|H].
  - left. split; auto. rewrite (K_x_rows 1 c H Hc). auto.
  - right. split; auto. rewrite (K_no_x 1 c H Hc). auto.
Qed.

Lemma wf_bounded k : In k ks -> exists i sz, nth_error ks i = Some k /\ nth_error szs i = Some sz /\ wf_complex k sz /\ bounded k sz.
Proof.
  intros Hk. apply In_nth_error in Hk as [i Hi]. destruct (Forall2_nth_error_l _ _ _ HW _ _ Hi) as (sz & Hs & W).
  destruct (Forall2_nth_error_l _ _ _ HB _ _ Hi) as (sz' & Hs' & B). assert (sz' = sz) by congruence. subst.
  exists i, sz. auto.
Qed.

(** Every cell of the batch has a boundary. *)
Lemma SB_face d t : 0 < d <= D -> t < s_n SB d -> exists f, In (f, t) (s_bnd SB d).
Proof.
  intros Hd Ht. unfold SB in *. rewrite (SB_n ks szs D K HU) in Ht by lia.
  destruct (block_of szs d t Ht) as (i & sz & j & Hi & Hj & ->).
  destruct (Forall2_nth_error _ _ _ HW _ _ Hi) as (k & Hk & W).
  destruct (Forall2_nth_error _ _ _ HB _ _ Hi) as (k' & Hk' & B). assert (k' = k) by congruence. subst k'.
  assert (Hdk : d <= k_dim k).
  { destruct (Nat.le_gt_cases d (k_dim k)); auto. rewrite (wfk_above _ _ W) in Hj by auto. lia. }
  destruct (bd_face _ _ B d j) as (f & Hf); [lia|auto|].
  rewrite (SB_bnd ks szs D K HU) by lia.
  exists (f + off szs i (pred d)).
  apply in_concat. eexists. split.
  - eapply nth_error_In. rewrite nth_error_mapi, Hk. reflexivity.
  - apply in_map_iff. exists (f, j). split; auto.
Qed.

Lemma SB_last d : 0 < d <= s_dim SB -> exists p, In p (s_bnd SB d) /\ S (snd p) = s_n SB d.
Proof.
  intros Hd. assert (HD : s_dim SB = D) by apply (SB_dim ks szs D K HU). rewrite HD in Hd.
  assert (Hpos : 0 < s_n SB d).
  { unfold SB. rewrite (SB_n ks szs D K HU) by lia. destruct (Hpres d) as (k & Hk & Hdk); [lia|].
    destruct (wf_bounded k Hk) as (i & sz & Hi & Hs & W & B).
    pose proof (off_in_range szs i d sz 0 Hs (bd_pos _ _ B d Hdk)). lia. }
  destruct (SB_face d (s_n SB d - 1)) as (f & Hf); [lia|lia|].
  exists (f, s_n SB d - 1). split; auto. cbn [snd]. lia.
Qed.

Lemma init_agree e i k sz : nth_error ks i = Some k -> nth_error szs i = Some sz ->
  agree (blk szs D i k sz) 0 (init_feats e D k sz) (init_feats e D K (total szs)).
Proof.
  intros Hk Hs d j j' Hr. unfold init_feats.
  pose proof (Wk ks szs HW i k sz Hk Hs) as W.
  apply (embed_agree o (fun A => @eq (list A))
           (fun A B f l l' E => f_equal (map f) E) (fun r l l' E => f_equal (reduce_rows o r) E)
           (skel_of D k sz) (skel_of D K (total szs)) (blk szs D i k sz 0)); auto.
  - clear Hr d j j'. intros d j j' Hd Hr.
    pose proof (blk_refines ks szs D K HW HU i k sz Hk Hs 2 true 0 d j j') as H.
    destruct H as [_ H]; [exact Hr|]. destruct H as (_ & _ & H); [lia|]. exact H.
  - intros a a' Ha. apply (blk_agree_at o ks szs D K HW HU Hpres i k sz Hk Hs 0 a a' Hx0 Ha).
  - intros a a' Ha. assert (H1 : 1 <= D /\ 1 <= k_dim k).
    { destruct Ha as [Ha _]. unfold skel_of in Ha. cbn [s_n] in Ha. destruct (Nat.leb_spec 1 (Nat.min (k_dim k) D)); lia. }
    assert (Hin : In k ks) by (eapply nth_error_In; eauto).
    destruct (nth_error (k_cochains k) 1) as [c|] eqn:Ec.
    2:{ apply nth_error_None in Ec. rewrite (wfk_len _ _ W) in Ec. lia. }
    destruct edge_feats_K as [[H E]|[H E]]; [lia| |].
    + split.
      * rewrite E. unfold edge_feats, attr. rewrite Ec. pose proof (H k c Hin Ec). destruct (c_x c); [auto|congruence].
      * intros _. apply (blk_agree_at o ks szs D K HW HU Hpres i k sz Hk Hs 1 a a' H Ha).
    + assert (E2 : edge_feats k = false) by (unfold edge_feats, attr; rewrite Ec, (H k c Hin Ec); auto).
      rewrite E, E2. split; auto. discriminate.
Qed.

(** After the embedding the batch stores the initial features in the embedded dimensions. *)
Lemma embedded (e : embedder V) md : md <= 2 ->
  (edge_feats K = true -> em_e e <> None) ->
  exists ps K1 Kf,
    get_all_cochain_params K md true false true = Ok ps /\
    embed_ve o e ps = Ok (matrices SB md (init_feats e D K (total szs))) /\
    set_xs K (matrices SB md (init_feats e D K (total szs))) = Ok K1 /\
    represents Kf SB (init_feats e D K (total szs)) /\
    same_below (Nat.min md D) K1 Kf.
Proof.
  intros Hmd He. set (F := init_feats e D K (total szs)).
  pose proof (SB_ok ks szs D K HW HU) as HS. fold SB in HS.
  assert (HD : s_dim SB = D) by apply (SB_dim ks szs D K HU).
  pose proof (batch_shape ks szs D K HW HU Hpres Hux) as Hsh. fold SB in Hsh.
  destruct (embed_ve_spec o e K SB XB (edge_feats K) md) as (ps & Hps & Hev); auto.
  - rewrite HD. apply HU.
  - rewrite HD. apply HU.
  - intros; eapply K_x_len; eauto.
  - intros c Hc. apply K_x_rows; auto.
  - intros c Hc. destruct edge_feats_K as [[H ->]|[H ->]].
    + eapply K_d; eauto.
    + apply K_x_rows; auto.
    + apply (K_no_x 1 c H Hc).
  - apply SB_last.
  - set (E := Nat.min md D).
    assert (Hlen : length (k_cochains K) = D + 1) by apply HU.
    assert (HkD : k_dim K = D) by apply HU.
    set (xsE := matrices SB md F). set (xsF := matrices SB D F).
    assert (HlE : length xsE = E + 1) by (unfold xsE, matrices, E; rewrite map_length, seq_length, HD; auto).
    assert (HlF : length xsF = D + 1) by (unfold xsF, matrices; rewrite map_length, seq_length, HD; lia).
    destruct (set_xs_shape K SB F xsF) as (Kf & Hf & HR); auto; try (rewrite ?HD; auto; fail).
    { intros d x Hd. apply matrices_nth in Hd. tauto. }
    (* both results *)
    assert (Hnum : forall d c, nth_error (k_cochains K) d = Some c -> num_cells c = Ok (Some (s_n SB d)))
      by (intros d c Hc; apply (Hsh d c Hc)).
    destruct (set_xs_loop_ok (k_cochains K) xsE (s_n SB)) as (cE & HcE & LE & GE); auto.
    { rewrite Hlen, HlE. unfold E. lia. }
    { intros d x Hd. apply matrices_nth in Hd as [_ ->]. rewrite map_length, seq_length. auto. }
    destruct (set_xs_loop_ok (k_cochains K) xsF (s_n SB)) as (cF & HcF & LF & GF); auto.
    { rewrite Hlen, HlF. lia. }
    { intros d x Hd. apply matrices_nth in Hd as [_ ->]. rewrite map_length, seq_length. auto. }
    assert (HsE : set_xs K xsE = Ok (mkComplexRec (k_dim K) cE (k_y K))).
    { unfold set_xs. rewrite HkD, HlE, HcE. destruct (Nat.leb_spec (E + 1) (D + 1)); [reflexivity|unfold E in *; lia]. }
    assert (HsF : set_xs K xsF = Ok (mkComplexRec (k_dim K) cF (k_y K))).
    { unfold set_xs. rewrite HkD, HlF, HcF. rewrite Nat.leb_refl. reflexivity. }
    rewrite Hf in HsF. inversion HsF; subst Kf; clear HsF.
    eexists ps, _, _. split; [exact Hps|]. split; [exact Hev|]. split; [exact HsE|]. split; [exact HR|].
    assert (Hsplit : forall c, nth_error (k_cochains K) c <> None <-> c < D + 1) by (intros; rewrite <- Hlen; apply nth_error_Some).
    exists (firstn (E + 1) cE), (skipn (E + 1) cE), (skipn (E + 1) cF). cbn [k_cochains k_dim k_y].
    rewrite firstn_skipn. split; auto. split.
    { rewrite <- (firstn_skipn (E + 1) cF) at 1. f_equal. apply nth_error_ext. intros d.
      destruct (Nat.lt_ge_cases d (E + 1)) as [Hd|Hd].
      2:{ rewrite !(proj2 (nth_error_None _ _)); auto; rewrite firstn_length; lia. }
      assert (Hfn : forall l : list cochain, nth_error (firstn (E + 1) l) d = nth_error l d).
      { clear -Hd. revert d Hd. generalize (E + 1). induction n as [|n IH]; intros d Hd l; [lia|].
        destruct l; simpl; [destruct d; auto|]. destruct d; simpl; auto. apply IH. lia. }
      rewrite !Hfn. destruct (nth_error (k_cochains K) d) as [c|] eqn:Ec.
      2:{ apply nth_error_None in Ec. rewrite !(proj2 (nth_error_None _ _)); auto; lia. }
      rewrite (GE _ _ Ec), (GF _ _ Ec). f_equal.
      destruct (nth_error xsE d) as [x|] eqn:Ex; [|apply nth_error_None in Ex; lia].
      destruct (nth_error xsF d) as [x'|] eqn:Ex'; [|apply nth_error_None in Ex'; unfold E in Hd; lia].
      apply matrices_nth in Ex as [_ ->]. apply matrices_nth in Ex' as [_ ->]. auto. }
    split; [rewrite firstn_length; lia|]. split.
    { intros Hp. rewrite firstn_length. destruct (Nat.le_gt_cases (E + 1) (length cE)); [lia|].
      elim Hp. apply skipn_all2. lia. }
    split; [|auto].
    apply Forall2_of_nth. { rewrite !skipn_length. lia. }
    intros j c c' Hc Hc'. rewrite nth_error_skip in Hc, Hc'. set (d := E + 1 + j) in *.
    assert (Hd : d < D + 1) by (rewrite <- Hlen, <- LE; apply nth_error_Some; congruence).
    destruct (nth_error (k_cochains K) d) as [c0|] eqn:Ec; [|apply nth_error_None in Ec; lia].
    rewrite (GE _ _ Ec) in Hc. rewrite (GF _ _ Ec) in Hc'.
    destruct (nth_error xsE d) as [x|] eqn:Ex; [assert (d < length xsE) by (apply nth_error_Some; congruence); unfold d in *; lia|].
    destruct (nth_error xsF d) as [x'|] eqn:Ex'; [|apply nth_error_None in Ex'; lia].
    inversion Hc; subst c0; clear Hc. inversion Hc'; subst c'; clear Hc'. split; [reflexivity|].
    intros y Hy. exists x'. split; [reflexivity|]. apply matrices_nth in Ex' as [_ ->].
    rewrite map_length, seq_length. symmetry. apply (K_x_len d c y Ec Hy).
Qed.

End Batch.

Lemma embed_list (m : enet V) (a : arch V) ks szs Dm :
  enet_ok m a (Nat.min (list_max (map k_dim ks)) Dm) -> ks <> [] -> Forall2 wf_complex ks szs ->
  uniform_x ks (Nat.min (list_max (map k_dim ks)) Dm) -> all_x ks 0 -> Forall2 bounded ks szs ->
  (forall k, In k ks -> edge_feats k = true -> em_e (en_emb m) <> None) ->
  exists b b', from_complex_list ks Dm = Ok b /\
    embed_forward o m b =
      Ok (map (fun q => predict o a (skel_of Dm (fst q) (snd q)) (init_feats (en_emb m) Dm (fst q) (snd q)))
              (combine ks szs), b').
Proof.
  set (D := Nat.min (list_max (map k_dim ks)) Dm). intros HN Hne HW Hux H0 HB He.
  destruct (from_complex_list_is_batch ks szs Dm Hne HW) as (b & Hb & Hib & _); auto.
  fold D in Hib. exists b.
  assert (Hpres : forall d, d <= D -> exists k, In k ks /\ d <= k_dim k).
  { intros d Hd. assert (Hin : In (list_max (map k_dim ks)) (map k_dim ks)).
    { apply list_max_exists. destruct ks; [congruence|discriminate]. }
    apply in_map_iff in Hin as (k & Ek & Hk). exists k; split; auto. unfold D in Hd. lia. }
  pose proof (ib_complex _ _ _ _ Hib) as HU. set (K := kb_complex b) in *.
  destruct HN as [N1 N2 N3 N4 N5].
  destruct (embedded ks szs D K HW HU Hpres Hux H0 HB (en_emb m) (en_dim m) N2)
    as (ps & K1 & Kf & Hps & Hev & Hset & HR & Hsim).
  { intros Hk. unfold edge_feats in Hk. destruct (attr c_x 1 K) as [x|] eqn:Ex; [|discriminate].
    unfold attr in Ex. destruct (nth_error (k_cochains K) 1) as [c|] eqn:Ec; [|discriminate].
    rewrite (un_x _ _ _ _ _ (uc_each _ _ _ _ HU _ _ Ec)) in Ex. unfold joined in Ex.
    destruct (existsb isSome (map (attr c_x 1) ks)) eqn:Eb; [|discriminate].
    apply existsb_exists in Eb as (oo & Hin & Ho). apply in_map_iff in Hin as (k & Ek & Hk').
    apply (He k Hk'). unfold edge_feats. rewrite Ek. auto. }
  pose proof (nk_max _ _ _ N1) as Hmax.
  assert (Hpos : Forall (fun sz : nat -> nat => 0 < sz 0) szs).
  { clear -HB. induction HB as [|k sz ks szs B HB IH]; constructor; auto. apply (bd_pos _ _ B). lia. }
  destruct (forward_from o Hdiv (en_net m) a ks szs D (mkKBatch Kf (kb_batch b) (kb_ptr b) (kb_num b)) K Kf
             (init_feats (en_emb m) D K (total szs))
             (fun i => match nth_error ks i, nth_error szs i with
                       | Some k, Some sz => init_feats (en_emb m) D k sz | _, _ => init_feats (en_emb m) D K (total szs) end))
    as (bf & Hbf); auto.
  { intros i k sz Ek Es. rewrite Ek, Es. apply (init_agree ks szs D K HW HU Hpres Hux H0 (en_emb m) i k sz Ek Es). }
  { apply (ib_batch _ _ _ _ Hib). }
  assert (Hrun : exists b', net_forward o (en_net m) (mkKBatch K1 (kb_batch b) (kb_ptr b) (kb_num b)) =
     Ok (mapi (fun i (q : complex * (nat -> nat)) => predict o a (skel_of D (fst q) (snd q))
        (match nth_error ks i, nth_error szs i with
                       | Some k, Some sz => init_feats (en_emb m) D k sz | _, _ => init_feats (en_emb m) D K (total szs) end))
        (combine ks szs), b')).
  { unfold net_forward in *. cbn [kb_complex kb_batch kb_ptr kb_num] in *.
    destruct (run_convs (n_max_dim (en_net m)) (n_pdim (en_net m)) (n_top (en_net m)) (n_down (en_net m)) (n_convs (en_net m)) Kf)
      as [[Kf' h]|] eqn:Er; [|discriminate].
    assert (Hr1 : exists K1', run_convs (n_max_dim (en_net m)) (n_pdim (en_net m)) (n_top (en_net m)) (n_down (en_net m)) (n_convs (en_net m)) K1 = Ok (K1', h)).
    { destruct (Nat.le_gt_cases D (en_dim m)) as [HDe|HDe].
      - (* everything was embedded *)
        assert (K1 = Kf).
        { rewrite Nat.min_r in Hsim by auto.
          destruct Hsim as (pre & post & post' & E1 & E2 & Hl & Hl2 & HF & HDk & HY).
          destruct post as [|c post].
          - inversion HF; subst. destruct K1, Kf; simpl in *. subst. auto.
          - exfalso. specialize (Hl2 ltac:(discriminate)).
            assert (Hlen : length (k_cochains K1) = D + 1).
            { pose proof (re_len _ _ _ HR) as HL. rewrite (SB_dim ks szs D K HU) in HL.
              rewrite E2, app_length in HL. rewrite E1, app_length, (Forall2_length HF). auto. }
            rewrite E1, app_length in Hlen. simpl in Hlen. lia. }
        subst. eauto.
      - rewrite Nat.min_l in Hsim by lia.
        destruct (run_convs_sim (en_dim m) (n_max_dim (en_net m)) (n_pdim (en_net m)) (n_top (en_net m)) (n_down (en_net m))
                    (n_convs (en_net m)) K1 Kf Kf' h Hsim) as (K1' & Hr & _); auto; [|eauto].
        intros ls ut Hin. split; [eapply N4; eauto|]. intros Heq l Hl.
        destruct N5 as [N5|[N5|N5]]; [unfold D in *; lia|lia|]. eapply N5; eauto. }
    destruct Hr1 as [K1' ->]. cbn [bind] in *.
    destruct (final_xs o (n_jump (en_net m)) h) as [xs|]; [|discriminate]. cbn [bind] in *.
    destruct (readout o (en_net m) xs (kb_batch b)) as [out|]; [|discriminate]. cbn [bind] in *.
    inversion Hbf; subst. eauto. }
  destruct Hrun as [b' Hrun]. exists b'. split; auto.
  unfold embed_forward. fold K.
  destruct (K_at ks szs D K HU 0 (Nat.le_0_l D)) as (c0 & -> & _).
  rewrite Hps. cbn [bind]. rewrite Hev. cbn [bind]. rewrite Hset. cbn [bind]. rewrite Hrun. f_equal. f_equal.
  apply mapi_irrelevant. intros i [k sz] Hi. rewrite nth_error_combine in Hi. simpl.
  destruct (nth_error ks i) as [k'|] eqn:Ek; [|discriminate]. destruct (nth_error szs i) as [sz'|] eqn:Es; [|discriminate].
  inversion Hi; subst k' sz'.
  assert (Hmin : skel_of D k sz = skel_of Dm k sz).
  { apply skel_of_min. assert (k_dim k <= list_max (map k_dim ks)) by (apply in_list_max, in_map; eapply nth_error_In; eauto).
    unfold D. lia. }
  unfold init_feats. rewrite Hmin. auto.
Qed.

End Nets.
