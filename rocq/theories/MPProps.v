(** Message passing on batches: C05, C06, C07, C08, C25, C29, C30. *)
From Coq Require Import List Arith Lia ZArith Bool Permutation.
From Verif Require Import Base ScatterModel ScatterSpec ScatterProofs ComplexModel BatchSpec BatchSpec2
  BatchProofs BatchProofs2 DummyModel MPModel MPSpec MPProofs MPEngine MPBatch MPForward MPNets BatchProps.
Import ListNotations.

Section Props.
Context {V : Type} (o : ops V).
Notation complex := (complex V).
Notation cochain := (cochain V).

(** ** C25 *)
(** The columns of [idx] pointing at [i], each with its source and its attribute. *)
Fixpoint incoming (i : nat) (idx : list (nat * nat)) (attr : option (list V)) : list (nat * option V) :=
  match idx with
  | [] => []
  | (j, t) :: idx' =>
      let a := match attr with Some (v :: _) => Some v | _ => None end in
      let rest := incoming i idx' (match attr with Some (_ :: l) => Some l | _ => None end) in
      if t =? i then (j, a) :: rest else rest
  end.

(** Aggregate of the messages [f x_j a] arriving at [i]. *)
Definition aggregate (r : reduce) (f : V -> option V -> V) (x : list V) (i : nat)
    (idx : list (nat * nat)) (attr : option (list V)) : V :=
  reduce_rows o r (map (fun p => f (nth (fst p) x (vzero o)) (snd p)) (incoming i idx attr)).

(** The message functions used by the layers. *)
Definition message (m : msg V) (x : V) (a : option V) : V :=
  match m, a with
  | MsgFst f, _ => f x
  | MsgCat f, Some a => f x a
  | MsgCat f, None => vzero o
  | MsgOpt g f, Some a => f x a
  | MsgOpt g f, None => g x
  end.

Definition index_ok (n_src n_tgt : nat) (idx : list (nat * nat)) : Prop :=
  forall j i, In (j, i) idx -> j < n_src /\ i < n_tgt.
Definition attr_ok (m : msg V) (idx : list (nat * nat)) (attr : option (list V)) : Prop :=
  match attr with
  | Some a => length a = length idx
  | None => match m with MsgCat _ => False | _ => True end
  end.

Lemma incoming_none i idx :
  incoming i idx None = map (fun e => (fst e, None)) (filter (fun e => snd e =? i) idx).
Proof. induction idx as [|[j t] idx IH]; simpl; auto. destruct (t =? i); simpl; rewrite IH; auto. Qed.

Lemma incoming_some i idx a : length a = length idx ->
  incoming i idx (Some a) =
  map (fun e => (fst (fst e), Some (snd e))) (filter (fun e => snd (fst e) =? i) (combine idx a)).
Proof.
  revert a; induction idx as [|[j t] idx IH]; intros [|v a] H; simpl in *; try discriminate; auto.
  destruct (t =? i); simpl; rewrite IH; auto.
Qed.

Lemma maa_raw m r idx x attr n :
  index_ok (length x) n idx -> attr_ok m idx attr ->
  message_and_aggregate o m r idx x attr n =
  Ok (map (fun i => aggregate r (message m) x i idx attr) (seq 0 n)).
Proof.
  intros Hi Ha. unfold aggregate.
  rewrite <- (map_nth_seq x (vzero o)) at 1. destruct attr as [a|]; simpl in Ha.
  - assert (E1 : idx = map (fun e => (fst (fst e), snd (fst e))) (combine idx a)).
    { rewrite <- eta_cols. symmetry. apply combine_fst. auto. }
    assert (E2 : a = map snd (combine idx a)).
    { clear E1 Hi. revert idx Ha; induction a as [|v a IH]; intros [|p idx] Ha; simpl in *; try discriminate; auto. f_equal; auto. }
    rewrite E1 at 1. rewrite E2 at 2.
    pose proof (maa_spec o m r (fun e => fst (fst e)) (fun e => snd (fst e)) (combine idx a)
      (fun i => nth i x (vzero o)) (length x) n (Some snd)) as H. cbn [option_map] in H. rewrite H; clear H.
    + f_equal. apply map_ext. intros i. f_equal. rewrite incoming_some by auto. rewrite map_map.
      apply map_ext. intros e. destruct m; auto.
    + discriminate.
    + intros [[j t] v] He. apply in_combine_l in He. simpl. apply Hi; auto.
  - rewrite (eta_pairs idx) at 1.
    pose proof (maa_spec o m r fst snd idx (fun i => nth i x (vzero o)) (length x) n None) as H.
    cbn [option_map] in H. rewrite H; clear H.
    + f_equal. apply map_ext. intros i. f_equal. rewrite incoming_none, map_map.
      apply map_ext. intros e. destruct m; auto; destruct Ha.
    + intros Hm. destruct m; simpl in Hm; try discriminate. destruct Ha.
    + intros [j t] He. simpl. apply Hi; auto.
Qed.

(** Parameters whose indices are in range and aligned with their attributes. *)
Record params_wf (c : mpcfg V) (p : params V) (x : list V) : Prop := {
  pw_x : p_x p = Some x;
  pw_up : forall u, p_up p = Some u ->
            index_ok (length x) (length x) u /\ attr_ok (g_msg_up c) u (p_up_attr p);
  pw_down : forall u, g_down c = true -> p_down p = Some u ->
            index_ok (length x) (length x) u /\ attr_ok (g_msg_down c) u (p_down_attr p);
  pw_bnd : forall ba, g_bnd c = true -> p_battr p = Some ba ->
            exists b, p_bidx p = Some b /\ index_ok (length ba) (length x) b
}.

(** Every cell receives exactly the messages of its upper (lower) neighbours and boundary cells:
    row 0 of an index is the source, row 1 the target.  Absent or disabled adjacencies give zeros. *)
Theorem C25_propagate (c : mpcfg V) (p : params V) (x : list V) :
  params_wf c p x ->
  propagate o c p = Ok
    (map (fun i => match p_up p with
                   | Some u => aggregate (g_aggr_up c) (message (g_msg_up c)) x i u (p_up_attr p)
                   | None => vzero o end) (seq 0 (length x)),
     map (fun i => match g_down c, p_down p with
                   | true, Some u => aggregate (g_aggr_down c) (message (g_msg_down c)) x i u (p_down_attr p)
                   | _, _ => vzero o end) (seq 0 (length x)),
     map (fun i => match g_bnd c, p_battr p, p_bidx p with
                   | true, Some ba, Some b =>
                       aggregate (g_aggr_bnd c) (fun v _ => g_msg_bnd c v) ba i b None
                   | _, _, _ => vzero o end) (seq 0 (length x))).
Proof.
  intros [Hx Hu Hd Hb]. unfold propagate. rewrite Hx.
  match goal with |- bind ?u _ = Ok (?a, _, _) => assert (E : u = Ok a) end.
  { destruct (p_up p) as [u|]; [destruct (Hu u eq_refl); apply maa_raw; auto|apply f_equal, zeros_map]. }
  rewrite E; clear E; cbn [bind].
  match goal with |- bind ?u _ = Ok (_, ?a, _) => assert (E : u = Ok a) end.
  { destruct (g_down c); [|apply f_equal, zeros_map].
    destruct (p_down p) as [u|]; [destruct (Hd u eq_refl eq_refl); apply maa_raw; auto|apply f_equal, zeros_map]. }
  rewrite E; clear E; cbn [bind].
  match goal with |- bind ?u _ = Ok (_, _, ?a) => assert (E : u = Ok a) end.
  { destruct (g_bnd c); [|apply f_equal, zeros_map].
    destruct (p_battr p) as [ba|]; [|apply f_equal, zeros_map].
    destruct (Hb ba eq_refl eq_refl) as (b & -> & Hi). rewrite maa_raw; simpl; auto. }
  rewrite E; clear E; cbn [bind]. reflexivity.
Qed.

(** An index that refers to a non-existing cell raises. *)
Theorem C25_propagate_out_of_range (c : mpcfg V) (p : params V) x u j i :
  p_x p = Some x -> p_up p = Some u -> In (j, i) u -> length x <= j ->
  exists e, propagate o c p = Err e.
Proof.
  intros Hx Hu Hin Hj. unfold propagate. rewrite Hx, Hu. unfold message_and_aggregate.
  destruct (index_select_err x (map fst u) j) as [e He]; auto.
  { apply in_map_iff. exists (j, i); auto. }
  rewrite He. exists e. reflexivity.
Qed.

(** ** The convolutions and networks of the repository *)

(** [cwn_level l top down]: a cochain convolution together with the flags
    (coboundary features needed / lower adjacency needed) under which it is used. *)
Inductive cwn_level : level V -> bool -> bool -> Prop :=
| CL_dummy ub ud : cwn_level (dummy_forward o ub ud) true true
| CL_cin l top : cwn_level (cin_forward o l) top true
| CL_sparse l down : cwn_level (sparse_forward o l) true down
| CL_cinpp l down : cwn_level (cinpp_forward o l) true down.

Inductive cwn_net : net V -> Prop :=
| CN_cin0 max_dim layers jump pool head :
    layers <> [] -> cwn_net (cin0 o max_dim layers jump pool head)
| CN_sparse max_dim layers jump pool dims lin1 mean lin2 :
    layers <> [] -> (exists d, In d dims /\ d <= max_dim) ->
    cwn_net (sparse_cin o max_dim layers jump pool dims lin1 mean lin2)
| CN_cinpp max_dim layers jump pool dims lin1 mean lin2 :
    layers <> [] -> (exists d, In d dims /\ d <= max_dim) ->
    cwn_net (cinpp o max_dim layers jump pool dims lin1 mean lin2)
| CN_edge top layers tops jump pool head :
    layers <> [] -> length layers = length tops ->
    cwn_net (edge_cin0 o top layers tops jump pool head)
| CN_dummy max_dim n pool lin :
    2 <= max_dim -> 0 < n -> cwn_net (dummy_net o max_dim n pool lin).

Hypothesis Hdiv : vdivn o (vzero o) 1 = vzero o.

Lemma cwn_level_ok l top down : cwn_level l top down -> exists rl, implements o l rl top down.
Proof.
  intros [ub ud|lv t|lv dn|lv dn]; eexists.
  - apply dummy_implements; auto.
  - apply cin_implements; auto.
  - apply sparse_implements; auto.
  - apply cinpp_implements; auto.
Qed.

Lemma cwn_net_ok m : cwn_net m -> exists a, net_ok o m a.
Proof.
  intros [max_dim layers jump pool head H | max_dim layers jump pool dims lin1 mean lin2 H H'
        | max_dim layers jump pool dims lin1 mean lin2 H H' | top layers tops jump pool head H H'
        | max_dim n pool lin H H']; eexists.
  - apply cin0_ok; auto.
  - apply sparse_ok; auto.
  - apply cinpp_ok; auto.
  - apply edge_ok; auto.
  - apply dummy_ok; auto.
Qed.

(** ** C05 *)
Lemma concat_blocks (szs : list (nat -> nat)) d (f : nat -> V) :
  map f (seq 0 (total szs d)) =
  concat (mapi (fun i (sz : nat -> nat) => map (fun j => f (off szs i d + j)) (seq 0 (sz d))) szs).
Proof.
  unfold total, off, mapi.
  assert (G : forall l base s, 
    map f (seq base (list_sum (map (fun sz : nat -> nat => sz d) l))) =
    concat (mapi_from (fun i (sz : nat -> nat) =>
       map (fun j => f (base + list_sum (map (fun sz : nat -> nat => sz d) (firstn (i - s) l)) + j)) (seq 0 (sz d))) s l)).
  { induction l as [|z l IH]; intros base s; cbn [mapi_from concat map list_sum fold_right]; auto.
    fold (list_sum (map (fun sz : nat -> nat => sz d) l)). rewrite seq_app, map_app. f_equal.
    - rewrite Nat.sub_diag. simpl. rewrite Nat.add_0_r. clear.
      revert base. induction (z d) as [|n IH]; intros base; simpl; auto.
      rewrite Nat.add_0_r. f_equal. rewrite IH, <- seq_shift, map_map. apply map_ext. intros; f_equal; lia.
    - rewrite (IH (base + z d) (S s)). f_equal. apply mapi_from_ext. intros i a Hi.
      apply map_ext. intros j. f_equal. replace (S s + i - s) with (S (S s + i - S s)) by lia.
      cbn [firstn map list_sum fold_right].
      fold (list_sum (map (fun sz : nat -> nat => sz d) (firstn (S s + i - S s) l))). lia. }
  rewrite (G szs 0 0). f_equal. apply mapi_from_ext. intros i a _.
  apply map_ext. intros j. simpl. rewrite Nat.sub_0_r. auto.
Qed.

(** The convolution of a batch is the concatenation of the convolutions of its members (truncated
    at the dimension of the batch); members without cells of this dimension contribute nothing. *)
Theorem C05_conv_of_batch (l : level V) ks szs max_dim b d pdim top down :
  cwn_level l (cob_visible pdim top d) down ->
  ks <> [] -> Forall2 wf_complex ks szs -> Forall (has_features max_dim) ks ->
  from_complex_list ks max_dim = Ok b -> d <= k_dim (kb_complex b) ->
  exists p outs,
    get_cochain_params (kb_complex b) d pdim top down true = Ok p /\
    l p = Ok (concat outs) /\
    Forall2 (fun k out =>
      if d <=? k_dim k then
        exists pk, get_cochain_params (truncate (k_dim (kb_complex b)) k) d pdim top down true = Ok pk /\
                   l pk = Ok out
      else out = []) ks outs.
Proof.
  intros HL Hne HW HF Hb Hd. destruct (cwn_level_ok _ _ _ HL) as [rl Himp].
  set (D := Nat.min (list_max (map k_dim ks)) max_dim).
  destruct (from_complex_list_is_batch ks szs max_dim Hne HW) as (b' & Hb' & HB & _).
  { intros d' Hd'. left. intros k c Hk Hc. rewrite Forall_forall in HF. apply (HF k Hk d' c); auto. lia. }
  fold D in HB. assert (b' = b) by congruence. subst b'.
  pose proof (ib_complex _ _ _ _ HB) as HU. set (K := kb_complex b) in *.
  assert (HD : k_dim K = D) by apply HU. rewrite HD in *.
  assert (Hpres : forall d, d <= D -> exists k, In k ks /\ d <= k_dim k).
  { intros e He. assert (Hin : In (list_max (map k_dim ks)) (map k_dim ks)).
    { apply list_max_exists. destruct ks; [congruence|discriminate]. }
    apply in_map_iff in Hin as (k & Ek & Hk). exists k; split; auto. unfold D in He. lia. }
  assert (HFD : Forall (has_features D) ks).
  { rewrite Forall_forall in *. intros k Hk e c He Hc. apply (HF k Hk e c); auto. unfold D in He; lia. }
  pose proof (batch_represents o ks szs D K HW HU Hpres HFD) as HR.
  pose proof (SB_ok ks szs D K HW HU) as HS.
  destruct (params_of_rep K _ _ d pdim top down HR HS) as (p & Hp & Pok).
  { rewrite (SB_dim ks szs D K HU). auto. }
  set (SB := skel_of D K (total szs)) in *. set (XB := feats_of o K) in *.
  set (F := new_feature o rl (cob_visible pdim top d)).
  exists p, (mapi (fun i (sz : nat -> nat) => map (fun j => F SB XB d (off szs i d + j)) (seq 0 (sz d))) szs).
  split; auto. split.
  { rewrite (Himp _ _ _ _ HS Pok). f_equal. fold F.
    rewrite (SB_n ks szs D K HU) by auto. apply concat_blocks. }
  assert (Hlen : length ks = length szs) by (apply (Forall2_length HW)).
  assert (G : forall i k sz, nth_error ks i = Some k -> nth_error szs i = Some sz ->
    (fun k out => if d <=? k_dim k then
        exists pk, get_cochain_params (truncate D k) d pdim top down true = Ok pk /\ l pk = Ok out
      else out = []) k (map (fun j => F SB XB d (off szs i d + j)) (seq 0 (sz d)))).
  { intros i k sz Hk Hs. cbv beta. pose proof (Wk ks szs HW i k sz Hk Hs) as W.
    destruct (Nat.leb_spec d (k_dim k)) as [Hdk|Hdk].
    2:{ rewrite (wfk_above _ _ W) by auto. auto. }
    assert (Hin : In k ks) by (eapply nth_error_In; eauto).
    rewrite Forall_forall in HFD. pose proof (HFD k Hin) as HFk.
    pose proof (truncate_represents o D k sz W HFk) as HRk.
    pose proof (skel_of_ok D k sz W) as HSk.
    destruct (params_of_rep (truncate D k) _ _ d pdim top down HRk HSk) as (pk & Hpk & Pk).
    { simpl. lia. }
    exists pk. split; auto. rewrite (Himp _ _ _ _ HSk Pk). f_equal.
    rewrite skel_of_n by auto. apply map_ext_in. intros j Hj. apply in_seq in Hj. fold F.
    pose proof (step_agree o (fun A => @eq (list A))
             (fun A B f l l' E => f_equal (map f) E) (fun r l l' E => f_equal (reduce_rows o r) E)
             (skel_of D k sz) SB (Nat.max d pdim) top true (blk szs D i k sz)) as Hst.
    (* a one-dimensional layer consisting of the rule at [d] only *)
    specialize (Hst (blk_refines ks szs D K HW HU i k sz Hk Hs (Nat.max d pdim) top) 0
                 (mkLayer (fun _ => rl) None) (feats_of o k) XB).
    assert (Hag : agree (blk szs D i k sz) 0 (feats_of o k) XB).
    { apply (blk_agree o ks szs D K HW HU Hpres); auto; apply Forall_forall; auto. }
    clear Hst.
    assert (Hup : up_at SB d (off szs i d + j) = map (sh_up szs d i) (up_at (skel_of D k sz) d j)).
    { apply (up_block ks szs D K HW HU i k sz Hk Hs). rewrite skel_of_n by auto. lia. }
    assert (Hlo : low_at SB d (off szs i d + j) = map (sh_low szs d i) (low_at (skel_of D k sz) d j)).
    { apply (low_block ks szs D K HW HU i k sz Hk Hs). rewrite skel_of_n by auto. lia. }
    assert (Hbn : bnd_at SB d (off szs i d + j) = map (sh_bnd szs d i) (bnd_at (skel_of D k sz) d j)).
    { apply (bnd_block ks szs D K HW HU i k sz Hk Hs). rewrite skel_of_n by auto. lia. }
    assert (HX : forall e c, c < s_n (skel_of D k sz) e -> feats_of o k e c = XB e (c + off szs i e)).
    { intros e c Hc. apply Hag. split; auto. lia. }
    unfold F, new_feature. f_equal.
    - rewrite HX by (rewrite skel_of_n by auto; lia). f_equal. lia.
    - unfold agg_up. rewrite Hup, map_map. f_equal. apply map_ext_in. intros [[a1 b1] c1] He.
      apply filter_In in He as [He _]. apply (so_up _ HSk) in He as (_ & H1 & _ & H3). simpl in *.
      rewrite (HX _ _ H1), (HX _ _ H3). auto.
    - unfold agg_low. destruct (r_low rl); auto. rewrite Hlo, map_map. f_equal. apply map_ext_in. intros [[a1 b1] c1] He.
      apply filter_In in He as [He _]. apply (so_low _ HSk) in He as (_ & H1 & _ & H3). simpl in *.
      rewrite (HX _ _ H1), (HX _ _ H3). auto.
    - unfold agg_bnd. destruct (r_bnd rl); auto. rewrite Hbn, map_map. f_equal. apply map_ext_in. intros [a1 b1] He.
      apply filter_In in He as [He _]. apply (so_bnd _ HSk) in He as (_ & H1 & _). simpl in *.
      rewrite (HX _ _ H1). auto. }
  assert (G2 : forall (P : complex -> list V -> Prop) (f : nat -> (nat -> nat) -> list V) (ks : list complex) szs s,
     length ks = length szs ->
     (forall i k sz, nth_error ks i = Some k -> nth_error szs i = Some sz -> P k (f (s + i) sz)) ->
     Forall2 P ks (mapi_from f s szs)).
  { clear. intros P f ks. induction ks as [|k ks IH]; intros [|sz szs] s Hl H; simpl in *; try discriminate; constructor.
    - specialize (H 0 k sz eq_refl eq_refl). rewrite Nat.add_0_r in H. auto.
    - apply IH; auto. intros i k' sz' H1 H2. replace (S s + i) with (s + S i) by lia. apply H; auto. }
  unfold mapi. apply G2; auto.
Qed.

(** ** C06, C07 *)

(** The prediction for a complex is the same in every batch: it is the one obtained when the
    complex is batched alone. *)
Theorem C06_batch_independence (m : net V) ks szs max_dim :
  cwn_net m ->
  ks <> [] -> Forall2 wf_complex ks szs -> Forall (has_features max_dim) ks ->
  Forall (fun sz => 0 < sz 0) szs ->
  exists b out b',
    from_complex_list ks max_dim = Ok b /\ net_forward o m b = Ok (out, b') /\
    length out = length ks /\
    forall i k v, nth_error ks i = Some k -> nth_error out i = Some v ->
      exists b1 b1', from_complex_list [k] max_dim = Ok b1 /\ net_forward o m b1 = Ok ([v], b1').
Proof.
  intros Hm Hne HW HF Hpos. destruct (cwn_net_ok m Hm) as [a Ha].
  destruct (forward_list o Hdiv m a ks szs max_dim Ha Hne HW HF Hpos) as (b & b' & Hb & Hf).
  eexists b, _, b'. split; [exact Hb|]. split; [exact Hf|].
  pose proof (Forall2_length HW) as Hlen. split.
  { rewrite map_length, combine_length. lia. }
  intros i k v Hk Hv. rewrite nth_error_map, nth_error_combine, Hk in Hv.
  destruct (nth_error szs i) as [sz|] eqn:Es; [|discriminate]. simpl in Hv. inversion Hv; subst v; clear Hv.
  pose proof (Wk ks szs HW i k sz Hk Es) as W.
  destruct (forward_list o Hdiv m a [k] [sz] max_dim Ha) as (b1 & b1' & Hb1 & Hf1); auto.
  - discriminate.
  - rewrite Forall_forall in HF. constructor; auto. apply HF. eapply nth_error_In; eauto.
  - rewrite Forall_forall in Hpos. constructor; auto. apply Hpos. eapply nth_error_In; eauto.
  - exists b1, b1'. auto.
Qed.

(** Evaluating any selection of the complexes (a reordering, a sub-batch, with repetitions) returns
    the same selection of the predictions. *)
Theorem C07_reordered_batch (m : net V) ks szs max_dim (sel : list nat) ks' b out b' :
  cwn_net m ->
  Forall2 wf_complex ks szs -> Forall (has_features max_dim) ks ->
  Forall (fun sz => 0 < sz 0) szs ->
  from_complex_list ks max_dim = Ok b -> net_forward o m b = Ok (out, b') ->
  sel <> [] -> Forall2 (fun i k => nth_error ks i = Some k) sel ks' ->
  exists b2 out2 b2',
    from_complex_list ks' max_dim = Ok b2 /\ net_forward o m b2 = Ok (out2, b2') /\
    Forall2 (fun i v => nth_error out i = Some v) sel out2.
Proof.
  intros Hm HW HF Hpos Hb Hf Hsel HS. destruct (cwn_net_ok m Hm) as [a Ha].
  assert (Hne : ks <> []) by (intros ->; discriminate).
  destruct (forward_list o Hdiv m a ks szs max_dim Ha Hne HW HF Hpos) as (b0 & b0' & Hb0 & Hf0).
  assert (b0 = b) by congruence. subst b0. rewrite Hf in Hf0. inversion Hf0; subst out b0'; clear Hf0.
  assert (Hsz : exists szs', Forall2 (fun i sz => nth_error szs i = Some sz) sel szs' /\
                             Forall2 wf_complex ks' szs').
  { clear -HW HS. induction HS as [|i k sel ks' Hi HS IH].
    - exists []; split; constructor.
    - destruct IH as (szs' & H1 & H2). destruct (Forall2_nth_error_l _ _ _ HW _ _ Hi) as (sz & E & W).
      exists (sz :: szs'). split; constructor; auto. }
  destruct Hsz as (szs' & Hs1 & HW').
  assert (HF' : Forall (has_features max_dim) ks').
  { clear -HF HS. rewrite Forall_forall in HF. induction HS as [|i k sel ks' Hi HS IH]; constructor; auto.
    apply HF. eapply nth_error_In; eauto. }
  assert (Hp' : Forall (fun sz => 0 < sz 0) szs').
  { clear -Hpos Hs1. rewrite Forall_forall in Hpos. induction Hs1 as [|i k sel ks' Hi HS IH]; constructor; auto.
    apply Hpos. eapply nth_error_In; eauto. }
  assert (Hne' : ks' <> []) by (intros ->; inversion HS; subst; congruence).
  destruct (forward_list o Hdiv m a ks' szs' max_dim Ha Hne' HW' HF' Hp') as (b2 & b2' & Hb2 & Hf2).
  eexists b2, _, b2'. split; [exact Hb2|]. split; [exact Hf2|].
  clear -HS Hs1. revert szs' Hs1. induction HS as [|i k sel ks' Hi HS IH]; intros szs' Hs1; inversion Hs1; subst; simpl; constructor.
  - rewrite nth_error_map, nth_error_combine, Hi. rewrite H1. reflexivity.
  - apply IH; auto.
Qed.

(** ** C08 *)
(** Pooling a list of feature matrices of a batch: entry (d, i) of the result is the reduction of
    the rows of exactly the cells of complex [i], zero if it has none or [d] was not processed. *)
Theorem C08_pooling (r : reduce) (ks : list complex) szs D (b : kbatch V) max_dim (xs : list (list V)) :
  Forall2 wf_complex ks szs -> ks <> [] -> is_batch ks szs D b ->
  Forall (fun sz => 0 < sz 0) szs ->
  length xs <= D + 1 -> length xs <= max_dim + 1 ->
  (forall d x, nth_error xs d = Some x -> length x = total szs d) ->
  exists rows, pool_complex o xs (kb_batch b) max_dim r = Ok rows /\
    length rows = max_dim + 1 /\
    forall d, d <= max_dim -> exists row, nth_error rows d = Some row /\ length row = length ks /\
      forall i sz, nth_error szs i = Some sz ->
        nth_error row i = Some (match nth_error xs d with
                                | Some x => reduce_rows o r (rows_of (off szs i d) (sz d) x)
                                | None => vzero o
                                end) /\
        (sz d = 0 -> nth_error row i = Some (vzero o)).
Proof.
  intros HW Hne HB Hpos H1 H2 Hx. rewrite (ib_batch _ _ _ _ HB).
  pose proof (Forall2_length HW) as Hlen.
  set (F := fun d i => nth i (nth d xs []) (vzero o)).
  assert (E : xs = map (fun d => map (F d) (seq 0 (total szs d))) (seq 0 (length xs))).
  { apply nth_error_ext. intros d. rewrite nth_error_map_seq.
    destruct (Nat.ltb_spec d (length xs)) as [Hd|Hd]; [|apply nth_error_None; auto].
    rewrite (nth_error_nth' xs [] Hd). f_equal. unfold F.
    rewrite <- (Hx d (nth d xs [])) by (apply nth_error_nth'; auto). symmetry. apply map_nth_seq. }
  rewrite E. rewrite pool_complex_spec; auto.
  2:{ intros ->. inversion HW; subst; congruence. }
  eexists; split; [reflexivity|]. rewrite map_length, seq_length. split; auto.
  intros d Hd. eexists. rewrite nth_error_map_seq. destruct (Nat.ltb_spec d (max_dim + 1)); [|lia].
  split; [reflexivity|]. rewrite map_length, seq_length. split; auto.
  intros i sz Hi. rewrite nth_error_map_seq.
  assert (i < length szs) by (apply nth_error_Some; congruence).
  destruct (Nat.ltb_spec i (length szs)); [|lia]. rewrite <- E.
  assert (Hp : pooled o r szs (length xs) F d i =
     match nth_error xs d with Some x => reduce_rows o r (rows_of (off szs i d) (sz d) x) | None => vzero o end).
  { unfold pooled. rewrite (nth_error_nth _ _ _ Hi). destruct (Nat.ltb_spec d (length xs)) as [Hlt|Hge].
    - rewrite (nth_error_nth' xs [] Hlt). f_equal. unfold F, rows_of.
      pose proof (Hx d (nth d xs []) (nth_error_nth' xs [] Hlt)) as Hxl.
      pose proof (off_S szs i d sz Hi) as Ho. pose proof (off_le_total szs (S i) d) as Ht.
      set (x := nth d xs []) in *. apply nth_error_ext. intros j. rewrite nth_error_map_seq.
      destruct (Nat.ltb_spec j (sz d)).
      + assert (G : forall A (l : list A) n j, j < n -> nth_error (firstn n l) j = nth_error l j).
        { clear. induction l as [|a l IH]; intros [|n] [|j] Hj; simpl; auto; try lia. apply IH; lia. }
        assert (G2 : forall A (l : list A) n j, nth_error (skipn n l) j = nth_error l (n + j)).
        { clear. intros A l n; revert l; induction n as [|n IH]; intros [|a l] j; simpl; auto. destruct j; auto. }
        rewrite G by auto. rewrite G2. symmetry. apply nth_error_nth'. lia.
      + symmetry. apply nth_error_None. rewrite firstn_length. lia.
    - rewrite (proj2 (nth_error_None xs d) Hge). auto. }
  rewrite Hp. split; auto. intros Hz. rewrite Hz. destruct (nth_error xs d) as [x|]; auto.
  unfold rows_of. simpl. rewrite reduce_rows_nil; auto.
Qed.

End Props.

(** ** C30 *)
Section SetXs.
Context {V : Type}.
Notation complex := (complex V).

(** Everything but the features agrees. *)
Definition same_structure (c c' : cochain V) : Prop :=
  c_dim c = c_dim c' /\ c_upper c = c_upper c' /\ c_lower c = c_lower c' /\
  c_shb c = c_shb c' /\ c_shc c = c_shc c' /\ c_bidx c = c_bidx c' /\
  c_uor c = c_uor c' /\ c_lor c = c_lor c' /\ c_y c = c_y c' /\ c_mask c = c_mask c' /\
  c_n c = c_n c' /\ c_nup c = c_nup c' /\ c_ndown c = c_ndown c'.

Definition counted (k : complex) (n : nat -> nat) : Prop :=
  length (k_cochains k) = k_dim k + 1 /\
  forall d c, nth_error (k_cochains k) d = Some c -> num_cells c = Ok (Some (n d)).

Theorem C30_set_xs (k : complex) n (xs : list (list V)) :
  counted k n -> length xs <= k_dim k + 1 ->
  (forall d x, nth_error xs d = Some x -> length x = n d) ->
  exists k', set_xs k xs = Ok k' /\ k_dim k' = k_dim k /\ k_y k' = k_y k /\ counted k' n /\
    forall d c, nth_error (k_cochains k) d = Some c ->
      exists c', nth_error (k_cochains k') d = Some c' /\ same_structure c c' /\
        match nth_error xs d with
        | Some x => c_x c' = Some x
        | None => c_x c' = c_x c
        end.
Proof.
  intros [Hl Hn] Hx Hlen. unfold set_xs.
  destruct (Nat.leb_spec (length xs) (k_dim k + 1)); [|lia]. cbn [assert_ bind].
  destruct (set_xs_loop_ok (k_cochains k) xs n) as (cs' & -> & Hl' & H'); auto.
  { rewrite Hl; auto. }
  cbn [bind]. eexists; split; [reflexivity|]. cbn [k_dim k_y k_cochains].
  split; auto. split; auto. split.
  - split; [simpl; congruence|]. simpl. intros d c Hc.
    assert (d < length (k_cochains k)) by (rewrite <- Hl'; apply nth_error_Some; congruence).
    destruct (nth_error (k_cochains k) d) as [c0|] eqn:E; [|apply nth_error_None in E; lia].
    rewrite (H' _ _ E) in Hc. inversion Hc; subst c; clear Hc.
    destruct (nth_error xs d) as [x|] eqn:Ex; eauto. apply num_cells_set_x; eauto.
  - intros d c Hc. eexists. split; [apply (H' _ _ Hc)|]. destruct (nth_error xs d) as [x|].
    + split; [|reflexivity]. repeat split; reflexivity.
    + split; [|reflexivity]. repeat split; reflexivity.
Qed.

(** It raises for too many matrices and for a matrix with a wrong number of rows. *)
Theorem C30_set_xs_rejects (k : complex) n (xs : list (list V)) :
  counted k n ->
  k_dim k + 1 < length xs \/ (exists d x, nth_error xs d = Some x /\ length x <> n d) ->
  exists e, set_xs k xs = Err e.
Proof.
  intros [Hl Hn] H. unfold set_xs.
  destruct (Nat.leb_spec (length xs) (k_dim k + 1)) as [Hle|Hgt]; [|eexists; reflexivity].
  destruct H as [H|(d & x & Hx & Hne)]; [lia|]. cbn [assert_ bind].
  assert (G : forall (cs : list (cochain V)) xs n d x,
     (forall d c, nth_error cs d = Some c -> num_cells c = Ok (Some (n d))) ->
     nth_error xs d = Some x -> length x <> n d -> exists e, set_xs_loop cs xs = Err e).
  { clear. induction cs as [|c cs IH]; intros xs n d x Hn Hx Hne.
    - destruct xs; [destruct d; discriminate|]. eexists; reflexivity.
    - destruct xs as [|y xs]; [destruct d; discriminate|]. cbn [set_xs_loop].
      unfold set_x. rewrite (Hn 0 c eq_refl). cbn [bind].
      destruct (Nat.eqb_spec (n 0) (length y)) as [E|E].
      + destruct d as [|d]; [simpl in Hx; inversion Hx; subst; congruence|].
        destruct (IH xs (fun e => n (S e)) d x) as [e He]; auto.
        cbn [assert_ bind]. rewrite He. eexists; reflexivity.
      + eexists; reflexivity. }
  destruct (G _ _ _ _ _ Hn Hx Hne) as [e He]. rewrite He. eexists; reflexivity.
Qed.

(** Reading the features back. *)
Theorem C30_read_back (k k' : complex) n xs d x max_dim top p :
  counted k n -> length xs <= k_dim k + 1 ->
  (forall d x, nth_error xs d = Some x -> length x = n d) ->
  set_xs k xs = Ok k' -> nth_error xs d = Some x ->
  get_cochain_params k' d max_dim top false true = Ok p -> p_x p = Some x.
Proof.
  intros Hc Hl Hn Hs Hx Hp. destruct (C30_set_xs k n xs Hc Hl Hn) as (k2 & E & _ & _ & _ & Hk).
  assert (k2 = k') by congruence. subst k2.
  assert (Hd : d < length xs) by (apply nth_error_Some; congruence).
  destruct Hc as [Hkl _].
  destruct (nth_error (k_cochains k) d) as [c|] eqn:Ec; [|apply nth_error_None in Ec; lia].
  destruct (Hk d c Ec) as (c' & Ec' & _ & Hcx). rewrite Hx in Hcx.
  unfold get_cochain_params in Hp. rewrite Ec' in Hp.
  apply bind_ok in Hp as (u & _ & Hp). cbn [bind] in Hp. inversion Hp; subst. simpl. auto.
Qed.

End SetXs.

(** ** C48 *)
Section Keeps.
Context {V : Type} (o : ops V).

Definition same_structure_k (k k' : complex V) : Prop :=
  k_dim k' = k_dim k /\ k_y k' = k_y k /\ Forall2 same_structure (k_cochains k) (k_cochains k').

Lemma same_structure_refl (c : cochain V) : same_structure c c.
Proof. repeat split. Qed.
Lemma same_structure_trans (a b c : cochain V) : same_structure a b -> same_structure b c -> same_structure a c.
Proof. unfold same_structure. intuition congruence. Qed.
Lemma Forall2_same_refl (cs : list (cochain V)) : Forall2 same_structure cs cs.
Proof. induction cs; constructor; auto using same_structure_refl. Qed.
Lemma Forall2_same_trans (a b c : list (cochain V)) :
  Forall2 same_structure a b -> Forall2 same_structure b c -> Forall2 same_structure a c.
Proof.
  intros H; revert c; induction H as [|x y a b Hxy Hab IH]; intros c Hc; inversion Hc; subst; constructor.
  - eapply same_structure_trans; eauto.
  - auto.
Qed.

Lemma set_xs_keeps (k k' : complex V) xs : set_xs k xs = Ok k' -> same_structure_k k k'.
Proof.
  unfold set_xs. intros H. apply bind_ok in H as (u & _ & H). apply bind_ok in H as (cs & H & E).
  inversion E; subst; clear E. split; [auto|]. split; [auto|]. cbn [k_cochains].
  revert cs xs H. induction (k_cochains k) as [|c l IH]; intros cs [|x xs] H; cbn [set_xs_loop] in H; try discriminate.
  - inversion H; subst. constructor.
  - inversion H; subst. apply Forall2_same_refl.
  - apply bind_ok in H as (c' & Hc & H). apply bind_ok in H as (r & Hr & H). inversion H; subst; clear H.
    constructor; [|eapply IH; eauto].
    unfold set_x in Hc. apply bind_ok in Hc as (n & _ & Hc). apply bind_ok in Hc as (? & _ & Hc).
    inversion Hc; subst. repeat split.
Qed.

Lemma run_convs_keeps md pdim top down cs (k kf : complex V) h :
  run_convs md pdim top down cs k = Ok (kf, h) -> same_structure_k k kf.
Proof.
  revert k kf h; induction cs as [|[ls ut] cs IH]; intros k kf h H; cbn [run_convs] in H.
  - inversion H; subst. split; auto. split; auto. apply Forall2_same_refl.
  - apply bind_ok in H as (ps & _ & H). apply bind_ok in H as (xs & _ & H).
    apply bind_ok in H as (xs' & _ & H). apply bind_ok in H as (k1 & H1 & H).
    apply bind_ok in H as ([k2 h2] & H2 & H). inversion H; subst; clear H.
    apply set_xs_keeps in H1 as (A1 & A2 & A3). apply IH in H2 as (B1 & B2 & B3).
    split; [congruence|]. split; [congruence|]. eapply Forall2_same_trans; eauto.
Qed.

(** A forward pass changes nothing of the batch but its features. *)
Theorem C48_forward_keeps_structure (m : net V) b out b' :
  net_forward o m b = Ok (out, b') ->
  kb_batch b' = kb_batch b /\ kb_ptr b' = kb_ptr b /\ kb_num b' = kb_num b /\
  same_structure_k (kb_complex b) (kb_complex b').
Proof.
  unfold net_forward. intros H. apply bind_ok in H as ([k h] & H1 & H).
  apply bind_ok in H as (xs & _ & H). apply bind_ok in H as (ou & _ & H). inversion H; subst; clear H.
  split; auto. split; auto. split; auto. eapply run_convs_keeps; eauto.
Qed.

End Keeps.

(** ** Examples: the batch of the house, a point and a path *)
Definition ex_sparse (d : nat) : sparse_level Z :=
  mkSparseLevel (MsgCat (fun a b => a + 2 * b)%Z) (fun v => 3 * v)%Z (fun v => v)%Z (fun v => v + 1)%Z
    (fun u v => u + 5 * v)%Z (fun v => v)%Z (fun v => 2 * v)%Z.
Definition ex_cin (d : nat) : cin_level Z :=
  mkCinLevel (fun a => a)%Z (fun a b => a + 2 * b)%Z (fun a b => a - b)%Z (fun v => v + 1)%Z (fun v => 2 * v)%Z.
Definition ex_net : net Z :=
  sparse_cin Zops 2 [ex_sparse; ex_sparse] None RAdd [0;1;2] (fun d v => v)%Z false (fun v => v)%Z.
Definition ex_net0 : net Z := cin0 Zops 2 [ex_cin; ex_cin] (Some (fun l => fold_left Z.add l 0%Z)) RMean (fun v => v)%Z.

Lemma Zops_div : vdivn Zops (vzero Zops) 1 = vzero Zops.
Proof. reflexivity. Qed.

Lemma trio_features D : Forall (has_features D) trio.
Proof.
  repeat constructor; intros d c _; destruct d as [|[|[|d]]]; simpl; intros H; inversion H; subst; try discriminate;
    destruct d; discriminate.
Qed.

Example C06_hyps : cwn_net Zops ex_net /\ cwn_net Zops ex_net0 /\ trio <> [] /\
  Forall2 wf_complex trio trio_sz /\ Forall (has_features 2) trio /\ Forall (fun sz => 0 < sz 0) trio_sz.
Proof.
  split; [apply CN_sparse; [discriminate|exists 0; simpl; auto]|].
  split; [apply CN_cin0; discriminate|]. split; [discriminate|]. split; [apply trio_wf|].
  split; [apply trio_features|]. repeat constructor.
Qed.

Example C06_trio : exists b out b', from_complex_list trio 2 = Ok b /\ net_forward Zops ex_net b = Ok (out, b') /\
  exists b1 b1' v, from_complex_list [path3] 2 = Ok b1 /\ net_forward Zops ex_net b1 = Ok ([v], b1') /\
    nth_error out 2 = Some v /\ nth_error out 0 <> Some v.
Proof.
  eexists _, _, _. split; [reflexivity|]. split; [vm_compute; reflexivity|].
  eexists _, _, _. split; [reflexivity|]. split; [vm_compute; reflexivity|]. split; [reflexivity|discriminate].
Qed.

Example C07_example : Forall2 (fun i k => nth_error trio i = Some k) [2; 0; 1; 0] [path3; house; point; house].
Proof. repeat constructor. Qed.

(** C08: pooling a matrix per dimension. *)
Example C08_example : exists b, from_complex_list trio 2 = Ok b /\ is_batch trio trio_sz 2 b /\
  pool_complex Zops [[1;2;3;4;5;6;7;8;9]; [1;2;3;4;5;6;7;8]]%Z (kb_batch b) 2 RAdd =
  Ok [[15; 6; 24]; [21; 0; 15]; [0; 0; 0]]%Z.
Proof.
  destruct (from_complex_list_is_batch trio trio_sz 2) as (b & Hb & HB & _).
  - discriminate. - apply trio_wf. - apply trio_uniform.
  - exists b. split; auto. split; auto. vm_compute in Hb. inversion Hb; subst. reflexivity.
Qed.

(** C25: messages on the path a - b - c along its two edges. *)
Example C25_example :
  let c := mkCfg true true RAdd RMax RMean (MsgCat Z.add) (MsgFst (fun v => v)%Z) (fun v => v)%Z in
  let p := mkParams (Some [1;2;4]%Z) (Some [(0,1);(1,0);(1,2);(2,1)]) None (Some [10;10;20;20]%Z) None
             (Some [5;7]%Z) (Some [(0,1);(1,1)]) in
  params_wf c p [1;2;4]%Z /\ propagate Zops c p = Ok ([12;35;22]%Z, [0;0;0]%Z, [0;6;0]%Z).
Proof.
  simpl. split; [|vm_compute; reflexivity]. split; simpl; auto; try discriminate.
  - intros u E. inversion E; subst; clear E. split; [|reflexivity].
    intros j i H; simpl in H. repeat (destruct H as [H|H]; [inversion H; subst; simpl; lia|]). destruct H.
  - intros ba _ E. inversion E; subst; clear E. eexists; split; [reflexivity|].
    intros j i H; simpl in H. repeat (destruct H as [H|H]; [inversion H; subst; simpl; lia|]). destruct H.
Qed.

(** C05: the hypotheses hold for the trio at dimension 1 and every kind of layer. *)
Example C05_hyps : forall l, cwn_level Zops (sparse_forward Zops l) (cob_visible 2 true 1) false.
Proof. intros; constructor. Qed.

(** C30 on the house. *)
Example C30_hyps : counted house house_sz.
Proof.
  split; [reflexivity|]. intros d c. destruct d as [|[|[|d]]]; simpl; intros H; inversion H; subst; auto.
  destruct d; discriminate.
Qed.
Example C30_example : exists k', set_xs house [[9;9;9;9;9]; [8;8;8;8;8;8]]%Z = Ok k' /\
  attr c_x 1 k' = Some [8;8;8;8;8;8]%Z /\ attr c_x 2 k' = Some [1]%Z /\
  set_xs house [[9;9;9;9]]%Z = Err AssertionError.
Proof. eexists. split; [reflexivity|]. repeat split. Qed.

(** Finding: the forward pass stores its hidden features in the batch it is given, so evaluating
    the same batch object twice gives different predictions. *)
Theorem C48_forward_repeatable_refuted :
  exists b out1 b1 out2 b2, from_complex_list trio 2 = Ok b /\
    net_forward Zops ex_net b = Ok (out1, b1) /\ net_forward Zops ex_net b1 = Ok (out2, b2) /\ out1 <> out2.
Proof.
  eexists _, _, _, _, _. split; [reflexivity|]. split; [vm_compute; reflexivity|].
  split; [vm_compute; reflexivity|]. discriminate.
Qed.

Print Assumptions C05_conv_of_batch.
Print Assumptions C06_batch_independence.
Print Assumptions C07_reordered_batch.
Print Assumptions C08_pooling.
Print Assumptions C25_propagate.
Print Assumptions C25_propagate_out_of_range.
Print Assumptions C30_set_xs.
Print Assumptions C30_set_xs_rejects.
Print Assumptions C30_read_back.
Print Assumptions C48_forward_keeps_structure.
Print Assumptions C48_forward_repeatable_refuted.
