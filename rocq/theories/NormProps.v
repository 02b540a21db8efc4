(** Training mode: what batch normalisation does to the predictions (C71). *)
From Coq Require Import List Arith Lia ZArith Bool Permutation.
From Verif Require Import Base ScatterModel ScatterSpec ScatterProofs ComplexModel BatchSpec BatchSpec2
  BatchProofs BatchProofs2 MPModel MPSpec MPProofs MPEngine MPBatch MPForward MPNets BatchProps MPProps MPIso
  InferModel TrainModel TrainSpec TrainProps DummyModel RedundantSpec RedundantProps.
From Verif Require Import NormModel NormSpec NormProofs NormMembers.
Import ListNotations.

Lemma Forall2_perm_concat {A B C} (f : A -> list C) (g : B -> list C) l l' :
  Forall2 (fun a b => Permutation (f a) (g b)) l l' -> Permutation (concat (map f l)) (concat (map g l')).
Proof. induction 1; simpl; auto. apply Permutation_app; auto. Qed.

Lemma perm_concat_map {A B} (f : A -> list B) l l' : Permutation l l' -> Permutation (concat (map f l)) (concat (map f l')).
Proof. intros H. rewrite <- !flat_map_concat_map. apply Permutation_flat_map; auto. Qed.

Section Gen.
Context {V : Type} (o : ops V) (Ho : ops_ok o).
Notation complex := (complex V).
Let Hdiv : vdivn o (vzero o) 1 = vzero o := div_0_1 _ Ho.

Definition paired (q q' : complex * (nat -> nat)) : Prop :=
  snd q' = snd q /\ isomorphic (snd q) (fst q) (fst q') /\ wf_complex (fst q') (snd q).

Lemma rearranged_pairs sel ks szs (ks' : list complex) : Forall2 wf_complex ks szs -> rearranged sel ks szs ks' ->
  exists szs' qs, Forall2 wf_complex ks' szs' /\ Permutation qs (combine ks szs) /\
    Forall2 paired qs (combine ks' szs') /\
    Forall2 (fun i q => nth_error (combine ks szs) i = Some q) sel qs.
Proof.
  intros HW [HP HF].
  assert (G : exists szs' qs, Forall2 wf_complex ks' szs' /\ Forall2 paired qs (combine ks' szs') /\
    Forall2 (fun i q => nth_error (combine ks szs) i = Some q) sel qs).
  { clear HP. induction HF as [|i k' sel ks' (k & sz & Ek & Es & Hi & W) HF IH].
    - exists [], []. repeat constructor.
    - destruct IH as (szs' & qs & H1 & H2 & H3). exists (sz :: szs'), ((k, sz) :: qs).
      split; [|split]; constructor; auto.
      + split; auto.
      + rewrite nth_error_combine, Ek, Es. auto. }
  destruct G as (szs' & qs & H1 & H2 & H3). exists szs', qs. split; auto. split; auto.
  pose proof (Forall2_length HW) as Hl.
  destruct (combine ks szs) as [|q0 qq] eqn:E.
  - assert (ks = []) by (destruct ks, szs; simpl in *; congruence). subst ks. simpl in HP.
    apply Permutation_sym, Permutation_nil in HP. subst sel. inversion H3; auto.
  - rewrite <- E in *. clear E.
    assert (Eq : qs = map (fun i => nth i (combine ks szs) q0) sel).
    { clear -H3. induction H3 as [|i q sel qs Hi H3 IH]; simpl; auto. f_equal; auto. symmetry. apply nth_error_nth; auto. }
    rewrite Eq. eapply Permutation_trans; [apply Permutation_map; exact HP|].
    replace (length ks) with (length (combine ks szs)) by (rewrite combine_length; lia).
    rewrite map_nth_seq. auto.
Qed.

Lemma same_dims sel ks szs (ks' : list complex) : Forall2 wf_complex ks szs -> rearranged sel ks szs ks' ->
  list_max (map k_dim ks') = list_max (map k_dim ks).
Proof.
  intros HW [HP HF]. pose proof (Forall2_length HF) as Hl.
  apply Nat.le_antisymm; apply list_max_le; apply Forall_forall; intros n Hn; apply in_map_iff in Hn as (k0 & <- & Hk).
  - apply In_nth_error in Hk as [j Hj]. destruct (Forall2_nth_error _ _ _ HF _ _ Hj) as (i & _ & k & sz & Ek & _ & [pi Hi] & _).
    rewrite (iso_dim _ _ _ _ Hi). apply in_list_max, in_map. eapply nth_error_In; eauto.
  - apply In_nth_error in Hk as [i Hi]. assert (Hin : In i sel).
    { apply Permutation_in with (seq 0 (length ks)); [apply Permutation_sym; auto|]. apply in_seq.
      assert (i < length ks) by (apply nth_error_Some; congruence). lia. }
    apply In_nth_error in Hin as [j Hj]. destruct (Forall2_nth_error_l _ _ _ HF _ _ Hj) as (k' & Ek' & k & sz & Ek & _ & [pi Hpi] & _).
    assert (k = k0) by congruence. subst k. rewrite <- (iso_dim _ _ _ _ Hpi). apply in_list_max, in_map. eapply nth_error_In; eauto.
Qed.

(** ** A batch in training mode is a batch in evaluation mode with frozen levels *)
Section OneKind.
Context {L : Type} (rule_of : L -> rule V) (lev : L -> level V) (down : bool).
Hypothesis lev_ok : forall l, implements o (lev l) (rule_of l) true down.
Variables (pdim : nat) (tls : list (nat -> level V)) (ts : list (nat -> staged V L)).
Hypothesis HT : Forall2 (fun tl t => forall d, timplements o rule_of down (tl d) (t d) /\ symmetric (t d)) tls ts.
Variables (ks : list complex) (szs : list (nat -> nat)) (Dm : nat).
Hypothesis Hne : ks <> [].
Hypothesis HW : Forall2 wf_complex ks szs.
Let D := Nat.min (list_max (map k_dim ks)) Dm.
Let mems := mems_of o D ks szs.

Definition sizes_of (s : source V L) (d : nat) : nat :=
  list_sum (map (fun q : skel * feats V => src_size s (fst q) d) mems).

Lemma mem_rows_length s d : length (mem_rows o rule_of mems s d) = sizes_of s d.
Proof.
  unfold mem_rows, sizes_of. generalize mems. intros l. induction l as [|q l IH]; simpl; auto.
  rewrite app_length, rows_length, IH. auto.
Qed.

Fixpoint fine_by (n : source V L -> nat) (t : staged V L) : Prop :=
  match t with Done _ => True | Stage s k => n s <> 1 /\ forall T, fine_by n (k T) end.
Lemma fine_by_fine n t S d : (forall s, src_size s S d = n s) -> fine_by n t -> fine t S d.
Proof. intros H. induction t as [l|s k IH]; simpl; auto. intros [H1 H2]. rewrite H. split; auto. Qed.

Hypothesis Hfine : forall d, d <= pdim -> d <= D -> Forall (fun t => fine_by (fun s => sizes_of s d) (t d)) ts.

Lemma batch_frozen sel ks' : rearranged sel ks szs ks' -> Forall (has_features Dm) ks' ->
  exists b', from_complex_list ks' Dm = Ok b' /\
    run_convs pdim pdim true down (tconvs pdim tls) (kb_complex b') =
    run_convs pdim pdim true down (econvs lev pdim (frozen o rule_of pdim mems ts)) (kb_complex b').
Proof.
  intros HRe HF'. destruct (rearranged_pairs sel ks szs ks' HW HRe) as (szs' & qs & HW' & HP & HQ & _).
  assert (Hne' : ks' <> []).
  { intros E. destruct HRe as [HP' HF2]. apply Forall2_length in HF2. apply Permutation_length in HP'.
    rewrite E, HP', seq_length in HF2. apply Hne. apply length_zero_iff_nil. auto. }
  pose proof (same_dims sel ks szs ks' HW HRe) as HD.
  destruct (from_complex_list_is_batch ks' szs' Dm Hne' HW') as (b' & Hb & HB & _).
  { intros d Hd. left. intros k c Hk Hc. rewrite Forall_forall in HF'. apply (HF' k Hk d c); auto. lia. }
  rewrite HD in HB. fold D in HB.
  exists b'. split; auto. pose proof (ib_complex _ _ _ _ HB) as HU. set (K := kb_complex b') in *.
  assert (Hpres : forall d, d <= D -> exists k, In k ks' /\ d <= k_dim k).
  { intros d Hd. assert (Hin : In (list_max (map k_dim ks')) (map k_dim ks')).
    { apply list_max_exists. destruct ks'; [congruence|discriminate]. }
    apply in_map_iff in Hin as (k & Ek & Hk). exists k; split; auto. unfold D in Hd. lia. }
  assert (HFD : Forall (has_features D) ks').
  { rewrite Forall_forall in *. intros k Hk d c Hd Hc. apply (HF' k Hk d c); auto. unfold D in Hd; lia. }
  assert (HM : matches o rule_of pdim mems (skel_of D K (total szs')) (feats_of o K)).
  { intros Ls s d Hd. rewrite (batch_rows o rule_of ks' szs' D K HW' HU Hpres HFD pdim Ls s d Hd).
    apply Permutation_sym. apply Permutation_trans with
      (concat (map (fun q : complex * (nat -> nat) => rows o rule_of s (skel_of D (fst q) (snd q))
         (after o pdim Ls (skel_of D (fst q) (snd q)) (feats_of o (fst q))) d) qs)).
    - unfold mems, mems_of. rewrite map_map. cbn [fst snd]. apply perm_concat_map. apply Permutation_sym; auto.
    - unfold mems_of. rewrite map_map. cbn [fst snd]. apply Forall2_perm_concat.
      assert (Hwf : Forall (fun q : complex * (nat -> nat) => wf_complex (fst q) (snd q)) qs).
      { apply Forall_forall. intros [k sz] Hin. apply (Permutation_in _ HP) in Hin. apply In_nth_error in Hin as [i Hi].
        rewrite nth_error_combine in Hi. destruct (nth_error ks i) as [k'|] eqn:Ek; [|discriminate].
        destruct (nth_error szs i) as [sz'|] eqn:Es; [|discriminate]. injection Hi as -> ->. apply (Wk ks szs HW i k sz Ek Es). }
      clear -HQ Hwf Ho Hd. induction HQ as [|[k sz] [k' sz'] qs qs' (E & [pi Hi] & W') HQ IH]; constructor; inversion Hwf; subst; auto.
      cbn [fst snd] in *. subst sz'. apply (iso_rows o Ho rule_of pi sz k k' D); auto. }
  apply (run_frozen o rule_of lev down lev_ok pdim tls ts K (skel_of D K (total szs')) (feats_of o K) mems); auto.
  - apply (SB_ok ks' szs' D K HW' HU).
  - apply (batch_represents o ks' szs' D K HW' HU Hpres HFD).
  - apply Forall_forall. intros t Ht d Hd1 Hd2. rewrite (SB_dim ks' szs' D K HU) in Hd2.
    specialize (Hfine d Hd1 Hd2). rewrite Forall_forall in Hfine. apply fine_by_fine with (2 := Hfine t Ht).
    intros s. rewrite <- (rows_length o rule_of s _ (feats_of o K)), <- mem_rows_length.
    apply Permutation_length. apply (matches_now o rule_of pdim mems _ _ s d HM Hd1).
Qed.

End OneKind.

(** *** Statistics *)
Context {St : Type}.
Notation nn := (list (nn_layer V St)).

Lemma order_free_symmetric (ls : nn) : order_free ls -> symmetric_nn ls.
Proof.
  intros H. apply Forall_forall. intros [f|st f] Hin; auto. intros T T' HT. apply (H st f); auto.
Qed.
Lemma has_norm_normalises (ls : nn) : has_norm ls -> normalises ls.
Proof. intros (st & f & H). exists (BatchNorm st f). auto. Qed.

Lemma resolve_stages {L} (rule_of : L -> rule V) (ls : nn) src fin acc mems d :
  exists a, freezes ls a /\ resolve o rule_of (stages ls src acc fin) mems d = resolve o rule_of (fin (fun v => a (acc v))) mems d.
Proof.
  revert acc. induction ls as [|[f|st f] ls IH]; intros acc; cbn [stages].
  - exists (fun v => v). split; [constructor|reflexivity].
  - destruct (IH (fun v => f (acc v))) as (a & Ha & E). exists (fun v => a (f v)). split; [constructor; auto|exact E].
  - cbn [resolve]. set (c := st (mem_rows o rule_of mems (src acc) d)).
    destruct (IH (fun v => f c (acc v))) as (a & Ha & E). exists (fun v => a (f c v)). split; [constructor; auto|exact E].
Qed.

Lemma stages_fine_by {L} n (ls : nn) (src : (V -> V) -> source V L) fin acc :
  (forall a, n (src a) <> 1) -> (forall a, fine_by n (fin a)) -> fine_by n (stages ls src acc fin).
Proof. intros H Hf. revert acc. induction ls as [|[f|st f] ls IH]; intros acc; cbn [stages fine_by]; auto. Qed.

Lemma ran_stages_err {L} (rule_of : L -> rule V) (ls : nn) src fin acc S X d :
  (forall a, src_size (src a) S d = 1) -> has_norm ls ->
  ran o rule_of (stages ls src acc fin) S X d = Err ValueError.
Proof.
  intros Hs Hn. destruct (stages_first ls src fin acc (has_norm_normalises _ Hn)) as (a & k & E). rewrite E.
  cbn [ran]. cbv zeta. rewrite rows_length, Hs. reflexivity.
Qed.
Lemma ran_stages_later {L} (rule_of : L -> rule V) (ls : nn) src fin acc S X d :
  (forall a, ran o rule_of (fin a) S X d = Err ValueError) ->
  ran o rule_of (stages ls src acc fin) S X d = Err ValueError.
Proof.
  intros Hf. revert acc. induction ls as [|[f|st f] ls IH]; intros acc; cbn [stages ran]; auto.
  cbv zeta. destruct (_ =? 1); auto.
Qed.

Lemma list_sum_one l : list_sum l = 1 -> In 1 l.
Proof.
  induction l as [|a l IH]; simpl; intros H; [discriminate|].
  destruct a as [|[|a]]; [right; apply IH; auto|left; auto|lia].
Qed.

Section Sizes.
Variables (ks : list complex) (szs : list (nat -> nat)) (Dm : nat).
Hypothesis HW : Forall2 wf_complex ks szs.
Let D := Nat.min (list_max (map k_dim ks)) Dm.

Lemma sizes_cells {L} (l : L) d : d <= D ->
  sizes_of ks szs Dm (Cells l) d = list_sum (map (fun sz : nat -> nat => sz d) szs).
Proof.
  intros Hd. unfold sizes_of, mems_of. rewrite map_map. cbn [fst src_size]. fold D.
  clearbody D. induction HW as [|k sz ks' szs' W HW' IH]; cbn [combine map list_sum fold_right]; auto.
  fold (list_sum (map (fun sz : nat -> nat => sz d) szs')). rewrite skel_of_n by auto. f_equal. auto.
Qed.

Lemma one_elem {A} (l : list A) : length l = 1 -> exists a, l = [a].
Proof. destruct l as [|a [|b l]]; simpl; intros H; try discriminate. eauto. Qed.

Lemma sizes_msgs {L} (s : source V L) d : Forall two_way ks -> match s with Cells _ => False | _ => True end ->
  sizes_of ks szs Dm s d <> 1.
Proof.
  intros HT Hs E. unfold sizes_of, mems_of in E. rewrite map_map in E. apply list_sum_one in E.
  apply in_map_iff in E as ([k sz] & E & Hin). cbn [fst snd] in E. apply in_combine_l in Hin.
  rewrite Forall_forall in HT. specialize (HT k Hin).
  destruct s as [l|g|g]; [destruct Hs| |]; cbn [src_size skel_of s_up s_low] in E.
  - destruct (_ <? _); [|discriminate]. fold (upper_of k d) in E. apply one_elem in E as ([[j i] c] & E).
    destruct (HT d j i c) as [H _]. rewrite E in H. destruct H as [[H|[]] Hne]; [left; auto|]. congruence.
  - destruct (_ <=? _); [|discriminate]. fold (lower_of k d) in E. apply one_elem in E as ([[j i] c] & E).
    destruct (HT d j i c) as [_ H]. rewrite E in H. destruct H as [[H|[]] Hne]; [left; auto|]. congruence.
Qed.
End Sizes.

(** ** Theorems *)
Lemma frozen_layers {L T} (rule_of : L -> rule V) pdim (st : T -> staged V L) (R : T -> L -> Prop) (ls : list (nat -> T)) mems :
  (forall l mems d, R l (resolve o rule_of (st l) mems d)) ->
  Forall2 (fun l l' => forall d, R (l d) (l' d)) ls (frozen o rule_of pdim mems (map (fun l d => st (l d)) ls)).
Proof.
  intros H. revert mems. induction ls as [|l ls IH]; intros mems; cbn [map frozen]; constructor; auto.
Qed.

Lemma net_forward_convs (m m' : net V) b :
  n_max_dim m = n_max_dim m' -> n_jump m = n_jump m' -> n_pool m = n_pool m' ->
  n_dims m = n_dims m' -> n_lin1 m = n_lin1 m' -> n_mean m = n_mean m' -> n_lin2 m = n_lin2 m' ->
  run_convs (n_max_dim m) (n_pdim m) (n_top m) (n_down m) (n_convs m) (kb_complex b) =
  run_convs (n_max_dim m') (n_pdim m') (n_top m') (n_down m') (n_convs m') (kb_complex b) ->
  net_forward o m b = net_forward o m' b.
Proof.
  intros E1 E2 E3 E4 E5 E6 E7 E. unfold net_forward. rewrite E, E2. clear E. destruct (run_convs _ _ _ _ _ _) as [[K h]|]; [|reflexivity].
  cbn [bind]. destruct (final_xs o (n_jump m') h); [|reflexivity]. cbn [bind]. unfold readout.
  rewrite E1, E3, E4, E5, E6, E7. reflexivity.
Qed.

Lemma tconvs_map {T} (fw : T -> level V) pdim (ls : list (nat -> T)) :
  map (fun l => (map (fun d => fw (l d)) (seq 0 (pdim + 1)), @None (V -> V))) ls = tconvs pdim (map (fun l d => fw (l d)) ls).
Proof. unfold tconvs. rewrite map_map. auto. Qed.

Lemma sparse_resolve (l : tsparse_level V St) mems d :
  freezes_sparse l (resolve o (sparse_rule o) (sparse_staged l) mems d).
Proof.
  unfold sparse_staged.
  match goal with |- context [stages (ts_upd_up l) ?s ?acc ?f] => destruct (resolve_stages (sparse_rule o) (ts_upd_up l) s f acc mems d) as (a & Ha & ->) end.
  match goal with |- context [stages (ts_upd_bnd l) ?s ?acc ?f] => destruct (resolve_stages (sparse_rule o) (ts_upd_bnd l) s f acc mems d) as (b & Hb & ->) end.
  match goal with |- context [stages (ts_comb l) ?s ?acc ?f] => destruct (resolve_stages (sparse_rule o) (ts_comb l) s f acc mems d) as (c & Hc & ->) end.
  exists a, b, c. cbn [resolve]. split; [|split; [|split]]; auto.
Qed.
Lemma cinpp_resolve (l : tcinpp_level V St) mems d :
  freezes_cinpp l (resolve o (cinpp_rule o) (cinpp_staged l) mems d).
Proof.
  unfold cinpp_staged.
  match goal with |- context [stages (tp_upd_up l) ?s ?acc ?f] => destruct (resolve_stages (cinpp_rule o) (tp_upd_up l) s f acc mems d) as (a & Ha & ->) end.
  match goal with |- context [stages (tp_upd_down l) ?s ?acc ?f] => destruct (resolve_stages (cinpp_rule o) (tp_upd_down l) s f acc mems d) as (b & Hb & ->) end.
  match goal with |- context [stages (tp_upd_bnd l) ?s ?acc ?f] => destruct (resolve_stages (cinpp_rule o) (tp_upd_bnd l) s f acc mems d) as (c & Hc & ->) end.
  match goal with |- context [stages (tp_comb l) ?s ?acc ?f] => destruct (resolve_stages (cinpp_rule o) (tp_comb l) s f acc mems d) as (e & He & ->) end.
  exists a, b, c, e. cbn [resolve]. split; [|split; [|split; [|split]]]; auto.
Qed.
Lemma cin_resolve (l : tcin_level V St) mems d :
  freezes_cin l (resolve o (cin_rule o) (cin_staged l) mems d).
Proof.
  unfold cin_staged.
  match goal with |- context [stages (tc_up l) ?s ?acc ?f] => destruct (resolve_stages (cin_rule o) (tc_up l) s f acc mems d) as (a & Ha & ->) end.
  match goal with |- context [stages (tc_down l) ?s ?acc ?f] => destruct (resolve_stages (cin_rule o) (tc_down l) s f acc mems d) as (b & Hb & ->) end.
  match goal with |- context [stages (tc_update l) ?s ?acc ?f] => destruct (resolve_stages (cin_rule o) (tc_update l) s f acc mems d) as (c & Hc & ->) end.
  exists a, b, c. cbn [resolve]. split; [|split; [|split]]; auto.
Qed.

Lemma Forall2_map_both {A B C} (P : B -> C -> Prop) (f : A -> B) (g : A -> C) l :
  Forall (fun a => P (f a) (g a)) l -> Forall2 P (map f l) (map g l).
Proof. induction 1; simpl; constructor; auto. Qed.

(** A pass in training mode over a batch in which no dimension consists of a single cell is a pass
    with certain fixed statistics, and they are the same for every rearrangement of the batch. *)
Theorem C71_frozen (m : net V) ks szs Dm :
  training_net (St := St) o m -> ks <> [] -> Forall2 wf_complex ks szs ->
  (forall d, d <= dims ks Dm -> list_sum (map (fun sz => sz d) szs) <> 1) ->
  (n_down m = true -> Forall two_way ks) ->
  exists m', freezes_net (St := St) o m m' /\
    forall sel ks', rearranged sel ks szs ks' -> Forall (has_features Dm) ks' ->
      exists b', from_complex_list ks' Dm = Ok b' /\ net_forward o m b' = net_forward o m' b'.
Proof.
  intros Hm Hne HW Hsz Hmsg.
  destruct Hm as [md ls jump pool rdims lin1 mean lin2 Hls Hd Hof|md ls jump pool rdims lin1 mean lin2 Hls Hd Hof|md ls jump pool head Hls Hof].
  - set (ts := map (fun (l : nat -> tsparse_level V St) d => sparse_staged (l d)) ls).
    set (lf := frozen o (sparse_rule o) md (mems_of o (Nat.min (list_max (map k_dim ks)) Dm) ks szs) ts).
    exists (sparse_cin o md lf jump pool rdims lin1 mean lin2). split.
    { constructor. apply (frozen_layers (sparse_rule o) md sparse_staged freezes_sparse). apply sparse_resolve. }
    intros sel ks' HR HF.
    destruct (batch_frozen (sparse_rule o) (sparse_forward o) false (fun l => sparse_implements o Hdiv l true false (fun _ => eq_refl)) md
       (map (fun l d => tsparse_forward o (l d)) ls) ts) with (ks := ks) (szs := szs) (Dm := Dm) (sel := sel) (ks' := ks') as (b' & Hb & E); auto.
    + apply Forall2_map_both. rewrite Forall_forall in *. intros l Hl d. split; [apply tsparse_implements; auto|].
      destruct (Hof l Hl d) as (H1 & H2 & H3). unfold sparse_staged.
      apply stages_symmetric; [apply order_free_symmetric; auto|intros a].
      apply stages_symmetric; [apply order_free_symmetric; auto|intros b].
      apply stages_symmetric; [apply order_free_symmetric; auto|intros c]. exact I.
    + intros d Hd1 Hd2. apply Forall_forall. intros t Ht. apply in_map_iff in Ht as (l & <- & Hl). unfold sparse_staged.
      assert (HC : forall c : sparse_level V, sizes_of ks szs Dm (Cells c) d <> 1)
        by (intros c; rewrite sizes_cells by auto; apply Hsz; auto).
      apply stages_fine_by; [intros; apply HC|intros a]. apply stages_fine_by; [intros; apply HC|intros b].
      apply stages_fine_by; [intros; apply HC|intros c]. exact I.
    + exists b'. split; auto. apply net_forward_convs; auto. cbn [tsparse_cin sparse_cin n_max_dim n_pdim n_top n_down n_convs].
      rewrite tconvs_map. exact E.
  - set (ts := map (fun (l : nat -> tcinpp_level V St) d => cinpp_staged (l d)) ls).
    set (lf := frozen o (cinpp_rule o) md (mems_of o (Nat.min (list_max (map k_dim ks)) Dm) ks szs) ts).
    exists (cinpp o md lf jump pool rdims lin1 mean lin2). split.
    { constructor. apply (frozen_layers (cinpp_rule o) md cinpp_staged freezes_cinpp). apply cinpp_resolve. }
    intros sel ks' HR HF.
    destruct (batch_frozen (cinpp_rule o) (cinpp_forward o) false (fun l => cinpp_implements o Hdiv l true false (fun _ => eq_refl)) md
       (map (fun l d => tcinpp_forward o (l d)) ls) ts) with (ks := ks) (szs := szs) (Dm := Dm) (sel := sel) (ks' := ks') as (b' & Hb & E); auto.
    + apply Forall2_map_both. rewrite Forall_forall in *. intros l Hl d. split; [apply tcinpp_implements; auto|].
      destruct (Hof l Hl d) as (H1 & H2 & H3 & H4). unfold cinpp_staged.
      apply stages_symmetric; [apply order_free_symmetric; auto|intros a].
      apply stages_symmetric; [apply order_free_symmetric; auto|intros b].
      apply stages_symmetric; [apply order_free_symmetric; auto|intros c].
      apply stages_symmetric; [apply order_free_symmetric; auto|intros e]. exact I.
    + intros d Hd1 Hd2. apply Forall_forall. intros t Ht. apply in_map_iff in Ht as (l & <- & Hl). unfold cinpp_staged.
      assert (HC : forall c : cinpp_level V, sizes_of ks szs Dm (Cells c) d <> 1)
        by (intros c; rewrite sizes_cells by auto; apply Hsz; auto).
      apply stages_fine_by; [intros; apply HC|intros a]. apply stages_fine_by; [intros; apply HC|intros b].
      apply stages_fine_by; [intros; apply HC|intros c]. apply stages_fine_by; [intros; apply HC|intros e]. exact I.
    + exists b'. split; auto. apply net_forward_convs; auto. cbn [tcinpp cinpp n_max_dim n_pdim n_top n_down n_convs].
      rewrite tconvs_map. exact E.
  - set (ts := map (fun (l : nat -> tcin_level V St) d => cin_staged (l d)) ls).
    set (lf := frozen o (cin_rule o) md (mems_of o (Nat.min (list_max (map k_dim ks)) Dm) ks szs) ts).
    exists (cin0 o md lf jump pool head). split.
    { constructor. apply (frozen_layers (cin_rule o) md cin_staged freezes_cin). apply cin_resolve. }
    intros sel ks' HR HF.
    destruct (batch_frozen (cin_rule o) (cin_forward o) true (fun l => cin_implements o Hdiv l true) md
       (map (fun l d => tcin_forward o (l d)) ls) ts) with (ks := ks) (szs := szs) (Dm := Dm) (sel := sel) (ks' := ks') as (b' & Hb & E); auto.
    + apply Forall2_map_both. rewrite Forall_forall in *. intros l Hl d. split; [apply tcin_implements; auto|].
      destruct (Hof l Hl d) as (H1 & H2 & H3). unfold cin_staged.
      apply stages_symmetric; [apply order_free_symmetric; auto|intros a].
      apply stages_symmetric; [apply order_free_symmetric; auto|intros b].
      apply stages_symmetric; [apply order_free_symmetric; auto|intros c]. exact I.
    + intros d Hd1 Hd2. apply Forall_forall. intros t Ht. apply in_map_iff in Ht as (l & <- & Hl). unfold cin_staged.
      assert (HC : forall c : cin_level V, sizes_of ks szs Dm (Cells c) d <> 1)
        by (intros c; rewrite sizes_cells by auto; apply Hsz; auto).
      apply stages_fine_by; [intros; apply sizes_msgs; auto; apply Hmsg; auto|intros a].
      apply stages_fine_by; [intros; apply sizes_msgs; auto; apply Hmsg; auto|intros b].
      apply stages_fine_by; [intros; apply HC|intros c]. exact I.
    + exists b'. split; auto. apply net_forward_convs; auto. cbn [tcin0 cin0 n_max_dim n_pdim n_top n_down n_convs].
      rewrite tconvs_map. exact E.
Qed.


Lemma iso_refl (k : complex) sz : isomorphic sz k k.
Proof.
  exists (fun _ i => i). split; auto; intros d.
  - replace (map _ (upper_of k d)) with (upper_of k d); auto. rewrite <- map_id at 1. apply map_ext. intros [[a b] c]; auto.
  - replace (map _ (lower_of k d)) with (lower_of k d); auto. rewrite <- map_id at 1. apply map_ext. intros [[a b] c]; auto.
  - replace (map _ (boundary_of k d)) with (boundary_of k d); auto. rewrite <- map_id at 1. apply map_ext. intros [a b]; auto.
Qed.

Lemma rearranged_self (ks : list complex) szs : Forall2 wf_complex ks szs -> rearranged (V := V) (seq 0 (length ks)) ks szs ks.
Proof.
  intros HW. split; auto.
  assert (G : forall l i, (forall j k, nth_error l j = Some k -> exists sz, nth_error ks (i + j) = Some k /\
              nth_error szs (i + j) = Some sz /\ wf_complex k sz) ->
     Forall2 (fun i k' => exists k sz, nth_error ks i = Some k /\ nth_error szs i = Some sz /\ isomorphic sz k k' /\ wf_complex k' sz)
       (seq i (length l)) l).
  { induction l as [|k l IH]; intros i H; cbn [length seq]; constructor.
    - destruct (H 0 k eq_refl) as (sz & H1 & H2 & W). rewrite Nat.add_0_r in *. exists k, sz. split; [|split; [|split]]; auto. apply iso_refl.
    - apply IH. intros j k' Hj. destruct (H (S j) k' Hj) as (sz & H1 & H2 & W). rewrite Nat.add_succ_r in *. exists sz; auto. }
  apply (G ks 0). intros j k Hj. destruct (Forall2_nth_error_l _ _ _ HW _ _ Hj) as (sz & Es & W). exists sz; auto.
Qed.

Lemma freezes_net_arch (m m' : net V) : training_net (St := St) o m -> freezes_net (St := St) o m m' -> exists a, net_ok o m' a.
Proof.
  intros Ht Hf.
  assert (G : forall A B (P : A -> B -> Prop) l l', l <> [] -> Forall2 P l l' -> l' <> []).
  { intros A B P l l' Hn HF E. subst. inversion HF; subst. congruence. }
  assert (N : n_convs m <> [] /\ (n_dims m <> [])).
  { destruct Ht as [md ls jump pool rdims lin1 mean lin2 Hls Hd _|md ls jump pool rdims lin1 mean lin2 Hls Hd _|md ls jump pool head Hls _];
      cbn [tsparse_cin tcinpp tcin0 n_convs n_dims]; (split; [apply map_ne; auto|]); try (apply filter_le_nonempty; auto). apply seq_ne. }
  destruct N as [N1 N2].
  assert (E : forall md (rd : list nat), filter (fun d => d <=? md) rd <> [] -> exists d, In d rd /\ d <= md).
  { intros md rd H. destruct (filter _ rd) as [|d r] eqn:E; [congruence|]. exists d.
    assert (In d (filter (fun d => d <=? md) rd)) as Hin by (rewrite E; left; auto).
    apply filter_In in Hin as [H1 H2]. apply Nat.leb_le in H2. auto. }
  destruct Hf as [md ls ls' jump pool rdims lin1 mean lin2 HF|md ls ls' jump pool rdims lin1 mean lin2 HF|md ls ls' jump pool head HF];
    cbn [tsparse_cin tcinpp tcin0 n_convs n_dims] in N1, N2.
  - eexists. apply sparse_ok; auto. eapply G; [|exact HF]. intros ->; auto.
  - eexists. apply cinpp_ok; auto. eapply G; [|exact HF]. intros ->; auto.
  - eexists. apply cin0_ok; auto. eapply G; [|exact HF]. intros ->; auto.
Qed.

(** Rearranging a batch (another order of the members, other numberings of their cells) rearranges
    the predictions in training mode, too. *)
Theorem C71_rearranged (m : net V) ks szs Dm sel ks' :
  training_net (St := St) o m -> ks <> [] -> Forall2 wf_complex ks szs ->
  (forall d, d <= dims ks Dm -> list_sum (map (fun sz => sz d) szs) <> 1) ->
  (n_down m = true -> Forall two_way ks) ->
  Forall (has_features Dm) ks -> Forall (has_features Dm) ks' -> Forall (fun sz => 0 < sz 0) szs ->
  rearranged sel ks szs ks' ->
  exists b out bo b' out' bo',
    from_complex_list ks Dm = Ok b /\ net_forward o m b = Ok (out, bo) /\ length out = length ks /\
    from_complex_list ks' Dm = Ok b' /\ net_forward o m b' = Ok (out', bo') /\
    Forall2 (fun i v => nth_error out i = Some v) sel out'.
Proof.
  intros Hm Hne HW Hsz Hmsg HF HF' Hpos HR.
  destruct (C71_frozen m ks szs Dm Hm Hne HW Hsz Hmsg) as (m' & Hz & HA).
  destruct (freezes_net_arch m m' Hm Hz) as [a Ha].
  destruct (HA _ _ (rearranged_self ks szs HW) HF) as (b & Hb & Eb).
  destruct (HA _ _ HR HF') as (b' & Hb' & Eb').
  destruct (forward_list o Hdiv m' a ks szs Dm Ha Hne HW HF Hpos) as (b1 & bo & Hb1 & Hf1).
  assert (b1 = b) by congruence. subst b1.
  destruct (rearranged_pairs sel ks szs ks' HW HR) as (szs' & qs & HW' & HP & HQ & HS).
  assert (Hne' : ks' <> []).
  { intros E. destruct HR as [HP' HF2]. apply Forall2_length in HF2. apply Permutation_length in HP'.
    rewrite E, HP', seq_length in HF2. apply Hne. apply length_zero_iff_nil. auto. }
  assert (Hpos' : Forall (fun sz => 0 < sz 0) szs').
  { apply Forall_forall. intros sz Hsz'. apply In_nth_error in Hsz' as [j Hj].
    destruct (Forall2_nth_error _ _ _ HW' _ _ Hj) as (k' & Ek' & _).
    assert (Hc : nth_error (combine ks' szs') j = Some (k', sz)) by (rewrite nth_error_combine, Ek', Hj; auto).
    destruct (Forall2_nth_error _ _ _ HQ _ _ Hc) as ([k sz1] & Eq & (E1 & _ & _)). cbn [snd] in E1. subst sz1.
    apply nth_error_In in Eq. apply (Permutation_in _ HP) in Eq. apply in_combine_r in Eq.
    rewrite Forall_forall in Hpos. auto. }
  destruct (forward_list o Hdiv m' a ks' szs' Dm Ha Hne' HW' HF' Hpos') as (b2 & bo' & Hb2 & Hf2).
  assert (b2 = b') by congruence. subst b2.
  exists b. eexists. exists bo, b'. eexists. exists bo'. split; auto. split; [rewrite Eb; exact Hf1|].
  split. { rewrite map_length, combine_length, (Forall2_length HW), Nat.min_id. auto. }
  split; auto. split; [rewrite Eb'; exact Hf2|].
  assert (Hwf : Forall (fun q : complex * (nat -> nat) => wf_complex (fst q) (snd q)) qs).
  { apply Forall_forall. intros [k sz] Hin. apply (Permutation_in _ HP) in Hin. apply In_nth_error in Hin as [i Hi].
    rewrite nth_error_combine in Hi. destruct (nth_error ks i) as [k0|] eqn:Ek; [|discriminate].
    destruct (nth_error szs i) as [sz0|] eqn:Es; [|discriminate]. injection Hi as -> ->. apply (Wk ks szs HW i k sz Ek Es). }
  set (C := combine ks' szs') in *. clearbody C.
  clear -HQ HS Hwf Ho. revert C HQ Hwf. induction HS as [|i q sel qs Hi HS IH]; intros C HQ Hwf; inversion HQ; subst; cbn [map]; constructor.
  - rewrite nth_error_map, Hi. cbn [option_map]. f_equal. destruct q as [k sz], y as [k' sz'].
    destruct H1 as (E & [pi Hpi] & W'). cbn [fst snd] in *. subst sz'. inversion Hwf; subst.
    apply (predict_iso o Ho pi sz k k' Dm); auto.
  - apply IH; auto. inversion Hwf; auto.
Qed.

(** The guard of the training loop (exp/train_utils.py:37-46) suffices: on a batch that is used no
    normalisation refuses its input. *)
Theorem C71_guard (m : net V) ks szs Dm :
  training_net (St := St) o m -> ks <> [] -> Forall2 wf_complex ks szs ->
  (n_down m = true -> Forall two_way ks) ->
  Forall (has_features Dm) ks -> Forall (fun sz => 0 < sz 0) szs ->
  exists b n, from_complex_list ks Dm = Ok b /\ num_samples b = Ok n /\
    (2 <= n -> exists out bo, net_forward o m b = Ok (out, bo) /\ length out = length ks).
Proof.
  intros Hm Hne HW Hmsg HF Hpos.
  destruct (C57_used ks szs Dm Hne HW) as (b & n & Hb & Hn & Hiff).
  { intros d Hd. left. intros k c Hk Hc. rewrite Forall_forall in HF. apply (HF k Hk d c); auto. unfold dims in Hd. lia. }
  { intros k Hk. apply In_nth_error in Hk as [i Hi]. destruct (Forall2_nth_error_l _ _ _ HW _ _ Hi) as (sz & _ & W).
    destruct (nth_error (k_cochains k) 0) as [c|] eqn:Ec.
    - unfold attr. rewrite Ec. rewrite Forall_forall in HF. apply (HF k (nth_error_In _ _ Hi) 0 c); auto. lia.
    - apply nth_error_None in Ec. rewrite (wfk_len _ _ W) in Ec. lia. }
  exists b, n. split; auto. split; auto. intros H2. apply Hiff in H2.
  destruct (C71_rearranged m ks szs Dm (seq 0 (length ks)) ks Hm Hne HW) as (b0 & out & bo & _ & _ & _ & Hb0 & Hf & Hl & _); auto.
  - intros d Hd. specialize (H2 d Hd). lia.
  - apply rearranged_self; auto.
  - assert (b0 = b) by congruence. subst b0. exists out, bo. auto.
Qed.


(** The guard is needed: a single cell of a dimension that the first layer normalises raises. *)
Theorem C71_single_cell (m : net V) ks szs Dm d :
  normalises_cells (St := St) o m d -> ks <> [] -> Forall2 wf_complex ks szs -> Forall (has_features Dm) ks ->
  d <= dims ks Dm -> list_sum (map (fun sz => sz d) szs) = 1 ->
  exists b, from_complex_list ks Dm = Ok b /\ net_forward o m b = Err ValueError.
Proof.
  intros Hm Hne HW HF Hd H1. unfold dims in Hd. set (D := Nat.min (list_max (map k_dim ks)) Dm) in *.
  destruct (from_complex_list_is_batch ks szs Dm Hne HW) as (b & Hb & HB & _).
  { intros e He. left. intros k c Hk Hc. rewrite Forall_forall in HF. apply (HF k Hk e c); auto. lia. }
  fold D in HB. exists b. split; auto. pose proof (ib_complex _ _ _ _ HB) as HU.
  assert (Hpres : forall d, d <= D -> exists k, In k ks /\ d <= k_dim k).
  { intros e He. assert (Hin : In (list_max (map k_dim ks)) (map k_dim ks)).
    { apply list_max_exists. destruct ks; [congruence|discriminate]. }
    apply in_map_iff in Hin as (k & Ek & Hk). exists k; split; auto. unfold D in He. lia. }
  assert (HFD : Forall (has_features D) ks).
  { rewrite Forall_forall in *. intros k Hk e c He Hc. apply (HF k Hk e c); auto. unfold D in He; lia. }
  pose proof (batch_represents o ks szs D (kb_complex b) HW HU Hpres HFD) as HR.
  pose proof (SB_ok ks szs D (kb_complex b) HW HU) as HS.
  set (SB := skel_of D (kb_complex b) (total szs)) in *.
  assert (Hn : s_n SB d = 1) by (unfold SB; rewrite (SB_n ks szs D (kb_complex b) HU) by auto; exact H1).
  assert (Hsd : d <= s_dim SB) by (unfold SB; rewrite (SB_dim ks szs D (kb_complex b) HU); auto).
  assert (Hrun : run_convs (n_max_dim m) (n_pdim m) (n_top m) (n_down m) (n_convs m) (kb_complex b) = Err ValueError).
  { destruct Hm as [md l ls jump pool rdims lin1 mean lin2 d Hdm Hn'|md l ls jump pool rdims lin1 mean lin2 d Hdm Hn'|md l ls jump pool head d Hdm Hn'];
      cbn [tsparse_cin tcinpp tcin0 n_max_dim n_pdim n_top n_down n_convs]; rewrite tconvs_map; cbn [map].
    - apply (run_raises o (sparse_rule o) false md (fun d => tsparse_forward o (l d)) _ (fun d => sparse_staged (l d)) _ SB (feats_of o (kb_complex b)) d); auto.
      { intros e. apply tsparse_implements; auto. }
      unfold sparse_staged. destruct Hn' as [Hn'|[Hn'|Hn']].
      + apply ran_stages_err; auto.
      + apply ran_stages_later; intros a. apply ran_stages_err; auto.
      + apply ran_stages_later; intros a. apply ran_stages_later; intros a'. apply ran_stages_err; auto.
    - apply (run_raises o (cinpp_rule o) false md (fun d => tcinpp_forward o (l d)) _ (fun d => cinpp_staged (l d)) _ SB (feats_of o (kb_complex b)) d); auto.
      { intros e. apply tcinpp_implements; auto. }
      unfold cinpp_staged. destruct Hn' as [Hn'|[Hn'|[Hn'|Hn']]].
      + apply ran_stages_err; auto.
      + apply ran_stages_later; intros a. apply ran_stages_err; auto.
      + apply ran_stages_later; intros a. apply ran_stages_later; intros a'. apply ran_stages_err; auto.
      + do 3 (apply ran_stages_later; intros ?). apply ran_stages_err; auto.
    - apply (run_raises o (cin_rule o) true md (fun d => tcin_forward o (l d)) _ (fun d => cin_staged (l d)) _ SB (feats_of o (kb_complex b)) d); auto.
      { intros e. apply tcin_implements; auto. }
      unfold cin_staged. apply ran_stages_later; intros a. apply ran_stages_later; intros a'. apply ran_stages_err; auto. }
  unfold net_forward. rewrite Hrun. reflexivity.
Qed.


Fixpoint thaw (ls : list (nn_layer V St)) (v : V) : V :=
  match ls with [] => v | RowFun f :: ls' => thaw ls' (f v) | BatchNorm _ _ :: ls' => thaw ls' v end.

Lemma thaw_ok (ls : list (nn_layer V St)) : ~ has_norm ls ->
  freezes ls (thaw ls) /\ forall t, apply_nn ls t = Ok (map (thaw ls) t).
Proof.
  induction ls as [|l ls IH]; intros Hn; cbn [apply_nn].
  - split; [constructor|]. intros t. cbn [thaw]. rewrite map_id. auto.
  - destruct IH as (Ha & E). { intros (st & f & H). apply Hn. exists st, f. right; auto. }
    destruct l as [f|st f]; [|exfalso; apply Hn; exists st, f; left; auto].
    split; [apply (fz_row f ls (thaw ls)); auto|]. intros t. cbn [apply_nn_layer bind]. rewrite E, map_map. auto.
Qed.

Lemma convs_ext {T T'} (fw : T -> level V) (fw' : T' -> level V) (g : T -> T') (P : T -> Prop) mx pd tp dn md ls :
  (forall l p, P l -> fw l p = fw' (g l) p) -> Forall (fun l => forall d, P (l d)) ls -> forall K,
  run_convs mx pd tp dn (map (fun l => (map (fun d : nat => fw (l d)) (seq 0 (md + 1)), None)) ls) K =
  run_convs mx pd tp dn (map (fun l => (map (fun d : nat => fw' (l d)) (seq 0 (md + 1)), None)) (map (fun l d => g (l d)) ls)) K.
Proof.
  intros HE. induction ls as [|l ls IH]; intros HF K; [reflexivity|]. inversion HF; subst. cbn [map run_convs].
  destruct (get_all_cochain_params K pd tp dn true) as [ps|]; [|reflexivity]. cbn [bind].
  assert (E : forall ds ps, apply_levels (map (fun d => fw (l d)) ds) ps = apply_levels (map (fun d => fw' (g (l d))) ds) ps).
  { induction ds as [|d ds IHd]; intros [|p ps']; cbn [map apply_levels]; auto. rewrite (HE _ p (H1 d)). rewrite IHd. reflexivity. }
  unfold conv_forward. rewrite E. destruct (assert_ _); [|reflexivity]. cbn [bind].
  destruct (apply_levels (map (fun d => fw' (g (l d))) (seq 0 (md + 1))) ps) as [xs|]; [|reflexivity]. cbn [bind].
  destruct (set_xs K xs) as [K'|]; [|reflexivity]. cbn [bind]. rewrite IH; auto.
Qed.

Lemma zip_checked_map f xj a (h : V -> V) :
  (let* out := zip_checked f xj a in Ok (map h out)) = zip_checked (fun x y => h (f x y)) xj a.
Proof. unfold zip_checked, zipw. destruct (length xj =? length a); cbn [bind]; [rewrite map_map|]; auto. Qed.

Lemma zipw_map {A B} (h : V -> V) (f : A -> B -> V) a b : map h (zipw f a b) = zipw (fun x y => h (f x y)) a b.
Proof. unfold zipw. apply map_map. Qed.

(** Without batch normalisation training and evaluation mode agree on every batch. *)
Theorem C71_no_norm (m : net V) : norm_free (St := St) o m ->
  exists m', freezes_net (St := St) o m m' /\ forall b, net_forward o m b = net_forward o m' b.
Proof.
  intros [md ls jump pool rdims lin1 mean lin2 HF|md ls jump pool rdims lin1 mean lin2 HF|md ls jump pool head HF].
  - set (g := fun l : tsparse_level V St => mkSparseLevel (ts_up l) (ts_bnd l) (thaw (ts_upd_up l)) (thaw (ts_upd_bnd l))
        (fun u w => thaw (ts_comb l) (ts_cat l u w)) (ts_s1 l) (ts_s2 l)).
    exists (sparse_cin o md (map (fun l d => g (l d)) ls) jump pool rdims lin1 mean lin2). split.
    + constructor. induction HF as [|l ls Hl HF IH]; constructor; auto. intros d. destruct (Hl d) as (H1 & H2 & H3).
      exists (thaw (ts_upd_up (l d))), (thaw (ts_upd_bnd (l d))), (thaw (ts_comb (l d))). repeat split; try apply thaw_ok; auto.
    + intros b. apply net_forward_convs; auto. cbn [tsparse_cin sparse_cin n_max_dim n_pdim n_top n_down n_convs].
      apply (convs_ext (tsparse_forward o) (sparse_forward o) g (fun l => ~ has_norm (ts_upd_up l) /\ ~ has_norm (ts_upd_bnd l) /\ ~ has_norm (ts_comb l)) md md true false md ls) with (2 := HF).
      intros l p (H1 & H2 & H3). unfold tsparse_forward, sparse_forward, sparse_cfg, g. cbn [sp_up sp_bnd sp_s1 sp_s2 sp_upd_up sp_upd_bnd sp_comb].
      destruct (propagate o _ p) as [[[up dn] bnd]|]; [|reflexivity]. cbn [bind].
      rewrite (proj2 (thaw_ok _ H1)). cbn [bind]. rewrite (proj2 (thaw_ok _ H2)). cbn [bind].
      rewrite (proj2 (thaw_ok _ H3)). rewrite zipw_map. reflexivity.
  - set (g := fun l : tcinpp_level V St => mkCinppLevel (tp_up l) (tp_down l) (tp_bnd l) (thaw (tp_upd_up l)) (thaw (tp_upd_down l)) (thaw (tp_upd_bnd l))
        (fun u v w => thaw (tp_comb l) (tp_cat l u v w)) (tp_s1 l) (tp_s2 l) (tp_s3 l)).
    exists (cinpp o md (map (fun l d => g (l d)) ls) jump pool rdims lin1 mean lin2). split.
    + constructor. induction HF as [|l ls Hl HF IH]; constructor; auto. intros d. destruct (Hl d) as (H1 & H2 & H3 & H4).
      exists (thaw (tp_upd_up (l d))), (thaw (tp_upd_down (l d))), (thaw (tp_upd_bnd (l d))), (thaw (tp_comb (l d))). repeat split; try apply thaw_ok; auto.
    + intros b. apply net_forward_convs; auto. cbn [tcinpp cinpp n_max_dim n_pdim n_top n_down n_convs].
      apply (convs_ext (tcinpp_forward o) (cinpp_forward o) g (fun l => ~ has_norm (tp_upd_up l) /\ ~ has_norm (tp_upd_down l) /\ ~ has_norm (tp_upd_bnd l) /\ ~ has_norm (tp_comb l)) md md true false md ls) with (2 := HF).
      intros l p (H1 & H2 & H3 & H4). unfold tcinpp_forward, cinpp_forward, cinpp_cfg, g. cbn [pp_up pp_down pp_bnd pp_s1 pp_s2 pp_s3 pp_upd_up pp_upd_down pp_upd_bnd pp_comb].
      destruct (propagate o _ p) as [[[up dn] bnd]|]; [|reflexivity]. cbn [bind].
      rewrite (proj2 (thaw_ok _ H1)). cbn [bind]. rewrite (proj2 (thaw_ok _ H2)). cbn [bind].
      rewrite (proj2 (thaw_ok _ H3)). cbn [bind]. rewrite (proj2 (thaw_ok _ H4)). rewrite zipw_map. reflexivity.
  - set (g := fun l : tcin_level V St => mkCinLevel (fun v => thaw (tc_up l) (tc_up_g l v)) (fun x y => thaw (tc_up l) (tc_up_f l x y))
        (fun x y => thaw (tc_down l) (tc_down_f l x y)) (thaw (tc_update l)) (tc_scale l)).
    exists (cin0 o md (map (fun l d => g (l d)) ls) jump pool head). split.
    + constructor. induction HF as [|l ls Hl HF IH]; constructor; auto. intros d. destruct (Hl d) as (H1 & H2 & H3).
      exists (thaw (tc_up (l d))), (thaw (tc_down (l d))), (thaw (tc_update (l d))). repeat split; try apply thaw_ok; auto.
    + intros b. apply net_forward_convs; auto. cbn [tcin0 cin0 n_max_dim n_pdim n_top n_down n_convs].
      apply (convs_ext (tcin_forward o) (cin_forward o) g (fun l => ~ has_norm (tc_up l) /\ ~ has_norm (tc_down l) /\ ~ has_norm (tc_update l)) md md true true md ls) with (2 := HF).
      intros l p (H1 & H2 & H3). unfold tcin_forward, cin_forward, propagate, cin_cfg, g, the_x.
      cbn [ci_up_g ci_up_f ci_down_f ci_scale ci_update g_down g_bnd g_msg_up g_msg_down g_aggr_up g_aggr_down].
      destruct (p_x p) as [x|]; [|reflexivity].
      assert (EU : forall u n, tmessage_and_aggregate o (MsgOpt (tc_up_g l) (tc_up_f l)) (tc_up l) u x (p_up_attr p) n =
        message_and_aggregate o (MsgOpt (fun v => thaw (tc_up l) (tc_up_g l v)) (fun x y => thaw (tc_up l) (tc_up_f l x y))) RAdd u x (p_up_attr p) n).
      { intros u n. unfold tmessage_and_aggregate, message_and_aggregate. destruct (index_select x (map fst u)) as [xj|]; [|reflexivity].
        cbn [bind apply_msg]. destruct (p_up_attr p) as [a|].
        - rewrite <- zip_checked_map. destruct (zip_checked (tc_up_f l) xj a); [|reflexivity]. cbn [bind]. rewrite (proj2 (thaw_ok _ H1)). reflexivity.
        - cbn [bind]. rewrite (proj2 (thaw_ok _ H1)), map_map. reflexivity. }
      assert (ED : forall u n, tmessage_and_aggregate o (MsgCat (tc_down_f l)) (tc_down l) u x (p_down_attr p) n =
        message_and_aggregate o (MsgCat (fun x y => thaw (tc_down l) (tc_down_f l x y))) RAdd u x (p_down_attr p) n).
      { intros u n. unfold tmessage_and_aggregate, message_and_aggregate. destruct (index_select x (map fst u)) as [xj|]; [|reflexivity].
        cbn [bind apply_msg]. destruct (p_down_attr p) as [a|]; [|reflexivity].
        rewrite <- zip_checked_map. destruct (zip_checked (tc_down_f l) xj a); [|reflexivity]. cbn [bind]. rewrite (proj2 (thaw_ok _ H2)). reflexivity. }
      destruct (p_up p) as [u|]; [rewrite EU; destruct (message_and_aggregate o _ RAdd u x _ _) as [up|]; [|reflexivity]|]; cbn [bind];
        (destruct (p_down p) as [w|]; [rewrite ED; destruct (message_and_aggregate o _ RAdd w x _ _) as [dn|]; [|reflexivity]|]; cbn [bind];
        rewrite (proj2 (thaw_ok _ H3)); reflexivity).
Qed.

End Gen.

(** The adjacencies of lifted complexes (C70_clique_lift, C70_ring_lift) are symmetric. *)
Theorem C71_cellular_two_way {V} down (k : complex V) sz : cellular down k sz -> two_way k.
Proof.
  intros HC d j i c. rewrite !(cl_up _ _ _ HC), !(cl_low _ _ _ HC). split; [intros (N & A & B)|intros (Hd & N & A & B)]; repeat split; auto.
Qed.

(** ** Examples and a counterexample *)
Lemma trio_two_way k : In k [house; point; path3; path3'] -> two_way k.
Proof.
  intros Hk.
  assert (G : forall l : list (nat * nat * nat),
     forallb (fun e => match e with ((j, i), c) => existsb (fun e' => match e' with ((j', i'), c') => (j' =? i) && (i' =? j) && (c' =? c) end) l && negb (i =? j) end) l = true ->
     forall j i c, In ((j, i), c) l -> In ((i, j), c) l /\ i <> j).
  { intros l H j i c Hin. rewrite forallb_forall in H. apply H in Hin. apply andb_true_iff in Hin as [H1 H2].
    apply existsb_exists in H1 as ([[j' i'] c'] & Hin & E). apply andb_true_iff in E as [E E3]. apply andb_true_iff in E as [E1 E2].
    apply Nat.eqb_eq in E1, E2, E3. subst. apply negb_true_iff, Nat.eqb_neq in H2. auto. }
  intros d j i c. destruct Hk as [<-|[<-|[<-|[<-|[]]]]]; destruct d as [|[|[|d]]]; split; apply G; try reflexivity; destruct d; reflexivity.
Qed.

(** BatchNorm without scaling: subtract the sum of the column. *)
Definition ex_norm : nn_layer Z Z := BatchNorm (fun l => fold_right Z.add 0%Z l) (fun c v => (v - c)%Z).
Lemma ex_norm_order_free ls : Forall (fun l => l = ex_norm \/ exists f, l = RowFun f) ls -> order_free ls.
Proof.
  intros HF st f T T' Hin HP. rewrite Forall_forall in HF. destruct (HF _ Hin) as [E|[g E]]; [|discriminate].
  injection E as -> _. clear -HP. induction HP; simpl; lia.
Qed.
Definition ex_tsparse (d : nat) : tsparse_level Z Z :=
  mkTSparse (MsgFst (fun v => v)) (fun v => v) [RowFun (fun v => 2 * v)%Z; ex_norm; RowFun (Z.max 0)] [ex_norm] (fun u w => u + 3 * w)%Z [ex_norm; RowFun (Z.max 0)]
    (fun v => v) (fun v => v).
Definition ex_tcin (d : nat) : tcin_level Z Z :=
  mkTCin (fun v => v) (fun x y => x + y)%Z [ex_norm] (fun x y => x - y)%Z [ex_norm; RowFun (Z.max 0)] [RowFun (fun v => 2 * v)%Z; ex_norm] (fun v => v).
Definition ex_tnet : net Z := tsparse_cin Zops 2 [ex_tsparse; ex_tsparse] None RAdd [0;1;2] (fun d v => v)%Z false (fun v => v)%Z.
Definition ex_tnet0 : net Z := tcin0 Zops 2 [ex_tcin; ex_tcin] (Some (fun l => fold_left Z.add l 0%Z)) RAdd (fun v => v)%Z.

Lemma ex_training : training_net (St := Z) Zops ex_tnet /\ training_net (St := Z) Zops ex_tnet0.
Proof.
  split.
  - apply tn_sparse; [discriminate|exists 0; simpl; split; auto; lia|].
    apply Forall_forall. intros l Hl d. assert (l = ex_tsparse) as -> by (destruct Hl as [<-|[<-|[]]]; auto).
    repeat split; apply ex_norm_order_free; repeat (apply Forall_cons; [eauto|]); auto.
  - apply tn_cin0; [discriminate|].
    apply Forall_forall. intros l Hl d. assert (l = ex_tcin) as -> by (destruct Hl as [<-|[<-|[]]]; auto).
    repeat split; apply ex_norm_order_free; repeat (apply Forall_cons; [eauto|]); auto.
Qed.

Definition four : list (complex Z) := [house; path3; house; point].
Definition four_sz := [house_sz; path3_sz; house_sz; point_sz].
Lemma four_hyps : four <> [] /\ Forall2 wf_complex four four_sz /\ Forall two_way four /\
  (forall d, d <= dims four 2 -> list_sum (map (fun sz => sz d) four_sz) <> 1) /\ Forall (fun sz => 0 < sz 0) four_sz.
Proof.
  split; [discriminate|]. split.
  { repeat apply Forall2_cons; auto using house_wf, path3_wf, point_wf. }
  split. { apply Forall_forall. intros k Hk. apply trio_two_way. simpl in *. tauto. }
  split; [|repeat constructor]. intros d. change (dims four 2) with 2. intros Hd. destruct d as [|[|[|d]]]; [discriminate|discriminate|discriminate|lia].
Qed.

Definition four' : list (complex Z) := [point; path3'; house; house].
Lemma four_rearranged : rearranged [3; 1; 0; 2] four four_sz four'.
Proof.
  split.
  - apply Permutation_sym. apply (Permutation_trans (l' := [3; 0; 1; 2])); [|apply perm_skip, perm_swap].
    apply Permutation_sym. apply (Permutation_middle [0; 1; 2] [] 3).
  - repeat apply Forall2_cons; auto; eexists; eexists; (split; [reflexivity|]); (split; [reflexivity|]);
      (split; [try apply iso_refl|auto using house_wf, path3'_wf, point_wf]). exists path_pi. apply path_iso.
Qed.

Lemma four_features D : Forall (has_features D) four /\ Forall (has_features D) four'.
Proof.
  pose proof (trio_features D) as H. unfold trio in H. rewrite !Forall_cons_iff in H. destruct H as (H1 & H2 & H3 & _).
  split; repeat apply Forall_cons; auto. apply path_features.
Qed.

Example C71_ex_rearranged : exists b out bo b' out' bo',
  from_complex_list four 2 = Ok b /\ net_forward Zops ex_tnet0 b = Ok (out, bo) /\ length out = 4 /\
  from_complex_list four' 2 = Ok b' /\ net_forward Zops ex_tnet0 b' = Ok (out', bo') /\
  Forall2 (fun i v => nth_error out i = Some v) [3; 1; 0; 2] out'.
Proof.
  destruct four_hyps as (H1 & H2 & H3 & H4 & H5).
  apply (C71_rearranged Zops Zops_ok (St := Z)) with (szs := four_sz); auto; try apply four_features.
  - apply ex_training.
  - apply four_rearranged.
Qed.

Lemma ex_run ks n v l :
  (let* b := from_complex_list ks 2 in let* n := num_samples b in let* (out, _) := net_forward Zops ex_tnet b in Ok (n, hd 0%Z out, length out)) = Ok (n, v, S l) ->
  exists b out bo, from_complex_list ks 2 = Ok b /\ num_samples b = Ok n /\ net_forward Zops ex_tnet b = Ok (out, bo) /\ nth_error out 0 = Some v.
Proof.
  destruct (from_complex_list ks 2) as [b|]; [|discriminate]. cbn [bind].
  destruct (num_samples b) as [n0|] eqn:En; [|discriminate]. cbn [bind].
  destruct (net_forward Zops ex_tnet b) as [[out bo]|] eqn:Ef; [|discriminate]. cbn [bind]. intros H. injection H as -> Hv Hl.
  exists b, out, bo. repeat split; auto. destruct out; [discriminate|]. cbn in *. congruence.
Qed.

(** In training mode a prediction is not a function of the complex alone: batching the house with
    other members changes its prediction, although both batches are used by the training loop. *)
Theorem C71_batch_dependence_refuted :
  exists (m : net Z) (ks ks' : list (complex Z)) b b' n n' out out' bo bo' v v',
    training_net (St := Z) Zops m /\ nth_error ks 0 = nth_error ks' 0 /\
    from_complex_list ks 2 = Ok b /\ from_complex_list ks' 2 = Ok b' /\
    num_samples b = Ok n /\ num_samples b' = Ok n' /\ 2 <= n /\ 2 <= n' /\
    net_forward Zops m b = Ok (out, bo) /\ net_forward Zops m b' = Ok (out', bo') /\
    nth_error out 0 = Some v /\ nth_error out' 0 = Some v' /\ v <> v'.
Proof.
  exists ex_tnet, four, [house; house].
  edestruct (ex_run four) as (b & out & bo & Hb & Hn & Hf & Hv); [vm_compute; reflexivity|].
  edestruct (ex_run [house; house]) as (b' & out' & bo' & Hb' & Hn' & Hf' & Hv'); [vm_compute; reflexivity|].
  exists b, b'. do 2 eexists. exists out, out', bo, bo'. do 2 eexists. split; [apply ex_training|]. split; [reflexivity|].
  split; [exact Hb|]. split; [exact Hb'|]. split; [exact Hn|]. split; [exact Hn'|]. split; [lia|]. split; [lia|].
  split; [exact Hf|]. split; [exact Hf'|]. split; [exact Hv|]. split; [exact Hv'|]. discriminate.
Qed.

Example C71_ex_guard : exists b n, from_complex_list four 2 = Ok b /\ num_samples b = Ok n /\ 2 <= n /\
  exists out bo, net_forward Zops ex_tnet0 b = Ok (out, bo) /\ length out = 4.
Proof.
  destruct four_hyps as (H1 & H2 & H3 & H4 & H5).
  destruct (C71_guard Zops Zops_ok (St := Z) ex_tnet0 four four_sz 2) as (b & n & Hb & Hn & H); auto; try apply four_features.
  { apply ex_training. }
  exists b, n. split; auto. split; auto.
  assert (2 <= n) as Hle; [|split; [exact Hle|apply H; exact Hle]]. vm_compute in Hb. injection Hb as <-. vm_compute in Hn. injection Hn as <-. lia.
Qed.

Lemma ex_has_norm f : has_norm [RowFun f; ex_norm].
Proof. unfold ex_norm. eexists. eexists. right; left; reflexivity. Qed.

(** The batch of the house, a point and a path has a single 2-cell. *)
Example C71_ex_single_cell : exists b, from_complex_list trio 2 = Ok b /\ net_forward Zops ex_tnet0 b = Err ValueError.
Proof.
  apply (C71_single_cell Zops Zops_ok (St := Z)) with (szs := trio_sz) (d := 2); auto using trio_wf, trio_features; try discriminate.
  - apply nc_cin0; auto. apply ex_has_norm.
Qed.

Example C71_ex_no_norm : norm_free (St := Z) Zops
  (tcin0 (St := Z) Zops 2 [fun d => mkTCin (fun v => v) (fun x y => x + y)%Z [RowFun Z.abs] (fun x y => x - y)%Z [] [RowFun Z.opp; RowFun Z.abs] (fun v => v)] None RMean (fun v => v)).
Proof.
  apply nf_cin0. repeat apply Forall_cons; auto. intros d.
  repeat split; intros (st & f & H); simpl in H; intuition discriminate.
Qed.

Print Assumptions C71_frozen.
Print Assumptions C71_rearranged.
Print Assumptions C71_guard.
Print Assumptions C71_single_cell.
Print Assumptions C71_no_norm.
Print Assumptions C71_cellular_two_way.
Print Assumptions C71_batch_dependence_refuted.
