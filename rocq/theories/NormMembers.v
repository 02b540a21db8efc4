(** Training mode: the rows of a batch are the rows of its members, also after relabelling them; the
    levels of the networks as stages. *)
From Coq Require Import List Arith Lia ZArith Bool Permutation.
From Verif Require Import Base ScatterModel ScatterSpec ScatterProofs ComplexModel BatchSpec BatchSpec2
  BatchProofs BatchProofs2 MPModel MPSpec MPProofs MPEngine MPBatch MPForward MPNets BatchProps MPProps MPIso.
From Verif Require Import NormModel NormProofs.
Import ListNotations.

Lemma concat_mapi_combine {A B C} (F : nat -> A -> list C) (G : A * B -> list C) la lb :
  length la = length lb ->
  (forall i a b, nth_error la i = Some a -> nth_error lb i = Some b -> F i a = G (a, b)) ->
  concat (mapi F la) = concat (map G (combine la lb)).
Proof.
  intros Hl H. f_equal. apply nth_error_ext. intros i.
  rewrite nth_error_mapi, nth_error_map, nth_error_combine.
  destruct (nth_error la i) as [a|] eqn:Ea; [|reflexivity].
  destruct (nth_error lb i) as [b|] eqn:Eb; simpl; [f_equal; auto|].
  apply nth_error_None in Eb. assert (i < length la) by (apply nth_error_Some; congruence). lia.
Qed.

Lemma concat_mapi_combine_r {A B C} (F : nat -> B -> list C) (G : A * B -> list C) la lb :
  length la = length lb ->
  (forall i a b, nth_error la i = Some a -> nth_error lb i = Some b -> F i b = G (a, b)) ->
  concat (mapi F lb) = concat (map G (combine la lb)).
Proof.
  intros Hl H. f_equal. apply nth_error_ext. intros i.
  rewrite nth_error_mapi, nth_error_map, nth_error_combine.
  destruct (nth_error lb i) as [b|] eqn:Eb.
  - destruct (nth_error la i) as [a|] eqn:Ea; simpl; [f_equal; auto|].
    apply nth_error_None in Ea. assert (i < length lb) by (apply nth_error_Some; congruence). lia.
  - destruct (nth_error la i); reflexivity.
Qed.

Lemma concat_nil_all {A B} (f : A -> list B) l : (forall a, In a l -> f a = []) -> concat (map f l) = [].
Proof.
  induction l as [|a l IH]; intros H; simpl; auto. rewrite H by (left; auto). simpl.
  apply IH. intros; apply H; right; auto.
Qed.

Lemma matched_perm_rows {A B C} (P : A -> B -> Prop) (f : A -> C) (g : B -> C) l l' :
  matched permR P l l' -> (forall a b, P a b -> f a = g b) -> Permutation (map f l) (map g l').
Proof.
  intros (m & HR & HF) H. apply Permutation_trans with (map f m).
  - apply Permutation_map. apply Permutation_sym. exact HR.
  - replace (map g l') with (map f m); auto. apply Forall2_map_eq. eapply Forall2_impl'; eauto.
Qed.

Section Members.
Context {V : Type} (o : ops V).
Hypothesis Hdiv : vdivn o (vzero o) 1 = vzero o.
Context {L : Type} (rule_of : L -> rule V).
Notation complex := (complex V).
Notation rows := (rows o rule_of).

Definition mems_of (D : nat) (ks : list complex) (szs : list (nat -> nat)) : list (skel * feats V) :=
  map (fun q => (skel_of D (fst q) (snd q), feats_of o (fst q))) (combine ks szs).

Lemma step_const pdim S X rl d i : d <= pdim ->
  step o pdim true S (mkLayer (fun _ => rl) None) X d i = new_feature o rl true S X d i.
Proof.
  intros Hd. unfold step, cob_visible. destruct (Nat.leb_spec d pdim); [|lia]. rewrite orb_true_r. auto.
Qed.

(** ** A batch and its members *)
Section Batch.
Variables (ks : list complex) (szs : list (nat -> nat)) (D : nat) (K : complex).
Hypothesis HW : Forall2 wf_complex ks szs.
Hypothesis HU : union_complex ks szs D K.
Hypothesis Hpres : forall d, d <= D -> exists k, In k ks /\ d <= k_dim k.
Hypothesis HF : Forall (has_features D) ks.
Let SB := skel_of D K (total szs).
Let XB := feats_of o K.

Lemma after_agree pdim Ls i k sz : nth_error ks i = Some k -> nth_error szs i = Some sz ->
  agree (blk szs D i k sz) 0 (after o pdim Ls (skel_of D k sz) (feats_of o k)) (after o pdim Ls SB XB).
Proof.
  intros Ek Es. unfold after.
  pose proof (final_agree o (fun A => @eq (list A))
    (fun A B f l l' E => f_equal (map f) E) (fun r l l' E => f_equal (reduce_rows o r) E)
    (skel_of D k sz) SB pdim true true (blk szs D i k sz)
    (blk_refines ks szs D K HW HU i k sz Ek Es pdim true) None Ls (feats_of o k) XB) as H.
  intros d j j' Hj. apply H; auto.
  - apply Forall_forall. intros lay _ E. discriminate.
  - apply (blk_agree o ks szs D K HW HU Hpres i k sz Ek Es HF).
Qed.

Lemma batch_rows pdim Ls s d : d <= pdim ->
  rows s SB (after o pdim Ls SB XB) d =
  concat (map (fun q => rows s (fst q) (after o pdim Ls (fst q) (snd q)) d) (mems_of D ks szs)).
Proof.
  intros Hd. pose proof (Forall2_length HW) as Hlen. unfold mems_of. rewrite map_map. cbn [fst snd].
  assert (HX : forall i k sz e c, nth_error ks i = Some k -> nth_error szs i = Some sz ->
    c < s_n (skel_of D k sz) e ->
    after o pdim Ls SB XB e (c + off szs i e) = after o pdim Ls (skel_of D k sz) (feats_of o k) e c).
  { intros i k sz e c Ek Es Hc. symmetry. apply (after_agree pdim Ls i k sz Ek Es e c). split; auto. lia. }
  destruct s as [l|g|g]; cbn [NormProofs.rows].
  - destruct (Nat.le_gt_cases d D) as [HdD|HdD].
    + rewrite (SB_n ks szs D K HU) by auto. rewrite concat_blocks.
      apply concat_mapi_combine_r; auto. intros i k sz Ek Es. cbn [fst snd].
      pose proof (Wk ks szs HW i k sz Ek Es) as W. rewrite skel_of_n by auto.
      apply map_ext_in. intros j Hj. apply in_seq in Hj.
      rewrite <- !(step_const pdim) by auto. symmetry.
      apply (step_agree o (fun A => @eq (list A))
         (fun A B f l l' E => f_equal (map f) E) (fun r l l' E => f_equal (reduce_rows o r) E)
         (skel_of D k sz) SB pdim true true (blk szs D i k sz)
         (blk_refines ks szs D K HW HU i k sz Ek Es pdim true) 0).
      * intros E; discriminate.
      * apply after_agree; auto.
      * split; auto. rewrite skel_of_n by auto. lia.
    + rewrite (so_above _ (SB_ok ks szs D K HW HU)) by (rewrite (SB_dim ks szs D K HU); lia).
      symmetry. apply concat_nil_all. intros [k sz] Hin.
      apply In_nth_error in Hin as [i Hi]. rewrite nth_error_combine in Hi.
      destruct (nth_error ks i) as [k'|] eqn:Ek; [|discriminate].
      destruct (nth_error szs i) as [sz'|] eqn:Es; [|discriminate]. injection Hi as -> ->.
      cbn [fst snd].
      rewrite (so_above _ (skel_of_ok D k sz (Wk ks szs HW i k sz Ek Es))); auto. simpl. lia.
  - destruct (Nat.lt_ge_cases d D) as [HdD|HdD].
    + rewrite (SB_up ks szs D K HW HU) by auto. rewrite concat_map, map_mapi.
      apply concat_mapi_combine; auto. intros i k sz Ek Es. cbn [fst snd].
      pose proof (Wk ks szs HW i k sz Ek Es) as W. rewrite (skel_of_up D k sz) by auto.
      rewrite map_map. apply map_ext_in. intros [[a b] c] He. apply (ups_in k sz d) in He as (H1 & H2 & H3 & H4); auto.
      unfold sh_up. cbn [fst snd]. rewrite !(HX i k sz); auto; rewrite skel_of_n; auto; lia.
    + rewrite (skel_of_up_top D K (total szs) d HdD : s_up SB d = []). symmetry. apply concat_nil_all. intros [k sz] _.
      rewrite skel_of_up_top by auto. auto.
  - destruct (Nat.le_gt_cases d D) as [HdD|HdD].
    + rewrite (SB_low ks szs D K HW HU) by auto. rewrite concat_map, map_mapi.
      apply concat_mapi_combine; auto. intros i k sz Ek Es. cbn [fst snd].
      pose proof (Wk ks szs HW i k sz Ek Es) as W. rewrite (skel_of_low D k sz) by auto.
      rewrite map_map. apply map_ext_in. intros [[a b] c] He. apply (lows_in k sz d) in He as (H1 & H2 & H3 & H4); auto.
      unfold sh_low. cbn [fst snd]. rewrite !(HX i k sz); auto; rewrite skel_of_n; auto; lia.
    + rewrite (skel_of_low_above D K (total szs) d HdD : s_low SB d = []). symmetry. apply concat_nil_all. intros [k sz] _.
      rewrite skel_of_low_above by auto. auto.
Qed.

End Batch.
End Members.

(** ** A member and a relabelling of it *)
Section Relabelled.
Context {V : Type} (o : ops V) (Ho : ops_ok o).
Context {L : Type} (rule_of : L -> rule V).
Variables (pi : nat -> nat -> nat) (sz : nat -> nat) (k k' : complex V) (D : nat).
Hypothesis HI : complex_iso pi sz k k'.
Hypothesis W : wf_complex k sz.
Hypothesis W' : wf_complex k' sz.
Let Sk := skel_of D k sz.
Let Sk' := skel_of D k' sz.

Lemma iso_rows pdim Ls s d : d <= pdim ->
  Permutation (rows o rule_of s Sk (after o pdim Ls Sk (feats_of o k)) d)
              (rows o rule_of s Sk' (after o pdim Ls Sk' (feats_of o k')) d).
Proof.
  intros Hd. pose proof (skel_of_ok D k sz W) as HS. fold Sk in HS.
  assert (HX : forall l, agree (rel pi sz k D) l (after o pdim Ls Sk (feats_of o k)) (after o pdim Ls Sk' (feats_of o k'))).
  { intros l e i i' Hi.
    apply (final_agree o permR R_map (R_reduce o Ho) Sk Sk' pdim true true (rel pi sz k D)
             (rel_refines pi sz k k' D HI W pdim true) None Ls); auto.
    - apply Forall_forall. intros lay _ E. discriminate.
    - apply (rel_agree o pi sz k k' D HI). }
  set (X := after o pdim Ls Sk (feats_of o k)) in *. set (X' := after o pdim Ls Sk' (feats_of o k')) in *.
  destruct s as [l|g|g]; cbn [rows].
  - apply matched_perm_rows with (P := rel pi sz k D 0 d).
    + apply (rel_cells pi sz k k' D HI).
    + intros i i' Hi. rewrite <- !(step_const o pdim) by auto.
      apply (step_agree o permR R_map (R_reduce o Ho) Sk Sk' pdim true true (rel pi sz k D)
               (rel_refines pi sz k k' D HI W pdim true) 0); auto.
      intros E; discriminate.
  - apply Permutation_trans with (map (fun e => g (X' d (fst (fst e))) (X' (d + 1) (snd e)))
      (map (fun e => ((pi d (fst (fst e)), pi d (snd (fst e))), pi (d + 1) (snd e))) (s_up Sk d))).
    + rewrite map_map. replace (map (fun e => g (X d (fst (fst e))) (X (d + 1) (snd e))) (s_up Sk d))
        with (map (fun x : nat * nat * nat => g (X' d (pi d (fst (fst x)))) (X' (d + 1) (pi (d + 1) (snd x)))) (s_up Sk d)); auto.
      apply map_ext_in. intros [[a b] c] He. apply (so_up _ HS) in He as (_ & Ha & _ & Hc). cbn [fst snd].
      rewrite (HX 0 d a (pi d a)), (HX 0 (d + 1) c (pi (d + 1) c)); auto; split; auto.
    + apply Permutation_map. apply Permutation_sym. unfold Sk', Sk, skel_of. cbn [s_up].
      rewrite (iso_dim _ _ _ _ HI). destruct (d <? _); [|constructor]. apply HI.
  - apply Permutation_trans with (map (fun e => g (X' d (fst (fst e))) (X' (pred d) (snd e)))
      (map (fun e => ((pi d (fst (fst e)), pi d (snd (fst e))), pi (pred d) (snd e))) (s_low Sk d))).
    + rewrite map_map. replace (map (fun e => g (X d (fst (fst e))) (X (pred d) (snd e))) (s_low Sk d))
        with (map (fun x : nat * nat * nat => g (X' d (pi d (fst (fst x)))) (X' (pred d) (pi (pred d) (snd x)))) (s_low Sk d)); auto.
      apply map_ext_in. intros [[a b] c] He. apply (so_low _ HS) in He as (_ & Ha & _ & Hc). cbn [fst snd].
      rewrite (HX 0 d a (pi d a)), (HX 0 (pred d) c (pi (pred d) c)); auto; split; auto.
    + apply Permutation_map. apply Permutation_sym. unfold Sk', Sk, skel_of. cbn [s_low].
      rewrite (iso_dim _ _ _ _ HI). destruct (d <=? _); [|constructor]. apply HI.
Qed.
End Relabelled.

(** ** The levels as stages *)
Section Levels.
Context {V : Type} (o : ops V) {St : Type}.
Hypothesis Hdiv : vdivn o (vzero o) 1 = vzero o.
Notation nn := (list (nn_layer V St)).

Lemma apply_nn_id (ls : nn) t : apply_nn ls t = apply_nn ls (map (fun v => v) t).
Proof. rewrite map_id. auto. Qed.

Definition sp_with (l : tsparse_level V St) (a b : V -> V) (c : V -> V -> V) : sparse_level V :=
  mkSparseLevel (ts_up l) (ts_bnd l) a b c (ts_s1 l) (ts_s2 l).

Definition sparse_staged (l : tsparse_level V St) : staged V (sparse_level V) :=
  stages (ts_upd_up l) (fun a => Cells (sp_with l a (fun v => v) (fun u _ => u))) (fun v => v) (fun a =>
  stages (ts_upd_bnd l) (fun b => Cells (sp_with l a b (fun _ w => w))) (fun v => v) (fun b =>
  stages (ts_comb l) (fun c => Cells (sp_with l a b (fun u w => c (ts_cat l u w)))) (fun v => v) (fun c =>
  Done (sp_with l a b (fun u w => c (ts_cat l u w)))))).

Lemma tsparse_implements l down : timplements o (sparse_rule o) down (tsparse_forward o l) (sparse_staged l).
Proof.
  intros S X d p HS HP. unfold tsparse_forward.
  rewrite (propagate_spec o Hdiv _ (fun x u _ b => x) S X d true down) by (auto; discriminate).
  cbn [bind]. rewrite (the_x_ok _ _ _ _ _ _ HP). unfold addt. rewrite !map_map, !zipw_map.
  match goal with |- context [apply_nn (ts_upd_up l) (map ?u _)] => set (U := u) end.
  match goal with |- context [apply_nn (ts_upd_bnd l) (map ?u _)] => set (W := u) end.
  set (I := seq 0 (s_n S d)). rewrite (apply_nn_id (ts_upd_up l)).
  unfold sparse_staged. apply (stages_ok o (sparse_rule o)).
  { intros a. cbn [rows]. rewrite map_map. reflexivity. }
  intros a. rewrite (apply_nn_id (ts_upd_bnd l)). apply (stages_ok o (sparse_rule o)).
  { intros b. cbn [rows]. rewrite map_map. reflexivity. }
  intros b. rewrite !map_map, zipw_map. rewrite (apply_nn_id (ts_comb l)).
  rewrite <- (stages_ok o (sparse_rule o) (ts_comb l) _ _ (map (fun i => ts_cat l (a (U i)) (b (W i))) I) S X d (@Ok (list V))).
  - destruct (apply_nn _ _); reflexivity.
  - intros c. cbn [rows]. rewrite map_map. reflexivity.
  - intros c. cbn [ran rows]. rewrite map_map. reflexivity.
Qed.

Definition pp_with (l : tcinpp_level V St) (a b c : V -> V) (e : V -> V -> V -> V) : cinpp_level V :=
  mkCinppLevel (tp_up l) (tp_down l) (tp_bnd l) a b c e (tp_s1 l) (tp_s2 l) (tp_s3 l).

Definition cinpp_staged (l : tcinpp_level V St) : staged V (cinpp_level V) :=
  stages (tp_upd_up l) (fun a => Cells (pp_with l a (fun v => v) (fun v => v) (fun u _ _ => u))) (fun v => v) (fun a =>
  stages (tp_upd_down l) (fun b => Cells (pp_with l a b (fun v => v) (fun _ w _ => w))) (fun v => v) (fun b =>
  stages (tp_upd_bnd l) (fun c => Cells (pp_with l a b c (fun _ _ w => w))) (fun v => v) (fun c =>
  stages (tp_comb l) (fun e => Cells (pp_with l a b c (fun u v w => e (tp_cat l u v w)))) (fun v => v) (fun e =>
  Done (pp_with l a b c (fun u v w => e (tp_cat l u v w))))))).

Lemma tcinpp_implements l down : timplements o (cinpp_rule o) down (tcinpp_forward o l) (cinpp_staged l).
Proof.
  intros S X d p HS HP. unfold tcinpp_forward.
  rewrite (propagate_spec o Hdiv _ (fun x u _ b => x) S X d true down) by (auto; discriminate).
  cbn [bind]. rewrite (the_x_ok _ _ _ _ _ _ HP). unfold addt. rewrite !map_map, !zipw_map.
  match goal with |- context [apply_nn (tp_upd_up l) (map ?u _)] => set (U := u) end.
  match goal with |- context [apply_nn (tp_upd_down l) (map ?u _)] => set (Y := u) end.
  match goal with |- context [apply_nn (tp_upd_bnd l) (map ?u _)] => set (W := u) end.
  set (I := seq 0 (s_n S d)). rewrite (apply_nn_id (tp_upd_up l)).
  unfold cinpp_staged. apply (stages_ok o (cinpp_rule o)).
  { intros a. cbn [rows]. rewrite map_map. reflexivity. }
  intros a. rewrite (apply_nn_id (tp_upd_down l)). apply (stages_ok o (cinpp_rule o)).
  { intros b. cbn [rows]. rewrite map_map. reflexivity. }
  intros b. rewrite (apply_nn_id (tp_upd_bnd l)). apply (stages_ok o (cinpp_rule o)).
  { intros c. cbn [rows]. rewrite map_map. reflexivity. }
  intros c. rewrite !map_map, combine_map_same, zipw_map. cbn [fst snd]. rewrite (apply_nn_id (tp_comb l)).
  rewrite <- (stages_ok o (cinpp_rule o) (tp_comb l) _ _ (map (fun i => tp_cat l (a (U i)) (b (Y i)) (c (W i))) I) S X d (@Ok (list V))).
  - destruct (apply_nn _ _); reflexivity.
  - intros e. cbn [rows]. rewrite map_map. reflexivity.
  - intros e. cbn [ran rows]. rewrite map_map. reflexivity.
Qed.

Definition ci_with (l : tcin_level V St) (a b c : V -> V) : cin_level V :=
  mkCinLevel (fun v => a (tc_up_g l v)) (fun x y => a (tc_up_f l x y)) (fun x y => b (tc_down_f l x y)) c (tc_scale l).

Definition cin_staged (l : tcin_level V St) : staged V (cin_level V) :=
  stages (tc_up l) (fun a => Ups (fun x y => a (tc_up_f l x y))) (fun v => v) (fun a =>
  stages (tc_down l) (fun b => Lows (fun x y => b (tc_down_f l x y))) (fun v => v) (fun b =>
  stages (tc_update l) (fun c => Cells (ci_with l a b c)) (fun v => v) (fun c =>
  Done (ci_with l a b c)))).

Lemma scatter_rows {A} (E : list A) (tgt : A -> nat) (f : A -> V) n :
  (forall e, In e E -> tgt e < n) ->
  scatter o RAdd (Some n) (map tgt E) (map f E) =
  Ok (map (fun i => reduce_rows o RAdd (map f (filter (fun e => tgt e =? i) E))) (seq 0 n)).
Proof.
  intros H. rewrite scatter_correct.
  - f_equal. apply map_ext. intros i. f_equal. unfold messages_to. apply (filter_combine_map tgt f (fun j => j =? i)).
  - apply Forall_forall. intros i Hi. apply in_map_iff in Hi as (e & <- & He). auto.
  - rewrite !map_length. auto.
Qed.

Lemma apply_nn_nil (ls : nn) : apply_nn ls [] = Ok [].
Proof. induction ls as [|[f|st f] ls IH]; auto. Qed.

Lemma tcin_implements l : timplements o (cin_rule o) true (tcin_forward o l) (cin_staged l).
Proof.
  intros S X d p HS [Px Pu Pl _]. specialize (Pl eq_refl). unfold tcin_forward. rewrite Px, map_length, seq_length.
  set (n := s_n S d). set (I := seq 0 n).
  set (uf := fun e : nat * nat * nat => tc_up_f l (X d (fst (fst e))) (X (d + 1) (snd e))).
  set (lf := fun e : nat * nat * nat => tc_down_f l (X d (fst (fst e))) (X (pred d) (snd e))).
  set (UP := fun a : V -> V => map (agg_up o (cin_rule o (ci_with l a (fun v => v) (fun v => v))) true S X d) I).
  set (LO := fun b : V -> V => map (agg_low o (cin_rule o (ci_with l (fun v => v) b (fun v => v))) S X d) I).
  match goal with |- bind ?u ?k = _ => set (K := k);
    assert (HUp : exists k', (forall a, k' (map a (map uf (s_up S d))) = K (UP a)) /\
              bind u K = bind (apply_nn (tc_up l) (map (fun v => v) (map uf (s_up S d)))) k') end.
  { clearbody K. destruct (p_up p) as [u|].
    - destruct Pu as [-> ->]. exists (fun out => bind (scatter o RAdd (Some n) (map snd (map fst (s_up S d))) out) K). split.
      + intros a. rewrite !map_map. rewrite scatter_rows.
        * reflexivity.
        * intros [[x y] z] He. apply (so_up _ HS) in He. cbn [fst snd]. tauto.
      + unfold tmessage_and_aggregate, I. rewrite (map_map fst fst), index_select_map.
        2:{ apply Forall_forall. intros i Hi. apply in_map_iff in Hi as ([[x y] z] & <- & He). apply (so_up _ HS) in He. cbn [fst]. tauto. }
        cbn [bind apply_msg]. rewrite map_map, (zip_checked_map _ (fun e => X d (fst (fst e)))). cbn [bind].
        fold uf. rewrite (apply_nn_id (tc_up l)). destruct (apply_nn _ _); reflexivity.
    - rewrite Pu. cbn [map]. rewrite apply_nn_nil. exists (fun _ => K (zeros o n)). split; auto.
      intros a. unfold UP. f_equal. rewrite zeros_map. apply map_ext. intros i. unfold agg_up, up_at. rewrite Pu. cbn [filter map].
      rewrite reduce_nil; auto. }
  destruct HUp as (k1 & Hk1 & ->). unfold cin_staged. apply (stages_ok o (cin_rule o)).
  { intros a. cbn [rows]. rewrite map_map. reflexivity. }
  intros a. rewrite Hk1. clear k1 Hk1. subst K. cbv beta.
  match goal with |- bind ?u ?k = _ => set (K := k);
    assert (HLo : exists k', (forall b, k' (map b (map lf (s_low S d))) = K (LO b)) /\
              bind u K = bind (apply_nn (tc_down l) (map (fun v => v) (map lf (s_low S d)))) k') end.
  { clearbody K. destruct (p_down p) as [u|].
    - destruct Pl as [-> ->]. exists (fun out => bind (scatter o RAdd (Some n) (map snd (map fst (s_low S d))) out) K). split.
      + intros b. rewrite !map_map. rewrite scatter_rows.
        * reflexivity.
        * intros [[x y] z] He. apply (so_low _ HS) in He. cbn [fst snd]. tauto.
      + unfold tmessage_and_aggregate, I. rewrite (map_map fst fst), index_select_map.
        2:{ apply Forall_forall. intros i Hi. apply in_map_iff in Hi as ([[x y] z] & <- & He). apply (so_low _ HS) in He. cbn [fst]. tauto. }
        cbn [bind apply_msg]. rewrite map_map, (zip_checked_map _ (fun e => X d (fst (fst e)))). cbn [bind].
        fold lf. rewrite (apply_nn_id (tc_down l)). destruct (apply_nn _ _); reflexivity.
    - rewrite Pl. cbn [map]. rewrite apply_nn_nil. exists (fun _ => K (zeros o n)). split; auto.
      intros b. unfold LO. f_equal. rewrite zeros_map. apply map_ext. intros i. unfold agg_low, low_at. cbn [cin_rule cfg_rule r_low cin_cfg g_down].
      rewrite Pl. cbn [filter map]. rewrite reduce_nil; auto. }
  destruct HLo as (k2 & Hk2 & ->). apply (stages_ok o (cin_rule o)).
  { intros b. cbn [rows]. rewrite map_map. reflexivity. }
  intros b. rewrite Hk2. clear k2 Hk2. subst K. cbv beta. unfold UP, LO, addt. rewrite !map_map, !zipw_map.
  rewrite (apply_nn_id (tc_update l)).
  match goal with |- apply_nn _ (map _ ?T) = _ =>
    rewrite <- (stages_ok o (cin_rule o) (tc_update l) (fun c => Cells (ci_with l a b c)) (fun c => Done (ci_with l a b c)) T S X d (@Ok (list V))) end.
  - destruct (apply_nn _ _); reflexivity.
  - intros c. cbn [rows]. rewrite map_map. reflexivity.
  - intros c. cbn [ran rows]. rewrite map_map. reflexivity.
Qed.

End Levels.
