(** C78: from the raw graphs of the molecular data sets and CSL to the evaluation of a split. *)
From Coq Require Import String List Arith Lia ZArith QArith Bool Permutation.
From Verif Require Import Base ScatterModel ScatterSpec ScatterProofs ComplexModel BatchSpec BatchSpec2 BatchProofs
  MPModel MPSpec MPProofs MPForward MPNets MPProps MPIso EmbedModel EmbedSpec EmbedProofs EmbedProps
  LiftModel LiftSpec LiftBase LiftProps LiftRing LiftRingProps LiftRingExamples PermLift LiftIso LiftInvariance
  LiftDataset DatasetModel DatasetSpec DatasetProofs DatasetProps ExpModel InferModel InferProps SelfIsoProofs.
From Verif Require Import MolModel MolSpec MolProofs.
Import ListNotations.
Open Scope nat_scope.
Open Scope list_scope.

(** The part of three that a split names, and the identifiers. *)
Definition part_of {A} {s} (n : split_name s) (train val test : A) : A :=
  match n with Train => train | Valid => val | Test => test end.

Lemma Forall2_impl {A B} (P Q : A -> B -> Prop) : (forall a b, P a b -> Q a b) -> forall l l', Forall2 P l l' -> Forall2 Q l l'.
Proof. intros H. induction 1; constructor; auto. Qed.

Section Props.
Context {V : Type} (o : ops V) (Ho : ops_ok o) (veqb : V -> V -> bool) (veqb_ok : forall a b, veqb a b = true <-> a = b) (width : V -> nat) (HW : keeps_width width o).
Variables (m : enet V).
Hypothesis Hm : cwn_enet o 2 m.
Hypothesis Hee : em_e (en_emb m) <> None.
Variable loss_fn : list V -> list Z -> option Q.
Notation fwd := (embed_forward o m).

Section One.
Variables (lib : list (list nat) -> simplex_tree) (isos : list (nat * nat) -> nat -> list (list nat)) (so : list (list nat) -> list (list nat)).

(** ZINC: every part is evaluated, in order, as if each of its graphs were lifted and predicted alone, next to its own label. *)
Theorem C78_zinc max_ring down w wa train val test :
  train ++ val ++ test <> [] -> Forall (sample width lib isos so max_ring w wa) (train ++ val ++ test) ->
  exists ds, zinc_dataset o veqb width lib isos so max_ring true down train val test = Ok ds /\
  forall s (n : split_name s) bs, 1 <= bs -> part_of n train val test <> [] ->
    exists out ml, infer_split fwd bs ds s = Ok out /\
      eval_split fwd loss_fn bs ds s = Ok (out, List.concat (map label (part_of n train val test)), ml) /\
      Forall2 (predicted o veqb lib isos so RAdd max_ring down m) (part_of n train val test) out.
Proof.
  intros Hne HS. pose proof HS as HS0. apply Forall_app in HS0 as [S1 HS0]. apply Forall_app in HS0 as [S2 S3].
  destruct (samples_convert o Ho veqb veqb_ok RAdd max_ring down m Hee lib isos so width HW w wa train S1) as (k1 & d1 & f1 & E1 & F1).
  destruct (samples_convert o Ho veqb veqb_ok RAdd max_ring down m Hee lib isos so width HW w wa val S2) as (k2 & d2 & f2 & E2 & F2).
  destruct (samples_convert o Ho veqb veqb_ok RAdd max_ring down m Hee lib isos so width HW w wa test S3) as (k3 & d3 & f3 & E3 & F3).
  unfold zinc_dataset. rewrite E1, E2, E3. cbn [bind fst snd].
  pose proof (Forall2_app F1 (Forall2_app F2 F3)) as F.
  pose proof (lifted_collection o veqb RAdd max_ring down m lib isos so width w wa _ _ Hne HS F) as HC.
  assert (Es : extend_splits [k1; k2; k3] = (k1 ++ k2 ++ k3, [seq 0 (length train); seq (length train) (length val); seq (length train + length val) (length test)])).
  { rewrite (Forall2_length F1), (Forall2_length F2), (Forall2_length F3).
    unfold extend_splits. cbn [extend_loop app]. rewrite !app_length. cbn [length]. rewrite <- app_assoc. f_equal. f_equal; [f_equal; lia|]. f_equal; [f_equal; lia|]. f_equal. f_equal; lia. }
  rewrite Es. cbn [fst snd]. destruct (C31_collate_get_partial _ 2 HC) as (co & Eco & _). rewrite Eco. cbn [bind get nth_error].
  eexists. split; [reflexivity|]. intros s n bs Hb Hp.
  set (ds := with_splits co _ _ _).
  set (ids := part_of n (seq 0 (length train)) (seq (length train) (length val)) (seq (length train + length val) (length test))).
  assert (Hids : ids_of n ds = Some ids) by (destruct n; reflexivity).
  assert (Hat : map (nth_error (train ++ val ++ test)) ids = map Some (part_of n train val test)).
  { destruct n; cbn [part_of ids]; unfold ids; cbn [part_of].
    - apply (map_nth_error_seq [] train (val ++ test)).
    - apply (map_nth_error_seq train val test).
    - pose proof (map_nth_error_seq (train ++ val) test []) as H. rewrite app_nil_r, app_length, <- app_assoc in H. exact H. }
  assert (Hat' : forall i g, nth_error ids i = Some g -> exists h, nth_error (train ++ val ++ test) g = Some h /\ nth_error (part_of n train val test) i = Some h).
  { intros i j Hj. assert (G : nth_error (map (nth_error (train ++ val ++ test)) ids) i = Some (nth_error (train ++ val ++ test) j)) by (rewrite nth_error_map, Hj; reflexivity).
    rewrite Hat, nth_error_map in G. destruct (nth_error (part_of n train val test) i) as [h|]; [|discriminate]. cbn [option_map] in G. inversion G. eauto. }
  assert (Hlen : length ids = length (part_of n train val test)) by (rewrite <- (map_length (nth_error (train ++ val ++ test)) ids), Hat, map_length; reflexivity).
  destruct (split_predictions o Ho veqb RAdd max_ring down m Hm lib isos so width loss_fn w wa _ _ co ds s n ids bs Hne HS F Eco) as (out & ml & I1 & I2 & I3); auto.
  - split; [reflexivity|]. split; reflexivity.
  - intros j Hj. apply In_nth_error in Hj as [i Hi]. destruct (Hat' i j Hi) as (h & Hh & _). apply nth_error_Some. congruence.
  - intros E. rewrite E in Hlen. destruct (part_of n train val test); [congruence|discriminate].
  - exists out, ml. split; [exact I1|]. split.
    + rewrite I2. f_equal. f_equal. f_equal. f_equal.
      transitivity (map (fun h => match h with Some g => label g | None => [] end) (map (nth_error (train ++ val ++ test)) ids)); [rewrite map_map; reflexivity|].
      rewrite Hat, map_map. reflexivity.
    + apply Forall2_nth_error_intro; [rewrite <- Hlen; apply (Forall2_length I3)|]. intros i g v Hg Hv.
      destruct (Forall2_nth_error_r _ _ _ I3 _ _ Hv) as (j & Hj & g' & Hg' & P). destruct (Hat' i j Hj) as (h & Hh & Hh'). congruence.
Qed.

(** One list of graphs with identifiers of the parts. *)
Lemma indexed_predictions r max_ring down w wa gs train val test : gs <> [] -> Forall (sample width lib isos so max_ring w wa) gs ->
  exists ds, indexed_dataset o veqb width lib isos so r max_ring true down gs train val test = Ok ds /\
  forall s (n : split_name s) bs, 1 <= bs -> part_of n train val test <> [] -> (forall i, In i (part_of n train val test) -> i < length gs) ->
    exists out ml, infer_split fwd bs ds s = Ok out /\
      eval_split fwd loss_fn bs ds s = Ok (out, List.concat (map (fun i => match nth_error gs i with Some g => label g | None => [] end) (part_of n train val test)), ml) /\
      Forall2 (fun i v => exists g, nth_error gs i = Some g /\ predicted o veqb lib isos so r max_ring down m g v) (part_of n train val test) out.
Proof.
  intros Hne HS. destruct (samples_convert o Ho veqb veqb_ok r max_ring down m Hee lib isos so width HW w wa gs HS) as (ks & d & f & E & F).
  unfold indexed_dataset. rewrite E. cbn [bind fst snd].
  pose proof (lifted_collection o veqb r max_ring down m lib isos so width w wa _ _ Hne HS F) as HC.
  destruct (C31_collate_get_partial _ 2 HC) as (co & Eco & _). rewrite Eco. cbn [bind].
  eexists. split; [reflexivity|]. intros s n bs Hb Hp Hr. set (ds := with_splits co train val test).
  apply (split_predictions o Ho veqb r max_ring down m Hm lib isos so width loss_fn w wa gs ks co ds s n); auto.
  - split; [reflexivity|]. split; reflexivity.
  - destruct n; reflexivity.
Qed.

(** ogbg-molhiv and the others: with simple features, the graphs keep the first two columns. *)
Definition ogb_graph (keep2 : V -> V) (simple : bool) (g : LiftModel.graph V) : LiftModel.graph V :=
  if simple then LiftModel.mkGraph (map keep2 (LiftModel.g_x g)) (LiftModel.g_edges g) (option_map (map keep2) (LiftModel.g_attr g)) (LiftModel.g_n g) (LiftModel.g_y g) else g.
Theorem C78_ogb keep2 r max_ring down simple w wa gs train val test : gs <> [] ->
  Forall (fun g => LiftModel.g_attr g <> None /\ sample width lib isos so max_ring w wa (ogb_graph keep2 simple g)) gs ->
  exists ds, ogb_dataset o veqb width lib isos so keep2 r max_ring true down simple gs train val test = Ok ds /\
  forall s (n : split_name s) bs, 1 <= bs -> part_of n train val test <> [] -> (forall i, In i (part_of n train val test) -> i < length gs) ->
    exists out ml, infer_split fwd bs ds s = Ok out /\
      eval_split fwd loss_fn bs ds s = Ok (out, List.concat (map (fun i => match nth_error gs i with Some g => label g | None => [] end) (part_of n train val test)), ml) /\
      Forall2 (fun i v => exists g, nth_error gs i = Some g /\ predicted o veqb lib isos so r max_ring down m (ogb_graph keep2 simple g) v) (part_of n train val test) out.
Proof.
  intros Hne HS. unfold ogb_dataset.
  assert (E : (if simple then mapM (simple_graph keep2) gs else Ok gs) = Ok (map (ogb_graph keep2 simple) gs)).
  { destruct simple; [|f_equal; symmetry; apply map_id]. apply mapM_total. intros g Hg. rewrite Forall_forall in HS. destruct (HS g Hg) as [Ha _].
    unfold simple_graph, ogb_graph. destruct (LiftModel.g_attr g); [reflexivity|congruence]. }
  rewrite E. cbn [bind].
  destruct (indexed_predictions r max_ring down w wa (map (ogb_graph keep2 simple) gs) train val test) as (ds & Eds & H).
  - destruct gs; [congruence|discriminate].
  - rewrite Forall_map. eapply Forall_impl; [|exact HS]. intros g [_ H]. exact H.
  - exists ds. split; [exact Eds|]. intros s n bs Hb Hp Hr. destruct (H s n bs Hb Hp) as (out & ml & I1 & I2 & I3); [rewrite map_length; exact Hr|].
    exists out, ml. split; [exact I1|]. split.
    + rewrite I2. do 4 f_equal. apply map_ext. intros i. rewrite nth_error_map. destruct (nth_error gs i) as [g|]; [|reflexivity]. cbn [option_map]. unfold label, ogb_graph. destruct simple; reflexivity.
    + eapply Forall2_impl; [|exact I3]. cbn beta. intros i v (g & Hg & P). rewrite nth_error_map in Hg. destruct (nth_error gs i) as [g0|]; [|discriminate]. cbn [option_map] in Hg.
      inversion Hg; subst. eauto.
Qed.

(** Peptides: the graphs of the molecules. *)
Definition as_graph (mo : molecule V) : LiftModel.graph V :=
  LiftModel.mkGraph (mo_node_feat mo) (mo_edges mo) (Some (mo_edge_feat mo)) (mo_nodes mo) (Some [mo_label mo]).
Theorem C78_peptides r max_ring down w wa mols train val test : mols <> [] ->
  Forall (fun mo => sample width lib isos so max_ring w wa (as_graph mo)) mols ->
  exists ds, peptides_dataset o veqb width lib isos so r max_ring down mols train val test = Ok ds /\
  forall s (n : split_name s) bs, 1 <= bs -> part_of n train val test <> [] -> (forall i, In i (part_of n train val test) -> i < length mols) ->
    exists out ys ml, infer_split fwd bs ds s = Ok out /\ eval_split fwd loss_fn bs ds s = Ok (out, ys, ml) /\
      Forall2 (fun i y => exists mo, nth_error mols i = Some mo /\ y = mo_label mo) (part_of n train val test) ys /\
      Forall2 (fun i v => exists mo, nth_error mols i = Some mo /\ predicted o veqb lib isos so r max_ring down m (as_graph mo) v) (part_of n train val test) out.
Proof.
  intros Hne HS. unfold peptides_dataset.
  assert (E : mapM molecule_graph mols = Ok (map as_graph mols)).
  { apply mapM_total. intros mo Hmo. rewrite Forall_forall in HS. destruct (HS mo Hmo) as ([HI _ _ HA] & _).
    destruct HA as (Ha & _). pose proof (ri_x _ _ _ _ _ _ _ _ HI) as Hx. cbn [as_graph LiftModel.g_edges LiftModel.g_x LiftModel.g_n] in Ha, Hx.
    unfold molecule_graph. rewrite Ha, Hx, !Nat.eqb_refl. reflexivity. }
  rewrite E. cbn [bind].
  destruct (indexed_predictions r max_ring down w wa (map as_graph mols) train val test) as (ds & Eds & H).
  - destruct mols; [congruence|discriminate].
  - rewrite Forall_map. exact HS.
  - exists ds. split; [exact Eds|]. intros s n bs Hb Hp Hr. destruct (H s n bs Hb Hp) as (out & ml & I1 & I2 & I3); [rewrite map_length; exact Hr|].
    eexists out, _, ml. split; [exact I1|]. split; [exact I2|]. split.
    + clear - Hr. induction (part_of n train val test) as [|i l IH]; [constructor|]. cbn [map concat]. rewrite nth_error_map.
      destruct (nth_error mols i) as [mo|] eqn:Ei; [|apply nth_error_None in Ei; specialize (Hr i (or_introl eq_refl)); lia].
      cbn [option_map label as_graph LiftModel.g_y app]. constructor; [eauto|]. apply IH. intros j Hj. apply Hr. right; auto.
    + eapply Forall2_impl; [|exact I3]. cbn beta. intros i v (g & Hg & P). rewrite nth_error_map in Hg. destruct (nth_error mols i) as [mo|]; [|discriminate]. cbn [option_map] in Hg.
      inversion Hg; subst. eauto.
Qed.

(** CSL: all features are zero. *)
Record csl_raw (max_ring : nat) (zero : V) (g : raw_graph V) : Prop := {
  cs_in : ring_input lib isos so (repeat zero (ra_n g)) (remove_self_loops (ra_edges g)) (ra_n g) (ra_y g) max_ring;
  cs_edges : simple_edges (remove_self_loops (ra_edges g));
  cs_y : exists z, ra_y g = Some [z]
}.
Lemma csl_sample max_ring zero g : csl_raw max_ring zero g -> sample width lib isos so max_ring (width zero) (Some (width zero)) (csl_graph zero g).
Proof.
  intros [H1 H2 Hy]. destruct Hy as [z Hz]. split; [|split].
  - constructor; auto.
    + cbn [csl_graph LiftModel.g_y]. rewrite Hz. intros l E. inversion E. reflexivity.
    + cbn [csl_graph LiftModel.g_edges LiftModel.g_attr]. split; [apply repeat_length|]. split; [apply H2|].
      intros j j' e e' Hj Hj' _. assert (j < length (remove_self_loops (ra_edges g))) by (apply nth_error_Some; congruence).
      assert (j' < length (remove_self_loops (ra_edges g))) by (apply nth_error_Some; congruence). rewrite !nth_error_repeat; auto.
  - split; cbn [csl_graph LiftModel.g_x LiftModel.g_attr]; intros v Hv; apply repeat_spec in Hv; congruence.
  - exists z. exact Hz.
Qed.
Lemma below_ok ids : ids <> [] -> (forall i, In i ids -> i < 150) -> below_150 ids = Ok tt.
Proof.
  intros Hne H. unfold below_150. destruct ids as [|i ids]; [congruence|]. assert (G : list_max (i :: ids) < 150) by (apply list_max_lt; [lia|exact H]).
  destruct (Nat.ltb_spec (list_max (i :: ids)) 150); [reflexivity|lia].
Qed.
Theorem C78_csl max_ring zero raw train val test fold a b c : length raw = 150 -> Forall (csl_raw max_ring zero) raw ->
  (forall g, nth_error raw 0 = Some g -> ra_x g = None /\ ra_attr g = None) ->
  fold <= 4 -> nth_error train fold = Some a -> nth_error val fold = Some b -> nth_error test fold = Some c ->
  c <> [] -> length a = 3 * length c -> length b = length c -> (forall i, In i (a ++ b ++ c) -> i < 150) ->
  exists ds, csl_dataset o veqb width lib isos so zero max_ring raw train val test fold = Ok ds /\
  forall s (n : split_name s) bs, 1 <= bs ->
    exists out ys ml, infer_split fwd bs ds s = Ok out /\ eval_split fwd loss_fn bs ds s = Ok (out, ys, ml) /\
      Forall2 (fun i y => exists g, nth_error raw i = Some g /\ ra_y g = Some [y]) (part_of n a b c) ys /\
      Forall2 (fun i v => exists g, nth_error raw i = Some g /\ predicted o veqb lib isos so RAdd max_ring false m (csl_graph zero g) v) (part_of n a b c) out.
Proof.
  intros Hl HS H0 Hf Ea Eb Ec Hc La Lb Hr.
  destruct (indexed_predictions RAdd max_ring false (width zero) (Some (width zero)) (map (csl_graph zero) raw) a b c) as (ds & Eds & H).
  - destruct raw; [discriminate|discriminate].
  - rewrite Forall_map. eapply Forall_impl; [|exact HS]. intros g Hg. apply csl_sample. exact Hg.
  - unfold indexed_dataset in Eds. apply bind_ok in Eds as (q & E1 & Eds). apply bind_ok in Eds as (co & E2 & Eds). inversion Eds; subst ds; clear Eds.
    exists (with_splits co a b c). split.
    + unfold csl_dataset. rewrite Hl. cbn [Nat.eqb assert_ bind]. destruct raw as [|g0 raw']; [discriminate|]. destruct (H0 g0 eq_refl) as [X0 A0].
      unfold get at 1. cbn [nth_error of_option bind]. rewrite X0, A0. cbn [is_none assert_ bind]. rewrite E1. cbn [bind]. rewrite E2. cbn [bind].
      apply Nat.leb_le in Hf. rewrite Hf. cbn [assert_ bind]. unfold get. rewrite Ea, Eb, Ec. cbn [of_option bind]. rewrite La, Lb, !Nat.eqb_refl. cbn [assert_ bind].
      assert (Ha : a <> []) by (intros ->; destruct c; [congruence|simpl in La; lia]). assert (Hb : b <> []) by (intros ->; destruct c; [congruence|simpl in Lb; lia]).
      rewrite !below_ok; auto; intros i Hi; apply Hr; rewrite !in_app_iff; auto.
    + intros s n bs Hb.
      assert (Hp : part_of n a b c <> []).
      { destruct n; cbn [part_of]; auto; intros ->; destruct c; try congruence; simpl in *; lia. }
      assert (Hr' : forall i, In i (part_of n a b c) -> i < length raw).
      { intros i Hi. rewrite Hl. apply Hr. rewrite !in_app_iff. destruct n; cbn [part_of] in Hi; auto. }
      destruct (H s n bs Hb Hp) as (out & ml & I1 & I2 & I3); [rewrite map_length; exact Hr'|].
      eexists out, _, ml. split; [exact I1|]. split; [exact I2|]. split.
      * clear - Hr' HS. induction (part_of n a b c) as [|i l IH]; [constructor|]. cbn [map concat]. rewrite nth_error_map.
        destruct (nth_error raw i) as [g|] eqn:Ei; [|apply nth_error_None in Ei; specialize (Hr' i (or_introl eq_refl)); lia].
        rewrite Forall_forall in HS. destruct (cs_y _ _ _ (HS g (nth_error_In _ _ Ei))) as [z Hz].
        cbn [option_map]. unfold label at 1. cbn [csl_graph LiftModel.g_y]. rewrite Hz. cbn [app]. constructor; [eauto|]. apply IH. intros j Hj. apply Hr'. right; auto.
      * eapply Forall2_impl; [|exact I3]. cbn beta. intros i v (g & Hg & P). rewrite nth_error_map in Hg. destruct (nth_error raw i) as [g0|]; [|discriminate]. cbn [option_map] in Hg.
        inversion Hg; subst. eauto.
Qed.
End One.

(** ** The writing of the graphs does not matter *)
Variables (lib lib' : list (list nat) -> simplex_tree) (isos isos' : list (nat * nat) -> nat -> list (list nat)) (so so' : list (list nat) -> list (list nat)).

Lemma same_outputs r max_ring down w wa gs gs' out out' : Forall (sample width lib isos so max_ring w wa) gs -> Forall (sample width lib' isos' so' max_ring w wa) gs' ->
  Forall2 renumbered gs gs' -> Forall2 (predicted o veqb lib isos so r max_ring down m) gs out -> Forall2 (predicted o veqb lib' isos' so' r max_ring down m) gs' out' -> out = out'.
Proof.
  intros HS HS' HR. revert HS HS' out out'. induction HR as [|g g' gs gs' R HR IH]; intros HS HS' out out' P P'; inversion P; subst; inversion P'; subst; auto.
  inversion HS as [|? ? G1 G2]; subst. inversion HS' as [|? ? G1' G2']; subst. f_equal; [|apply IH; auto].
  eapply predicted_fun; [|eassumption]. eapply (predicted_renumbered o Ho veqb veqb_ok r max_ring down m Hm Hee lib isos so); [apply G1|apply G1'|exact R|assumption].
Qed.
Lemma same_labels (gs gs' : list (LiftModel.graph V)) : Forall2 renumbered gs gs' -> map label gs = map label gs'.
Proof. induction 1 as [|g g' gs gs' (_ & Hy & _) HR IH]; auto. cbn [map]. rewrite IH. unfold label. rewrite Hy. reflexivity. Qed.

Theorem C78_zinc_renumbered max_ring down w wa train val test train' val' test' :
  train ++ val ++ test <> [] -> Forall (sample width lib isos so max_ring w wa) (train ++ val ++ test) ->
  Forall (sample width lib' isos' so' max_ring w wa) (train' ++ val' ++ test') ->
  Forall2 renumbered train train' -> Forall2 renumbered val val' -> Forall2 renumbered test test' ->
  exists ds ds', zinc_dataset o veqb width lib isos so max_ring true down train val test = Ok ds /\
    zinc_dataset o veqb width lib' isos' so' max_ring true down train' val' test' = Ok ds' /\
  forall s (n : split_name s) bs bs', 1 <= bs -> 1 <= bs' -> part_of n train val test <> [] ->
    exists out ys ml ml', eval_split fwd loss_fn bs ds s = Ok (out, ys, ml) /\ eval_split fwd loss_fn bs' ds' s = Ok (out, ys, ml').
Proof.
  intros Hne HS HS' R1 R2 R3. pose proof (Forall2_app R1 (Forall2_app R2 R3)) as R. pose proof (Forall2_length R) as L.
  assert (Hne' : train' ++ val' ++ test' <> []) by (intros E; rewrite E in L; destruct (train ++ val ++ test); [congruence|discriminate]).
  destruct (C78_zinc lib isos so max_ring down w wa train val test Hne HS) as (ds & E & H).
  destruct (C78_zinc lib' isos' so' max_ring down w wa train' val' test' Hne' HS') as (ds' & E' & H').
  exists ds, ds'. split; [exact E|]. split; [exact E'|]. intros s n bs bs' Hb Hb' Hp.
  assert (Rn : Forall2 renumbered (part_of n train val test) (part_of n train' val' test')) by (destruct n; assumption).
  assert (Sn : Forall (sample width lib isos so max_ring w wa) (part_of n train val test)).
  { apply Forall_app in HS as [S1 S2]. apply Forall_app in S2 as [S2 S3]. destruct n; assumption. }
  assert (Sn' : Forall (sample width lib' isos' so' max_ring w wa) (part_of n train' val' test')).
  { apply Forall_app in HS' as [S1 S2]. apply Forall_app in S2 as [S2 S3]. destruct n; assumption. }
  assert (Hp' : part_of n train' val' test' <> []) by (intros X; rewrite X in Rn; inversion Rn; congruence).
  destruct (H s n bs Hb Hp) as (out & ml & _ & I2 & I3). destruct (H' s n bs' Hb' Hp') as (out' & ml' & _ & I2' & I3').
  pose proof (same_outputs RAdd max_ring down w wa _ _ _ _ Sn Sn' Rn I3 I3') as X. subst out'. rewrite (same_labels _ _ Rn) in I2.
  exists out, (List.concat (map label (part_of n train' val' test'))), ml, ml'. auto.
Qed.

(** Picking graphs by identifiers. *)
Lemma same_picked r max_ring down w wa gs gs' ids out out' : Forall (sample width lib isos so max_ring w wa) gs -> Forall (sample width lib' isos' so' max_ring w wa) gs' ->
  Forall2 renumbered gs gs' ->
  Forall2 (fun i v => exists g, nth_error gs i = Some g /\ predicted o veqb lib isos so r max_ring down m g v) ids out ->
  Forall2 (fun i v => exists g, nth_error gs' i = Some g /\ predicted o veqb lib' isos' so' r max_ring down m g v) ids out' -> out = out'.
Proof.
  intros HS HS' HR P P'. rewrite Forall_forall in HS, HS'. revert out' P'. induction P as [|i v ids out (g & Hg & Q) P IH]; intros out' P'; inversion P' as [|? v' ? out1 (g' & Hg' & Q') P1]; subst; auto.
  f_equal; [|apply IH; auto]. destruct (Forall2_nth_error_l _ _ _ HR _ _ Hg) as (g1 & Hg1 & R). assert (g1 = g') by congruence. subst g1.
  eapply predicted_fun; [|exact Q']. eapply (predicted_renumbered o Ho veqb veqb_ok r max_ring down m Hm Hee lib isos so); [apply HS; eapply nth_error_In; eauto|apply HS'; eapply nth_error_In; eauto|exact R|exact Q].
Qed.
Lemma same_picked_labels (gs gs' : list (LiftModel.graph V)) ids : Forall2 renumbered gs gs' ->
  map (fun i => match nth_error gs i with Some g => label g | None => [] end) ids = map (fun i => match nth_error gs' i with Some g => label g | None => [] end) ids.
Proof.
  intros HR. apply map_ext. intros i. destruct (nth_error gs i) as [g|] eqn:E.
  - destruct (Forall2_nth_error_l _ _ _ HR _ _ E) as (g' & -> & _ & Hy & _). unfold label. rewrite Hy. reflexivity.
  - apply nth_error_None in E. rewrite (Forall2_length HR) in E. apply nth_error_None in E. rewrite E. reflexivity.
Qed.
Lemma ogb_renumbered keep2 simple g g' : renumbered g g' -> renumbered (ogb_graph keep2 simple g) (ogb_graph keep2 simple g').
Proof.
  intros (Hn & Hy & sigma & [G1 G2 G3 G4] & HA). destruct simple; [|split; auto; split; auto; exists sigma; split; [constructor; auto|exact HA]].
  split; [exact Hn|]. split; [exact Hy|]. exists sigma. split; [constructor; auto|].
  - intros v Hv. cbn [ogb_graph LiftModel.g_x LiftModel.g_n] in *. rewrite !nth_error_map, (G4 v Hv). reflexivity.
  - cbn [ogb_graph LiftModel.g_edges LiftModel.g_attr]. unfold attr_iso in *. destruct (LiftModel.g_attr g), (LiftModel.g_attr g'); cbn [option_map]; auto.
    intros j e j' e' H1 H2 H3. rewrite !nth_error_map, (HA j e j' e' H1 H2 H3). reflexivity.
Qed.
Theorem C78_ogb_renumbered keep2 r max_ring down simple w wa gs gs' train val test : gs <> [] ->
  Forall (fun g => LiftModel.g_attr g <> None /\ sample width lib isos so max_ring w wa (ogb_graph keep2 simple g)) gs ->
  Forall (fun g => LiftModel.g_attr g <> None /\ sample width lib' isos' so' max_ring w wa (ogb_graph keep2 simple g)) gs' ->
  Forall2 renumbered gs gs' ->
  exists ds ds', ogb_dataset o veqb width lib isos so keep2 r max_ring true down simple gs train val test = Ok ds /\
    ogb_dataset o veqb width lib' isos' so' keep2 r max_ring true down simple gs' train val test = Ok ds' /\
  forall s (n : split_name s) bs bs', 1 <= bs -> 1 <= bs' -> part_of n train val test <> [] -> (forall i, In i (part_of n train val test) -> i < length gs) ->
    exists out ys ml ml', eval_split fwd loss_fn bs ds s = Ok (out, ys, ml) /\ eval_split fwd loss_fn bs' ds' s = Ok (out, ys, ml').
Proof.
  intros Hne HS HS' R. pose proof (Forall2_length R) as L.
  assert (Hne' : gs' <> []) by (intros ->; destruct gs; [congruence|discriminate]).
  destruct (C78_ogb lib isos so keep2 r max_ring down simple w wa gs train val test Hne HS) as (ds & E & H).
  destruct (C78_ogb lib' isos' so' keep2 r max_ring down simple w wa gs' train val test Hne' HS') as (ds' & E' & H').
  exists ds, ds'. split; [exact E|]. split; [exact E'|]. intros s n bs bs' Hb Hb' Hp Hr.
  destruct (H s n bs Hb Hp Hr) as (out & ml & _ & I2 & I3). destruct (H' s n bs' Hb' Hp) as (out' & ml' & _ & I2' & I3'); [rewrite <- L; exact Hr|].
  assert (X : out = out').
  { apply (same_picked r max_ring down w wa (map (ogb_graph keep2 simple) gs) (map (ogb_graph keep2 simple) gs') (part_of n train val test)).
    - rewrite Forall_map. eapply Forall_impl; [|exact HS]. intros g [_ G]. exact G.
    - rewrite Forall_map. eapply Forall_impl; [|exact HS']. intros g [_ G]. exact G.
    - clear - R. induction R; constructor; auto. apply ogb_renumbered; auto.
    - eapply Forall2_impl; [|exact I3]. cbn beta. intros i v (g & Hg & P). exists (ogb_graph keep2 simple g). rewrite nth_error_map, Hg. auto.
    - eapply Forall2_impl; [|exact I3']. cbn beta. intros i v (g & Hg & P). exists (ogb_graph keep2 simple g). rewrite nth_error_map, Hg. auto. }
  subst out'. rewrite (same_picked_labels gs gs' _ R) in I2. eexists out, _, ml, ml'. eauto.
Qed.

(** For CSL the nodes may be renumbered in any way that keeps the adjacency; there are no features. *)
Definition same_shape (g g' : raw_graph V) : Prop :=
  ra_n g' = ra_n g /\ ra_y g' = ra_y g /\ exists sigma,
    (forall v, v < ra_n g -> sigma v < ra_n g) /\ (forall u v, u < ra_n g -> v < ra_n g -> sigma u = sigma v -> u = v) /\
    (forall u v, u < ra_n g -> v < ra_n g -> (adjacent (ra_edges g) u v <-> adjacent (ra_edges g') (sigma u) (sigma v))).
Lemma adjacent_no_loops edges u v : adjacent (remove_self_loops edges) u v <-> adjacent edges u v.
Proof.
  unfold adjacent, remove_self_loops. rewrite !filter_In. cbn [fst snd]. split.
  - intros [Hne [[H _]|[H _]]]; auto.
  - intros [Hne H]. split; auto. destruct (Nat.eqb_spec u v); [congruence|]. destruct (Nat.eqb_spec v u); [congruence|]. cbn [negb]. destruct H; auto.
Qed.
Lemma shape_renumbered zero g g' : same_shape g g' -> renumbered (csl_graph zero g) (csl_graph zero g').
Proof.
  intros (Hn & Hy & sigma & S1 & S2 & S3). split; [exact Hn|]. split; [exact Hy|]. exists sigma. split.
  - constructor; cbn [csl_graph LiftModel.g_n LiftModel.g_edges LiftModel.g_x]; auto.
    + intros u v Hu Hv. rewrite !adjacent_no_loops. auto.
    + intros v Hv. rewrite Hn. rewrite !nth_error_repeat; auto.
  - cbn [csl_graph LiftModel.g_edges LiftModel.g_attr attr_iso]. intros j e j' e' Hj Hj' _.
    assert (j < length (remove_self_loops (ra_edges g))) by (apply nth_error_Some; congruence).
    assert (j' < length (remove_self_loops (ra_edges g'))) by (apply nth_error_Some; congruence). rewrite !nth_error_repeat; auto.
Qed.
(** Two graphs of CSL of the same shape get the same prediction, whichever splits and folds they are in. *)
Theorem C78_csl_shape max_ring zero g g' v : csl_raw lib isos so max_ring zero g -> csl_raw lib' isos' so' max_ring zero g' -> same_shape g g' ->
  predicted o veqb lib isos so RAdd max_ring false m (csl_graph zero g) v -> predicted o veqb lib' isos' so' RAdd max_ring false m (csl_graph zero g') v.
Proof.
  intros C C' S. apply (predicted_renumbered o Ho veqb veqb_ok RAdd max_ring false m Hm Hee lib isos so).
  - apply (csl_sample lib isos so max_ring zero g C).
  - apply (csl_sample lib' isos' so' max_ring zero g' C').
  - apply shape_renumbered; auto.
Qed.
End Props.


(** ** Examples *)
Lemma mol_net : cwn_enet Zops 2 ex_enet.
Proof. apply CE_sparse; auto; try discriminate; try (exists 0; simpl; auto; fail). Qed.
Lemma mol_edges : em_e (en_emb ex_enet) <> None.
Proof. discriminate. Qed.
Definition house_g : LiftModel.graph Z := LiftModel.mkGraph house_x house None 5 (Some [3%Z]).
Lemma mol_samples b : Forall (sample one (any_lib b) (ref_isos 5) (@rev _) 5 1 None) ([tri_g; dot_g] ++ [house_g] ++ [tri_g; house_g]).
Proof.
  assert (A : forall g, In g [tri_g; dot_g; house_g] -> graph_ok (LiftModel.g_edges g) 5).
  { intros g [<-|[<-|[<-|[]]]]; edges_ok. }
  assert (B : forall g, In g [tri_g; dot_g; house_g] -> sample one (any_lib b) (ref_isos 5) (@rev _) 5 1 None g).
  { intros g Hg. pose proof (A g Hg) as H5. split; [split|split].
    - split; [| | | | |apply any_lib_ok|intros k _; apply ref_isos_ok; auto|intros l _; apply Permutation_sym, Permutation_rev];
        destruct Hg as [<-|[<-|[<-|[]]]]; try (simpl; lia); try reflexivity; try (left; reflexivity); try edges_ok;
        try (right; exists 0, 1; split; [lia|left; left; reflexivity]).
    - destruct Hg as [<-|[<-|[<-|[]]]]; (apply simple_ok; [simpl; nodup_ok|reflexivity]).
    - intros l. destruct Hg as [<-|[<-|[<-|[]]]]; simpl; intros E; inversion E; reflexivity.
    - destruct Hg as [<-|[<-|[<-|[]]]]; exact I.
    - destruct Hg as [<-|[<-|[<-|[]]]]; (split; [intros; reflexivity|exact I]).
    - destruct Hg as [<-|[<-|[<-|[]]]]; eexists; reflexivity. }
  cbn [app]. repeat (apply Forall_cons; [apply B; clear; cbn [In]; auto 6|]). apply Forall_nil.
Qed.
Definition no_loss : list Z -> list Z -> option Q := fun _ _ => Some 0%Q.
Example C78_zinc_example := C78_zinc Zops Zops_ok Z.eqb Zeqb_ok one one_ok ex_enet mol_net mol_edges no_loss (any_lib true) (ref_isos 5) (@rev _) 5 false 1 None
  [tri_g; dot_g] [house_g] [tri_g; house_g] ltac:(discriminate) (mol_samples true).
Definition mol_zinc := zinc_dataset Zops Z.eqb one (any_lib true) (ref_isos 5) (@rev _) 5 true false [tri_g; dot_g] [house_g] [tri_g; house_g].
Example C78_zinc_computed : exists a b c, a <> b /\
  (let* ds := mol_zinc in eval_split (embed_forward Zops ex_enet) no_loss 2 ds "test") = Ok ([a; b], [9; 3]%Z, Some 0%Q) /\
  (let* ds := mol_zinc in eval_split (embed_forward Zops ex_enet) no_loss 1 ds "valid") = Ok ([b], [3]%Z, Some 0%Q) /\
  (let* ds := mol_zinc in infer_split (embed_forward Zops ex_enet) 7 ds "train") = Ok [a; c].
Proof. do 3 eexists. split; [|split; [|split]]; [|vm_compute; reflexivity|vm_compute; reflexivity|vm_compute; reflexivity]. discriminate. Qed.

(** Nodes 0 and 1 of the triangle with a fourth node exchanged, the edges in another order. *)
Definition tri_g' : LiftModel.graph Z := LiftModel.mkGraph [6; 5; 7; 8]%Z [(2, 1); (1, 2); (0, 1); (2, 0); (1, 0); (0, 2)] None 4 (Some [9%Z]).
Lemma tri_renumbered : renumbered tri_g tri_g'.
Proof.
  split; [reflexivity|]. split; [reflexivity|]. exists (fun v => match v with 0 => 1 | 1 => 0 | _ => v end). split; [|exact I]. constructor.
  - intros [|[|[|[|v]]]] H; cbn in *; lia.
  - intros [|[|[|[|u]]]] [|[|[|[|v]]]] Hu Hv; cbn in *; lia.
  - intros [|[|[|[|u]]]] [|[|[|[|v]]]] Hu Hv; cbn in Hu, Hv; try lia; unfold adjacent; cbn; intuition (try discriminate; try lia).
  - intros [|[|[|[|v]]]] H; cbn in *; try reflexivity; lia.
Qed.
Example C78_renumbered_example : exists ds ds', mol_zinc = Ok ds /\
    zinc_dataset Zops Z.eqb one (any_lib false) (ref_isos 5) (@rev _) 5 true false [tri_g'; dot_g] [house_g] [tri_g'; house_g] = Ok ds' /\
  forall s (n : split_name s) bs bs', 1 <= bs -> 1 <= bs' ->
    exists out ys ml ml', eval_split (embed_forward Zops ex_enet) no_loss bs ds s = Ok (out, ys, ml) /\ eval_split (embed_forward Zops ex_enet) no_loss bs' ds' s = Ok (out, ys, ml').
Proof.
  pose proof (mol_samples true) as S. pose proof (mol_samples false) as S'.
  assert (T : sample one (any_lib false) (ref_isos 5) (@rev _) 5 1 None tri_g').
  { split; [split|split].
    - split; [edges_ok|cbn; lia|right; exists 1, 2; split; [lia|left; right; left; reflexivity]|reflexivity|simpl; lia|apply any_lib_ok|
        intros k _; apply ref_isos_ok; edges_ok|intros l _; apply Permutation_sym, Permutation_rev].
    - apply simple_ok; [simpl; nodup_ok|reflexivity].
    - intros l E; inversion E; reflexivity.
    - exact I.
    - split; [intros; reflexivity|exact I].
    - eexists; reflexivity. }
  inversion S' as [|? ? A1 B1]; subst. inversion B1 as [|? ? A2 B2]; subst. inversion B2 as [|? ? A3 B3]; subst. inversion B3 as [|? ? A4 B4]; subst. inversion B4 as [|? ? A5 B5]; subst.
  pose proof (renumbered_refl 5 _ _ _ dot_g (proj1 A2)) as R2. pose proof (renumbered_refl 5 _ _ _ house_g (proj1 A3)) as R3. pose proof tri_renumbered as R1.
  destruct (C78_zinc_renumbered Zops Zops_ok Z.eqb Zeqb_ok one one_ok ex_enet mol_net mol_edges no_loss (any_lib true) (any_lib false) (ref_isos 5) (ref_isos 5) (@rev _) (@rev _) 5 false 1 None
    [tri_g; dot_g] [house_g] [tri_g; house_g] [tri_g'; dot_g] [house_g] [tri_g'; house_g]) as (ds & ds' & E & E' & H).
  - discriminate.
  - exact S.
  - cbn [app]. repeat (apply Forall_cons; [assumption|]). constructor.
  - repeat (constructor; [assumption|]). constructor.
  - repeat (constructor; [assumption|]). constructor.
  - repeat (constructor; [assumption|]). constructor.
  - exists ds, ds'. split; [exact E|]. split; [exact E'|]. intros s n bs bs' Hb Hb'. apply (H s n); auto. destruct n; discriminate.
Qed.

(** One molecule twice, with attributes of its edges; splits by identifiers. *)
Definition house_mol : molecule Z := mkMolecule house house_attr house_x 5 7%Z.
Lemma house_mol_ok : sample one (any_lib true) (ref_isos 5) (@rev _) 5 1 (Some 1) (as_graph house_mol).
Proof.
  split; [split|split].
  - cbn. split; [edges_ok|lia|right; exists 0, 1; split; [lia|left; left; reflexivity]|reflexivity|simpl; lia|apply any_lib_ok|
      intros k _; apply ref_isos_ok; edges_ok|intros l _; apply Permutation_sym, Permutation_rev].
  - apply simple_ok; [simpl; nodup_ok|reflexivity].
  - intros l E; inversion E; reflexivity.
  - exact house_attr_ok.
  - split; [intros; reflexivity|cbn; intros; reflexivity].
  - eexists; reflexivity.
Qed.
Example C78_peptides_example := C78_peptides Zops Zops_ok Z.eqb Zeqb_ok one one_ok ex_enet mol_net mol_edges no_loss (any_lib true) (ref_isos 5) (@rev _) RMean 5 true 1 (Some 1)
  [house_mol; house_mol] [1] [0] [0; 1] ltac:(discriminate) (Forall_cons house_mol house_mol_ok (Forall_cons house_mol house_mol_ok (Forall_nil _))).
Lemma house_attr_some : LiftModel.g_attr (as_graph house_mol) <> None.
Proof. discriminate. Qed.
Example C78_ogb_example := C78_ogb Zops Zops_ok Z.eqb Zeqb_ok one one_ok ex_enet mol_net mol_edges no_loss (any_lib true) (ref_isos 5) (@rev _) (fun v => v) RMean 5 true true 1 (Some 1)
  [as_graph house_mol; as_graph house_mol] [1] [0] [0; 1] ltac:(discriminate)
  (Forall_cons (as_graph house_mol) (conj house_attr_some house_mol_ok) (Forall_cons (as_graph house_mol) (conj house_attr_some house_mol_ok) (Forall_nil _))).

(** 150 times the house with a loop. *)
Definition house_raw : raw_graph Z := mkRaw None ((2, 2) :: house) None 5 (Some [3%Z]).
Lemma house_raw_ok : csl_raw (any_lib true) (ref_isos 5) (@rev _) 5 0%Z house_raw.
Proof.
  split.
  - cbn. split; [edges_ok|lia|right; exists 0, 1; split; [lia|left; left; reflexivity]|reflexivity|simpl; lia|apply any_lib_ok|
      intros k _; apply ref_isos_ok; edges_ok|intros l _; apply Permutation_sym, Permutation_rev].
  - apply simple_ok; [simpl; nodup_ok|reflexivity].
  - eexists; reflexivity.
Qed.
Example C78_csl_example : exists ds,
  csl_dataset Zops Z.eqb one (any_lib true) (ref_isos 5) (@rev _) 0%Z 5 (repeat house_raw 150) [[]; [7; 8; 149]] [[]; [3]] [[]; [4]] 1 = Ok ds /\
  forall s (n : split_name s) bs, 1 <= bs -> exists out ys ml, infer_split (embed_forward Zops ex_enet) bs ds s = Ok out /\
    eval_split (embed_forward Zops ex_enet) no_loss bs ds s = Ok (out, ys, ml) /\
    length out = length (part_of n [7; 8; 149] [3] [4]).
Proof.
  destruct (C78_csl Zops Zops_ok Z.eqb Zeqb_ok one one_ok ex_enet mol_net mol_edges no_loss (any_lib true) (ref_isos 5) (@rev _) 5 0%Z (repeat house_raw 150)
    [[]; [7; 8; 149]] [[]; [3]] [[]; [4]] 1 [7; 8; 149] [3] [4]) as (ds & E & H).
  - apply repeat_length.
  - apply Forall_forall. intros g Hg. apply repeat_spec in Hg. subst g. exact house_raw_ok.
  - intros g Hg. apply nth_error_In, repeat_spec in Hg. subst g. split; reflexivity.
  - lia.
  - reflexivity.
  - reflexivity.
  - reflexivity.
  - discriminate.
  - reflexivity.
  - reflexivity.
  - intros i Hi. cbn [app In] in Hi. lia.
  - exists ds. split; [exact E|]. intros s n bs Hb. destruct (H s n bs Hb) as (out & ys & ml & I1 & I2 & _ & I4). exists out, ys, ml. split; [exact I1|]. split; [exact I2|].
    symmetry. apply (Forall2_length I4).
Qed.

Print Assumptions C78_zinc.
Print Assumptions C78_ogb.
Print Assumptions C78_peptides.
Print Assumptions C78_csl.
Print Assumptions C78_zinc_renumbered.
Print Assumptions C78_ogb_renumbered.
Print Assumptions C78_csl_shape.
