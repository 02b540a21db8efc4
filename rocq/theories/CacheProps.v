(** Cached datasets: C33.  Which options can be told from the path of the processed file, and
    which options change the stored content but not the path. *)
From Coq Require Import String Ascii List Arith Lia Bool Decimal DecimalString DecimalNat ZArith.
From Verif Require Import Base ScatterModel ScatterSpec ComplexModel BatchSpec LiftModel LiftSpec LiftProps LiftRingExamples PermLift LiftInvariance LiftDataset RingModel CacheModel.
Import ListNotations.
Open Scope string_scope.

(** ** Unique reading of texts *)
Fixpoint all (P : ascii -> bool) (s : string) : bool :=
  match s with "" => true | String c r => P c && all P r end.
Definition stops (P : ascii -> bool) (s : string) : Prop :=
  match s with "" => True | String c _ => P c = false end.

Lemma span_unique P a : forall b s t, all P a = true -> all P b = true -> stops P s -> stops P t ->
  a ++ s = b ++ t -> a = b /\ s = t.
Proof.
  induction a as [|c a IH]; intros [|d b] s t Ha Hb Hs Ht E; simpl in *; auto.
  - subst s. simpl in Hs. apply andb_true_iff in Hb as [Hd _]. congruence.
  - subst t. simpl in Ht. apply andb_true_iff in Ha as [Hd _]. congruence.
  - apply andb_true_iff in Ha as [_ Ha]. apply andb_true_iff in Hb as [_ Hb]. inversion E; subst.
    destruct (IH b s t) as [-> ->]; auto.
Qed.

Lemma app_cancel_l a s t : a ++ s = a ++ t -> s = t.
Proof. induction a; simpl; intros E; auto. inversion E; auto. Qed.
Lemma app_length_s a b : String.length (a ++ b) = String.length a + String.length b.
Proof. induction a; simpl; auto. Qed.
Lemma app_cancel_r a : forall b s, a ++ s = b ++ s -> a = b.
Proof.
  induction a as [|c a IH]; intros [|d b] s E; auto.
  - exfalso. assert (L : String.length s = String.length (String d b ++ s)) by (rewrite <- E; auto).
    rewrite app_length_s in L. simpl in L. lia.
  - exfalso. assert (L : String.length s = String.length (String c a ++ s)) by (rewrite E; auto).
    rewrite app_length_s in L. simpl in L. lia.
  - simpl in E. inversion E. f_equal. eapply IH; eauto.
Qed.

Definition between (lo hi : nat) (c : ascii) : bool := Nat.leb lo (nat_of_ascii c) && Nat.leb (nat_of_ascii c) hi.
Definition digit : ascii -> bool := between 48 57.
Definition letter (c : ascii) : bool := between 65 90 c || between 97 122 c.
(** A word made of letters, such as "sum", "mean", "default" or "None". *)
Definition word (s : string) : Prop := all letter s = true.

Lemma dec_digits n : all digit (dec n) = true.
Proof. unfold dec. induction (Nat.to_uint n); simpl; auto. Qed.

Lemma dec_inj n m : dec n = dec m -> n = m.
Proof.
  unfold dec. intros E.
  assert (E' : Nat.to_uint n = Nat.to_uint m).
  { assert (F : NilEmpty.uint_of_string (NilEmpty.string_of_uint (Nat.to_uint n)) =
                NilEmpty.uint_of_string (NilEmpty.string_of_uint (Nat.to_uint m))) by (rewrite E; auto).
    rewrite !NilEmpty.usu in F. inversion F; auto. }
  rewrite <- (Unsigned.of_to n), <- (Unsigned.of_to m), E'. reflexivity.
Qed.

Lemma dec_unique n m s t : stops digit s -> stops digit t -> dec n ++ s = dec m ++ t -> n = m /\ s = t.
Proof.
  intros Hs Ht E. destruct (span_unique digit (dec n) (dec m) s t) as [D T]; auto using dec_digits.
  split; auto. apply dec_inj; auto.
Qed.
Lemma word_unique a b s t : word a -> word b -> stops letter s -> stops letter t -> a ++ s = b ++ t -> a = b /\ s = t.
Proof. apply span_unique. Qed.
Lemma app_assoc_s a b c : (a ++ b) ++ c = a ++ b ++ c.
Proof. induction a; simpl; congruence. Qed.

Lemma rings_unique n m s t : rings n ++ s = rings m ++ t -> n = m /\ s = t.
Proof.
  unfold rings. rewrite !app_assoc_s. intros E. apply app_cancel_l in E.
  apply dec_unique in E; [|reflexivity|reflexivity]. destruct E as [-> E]. apply app_cancel_l in E. auto.
Qed.

Lemma base_unique b b' d d' i i' s t : word i -> word i' -> stops letter s -> stops letter t ->
  base_dir b d i ++ s = base_dir b' d' i' ++ t -> b = b' /\ d = d' /\ i = i' /\ s = t.
Proof.
  intros Hi Hi' Hs Ht E. unfold base_dir in E. rewrite !app_assoc_s in E.
  destruct b, b'; try discriminate; simpl in E; repeat (match type of E with String ?c _ = String ?c _ => injection E as E end);
    (apply dec_unique in E; [|reflexivity|reflexivity]; destruct E as [-> E]; simpl in E; injection E as E;
     apply word_unique in E; auto; destruct E as [-> ->]; auto).
Qed.

Lemma stops_rings P n s : P "_"%char = false -> stops P (rings n ++ s).
Proof. intros H. exact H. Qed.
Lemma stops_flag P b c r s : P c = false -> stops P s -> stops P (flag b (String c r) ++ s).
Proof. intros H Hs. destruct b; auto. Qed.

(** ** Classes whose path determines the options that matter *)

(** C33 for the strongly regular graphs. *)
Theorem C33_sr : forall o o', word (sr_init o) -> word (sr_init o') -> sr_path o = sr_path o' -> o = o'.
Proof.
  intros [n d i w r] [n' d' i' w' r'] Hi Hi' E. unfold sr_path in E. cbn [sr_name sr_max_dim sr_init sr_down sr_ring] in *.
  assert (St : forall (r : option nat) w s, stops letter (match r with Some r => rings r | None => "" end ++ flag w "_down_adj" ++ "/" ++ s)).
  { intros [q|] w0 s; [reflexivity|]. apply (stops_flag letter w0 "_" "down_adj"); reflexivity. }
  apply base_unique in E; auto. destruct E as (Er & -> & -> & E).
  assert (F : r = r' /\ flag w "_down_adj" ++ "/" ++ n ++ "_complex_list.pt" = flag w' "_down_adj" ++ "/" ++ n' ++ "_complex_list.pt").
  { destruct r as [r|], r' as [r'|]; try discriminate; auto. apply rings_unique in E. destruct E as [-> E]. auto. }
  destruct F as [-> F]. destruct w, w'; simpl in F; try discriminate;
    repeat (match type of F with String ?c _ = String ?c _ => injection F as F end);
    apply app_cancel_r in F; subst; auto.
Qed.

(** TU datasets: everything but [degree_as_tag]. *)
Definition tu_but_degree (o : tu_opts) := (tu_name o, tu_max_dim o, tu_init o, tu_down o, tu_ring o).
Theorem C33_tu_partial : forall o o', word (tu_init o) -> word (tu_init o') -> tu_path o = tu_path o' ->
  tu_but_degree o = tu_but_degree o'.
Proof.
  intros [n d g i w r] [n' d' g' i' w' r'] Hi Hi' E.
  assert (H : mkSR n d i w r = mkSR n' d' i' w' r') by (apply C33_sr; auto). inversion H; reflexivity.
Qed.

Ltac strip E := repeat (match type of E with String ?c _ = String ?c _ => injection E as E end).

(** ZINC: everything but [include_down_adj]. *)
Definition zinc_but_down (o : zinc_opts) := (z_ring o, z_edges o, z_subset o).
Theorem C33_zinc_partial : forall o o', zinc_path o = zinc_path o' -> zinc_but_down o = zinc_but_down o'.
Proof.
  intros [r e s w] [r' e' s' w'] E. unfold zinc_path in E. cbn [z_ring z_edges z_subset z_down] in E.
  unfold zinc_but_down; cbn [z_ring z_edges z_subset]. apply app_cancel_l in E.
  assert (F : s = s' /\ rings r ++ flag e "-E" ++ "/ZINC_complex.pt" = rings r' ++ flag e' "-E" ++ "/ZINC_complex.pt").
  { assert (NF : forall q u v, rings q ++ u = "_full" ++ v -> False).
    { intros q u v Q. simpl in Q. injection Q as Q. assert (D := dec_digits q).
      destruct (dec q); simpl in *; [discriminate|]. injection Q as Q1 _. subst. discriminate. }
    destruct s, s'; cbn [negb] in E.
    - split; [reflexivity|exact E].
    - exfalso. apply (NF _ _ _ E).
    - exfalso. symmetry in E. apply (NF _ _ _ E).
    - split; [reflexivity|]. apply (app_cancel_l "_full"). exact E. }
  destruct F as [-> F]. apply rings_unique in F. destruct F as [-> F].
  destruct e, e'; try discriminate; auto.
Qed.

(** OGB: everything but [include_down_adj]. *)
Definition ogb_but_down (o : ogb_opts) := (o_name o, o_ring o, o_edges o, o_init o, o_simple o).
Theorem C33_ogb_partial : forall o o', word (o_init o) -> word (o_init o') -> ogb_path o = ogb_path o' ->
  ogb_but_down o = ogb_but_down o'.
Proof.
  intros [n r e i w s] [n' r' e' i' w' s'] Hi Hi' E. unfold ogb_path in E. unfold ogb_but_down.
  cbn [o_name o_ring o_edges o_init o_down o_simple] in *.
  apply base_unique in E; auto; try reflexivity. destruct E as (_ & _ & -> & E).
  apply rings_unique in E. destruct E as [-> E].
  destruct e, e', s, s'; simpl in E; try discriminate; strip E; apply app_cancel_r in E; subst; auto.
Qed.

(** Peptides: everything but [include_down_adj]. *)
Theorem C33_peptides_partial : forall name o o', word (p_init o) -> word (p_init o') ->
  pep_path name o = pep_path name o' -> p_ring o = p_ring o' /\ p_init o = p_init o'.
Proof.
  intros n [r i w] [r' i' w'] Hi Hi' E. unfold pep_path in E. cbn [p_ring p_init] in *.
  apply base_unique in E; auto; try reflexivity. destruct E as (_ & _ & -> & E).
  apply rings_unique in E. destruct E as [-> _]. auto.
Qed.

Theorem C33_csl : forall o o', word (csl_init o) -> word (csl_init o') -> csl_path o = csl_path o' -> o = o'.
Proof.
  intros [r i] [r' i'] Hi Hi' E. unfold csl_path in E. cbn [csl_ring csl_init] in *.
  apply base_unique in E; auto; try reflexivity. destruct E as (_ & _ & -> & E).
  apply rings_unique in E. destruct E as [-> _]. auto.
Qed.

(** Flow: everything but the numbers of samples. *)
Definition flow_but_samples (o : flow_opts) := (f_name o, f_points o, f_torient o, f_vorient o).
Theorem C33_flow_partial : forall o o', word (f_torient o) -> word (f_torient o') ->
  word (f_vorient o) -> word (f_vorient o') -> flow_path o = flow_path o' ->
  flow_but_samples o = flow_but_samples o'.
Proof.
  intros [n p a b t v] [n' p' a' b' t' v'] H1 H2 H3 H4 E. unfold flow_path in E. unfold flow_but_samples.
  cbn [f_name f_points f_torient f_vorient] in *. apply app_cancel_l in E.
  apply dec_unique in E; [|reflexivity|reflexivity]. destruct E as [-> E]. apply app_cancel_l in E.
  apply word_unique in E; auto; try reflexivity. destruct E as [-> E]. apply app_cancel_l in E.
  apply word_unique in E; auto; try reflexivity. destruct E as [-> E]. apply app_cancel_l, app_cancel_r in E.
  subst. auto.
Qed.

Theorem C33_ocean : forall o o', word (oc_torient o) -> word (oc_torient o') ->
  word (oc_vorient o) -> word (oc_vorient o') -> ocean_path o = ocean_path o' -> o = o'.
Proof.
  intros [n t v] [n' t' v'] H1 H2 H3 H4 E. unfold ocean_path in E. cbn [oc_name oc_torient oc_vorient] in *.
  apply app_cancel_l in E.
  apply word_unique in E; auto; try reflexivity. destruct E as [-> E]. apply app_cancel_l in E.
  apply word_unique in E; auto; try reflexivity. destruct E as [-> E]. apply app_cancel_l, app_cancel_r in E.
  subst. auto.
Qed.

(** Ring transfer: everything but the numbers of samples. *)
Theorem C33_transfer_partial : forall o o', transfer_path o = transfer_path o' -> t_nodes o = t_nodes o'.
Proof. intros o o' E. apply app_cancel_l, app_cancel_r in E. apply dec_inj; auto. Qed.
Theorem C33_lookup : forall n m, lookup_path n = lookup_path m -> n = m.
Proof. intros n m E. apply app_cancel_l, app_cancel_r in E. apply dec_inj; auto. Qed.
Theorem C33_cluster : forall n m, cluster_path n = cluster_path m -> n = m.
Proof. intros n m E. apply base_unique in E; auto; try reflexivity. intuition. Qed.
Theorem C33_dummy : forall b b', dummym_path b = dummym_path b' -> b = b'.
Proof. intros [] []; auto; discriminate. Qed.

(** ** Options that change the content but not the path *)

(** The complexes that ZincDataset.process stores for given raw graphs (zinc.py:60-96). *)
Definition zinc_content (graphs : list (graph Z)) (o : zinc_opts) :=
  convert_with_rings Zops Z.eqb one (any_lib true) (ref_isos 5) (@List.rev _) RAdd graphs (z_ring o) (z_down o)
    (z_edges o) false.

Theorem C33_zinc_refuted : exists graphs o o' ks ks',
  zinc_path o = zinc_path o' /\ zinc_content graphs o = Ok ks /\ zinc_content graphs o' = Ok ks' /\ ks <> ks'.
Proof.
  exists [tri_g], (mkZinc 5 true true true), (mkZinc 5 true true false). eexists _, _.
  split; [reflexivity|]. split; [vm_compute; reflexivity|]. split; [vm_compute; reflexivity|]. discriminate.
Qed.

(** OGB and the peptides call the same conversion with [include_down_adj] (ogb.py:66-74). *)
Definition ogb_content (graphs : list (graph Z)) (o : ogb_opts) :=
  convert_with_rings Zops Z.eqb one (any_lib true) (ref_isos 5) (@List.rev _) RAdd graphs (o_ring o) (o_down o)
    (o_edges o) false.
Theorem C33_ogb_refuted : exists graphs o o' ks ks',
  ogb_path o = ogb_path o' /\ ogb_content graphs o = Ok ks /\ ogb_content graphs o' = Ok ks' /\ ks <> ks'.
Proof.
  exists [tri_g], (mkOGB "ogbg-molhiv" 5 true "sum" true false), (mkOGB "ogbg-molhiv" 5 true "sum" false false).
  eexists _, _. split; [reflexivity|]. split; [vm_compute; reflexivity|]. split; [vm_compute; reflexivity|]. discriminate.
Qed.
Definition pep_content (graphs : list (graph Z)) (o : pep_opts) :=
  convert_with_rings Zops Z.eqb one (any_lib true) (ref_isos 5) (@List.rev _) RAdd graphs (p_ring o) (p_down o) true false.
Theorem C33_peptides_refuted : exists graphs o o' ks ks',
  (forall name, pep_path name o = pep_path name o') /\
  pep_content graphs o = Ok ks /\ pep_content graphs o' = Ok ks' /\ ks <> ks'.
Proof.
  exists [tri_g], (mkPep 5 "sum" true), (mkPep 5 "sum" false).
  eexists _, _. split; [reflexivity|]. split; [vm_compute; reflexivity|]. split; [vm_compute; reflexivity|]. discriminate.
Qed.

(** The numbers of samples are not part of the path: the stored lists then have different lengths
    (ringtransfer.py:44-54, flow.py:49-57). *)
Theorem C33_transfer_refuted : exists o o' gs gs',
  transfer_path o = transfer_path o' /\
  load_ring_transfer (t_nodes o) (t_train o) (t_test o) 5 = Ok gs /\
  load_ring_transfer (t_nodes o') (t_train o') (t_test o') 5 = Ok gs' /\ length (fst gs) <> length (fst gs').
Proof.
  exists (mkTransfer 10 50 10), (mkTransfer 10 10 5). eexists _, _. split; [reflexivity|].
  split; [vm_compute; reflexivity|]. split; [vm_compute; reflexivity|]. discriminate.
Qed.
Theorem C33_flow_refuted : exists o o',
  flow_path o = flow_path o' /\ f_train o + f_val o <> f_train o' + f_val o'.
Proof.
  exists (mkFlow "FLOW" 1000 1000 200 "default" "default"), (mkFlow "FLOW" 1000 10 2 "default" "default").
  split; [reflexivity|simpl; lia].
Qed.

Example C33_ex : sr_path (mkSR "sr16622" 2 "sum" true (Some 6)) = "cell_complex_dim2_sum_6rings_down_adj/sr16622_complex_list.pt" /\
  zinc_path (mkZinc 18 true false true) = "cell_complex_dim2_None_full_18rings-E/ZINC_complex.pt" /\ word "sum".
Proof. repeat split. Qed.

Print Assumptions C33_sr.
Print Assumptions C33_tu_partial.
Print Assumptions C33_zinc_partial.
Print Assumptions C33_ogb_partial.
Print Assumptions C33_peptides_partial.
Print Assumptions C33_csl.
Print Assumptions C33_flow_partial.
Print Assumptions C33_ocean.
Print Assumptions C33_transfer_partial.
Print Assumptions C33_lookup.
Print Assumptions C33_cluster.
Print Assumptions C33_dummy.
Print Assumptions C33_zinc_refuted.
Print Assumptions C33_ogb_refuted.
Print Assumptions C33_peptides_refuted.
Print Assumptions C33_transfer_refuted.
Print Assumptions C33_flow_refuted.
