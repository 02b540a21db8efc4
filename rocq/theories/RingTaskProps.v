(** C55: which networks solve the ring transfer task.  The network must report at node 0 the position of
    the largest entry of the row at the opposite node. *)
From Coq Require Import List Arith Lia ZArith Bool Permutation.
From Verif Require Import Base ScatterModel ScatterSpec ScatterProofs ComplexModel BatchSpec BatchSpec2
  BatchProofs BatchProofs2 MPModel MPSpec MPProofs MPBatch MPNets LiftModel LiftSpec LiftRingProps LiftRingExamples PermLift
  RingModel RingProps GraphNetModel GraphNetSpec GraphNetProofs RingNetProofs GraphNetProps
  RingTaskModel RingTaskSpec RingTaskProofs.
Import ListNotations.

(** ** Graphs *)
Lemma sample_graph {V} (enc : list Z -> V) n t : 3 <= n -> t <> [] ->
  exists g y, ring_transfer n t = Ok g /\ r_y g = [y] /\ argmax t = Ok y /\
    pgraph_ok (ring_pgraph enc g) /\ mask_ok (ring_pgraph enc g) /\
    marked (content (g_mask (ring_pgraph enc g))) = [0].
Proof.
  intros Hn Ht. destruct (C41_ring_transfer n t ltac:(lia) Ht) as (g & Eg & Ee & Lx & Lm & Nm & _ & _ & _ & y & Ey & Ay).
  exists g, y. split; auto. split; auto. split; auto. unfold pgraph_ok, mask_ok, ring_pgraph. cbn [g_edges g_x g_mask].
  rewrite map_length, Ee, Lx. split; [apply C41_ring; auto|]. split; [eauto|]. cbn [content]. apply (marked_zero n); auto; lia.
Qed.

(** Messages of a graph network must travel half of the ring: with enough identity layers RingGIN
    answers every sample correctly, ... *)
Theorem C55_gin_solves : forall n t rest, 3 <= n -> t <> [] -> Forall (fun z => (0 <= z)%Z) t -> n / 2 <= S rest ->
  exists g y b v, ring_transfer n t = Ok g /\ r_y g = [y] /\ batch_graphs [ring_pgraph (fun r => r) g] = Ok b /\
    ring_gin_forward (vec (length t)) (id_gin rest) b = Ok [v] /\ argmax v = Ok y.
Proof.
  intros n t rest Hn Ht Hp Hr.
  destruct (sample_graph (fun r => r) n t Hn Ht) as (g & y & Eg & Ey & Ay & Gok & Mok & Em).
  destruct (ring_gin_batch (vec (length t)) (id_gin rest) [ring_pgraph (fun r => r) g]) as (b & Eb & Ef); [discriminate| | |].
  { constructor; auto. } { constructor; auto. }
  cbn [map concat] in Ef. unfold ring_gin_answers in Ef. rewrite Em in Ef. cbn [map app] in Ef.
  exists g, y, b. eexists. split; auto. split; auto. split; [exact Eb|]. split; [exact Ef|].
  rewrite <- Ay. apply aff_argmax; auto. cbn [rg_lin1 id_gin].
  destruct (C41_ring_transfer n t ltac:(lia) Ht) as (g' & Eg' & Ee & Lx & _ & _ & Nt & N0 & N1 & _).
  assert (g' = g) by congruence. subst g'.
  change (g_edges (ring_pgraph (fun r => r) g)) with (r_edges g). rewrite Ee.
  apply gin_reaches with (p := n / 2).
  - cbn [id_gin rg_first rg_rest]. constructor; [|apply Forall_forall; intros l Hl; apply repeat_spec in Hl; subst l];
      intros p v Hv; cbn [gc_act gc_nn gc_scale]; (split; [|reflexivity]); repeat apply aff_relu; auto.
  - apply Nat.div_lt; lia.
  - intros j. unfold node_feats, ring_pgraph. cbn [g_x rg_init id_gin]. rewrite map_id.
    destruct (Nat.lt_ge_cases j n) as [Lj|Lj].
    + destruct (Nat.eq_dec j (n / 2)) as [->|Nj]; [rewrite (nth_error_nth _ _ _ Nt); apply aff_weaken, aff_target; auto|].
      destruct (Nat.eq_dec j 0) as [->|Nj0]; [rewrite (nth_error_nth _ _ _ N0); apply aff_zero|].
      rewrite (nth_error_nth _ _ _ (N1 j ltac:(lia) Nj)). apply aff_ones.
    + rewrite nth_overflow by lia. apply aff_zero.
  - unfold node_feats, ring_pgraph. cbn [g_x rg_init id_gin]. rewrite map_id, (nth_error_nth _ _ _ Nt). apply aff_target; auto.
  - cbn [id_gin rg_first rg_rest length]. rewrite repeat_length. auto.
Qed.

(** ... and with fewer layers no RingGIN, whatever its weights, can tell two targets apart. *)
Theorem C55_gin_too_shallow : forall V (o : ops V) (enc : list Z -> V) (m : ring_gin V) n t t',
  3 <= n -> t <> [] -> length t = length t' -> S (length (rg_rest m)) < n / 2 ->
  exists g g' b b' v, ring_transfer n t = Ok g /\ ring_transfer n t' = Ok g' /\
    batch_graphs [ring_pgraph enc g] = Ok b /\ batch_graphs [ring_pgraph enc g'] = Ok b' /\
    ring_gin_forward o m b = Ok [v] /\ ring_gin_forward o m b' = Ok [v].
Proof.
  intros V o enc m n t t' Hn Ht Hl Hs. assert (Ht' : t' <> []) by (destruct t, t'; try discriminate; congruence).
  destruct (sample_graph enc n t Hn Ht) as (g & y & Eg & Ey & Ay & Gok & Mok & Em).
  destruct (sample_graph enc n t' Hn Ht') as (g' & y' & Eg' & Ey' & Ay' & Gok' & Mok' & Em').
  destruct (ring_gin_batch o m [ring_pgraph enc g]) as (b & Eb & Ef); [discriminate|constructor; auto|constructor; auto|].
  destruct (ring_gin_batch o m [ring_pgraph enc g']) as (b' & Eb' & Ef'); [discriminate|constructor; auto|constructor; auto|].
  cbn [map concat] in Ef, Ef'. unfold ring_gin_answers in Ef, Ef'. rewrite Em in Ef. rewrite Em' in Ef'. cbn [map app] in Ef, Ef'.
  exists g, g', b, b'. eexists. split; auto. split; auto. split; auto. split; auto. split; [exact Ef|]. rewrite Ef'. do 2 f_equal. f_equal.
  destruct (C41_ring_transfer n t ltac:(lia) Ht) as (h & Eh & Ee & Lx & _ & _ & _ & N0 & N1 & _).
  assert (h = g) by congruence. subst h.
  destruct (C41_ring_transfer n t' ltac:(lia) Ht') as (h & Eh' & Ee' & Lx' & _ & _ & _ & N0' & N1' & _).
  assert (h = g') by congruence. subst h.
  change (g_edges (ring_pgraph enc g)) with (r_edges g). change (g_edges (ring_pgraph enc g')) with (r_edges g').
  rewrite Ee, Ee'. symmetry. apply gin_local. intros k j Hk Hw. f_equal. unfold node_feats, ring_pgraph. cbn [g_x].
  destruct (Nat.lt_ge_cases j n) as [Lj|Lj]; [|rewrite !nth_overflow by (rewrite map_length; lia); auto].
  apply ring_walk in Hw; auto. cbn [length] in Hk.
  assert (Nj : j <> n / 2) by (intros ->; rewrite dist_opposite in Hw by lia; unfold dist0 in Hw; lia).
  destruct (Nat.eq_dec j 0) as [->|Nj0].
  - rewrite (nth_error_nth _ _ _ (map_nth_error enc 0 _ N0)), (nth_error_nth _ _ _ (map_nth_error enc 0 _ N0')). congruence.
  - rewrite (nth_error_nth _ _ _ (map_nth_error enc j _ (N1 j ltac:(lia) Nj))),
      (nth_error_nth _ _ _ (map_nth_error enc j _ (N1' j ltac:(lia) Nj))). congruence.
Qed.

(** ** Complexes *)
Section Cin.
Variables (lib : list (list nat) -> simplex_tree) (isos : list (nat * nat) -> nat -> list (list nat))
  (so : list (list nat) -> list (list nat)) (r : reduce).

(** The answer to one sample. *)
Lemma sample_forward {V} (o : ops V) veqb (enc : list Z -> V) (m : ring_cin V) n t :
  (forall a b, veqb a b = true <-> a = b) -> vdivn o (vzero o) 1 = vzero o -> 3 <= n -> t <> [] ->
  ring_oracles lib isos so n -> rc_layers m <> [] ->
  exists g K y b b', ring_transfer n t = Ok g /\ ring_transfer_complex o veqb lib isos so r enc n t = Ok K /\
    argmax t = Ok y /\ k_y K = Some [Z.of_nat y] /\ from_complex_list [K] 2 = Ok b /\
    let Sk := skel_of 2 K (fun d => length (rcells_n lib isos so n d)) in
    ring_skel n Sk /\ wf_complex K (fun d => length (rcells_n lib isos so n d)) /\ k_dim K = 2 /\
    (forall d i, feats_of o K d i = sample_feats o enc g d i) /\
    ring_cin_forward o m b = Ok ([rc_lin1 m (ring_feats o m Sk (feats_of o K) 0 0)], b').
Proof.
  intros Hv Hdiv Hn Ht HO HL.
  destruct (ring_sample o veqb Hv lib isos so r enc n t Hn Ht HO) as (g & K & y & Eg & EK & RC & HC & D2 & Ey & Ay & EY & mk & M1 & M2 & M3).
  destruct (ring_cin_batch o Hdiv m [K] [fun d => length (rcells_n lib isos so n d)] 2) as (b & b' & Eb & Ef); auto.
  - discriminate.
  - constructor; auto. apply HC.
  - constructor; auto. intros d c Hd Hc. rewrite (hc_x _ _ _ _ HC d c Hc). unfold finished_x. destruct (d =? 0); discriminate.
  - constructor; auto. exists mk. split; auto. rewrite M2. symmetry. apply (rc_vertices _ _ _ _ RC).
  - exists g, K, y, b, b'. do 5 (split; auto). cbv zeta. split; [eapply sample_skel; eauto|].
    split; [apply HC|]. split; auto. split; [apply (finished_feats o _ _ K HC)|].
    rewrite Ef. cbn [combine map concat fst snd]. unfold ring_cin_answers, mask_of. rewrite M1. cbn [content].
    rewrite (marked_zero n mk) by (auto; lia). reflexivity.
Qed.

(** Rows that are affine in the target survive the layers. *)
Section Aff.
Variable t : list Z.
Hypothesis Ht : Forall (fun z => (0 <= z)%Z) t.
Notation w := (length t).
Notation o := (vec w).
Variable (S : skel).

Definition good_up (up : list Z -> list Z -> list Z) : Prop :=
  forall x a, aff t false x -> aff t false a -> aff t false (up x a).

Lemma level_step up comb (L : nat -> sparse_level (list Z)) X d i : d <= 2 -> L d = level_of w up comb ->
  step o 2 true S (mkLayer (fun d => sparse_rule o (L d)) None) X d i =
    relu (comb (relu (relu (vadd o (reduce_rows o RAdd (map (fun e => relu (up (X d (fst (fst e))) (X (d + 1) (snd e)))) (up_at S d i))) (X d i))))
               (relu (relu (vadd o (reduce_rows o RAdd (map (fun p => X (pred d) (fst p)) (bnd_at S d i))) (X d i))))).
Proof.
  intros Hd HL. unfold step. cbn [l_rule]. rewrite (proj2 (Nat.leb_le d 2) Hd), HL.
  unfold new_feature, agg_up, agg_low, agg_bnd, cob_visible. rewrite orb_true_r. reflexivity.
Qed.

Lemma up_false up X d i : good_up up -> (forall d i, aff t false (X d i)) ->
  aff t false (relu (relu (vadd o (reduce_rows o RAdd (map (fun e => relu (up (X d (fst (fst e))) (X (d + 1) (snd e)))) (up_at S d i))) (X d i)))).
Proof.
  intros HU HX. repeat apply aff_relu; auto. apply (aff_add t false false); auto. apply aff_reduce; auto.
  apply Forall_map, Forall_forall. intros e _. apply aff_relu; auto.
Qed.
Lemma bnd_false X d i : (forall d i, aff t false (X d i)) ->
  aff t false (relu (relu (vadd o (reduce_rows o RAdd (map (fun p => X (pred d) (fst p)) (bnd_at S d i))) (X d i)))).
Proof.
  intros HX. repeat apply aff_relu; auto. apply (aff_add t false false); auto. apply aff_reduce; auto.
  apply Forall_map, Forall_forall. intros e _. auto.
Qed.

Lemma up_true up X d i : good_up up -> (forall d i, aff t false (X d i)) ->
  aff t true (X d i) \/ (exists j c, In ((j, i), c) (s_up S d) /\ aff t true (up (X d j) (X (d + 1) c))) ->
  aff t true (relu (relu (vadd o (reduce_rows o RAdd (map (fun e => relu (up (X d (fst (fst e))) (X (d + 1) (snd e)))) (up_at S d i))) (X d i)))).
Proof.
  intros HU HX H. repeat apply aff_relu; auto.
  assert (HF : Forall (aff t false) (map (fun e => relu (up (X d (fst (fst e))) (X (d + 1) (snd e)))) (up_at S d i)))
    by (apply Forall_map, Forall_forall; intros e _; apply aff_relu; auto).
  destruct H as [H|(j & c & Hj & H)].
  - apply (aff_add t false true); auto. apply aff_reduce; auto.
  - apply (aff_add t true false); auto. apply aff_reduce_pos; auto. apply Exists_exists. eexists. split; [|apply aff_relu; [auto|exact H]].
    apply in_map_iff. exists ((j, i), c). split; auto. apply filter_In. split; auto. simpl. apply Nat.eqb_refl.
Qed.
Lemma bnd_true X d i f : (forall d i, aff t false (X d i)) -> In (f, i) (s_bnd S d) -> aff t true (X (pred d) f) ->
  aff t true (relu (relu (vadd o (reduce_rows o RAdd (map (fun p => X (pred d) (fst p)) (bnd_at S d i))) (X d i)))).
Proof.
  intros HX Hf H. repeat apply aff_relu; auto. apply (aff_add t true false); auto. apply aff_reduce_pos; auto.
  - apply Forall_map, Forall_forall. intros e _. auto.
  - apply Exists_exists. exists (X (pred d) f). split; auto. apply in_map_iff. exists (f, i). split; auto.
    apply filter_In. split; auto. simpl. apply Nat.eqb_refl.
Qed.

Lemma step_false (L : nat -> sparse_level (list Z)) X :
  (forall d, L d = keep w \/ L d = take_faces w \/ L d = add_neighbours w \/ L d = add_cofaces w) ->
  (forall d i, aff t false (X d i)) ->
  forall d i, aff t false (step o 2 true S (mkLayer (fun d => sparse_rule o (L d)) None) X d i).
Proof.
  intros HL HX d i. destruct (Nat.le_gt_cases d 2) as [Hd|Hd].
  2:{ unfold step. replace (d <=? 2) with false by (symmetry; apply Nat.leb_gt; auto). cbn [l_top]. auto. }
  destruct (HL d) as [E|[E|[E|E]]].
  - rewrite (level_step (fun _ _ => repeat 0%Z w) (fun u _ => u) L X d i Hd E). apply aff_relu; [exact Ht|].
    apply (up_false (fun _ _ => repeat 0%Z w)); [intros x a _ _; apply aff_zero|exact HX].
  - rewrite (level_step (fun _ _ => repeat 0%Z w) (fun _ b => b) L X d i Hd E). apply aff_relu; [exact Ht|].
    apply bnd_false. exact HX.
  - rewrite (level_step (fun x _ => x) (fun u _ => u) L X d i Hd E). apply aff_relu; [exact Ht|].
    apply (up_false (fun x _ => x)); [intros x a Hx _; exact Hx|exact HX].
  - rewrite (level_step (fun _ a => a) (fun u _ => u) L X d i Hd E). apply aff_relu; [exact Ht|].
    apply (up_false (fun _ a => a)); [intros x a _ Ha; exact Ha|exact HX].
Qed.

Theorem cin_reaches n X : 3 <= n -> ring_skel n S -> (forall d i, aff t false (X d i)) -> aff t true (X 0 (n / 2)) ->
  aff t true (last (history o 2 true S (sparse_layers o (rc_layers (three_layers w))) X) X 0 0).
Proof.
  intros Hn HS HX HT. unfold sparse_layers, three_layers. cbn [rc_layers map history last].
  match goal with |- aff _ _ (step _ _ _ _ ?l3 (step _ _ _ _ ?l2 (step _ _ _ _ ?l1 _)) _ _) =>
    set (L1 := l1); set (L2 := l2); set (L3 := l3) end.
  set (X1 := step o 2 true S L1 X). set (X2 := step o 2 true S L2 X1).
  assert (A1 : forall d i, aff t false (X1 d i)).
  { apply step_false; auto. intros d. destruct (d =? 1); auto. }
  assert (A2 : forall d i, aff t false (X2 d i)).
  { apply step_false; auto. intros d. destruct (d =? 1); auto. }
  assert (Ho : n / 2 < n) by (apply Nat.div_lt; lia).
  destruct (rs_edge _ _ HS (n / 2) Ho) as (e & He).
  assert (P1 : aff t true (X1 1 e)).
  { unfold X1, L1. rewrite (level_step (fun _ _ => repeat 0%Z w) (fun _ b => b)); [|lia|reflexivity].
    apply aff_relu; [exact Ht|]. apply bnd_true with (f := n / 2); [exact HX|exact He|exact HT]. }
  assert (P2 : forall e' v, In (v, e') (s_bnd S 1) -> aff t true (X2 1 e')).
  { intros e' v Hv. unfold X2, L2. rewrite (level_step (fun x _ => x) (fun u _ => u)); [|lia|reflexivity].
    apply aff_relu; [exact Ht|]. apply (up_true (fun x _ => x)); [intros x a Hx _; exact Hx|exact A1|].
    destruct (Nat.eq_dec e' e) as [->|Ne]; [left; auto|right].
    destruct (rs_up1 _ _ HS e' e v (n / 2) Hv He Ne) as (c & Hc). exists e, c. auto. }
  unfold L3. rewrite (level_step (fun _ a => a) (fun u _ => u)); [|lia|reflexivity].
  apply aff_relu; [exact Ht|]. apply (up_true (fun _ a => a)); [intros x a _ Ha; exact Ha|exact A2|]. right.
  destruct (rs_cob0 _ _ HS) as (j & c & Hj & v & Hv). exists j, c. split; auto. eapply P2; eauto.
Qed.
End Aff.

Lemma sample_rows {V} (o : ops V) (enc : list Z -> V) n t g : 3 <= n -> t <> [] -> ring_transfer n t = Ok g ->
  sample_feats o enc g 0 (n / 2) = enc t /\
  forall d i, (d, i) <> (0, n / 2) ->
    sample_feats o enc g d i =
      if (d =? 0) && (i <? n) then if i =? 0 then enc (repeat 0%Z (length t)) else enc (repeat 1%Z (length t)) else vzero o.
Proof.
  intros Hn Ht Eg. destruct (C41_ring_transfer n t ltac:(lia) Ht) as (h & Eh & Ee & Lx & _ & _ & Nt & N0 & N1 & _).
  assert (h = g) by congruence. subst h. unfold sample_feats. split.
  - cbn [Nat.eqb]. apply nth_error_nth, map_nth_error. auto.
  - intros d i Hne. destruct (Nat.eqb_spec d 0) as [->|Hd]; [|reflexivity]. cbn [andb].
    destruct (Nat.ltb_spec i n) as [Li|Li]; [|apply nth_overflow; rewrite map_length; lia].
    assert (Ni : i <> n / 2) by congruence.
    destruct (Nat.eqb_spec i 0) as [->|Ni0]; apply nth_error_nth, map_nth_error; auto. apply N1; auto; lia.
Qed.

(** One network with three layers answers every sample on every ring correctly. *)
Theorem C55_cin_solves : forall n t veqb, (forall a b : list Z, veqb a b = true <-> a = b) ->
  3 <= n -> t <> [] -> Forall (fun z => (0 <= z)%Z) t -> ring_oracles lib isos so n ->
  exists K y b b' v, ring_transfer_complex (vec (length t)) veqb lib isos so r (fun v => v) n t = Ok K /\
    argmax t = Ok y /\ k_y K = Some [Z.of_nat y] /\ from_complex_list [K] 2 = Ok b /\
    ring_cin_forward (vec (length t)) (three_layers (length t)) b = Ok ([v], b') /\ argmax v = Ok y.
Proof.
  intros n t veqb Hv Hn Ht Hp HO.
  destruct (sample_forward (vec (length t)) veqb (fun v => v) (three_layers (length t)) n t Hv (vec_div _) Hn Ht HO)
    as (g & K & y & b & b' & Eg & EK & Ay & EY & Eb & HS & _ & _ & HF & Ef); [discriminate|].
  destruct (sample_rows (vec (length t)) (fun v => v) n t g Hn Ht Eg) as [Rt Ro].
  exists K, y, b, b'. eexists. do 4 (split; auto). split; [exact Ef|]. rewrite <- Ay. apply aff_argmax; auto.
  cbn [rc_lin1 three_layers]. unfold ring_feats. apply cin_reaches with (n := n); auto.
  - intros d i. unfold init_nodes. cbn [rc_init three_layers].
    assert (H : aff t false (feats_of (vec (length t)) K d i)); [|destruct (d =? 0); auto].
    rewrite HF. destruct (Nat.eq_dec d 0) as [->|Nd].
    + destruct (Nat.eq_dec i (n / 2)) as [->|Ni]; [rewrite Rt; apply aff_weaken, aff_target; auto|].
      rewrite Ro by congruence. destruct ((0 =? 0) && (i <? n)); [|apply aff_zero]. destruct (i =? 0); [apply aff_zero|apply aff_ones].
    + rewrite Ro by congruence. replace (d =? 0) with false by (symmetry; apply Nat.eqb_neq; auto). apply aff_zero.
  - unfold init_nodes. cbn [Nat.eqb rc_init three_layers]. rewrite HF, Rt. apply aff_target; auto.
Qed.

(** If the opposite node is out of reach the answer does not depend on the target. *)
Lemma blind {V} (o : ops V) veqb (enc : list Z -> V) (m : ring_cin V) cob n t t' :
  (forall a b, veqb a b = true <-> a = b) -> vdivn o (vzero o) 1 = vzero o -> 3 <= n -> t <> [] -> length t = length t' ->
  ring_oracles lib isos so n -> rc_layers m <> [] ->
  Forall (uses cob false) (sparse_layers o (rc_layers m)) ->
  (forall Sk k, ring_skel n Sk -> k <= length (rc_layers m) -> ~ sees Sk cob false k (0, 0) (0, n / 2)) ->
  exists K K' b b' c c' v, ring_transfer_complex o veqb lib isos so r enc n t = Ok K /\
    ring_transfer_complex o veqb lib isos so r enc n t' = Ok K' /\
    from_complex_list [K] 2 = Ok b /\ from_complex_list [K'] 2 = Ok b' /\
    ring_cin_forward o m b = Ok ([v], c) /\ ring_cin_forward o m b' = Ok ([v], c').
Proof.
  intros Hv Hdiv Hn Ht Hl HO HL HU HN. assert (Ht' : t' <> []) by (destruct t, t'; try discriminate; congruence).
  destruct (sample_forward o veqb enc m n t Hv Hdiv Hn Ht HO HL) as (g & K & y & b & c & Eg & EK & _ & _ & Eb & HS & HW & D2 & HF & Ef).
  destruct (sample_forward o veqb enc m n t' Hv Hdiv Hn Ht' HO HL) as (g' & K' & y' & b' & c' & Eg' & EK' & _ & _ & Eb' & HS' & HW' & D2' & HF' & Ef').
  cbv zeta in *. exists K, K', b, b', c, c'. eexists. do 4 (split; auto). split; [exact Ef|]. rewrite Ef'. do 4 f_equal.
  destruct (sample_rows o enc n t g Hn Ht Eg) as [_ R]. destruct (sample_rows o enc n t' g' Hn Ht' Eg') as [_ R'].
  set (Sk := skel_of 2 K _) in *. set (Sk' := skel_of 2 K' _) in *.
  assert (SS : same_skel Sk' Sk).
  { apply skel_same; auto; [congruence|]. eapply sample_lists; eauto. }
  unfold ring_feats.
  set (X0 := init_nodes (rc_init m) (feats_of o K)). set (X0' := init_nodes (rc_init m) (feats_of o K')).
  rewrite (history_ext o (rc_max_dim m) true Sk' Sk SS _ X0' X0') by auto.
  apply (C54_receptive_field o Sk cob false); auto.
  intros k e j Hk Hs. unfold sparse_layers in Hk. rewrite map_length in Hk.
  assert (Ne : (e, j) <> (0, n / 2)) by (intros E; rewrite E in Hs; exact (HN Sk k HS Hk Hs)).
  unfold X0, X0', init_nodes. rewrite HF, HF', R, R' by auto. rewrite Hl. auto.
Qed.

Lemma sparse_uses {V} (o : ops V) (ls : list (nat -> sparse_level V)) : Forall (uses true false) (sparse_layers o ls).
Proof. apply Forall_map, Forall_forall. intros l _. split; [discriminate|]. intros _ d. reflexivity. Qed.

Lemma fst_uses {V} (o : ops V) (ls : list (nat -> sparse_level V)) :
  (forall l d, In l ls -> exists f, sp_up (l d) = MsgFst f) -> Forall (uses false false) (sparse_layers o ls).
Proof.
  intros H. apply Forall_map, Forall_forall. intros l Hl. split; [|intros _ d; reflexivity].
  intros _ d x a a'. destruct (H l d Hl) as (f & E). cbn [l_rule]. unfold sparse_rule, cfg_rule, sparse_cfg. cbn. rewrite E. reflexivity.
Qed.

(** Without coboundaries messages between nodes only travel along edges. *)
Lemma sees_walk n Sk k i c : ring_skel n Sk -> sees Sk false false k (0, i) c -> exists j, c = (0, j) /\ walk (ring_edges n) k i j.
Proof.
  intros HS H. remember (0, i) as a eqn:Ea. revert i Ea. induction H as [c|k d i j t c Hin Hs IH|k d i j t c Hc Hin Hs IH|k d i j t c Hc Hin Hs IH|k d i j t c Hc Hin Hs IH|k d i f c Hin Hs IH];
    intros i0 Ea; try discriminate.
  - exists i0. split; auto. constructor.
  - inversion Ea; subst. destruct (IH j eq_refl) as (j' & -> & Hw). exists j'. split; auto. econstructor; eauto. eapply rs_up0; eauto.
  - inversion Ea; subst. rewrite (rs_bnd0 _ _ HS) in Hin. destruct Hin.
Qed.

(** exp/run_ring_exp.py gives RingSparseCIN three layers and, unless --use_coboundaries is given,
    messages that ignore the coboundaries (layers.py:290-298).  Then the answer does not depend on the
    target as soon as the ring is longer than twice the number of layers: with the defaults (three
    layers, rings of 10 to 30 nodes) the task cannot be solved. *)
Theorem C55_no_coboundaries : forall V (o : ops V) veqb (enc : list Z -> V) (m : ring_cin V) n t t',
  (forall a b, veqb a b = true <-> a = b) -> vdivn o (vzero o) 1 = vzero o -> 3 <= n -> t <> [] -> length t = length t' ->
  ring_oracles lib isos so n -> rc_layers m <> [] ->
  (forall l d, In l (rc_layers m) -> exists f, sp_up (l d) = MsgFst f) -> length (rc_layers m) < n / 2 ->
  exists K K' b b' c c' v, ring_transfer_complex o veqb lib isos so r enc n t = Ok K /\
    ring_transfer_complex o veqb lib isos so r enc n t' = Ok K' /\
    from_complex_list [K] 2 = Ok b /\ from_complex_list [K'] 2 = Ok b' /\
    ring_cin_forward o m b = Ok ([v], c) /\ ring_cin_forward o m b' = Ok ([v], c').
Proof.
  intros V o veqb enc m n t t' Hv Hdiv Hn Ht Hl HO HL HF HS. apply blind with (cob := false); auto.
  - apply fst_uses; auto.
  - intros Sk k HK Hk Hs. destruct (sees_walk n Sk k 0 _ HK Hs) as (j & E & Hw). inversion E; subst j.
    apply ring_walk in Hw; auto. rewrite dist_opposite in Hw by lia. unfold dist0 in Hw. lia.
Qed.

(** Three layers are also needed: with one or two, with coboundaries, a ring of six nodes is too long. *)
Lemma two_steps n Sk k d i : 6 <= n -> ring_skel n Sk -> sees Sk true false k (d, i) (0, n / 2) ->
  (k = 0 -> d = 0 /\ i = n / 2) /\
  (k = 1 -> (d = 0 /\ n / 2 <= dist0 n i + 1) \/ (d = 1 /\ In (n / 2, i) (s_bnd Sk 1))) /\
  (k = 2 -> d = 0 -> n / 2 <= dist0 n i + 2).
Proof.
  intros Hn HS H. remember (d, i) as a eqn:Ea. remember (0, n / 2) as c eqn:Ec. revert d i Ea.
  assert (DO : dist0 n (n / 2) = n / 2) by (apply dist_opposite; lia).
  induction H as [c|k d i j t c Hin Hs IH|k d i j t c Hc Hin Hs IH|k d i j t c Hc Hin Hs IH|k d i j t c Hc Hin Hs IH|k d i f c Hin Hs IH];
    intros d0 i0 Ea; try discriminate.
  - rewrite Ec in Ea. inversion Ea. subst. split; [auto|]. split; intros; lia.
  - inversion Ea; subst d0 i0. destruct (IH Ec d j eq_refl) as (I0 & I1 & _). split; [lia|]. split; intros Hk.
    + destruct (I0 ltac:(lia)) as [-> ->]. left. split; auto. pose proof (rs_up0 _ _ HS _ _ _ Hin) as Hr.
      apply ring_hop in Hr; lia.
    + intros ->. pose proof (rs_up0 _ _ HS _ _ _ Hin) as Hr. apply ring_hop in Hr; [|lia].
      destruct (I1 ltac:(lia)) as [[_ H]|[H _]]; lia.
  - inversion Ea; subst d0 i0. destruct (IH Ec (d + 1) t eq_refl) as (I0 & I1 & _). split; [lia|]. split; intros Hk.
    + destruct (I0 ltac:(lia)); lia.
    + intros ->. destruct (I1 ltac:(lia)) as [[H _]|[_ H]]; [lia|].
      destruct (rs_cob _ _ HS _ _ _ Hin) as [Hi _]. destruct (rs_two _ _ HS _ _ _ H Hi) as [E|Hr]; [subst; lia|].
      apply ring_hop in Hr; lia.
  - inversion Ea; subst d0 i0. destruct (IH Ec (pred d) f eq_refl) as (I0 & I1 & _). split; [lia|]. split; intros Hk.
    + destruct (I0 ltac:(lia)) as [Hp ->]. destruct d as [|d]; [rewrite (rs_bnd0 _ _ HS) in Hin; destruct Hin|].
      cbn [pred] in Hp. subst d. right. auto.
    + intros ->. rewrite (rs_bnd0 _ _ HS) in Hin. destruct Hin.
Qed.

Theorem C55_two_layers : forall V (o : ops V) veqb (enc : list Z -> V) (m : ring_cin V) n t t',
  (forall a b, veqb a b = true <-> a = b) -> vdivn o (vzero o) 1 = vzero o -> 6 <= n -> t <> [] -> length t = length t' ->
  ring_oracles lib isos so n -> rc_layers m <> [] -> length (rc_layers m) <= 2 ->
  exists K K' b b' c c' v, ring_transfer_complex o veqb lib isos so r enc n t = Ok K /\
    ring_transfer_complex o veqb lib isos so r enc n t' = Ok K' /\
    from_complex_list [K] 2 = Ok b /\ from_complex_list [K'] 2 = Ok b' /\
    ring_cin_forward o m b = Ok ([v], c) /\ ring_cin_forward o m b' = Ok ([v], c').
Proof.
  intros V o veqb enc m n t t' Hv Hdiv Hn Ht Hl HO HL HS. apply blind with (cob := true); auto; [lia|apply sparse_uses|].
  assert (H3 : 3 <= n / 2) by (apply Nat.div_le_lower_bound; lia).
  intros Sk k HK Hk Hs. destruct (two_steps n Sk k 0 0 Hn HK Hs) as (I0 & I1 & I2). unfold dist0 in *.
  destruct k as [|[|[|k]]]; [destruct (I0 eq_refl); lia|destruct (I1 eq_refl) as [[_ H]|[H _]]; lia|specialize (I2 eq_refl eq_refl); lia|lia].
Qed.
End Cin.

(** ** Examples *)
Lemma ring_oracles_ex n : 3 <= n -> ring_oracles (any_lib true) (ref_isos n) (@rev _) n.
Proof. intros H. destruct (ring_input_ex n None H I). split; auto. Qed.

Definition zs_eqb (a b : list Z) : bool := if list_eq_dec Z.eq_dec a b then true else false.
Lemma zs_eqb_ok a b : zs_eqb a b = true <-> a = b.
Proof. unfold zs_eqb. destruct (list_eq_dec Z.eq_dec a b); split; congruence. Qed.

Definition third : list Z := [0%Z; 0%Z; 1%Z; 0%Z].
Lemma third_nonneg : Forall (fun z => (0 <= z)%Z) third.
Proof. repeat constructor; lia. Qed.

(** The hypotheses hold for rings of every size. *)
Example C55_ex_gin n (H : 3 <= n) := C55_gin_solves n third (n / 2) H ltac:(discriminate) third_nonneg (le_S _ _ (le_n _)).
Example C55_ex_cin n (H : 3 <= n) :=
  C55_cin_solves (any_lib true) (ref_isos n) (@rev _) RAdd n third zs_eqb zs_eqb_ok H ltac:(discriminate) third_nonneg (ring_oracles_ex n H).

(** A network without coboundaries with three layers on a ring of 10 nodes. *)
Definition no_cob : ring_cin (list Z) :=
  mkRingCin 2 (fun v => v)
    (repeat (fun _ => mkSparseLevel (MsgFst (fun v => v)) (fun v => v) (fun v => v) (fun v => v)
                        (fun u b => zipz Z.add 4 u b) (fun v => v) (fun v => v)) 3) (fun v => v).
Example C55_ex_default : exists K K' b b' c c' v,
    ring_transfer_complex (vec 4) zs_eqb (any_lib true) (ref_isos 10) (@rev _) RAdd (fun v => v) 10 third = Ok K /\
    ring_transfer_complex (vec 4) zs_eqb (any_lib true) (ref_isos 10) (@rev _) RAdd (fun v => v) 10 [1; 0; 0; 0]%Z = Ok K' /\
    from_complex_list [K] 2 = Ok b /\ from_complex_list [K'] 2 = Ok b' /\
    ring_cin_forward (vec 4) no_cob b = Ok ([v], c) /\ ring_cin_forward (vec 4) no_cob b' = Ok ([v], c').
Proof.
  apply C55_no_coboundaries; auto using zs_eqb_ok; try discriminate; try lia.
  - apply ring_oracles_ex. lia.
  - intros l d Hl. apply repeat_spec in Hl. subst l. eexists. reflexivity.
  - cbn. lia.
Qed.

(** The answers of the two networks on a ring of 6 nodes. *)
Example C55_ex_computed :
  (let* k := ring_transfer_complex (vec 4) zs_eqb (any_lib true) (ref_isos 6) (@rev _) RAdd (fun v => v) 6 third in
   let* b := from_complex_list [k] 2 in
   let* rb := ring_cin_forward (vec 4) (three_layers 4) b in
   mapM argmax (fst rb)) = Ok [2] /\
  (let* g := ring_transfer 6 third in
   let* b := batch_graphs [ring_pgraph (fun v => v) g] in
   let* x := ring_gin_forward (vec 4) (id_gin 2) b in mapM argmax x) = Ok [2] /\
  (let* g := ring_transfer 6 third in
   let* b := batch_graphs [ring_pgraph (fun v => v) g] in
   let* x := ring_gin_forward (vec 4) (id_gin 1) b in mapM argmax x) = Ok [0].
Proof. split; [|split]; vm_compute; reflexivity. Qed.

Print Assumptions C55_gin_solves.
Print Assumptions C55_gin_too_shallow.
Print Assumptions C55_cin_solves.
Print Assumptions C55_no_coboundaries.
Print Assumptions C55_two_layers.
