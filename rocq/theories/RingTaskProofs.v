(** Rows that are a constant plus a multiple of the target; the lifted rings. *)
From Coq Require Import List Arith Lia ZArith Bool Permutation.
From Verif Require Import Base ScatterModel ScatterSpec ScatterProofs ComplexModel BatchSpec BatchSpec2
  BatchProofs BatchProofs2 MPModel MPSpec MPProofs MPBatch MPNets LiftModel LiftSpec LiftRingProps
  RingModel RingProps GraphNetModel GraphNetSpec GraphNetProofs RingNetProofs RingTaskModel RingTaskSpec.
Import ListNotations.

(** ** Rows *)
Lemma nth_map_seq {A} (f : nat -> A) n i d : i < n -> nth i (map f (seq 0 n)) d = f i.
Proof.
  intros H. apply nth_error_nth. rewrite nth_error_map_seq. destruct (Nat.ltb_spec i n); [auto|lia].
Qed.

Lemma vec_div w : vdivn (vec w) (vzero (vec w)) 1 = vzero (vec w).
Proof. simpl. induction w; simpl; auto. f_equal; auto. Qed.

Section Rows.
Variable t : list Z.
Hypothesis Ht : Forall (fun z => (0 <= z)%Z) t.
Notation w := (length t).
Notation o := (vec w).

(** [v] is [a] everywhere plus [b] times the target; [pos]: the target is really there. *)
Definition aff (pos : bool) (v : list Z) : Prop :=
  length v = w /\ exists a b, (0 <= a)%Z /\ (if pos then 0 < b else 0 <= b)%Z /\
    forall c, c < w -> nth c v 0%Z = (a + b * nth c t 0)%Z.

Lemma aff_weaken v : aff true v -> aff false v.
Proof. intros (Hl & a & b & H). split; auto. exists a, b. intuition lia. Qed.

Lemma t_nonneg c : (0 <= nth c t 0)%Z.
Proof.
  destruct (Nat.lt_ge_cases c w) as [H|H].
  - rewrite Forall_forall in Ht. apply Ht. apply nth_In; auto.
  - rewrite nth_overflow by auto. lia.
Qed.

Lemma aff_zero : aff false (repeat 0%Z w).
Proof.
  split; [apply repeat_length|]. exists 0%Z, 0%Z. split; [lia|]. split; [lia|]. intros c Hc. rewrite nth_repeat. lia.
Qed.
Lemma aff_ones : aff false (repeat 1%Z w).
Proof.
  split; [apply repeat_length|]. exists 1%Z, 0%Z. split; [lia|]. split; [lia|]. intros c Hc.
  rewrite (nth_indep _ 0%Z 1%Z) by (rewrite repeat_length; auto). rewrite nth_repeat. lia.
Qed.
Lemma aff_target : aff true t.
Proof. split; auto. exists 0%Z, 1%Z. split; [lia|]. split; [lia|]. intros c Hc. lia. Qed.

Lemma aff_add p q u v : aff p u -> aff q v -> aff (p || q) (vadd o u v).
Proof.
  intros (Lu & a & b & Ha & Hb & Hu) (Lv & a' & b' & Ha' & Hb' & Hv). split.
  - simpl. unfold zipz. rewrite map_length, seq_length. auto.
  - exists (a + a')%Z, (b + b')%Z. split; [lia|]. split; [destruct p, q; simpl in *; lia|].
    intros c Hc. simpl. unfold zipz. rewrite nth_map_seq by auto. rewrite Hu, Hv by auto. lia.
Qed.

Lemma aff_relu p v : aff p v -> aff p (relu v).
Proof.
  intros (Lv & a & b & Ha & Hb & Hv). split; [unfold relu; rewrite map_length; auto|].
  exists a, b. split; auto. split; auto. intros c Hc. unfold relu.
  rewrite (map_nth (Z.max 0) v 0%Z c : nth c (map (Z.max 0) v) 0%Z = _), (Hv c Hc).
  pose proof (t_nonneg c). destruct p; nia.
Qed.

Lemma aff_sum_from l : forall z, Forall (aff false) l -> aff false z -> aff false (fold_left (vadd o) l z).
Proof.
  induction l as [|v l IH]; intros z HF Hz; simpl; auto. inversion HF; subst.
  apply IH; auto. apply (aff_add false false); auto.
Qed.
Lemma aff_sum_pos l : forall z, Forall (aff false) l -> aff false z -> aff true z \/ Exists (aff true) l ->
  aff true (fold_left (vadd o) l z).
Proof.
  induction l as [|v l IH]; intros z HF Hz [H|H]; simpl; auto; try (inversion H; fail); inversion HF; subst.
  - apply IH; auto; [apply (aff_add false false); auto|]. left. apply (aff_add true false); auto.
  - inversion H; subst.
    + apply IH; auto; [apply (aff_add false false); auto|]. left. apply (aff_add false true); auto.
    + apply IH; auto; apply (aff_add false false); auto.
Qed.

Lemma aff_reduce l : Forall (aff false) l -> aff false (reduce_rows o RAdd l).
Proof. intros H. apply aff_sum_from; auto. apply aff_zero. Qed.
Lemma aff_reduce_pos l : Forall (aff false) l -> Exists (aff true) l -> aff true (reduce_rows o RAdd l).
Proof. intros H H'. apply aff_sum_pos; auto. apply aff_zero. Qed.

Lemma argmax_affine a b : (0 < b)%Z -> forall l i best m,
  argmax_from i best (a + b * m) (map (fun z => (a + b * z)%Z) l) = argmax_from i best m l.
Proof.
  intros Hb. induction l as [|z l IH]; intros i best m; simpl; auto.
  replace (a + b * m <? a + b * z)%Z with (m <? z)%Z; [destruct (m <? z)%Z; apply IH|].
  destruct (Z.ltb_spec m z), (Z.ltb_spec (a + b * m) (a + b * z)); auto; nia.
Qed.

Lemma aff_argmax v : aff true v -> argmax v = argmax t.
Proof.
  intros (Hl & a & b & _ & Hb & Hv).
  assert (E : v = map (fun z => (a + b * z)%Z) t).
  { apply nth_ext with (d := 0%Z) (d' := 0%Z); [rewrite map_length; auto|]. intros c Hc. rewrite Hl in Hc.
    rewrite (Hv c Hc), <- (map_nth (fun z => (a + b * z)%Z) t 0%Z c).
    apply nth_indep. rewrite map_length. auto. }
  rewrite E. clear E Hv Hl Ht. destruct t as [|z l]; [reflexivity|].
  unfold argmax. cbn [map]. f_equal. apply argmax_affine; auto.
Qed.

End Rows.

(** ** Graphs *)
Section Gin.
Variable t : list Z.
Hypothesis Ht : Forall (fun z => (0 <= z)%Z) t.
Notation w := (length t).
Notation o := (vec w).

(** A layer that keeps rows of the given form. *)
Definition id_layer (l : gin_layer (list Z)) : Prop :=
  forall p v, aff t p v -> aff t p (gc_act l (gc_nn l v)) /\ gc_scale l v = v.

Lemma gin_step_aff l es X i : id_layer l -> (forall j, aff t false (X j)) -> aff t false (gin_step o l es X i).
Proof.
  intros Hl HX. unfold gin_step. apply Hl. rewrite (proj2 (Hl _ _ (HX i))).
  apply (aff_add t false false); auto. apply aff_reduce; auto. apply Forall_map, Forall_forall. auto.
Qed.
Lemma gin_step_pos l es X i : id_layer l -> (forall j, aff t false (X j)) ->
  aff t true (X i) \/ (exists j, In (j, i) es /\ aff t true (X j)) -> aff t true (gin_step o l es X i).
Proof.
  intros Hl HX H. unfold gin_step. apply Hl. rewrite (proj2 (Hl _ _ (HX i))).
  assert (HF : Forall (aff t false) (map (fun e => X (fst e)) (into es i))) by (apply Forall_map, Forall_forall; auto).
  destruct H as [H|(j & Hj & H)].
  - apply (aff_add t false true); auto. apply aff_reduce; auto.
  - apply (aff_add t true false); auto. apply aff_reduce_pos; auto. apply Exists_exists. exists (X j). split; auto.
    apply in_map_iff. exists (j, i). split; auto. apply filter_In. split; auto. simpl. apply Nat.eqb_refl.
Qed.

Lemma gin_reaches n ls : Forall id_layer ls -> forall X p, p < n -> (forall j, aff t false (X j)) -> aff t true (X p) ->
  p <= length ls -> aff t true (last (gin_history o ls (ring_edges n) X) X 0).
Proof.
  intros HF X p Hp HX Hpos Hlen. rewrite gin_last. revert X p Hp HX Hpos Hlen.
  induction HF as [|l ls Hl HF IH]; intros X p Hp HX Hpos Hlen.
  - cbn [length] in Hlen. replace p with 0 in Hpos by lia. auto.
  - cbn [fold_left]. destruct p as [|p].
    + apply (IH _ 0); [auto|intros; apply gin_step_aff; auto|apply gin_step_pos; auto|lia].
    + apply (IH _ p); [lia|intros; apply gin_step_aff; auto| |cbn [length] in Hlen; lia].
      apply gin_step_pos; auto. right. exists (S p). split; auto. apply ring_edges_in; lia.
Qed.
End Gin.

(** Distance from node 0 on the ring. *)
Definition dist0 (n v : nat) : nat := Nat.min v (n - v).

Lemma ring_hop n i j : 3 <= n -> In (j, i) (ring_edges n) -> dist0 n j <= dist0 n i + 1.
Proof. intros Hn H. apply ring_edges_in in H; [|lia]. unfold dist0. lia. Qed.

Lemma ring_walk n : 3 <= n -> forall l i k, walk (ring_edges n) l i k -> dist0 n k <= dist0 n i + l.
Proof.
  intros Hn l i k H. induction H as [i|l i j k Hin Hw IH]; [lia|]. pose proof (ring_hop n i j Hn Hin). lia.
Qed.

Lemma dist_opposite n : 2 <= n -> dist0 n (n / 2) = n / 2.
Proof. intros Hn. unfold dist0. pose proof (Nat.div_mod n 2). pose proof (Nat.mod_upper_bound n 2). lia. Qed.

(** ** The finished complexes *)
Section Finish.
Context {V : Type} (o : ops V).

Definition same_adj (c c' : cochain V) : Prop :=
  c_dim c = c_dim c' /\ c_upper c = c_upper c' /\ c_shc c = c_shc c' /\ c_lower c = c_lower c' /\ c_shb c = c_shb c' /\
  c_bidx c = c_bidx c' /\ c_n c = c_n c' /\ c_nup c = c_nup c' /\ c_ndown c = c_ndown c'.

Lemma same_adj_refl c : same_adj c c.
Proof. repeat split. Qed.
Lemma same_adj_trans a b c : same_adj a b -> same_adj b c -> same_adj a c.
Proof. unfold same_adj. intuition congruence. Qed.
Lemma same_adj_sym a b : same_adj a b -> same_adj b a.
Proof. unfold same_adj. intuition congruence. Qed.

Lemma wf_same sz D d (c c' : cochain V) : wf_cochain sz D d c -> same_adj c c' ->
  (exists x, c_x c' = Some x /\ length x = sz d) -> wf_cochain sz D d c'.
Proof.
  intros [A1 A2 A3 A4 A5 A6 A7 A8] (E1 & E2 & E3 & E4 & E5 & E6 & E7 & E8 & E9) (x & Ex & Hx).
  split.
  - congruence.
  - rewrite <- E7. auto.
  - rewrite Ex. auto.
  - rewrite <- E2, <- E3. auto.
  - rewrite <- E4, <- E5. auto.
  - rewrite <- E6. auto.
  - rewrite <- E8. auto.
  - rewrite <- E9. auto.
Qed.

Lemma zero_x_ok (c : cochain V) n x : num_cells c = Ok (Some n) -> c_x c = Some x -> length x = n ->
  zero_x o c = Ok (set_x_raw c (Some (repeat (vzero o) n))).
Proof.
  intros Hn Hx Hl. unfold zero_x. rewrite Hx. cbn [of_option bind]. rewrite Hl.
  apply set_x_ok with (n := n); auto. apply repeat_length.
Qed.

Definition finished_x (cells : nat -> list (list nat)) (x : list V) (d : nat) : option (list V) :=
  if d =? 0 then Some x else Some (repeat (vzero o) (length (cells d))).

Lemma ring_finish_ok cells X x rows rows2 (K : complex V) :
  has_cells cells false X K -> k_dim K = 2 -> X 0 = Some x -> X 1 = Some rows -> X 2 = Some rows2 ->
  exists K' m, ring_finish o K = Ok K' /\ has_cells cells false (finished_x cells x) K' /\
    k_dim K' = 2 /\ k_y K' = k_y K /\ attr c_mask 0 K' = Some m /\ length m = length (cells 0) /\
    (forall v, v < length (cells 0) -> nth_error m v = Some (v =? 0)) /\
    Forall2 same_adj (k_cochains K) (k_cochains K').
Proof.
  intros HC HD X0 X1 X2. pose proof (hc_wf _ _ _ _ HC) as W. pose proof (wfk_len _ _ W) as Hlen. rewrite HD in Hlen.
  destruct (k_cochains K) as [|c0 [|c1 [|c2 [|c3 r]]]] eqn:EC; cbn [length] in Hlen; try lia.
  assert (N : forall d c, nth_error (k_cochains K) d = Some c -> num_cells c = Ok (Some (length (cells d))) ).
  { intros d c Hc. apply (wf_num_cells _ _ _ _ (wfk_each _ _ W d c Hc)). }
  rewrite EC in N.
  assert (HX : forall d c, nth_error (k_cochains K) d = Some c -> c_x c = X d) by (apply HC). rewrite EC in HX.
  assert (HL : forall d c y, nth_error (k_cochains K) d = Some c -> c_x c = Some y -> length y = length (cells d)).
  { intros d c y Hc Hy. pose proof (wf_x _ _ _ _ (wfk_each _ _ W d c Hc)) as H. rewrite Hy in H. auto. }
  rewrite EC in HL.
  unfold ring_finish. rewrite EC. rewrite (N 0 c0 eq_refl). cbn [bind of_option].
  assert (Hpos : 1 <= length (cells 0)).
  { pose proof (hc_occupied _ _ _ _ HC 0 ltac:(lia)). destruct (cells 0); [congruence|simpl; lia]. }
  destruct (mask_spec (length (cells 0)) Hpos) as (m & Em & Lm & Nm). unfold ring_mask in Em. rewrite Em. cbn [bind].
  assert (E1 : c_x c1 = Some rows) by (rewrite (HX 1 c1 eq_refl); auto).
  assert (E2 : c_x c2 = Some rows2) by (rewrite (HX 2 c2 eq_refl); auto).
  rewrite (zero_x_ok c1 (length (cells 1)) rows (N 1 c1 eq_refl) E1 (HL 1 c1 _ eq_refl E1)). cbn [bind].
  rewrite (zero_x_ok c2 (length (cells 2)) rows2 (N 2 c2 eq_refl) E2 (HL 2 c2 _ eq_refl E2)). cbn [bind].
  eexists _, m. split; [reflexivity|]. cbn [k_dim k_y k_cochains].
  set (K' := mkComplexRec _ _ _).
  assert (HS : forall d c', nth_error (k_cochains K') d = Some c' -> exists c, nth_error (k_cochains K) d = Some c /\ same_adj c c' /\ c_x c' = finished_x cells x d).
  { rewrite EC. unfold finished_x. intros [|[|[|d]]] c' Hc'; cbn [K' k_cochains nth_error] in Hc'; try (destruct d; discriminate);
      inversion Hc'; subst c'; eexists; (split; [reflexivity|]); (split; [repeat split|]); try reflexivity.
    cbn [set_mask c_x]. rewrite (HX 0 c0 eq_refl). auto. }
  split; [|split; [auto|split; [auto|split; [reflexivity|split; [auto|split; [auto|]]]]]].
  2:{ repeat constructor. }
  assert (W' : wf_complex K' (fun d => length (cells d))).
  { split.
    - cbn [K' k_cochains k_dim length]. lia.
    - intros d c' Hc'. destruct (HS d c' Hc') as (c & Hc & Hs & Hx). cbn [K' k_dim].
      apply wf_same with (c := c); auto; [apply W; auto|].
      rewrite Hx. unfold finished_x. destruct (Nat.eqb_spec d 0) as [->|].
      + exists x. split; auto. apply (HL 0 c0 x eq_refl). rewrite (HX 0 c0 eq_refl). auto.
      + eexists. split; [reflexivity|]. apply repeat_length.
    - intros d Hd. apply (wfk_above _ _ W). auto. }
  split; auto.
  - intros d Hd. apply (hc_occupied _ _ _ _ HC). auto.
  - intros d c Hc. destruct (HS d c Hc) as (c' & _ & _ & E). auto.
  - intros c Hc. destruct (HS 0 c Hc) as (c' & Hc' & (S1 & S2 & S3 & S4 & S5 & S6 & S7 & S8 & S9) & _).
    destruct (hc_bnd0 _ _ _ _ HC c' Hc') as (B1 & B2 & B3). rewrite <- S4, <- S5, <- S6. auto.
  - intros d c Hc. destruct (HS (S d) c Hc) as (c' & Hc' & (S1 & S2 & S3 & S4 & S5 & S6 & S7 & S8 & S9) & _).
    destruct (hc_bnd _ _ _ _ HC d c' Hc') as [B1 B2 B3]. split; rewrite <- S6; auto.
  - intros d c Hc. destruct (HS d c Hc) as (c' & Hc' & (S1 & S2 & S3 & S4 & S5 & S6 & S7 & S8 & S9) & _).
    destruct (hc_up _ _ _ _ HC d c' Hc') as [B1 B2 B3]. split; rewrite <- S2, <- S3; auto.
  - intros d c Hc. destruct (HS (S d) c Hc) as (c' & Hc' & (S1 & S2 & S3 & S4 & S5 & S6 & S7 & S8 & S9) & _).
    pose proof (hc_low _ _ _ _ HC d c' Hc') as B. cbv beta iota in *. rewrite <- S4, <- S5. auto.
Qed.

(** The adjacencies of a lifted complex do not depend on the features. *)
Definition same_lists (c c' : cochain V) : Prop :=
  c_upper c = c_upper c' /\ c_shc c = c_shc c' /\ c_lower c = c_lower c' /\ c_shb c = c_shb c' /\ c_bidx c = c_bidx c'.

Lemma same_adj_lists a b : same_adj a b -> same_lists a b.
Proof. unfold same_adj, same_lists. tauto. Qed.

Lemma same_lists_trans a b c : same_lists a b -> same_lists b c -> same_lists a c.
Proof. unfold same_lists. intuition congruence. Qed.
Lemma same_lists_sym a b : same_lists a b -> same_lists b a.
Proof. unfold same_lists. intuition congruence. Qed.

Lemma generate_same dim (x x' : option (list V)) a tables bt n y y' c c' :
  generate_cochain dim x a tables bt n y = Ok c -> generate_cochain dim x' a tables bt n y' = Ok c' -> same_lists c c'.
Proof.
  unfold generate_cochain. intros H H'.
  repeat match type of H with bind ?r _ = Ok _ =>
    let u := fresh "u" in let E := fresh "E" in
    destruct r as [u|] eqn:E; [|discriminate]; cbn [bind] in H, H' end.
  destruct (init_checks _) in H'; [|discriminate]. cbn [bind] in H'. inversion H. inversion H'. repeat split.
Qed.

Lemma consolidate_lists cs D d c : consolidate_at cs D d = Ok c -> exists c0, nth_error cs d = Some c0 /\ same_lists c0 c.
Proof.
  unfold consolidate_at. intros H. apply bind_ok in H as (c0 & E0 & H). apply bind_ok in H as (u & _ & H).
  apply bind_ok in H as (c1 & E1 & H). exists c0. split; [apply get_ok; auto|].
  assert (S1 : same_lists c0 c1).
  { destruct (d <? D); [|inversion E1; repeat split]. apply bind_ok in E1 as (z & _ & E1). apply bind_ok in E1 as (nn & _ & E1).
    apply bind_ok in E1 as (z' & _ & E1). inversion E1. repeat split. }
  destruct d; [inversion H; subst; auto|]. apply bind_ok in H as (z & _ & H). apply bind_ok in H as (nn & _ & H).
  apply bind_ok in H as (z' & _ & H). inversion H. subst c. eapply same_lists_trans; [exact S1|repeat split].
Qed.

Lemma mapM_nth {A B} (f : A -> result B) l r i : mapM f l = Ok r ->
  nth_error r i = match nth_error l i with Some a => match f a with Ok b => Some b | Err _ => None end | None => None end.
Proof.
  revert r i. induction l as [|a l IH]; intros r i H; simpl in H.
  - inversion H. destruct i; reflexivity.
  - destruct (f a) as [b|] eqn:E; [|discriminate]. cbn [bind] in H. destruct (mapM f l) as [r'|]; [|discriminate].
    cbn [bind] in H. inversion H. destruct i; simpl; [rewrite E; auto|]. apply IH. auto.
Qed.

Lemma mk_complex_lists cs y D k : mk_complex cs y (Some D) = Ok k -> k_dim k = D /\
  forall d c, nth_error (k_cochains k) d = Some c -> exists c0, nth_error cs d = Some c0 /\ same_lists c0 c.
Proof.
  unfold mk_complex. destruct cs as [|c0 cs]; [discriminate|]. destruct (_ <? _); [discriminate|].
  intros H. apply bind_ok in H as (cs' & E & H). inversion H. subst k. cbn [k_dim k_cochains]. split; auto.
  intros d c Hc. rewrite (mapM_nth _ _ _ d E) in Hc. destruct (nth_error (seq 0 (D + 1)) d) as [d'|] eqn:Ed; [|discriminate].
  assert (d' = d).
  { assert (d < D + 1) by (rewrite <- (seq_length (D + 1) 0); apply nth_error_Some; congruence).
    apply nth_error_nth with (d := 0) in Ed. rewrite seq_nth in Ed; auto. }
  subst d'. destruct (consolidate_at _ D d) eqn:Ec; [|discriminate]. inversion Hc; subst. eapply consolidate_lists; eauto.
Qed.

Lemma assemble_same xs xs' a tables bt n vy vy' y y' (k k' : complex V) :
  assemble xs a tables bt n vy y = Ok k -> assemble xs' a tables bt n vy' y' = Ok k' ->
  forall d c c', nth_error (k_cochains k) d = Some c -> nth_error (k_cochains k') d = Some c' -> same_lists c c'.
Proof.
  unfold assemble. intros H H' d c c' Hc Hc'.
  apply bind_ok in H as (cs & E & H). apply bind_ok in H' as (cs' & E' & H').
  apply mk_complex_lists in H as [_ H]. apply mk_complex_lists in H' as [_ H'].
  destruct (H d c Hc) as (b & Hb & Sb). destruct (H' d c' Hc') as (b' & Hb' & Sb').
  rewrite (mapM_nth _ _ _ d E) in Hb. rewrite (mapM_nth _ _ _ d E') in Hb'.
  destruct (nth_error (seq 0 n) d) as [d'|]; [|discriminate].
  destruct (get xs d') as [x|]; [|discriminate]. destruct (get xs' d') as [x'|]; [|discriminate]. cbn [bind] in Hb, Hb'.
  destruct (generate_cochain d' x _ _ _ _ _) eqn:G in Hb; [|discriminate].
  destruct (generate_cochain d' x' _ _ _ _ _) eqn:G' in Hb'; [|discriminate].
  inversion Hb. inversion Hb'. subst. eapply same_lists_trans; [apply same_lists_sym, Sb|].
  eapply same_lists_trans; [eapply generate_same; eauto|auto].
Qed.

Lemma lift_same veqb lib isos so r x x' edges ea ea' size y y' max_k down ie ie' ir ir' (k k' : complex V) :
  compute_ring_2complex o veqb lib isos so r x edges ea size y max_k down ie ir = Ok k ->
  compute_ring_2complex o veqb lib isos so r x' edges ea' size y' max_k down ie' ir' = Ok k' ->
  forall d c c', nth_error (k_cochains k) d = Some c -> nth_error (k_cochains k') d = Some c' -> same_lists c c'.
Proof.
  unfold compute_ring_2complex. intros H H'.
  do 6 match type of H with bind ?r _ = Ok _ =>
    let u := fresh "u" in let E := fresh "E" in
    destruct r as [u|] eqn:E; [|discriminate]; cbn [bind] in H, H' end.
  apply bind_ok in H as (f & _ & H). apply bind_ok in H as (z & _ & H). apply bind_ok in H as (x1 & _ & H). apply bind_ok in H as (ys & _ & H).
  apply bind_ok in H' as (f' & _ & H'). apply bind_ok in H' as (z' & _ & H'). apply bind_ok in H' as (x1' & _ & H'). apply bind_ok in H' as (ys' & _ & H').
  eapply assemble_same; eauto.
Qed.
End Finish.

(** ** The samples *)
Section Sample.
Context {V : Type} (o : ops V) (veqb : V -> V -> bool).
Variable veqb_ok : forall a b, veqb a b = true <-> a = b.
Variables (lib : list (list nat) -> simplex_tree) (isos : list (nat * nat) -> nat -> list (list nat))
  (so : list (list nat) -> list (list nat)) (r : reduce) (enc : list Z -> V).

Definition rcells_n n := rcells_of lib isos so (ring_edges n) n n.

Lemma oracles_input n (x : list V) y : 3 <= n -> ring_oracles lib isos so n -> length x = n ->
  ring_input lib isos so x (ring_edges n) n (Some [y]) n.
Proof.
  intros Hn [H1 H2 H3] Hx. destruct (C41_ring n Hn) as (G & _ & _). split; auto; try lia.
  - right. exists 0, 1. split; [lia|]. left. apply ring_edges_in; lia.
  - left. reflexivity.
Qed.

Lemma ring_sample n target : 3 <= n -> target <> [] -> ring_oracles lib isos so n ->
  exists g K y, ring_transfer n target = Ok g /\
    ring_transfer_complex o veqb lib isos so r enc n target = Ok K /\
    ring_cells (ring_edges n) n n (rcells_n n) /\
    has_cells (rcells_n n) false (finished_x o (rcells_n n) (map enc (r_x g))) K /\
    k_dim K = 2 /\ r_y g = [y] /\ argmax target = Ok y /\ k_y K = Some [Z.of_nat y] /\
    exists m, attr c_mask 0 K = Some m /\ length m = n /\ forall v, v < n -> nth_error m v = Some (v =? 0).
Proof.
  intros Hn Ht HO.
  destruct (C41_ring_transfer n target ltac:(lia) Ht) as (g & Eg & Ee & Lx & _ & _ & _ & _ & _ & y & Ey & Ay).
  assert (HI : ring_input lib isos so (map enc (r_x g)) (ring_edges n) n (Some [Z.of_nat y]) n)
    by (apply oracles_input; auto; rewrite map_length; auto).
  pose proof (cells_ring lib isos so (map enc (r_x g)) (ring_edges n) n (Some [Z.of_nat y]) n HI) as RC.
  destruct (ring_lift_gen o veqb lib isos so r (map enc (r_x g)) (ring_edges n) None n (Some [Z.of_nat y]) n false true true HI veqb_ok (fun _ => I))
    as (K & rows & EK & _ & Lr & HC & HD & HY).
  destruct (C41_single_two_cell n n _ ltac:(lia) RC) as (s & Es & _).
  assert (D2 : k_dim K = 2).
  { assert (2 <= k_dim K) by (apply HD; rewrite Es; discriminate).
    destruct (Nat.le_gt_cases 3 (k_dim K)) as [G|G]; [|lia]. apply HD in G. exfalso. apply G. apply (rc_top _ _ _ _ RC); auto. }
  destruct (ring_finish_ok o _ _ _ _ _ K HC D2 eq_refl eq_refl eq_refl) as (K' & m & EF & HC' & D2' & Y' & M1 & M2 & M3 & SA).
  rewrite (rc_vertices _ _ _ _ RC) in M2, M3.
  exists g, K', y. split; auto. split.
  { unfold ring_transfer_complex. rewrite Eg. cbn [bind]. rewrite Ee, Ey. cbn [map]. rewrite EK. cbn [bind]. auto. }
  split; [exact RC|]. split; [exact HC'|]. split; auto. split; auto. split; auto. split.
  - rewrite Y'. apply HY.
  - exists m. auto.
Qed.

Lemma sample_lists n t t' K K' : 
  ring_transfer_complex o veqb lib isos so r enc n t = Ok K ->
  ring_transfer_complex o veqb lib isos so r enc n t' = Ok K' ->
  forall d c c', nth_error (k_cochains K) d = Some c -> nth_error (k_cochains K') d = Some c' -> same_lists c c'.
Proof.
  assert (F : forall k k' : complex V, ring_finish o k = Ok k' -> forall d c', nth_error (k_cochains k') d = Some c' ->
     exists c, nth_error (k_cochains k) d = Some c /\ same_lists c c').
  { intros k k' H. unfold ring_finish in H. destruct (k_cochains k) as [|c0 l]; [discriminate|].
    apply bind_ok in H as (nn & _ & H). apply bind_ok in H as (nn' & _ & H). apply bind_ok in H as (mm & _ & H).
    destruct l as [|c1 [|c2 l]]; try discriminate. 
    assert (Z : forall c c' : cochain V, zero_x o c = Ok c' -> same_lists c c').
    { intros c c' Hz. unfold zero_x in Hz. apply bind_ok in Hz as (x & _ & Hz). unfold set_x in Hz.
      repeat (apply bind_ok in Hz as (? & _ & Hz)). inversion Hz. repeat split. }
    apply bind_ok in H as (c1' & E1 & H). apply bind_ok in H as (c2' & E2 & H). inversion H. subst k'. cbn [k_cochains].
    intros [|[|[|d]]] c' Hc'; cbn [nth_error] in Hc' |- *.
    - inversion Hc'. eexists. split; [reflexivity|]. repeat split.
    - inversion Hc'. subst. eexists. split; [reflexivity|]. auto.
    - inversion Hc'. subst. eexists. split; [reflexivity|]. auto.
    - eexists. split; [exact Hc'|]. repeat split. }
  assert (T : forall s g, ring_transfer n s = Ok g -> r_edges g = ring_edges n).
  { intros s g H. unfold ring_transfer in H. cbv zeta in H. repeat (apply bind_ok in H as (? & _ & H)). inversion H. reflexivity. }
  unfold ring_transfer_complex. intros H H'.
  apply bind_ok in H as (g & Eg & H). apply bind_ok in H as (k & Ek & H).
  apply bind_ok in H' as (g' & Eg' & H'). apply bind_ok in H' as (k' & Ek' & H').
  rewrite (T _ _ Eg) in Ek. rewrite (T _ _ Eg') in Ek'.
  intros d c c' Hc Hc'. destruct (F _ _ H d c Hc) as (b & Hb & Sb). destruct (F _ _ H' d c' Hc') as (b' & Hb' & Sb').
  eapply same_lists_trans; [apply same_lists_sym, Sb|]. eapply same_lists_trans; [|exact Sb'].
  eapply lift_same; [exact Ek|exact Ek'|exact Hb|exact Hb'].
Qed.

Definition same_skel (K K' : skel) : Prop :=
  forall d, s_up K d = s_up K' d /\ s_low K d = s_low K' d /\ s_bnd K d = s_bnd K' d.

Lemma skel_same (K K' : complex V) sz D : wf_complex K sz -> wf_complex K' sz -> k_dim K = k_dim K' ->
  (forall d c c', nth_error (k_cochains K) d = Some c -> nth_error (k_cochains K') d = Some c' -> same_lists c c') ->
  same_skel (skel_of D K sz) (skel_of D K' sz).
Proof.
  intros W W' E H. pose proof (wfk_len _ _ W) as L. pose proof (wfk_len _ _ W') as L'.
  assert (A : forall d, attr c_upper d K = attr c_upper d K' /\ attr c_shc d K = attr c_shc d K' /\
     attr c_lower d K = attr c_lower d K' /\ attr c_shb d K = attr c_shb d K' /\ attr c_bidx d K = attr c_bidx d K').
  { intros d. unfold attr. destruct (nth_error (k_cochains K) d) as [c|] eqn:E1, (nth_error (k_cochains K') d) as [c'|] eqn:E2.
    - specialize (H d c c' E1 E2). unfold same_lists in H. tauto.
    - apply nth_error_None in E2. assert (d < length (k_cochains K)) by (apply nth_error_Some; congruence). lia.
    - apply nth_error_None in E1. assert (d < length (k_cochains K')) by (apply nth_error_Some; congruence). lia.
    - tauto. }
  intros d. unfold skel_of. cbn [s_up s_low s_bnd]. rewrite E. destruct (A d) as (-> & -> & -> & -> & ->). auto.
Qed.

Lemma step_ext pdim top L K K' X Y : same_skel K K' -> (forall d i, X d i = Y d i) ->
  forall d i, step o pdim top K L X d i = step o pdim top K' L Y d i.
Proof.
  intros HK HX d i. destruct (HK d) as (E1 & E2 & E3). unfold step. rewrite HX. destruct (d <=? pdim); auto.
  unfold new_feature, agg_up, agg_low, agg_bnd, up_at, low_at, bnd_at. rewrite E1, E2, E3, HX. f_equal.
  - f_equal. apply map_ext. intros e. rewrite !HX. auto.
  - destruct (r_low _); auto. f_equal. apply map_ext. intros e. rewrite !HX. auto.
  - destruct (r_bnd _); auto. f_equal. apply map_ext. intros e. rewrite !HX. auto.
Qed.

Lemma history_ext pdim top K K' : same_skel K K' -> forall Ls X Y, (forall d i, X d i = Y d i) ->
  forall d i, last (history o pdim top K Ls X) X d i = last (history o pdim top K' Ls Y) Y d i.
Proof.
  intros HK Ls. induction Ls as [|L Ls IH]; intros X Y HX d i; [apply HX|].
  cbn [history]. rewrite !last_cons'. apply IH. apply step_ext; auto.
Qed.

(** What a network sees of a sample. *)
Lemma marked_zero n m : 1 <= n -> length m = n -> (forall v, v < n -> nth_error m v = Some (v =? 0)) -> marked m = [0].
Proof.
  intros Hn Hl H. unfold marked. rewrite Hl. destruct n as [|n]; [lia|]. cbn [seq filter].
  rewrite (nth_error_nth m 0 false (H 0 ltac:(lia))). cbn [Nat.eqb]. f_equal.
  assert (E : forall k s, 1 <= s -> s + k <= S n -> filter (fun i => nth i m false) (seq s k) = []).
  { induction k as [|k IH]; intros s Hs Hk; [reflexivity|]. cbn [seq filter].
    rewrite (nth_error_nth m s false (H s ltac:(lia))). replace (s =? 0) with false by (symmetry; apply Nat.eqb_neq; lia).
    apply IH; lia. }
  apply E; lia.
Qed.

Definition sample_feats (g : ring_graph) : feats V :=
  fun d i => if d =? 0 then nth i (map enc (r_x g)) (vzero o) else vzero o.

Lemma finished_feats cells x (K : complex V) : has_cells cells false (finished_x o cells x) K ->
  forall d i, feats_of o K d i = if d =? 0 then nth i x (vzero o) else vzero o.
Proof.
  intros HC d i. unfold feats_of, attr. destruct (nth_error (k_cochains K) d) as [c|] eqn:E.
  - rewrite (hc_x _ _ _ _ HC d c E). unfold finished_x. destruct (d =? 0); cbn [content]; auto. apply nth_repeat.
  - pose proof (wfk_len _ _ (hc_wf _ _ _ _ HC)) as L. apply nth_error_None in E.
    assert (N : d =? 0 = false) by (apply Nat.eqb_neq; lia). rewrite N. cbn [content]. destruct i; reflexivity.
Qed.

(** The neighbourhoods in the lifted ring. *)
Record ring_skel (n : nat) (S : skel) : Prop := {
  rs_up0 : forall i j t, In ((j, i), t) (s_up S 0) -> In (j, i) (ring_edges n);
  rs_edge : forall v, v < n -> exists e, In (v, e) (s_bnd S 1);
  rs_ends : forall v e, In (v, e) (s_bnd S 1) -> v < n;
  rs_two : forall v w e, In (v, e) (s_bnd S 1) -> In (w, e) (s_bnd S 1) -> v = w \/ In (v, w) (ring_edges n);
  rs_up1 : forall e e' v v', In (v, e) (s_bnd S 1) -> In (v', e') (s_bnd S 1) -> e <> e' -> exists t, In ((e', e), t) (s_up S 1);
  rs_cob0 : exists j t, In ((j, 0), t) (s_up S 0) /\ exists v, In (v, t) (s_bnd S 1);
  rs_cob : forall i j t, In ((j, i), t) (s_up S 0) -> In (i, t) (s_bnd S 1) /\ In (j, t) (s_bnd S 1);
  rs_low : forall d, s_low S d = [];
  rs_bnd0 : s_bnd S 0 = []
}.

Lemma sample_skel n (K : complex V) X : 3 <= n -> ring_cells (ring_edges n) n n (rcells_n n) ->
  has_cells (rcells_n n) false X K -> k_dim K = 2 -> ring_skel n (skel_of 2 K (fun d => length (rcells_n n d))).
Proof.
  intros Hn RC HC D2. set (cells := rcells_n n) in *.
  pose proof (wfk_len _ _ (hc_wf _ _ _ _ HC)) as L. rewrite D2 in L.
  destruct (k_cochains K) as [|c0 [|c1 [|c2 [|c3 rr]]]] eqn:EC; cbn [length] in L; try lia.
  assert (N0 : nth_error (k_cochains K) 0 = Some c0) by (rewrite EC; auto).
  assert (N1 : nth_error (k_cochains K) 1 = Some c1) by (rewrite EC; auto).
  assert (N2 : nth_error (k_cochains K) 2 = Some c2) by (rewrite EC; auto).
  assert (U0 : forall a b t, In ((a, b), t) (s_up (skel_of 2 K (fun d => length (cells d))) 0) <-> a <> b /\ face_of cells 0 a t /\ face_of cells 0 b t).
  { intros a b t. unfold skel_of. rewrite D2. cbn [s_up Nat.min Nat.ltb Nat.leb]. unfold attr. rewrite N0.
    apply (ue_iff _ _ _ (hc_up _ _ _ _ HC 0 c0 N0)). }
  assert (U1 : forall a b t, In ((a, b), t) (s_up (skel_of 2 K (fun d => length (cells d))) 1) <-> a <> b /\ face_of cells 1 a t /\ face_of cells 1 b t).
  { intros a b t. unfold skel_of. rewrite D2. cbn [s_up Nat.min Nat.ltb Nat.leb]. unfold attr. rewrite N1.
    apply (ue_iff _ _ _ (hc_up _ _ _ _ HC 1 c1 N1)). }
  assert (B1 : forall f t, In (f, t) (s_bnd (skel_of 2 K (fun d => length (cells d))) 1) <-> face_of cells 0 f t).
  { intros f t. unfold skel_of. rewrite D2. cbn [s_bnd Nat.min Nat.leb]. unfold attr. rewrite N1.
    apply (be_iff _ _ _ (hc_bnd _ _ _ _ HC 0 c1 N1)). }
  assert (F0 : forall v e, face_of cells 0 v e <-> v < n /\ exists s, names cells 1 e s /\ In v s).
  { intros v e. split.
    - intros (sf & sc & Hf & Hc & Hi).
      assert (Lv : v < n) by (rewrite <- (rc_vertices _ _ _ _ RC); apply nth_error_Some; unfold names in Hf; congruence).
      pose proof (rc_vertex _ _ _ _ RC v Lv) as Hv. unfold names in Hv, Hf. rewrite Hv in Hf. inversion Hf. subst sf.
      split; auto. exists sc. split; auto. apply Hi. left; auto.
    - intros (Lv & s & He & Hv). exists [v], s. split; [apply (rc_vertex _ _ _ _ RC); auto|]. split; auto.
      intros a [<-|[]]. auto. }
  assert (E1 : forall e s, names cells 1 e s -> exists u v, u < v /\ s = [u; v] /\ adjacent (ring_edges n) u v).
  { intros e s H. apply (rc_edge _ _ _ _ RC). apply nth_error_In in H. auto. }
  destruct (C41_single_two_cell n n cells ltac:(lia) RC) as (ring & Er & Hr).
  assert (TW : forall v w e, face_of cells 0 v e -> face_of cells 0 w e -> v = w \/ In (v, w) (ring_edges n)).
  { intros v w' e Hv Hw. apply F0 in Hv as (Lv & s & Hs & Iv). apply F0 in Hw as (Lw & s' & Hs' & Iw).
    unfold names in Hs, Hs'. rewrite Hs in Hs'. inversion Hs'. subst s'.
    destruct (E1 e s Hs) as (a & b & Lab & -> & _ & Hab).
    assert (Hba : In (a, b) (ring_edges n) /\ In (b, a) (ring_edges n)) by (rewrite !ring_edges_in in * by lia; lia).
    destruct Iv as [<-|[<-|[]]], Iw as [<-|[<-|[]]]; tauto. }
  assert (EX : forall v, v < n -> exists e s, names cells 1 e s /\ In v s).
  { intros v Lv. assert (H : exists s, In s (cells 1) /\ In v s).
    { destruct (Nat.eq_dec v (n - 1)) as [->|Nv].
      - exists [n - 2; n - 1]. split; [|simpl; auto]. apply (rc_edge _ _ _ _ RC). exists (n - 2), (n - 1).
        split; [lia|]. split; auto. split; [lia|]. left. apply ring_edges_in; lia.
      - exists [v; v + 1]. split; [|simpl; auto]. apply (rc_edge _ _ _ _ RC). exists v, (v + 1).
        split; [lia|]. split; auto. split; [lia|]. left. apply ring_edges_in; lia. }
    destruct H as (s & Hs & Hv). apply In_nth_error in Hs as (e & He). exists e, s. auto. }
  assert (F1 : forall e v, face_of cells 0 v e -> face_of cells 1 e 0).
  { intros e v Hv. apply F0 in Hv as (_ & s & Hs & _). exists s, ring. split; auto. split; [unfold names; rewrite Er; auto|].
    intros a Ha. apply Hr. destruct (E1 e s Hs) as (u & w' & Huw & -> & _ & Hadj).
    rewrite !ring_edges_in in Hadj by lia. destruct Ha as [<-|[<-|[]]]; lia. }
  split.
  - intros i j t H. apply U0 in H as (Hne & Hj & Hi). destruct (TW _ _ _ Hj Hi); [congruence|auto].
  - intros v Lv. destruct (EX v Lv) as (e & s & He & Hv). exists e. apply B1, F0. eauto.
  - intros v e H. apply B1, F0 in H. tauto.
  - intros v w' e H H'. apply B1 in H, H'. eauto.
  - intros e e' v v' H H' Hne. apply B1 in H, H'. exists 0. apply U1. split; [auto|]. eauto.
  - assert (He : In [0; 1] (cells 1)).
    { apply (rc_edge _ _ _ _ RC). exists 0, 1. split; [lia|]. split; auto. split; [lia|]. left. apply ring_edges_in; lia. }
    apply In_nth_error in He as (e & He). exists 1, e.
    assert (A0 : face_of cells 0 0 e) by (apply F0; split; [lia|]; exists [0; 1]; split; simpl; auto).
    assert (A1 : face_of cells 0 1 e) by (apply F0; split; [lia|]; exists [0; 1]; split; simpl; auto).
    split; [apply U0; auto|]. exists 0. apply B1. auto.
  - intros i j t H. apply U0 in H as (_ & Hj & Hi). rewrite !B1. auto.
  - intros d. unfold skel_of. cbn [s_low]. destruct (d <=? _) eqn:Ed; auto. apply Nat.leb_le in Ed. rewrite D2 in Ed. cbn in Ed.
    unfold attr. rewrite EC. destruct d as [|[|[|d]]]; [| | |lia]; cbn [nth_error].
    + destruct (hc_bnd0 _ _ _ _ HC c0 N0) as (_ & -> & _). reflexivity.
    + destruct (hc_low _ _ _ _ HC 0 c1 N1) as (-> & _). reflexivity.
    + destruct (hc_low _ _ _ _ HC 1 c2 N2) as (-> & _). reflexivity.
  - unfold skel_of. cbn [s_bnd Nat.leb]. unfold attr. rewrite N0. destruct (hc_bnd0 _ _ _ _ HC c0 N0) as (-> & _). reflexivity.
Qed.
End Sample.
