(** C56: SparseCIN separates exactly what colour refinement separates. *)
From Coq Require Import List Arith Lia ZArith Bool Permutation.
From Coq Require Cantor.
From Verif Require Import Base ScatterModel ScatterSpec ScatterProofs ComplexModel BatchSpec BatchSpec2
  BatchProofs BatchProofs2 DummyModel BatchProps MPProps MPEngine
  MPModel MPSpec MPProofs MPBatch MPForward MPNets MPIso GraphNetProofs PowerSpec PowerProofs.
Import ListNotations.

Lemma length_filter_le {A} (f : A -> bool) l : length (filter f l) <= length l.
Proof. induction l as [|a l IH]; cbn [filter]; auto. destruct (f a); cbn [length]; lia. Qed.

Lemma bounded_small F M B max_dim Dm (k : complex Z) sz : 1 <= F -> M + 1 < B -> Dm <= max_dim -> bounded F M k sz ->
  small B F max_dim (skel_of Dm k sz) (feats_of Zops k) /\ (forall d, s_n (skel_of Dm k sz) d < B).
Proof.
  intros HF HB HD [H1 H2 H3 H4]. split; [split; [|split; [|split]]|].
  - intros d i. unfold feats_of. destruct (nth_in_or_default i (content (attr c_x d k)) (vzero Zops)) as [H|H]; [apply (H4 d); auto|].
    rewrite H. cbn. lia.
  - intros d i. unfold up_at. eapply Nat.le_lt_trans; [apply le_n_S, length_filter_le|]. unfold skel_of. cbn [s_up].
    destruct (d <? Nat.min (k_dim k) Dm); cbn [length]; [|lia]. rewrite combine_length. specialize (H2 d). lia.
  - intros d i. unfold bnd_at. eapply Nat.le_lt_trans; [apply le_n_S, length_filter_le|]. unfold skel_of. cbn [s_bnd].
    destruct (d <=? Nat.min (k_dim k) Dm); cbn [length]; [|lia]. specialize (H3 d). lia.
  - intros d Hd. unfold skel_of. cbn [s_up]. destruct (Nat.ltb_spec d (Nat.min (k_dim k) Dm)); auto. lia.
  - intros d. unfold skel_of. cbn [s_n]. specialize (H1 d). destruct (d <=? _); lia.
Qed.

(** One network for all bounded complexes: two members of a batch receive the same prediction exactly
    when, in every dimension read out, refinement gives them the same multiset of colours. *)
Theorem C56_colour_refinement_attained F M L max_dim dims :
  1 <= F -> 1 <= L -> (exists d, In d dims /\ d <= max_dim) ->
  exists layers lin1, length layers = L /\
  let m := sparse_cin Zops max_dim layers None RAdd dims lin1 false (fun v => v) in
  forall ks szs Dm, ks <> [] -> Forall2 wf_complex ks szs -> Forall (has_features Dm) ks ->
  Forall (fun sz : nat -> nat => 0 < sz 0) szs -> Forall2 (bounded F M) ks szs -> Dm <= max_dim ->
  exists b vs bo, from_complex_list ks Dm = Ok b /\ net_forward Zops m b = Ok (vs, bo) /\ length vs = length ks /\
  forall (C : Type) (col0 : nat -> Z -> C) hash, ideal_init col0 -> ideal_hash hash ->
  forall i j k k' sz sz' v v',
    nth_error ks i = Some k -> nth_error szs i = Some sz -> nth_error vs i = Some v ->
    nth_error ks j = Some k' -> nth_error szs j = Some sz' -> nth_error vs j = Some v' ->
    (v = v' <-> forall d, In d dims -> d <= max_dim ->
       Permutation (colours_of Zops col0 hash Dm k sz L d) (colours_of Zops col0 hash Dm k' sz' L d)).
Proof.
  intros HF HL Hd. set (B := M + length dims + 2).
  exists (code_layers B F L), (fun d v => exp_row B (pair_code d (Z.to_nat v))).
  split; [unfold code_layers; rewrite map_length, seq_length; auto|]. cbv zeta.
  intros ks szs Dm Hne HW HFe Hpos HBd HDm.
  assert (Hok : net_ok Zops (sparse_cin Zops max_dim (code_layers B F L) None RAdd dims (fun d v => exp_row B (pair_code d (Z.to_nat v))) false (fun v => v))
    (code_arch B F L max_dim dims)).
  { apply sparse_ok; auto. unfold code_layers. destruct L; [lia|discriminate]. }
  destruct (forward_list Zops (div_0_1 _ Zops_ok) _ _ ks szs Dm Hok Hne HW HFe Hpos) as (b & bo & Hb & Hf).
  eexists b, _, bo. split; [exact Hb|]. split; [exact Hf|]. split.
  { rewrite map_length, combine_length, <- (Forall2_length HW). lia. }
  intros C col0 hash Hc Hh i j k k' sz sz' v v' Ek Es Ev Ek' Es' Ev'.
  assert (P : forall i k sz v, nth_error ks i = Some k -> nth_error szs i = Some sz ->
    nth_error (map (fun q => predict Zops (code_arch B F L max_dim dims) (skel_of Dm (fst q) (snd q)) (feats_of Zops (fst q))) (combine ks szs)) i = Some v ->
    v = predict Zops (code_arch B F L max_dim dims) (skel_of Dm k sz) (feats_of Zops k) /\ bounded F M k sz).
  { clear -HBd. intros i k sz v Ek Es Ev. rewrite nth_error_map, nth_error_combine, Ek, Es in Ev.
    cbn [option_map fst snd] in Ev. inversion Ev. split; auto. clear -HBd Ek Es. revert i Ek Es. induction HBd as [|a b l l' Hab HBd IH]; intros [|i] Ek Es; try discriminate; cbn in *.
    - inversion Ek; inversion Es; subst; auto.
    - eapply IH; eauto. }
  destruct (P i k sz v Ek Es Ev) as [-> BD]. destruct (P j k' sz' v' Ek' Es' Ev') as [-> BD']. clear P.
  destruct (bounded_small F M B max_dim Dm k sz HF) as [S1 N1]; auto; [unfold B; lia|].
  destruct (bounded_small F M B max_dim Dm k' sz' HF) as [S2 N2]; auto; [unfold B; lia|].
  apply (predict_iff col0 hash Hc Hh); auto. unfold B; lia.
Qed.

(** Any two complexes with non-negative integer features: no SparseCIN of depth [L] tells them apart if
    and only if [L] rounds of colour refinement do not. *)
Lemma bound_exists n (f : nat -> nat) : exists M, forall d, d <= n -> f d <= M.
Proof.
  induction n as [|n (M & IH)]; [exists (f 0); intros d Hd; replace d with 0 by lia; auto|].
  exists (M + f (S n)). intros d Hd. destruct (Nat.eq_dec d (S n)) as [->|H]; [lia|]. specialize (IH d). lia.
Qed.

Lemma attr_above {T} (get : cochain Z -> option (list T)) (k : complex Z) sz d :
  wf_complex k sz -> k_dim k < d -> attr get d k = None.
Proof.
  intros W Hd. unfold attr. rewrite (proj2 (nth_error_None _ _)); auto. rewrite (wfk_len _ _ W). lia.
Qed.

Lemma bounded_exists (k : complex Z) sz : wf_complex k sz -> (forall d v, In v (content (attr c_x d k)) -> (0 <= v)%Z) ->
  exists F M, forall F' M', F <= F' -> M <= M' -> bounded F' M' k sz.
Proof.
  intros W HX. destruct (bound_exists (k_dim k) sz) as (M1 & H1).
  destruct (bound_exists (k_dim k) (fun d => length (content (attr c_upper d k)))) as (M2 & H2).
  destruct (bound_exists (k_dim k) (fun d => length (content (attr c_bidx d k)))) as (M3 & H3).
  destruct (bound_exists (k_dim k) (fun d => list_max (map Z.to_nat (content (attr c_x d k))))) as (F & H4).
  exists (S F), (M1 + M2 + M3). intros F' M' HF' HM'. split; intros d.
  - destruct (Nat.le_gt_cases d (k_dim k)) as [Hd|Hd]; [specialize (H1 d Hd); lia|]. rewrite (wfk_above _ _ W d Hd). lia.
  - destruct (Nat.le_gt_cases d (k_dim k)) as [Hd|Hd]; [specialize (H2 d Hd); cbv beta in H2; lia|].
    rewrite (attr_above _ k sz d W Hd). cbn. lia.
  - destruct (Nat.le_gt_cases d (k_dim k)) as [Hd|Hd]; [specialize (H3 d Hd); cbv beta in H3; lia|].
    rewrite (attr_above _ k sz d W Hd). cbn. lia.
  - intros v Hv. split; [eapply HX; eauto|].
    destruct (Nat.le_gt_cases d (k_dim k)) as [Hd|Hd]; [|rewrite (attr_above _ k sz d W Hd) in Hv; destruct Hv].
    specialize (H4 d Hd). cbv beta in H4. apply list_max_le in H4. rewrite Forall_forall in H4.
    specialize (H4 (Z.to_nat v) (in_map _ _ _ Hv)). specialize (HX d v Hv). lia.
Qed.

Definition same_prediction (m : net Z) (k k' : complex Z) (Dm : nat) : Prop :=
  forall b b' v v' bo bo', from_complex_list [k] Dm = Ok b -> from_complex_list [k'] Dm = Ok b' ->
    net_forward Zops m b = Ok ([v], bo) -> net_forward Zops m b' = Ok ([v'], bo') -> v = v'.

Theorem C56_power (C : Type) (col0 : nat -> Z -> C) hash (k k' : complex Z) sz sz' L Dm max_dim :
  ideal_init col0 -> ideal_hash hash ->
  wf_complex k sz -> wf_complex k' sz' -> has_features Dm k -> has_features Dm k' -> 0 < sz 0 -> 0 < sz' 0 ->
  (forall d v, In v (content (attr c_x d k)) -> (0 <= v)%Z) -> (forall d v, In v (content (attr c_x d k')) -> (0 <= v)%Z) ->
  1 <= L -> Dm <= max_dim ->
  ((forall layers jump pool dims lin1 mean lin2, length layers = L -> (exists d, In d dims /\ d <= max_dim) ->
      same_prediction (sparse_cin Zops max_dim layers jump pool dims lin1 mean lin2) k k' Dm) <->
   (forall d, d <= max_dim -> Permutation (colours_of Zops col0 hash Dm k sz L d) (colours_of Zops col0 hash Dm k' sz' L d))).
Proof.
  intros Hc Hh W W' HF HF' Hp Hp' HX HX' HL HD. split.
  - intros H. destruct (bounded_exists k sz W HX) as (F1 & M1 & B1). destruct (bounded_exists k' sz' W' HX') as (F2 & M2 & B2).
    destruct (C56_colour_refinement_attained (F1 + F2 + 1) (M1 + M2) L max_dim (seq 0 (max_dim + 1))) as (layers & lin1 & HLen & K); auto; [lia| |].
    { exists 0. split; [apply in_seq|]; lia. }
    cbv zeta in K.
    assert (BD : bounded (F1 + F2 + 1) (M1 + M2) k sz) by (apply B1; lia).
    assert (BD' : bounded (F1 + F2 + 1) (M1 + M2) k' sz') by (apply B2; lia).
    destruct (K [k; k'] [sz; sz'] Dm) as (b & vs & bo & Hb & Hf & Hl & Hiff); auto; [discriminate|].
    specialize (H layers None RAdd (seq 0 (max_dim + 1)) lin1 false (fun v => v) HLen).
    set (m := sparse_cin Zops max_dim layers None RAdd (seq 0 (max_dim + 1)) lin1 false (fun v => v)) in *.
    destruct vs as [|v [|v' [|]]]; try discriminate Hl.
    assert (E : v = v').
    { assert (Hok : net_ok Zops m (sparse_arch Zops max_dim layers None RAdd (seq 0 (max_dim + 1)) lin1 false (fun v => v))).
      { apply sparse_ok; [reflexivity|intros E; rewrite E in HLen; cbn in HLen; lia|]. exists 0. split; [apply in_seq|]; lia. }
      destruct (forward_list Zops (div_0_1 _ Zops_ok) _ _ [k; k'] [sz; sz'] Dm Hok) as (b0 & bo0 & Hb0 & Hf0); auto; [discriminate|].
      destruct (forward_list Zops (div_0_1 _ Zops_ok) _ _ [k] [sz] Dm Hok) as (b1 & bo1 & Hb1 & Hf1); auto; [discriminate|].
      destruct (forward_list Zops (div_0_1 _ Zops_ok) _ _ [k'] [sz'] Dm Hok) as (b2 & bo2 & Hb2 & Hf2); auto; [discriminate|].
      rewrite Hb in Hb0. inversion Hb0; subst b0. rewrite Hf in Hf0. cbn [map combine fst snd] in *. inversion Hf0; subst.
      assert (Hx : exists d, In d (seq 0 (max_dim + 1)) /\ d <= max_dim) by (exists 0; split; [apply in_seq|]; lia).
      exact (H Hx _ _ _ _ _ _ Hb1 Hb2 Hf1 Hf2). }
    intros d Hd. refine (proj1 (Hiff C col0 hash Hc Hh 0 1 k k' sz sz' v v' eq_refl eq_refl eq_refl eq_refl eq_refl eq_refl) E d _ Hd).
    apply in_seq; lia.
  - intros HP layers jump pool dims lin1 mean lin2 HLen Hd b b' v v' bo bo' Hb Hb' Hf Hf'.
    destruct (C47_colour_refinement_bound Zops Zops_ok col0 hash) with
      (m := sparse_cin Zops max_dim layers jump pool dims lin1 mean lin2) (L := L) (k := k) (k' := k') (sz := sz) (sz' := sz') (max_dim := Dm)
      as (b1 & b2 & w & bo1 & bo2 & E1 & E2 & E3 & E4); auto.
    + intros d x x'. apply Hc.
    + intros c u bb c' u' bb'. apply Hh.
    + rewrite <- HLen. constructor; auto. destruct layers; [cbn in HLen; lia|discriminate].
    + rewrite Hb in E1. rewrite Hb' in E2. inversion E1; inversion E2; subst. rewrite Hf in E3. rewrite Hf' in E4. congruence.
Qed.

(** ** Instances *)
(** An ideal hash on numbers. *)
Fixpoint insert (a : nat) (l : list nat) : list nat :=
  match l with [] => [a] | x :: r => if a <=? x then a :: x :: r else x :: insert a r end.
Definition isort (l : list nat) : list nat := fold_right insert [] l.
Fixpoint list_code (l : list nat) : nat := match l with [] => 0 | x :: r => S (pair_code x (list_code r)) end.
Definition num_hash (c : nat) (u : list (nat * nat)) (b : list nat) : nat :=
  pair_code c (pair_code (list_code (isort (map (fun p => pair_code (fst p) (snd p)) u))) (list_code (isort b))).
Definition num_init (d : nat) (v : Z) : nat := if (v <? 0)%Z then 2 * Z.to_nat (- v) + 1 else 2 * Z.to_nat v.

Lemma insert_comm a b l : insert a (insert b l) = insert b (insert a l).
Proof.
  induction l as [|x l IH]; cbn [insert].
  - destruct (Nat.leb_spec a b), (Nat.leb_spec b a); auto; try lia. assert (a = b) by lia. subst. auto.
  - destruct (Nat.leb_spec b x), (Nat.leb_spec a x); cbn [insert];
      repeat match goal with |- context[?p <=? ?q] => destruct (Nat.leb_spec p q) end; try lia; try congruence.
    assert (a = b) by lia. subst. auto.
Qed.
Lemma insert_perm a l : Permutation (insert a l) (a :: l).
Proof. induction l as [|x l IH]; cbn [insert]; auto. destruct (a <=? x); auto. rewrite IH. constructor. Qed.
Lemma isort_self l : Permutation (isort l) l.
Proof. unfold isort. induction l as [|x l IH]; cbn [fold_right]; auto. rewrite insert_perm. constructor. auto. Qed.
Lemma isort_iff l l' : isort l = isort l' <-> Permutation l l'.
Proof.
  split; [intros H; rewrite <- (isort_self l), H; apply isort_self|].
  unfold isort. induction 1; cbn [fold_right]; auto; [congruence|apply insert_comm|congruence].
Qed.
Lemma list_code_iff l : forall l', list_code l = list_code l' <-> l = l'.
Proof.
  induction l as [|x l IH]; intros [|y l']; cbn [list_code]; split; intros H; try discriminate; auto.
  - inversion H as [E]. apply pair_inj in E as [-> E]. apply IH in E. congruence.
  - inversion H. auto.
Qed.
Lemma num_hash_ideal : ideal_hash num_hash.
Proof.
  intros c u b c' u' b'. unfold num_hash. rewrite !pair_eq, !list_code_iff, !isort_iff.
  assert (E : Permutation (map (fun p => pair_code (fst p) (snd p)) u) (map (fun p => pair_code (fst p) (snd p)) u') <-> Permutation u u').
  { split; [|apply Permutation_map]. intros H. rewrite <- (map_id u), <- (map_id u'). revert H. apply perm_transfer.
    intros [a1 a2] [b1 b2] _ _ H. apply pair_inj in H as [H1 H2]. cbn in *. congruence. }
  tauto.
Qed.
Lemma num_init_ideal : ideal_init num_init.
Proof. intros d v v'. unfold num_init. destruct (Z.ltb_spec v 0), (Z.ltb_spec v' 0); split; intros; subst; lia. Qed.

(** The hexagon with its ring attached as a 2-cell, and the two triangles with theirs. *)
Definition filled (ends : list (nat * nat)) (rings : list (list nat)) : complex Z :=
  let n := length ends in
  let bnd := concat (mapi (fun r es => map (fun e => (e, r)) es) rings) in
  let pairs (es : list nat) := filter (fun p => negb (fst p =? snd p)) (list_prod es es) in
  mkComplexRec 2
  [mkCochain 0 (Some (repeat 1%Z 6)) (Some (flat_map (fun e => [e; (snd e, fst e)]) ends)) None None
     (Some (concat (mapi (fun i _ => [i; i]) ends))) None None None None None None (Some (Some n)) None;
   mkCochain 1 (Some (repeat 2%Z n)) (Some (flat_map pairs rings)) None None
     (Some (concat (mapi (fun r es => map (fun _ => r) (pairs es)) rings)))
     (Some (concat (mapi (fun i e => [(fst e, i); (snd e, i)]) ends))) None None None None None (Some (Some (length rings))) (Some (Some 6));
   mkCochain 2 (Some (repeat 3%Z (length rings))) None None None None (Some bnd) None None None None None None (Some (Some n))] None.
Definition hexagon2 := filled [(0,1);(1,2);(2,3);(3,4);(4,5);(5,0)] [[0;1;2;3;4;5]].
Definition triangles2 := filled [(0,1);(1,2);(2,0);(3,4);(4,5);(5,3)] [[0;1;2]; [3;4;5]].
Definition sz_h (d : nat) : nat := nth d [6; 6; 1] 0.
Definition sz_t (d : nat) : nat := nth d [6; 6; 2] 0.
Lemma hexagon2_wf : wf_complex hexagon2 sz_h.
Proof. apply (wf_complexb_ok hexagon2 [6; 6; 1]). reflexivity. Qed.
Lemma triangles2_wf : wf_complex triangles2 sz_t.
Proof. apply (wf_complexb_ok triangles2 [6; 6; 2]). reflexivity. Qed.
Lemma filled_features D ends rings : has_features D (filled ends rings).
Proof. intros d c _; destruct d as [|[|[|d]]]; simpl; intros H; inversion H; subst; try discriminate; destruct d; discriminate. Qed.
Lemma filled_nonneg ends rings d v : In v (content (attr c_x d (filled ends rings))) -> (0 <= v)%Z.
Proof.
  destruct d as [|[|[|d]]]; cbn [attr filled k_cochains nth_error c_x content]; try (intros H; apply repeat_spec in H; subst; lia).
  unfold attr. cbn. destruct d; cbn; tauto.
Qed.

(** Without rings no SparseCIN distinguishes the two graphs ([C47_hexagon_triangles]); with rings one of
    a single layer does. *)
Theorem C56_rings_separate : exists layers lin1, length layers = 1 /\
  ~ same_prediction (sparse_cin Zops 2 layers None RAdd [0; 1; 2] lin1 false (fun v => v)) hexagon2 triangles2 2.
Proof.
  destruct (C56_colour_refinement_attained 4 30 1 2 [0; 1; 2]) as (layers & lin1 & HL & K); [lia|lia|exists 0; simpl; lia|].
  exists layers, lin1. split; auto. cbv zeta in K. intros HS.
  assert (B1 : bounded 4 30 hexagon2 sz_h).
  { split; intros d; destruct d as [|[|[|[|d]]]]; cbn; lia. }
  assert (B2 : bounded 4 30 triangles2 sz_t).
  { split; intros d; destruct d as [|[|[|[|d]]]]; cbn; lia. }
  assert (Hok : net_ok Zops (sparse_cin Zops 2 layers None RAdd [0; 1; 2] lin1 false (fun v => v))
    (sparse_arch Zops 2 layers None RAdd [0; 1; 2] lin1 false (fun v => v))).
  { apply sparse_ok; [reflexivity|destruct layers; discriminate|]. exists 0. simpl. auto. }
  pose proof hexagon2_wf as W1. pose proof triangles2_wf as W2.
  assert (F1 : has_features 2 hexagon2) by apply filled_features. assert (F2 : has_features 2 triangles2) by apply filled_features.
  assert (P1 : 0 < sz_h 0) by (cbn; lia). assert (P2 : 0 < sz_t 0) by (cbn; lia).
  destruct (K [hexagon2; triangles2] [sz_h; sz_t] 2) as (b & vs & bo & Hb & Hf & Hl & Hiff); auto; [discriminate|].
  destruct vs as [|v [|v' [|]]]; try discriminate Hl.
  destruct (forward_list Zops (div_0_1 _ Zops_ok) _ _ [hexagon2; triangles2] [sz_h; sz_t] 2 Hok) as (b0 & bo0 & Hb0 & Hf0); auto; [discriminate|].
  destruct (forward_list Zops (div_0_1 _ Zops_ok) _ _ [hexagon2] [sz_h] 2 Hok) as (b1 & bo1 & Hb1 & Hf1); auto; [discriminate|].
  destruct (forward_list Zops (div_0_1 _ Zops_ok) _ _ [triangles2] [sz_t] 2 Hok) as (b2 & bo2 & Hb2 & Hf2); auto; [discriminate|].
  rewrite Hb in Hb0. inversion Hb0; subst b0. rewrite Hf in Hf0. cbn [map combine fst snd] in *. inversion Hf0; subst.
  assert (E := HS _ _ _ _ _ _ Hb1 Hb2 Hf1 Hf2).
  pose proof (proj1 (Hiff nat num_init num_hash num_init_ideal num_hash_ideal 0 1 _ _ _ _ _ _ eq_refl eq_refl eq_refl eq_refl eq_refl eq_refl) E 2) as HP.
  assert (HP' := HP ltac:(simpl; auto) ltac:(lia)). apply Permutation_length in HP'. unfold colours_of in HP'. rewrite !map_length, !seq_length in HP'. discriminate HP'.
Qed.

Print Assumptions C56_colour_refinement_attained.
Print Assumptions C56_power.
Print Assumptions C56_rings_separate.
