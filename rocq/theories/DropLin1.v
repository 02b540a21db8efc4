(** Property C89, dropout before lin1: exact for affine activations, biased upwards for convex ones. *)
From Coq Require Import List Arith ZArith QArith Bool String Lia Lqa Field Setoid Morphisms.
From Verif Require Import Base.
From Verif Require Import DropModel DropSpec DropProofs DropHeads DropProps.
Import ListNotations.
Local Open Scope Q_scope.

Lemma expectation_add p n f g :
  expectation p n (fun t => f t + g t) == expectation p n f + expectation p n g.
Proof.
  unfold expectation. rewrite <- sigma_add. apply sigma_ext. intros; ring.
Qed.
Lemma expectation_mul p n c f : expectation p n (fun t => c * f t) == c * expectation p n f.
Proof.
  unfold expectation. rewrite <- sigma_mul. apply sigma_ext. intros; ring.
Qed.
Lemma expectation_skip p m : forall n f, (m <= n)%nat ->
  expectation p n (fun t => f (skipn m t)) == expectation p (n - m) f.
Proof.
  induction m as [|m IH]; intros n f H.
  - rewrite Nat.sub_0_r. reflexivity.
  - destruct n as [|n]; [lia|]. rewrite expectation_S. cbn [skipn Nat.sub].
    rewrite IH by lia. ring.
Qed.

(** The training rows of hidden units when the inputs are dropped. *)
Definition affines (l : layer) (x : list Q) : list Q :=
  map (fun wb => dot (fst wb) x + snd wb) (combine (weight l) (bias l)).
Fixpoint trows (act : Q -> Q) (p : Q) (t : tape) (ls : list layer) (xs : list (list Q)) : list (list Q) :=
  match ls, xs with
  | l :: ls', x :: xs' =>
      map act (affines l (masked p t x)) :: trows act p (skipn (List.length x) t) ls' xs'
  | _, _ => []
  end.
Lemma per_dim_train act h : position h = "lin1"%string -> 0 < rate h -> rate h < 1 ->
  forall ls xs rows t, prows act ls xs = Ok rows -> (List.length (List.concat xs) <= List.length t)%nat ->
  exists t', per_dim act h true t ls xs = Ok (trows act (rate h) t ls xs, t') /\
    map (@List.length Q) (trows act (rate h) t ls xs) = map (@List.length Q) rows.
Proof.
  intros P H0 H1. induction ls as [|l ls IH]; intros [|x xs] rows t E Ht; cbn [prows] in E;
    try (injection E as <-; eexists; split; reflexivity).
  apply bind_ok in E as (y & Ey & E). apply bind_ok in E as (r & Er & E). injection E as <-.
  cbn [List.concat] in Ht. rewrite app_length in Ht.
  cbn [per_dim trows]. rewrite P. cbn [String.eqb Ascii.eqb Bool.eqb].
  rewrite dropout_train by assumption. cbn [bind fst snd].
  destruct (linear_width l x (masked (rate h) t x) y Ey) as (z & Ez & Lz); [apply masked_length; lia|].
  rewrite Ez. cbn [bind]. destruct (linear_inv _ _ _ Ez) as [Hz _].
  destruct (IH xs r (skipn (List.length x) t) Er) as (t' & -> & L); [rewrite skipn_length; lia|].
  cbn [bind fst snd]. exists t'. split; [unfold affines; now rewrite Hz|].
  cbn [map]. rewrite L. f_equal. rewrite !map_length, <- Lz, Hz. unfold affines. now rewrite map_length.
Qed.

Lemma widths_stack rows rows' : map (@List.length Q) rows' = map (@List.length Q) rows ->
  stack rows = Ok rows -> stack rows' = Ok rows'.
Proof.
  unfold stack. destruct rows as [|r rows]; [discriminate|]. destruct rows' as [|r' rows']; [discriminate|].
  intros E. destruct (forallb _ (r :: rows)) eqn:F; [|discriminate]. intros _.
  assert (G : forallb (fun x => Nat.eqb (List.length x) (List.length r')) (r' :: rows') = true).
  { rewrite forallb_forall in F |- *. intros x Hx. apply Nat.eqb_eq.
    assert (Hx' : In (List.length x) (map (@List.length Q) (r :: rows)))
      by (rewrite <- E; now apply in_map).
    apply in_map_iff in Hx' as (u & Hu & Hin). rewrite <- Hu.
    specialize (F u Hin). apply Nat.eqb_eq in F. rewrite F. cbn in E. congruence. }
  now rewrite G.
Qed.
Lemma widths_all rows rows' H : map (@List.length Q) rows' = map (@List.length Q) rows ->
  (forall x, In x rows -> List.length x = H) -> forall x, In x rows' -> List.length x = H.
Proof.
  intros E HH x Hx. assert (Hx' : In (List.length x) (map (@List.length Q) rows))
    by (rewrite <- E; now apply in_map).
  apply in_map_iff in Hx' as (u & <- & Hin). now apply HH.
Qed.

(** The training output before lin1. *)
Lemma head_lin1 act h t xs rows y H :
  position h = "lin1"%string -> 0 < rate h -> rate h < 1 ->
  shaped act h xs rows y H -> (List.length (List.concat xs) <= List.length t)%nat ->
  exists z, sparse_head act h true t xs = Ok z /\ List.length z = List.length y /\
  forall j, (j < List.length y)%nat ->
    at1 z j == at1 (bias (lin2 h)) j +
      factor (final_readout h) (List.length rows) *
      sigma (trows act (rate h) t (lin1s h) xs) (dot (nth j (weight (lin2 h)) [])).
Proof.
  intros P H0 H1 [Er Es Hne HH Hf Ho] Ht.
  destruct (per_dim_train act h P H0 H1 _ _ _ t Er Ht) as (t' & Ep & W).
  set (tr := trows act (rate h) t (lin1s h) xs) in *.
  assert (Tne : tr <> []) by (intros Z; rewrite Z in W; destruct rows; [congruence|discriminate]).
  pose proof (widths_all _ _ H W HH) as TH.
  destruct (readout_dot (final_readout h) H tr Tne TH) as [Lt Dt].
  destruct (readout_dot (final_readout h) H rows Hne HH) as [Lr _].
  destruct (linear_width (lin2 h) _ (readout (final_readout h) tr) y Ho) as (z & Hz & Lz); [congruence|].
  exists z. split; [|split; [exact Lz|]].
  - unfold sparse_head. rewrite Ep. cbn [bind fst snd]. rewrite (widths_stack _ _ W Es). cbn [bind].
    rewrite P. cbn [String.eqb Ascii.eqb Bool.eqb bind fst snd orb].
    fold (finish (final_readout h) tr). rewrite (finish_ok _ tr Hf). exact Hz.
  - intros j Hj. destruct (linear_nth _ _ _ j Hz) as [-> _]; [lia|]. rewrite Dt.
    assert (LL : List.length tr = List.length rows)
      by (rewrite <- (map_length (@List.length Q) tr), W; apply map_length).
    rewrite LL. ring.
Qed.

Section Relation.
  Variable rel : Q -> Q -> Prop.
  Hypothesis rel_add : forall a b c d, rel a b -> rel c d -> rel (a + c) (b + d).
  Hypothesis rel_eq : forall a a' b b', a == a' -> b == b' -> rel a b -> rel a' b'.
  Hypothesis rel_refl : forall a, rel a a.
  Variables (act : Q -> Q) (p : Q).
  Hypothesis Ha : respects act.
  Hypothesis jensen : forall a n c, (List.length a <= n)%nat ->
    rel (act (c + tot a)) (expectation p n (fun t => act (c + zf p t a))).

  Lemma rel_units x n : (List.length x <= n)%nat -> forall w L,
    (forall v, In v w -> forall a b, rel a b -> rel (v * a) (v * b)) ->
    (forall wb, In wb L -> List.length (fst wb) = List.length x) ->
    rel (dot w (map act (map (fun wb => dot (fst wb) x + snd wb) L)))
        (expectation p n (fun t => dot w (map act (map (fun wb => dot (fst wb) (masked p t x) + snd wb) L)))).
  Proof.
    intros Hn. induction w as [|v w IH]; intros L Hw HL.
    - eapply rel_eq; [reflexivity | | apply rel_refl]. unfold dot. cbn [combine map fold_right].
      symmetry. apply expectation_const.
    - destruct L as [|[W b] L].
      + eapply rel_eq; [reflexivity | | apply rel_refl]. unfold dot. cbn [map combine fold_right].
        symmetry. apply expectation_const.
      + assert (HWl : List.length W = List.length x) by (apply (HL (W, b)); now left).
        eapply rel_eq; [| |apply rel_add; [apply (Hw v (or_introl eq_refl)), (jensen (prods W x) n b)|
          apply (IH L); [intros u Hu; apply Hw; now right | intros u Hu; apply HL; now right]]].
        * change (dot (v :: w) (map act (map (fun wb => dot (fst wb) x + snd wb) ((W, b) :: L)))) with
            (v * act (dot W x + b) + dot w (map act (map (fun wb => dot (fst wb) x + snd wb) L))).
          apply Qplus_comp; [|reflexivity]. apply Qmult_comp; [reflexivity|]. apply Ha.
          rewrite dot_tot. ring.
        * rewrite <- expectation_mul, <- expectation_add. apply expectation_ext. intros t Ht.
          change (dot (v :: w) (map act (map (fun wb => dot (fst wb) (masked p t x) + snd wb) ((W, b) :: L)))) with
            (v * act (dot W (masked p t x) + b) + dot w (map act (map (fun wb => dot (fst wb) (masked p t x) + snd wb) L))).
          apply Qplus_comp; [|reflexivity]. apply Qmult_comp; [reflexivity|]. apply Ha.
          rewrite dot_masked by lia. ring.
        * rewrite prods_length by exact HWl. exact Hn.
  Qed.

  Lemma rel_rows w : (forall v, In v w -> forall a b, rel a b -> rel (v * a) (v * b)) ->
    forall ls xs rows n, prows act ls xs = Ok rows -> (List.length (List.concat xs) <= n)%nat ->
    rel (sigma rows (dot w)) (expectation p n (fun t => sigma (trows act p t ls xs) (dot w))).
  Proof.
    intros Hw.
    assert (Z : forall n, rel (sigma [] (dot w)) (expectation p n (fun _ => sigma [] (dot w)))).
    { intros n. eapply rel_eq; [reflexivity | | apply rel_refl]. symmetry. apply expectation_const. }
    induction ls as [|l ls IH]; intros [|x xs] rows n E Hn; cbn [prows] in E;
      try (injection E as <-; apply Z).
    apply bind_ok in E as (y & Ey & E). apply bind_ok in E as (r & Er & E). injection E as <-.
    cbn [List.concat] in Hn. rewrite app_length in Hn.
    destruct (linear_inv _ _ _ Ey) as [Hy HW]. cbn [trows].
    assert (B : rel (sigma r (dot w))
      (expectation p (n - List.length x) (fun t => sigma (trows act p t ls xs) (dot w))))
      by (apply IH; [exact Er | lia]).
    assert (A : rel (dot w (map act y))
      (expectation p n (fun t => dot w (map act (affines l (masked p t x)))))).
    { rewrite Hy. unfold affines. apply rel_units; [lia | exact Hw|].
      intros [W b] Hin. apply in_combine_l in Hin. now apply HW. }
    eapply rel_eq; [reflexivity | | apply (rel_add _ _ _ _ A B)].
    rewrite <- (expectation_skip p (List.length x) n (fun t => sigma (trows act p t ls xs) (dot w))) by lia.
    rewrite <- expectation_add. apply expectation_ext. intros t _. reflexivity.
  Qed.
End Relation.

(** An affine activation ('id') commutes with dropout before lin1 as well. *)
Theorem C89_lin1_affine : forall act u v h t0 xs y j n, (forall x, act x == u * x + v) ->
  0 <= rate h -> rate h < 1 -> position h = "lin1"%string ->
  sparse_head act h false t0 xs = Ok y -> (j < List.length y)%nat ->
  (List.length (List.concat xs) <= n)%nat ->
  (forall t, List.length t = n ->
     exists z, sparse_head act h true t xs = Ok z /\ List.length z = List.length y) /\
  expectation (rate h) n (fun t => entry j (sparse_head act h true t xs)) == at1 y j.
Proof.
  intros act u v h t0 xs y j n Hact H0 H1 P E Hj Hn.
  assert (L : legal_rate (rate h)) by (split; lra).
  destruct (Qeq_dec (rate h) 0) as [Ez|Nz].
  { assert (A : forall t, sparse_head act h true t xs = Ok y).
    { intros t. rewrite <- E. rewrite !head_plain; auto. }
    split; [intros t _; exists y; auto|].
    rewrite (expectation_ext _ n _ (fun _ => at1 y j)); [apply expectation_const|].
    intros t _. rewrite A. reflexivity. }
  assert (Hp : 0 < rate h) by (apply Qle_lteq in H0 as [H0|H0]; [exact H0 | now symmetry in H0]).
  destruct (eval_inv _ _ _ _ _ E L) as (rows & H & Sh).
  assert (T : forall t, List.length t = n -> _)
    by (intros t Ht; exact (head_lin1 act h t xs rows y H P Hp H1 Sh ltac:(lia))).
  split; [intros t Ht; destruct (T t Ht) as (z & Hz & Lz & _); exists z; auto|].
  pose proof Sh as [Er Es Hne HH Hf Ho].
  set (w := nth j (weight (lin2 h)) []) in *. set (c := factor (final_readout h) (List.length rows)) in *.
  rewrite (expectation_ext _ n _ (fun t => at1 (bias (lin2 h)) j + c *
     sigma (trows act (rate h) t (lin1s h) xs) (dot w))).
  2:{ intros t Ht. destruct (T t Ht) as (z & -> & Lz & Z). cbn [entry]. now apply Z. }
  rewrite expectation_add, expectation_const, expectation_mul.
  rewrite <- (rel_rows Qeq) with (rows := rows); try assumption.
  - destruct (linear_nth _ _ _ _ Ho Hj) as [-> _].
    destruct (readout_dot (final_readout h) H rows Hne HH) as [_ ->]. fold w c. ring.
  - intros a b d e -> ->. reflexivity.
  - intros a a' b b' -> ->. auto.
  - reflexivity.
  - intros a b Hab. rewrite !Hact, Hab. reflexivity.
  - intros a m d Hm. rewrite Hact.
    rewrite (expectation_ext _ m _ (fun t => v + u * (d + zf (rate h) t a))).
    2:{ intros t _. rewrite Hact. ring. }
    rewrite expectation_add, expectation_const, expectation_mul, E_zf by (assumption || lra). ring.
  - intros q _ a b ->. reflexivity.
Qed.

(** A convex activation (relu) with non-negative weights in lin2: dropout before lin1 raises the
    expected output, or leaves it. *)
Definition convex (act : Q -> Q) : Prop :=
  forall a b l, 0 <= l -> l <= 1 -> act (l * a + (1 - l) * b) <= l * act a + (1 - l) * act b.
Lemma jensen_zf act p : respects act -> convex act -> 0 <= p -> p < 1 ->
  forall a n c, (List.length a <= n)%nat ->
  act (c + tot a) <= expectation p n (fun t => act (c + zf p t a)).
Proof.
  intros Ha Hc H0 H1. induction a as [|x a IH]; intros n c Hn.
  - rewrite (expectation_ext _ n _ (fun _ => act c)); [|intros t _; apply Ha; rewrite zf_nil; ring].
    rewrite expectation_const. rewrite (Ha (c + tot []) c); [lra|]. unfold tot, sigma. cbn. ring.
  - destruct n as [|n]; [cbn in Hn; lia|]. cbn in Hn. rewrite expectation_S.
    rewrite (expectation_ext p n _ (fun t => act ((c + x * / (1 - p)) + zf p t a))).
    2:{ intros t _. apply Ha. rewrite zf_cons. unfold scale. ring. }
    rewrite (expectation_ext p n (fun t => act (c + zf p (false :: t) (x :: a))) (fun t => act (c + zf p t a))).
    2:{ intros t _. apply Ha. rewrite zf_cons. unfold scale. ring. }
    pose proof (IH n (c + x * / (1 - p)) ltac:(lia)) as I1. pose proof (IH n c ltac:(lia)) as I2.
    pose proof (Hc (c + x * / (1 - p) + tot a) (c + tot a) (1 - p) ltac:(lra) ltac:(lra)) as J.
    rewrite (Ha ((1 - p) * (c + x * / (1 - p) + tot a) + (1 - (1 - p)) * (c + tot a)) (c + tot (x :: a))) in J.
    2:{ unfold tot at 3. rewrite sigma_cons. fold (tot a). field. lra. }
    assert (K : 1 - (1 - p) == p) by ring. rewrite K in J.
    assert (A1 : 0 <= (1 - p) * (expectation p n (fun t => act (c + x * / (1 - p) + zf p t a)) - act (c + x * / (1 - p) + tot a)))
      by (apply Qmult_le_0_compat; lra).
    assert (A2 : 0 <= p * (expectation p n (fun t => act (c + zf p t a)) - act (c + tot a)))
      by (apply Qmult_le_0_compat; lra).
    lra.
Qed.
Theorem C89_lin1_convex : forall act h t0 xs y j n, respects act -> convex act ->
  0 <= rate h -> rate h < 1 -> position h = "lin1"%string ->
  (forall v, In v (nth j (weight (lin2 h)) []) -> 0 <= v) ->
  sparse_head act h false t0 xs = Ok y -> (j < List.length y)%nat ->
  (List.length (List.concat xs) <= n)%nat ->
  (forall t, List.length t = n ->
     exists z, sparse_head act h true t xs = Ok z /\ List.length z = List.length y) /\
  at1 y j <= expectation (rate h) n (fun t => entry j (sparse_head act h true t xs)).
Proof.
  intros act h t0 xs y j n Ha Hc H0 H1 P Hw E Hj Hn.
  assert (L : legal_rate (rate h)) by (split; lra).
  destruct (Qeq_dec (rate h) 0) as [Ez|Nz].
  { assert (A : forall t, sparse_head act h true t xs = Ok y).
    { intros t. rewrite <- E. rewrite !head_plain; auto. }
    split; [intros t _; exists y; auto|].
    rewrite (expectation_ext _ n _ (fun _ => at1 y j)); [rewrite expectation_const; lra|].
    intros t _. rewrite A. reflexivity. }
  assert (Hp : 0 < rate h) by (apply Qle_lteq in H0 as [H0|H0]; [exact H0 | now symmetry in H0]).
  destruct (eval_inv _ _ _ _ _ E L) as (rows & H & Sh).
  assert (T : forall t, List.length t = n -> _)
    by (intros t Ht; exact (head_lin1 act h t xs rows y H P Hp H1 Sh ltac:(lia))).
  split; [intros t Ht; destruct (T t Ht) as (z & Hz & Lz & _); exists z; auto|].
  pose proof Sh as [Er Es Hne HH Hf Ho].
  set (w := nth j (weight (lin2 h)) []) in *. set (c := factor (final_readout h) (List.length rows)) in *.
  rewrite (expectation_ext _ n _ (fun t => at1 (bias (lin2 h)) j + c *
     sigma (trows act (rate h) t (lin1s h) xs) (dot w))).
  2:{ intros t Ht. destruct (T t Ht) as (z & -> & Lz & Z). cbn [entry]. now apply Z. }
  rewrite expectation_add, expectation_const, expectation_mul.
  assert (R : sigma rows (dot w) <=
              expectation (rate h) n (fun t => sigma (trows act (rate h) t (lin1s h) xs) (dot w))).
  { apply (rel_rows Qle); try assumption.
    - intros a b d e X Y. lra.
    - intros a a' b b' -> ->. auto.
    - intros a. lra.
    - intros a m d Hm. apply jensen_zf; assumption.
    - intros v Hv a b Hab. rewrite (Qmult_comm v a), (Qmult_comm v b).
      apply Qmult_le_compat_r; [exact Hab | now apply Hw]. }
  assert (C0 : 0 <= c).
  { unfold c, factor. destruct (final_readout h =? "mean")%string; [|lra].
    apply Qinv_le_0_compat. unfold Qle. cbn. lia. }
  destruct (linear_nth _ _ _ _ Ho Hj) as [-> _].
  destruct (readout_dot (final_readout h) H rows Hne HH) as [_ ->]. fold w c.
  assert (X : c * sigma rows (dot w) <=
    c * expectation (rate h) n (fun t => sigma (trows act (rate h) t (lin1s h) xs) (dot w))).
  { rewrite (Qmult_comm c), (Qmult_comm c). now apply Qmult_le_compat_r. }
  lra.
Qed.

Lemma relu_cases x : (0 <= x /\ relu x = x) \/ (x < 0 /\ relu x = 0).
Proof.
  unfold relu. destruct (Qle_bool 0 x) eqn:E; [left; apply Qle_bool_iff in E; auto|].
  right. split; [|reflexivity]. apply Qnot_le_lt. intros H. apply Qle_bool_iff in H. congruence.
Qed.
Example C89_ex_relu : respects relu /\ convex relu.
Proof.
  split.
  - intros a b H. destruct (relu_cases a) as [[A ->]|[A ->]], (relu_cases b) as [[B ->]|[B ->]]; lra.
  - intros a b l H0 H1.
    assert (A : 0 <= relu a /\ a <= relu a) by (destruct (relu_cases a) as [[? ->]|[? ->]]; lra).
    assert (B : 0 <= relu b /\ b <= relu b) by (destruct (relu_cases b) as [[? ->]|[? ->]]; lra).
    assert (X : 0 <= l * (relu a - a)) by (apply Qmult_le_0_compat; lra).
    assert (Y : 0 <= (1 - l) * (relu b - b)) by (apply Qmult_le_0_compat; lra).
    assert (X' : 0 <= l * relu a) by (apply Qmult_le_0_compat; lra).
    assert (Y' : 0 <= (1 - l) * relu b) by (apply Qmult_le_0_compat; lra).
    destruct (relu_cases (l * a + (1 - l) * b)) as [[? ->]|[? ->]]; lra.
Qed.
Example C89_ex_lin1 :
  expectation (1 # 2) 3 (fun t => entry 0 (sparse_head (fun x => x) (ex2 "lin1" (1 # 2)) true t [[1; 1]; [2]])) == 23 # 2 /\
  expectation (1 # 2) 3 (fun t => entry 0 (sparse_head relu (ex2 "lin1" (1 # 2)) true t [[1; 1]; [-(3)]])) == (71 # 4).
Proof. split; vm_compute; reflexivity. Qed.
(** ** The other heads by index, and wrong widths *)
Lemma two_layers act l1 l2 x v y j : respects act -> linear l1 x = Ok v -> linear l2 (map act v) = Ok y ->
  (j < List.length y)%nat ->
  at1 y j == at1 (bias l2) j +
    sigma (seq 0 (List.length (nth j (weight l2) []))) (fun k => at2 (weight l2) j k *
      act (sigma (seq 0 (List.length x)) (fun l => at2 (weight l1) k l * at1 x l) + at1 (bias l1) k)).
Proof.
  intros Ha Ev Ey Hj. destruct (linear_nth _ _ _ _ Ey Hj) as [-> Lw]. rewrite dot_at by exact Lw.
  rewrite Lw, Qplus_comm. apply Qplus_comp; [reflexivity|]. apply sigma_ext. intros k Hk.
  apply in_seq in Hk. rewrite map_length in Hk. apply Qmult_comp; [reflexivity|].
  rewrite at_map_act by lia. apply Ha. destruct (linear_nth _ _ _ k Ev) as [-> Lx]; [lia|].
  rewrite dot_at by exact Lx. reflexivity.
Qed.
(** EmbedGIN in evaluation mode. *)
Theorem C89_gin_formula : forall act l1 l2 pos p t x y j, respects act -> legal_rate p ->
  gin_head act l1 l2 pos p false t x = Ok y -> (j < List.length y)%nat ->
  at1 y j == at1 (bias l2) j +
    sigma (seq 0 (List.length (nth j (weight l2) []))) (fun k => at2 (weight l2) j k *
      act (sigma (seq 0 (List.length x)) (fun l => at2 (weight l1) k l * at1 x l) + at1 (bias l1) k)).
Proof.
  intros act l1 l2 pos p t x y j Ha L E Hj. rewrite gin_eval in E by exact L.
  apply bind_ok in E as (v & Ev & E). now apply (two_layers act l1 l2 x v).
Qed.
(** CIN0 and EdgeCIN0 in evaluation mode: the pooled rows of the dimensions are added. *)
Theorem C89_cin0_formula : forall act l1 l2 p t pooled D y j, respects act -> legal_rate p ->
  pooled <> [] -> (forall r, In r pooled -> List.length r = D) ->
  cin0_head act l1 l2 p false t pooled = Ok y -> (j < List.length y)%nat ->
  at1 y j == at1 (bias l2) j +
    sigma (seq 0 (List.length (nth j (weight l2) []))) (fun k => at2 (weight l2) j k *
      act (sigma (seq 0 D) (fun l => at2 (weight l1) k l *
             sigma (seq 0 (List.length pooled)) (fun i => at2 pooled i l)) + at1 (bias l1) k)).
Proof.
  intros act l1 l2 p t pooled D y j Ha L Hne HD E Hj.
  destruct (sum0_dot D pooled Hne HD) as [Ls Ds].
  rewrite (C89_gin_formula act l1 l2 "lin2" p t (sum0 pooled) y j Ha L E Hj), Ls.
  apply Qplus_comp; [reflexivity|]. apply sigma_ext. intros k _. apply Qmult_comp; [reflexivity|].
  apply Ha. apply Qplus_comp; [|reflexivity]. apply sigma_ext. intros l _.
  apply Qmult_comp; [reflexivity|]. rewrite <- basis, Ds, (sigma_nth pooled []).
  apply sigma_ext. intros i _. apply basis.
Qed.

Lemma linear_bad l x w : In w (weight l) -> List.length w <> List.length x -> linear l x = Err RuntimeError.
Proof.
  intros Hw N. unfold linear. destruct (forallb _ _) eqn:F; [|reflexivity].
  rewrite forallb_forall in F. specialize (F w Hw). now apply Nat.eqb_eq in F.
Qed.
Lemma prows_bad act w : forall ls xs i l x, nth_error ls i = Some l -> nth_error xs i = Some x ->
  In w (weight l) -> List.length w <> List.length x -> prows act ls xs = Err RuntimeError.
Proof.
  induction ls as [|a ls IH]; intros xs i l x Hl Hx Hw N; [destruct i; discriminate|].
  destruct xs as [|b xs]; [destruct i; discriminate|]. cbn [prows]. destruct i as [|i].
  - injection Hl as ->. injection Hx as ->. rewrite (linear_bad l x w Hw N). reflexivity.
  - unfold linear at 1. destruct (forallb _ _); [|reflexivity]. cbn [bind].
    rewrite (IH xs i l x Hl Hx Hw N). reflexivity.
Qed.
(** Features of a wrong width in any of the read-out dimensions: RuntimeError. *)
Theorem C89_width : forall act h t xs i l x w, legal_rate (rate h) ->
  nth_error (lin1s h) i = Some l -> nth_error xs i = Some x ->
  In w (weight l) -> List.length w <> List.length x ->
  sparse_head act h false t xs = Err RuntimeError.
Proof.
  intros act h t xs i l x w L Hl Hx Hw N. rewrite head_plain by (left; auto).
  unfold plain. rewrite (prows_bad act w _ _ _ _ _ Hl Hx Hw N). reflexivity.
Qed.
Example C89_ex_width :
  sparse_head relu (ex2 "lin1" (1 # 2)) false [] [[1; 1]; [2; 3]] = Err RuntimeError /\
  exists y, cin0_head relu (mklayer [[1; 2]] [0]) (mklayer [[1]] [3]) (1 # 2) false [] [[1; 1]; [2; 3]] = Ok y /\
            at1 y 0 == 14.
Proof. split; [vm_compute; reflexivity|]. eexists. split; vm_compute; reflexivity. Qed.
Print Assumptions C89_lin1_affine.
Print Assumptions C89_lin1_convex.
Print Assumptions C89_gin_formula.
Print Assumptions C89_cin0_formula.
Print Assumptions C89_width.
