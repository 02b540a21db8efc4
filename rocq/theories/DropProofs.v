(** Lemmas on dropout and the heads. *)
From Coq Require Import List Arith ZArith QArith Bool String Lia Lqa Field.
From Verif Require Import Base.
From Verif Require Import DropModel DropSpec.
Import ListNotations.
Local Open Scope Q_scope.

(** ** Sums *)
Lemma sigma_ext {A} (l : list A) f g : (forall x, In x l -> f x == g x) -> sigma l f == sigma l g.
Proof.
  unfold sigma. induction l as [|a l IH]; intros H; cbn; [reflexivity|].
  rewrite (H a (or_introl eq_refl)), IH; [reflexivity | intros x Hx; apply H; now right].
Qed.
Lemma sigma_app {A} (l m : list A) f : sigma (l ++ m) f == sigma l f + sigma m f.
Proof.
  unfold sigma. induction l as [|a l IH]; cbn; [ring|]. rewrite IH. ring.
Qed.
Lemma sigma_map {A B} (g : A -> B) (l : list A) f : sigma (map g l) f = sigma l (fun x => f (g x)).
Proof. unfold sigma. now rewrite map_map. Qed.
Lemma sigma_mul {A} (l : list A) c f : sigma l (fun x => c * f x) == c * sigma l f.
Proof. unfold sigma. induction l as [|a l IH]; cbn; [ring|]. rewrite IH. ring. Qed.
Lemma sigma_add {A} (l : list A) f g : sigma l (fun x => f x + g x) == sigma l f + sigma l g.
Proof. unfold sigma. induction l as [|a l IH]; cbn; [ring|]. rewrite IH. ring. Qed.
Lemma sigma_zero {A} (l : list A) : sigma l (fun _ => 0) == 0.
Proof. unfold sigma. induction l as [|a l IH]; cbn; [ring|]. rewrite IH. ring. Qed.
Lemma sigma_cons {A} (a : A) l f : sigma (a :: l) f = f a + sigma l f.
Proof. reflexivity. Qed.
Lemma sigma_swap {A B} (l : list A) (m : list B) f :
  sigma l (fun x => sigma m (f x)) == sigma m (fun y => sigma l (fun x => f x y)).
Proof.
  induction l as [|a l IH].
  - unfold sigma at 1. cbn. symmetry. apply sigma_zero.
  - rewrite sigma_cons, IH, <- sigma_add. apply sigma_ext. intros y _. reflexivity.
Qed.
Lemma sigma_nth {A} (l : list A) (d : A) f :
  sigma l f == sigma (seq 0 (List.length l)) (fun k => f (nth k l d)).
Proof.
  induction l as [|a l IH]; [reflexivity|].
  cbn [List.length seq]. rewrite !sigma_cons, <- seq_shift, sigma_map, IH. reflexivity.
Qed.
Lemma sigma_le {A} (l : list A) f g : (forall x, In x l -> f x <= g x) -> sigma l f <= sigma l g.
Proof.
  unfold sigma. induction l as [|a l IH]; intros H; cbn; [lra|].
  assert (f a <= g a) by (apply H; now left).
  assert (fold_right Qplus 0 (map f l) <= fold_right Qplus 0 (map g l))
    by (apply IH; intros x Hx; apply H; now right).
  lra.
Qed.
Lemma sigma_combine (g : Q -> Q -> Q) (w s : list Q) : List.length w = List.length s ->
  sigma (combine w s) (fun ab => g (fst ab) (snd ab)) ==
  sigma (seq 0 (List.length s)) (fun k => g (at1 w k) (at1 s k)).
Proof.
  intros Hl. rewrite (sigma_nth (combine w s) (0, 0)), combine_length, Hl, Nat.min_id.
  apply sigma_ext. intros k _. rewrite combine_nth by exact Hl. reflexivity.
Qed.

(** ** Expectations *)
Lemma expectation_0 p f : expectation p 0 f == f [].
Proof. unfold expectation, sigma, prob. cbn. ring. Qed.
Lemma expectation_S p n f :
  expectation p (S n) f ==
  (1 - p) * expectation p n (fun t => f (true :: t)) + p * expectation p n (fun t => f (false :: t)).
Proof.
  unfold expectation. cbn [tapes]. rewrite sigma_app, !sigma_map, <- !sigma_mul.
  apply Qplus_comp; apply sigma_ext; intros t _; unfold prob; cbn; ring.
Qed.
Lemma tapes_length n t : In t (tapes n) -> List.length t = n.
Proof.
  revert t. induction n as [|n IH]; intros t H; cbn in H.
  - destruct H as [<-|[]]. reflexivity.
  - apply in_app_or in H as [H|H]; apply in_map_iff in H as (u & <- & Hu); cbn; now rewrite IH.
Qed.
Lemma expectation_ext p n f g : (forall t, List.length t = n -> f t == g t) ->
  expectation p n f == expectation p n g.
Proof.
  intros H. apply sigma_ext. intros t Ht. rewrite (H t (tapes_length _ _ Ht)). reflexivity.
Qed.
Lemma expectation_const p n c : expectation p n (fun _ => c) == c.
Proof. induction n as [|n IH]; [apply expectation_0|]. rewrite expectation_S, IH. ring. Qed.

(** A linear form in the scaled bits. *)
Definition zf (p : Q) (t : list bool) (a : list Q) : Q :=
  sigma (combine t a) (fun ba => snd ba * scale p (fst ba)).
Definition tot (a : list Q) : Q := sigma a (fun x => x).
Definition sqs (a : list Q) : Q := sigma a (fun x => x * x).

Lemma zf_nil p t : zf p t [] = 0.
Proof. unfold zf. now destruct t. Qed.
Lemma zf_cons p b t x a : zf p (b :: t) (x :: a) = x * scale p b + zf p t a.
Proof. reflexivity. Qed.

Lemma E_zf p a : ~ 1 - p == 0 -> forall n c, (List.length a <= n)%nat ->
  expectation p n (fun t => c + zf p t a) == c + tot a.
Proof.
  intros Hp. induction a as [|x a IH]; intros n c Hn.
  - rewrite (expectation_ext _ _ _ (fun _ => c)); [rewrite expectation_const; unfold tot, sigma; cbn; ring|].
    intros t _. rewrite zf_nil. ring.
  - destruct n as [|n]; [cbn in Hn; lia|]. cbn in Hn. rewrite expectation_S.
    rewrite (expectation_ext p n _ (fun t => (c + x * / (1 - p)) + zf p t a)).
    2:{ intros t _. rewrite zf_cons. unfold scale. ring. }
    rewrite (expectation_ext p n (fun t => c + zf p (false :: t) (x :: a)) (fun t => c + zf p t a)).
    2:{ intros t _. rewrite zf_cons. unfold scale. ring. }
    rewrite !IH by lia. unfold tot. rewrite sigma_cons. field. exact Hp.
Qed.
Lemma E_zf2 p a : ~ 1 - p == 0 -> forall n c, (List.length a <= n)%nat ->
  expectation p n (fun t => (c + zf p t a) * (c + zf p t a)) ==
  (c + tot a) * (c + tot a) + p / (1 - p) * sqs a.
Proof.
  intros Hp. induction a as [|x a IH]; intros n c Hn.
  - rewrite (expectation_ext _ _ _ (fun _ => c * c)); [rewrite expectation_const; unfold tot, sqs, sigma; cbn; field; exact Hp|].
    intros t _. rewrite zf_nil. ring.
  - destruct n as [|n]; [cbn in Hn; lia|]. cbn in Hn. rewrite expectation_S.
    rewrite (expectation_ext p n _ (fun t => ((c + x * / (1 - p)) + zf p t a) * ((c + x * / (1 - p)) + zf p t a))).
    2:{ intros t _. rewrite zf_cons. unfold scale. ring. }
    rewrite (expectation_ext p n (fun t => (c + zf p (false :: t) (x :: a)) * (c + zf p (false :: t) (x :: a)))
                                 (fun t => (c + zf p t a) * (c + zf p t a))).
    2:{ intros t _. rewrite zf_cons. unfold scale. ring. }
    rewrite !IH by lia. unfold tot, sqs. rewrite !sigma_cons. field. exact Hp.
Qed.

Lemma tot_app a b : tot (a ++ b) == tot a + tot b.
Proof. apply sigma_app. Qed.
Lemma sqs_app a b : sqs (a ++ b) == sqs a + sqs b.
Proof. apply sigma_app. Qed.
Lemma tot_scale c a : tot (map (Qmult c) a) == c * tot a.
Proof. unfold tot. rewrite sigma_map. apply sigma_mul. Qed.
Lemma sqs_scale c a : sqs (map (Qmult c) a) == c * c * sqs a.
Proof.
  unfold sqs. rewrite sigma_map, <- sigma_mul. apply sigma_ext. intros; ring.
Qed.
Lemma zf_scale p c : forall a t, zf p t (map (Qmult c) a) == c * zf p t a.
Proof.
  induction a as [|x a IH]; intros t; [change (zf p t [] == c * zf p t []); rewrite zf_nil; ring|].
  destruct t as [|b t]; [change (0 == c * 0); ring|].
  cbn [map]. rewrite !zf_cons, IH. ring.
Qed.
Lemma zf_app p : forall a b t, (List.length a <= List.length t)%nat ->
  zf p t (a ++ b) == zf p t a + zf p (skipn (List.length a) t) b.
Proof.
  induction a as [|x a IH]; intros b t Hl; [cbn [app List.length skipn]; rewrite zf_nil; ring|].
  destruct t as [|c t]; [cbn in Hl; lia|]. cbn in Hl.
  cbn [app List.length skipn]. rewrite !zf_cons, IH by lia. ring.
Qed.

(** ** Linear layers *)
Definition prods (w s : list Q) : list Q := map (fun ab => fst ab * snd ab) (combine w s).
Lemma dot_tot w s : dot w s = tot (prods w s).
Proof. unfold dot, tot, prods, sigma. now rewrite map_id. Qed.
Lemma prods_length w s : List.length w = List.length s -> List.length (prods w s) = List.length s.
Proof. intros H. unfold prods. rewrite map_length, combine_length, H. apply Nat.min_id. Qed.
Lemma masked_length p t s : (List.length s <= List.length t)%nat ->
  List.length (masked p t s) = List.length s.
Proof. intros H. unfold masked. rewrite map_length, combine_length. lia. Qed.
Lemma dot_masked p : forall w s t, (List.length s <= List.length t)%nat ->
  dot w (masked p t s) == zf p t (prods w s).
Proof.
  induction w as [|x w IH]; intros s t Hl.
  - unfold prods. cbn. rewrite zf_nil. reflexivity.
  - destruct s as [|y s]; [unfold prods; cbn; destruct t; cbn; reflexivity|].
    destruct t as [|b t]; [cbn in Hl; lia|]. cbn in Hl.
    change (dot (x :: w) (masked p (b :: t) (y :: s))) with
      (x * (y * scale p b) + dot w (masked p t s)).
    change (prods (x :: w) (y :: s)) with ((x * y) :: prods w s).
    rewrite zf_cons, IH by lia. ring.
Qed.

Lemma linear_inv l x y : linear l x = Ok y ->
  y = map (fun wb => dot (fst wb) x + snd wb) (combine (weight l) (bias l)) /\
  forall w, In w (weight l) -> List.length w = List.length x.
Proof.
  unfold linear. destruct (forallb _ _) eqn:E; [|discriminate]. intros [= <-].
  split; [reflexivity|]. intros w Hw. rewrite forallb_forall in E.
  now apply Nat.eqb_eq, E.
Qed.
Lemma linear_nth l x y j : linear l x = Ok y -> (j < List.length y)%nat ->
  at1 y j = dot (nth j (weight l) []) x + at1 (bias l) j /\
  List.length (nth j (weight l) []) = List.length x.
Proof.
  intros H Hj. destruct (linear_inv _ _ _ H) as [Hy Hw].
  assert (Hm : (j < Nat.min (List.length (weight l)) (List.length (bias l)))%nat)
    by (rewrite Hy, map_length, combine_length in Hj; exact Hj).
  split; [|apply Hw, nth_In; lia].
  rewrite Hy. unfold at1.
  assert (G : forall (W : list (list Q)) B j, (j < Nat.min (List.length W) (List.length B))%nat ->
     nth j (map (fun wb => dot (fst wb) x + snd wb) (combine W B)) 0 = dot (nth j W []) x + nth j B 0).
  { induction W as [|w W IH]; intros B i Hi; [cbn in Hi; lia|].
    destruct B as [|b B]; [cbn in Hi; lia|]. destruct i as [|i]; [reflexivity|].
    cbn in Hi |- *. apply IH. lia. }
  now apply G.
Qed.
Lemma linear_width l x x' y : linear l x = Ok y -> List.length x' = List.length x ->
  exists y', linear l x' = Ok y' /\ List.length y' = List.length y.
Proof.
  intros H Hl. pose proof H as H0. unfold linear in H |- *. rewrite Hl.
  destruct (forallb _ _); [|discriminate]. injection H as <-. eexists. split; [reflexivity|].
  now rewrite !map_length.
Qed.

(** ** Sums of rows *)
Lemma add_rows_length a b : List.length a = List.length b -> List.length (add_rows a b) = List.length a.
Proof. intros H. unfold add_rows. rewrite map_length, combine_length, H. apply Nat.min_id. Qed.
Lemma dot_add : forall w a b, List.length a = List.length b ->
  dot w (add_rows a b) == dot w a + dot w b.
Proof.
  induction w as [|x w IH]; intros [|u a] [|v b] H; try discriminate; try (cbn; ring).
  injection H as H.
  change (dot (x :: w) (add_rows (u :: a) (v :: b))) with (x * (u + v) + dot w (add_rows a b)).
  change (dot (x :: w) (u :: a)) with (x * u + dot w a).
  change (dot (x :: w) (v :: b)) with (x * v + dot w b).
  rewrite IH by exact H. ring.
Qed.
Lemma fold_rows H rows : (forall r, In r rows -> List.length r = H) -> forall a, List.length a = H ->
  List.length (fold_left add_rows rows a) = H /\
  forall w, dot w (fold_left add_rows rows a) == dot w a + sigma rows (dot w).
Proof.
  induction rows as [|r rows IH]; intros Hr a Ha.
  - cbn [fold_left]. split; [exact Ha|]. intros w. unfold sigma. cbn. ring.
  - cbn [fold_left].
    assert (Hrl : List.length r = H) by (apply Hr; now left).
    assert (Hl : List.length (add_rows a r) = H) by (rewrite add_rows_length; congruence).
    destruct (IH (fun x Hx => Hr x (or_intror Hx)) _ Hl) as [L D].
    split; [exact L|]. intros w. rewrite D, dot_add by congruence. rewrite sigma_cons. ring.
Qed.
Lemma sum0_dot H rows : rows <> [] -> (forall r, In r rows -> List.length r = H) ->
  List.length (sum0 rows) = H /\ forall w, dot w (sum0 rows) == sigma rows (dot w).
Proof.
  destruct rows as [|r rows]; [congruence|]. intros _ Hr. cbn [sum0].
  destruct (fold_rows H rows (fun x Hx => Hr x (or_intror Hx)) r (Hr r (or_introl eq_refl))) as [L D].
  split; [exact L|]. intros w. rewrite D, sigma_cons. reflexivity.
Qed.
Lemma dot_map_div c : forall w v, dot w (map (fun x => x / c) v) == / c * dot w v.
Proof.
  induction w as [|x w IH]; intros [|y v]; try (cbn; unfold Qdiv; ring).
  change (dot (x :: w) (map (fun x => x / c) (y :: v))) with (x * (y / c) + dot w (map (fun x => x / c) v)).
  change (dot (x :: w) (y :: v)) with (x * y + dot w v). rewrite IH. unfold Qdiv. ring.
Qed.

(** The final read-out and its factor. *)
Definition factor (s : string) (N : nat) : Q :=
  if (s =? "mean")%string then / inject_Z (Z.of_nat N) else 1.
Definition readout (s : string) (rows : list (list Q)) : list Q :=
  if (s =? "mean")%string then mean0 rows else sum0 rows.
Lemma readout_dot s H rows : rows <> [] -> (forall r, In r rows -> List.length r = H) ->
  List.length (readout s rows) = H /\
  forall w, dot w (readout s rows) == factor s (List.length rows) * sigma rows (dot w).
Proof.
  intros Hne Hr. destruct (sum0_dot H rows Hne Hr) as [L D]. unfold readout, factor.
  destruct (s =? "mean")%string.
  - unfold mean0. split; [now rewrite map_length|]. intros w. rewrite dot_map_div, D. reflexivity.
  - split; [exact L|]. intros w. rewrite D. ring.
Qed.

(** ** Dropout *)
Definition legal (p : Q) : Prop := 0 <= p /\ p <= 1.
Lemma legal_iff p : (Qle_bool 0 p && Qle_bool p 1) = true <-> legal p.
Proof. rewrite andb_true_iff, !Qle_bool_iff. reflexivity. Qed.
Lemma dropout_illegal p m t x : ~ legal p -> dropout p m t x = Err ValueError.
Proof.
  intros H. unfold dropout. destruct (Qle_bool 0 p && Qle_bool p 1) eqn:E; [|reflexivity].
  exfalso. now apply H, legal_iff.
Qed.
Lemma dropout_eval p t x : legal p -> dropout p false t x = Ok (x, t).
Proof. intros H. unfold dropout. apply legal_iff in H. now rewrite H. Qed.
Lemma dropout_legal p m t x r : dropout p m t x = Ok r -> legal p.
Proof.
  unfold dropout. destruct (Qle_bool 0 p && Qle_bool p 1) eqn:E; [|discriminate].
  intros _. now apply legal_iff.
Qed.
Lemma dropout_zero p m t x : p == 0 -> dropout p m t x = Ok (x, t).
Proof.
  intros H. unfold dropout. assert (L : legal p) by (split; rewrite H; lra).
  apply legal_iff in L. rewrite L. cbn [negb]. apply Qeq_bool_iff in H. rewrite H.
  now rewrite orb_true_r.
Qed.
Lemma dropout_one p t x : p == 1 -> dropout p true t x = Ok (map (fun _ => 0) x, t).
Proof.
  intros H. unfold dropout. assert (L : legal p) by (split; rewrite H; lra).
  apply legal_iff in L. rewrite L. cbn [negb orb].
  destruct (Qeq_bool p 0) eqn:E0; [apply Qeq_bool_iff in E0; lra|].
  apply Qeq_bool_iff in H. rewrite H. destruct x; reflexivity.
Qed.
Lemma dropout_train p t x : 0 < p -> p < 1 ->
  dropout p true t x = Ok (masked p t x, skipn (List.length x) t).
Proof.
  intros H0 H1. unfold dropout. assert (L : legal p) by (split; lra).
  apply legal_iff in L. rewrite L. cbn [negb orb].
  destruct (Qeq_bool p 0) eqn:E0; [apply Qeq_bool_iff in E0; lra|].
  destruct (Qeq_bool p 1) eqn:E1; [apply Qeq_bool_iff in E1; lra|].
  destruct x; [|reflexivity]. unfold masked. rewrite combine_nil. reflexivity.
Qed.

Fixpoint mrows (p : Q) (t : tape) (rows : list (list Q)) : list (list Q) :=
  match rows with
  | [] => []
  | r :: rows' => masked p t r :: mrows p (skipn (List.length r) t) rows'
  end.
Lemma drop_rows_train p : 0 < p -> p < 1 -> forall rows t,
  exists t', drop_rows p true t rows = Ok (mrows p t rows, t').
Proof.
  intros H0 H1. induction rows as [|r rows IH]; intros t; [eexists; reflexivity|].
  cbn [drop_rows]. rewrite dropout_train by assumption. cbn [bind fst snd].
  destruct (IH (skipn (List.length r) t)) as [t' ->]. eexists. reflexivity.
Qed.
Lemma drop_rows_same p m : (m = false /\ legal p) \/ p == 0 -> forall rows t,
  drop_rows p m t rows = Ok (rows, t).
Proof.
  intros H. induction rows as [|r rows IH]; intros t; [reflexivity|].
  cbn [drop_rows].
  assert (E : dropout p m t r = Ok (r, t))
    by (destruct H as [[-> L]|H]; [now apply dropout_eval | now apply dropout_zero]).
  rewrite E. cbn [bind fst snd]. rewrite IH. reflexivity.
Qed.
Lemma drop_rows_one p t rows : p == 1 ->
  drop_rows p true t rows = Ok (map (map (fun _ => 0)) rows, t).
Proof.
  intros H. induction rows as [|r rows IH]; [reflexivity|].
  cbn [drop_rows]. rewrite dropout_one by exact H. cbn [bind fst snd]. rewrite IH. reflexivity.
Qed.
Lemma drop_rows_illegal p m t rows : ~ legal p -> rows <> [] -> drop_rows p m t rows = Err ValueError.
Proof.
  intros H Hne. destruct rows as [|r rows]; [congruence|]. cbn [drop_rows].
  rewrite dropout_illegal by exact H. reflexivity.
Qed.
Lemma mrows_length p : forall rows t, List.length (mrows p t rows) = List.length rows.
Proof. induction rows as [|r rows IH]; intros t; [reflexivity|]. cbn. now rewrite IH. Qed.
Lemma mrows_sum p H w : forall rows t, (forall r, In r rows -> List.length r = H) ->
  List.length w = H ->
  (List.length rows * H <= List.length t)%nat ->
  (forall r, In r (mrows p t rows) -> List.length r = H) /\
  sigma (mrows p t rows) (dot w) == zf p t (List.concat (map (prods w) rows)).
Proof.
  induction rows as [|r rows IH]; intros t Hr Hw Ht.
  - cbn. rewrite zf_nil. split; [intros r []|reflexivity].
  - assert (Hrl : List.length r = H) by (apply Hr; now left).
    cbn [List.length] in Ht.
    destruct (IH (skipn H t)) as [L D];
      [intros x Hx; apply Hr; now right | exact Hw | rewrite skipn_length; lia |].
    cbn [mrows map List.concat]. rewrite Hrl. split.
    + intros x [<-|Hx]; [rewrite masked_length; lia | now apply L].
    + assert (Hp : List.length (prods w r) = H) by (rewrite prods_length; congruence).
      rewrite sigma_cons, D, dot_masked, zf_app, Hp by lia. reflexivity.
Qed.

Lemma concat_length_prods w H rows : (forall r, In r rows -> List.length r = H) -> List.length w = H ->
  List.length (List.concat (map (prods w) rows)) = (List.length rows * H)%nat.
Proof.
  intros Hr Hw. induction rows as [|r rows IH]; [reflexivity|].
  cbn [map List.concat List.length]. rewrite app_length, IH by (intros; apply Hr; now right).
  rewrite prods_length; [|rewrite Hw; symmetry; apply Hr; now left].
  rewrite (Hr r (or_introl eq_refl)). lia.
Qed.
Lemma tot_concat w rows : tot (List.concat (map (prods w) rows)) == sigma rows (dot w).
Proof.
  induction rows as [|r rows IH]; [reflexivity|].
  cbn [map List.concat]. rewrite tot_app, IH, sigma_cons, dot_tot. reflexivity.
Qed.
Lemma sqs_concat w rows : sqs (List.concat (map (prods w) rows)) == sigma rows (fun r => sqs (prods w r)).
Proof.
  induction rows as [|r rows IH]; [reflexivity|].
  cbn [map List.concat]. rewrite sqs_app, IH, sigma_cons. reflexivity.
Qed.
