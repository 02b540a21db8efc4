(** Running averages of one column: closed form, bounds, shared modules. *)
From Coq Require Import List Arith Lia Bool QArith Qabs Qfield Lqa.
From Verif Require Import Base NormModel.
From Verif Require Import RunModel RunProofs.
Import ListNotations.
Local Open Scope Q_scope.

(** * Specification *)
Fixpoint qpow (q : Q) (n : nat) : Q := match n with O => 1 | S n => q * qpow q n end.
(** The average in which a value counts 1/10 times 9/10 to the number of later values. *)
Fixpoint fading (ms : list Q) : Q :=
  match ms with [] => 0 | m :: ms => (1 # 10) * qpow (9 # 10) (length ms) * m + fading ms end.
(** Mean and unbiased variance. *)
Definition average (t : list Q) : Q := fold_right Qplus 0 t / inject_Z (Z.of_nat (length t)).
Definition spread (t : list Q) : Q :=
  fold_right Qplus 0 (map (fun x => (x - average t) * (x - average t)) t) / (inject_Z (Z.of_nat (length t)) - 1).
Definition nonempty {A} (t : list A) : bool := match t with [] => false | _ => true end.

(** * Proofs *)
Lemma qpow_pos n : 0 < qpow (9 # 10) n.
Proof.
  induction n as [|n IH]; cbn [qpow]; [reflexivity|].
  setoid_replace 0 with ((9 # 10) * 0) by ring. apply Qmult_lt_l; [reflexivity|exact IH].
Qed.

Lemma qpow_le1 n : qpow (9 # 10) n <= 1.
Proof. induction n as [|n IH]; cbn [qpow]; [discriminate|]. pose proof (qpow_pos n). lra. Qed.

Lemma qpow_lt1 n : qpow (9 # 10) (S n) < 1.
Proof. cbn [qpow]. pose proof (qpow_le1 n). lra. Qed.

Lemma qpow_add q a b : qpow q (a + b) == qpow q a * qpow q b.
Proof. induction a as [|a IH]; cbn [qpow plus]; [ring|]. rewrite IH. ring. Qed.

Lemma fading_app a b : fading (a ++ b) == qpow (9 # 10) (length b) * fading a + fading b.
Proof.
  induction a as [|m a IH]; cbn [app fading]; [ring|]. rewrite IH, app_length, qpow_add. ring.
Qed.

Lemma fading_bounds a b ms : (forall m, In m ms -> a <= m <= b) ->
  (1 - qpow (9 # 10) (length ms)) * a <= fading ms <= (1 - qpow (9 # 10) (length ms)) * b.
Proof.
  induction ms as [|m ms IH]; intros H; cbn [fading length qpow]; [lra|].
  assert (Hm : a <= m <= b) by (apply H; now left).
  assert (IH' := IH (fun x Hx => H x (or_intror Hx))).
  pose proof (qpow_pos (length ms)) as P. set (q := qpow (9 # 10) (length ms)) in *.
  assert (A : q * a <= q * m) by (rewrite !(Qmult_comm q); apply Qmult_le_compat_r; lra).
  assert (B : q * m <= q * b) by (rewrite !(Qmult_comm q); apply Qmult_le_compat_r; lra).
  lra.
Qed.

Lemma fading_plus d ms : fading (map (fun m => m - d) ms) == fading ms - (1 - qpow (9 # 10) (length ms)) * d.
Proof.
  induction ms as [|m ms IH]; cbn [map fading length qpow]; [ring|]. rewrite map_length, IH. ring.
Qed.

Lemma qlen_pos {A} (t : list A) : nonempty t = true -> 0 < inject_Z (Z.of_nat (length t)).
Proof. destruct t; [discriminate|]. intros _. unfold Qlt, inject_Z. cbn. lia. Qed.

Lemma unbiased t : nonempty t = true ->
  qvar t * inject_Z (Z.of_nat (length t)) / (inject_Z (Z.of_nat (length t)) - 1) == spread t.
Proof.
  intros H. pose proof (qlen_pos t H) as P. unfold qvar, spread, qlen, qmean, qlen, qsum, average.
  set (n := inject_Z (Z.of_nat (length t))) in *. unfold Qdiv.
  set (x := fold_right Qplus 0 (map _ t)).
  setoid_replace (x * / n * n) with x; [reflexivity|]. field. lra.
Qed.

Section Columns.
Context {V : Type} (col : nat -> V -> Q).
Notation st := (col_stats col).
Notation sees := (sees (V := V) col_upd).

Definition col_means (j : nat) (rs : list (list V)) : list Q :=
  map (fun r => average (map (col j) r)) (filter nonempty rs).
Definition col_spreads (j : nat) (rs : list (list V)) : list Q :=
  map (fun r => spread (map (col j) r)) (filter nonempty rs).

Lemma fold_sees j : forall rs s,
  let s' := fold_left (fun s r => sees st r s) rs s in
  let k := length (filter nonempty rs) in
  fst (s' j) == qpow (9 # 10) k * fst (s j) + fading (col_means j rs) /\
  snd (s' j) == qpow (9 # 10) k * snd (s j) + fading (col_spreads j rs).
Proof.
  induction rs as [|r rs IH]; intros s; cbn zeta in *.
  - cbn. split; ring.
  - cbn [fold_left]. destruct (IH (sees st r s)) as [A B]. rewrite A, B. clear A B IH.
    unfold col_means, col_spreads. destruct r as [|v r]; [cbn [filter nonempty]; split; reflexivity|].
    cbn [filter nonempty map fading length]. rewrite !map_length. cbn [qpow].
    set (q := qpow (9 # 10) _).
    assert (E : sees st (v :: r) s j =
      bn_upd (length (v :: r)) (bn_stats (map (col j) (v :: r))) (s j)) by reflexivity.
    rewrite E. unfold bn_upd. cbn [fst snd].
    change (map (col j) (v :: r)) with (map (col j) (v :: r)).
    split.
    + change (fst (bn_stats (map (col j) (v :: r)))) with (average (map (col j) (v :: r))).
      change (col j v :: map (col j) r) with (map (col j) (v :: r)). ring.
    + change (snd (bn_stats (map (col j) (v :: r)))) with (qvar (map (col j) (v :: r))).
      change (col j v :: map (col j) r) with (map (col j) (v :: r)).
      assert (U : qvar (map (col j) (v :: r)) * inject_Z (Z.of_nat (length (v :: r))) /
        (inject_Z (Z.of_nat (length (v :: r))) - 1) == spread (map (col j) (v :: r))).
      { rewrite <- (unbiased (map (col j) (v :: r))) by reflexivity. rewrite map_length. reflexivity. }
      rewrite U. ring.
Qed.
End Columns.

Lemma sq_nonneg x : 0 <= x * x.
Proof. destruct x as [n d]. unfold Qle, Qmult. cbn. nia. Qed.

Lemma spread_nonneg t : (2 <= length t)%nat -> 0 <= spread t.
Proof.
  intros H. unfold spread. apply Qle_shift_div_l.
  - assert (1 < inject_Z (Z.of_nat (length t))) by (unfold Qlt, inject_Z; cbn; lia). lra.
  - setoid_replace (0 * (inject_Z (Z.of_nat (length t)) - 1)) with 0 by ring.
    generalize (average t). intros a. induction t as [|x t IH]; cbn [map fold_right]; [discriminate|].
    clear H. assert (G : forall l, 0 <= fold_right Qplus 0 (map (fun x => (x - a) * (x - a)) l)).
    { induction l as [|y l IHl]; cbn [map fold_right]; [discriminate|].
      assert (0 <= (y - a) * (y - a)) by apply sq_nonneg. lra. }
    specialize (G t). assert (0 <= (x - a) * (x - a)) by apply sq_nonneg. lra.
Qed.

(** ** Passes that all look alike *)
Lemma fading_repeat ms T :
  fading (concat (repeat ms T)) * (1 - qpow (9 # 10) (length ms)) ==
  (1 - qpow (qpow (9 # 10) (length ms)) T) * fading ms.
Proof.
  induction T as [|T IH]; cbn [repeat concat qpow]; [cbn; ring|].
  rewrite fading_app.
  assert (L : qpow (9 # 10) (length (concat (repeat ms T))) == qpow (qpow (9 # 10) (length ms)) T).
  { clear IH. induction T as [|T IH]; cbn [repeat concat qpow]; [reflexivity|].
    rewrite app_length, qpow_add, IH. reflexivity. }
  rewrite L. set (q := qpow (9 # 10) (length ms)) in *.
  setoid_replace ((qpow q T * fading ms + fading (concat (repeat ms T))) * (1 - q))
    with (qpow q T * fading ms * (1 - q) + fading (concat (repeat ms T)) * (1 - q)) by ring.
  rewrite IH. ring.
Qed.
