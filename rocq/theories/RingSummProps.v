(** C88, continued: the summary per ring size of exp/run_ring_exp.py. *)
From Coq Require Import List Arith Lia ZArith QArith Qfield Lqa.
From Verif Require Import Base ExpModel CommandModel.
From Verif Require Import SummModel SummSpec SummProofs SummProps RingSummModel.
Import ListNotations.

Lemma append_at_map (g : nat -> list score) v n : forall a k, (k < n)%nat ->
  append_at (map g (seq a n)) k v =
  Ok (map (fun i => if i =? a + k then g i ++ [v] else g i) (seq a n)).
Proof.
  induction n as [|n IH]; intros a k H; [lia|]. cbn [seq map append_at]. destruct k as [|k].
  - rewrite Nat.add_0_r, Nat.eqb_refl. f_equal. f_equal. apply map_ext_in. intros i Hi.
    apply in_seq in Hi. destruct (Nat.eqb_spec i a); [lia|reflexivity].
  - rewrite IH by lia. cbn [bind]. destruct (Nat.eqb_spec a (a + S k)); [lia|].
    f_equal. f_equal. apply map_ext. intros i. replace (S a + k)%nat with (a + S k)%nat by lia. reflexivity.
Qed.

Lemma folds_loop_ok run (c : nat -> nat -> curves) seed n (g h : nat -> list score) : forall m k, (k + m = n)%nat ->
  (forall f, (k <= f < n)%nat -> run seed f = Ok (c seed f)) ->
  ring_folds_loop run seed (seq k m)
    (map (fun i => if i <? k then g i ++ [c_last_train (c seed i)] else g i) (seq 0 n),
     map (fun i => if i <? k then h i ++ [c_last_val (c seed i)] else h i) (seq 0 n)) =
  Ok (map (fun i => g i ++ [c_last_train (c seed i)]) (seq 0 n),
      map (fun i => h i ++ [c_last_val (c seed i)]) (seq 0 n)).
Proof.
  induction m as [|m IH]; intros k E R; cbn [seq ring_folds_loop].
  - f_equal. f_equal; apply map_ext_in; intros i Hi; apply in_seq in Hi;
      destruct (Nat.ltb_spec i k); (reflexivity || lia).
  - rewrite R by lia. cbn [bind fst snd].
    rewrite append_at_map by lia. cbn [bind]. rewrite append_at_map by lia. cbn [bind].
    rewrite <- (IH (S k)) by (try lia; intros; apply R; lia). f_equal.
    f_equal; apply map_ext_in; intros i _; cbn [Nat.add];
      destruct (Nat.eqb_spec i k), (Nat.ltb_spec i k), (Nat.ltb_spec i (S k)); try lia; try reflexivity; subst; reflexivity.
Qed.

Lemma seeds_loop_ok run (c : nat -> nat -> curves) n : forall seeds (g h : nat -> list score),
  (forall s f, In s seeds -> (f < n)%nat -> run s f = Ok (c s f)) ->
  ring_seeds_loop run n seeds (map g (seq 0 n), map h (seq 0 n)) =
  Ok (map (fun i => g i ++ map (fun s => c_last_train (c s i)) seeds) (seq 0 n),
      map (fun i => h i ++ map (fun s => c_last_val (c s i)) seeds) (seq 0 n)).
Proof.
  induction seeds as [|s seeds IH]; intros g h R; cbn [ring_seeds_loop].
  - f_equal. f_equal; apply map_ext; intros; now rewrite app_nil_r.
  - assert (L := folds_loop_ok run c s n g h n 0 eq_refl (fun f H => R s f (or_introl eq_refl) (proj2 H))).
    change (map (fun i => if i <? 0 then g i ++ [c_last_train (c s i)] else g i) (seq 0 n)) with (map g (seq 0 n)) in L.
    change (map (fun i => if i <? 0 then h i ++ [c_last_val (c s i)] else h i) (seq 0 n)) with (map h (seq 0 n)) in L.
    rewrite L. cbn [bind]. rewrite IH by (intros; apply R; [now right|assumption]).
    f_equal. f_equal; apply map_ext; intros; now rewrite <- app_assoc.
Qed.

(** ** What is printed for a ring size *)
Definition seeds (start stop : nat) : list nat := seq start (stop + 1 - start).

Lemma ring_summary_ok run c start stop :
  (forall s f, (start <= s <= stop)%nat -> (f < 11)%nat -> run s f = Ok (c s f)) ->
  exists T V, ring_summary ring_sizes run start stop = Ok (T, V) /\ length T = 11%nat /\ length V = 11%nat /\
  forall f, (f < 11)%nat ->
    let tr := map (fun s => c_last_train (c s f)) (seeds start stop) in
    let va := map (fun s => c_last_val (c s f)) (seeds start stop) in
    nth_error T f = Some (mkLine (10 + 2 * Z.of_nat f) (np_mean tr) (np_var 0 tr)) /\
    nth_error V f = Some (mkLine (10 + 2 * Z.of_nat f) (np_mean va) (np_var 0 va)).
Proof.
  intros R. unfold ring_summary. change (length ring_sizes) with 11%nat.
  rewrite (seeds_loop_ok run c 11) by (intros s f Hs Hf; apply in_seq in Hs; apply R; lia).
  cbn [bind]. eexists _, _. split; [reflexivity|]. split; [reflexivity|]. split; [reflexivity|].
  intros f Hf. do 11 (destruct f as [|f]; [split; reflexivity|]). lia.
Qed.

Local Open Scope Q_scope.

(** Every ring size gets one line of each kind, over exactly the runs with this ring size and all
    seeds: the mean of their scores and the mean squared distance from it, which is 0 exactly if all
    seeds agree. *)
Theorem C88_ring_lines run (c : nat -> nat -> curves) (tr va : nat -> nat -> Q) start stop : (start <= stop)%nat ->
  (forall s f, (start <= s <= stop)%nat -> (f < 11)%nat ->
     run s f = Ok (c s f) /\ c_last_train (c s f) = Some (tr s f) /\ c_last_val (c s f) = Some (va s f)) ->
  exists T V, ring_summary ring_sizes run start stop = Ok (T, V) /\ length T = 11%nat /\ length V = 11%nat /\
  forall (kind : bool) f, (f < 11)%nat ->
    let x := if kind then tr else va in
    exists m v, nth_error (if kind then T else V) f = Some (mkLine (10 + 2 * Z.of_nat f) (Some m) (Some v)) /\
      m == expect (seq start (stop + 1 - start)) (fun s => x s f) /\
      v == expect (seq start (stop + 1 - start)) (fun s => (x s f - m) * (x s f - m)) /\
      (v == 0 <-> forall s, (start <= s <= stop)%nat -> x s f == m).
Proof.
  intros Hs R.
  destruct (ring_summary_ok run c start stop) as (T & V & E & LT & LV & N).
  { intros s f H1 H2. apply R; assumption. }
  exists T, V. split; [exact E|]. split; [exact LT|]. split; [exact LV|].
  intros kind f Hf x. destruct (N f Hf) as [N1 N2]. clear N.
  set (qs := map (fun s => x s f) (seeds start stop)).
  assert (NE : nth_error (if kind then T else V) f =
               Some (mkLine (10 + 2 * Z.of_nat f) (np_mean (map Some qs)) (np_var 0 (map Some qs)))).
  { assert (H : forall p : curves -> score, (forall s, In s (seeds start stop) -> p (c s f) = Some (x s f)) ->
                map (fun s => p (c s f)) (seeds start stop) = map Some qs).
    { intros p H. unfold qs. rewrite map_map. apply map_ext_in. exact H. }
    destruct kind.
    - rewrite <- (H c_last_train); [exact N1|]. intros s I. apply in_seq in I. apply R; lia.
    - rewrite <- (H c_last_val); [exact N2|]. intros s I. apply in_seq in I. apply R; lia. }
  assert (Lq : length qs = (stop + 1 - start)%nat) by (unfold qs, seeds; now rewrite map_length, seq_length).
  assert (Q0 : qs <> []) by (intros Z; rewrite Z in Lq; cbn in Lq; lia).
  destruct (np_mean_map qs Q0) as (m & Em & Hm).
  assert (Pn : 0 < nq (length qs)) by (apply nq_pos; lia).
  rewrite Em, np_var_map in NE by lia. eexists m, _. split; [exact NE|].
  assert (C : count (seq start (stop + 1 - start)) = nq (length qs)) by (unfold count, nq; now rewrite seq_length, Lq).
  assert (S1 : total (map (fun q => (q - total qs / nq (length qs)) * (q - total qs / nq (length qs))) qs) ==
               total (map (fun s => (x s f - m) * (x s f - m)) (seeds start stop))).
  { set (d := total qs / nq (length qs)) in *. clearbody d. unfold qs. rewrite map_map. clear - Hm. induction (seeds start stop) as [|s l IH]; [reflexivity|].
    cbn [map total fold_right]. change (fold_right Qplus 0) with total. rewrite IH, Hm. reflexivity. }
  split; [unfold expect; rewrite C; exact Hm|].
  split.
  - unfold expect. rewrite C, S1. change (nq 0) with 0. unfold seeds. field. lra.
  - change (nq 0) with 0. rewrite S1.
    destruct (squares_zero (fun s => x s f - m) (seeds start stop)) as [P0 Z0].
    split.
    + intros H s I. assert (Z : total (map (fun s => (x s f - m) * (x s f - m)) (seeds start stop)) == 0).
      { setoid_replace (total (map (fun s => (x s f - m) * (x s f - m)) (seeds start stop))) with
          (total (map (fun s => (x s f - m) * (x s f - m)) (seeds start stop)) / (nq (length qs) - 0) * nq (length qs)) by (field; lra).
        rewrite H. ring. }
      pose proof (proj1 Z0 Z s) as K. cbv beta in K. assert (In s (seeds start stop)) by (apply in_seq; lia).
      specialize (K H0). lra.
    + intros H. rewrite (proj2 Z0); [field; lra|]. intros s I. apply in_seq in I. rewrite (H s) by lia. ring.
Qed.

(** A single seed: the deviation printed is 0, whatever the score. *)
Theorem C88_ring_one_seed run (c : nat -> nat -> curves) (va : nat -> Q) seed :
  (forall f, (f < 11)%nat -> run seed f = Ok (c seed f) /\ c_last_val (c seed f) = Some (va f)) ->
  exists T V, ring_summary ring_sizes run seed seed = Ok (T, V) /\
  forall f, (f < 11)%nat -> exists m v, nth_error V f = Some (mkLine (10 + 2 * Z.of_nat f) (Some m) (Some v)) /\ m == va f /\ v == 0.
Proof.
  intros R. destruct (ring_summary_ok run c seed seed) as (T & V & E & _ & _ & N).
  { intros s f H1 H2. replace s with seed by lia. apply R; assumption. }
  exists T, V. split; [exact E|]. intros f Hf. destruct (N f Hf) as [_ N2]. clear N.
  unfold seeds in N2. replace (seed + 1 - seed)%nat with 1%nat in N2 by lia. cbn [seq map] in N2.
  rewrite (proj2 (R f Hf)) in N2. change [Some (va f)] with (map Some [va f]) in N2.
  destruct (np_mean_map [va f]) as (m & Em & Hm); [discriminate|]. rewrite Em, np_var_map in N2 by (cbn; lia).
  eexists m, _. split; [exact N2|]. cbn [length total fold_right map] in *.
  change (nq 1) with 1 in *. change (nq 0) with 0. split; [rewrite Hm; field|field].
Qed.

(** Without seeds (stop_seed below start_seed, which nothing forbids) every line says nan. *)
Theorem C88_ring_no_seed run start stop : (stop < start)%nat -> exists T V,
  ring_summary ring_sizes run start stop = Ok (T, V) /\ length T = 11%nat /\ length V = 11%nat /\
  forall f, (f < 11)%nat -> nth_error T f = Some (mkLine (10 + 2 * Z.of_nat f) None None) /\
                            nth_error V f = Some (mkLine (10 + 2 * Z.of_nat f) None None).
Proof.
  intros H. destruct (ring_summary_ok run (fun _ _ => mkCurves [] [] [] None None None 0) start stop) as (T & V & E & LT & LV & N).
  { intros s f I _. lia. }
  exists T, V. split; [exact E|]. split; [exact LT|]. split; [exact LV|]. intros f Hf. destruct (N f Hf) as [N1 N2].
  unfold seeds in *. replace (stop + 1 - start)%nat with 0%nat in * by lia. split; [exact N1|exact N2].
Qed.

(** A run that raises ends the script: nothing is printed, not even about the ring sizes and seeds
    that were finished. *)
Lemma append_at_length v d : forall f, (f < length d)%nat -> exists d', append_at d f v = Ok d' /\ length d' = length d.
Proof.
  induction d as [|l d IH]; intros f H; [cbn in H; lia|]. destruct f as [|f]; cbn [append_at].
  - eexists. split; reflexivity.
  - destruct (IH f) as (d' & E & L); [cbn in H; lia|]. rewrite E. cbn [bind]. eexists. split; [reflexivity|]. cbn. now rewrite L.
Qed.

Lemma folds_loop_raises run e seed n f0 : run seed f0 = Err e -> (f0 < n)%nat ->
  (forall f, (f < f0)%nat -> exists c, run seed f = Ok c) -> forall m k tr va, (k <= f0)%nat -> (k + m = n)%nat ->
  length tr = n -> length va = n -> ring_folds_loop run seed (seq k m) (tr, va) = Err e.
Proof.
  intros E0 L0 B. induction m as [|m IH]; intros k tr va K S L1 L2; [lia|]. cbn [seq ring_folds_loop].
  destruct (Nat.eq_dec k f0) as [->|D]; [now rewrite E0|].
  destruct (B k) as [c Ec]; [lia|]. rewrite Ec. cbn [bind fst snd].
  destruct (append_at_length (c_last_train c) tr k) as (d1 & E1 & M1); [lia|].
  destruct (append_at_length (c_last_val c) va k) as (d2 & E2 & M2); [lia|].
  rewrite E1. cbn [bind]. rewrite E2. cbn [bind]. apply IH; lia.
Qed.

Lemma folds_loop_length run seed n : forall m k tr va, (k + m = n)%nat -> length tr = n -> length va = n ->
  (forall f, (f < n)%nat -> exists c, run seed f = Ok c) ->
  exists tr' va', ring_folds_loop run seed (seq k m) (tr, va) = Ok (tr', va') /\ length tr' = n /\ length va' = n.
Proof.
  induction m as [|m IH]; intros k tr va S L1 L2 B; cbn [seq ring_folds_loop]; [now exists tr, va|].
  destruct (B k) as [c Ec]; [lia|]. rewrite Ec. cbn [bind fst snd].
  destruct (append_at_length (c_last_train c) tr k) as (d1 & E1 & M1); [lia|].
  destruct (append_at_length (c_last_val c) va k) as (d2 & E2 & M2); [lia|].
  rewrite E1. cbn [bind]. rewrite E2. cbn [bind]. apply IH; (assumption || lia).
Qed.

Theorem C88_ring_raises run start stop seed fold e : (start <= seed <= stop)%nat -> (fold < 11)%nat ->
  run seed fold = Err e ->
  (forall s f, (f < 11)%nat -> (start <= s < seed \/ s = seed /\ f < fold)%nat -> exists c, run s f = Ok c) ->
  ring_summary ring_sizes run start stop = Err e.
Proof.
  intros Hs Hf E B. unfold ring_summary. change (length ring_sizes) with 11%nat.
  assert (G : forall m s tr va, (start <= s <= seed)%nat -> (seed < s + m)%nat -> length tr = 11%nat -> length va = 11%nat ->
              ring_seeds_loop run 11 (seq s m) (tr, va) = Err e).
  { induction m as [|m IH]; intros s tr va H1 H2 L1 L2; [lia|]. cbn [seq ring_seeds_loop].
    change (0 :: 1 :: 2 :: 3 :: 4 :: 5 :: 6 :: 7 :: 8 :: 9 :: [10])%nat with (seq 0 11).
    destruct (Nat.eq_dec s seed) as [->|D].
    - rewrite (folds_loop_raises run e seed 11 fold E Hf) by (try assumption; try lia; intros f F; apply B; lia). reflexivity.
    - destruct (folds_loop_length run s 11 11 0 tr va eq_refl L1 L2) as (tr' & va' & E' & M1 & M2).
      { intros f F. apply B; lia. }
      rewrite E'. cbn [bind]. apply IH; lia. }
  rewrite G by (try reflexivity; lia). reflexivity.
Qed.

(** ** Cases *)
Definition demo_run (s f : nat) : result curves :=
  Ok (mkCurves [] [] [] (Some 1) (Some (nq (s + f))) None 0).
Example C88_ring_case : exists T V m v, ring_summary ring_sizes demo_run 3 6 = Ok (T, V) /\
  nth_error V 2 = Some (mkLine 14 (Some m) (Some v)) /\ m == 13 # 2 /\ v == 5 # 4.
Proof. eexists _, _, _, _. split; [vm_compute; reflexivity|]. split; [reflexivity|]. split; reflexivity. Qed.
Example C88_ring_raises_case :
  ring_summary ring_sizes (fun s f => if (s + f =? 12)%nat then Err RuntimeError else demo_run s f) 0 9 = Err RuntimeError.
Proof. reflexivity. Qed.

Print Assumptions C88_ring_lines.
Print Assumptions C88_ring_one_seed.
Print Assumptions C88_ring_no_seed.
Print Assumptions C88_ring_raises.
