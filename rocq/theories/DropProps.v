(** Property C89: dropout in the read-out of the networks. *)
From Coq Require Import List Arith ZArith QArith Bool String Lia Lqa Field Qfield.
From Verif Require Import Base.
From Verif Require Import DropModel DropSpec DropProofs DropHeads.
Import ListNotations.
Local Open Scope Q_scope.

(** ** Hidden units by index *)
Definition respects (act : Q -> Q) : Prop := forall a b, a == b -> act a == act b.
Definition units (act : Q -> Q) (h : head) (xs : list (list Q)) (i k : nat) : Q :=
  unit_ act (map weight (lin1s h)) (map bias (lin1s h)) xs i k.

Lemma dot_at w v : List.length w = List.length v ->
  dot w v == sigma (seq 0 (List.length v)) (fun k => at1 w k * at1 v k).
Proof. intros H. unfold dot. apply (sigma_combine Qmult w v H). Qed.
Lemma basis k : forall v, dot (repeat 0 k ++ [1]) v == at1 v k.
Proof.
  induction k as [|k IH]; intros [|x v]; try reflexivity.
  - change (1 * x + dot [] v == x). unfold dot. cbn [combine map fold_right]. ring.
  - change (0 * x + dot (repeat 0 k ++ [1]) v == at1 v k). rewrite IH. ring.
Qed.
Lemma at_map_act act v k : (k < List.length v)%nat -> at1 (map act v) k = act (at1 v k).
Proof.
  intros H. unfold at1. rewrite (nth_indep _ 0 (act 0)) by (rewrite map_length; lia).
  apply map_nth.
Qed.
Lemma prows_at act (Ha : respects act) : forall ls xs rows, prows act ls xs = Ok rows ->
  List.length ls = List.length xs ->
  List.length rows = List.length xs /\
  forall i k, (k < List.length (nth i rows []))%nat ->
    at2 rows i k == unit_ act (map weight ls) (map bias ls) xs i k.
Proof.
  induction ls as [|l ls IH]; intros [|x xs] rows E Hl; try discriminate.
  - injection E as <-. split; [reflexivity|]. intros i k H. destruct i; cbn in H; lia.
  - cbn [prows] in E. apply bind_ok in E as (y & Ey & E). apply bind_ok in E as (r & Er & E).
    injection E as <-. injection Hl as Hl. destruct (IH _ _ Er Hl) as [L U].
    split; [cbn; now rewrite L|]. intros [|i] k Hk.
    + cbn [nth] in Hk. rewrite map_length in Hk. unfold at2. cbn [nth].
      rewrite at_map_act by exact Hk. unfold unit_. cbn [map nth]. apply Ha.
      destruct (linear_nth _ _ _ _ Ey Hk) as [-> Lw]. rewrite dot_at by exact Lw. reflexivity.
    + apply (U i k). exact Hk.
Qed.

Record shaped (act : Q -> Q) (h : head) (xs rows : list (list Q)) (y : list Q) (H : nat) : Prop := {
  s_rows : prows act (lin1s h) xs = Ok rows;
  s_stack : stack rows = Ok rows;
  s_ne : rows <> [];
  s_width : forall x, In x rows -> List.length x = H;
  s_read : (final_readout h =? "mean")%string = true \/ (final_readout h =? "sum")%string = true;
  s_out : linear (lin2 h) (readout (final_readout h) rows) = Ok y }.
Lemma eval_inv act h t xs y : sparse_head act h false t xs = Ok y -> legal_rate (rate h) ->
  exists rows H, shaped act h xs rows y H.
Proof.
  intros E L. rewrite head_plain in E by (left; auto).
  destruct (plain_inv _ _ _ _ _ _ E) as (rows & H & A & B & C & D & F & G).
  exists rows, H. constructor; assumption.
Qed.

Lemma read_at fr rows H k : rows <> [] -> (forall x, In x rows -> List.length x = H) ->
  at1 (readout fr rows) k == factor fr (List.length rows) * sigma rows (fun r => at1 r k).
Proof.
  intros Hne HH. destruct (readout_dot fr H rows Hne HH) as [_ D].
  rewrite <- basis, D. apply Qmult_comp; [reflexivity|]. apply sigma_ext. intros r _. apply basis.
Qed.
Lemma read_units act h xs rows y H k : respects act -> List.length (lin1s h) = List.length xs ->
  shaped act h xs rows y H -> (k < H)%nat ->
  at1 (readout (final_readout h) rows) k ==
  share (final_readout h =? "mean")%string (List.length xs) *
    sigma (seq 0 (List.length xs)) (fun i => units act h xs i k).
Proof.
  intros Ha Hl [Er Es Hne HH Hf Ho] Hk. destruct (prows_at act Ha _ _ _ Er Hl) as [L U].
  rewrite (read_at _ _ H) by assumption. rewrite L. apply Qmult_comp; [reflexivity|].
  rewrite (sigma_nth rows []), L. apply sigma_ext. intros i Hi. apply in_seq in Hi.
  apply U. rewrite (HH (nth i rows [])); [exact Hk|]. apply nth_In. lia.
Qed.
Lemma out_width act h xs rows y H j : shaped act h xs rows y H -> (j < List.length y)%nat ->
  List.length (nth j (weight (lin2 h)) []) = H.
Proof.
  intros [Er Es Hne HH Hf Ho] Hj. destruct (linear_nth _ _ _ _ Ho Hj) as [_ ->].
  now destruct (readout_dot (final_readout h) H rows Hne HH) as [-> _].
Qed.

(** ** Evaluation mode *)

(** In evaluation mode the output depends neither on the random bits nor on the rate nor on the
    position; with rate 0 training and evaluation agree. *)
Theorem C89_eval : forall act h pos p t t' xs, legal_rate (rate h) -> legal_rate p ->
  sparse_head act h false t xs =
  sparse_head act (mkhead (lin1s h) (lin2 h) (final_readout h) pos p) false t' xs /\
  (forall m, sparse_head act h false t xs =
             sparse_head act (mkhead (lin1s h) (lin2 h) (final_readout h) pos 0) m t' xs).
Proof.
  intros act h pos p t t' xs L L'. rewrite head_plain by (left; auto).
  split; [|intros m]; rewrite head_plain; auto; right; reflexivity.
Qed.

(** The function computed: entry j is b_j + sum_k w_jk * share * sum_i act(...). *)
Theorem C89_formula : forall act h t xs y j, respects act -> legal_rate (rate h) ->
  List.length (lin1s h) = List.length xs ->
  sparse_head act h false t xs = Ok y -> (j < List.length y)%nat ->
  at1 y j == at1 (bias (lin2 h)) j +
    sigma (seq 0 (List.length (nth j (weight (lin2 h)) []))) (fun k =>
      at2 (weight (lin2 h)) j k *
      (share (final_readout h =? "mean")%string (List.length xs) *
       sigma (seq 0 (List.length xs)) (fun i => units act h xs i k))).
Proof.
  intros act h t xs y j Ha L Hl E Hj. destruct (eval_inv _ _ _ _ _ E L) as (rows & H & Sh).
  rewrite (out_width _ _ _ _ _ _ _ Sh Hj). pose proof Sh as [Er Es Hne HH Hf Ho].
  destruct (linear_nth _ _ _ _ Ho Hj) as [-> Lw].
  rewrite dot_at by exact Lw. destruct (readout_dot (final_readout h) H rows Hne HH) as [-> _].
  rewrite Qplus_comm. apply Qplus_comp; [reflexivity|]. apply sigma_ext. intros k Hk.
  apply in_seq in Hk. rewrite (read_units _ _ _ _ _ _ _ Ha Hl Sh) by lia. reflexivity.
Qed.

(** ** Rates *)

(** A rate outside [0,1] raises ValueError in both modes, wherever the dropout is placed. *)
Theorem C89_rate : forall act ls l2 fr pos p m t t' xs y, ~ legal_rate p ->
  List.length ls = List.length xs ->
  sparse_head act (mkhead ls l2 fr pos 0) false t' xs = Ok y ->
  sparse_head act (mkhead ls l2 fr pos p) m t xs = Err ValueError.
Proof.
  intros act ls l2 fr pos p m t t' xs y Hp Hl E.
  destruct (eval_inv _ _ _ _ _ E) as (rows & H & [Er Es Hne HH Hf Ho]); [split; cbn; lra|].
  cbn [lin1s lin2 final_readout] in *.
  unfold sparse_head. cbn [lin1s lin2 final_readout position rate].
  destruct (pos =? "lin1")%string eqn:P1.
  - destruct ls as [|l ls]; [cbn in Er; injection Er as <-; congruence|].
    destruct xs as [|x xs]; [discriminate|].
    cbn [per_dim position rate]. rewrite P1, dropout_illegal by exact Hp. reflexivity.
  - rewrite per_dim_plain by (left; exact P1). cbn [lin1s]. rewrite Er. cbn [bind fst snd].
    rewrite Es. cbn [bind]. destruct (pos =? "final_readout")%string.
    + rewrite drop_rows_illegal by assumption. reflexivity.
    + cbn [bind fst snd orb]. fold (finish fr rows). rewrite (finish_ok fr rows Hf). cbn [bind].
      rewrite dropout_illegal by exact Hp. reflexivity.
Qed.

Lemma dot_zeros {A} : forall w (v : list A), dot w (map (fun _ => 0) v) == 0.
Proof.
  induction w as [|x w IH]; intros [|y v]; try reflexivity.
  change (x * 0 + dot w (map (fun _ => 0) v) == 0). rewrite IH. ring.
Qed.
(** With rate 1 a head that drops before lin1 sees zeros, all others return the bias of lin2. *)
Theorem C89_rate_one : forall act h t t' xs y, rate h == 1 ->
  List.length (lin1s h) = List.length xs ->
  sparse_head act h false t' xs = Ok y ->
  (position h = "lin1"%string ->
     sparse_head act h true t xs = sparse_head act h false t' (map (map (fun _ => 0)) xs)) /\
  (position h <> "lin1"%string ->
     exists z, sparse_head act h true t xs = Ok z /\ List.length z = List.length y /\
       forall j, (j < List.length z)%nat -> at1 z j == at1 (bias (lin2 h)) j).
Proof.
  intros act h t t' xs y H1 Hl E.
  assert (L : legal_rate (rate h)) by (split; rewrite H1; lra).
  destruct (eval_inv _ _ _ _ _ E L) as (rows & H & Sh). pose proof Sh as [Er Es Hne HH Hf Ho].
  split; intros P.
  - assert (G : forall ls xs t, per_dim act h true t ls xs =
       let* rows := prows act ls (map (map (fun _ => 0)) xs) in Ok (rows, t)).
    { induction ls as [|l ls IH]; intros [|x xs'] u; try reflexivity.
      cbn [per_dim prows map]. rewrite P. cbn [String.eqb Ascii.eqb Bool.eqb].
      rewrite dropout_one by exact H1. cbn [bind fst snd].
      destruct (linear l (map (fun _ => 0) x)); [|reflexivity]. cbn [bind]. rewrite IH.
      destruct (prows act ls (map (map (fun _ => 0)) xs')); reflexivity. }
    rewrite (head_plain act h false) by (left; auto). unfold sparse_head, plain. rewrite G.
    destruct (prows act (lin1s h) (map (map (fun _ => 0)) xs)) as [r|]; [|reflexivity]. cbn [bind fst snd].
    destruct (stack r) as [r'|]; [|reflexivity]. cbn [bind]. rewrite P.
    cbn [String.eqb Ascii.eqb Bool.eqb bind fst snd orb]. fold (finish (final_readout h) r').
    destruct (finish (final_readout h) r'); reflexivity.
  - apply String.eqb_neq in P. destruct (position h =? "final_readout")%string eqn:P2.
    + rewrite (head_final _ _ _ _ rows) by assumption. rewrite drop_rows_one by exact H1.
      cbn [bind fst].
      set (zr := map (map (fun _ => 0)) rows).
      assert (Zne : zr <> []) by (unfold zr; destruct rows; [congruence|discriminate]).
      assert (ZH : forall x, In x zr -> List.length x = H).
      { intros x Hx. apply in_map_iff in Hx as (r & <- & Hr). rewrite map_length. now apply HH. }
      destruct (readout_dot (final_readout h) H zr Zne ZH) as [Lz Dz].
      destruct (readout_dot (final_readout h) H rows Hne HH) as [Lr _].
      destruct (linear_width _ _ (readout (final_readout h) zr) _ Ho) as (z & Hz & Lzz); [congruence|].
      exists z. split; [exact Hz|]. split; [exact Lzz|]. intros j Hj.
      destruct (linear_nth _ _ _ _ Hz Hj) as [-> _]. rewrite Dz.
      rewrite (sigma_ext zr _ (fun _ => 0)), sigma_zero; [ring|].
      intros x Hx. apply in_map_iff in Hx as (r & <- & Hr). apply dot_zeros.
    + rewrite (head_lin2 _ _ _ _ rows y) by assumption. unfold after.
      rewrite dropout_one by exact H1. cbn [bind fst].
      destruct (linear_width _ _ (map (fun _ => 0) (readout (final_readout h) rows)) _ Ho)
        as (z & Hz & Lzz); [now rewrite map_length|].
      exists z. split; [exact Hz|]. split; [exact Lzz|]. intros j Hj.
      destruct (linear_nth _ _ _ _ Hz Hj) as [-> _]. rewrite dot_zeros. ring.
Qed.

(** ** Expectation and variance in training *)

Definition bits (h : head) (xs : list (list Q)) (j : nat) : nat :=
  List.length xs * List.length (nth j (weight (lin2 h)) []).

Lemma moments act h t0 xs y j n : 0 <= rate h -> rate h < 1 ->
  List.length (lin1s h) = List.length xs ->
  position h <> "lin1"%string ->
  sparse_head act h false t0 xs = Ok y -> (j < List.length y)%nat -> (bits h xs j <= n)%nat ->
  exists rows H, shaped act h xs rows y H /\
  (forall t, List.length t = n ->
     exists z, sparse_head act h true t xs = Ok z /\ List.length z = List.length y) /\
  expectation (rate h) n (fun t => entry j (sparse_head act h true t xs)) == at1 y j /\
  expectation (rate h) n (fun t => sq (entry j (sparse_head act h true t xs) - at1 y j)) ==
  rate h / (1 - rate h) *
  (if (position h =? "final_readout")%string
   then factor (final_readout h) (List.length rows) * factor (final_readout h) (List.length rows) *
        sigma rows (fun r => sqs (prods (nth j (weight (lin2 h)) []) r))
   else sqs (prods (nth j (weight (lin2 h)) []) (readout (final_readout h) rows))).
Proof.
  intros H0 H1 Hl P E Hj Hn. apply String.eqb_neq in P.
  assert (L : legal_rate (rate h)) by (split; lra).
  destruct (eval_inv _ _ _ _ _ E L) as (rows & H & Sh). exists rows, H. split; [exact Sh|].
  unfold bits in Hn. rewrite (out_width _ _ _ _ _ _ _ Sh Hj) in Hn.
  pose proof Sh as [Er Es Hne HH Hf Ho].
  assert (LR : List.length rows = List.length xs).
  { clear - Er Hl. revert rows Er. generalize dependent xs. generalize (lin1s h).
    induction l as [|a l IH]; intros [|x xs] Hl rows Er; try discriminate.
    - now injection Er as <-.
    - cbn in Er. apply bind_ok in Er as (y & _ & Er). apply bind_ok in Er as (r & Er & E).
      injection E as <-. injection Hl as Hl. cbn. f_equal. now apply IH. }
  destruct (position h =? "final_readout")%string eqn:P2.
  - destruct (final_moments (lin2 h) (rate h) (final_readout h) rows H y n j) as (A & B & C);
      try assumption; [lia|].
    assert (G : forall t, sparse_head act h true t xs =
      let* b := drop_rows (rate h) true t rows in linear (lin2 h) (readout (final_readout h) (fst b)))
      by (intros t; now apply head_final).
    split; [intros t Ht; rewrite G; now apply A|]. split.
    + rewrite <- B. apply expectation_ext. intros t _. rewrite G. reflexivity.
    + rewrite <- C. apply expectation_ext. intros t _. rewrite G. reflexivity.
  - assert (Lr : List.length (readout (final_readout h) rows) = H)
      by now destruct (readout_dot (final_readout h) H rows Hne HH).
    assert (N1 : (1 <= List.length rows)%nat) by (destruct rows; [congruence | cbn; lia]).
    destruct (after_moments (lin2 h) (rate h) (readout (final_readout h) rows) y n j) as (A & B & C);
      try assumption; [nia|].
    assert (G : forall t, sparse_head act h true t xs =
      after (lin2 h) (rate h) t (readout (final_readout h) rows))
      by (intros t; now apply (head_lin2 act h t xs rows y)).
    split; [intros t Ht; rewrite G; now apply A|]. split.
    + rewrite <- B. apply expectation_ext. intros t _. rewrite G. reflexivity.
    + rewrite <- C. apply expectation_ext. intros t _. rewrite G. reflexivity.
Qed.

(** Unless it is placed before lin1, dropout is unbiased: no run raises and the expected output in
    training is the output in evaluation. *)
Theorem C89_unbiased : forall act h t0 xs y j n, 0 <= rate h -> rate h < 1 ->
  List.length (lin1s h) = List.length xs ->
  position h <> "lin1"%string ->
  sparse_head act h false t0 xs = Ok y -> (j < List.length y)%nat -> (bits h xs j <= n)%nat ->
  (forall t, List.length t = n ->
     exists z, sparse_head act h true t xs = Ok z /\ List.length z = List.length y) /\
  expectation (rate h) n (fun t => entry j (sparse_head act h true t xs)) == at1 y j.
Proof.
  intros act h t0 xs y j n H0 H1 Hl P E Hj Hn.
  destruct (moments act h t0 xs y j n H0 H1 Hl P E Hj Hn) as (rows & H & _ & A & B & _). auto.
Qed.

(** Before lin1 it is not: relu after the dropped input. *)
Definition relu (x : Q) : Q := if Qle_bool 0 x then x else 0.
Definition ex_head (fr pos : string) (p : Q) : head :=
  mkhead [mklayer [[1; -(1)]] [0]] (mklayer [[1]] [0]) fr pos p.
Theorem C89_lin1_refuted :
  ~ (forall act h t0 xs y j n, 0 <= rate h -> rate h < 1 ->
     List.length (lin1s h) = List.length xs ->
     sparse_head act h false t0 xs = Ok y -> (j < List.length y)%nat ->
     (List.length (List.concat xs) <= n)%nat ->
     expectation (rate h) n (fun t => entry j (sparse_head act h true t xs)) == at1 y j).
Proof.
  intros F.
  specialize (F relu (ex_head "sum" "lin1" (1 # 2)) [] [[1; 1]] [0] 0%nat 2%nat).
  assert (X : expectation (1 # 2) 2 (fun t => entry 0 (sparse_head relu (ex_head "sum" "lin1" (1 # 2)) true t [[1; 1]])) == 1 # 2)
    by (vm_compute; reflexivity).
  cbn [rate ex_head] in F. rewrite X in F.
  assert (Y : (1 # 2) == at1 [0] 0)
    by (apply F; [lra | lra | reflexivity | vm_compute; reflexivity | cbn; lia | cbn; lia]).
  vm_compute in Y. discriminate.
Qed.

Lemma sqs_at w v : List.length w = List.length v ->
  sqs (prods w v) == sigma (seq 0 (List.length v)) (fun k => sq (at1 w k * at1 v k)).
Proof.
  intros H. unfold sqs, prods. rewrite sigma_map.
  apply (sigma_combine (fun a b => sq (a * b)) w v H).
Qed.

(** The exact variance of every output for both positions. *)
Theorem C89_variance : forall act h t0 xs y j n, respects act -> 0 <= rate h -> rate h < 1 ->
  List.length (lin1s h) = List.length xs ->
  position h <> "lin1"%string ->
  sparse_head act h false t0 xs = Ok y -> (j < List.length y)%nat -> (bits h xs j <= n)%nat ->
  expectation (rate h) n (fun t => sq (entry j (sparse_head act h true t xs) - at1 y j)) ==
  let w := at2 (weight (lin2 h)) j in
  let c := share (final_readout h =? "mean")%string (List.length xs) in
  rate h / (1 - rate h) *
  sigma (seq 0 (List.length (nth j (weight (lin2 h)) []))) (fun k =>
    if (position h =? "final_readout")%string
    then sigma (seq 0 (List.length xs)) (fun i => sq (w k * (c * units act h xs i k)))
    else sq (w k * (c * sigma (seq 0 (List.length xs)) (fun i => units act h xs i k)))).
Proof.
  intros act h t0 xs y j n Ha H0 H1 Hl P E Hj Hn.
  destruct (moments act h t0 xs y j n H0 H1 Hl P E Hj Hn) as (rows & H & Sh & _ & _ & V).
  rewrite V. clear V. cbv zeta. apply Qmult_comp; [reflexivity|].
  pose proof (out_width _ _ _ _ _ _ _ Sh Hj) as Lw. rewrite Lw.
  pose proof Sh as [Er Es Hne HH Hf Ho]. destruct (prows_at act Ha _ _ _ Er Hl) as [L U].
  destruct (position h =? "final_readout")%string.
  - rewrite L. rewrite sigma_swap. rewrite (sigma_nth rows []), L, <- sigma_mul.
    apply sigma_ext. intros i Hi. apply in_seq in Hi.
    assert (Li : List.length (nth i rows []) = H) by (apply HH, nth_In; lia).
    rewrite sqs_at by congruence. rewrite Li, <- sigma_mul. apply sigma_ext. intros k Hk.
    apply in_seq in Hk. pose proof (U i k ltac:(lia)) as Uk. unfold at2 in Uk at 1.
    unfold sq. rewrite Uk. unfold share, factor, at2, units. ring.
  - rewrite sqs_at.
    + destruct (readout_dot (final_readout h) H rows Hne HH) as [Lr _]. rewrite Lr.
      apply sigma_ext. intros k Hk. apply in_seq in Hk.
      unfold sq. rewrite (read_units _ _ _ _ _ _ _ Ha Hl Sh) by lia. reflexivity.
    + destruct (readout_dot (final_readout h) H rows Hne HH) as [Lr _]. congruence.
Qed.

Lemma sq_nonneg x : 0 <= x * x.
Proof. destruct x as [a b]. unfold Qle, Qmult. cbn. nia. Qed.
Lemma sq_sum {A} (l : list A) (u : A -> Q) c : (forall i, In i l -> 0 <= u i) ->
  0 <= sigma l u /\ sigma l (fun i => sq (c * u i)) <= sq (c * sigma l u).
Proof.
  induction l as [|a l IH]; intros H.
  - split; [unfold sigma; cbn; lra|]. unfold sigma, sq. cbn [map fold_right].
    setoid_replace (c * 0 * (c * 0)) with 0 by ring. lra.
  - destruct (IH (fun i Hi => H i (or_intror Hi))) as [P Q]. rewrite !sigma_cons.
    assert (Hu : 0 <= u a) by (apply H; now left). split; [lra|].
    unfold sq in *. set (S0 := sigma l u) in *.
    assert (X : 0 <= (c * c) * (u a * S0))
      by (apply Qmult_le_0_compat; [apply sq_nonneg | now apply Qmult_le_0_compat]).
    setoid_replace (c * (u a + S0) * (c * (u a + S0))) with
      (c * u a * (c * u a) + c * S0 * (c * S0) + 2 * (c * c * (u a * S0))) by ring.
    lra.
Qed.

(** For an activation without negative values (relu, sigmoid), dropping before the final read-out
    gives no larger variance than dropping after it. *)
Theorem C89_less_noise : forall act ls l2 fr pos p t0 xs y j n,
  let hf := mkhead ls l2 fr "final_readout" p in
  let hl := mkhead ls l2 fr pos p in
  respects act -> (forall x, 0 <= act x) -> 0 <= p -> p < 1 ->
  List.length ls = List.length xs -> pos <> "lin1"%string -> pos <> "final_readout"%string ->
  sparse_head act hl false t0 xs = Ok y -> (j < List.length y)%nat -> (bits hl xs j <= n)%nat ->
  expectation p n (fun t => sq (entry j (sparse_head act hf true t xs) - at1 y j)) <=
  expectation p n (fun t => sq (entry j (sparse_head act hl true t xs) - at1 y j)).
Proof.
  intros act ls l2 fr pos p t0 xs y j n hf hl Ha Hpos H0 H1 Hl P1 P2 E Hj Hn.
  assert (L : legal_rate p) by (split; lra).
  assert (E' : sparse_head act hf false t0 xs = Ok y).
  { rewrite <- E. destruct (C89_eval act hf pos p t0 t0 xs L L) as [X _]. exact X. }
  pose proof (C89_variance act hf t0 xs y j n Ha H0 H1 Hl ltac:(discriminate) E' Hj Hn) as Vf.
  pose proof (C89_variance act hl t0 xs y j n Ha H0 H1 Hl P1 E Hj Hn) as Vl.
  cbv zeta in Vf, Vl. cbn [rate hf hl] in Vf, Vl. rewrite Vf, Vl. clear Vf Vl.
  apply String.eqb_neq in P2.
  unfold hf, hl. cbn [position lin2 final_readout rate]. rewrite P2.
  change ("final_readout" =? "final_readout")%string with true. cbv iota.
  assert (R : 0 <= p / (1 - p)) by (apply Qle_shift_div_l; lra).
  rewrite (Qmult_comm (p / (1 - p))), (Qmult_comm (p / (1 - p))).
  apply Qmult_le_compat_r; [|exact R]. apply sigma_le. intros k _.
  set (c := share _ _). set (w := at2 _ _ _).
  assert (U0 : forall i, In i (seq 0 (List.length xs)) -> 0 <= units act (mkhead ls l2 fr pos p) xs i k)
    by (intros i _; apply Hpos).
  destruct (sq_sum (seq 0 (List.length xs)) _ (w * c) U0) as [_ X].
  unfold sq in *.
  rewrite (sigma_ext _ _ (fun i => w * c * units act (mkhead ls l2 fr pos p) xs i k *
                                   (w * c * units act (mkhead ls l2 fr pos p) xs i k))).
  2:{ intros i _. unfold units. cbn [lin1s]. ring. }
  eapply Qle_trans; [exact X|]. apply Qle_lteq. right. ring.
Qed.
(** With negative activations the order can be reversed: two opposite units cancel in the sum. *)
Theorem C89_less_noise_refuted :
  ~ (forall ls l2 t0 xs y j n,
     let hf := mkhead ls l2 "sum" "final_readout" (1 # 2) in
     let hl := mkhead ls l2 "sum" "lin2" (1 # 2) in
     List.length ls = List.length xs ->
     sparse_head (fun x => x) hl false t0 xs = Ok y -> (j < List.length y)%nat -> (bits hl xs j <= n)%nat ->
     expectation (1 # 2) n (fun t => sq (entry j (sparse_head (fun x => x) hf true t xs) - at1 y j)) <=
     expectation (1 # 2) n (fun t => sq (entry j (sparse_head (fun x => x) hl true t xs) - at1 y j))).
Proof.
  intros F.
  specialize (F [mklayer [[1]] [0]; mklayer [[1]] [0]] (mklayer [[1]] [0]) [] [[1]; [-(1)]] [0] 0%nat 2%nat
    eq_refl ltac:(vm_compute; reflexivity) ltac:(cbn; lia) ltac:(cbn; lia)).
  vm_compute in F. apply F. reflexivity.
Qed.

(** ** Positions *)

(** Every position other than 'lin1' and 'final_readout', misspelt ones included, means 'lin2'. *)
Theorem C89_position : forall act ls l2 fr pos p m t xs,
  pos <> "lin1"%string -> pos <> "final_readout"%string ->
  sparse_head act (mkhead ls l2 fr pos p) m t xs = sparse_head act (mkhead ls l2 fr "lin2" p) m t xs.
Proof.
  intros act ls l2 fr pos p m t xs P1 P2. apply String.eqb_neq in P1, P2.
  unfold sparse_head. cbn [lin1s lin2 final_readout position rate].
  rewrite !per_dim_plain by (left; cbn [position]; (exact P1 || reflexivity)).
  rewrite P1, P2. reflexivity.
Qed.
(** In EmbedGIN such a position switches the final dropout off, whatever the rate. *)
Theorem C89_gin_position : forall act l1 l2 pos p m t t' x,
  pos <> "lin1"%string -> pos <> "final_readout"%string -> pos <> "lin2"%string ->
  gin_head act l1 l2 pos p m t x = gin_head act l1 l2 "lin2" 0 false t' x.
Proof.
  intros act l1 l2 pos p m t t' x P1 P2 P3. apply String.eqb_neq in P1, P2, P3.
  unfold gin_head. rewrite P1, P2, P3. cbn [bind fst snd orb].
  change ("lin2" =? "lin1")%string with false. cbn [bind fst snd].
  destruct (linear l1 x) as [y|]; [|reflexivity]. cbn [bind].
  change (("lin2" =? "final_readout")%string || ("lin2" =? "lin2")%string) with true. cbv iota.
  rewrite dropout_zero by reflexivity. reflexivity.
Qed.

Lemma gin_eval act l1 l2 pos p t x : legal_rate p ->
  gin_head act l1 l2 pos p false t x = let* y := linear l1 x in linear l2 (map act y).
Proof.
  intros L. unfold gin_head.
  destruct (pos =? "lin1")%string; [rewrite dropout_eval by exact L|]; cbn [bind fst snd];
    destruct (linear l1 x); try reflexivity; cbn [bind];
    (destruct (_ || _); [rewrite dropout_eval by exact L|]; reflexivity).
Qed.
(** The head of EmbedGIN: unbiased for both late positions. *)
Theorem C89_gin : forall act l1 l2 pos p t0 x y j n, 0 <= p -> p < 1 ->
  pos = "final_readout"%string \/ pos = "lin2"%string ->
  gin_head act l1 l2 pos p false t0 x = Ok y -> (j < List.length y)%nat ->
  (List.length (nth j (weight l2) []) <= n)%nat ->
  (forall t, List.length t = n ->
     exists z, gin_head act l1 l2 pos p true t x = Ok z /\ List.length z = List.length y) /\
  expectation p n (fun t => entry j (gin_head act l1 l2 pos p true t x)) == at1 y j.
Proof.
  intros act l1 l2 pos p t0 x y j n H0 H1 P E Hj Hn.
  rewrite gin_eval in E by (split; lra). apply bind_ok in E as (v & Ev & E).
  destruct (linear_nth _ _ _ _ E Hj) as [_ Lw]. rewrite Lw in Hn.
  destruct (after_moments l2 p (map act v) y n j E H0 H1 Hn Hj) as (A & B & _).
  assert (G : forall t, gin_head act l1 l2 pos p true t x = after l2 p t (map act v)).
  { intros t. unfold gin_head, after. destruct P as [->| ->]; cbn [String.eqb Ascii.eqb Bool.eqb bind fst snd orb];
      rewrite Ev; reflexivity. }
  split; [intros t Ht; rewrite G; now apply A|].
  rewrite <- B. apply expectation_ext. intros t _. rewrite G. reflexivity.
Qed.
(** CIN0 and EdgeCIN0: the same. *)
Theorem C89_cin0 : forall act l1 l2 p t0 pooled y j n, 0 <= p -> p < 1 ->
  cin0_head act l1 l2 p false t0 pooled = Ok y -> (j < List.length y)%nat ->
  (List.length (nth j (weight l2) []) <= n)%nat ->
  (forall t, List.length t = n ->
     exists z, cin0_head act l1 l2 p true t pooled = Ok z /\ List.length z = List.length y) /\
  expectation p n (fun t => entry j (cin0_head act l1 l2 p true t pooled)) == at1 y j.
Proof.
  intros act l1 l2 p t0 pooled y j n H0 H1 E Hj Hn.
  apply (C89_gin act l1 l2 "lin2" p t0 (sum0 pooled) y j n H0 H1 (or_intror eq_refl) E Hj Hn).
Qed.

(** ** Concrete cases *)
Definition ex2 (pos : string) (p : Q) : head :=
  mkhead [mklayer [[1; 2]; [0; 1]] [0; 1]; mklayer [[1]; [-(1)]] [1; 5]]
         (mklayer [[1; 3]; [2; -(1)]] [1; 0]) "mean" pos p.
Example C89_ex_eval : exists y, sparse_head relu (ex2 "lin2" (1 # 4)) false [] [[1; 1]; [2]] = Ok y /\
  List.length y = 2%nat /\ at1 y 0 == 23 # 2 /\ at1 y 1 == 7 # 2.
Proof. eexists. split; [vm_compute; reflexivity|]. split; [reflexivity|]. split; vm_compute; reflexivity. Qed.
Example C89_ex_train : exists y, sparse_head relu (ex2 "lin2" (1 # 4)) true [true; false] [[1; 1]; [2]] = Ok y /\
  at1 y 0 == 5 /\ at1 y 1 == 8.
Proof. eexists. split; [vm_compute; reflexivity|]. split; vm_compute; reflexivity. Qed.
Example C89_ex_moments :
  expectation (1 # 4) 4 (fun t => entry 0 (sparse_head relu (ex2 "final_readout" (1 # 4)) true t [[1; 1]; [2]])) == 23 # 2 /\
  expectation (1 # 4) 4 (fun t => sq (entry 0 (sparse_head relu (ex2 "final_readout" (1 # 4)) true t [[1; 1]; [2]]) - (23 # 2))) == 45 # 4.
Proof. split; vm_compute; reflexivity. Qed.
Example C89_ex_position :
  sparse_head relu (ex2 "lin_2" (1 # 4)) true [true; false] [[1; 1]; [2]] =
  sparse_head relu (ex2 "lin2" (1 # 4)) true [true; false] [[1; 1]; [2]] /\
  gin_head relu (mklayer [[1; 2]] [0]) (mklayer [[1]] [0]) "lin_2" 7 true [] [1; 1] = Ok [3 + 0] /\
  gin_head relu (mklayer [[1; 2]] [0]) (mklayer [[1]] [0]) "lin2" 7 false [] [1; 1] = Err ValueError /\
  sparse_head relu (ex2 "lin1" (-(1))) false [] [[1; 1]; [2]] = Err ValueError.
Proof. repeat split; vm_compute; reflexivity. Qed.

Print Assumptions C89_eval.
Print Assumptions C89_formula.
Print Assumptions C89_rate.
Print Assumptions C89_rate_one.
Print Assumptions C89_unbiased.
Print Assumptions C89_lin1_refuted.
Print Assumptions C89_variance.
Print Assumptions C89_less_noise.
Print Assumptions C89_less_noise_refuted.
Print Assumptions C89_position.
Print Assumptions C89_gin_position.
Print Assumptions C89_gin.
Print Assumptions C89_cin0.
