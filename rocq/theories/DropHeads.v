(** The heads as linear forms in the bits of the tape. *)
From Coq Require Import List Arith ZArith QArith Bool String Lia Lqa Field.
From Verif Require Import Base.
From Verif Require Import DropModel DropSpec DropProofs.
Import ListNotations.
Local Open Scope Q_scope.

Lemma form_moments p n b y a f : ~ 1 - p == 0 -> (List.length a <= n)%nat ->
  (forall t, List.length t = n -> f t == b + zf p t a) -> y == b + tot a ->
  expectation p n f == y /\
  expectation p n (fun t => (f t - y) * (f t - y)) == p / (1 - p) * sqs a.
Proof.
  intros Hp Hn Hf Hy. split.
  - rewrite (expectation_ext p n f (fun t => b + zf p t a) Hf), E_zf by assumption. now symmetry.
  - rewrite (expectation_ext p n _ (fun t => ((b - y) + zf p t a) * ((b - y) + zf p t a))).
    2:{ intros t Ht. rewrite (Hf t Ht). ring. }
    rewrite E_zf2 by assumption. rewrite Hy. ring.
Qed.
Lemma const_moments p n y f : (forall t, List.length t = n -> f t == y) ->
  expectation p n f == y /\ expectation p n (fun t => (f t - y) * (f t - y)) == 0.
Proof.
  intros Hf. split.
  - rewrite (expectation_ext p n f (fun _ => y) Hf). apply expectation_const.
  - rewrite (expectation_ext p n _ (fun _ => 0)); [apply expectation_const|].
    intros t Ht. rewrite (Hf t Ht). ring.
Qed.

(** ** dropout followed by a linear layer *)
Definition after (l : layer) (p : Q) (t : tape) (s : list Q) : result (list Q) :=
  let* c := dropout p true t s in linear l (fst c).
Lemma after_moments l p s y n j : linear l s = Ok y -> 0 <= p -> p < 1 ->
  (List.length s <= n)%nat -> (j < List.length y)%nat ->
  (forall t, List.length t = n -> exists z, after l p t s = Ok z /\ List.length z = List.length y) /\
  expectation p n (fun t => entry j (after l p t s)) == at1 y j /\
  expectation p n (fun t => (entry j (after l p t s) - at1 y j) * (entry j (after l p t s) - at1 y j))
    == p / (1 - p) * sqs (prods (nth j (weight l) []) s).
Proof.
  intros Hy H0 H1 Hn Hj. destruct (linear_nth _ _ _ _ Hy Hj) as [Ey Lw].
  destruct (Qeq_dec p 0) as [Ez|Nz].
  - assert (A : forall t, after l p t s = Ok y).
    { intros t. unfold after. rewrite dropout_zero by exact Ez. exact Hy. }
    split; [intros t _; exists y; split; [apply A|reflexivity]|].
    destruct (const_moments p n (at1 y j) (fun t => entry j (after l p t s))) as [E V];
      [intros t _; rewrite A; reflexivity|].
    split; [exact E|]. rewrite V, Ez. field.
  - assert (Hp : 0 < p) by (apply Qle_lteq in H0 as [H0|H0]; [exact H0 | now symmetry in H0]).
    assert (A : forall t, List.length t = n -> exists z, after l p t s = Ok z /\
        linear l (masked p t s) = Ok z /\ List.length z = List.length y).
    { intros t Ht. unfold after. rewrite dropout_train by assumption. cbn [bind fst].
      destruct (linear_width l s (masked p t s) y Hy) as (z & Hz & Lz);
        [apply masked_length; lia|]. exists z. auto. }
    split; [intros t Ht; destruct (A t Ht) as (z & Hz & _ & L); exists z; auto|].
    apply (form_moments p n (at1 (bias l) j)); [lra | rewrite prods_length; lia | |].
    + intros t Ht. destruct (A t Ht) as (z & Hz & Lz & L). rewrite Hz. cbn [entry].
      destruct (linear_nth _ _ _ j Lz) as [-> _]; [lia|]. rewrite dot_masked by lia. ring.
    + rewrite Ey, dot_tot. ring.
Qed.

(** ** The rows of hidden units *)
Fixpoint prows (act : Q -> Q) (ls : list layer) (xs : list (list Q)) : result (list (list Q)) :=
  match ls, xs with
  | l :: ls', x :: xs' =>
      let* y := linear l x in
      let* rest := prows act ls' xs' in
      Ok (map act y :: rest)
  | _, _ => Ok []
  end.
Lemma per_dim_plain act h m : (position h =? "lin1")%string = false \/ (m = false /\ legal (rate h)) \/ rate h == 0 ->
  forall ls xs t, per_dim act h m t ls xs = let* rows := prows act ls xs in Ok (rows, t).
Proof.
  intros Hc. induction ls as [|l ls IH]; intros [|x xs] t; try reflexivity.
  cbn [per_dim prows].
  assert (E : (if (position h =? "lin1")%string then dropout (rate h) m t x else Ok (x, t)) = Ok (x, t)).
  { destruct (position h =? "lin1")%string; [|reflexivity].
    destruct Hc as [Hc|[[-> L]|Hc]]; [discriminate | now apply dropout_eval | now apply dropout_zero]. }
  rewrite E. cbn [bind fst snd]. destruct (linear l x); [|reflexivity]. cbn [bind].
  rewrite IH. destruct (prows act ls xs); reflexivity.
Qed.

Definition finish (s : string) (rows : list (list Q)) : result (list Q) :=
  if (s =? "mean")%string then Ok (mean0 rows)
  else if (s =? "sum")%string then Ok (sum0 rows) else Err NotImplementedError.
Definition plain (act : Q -> Q) (ls : list layer) (l2 : layer) (fr : string) (xs : list (list Q))
  : result (list Q) :=
  let* r := prows act ls xs in let* rows := stack r in let* x := finish fr rows in linear l2 x.

Lemma head_plain act h m t xs : (m = false /\ legal (rate h)) \/ rate h == 0 ->
  sparse_head act h m t xs = plain act (lin1s h) (lin2 h) (final_readout h) xs.
Proof.
  intros Hc. unfold sparse_head, plain. rewrite per_dim_plain by (right; exact Hc).
  destruct (prows act (lin1s h) xs) as [r|e]; [|reflexivity]. cbn [bind fst snd].
  destruct (stack r) as [rows|e]; [|reflexivity]. cbn [bind].
  assert (E : (if (position h =? "final_readout")%string then drop_rows (rate h) m t rows
               else Ok (rows, t)) = Ok (rows, t))
    by (destruct (position h =? "final_readout")%string; [now apply drop_rows_same | reflexivity]).
  rewrite E. cbn [bind fst snd]. unfold finish.
  destruct (final_readout h =? "mean")%string; [|destruct (final_readout h =? "sum")%string; [|reflexivity]];
    cbn [bind]; destruct (_ || _); try reflexivity;
    (destruct Hc as [[-> L]|Hc]; [rewrite dropout_eval by exact L | rewrite dropout_zero by exact Hc]; reflexivity).
Qed.

Lemma stack_inv r rows : stack r = Ok rows -> rows = r /\ rows <> [] /\
  exists H, forall x, In x rows -> List.length x = H.
Proof.
  unfold stack. destruct r as [|a r]; [discriminate|].
  destruct (forallb _ (a :: r)) eqn:E; [|discriminate]. intros [= <-].
  split; [reflexivity|]. split; [discriminate|]. exists (List.length a).
  intros x Hx. rewrite forallb_forall in E. now apply Nat.eqb_eq, E.
Qed.
Lemma finish_inv s rows x : finish s rows = Ok x -> x = readout s rows /\
  ((s =? "mean")%string = true \/ (s =? "sum")%string = true).
Proof.
  unfold finish, readout. destruct (s =? "mean")%string; [intros [= <-]; auto|].
  destruct (s =? "sum")%string; [intros [= <-]; auto | discriminate].
Qed.
Lemma finish_ok s rows : (s =? "mean")%string = true \/ (s =? "sum")%string = true ->
  finish s rows = Ok (readout s rows).
Proof.
  unfold finish, readout. intros [->| E]; [reflexivity|].
  destruct (s =? "mean")%string; [reflexivity|]. now rewrite E.
Qed.

Lemma plain_inv act ls l2 fr xs y : plain act ls l2 fr xs = Ok y ->
  exists rows H, prows act ls xs = Ok rows /\ stack rows = Ok rows /\ rows <> [] /\
    (forall x, In x rows -> List.length x = H) /\
    ((fr =? "mean")%string = true \/ (fr =? "sum")%string = true) /\
    linear l2 (readout fr rows) = Ok y.
Proof.
  unfold plain. intros E. apply bind_ok in E as (r & Er & E). apply bind_ok in E as (rows & Es & E).
  apply bind_ok in E as (x & Ex & E). destruct (stack_inv _ _ Es) as (-> & Hne & H & HH).
  destruct (finish_inv _ _ _ Ex) as (-> & Hf). exists r, H. auto 8.
Qed.

(** ** Training: the final positions *)
Lemma head_lin2 act h t xs rows y :
  (position h =? "lin1")%string = false -> (position h =? "final_readout")%string = false ->
  prows act (lin1s h) xs = Ok rows -> stack rows = Ok rows ->
  (final_readout h =? "mean")%string = true \/ (final_readout h =? "sum")%string = true ->
  linear (lin2 h) (readout (final_readout h) rows) = Ok y ->
  sparse_head act h true t xs = after (lin2 h) (rate h) t (readout (final_readout h) rows).
Proof.
  intros P1 P2 Er Es Hf _. unfold sparse_head. rewrite per_dim_plain by now left.
  rewrite Er. cbn [bind fst snd]. rewrite Es. cbn [bind]. rewrite P1, P2. cbn [bind fst snd orb].
  fold (finish (final_readout h) rows). rewrite (finish_ok _ rows Hf). reflexivity.
Qed.
Lemma head_final act h t xs rows :
  (position h =? "final_readout")%string = true ->
  prows act (lin1s h) xs = Ok rows -> stack rows = Ok rows ->
  (final_readout h =? "mean")%string = true \/ (final_readout h =? "sum")%string = true ->
  sparse_head act h true t xs =
    let* b := drop_rows (rate h) true t rows in linear (lin2 h) (readout (final_readout h) (fst b)).
Proof.
  intros P Er Es Hf.
  assert (P1 : (position h =? "lin1")%string = false)
    by (apply String.eqb_eq in P; now rewrite P).
  unfold sparse_head. rewrite per_dim_plain by now left.
  rewrite Er. cbn [bind fst snd]. rewrite Es. cbn [bind]. rewrite P1, P. cbn [orb].
  destruct (drop_rows (rate h) true t rows) as [b|e]; [|reflexivity]. cbn [bind].
  fold (finish (final_readout h) (fst b)). rewrite (finish_ok _ (fst b) Hf). reflexivity.
Qed.

Lemma final_moments l p fr rows H y n j :
  rows <> [] -> (forall x, In x rows -> List.length x = H) ->
  linear l (readout fr rows) = Ok y -> 0 <= p -> p < 1 ->
  (List.length rows * H <= n)%nat -> (j < List.length y)%nat ->
  let g t := let* b := drop_rows p true t rows in linear l (readout fr (fst b)) in
  (forall t, List.length t = n -> exists z, g t = Ok z /\ List.length z = List.length y) /\
  expectation p n (fun t => entry j (g t)) == at1 y j /\
  expectation p n (fun t => (entry j (g t) - at1 y j) * (entry j (g t) - at1 y j))
    == p / (1 - p) * (factor fr (List.length rows) * factor fr (List.length rows) *
                      sigma rows (fun r => sqs (prods (nth j (weight l) []) r))).
Proof.
  intros Hne HH Hy H0 H1 Hn Hj g. destruct (linear_nth _ _ _ _ Hy Hj) as [Ey Lw].
  destruct (readout_dot fr H rows Hne HH) as [Lr Dr]. rewrite Lr in Lw.
  destruct (Qeq_dec p 0) as [Ez|Nz].
  - assert (A : forall t, g t = Ok y).
    { intros t. unfold g. rewrite drop_rows_same by now right. exact Hy. }
    split; [intros t _; exists y; split; [apply A|reflexivity]|].
    destruct (const_moments p n (at1 y j) (fun t => entry j (g t))) as [E V];
      [intros t _; rewrite A; reflexivity|].
    split; [exact E|]. rewrite V, Ez. field.
  - assert (Hp : 0 < p) by (apply Qle_lteq in H0 as [H0|H0]; [exact H0 | now symmetry in H0]).
    assert (M : forall t, mrows p t rows <> [])
      by (intros t; destruct rows; [congruence | discriminate]).
    assert (A : forall t, List.length t = n -> exists z, g t = Ok z /\
        linear l (readout fr (mrows p t rows)) = Ok z /\ List.length z = List.length y).
    { intros t Ht. unfold g. destruct (drop_rows_train p Hp H1 rows t) as [t' ->]. cbn [bind fst].
      destruct (mrows_sum p H (nth j (weight l) []) rows t HH Lw) as [L _]; [lia|].
      destruct (readout_dot fr H _ (M t) L) as [Lr' _].
      destruct (linear_width l _ (readout fr (mrows p t rows)) y Hy) as (z & Hz & Lz); [congruence|].
      exists z. auto. }
    split; [intros t Ht; destruct (A t Ht) as (z & Hz & _ & L); exists z; auto|].
    set (c := factor fr (List.length rows)).
    assert (Q2 : sqs (map (Qmult c) (List.concat (map (prods (nth j (weight l) [])) rows))) ==
      c * c * sigma rows (fun r => sqs (prods (nth j (weight l) []) r)))
      by now rewrite sqs_scale, sqs_concat.
    rewrite <- Q2.
    apply (form_moments p n (at1 (bias l) j)); [lra | | |].
    + rewrite map_length, (concat_length_prods _ H) by assumption. exact Hn.
    + intros t Ht. destruct (A t Ht) as (z & Hz & Lz & L). rewrite Hz. cbn [entry].
      destruct (linear_nth _ _ _ j Lz) as [-> _]; [lia|].
      destruct (mrows_sum p H (nth j (weight l) []) rows t HH Lw) as [Lm Dm]; [lia|].
      destruct (readout_dot fr H _ (M t) Lm) as [_ ->].
      rewrite Dm, mrows_length, zf_scale. fold c. ring.
    + rewrite Ey, tot_scale, tot_concat, Dr. fold c. ring.
Qed.
