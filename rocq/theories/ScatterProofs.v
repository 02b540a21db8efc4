From Coq Require Import List Arith Lia ZArith Bool Permutation.
From Verif Require Import Base ScatterModel ScatterSpec.
Import ListNotations.

Lemma Zops_ok : ops_ok Zops.
Proof. split; simpl; intros; try lia; reflexivity. Qed.

Section Proofs.
Context {V : Type} (o : ops V).

Lemma nth_error_ext {A} (l1 l2 : list A) :
  (forall i, nth_error l1 i = nth_error l2 i) -> l1 = l2.
Proof.
  revert l2; induction l1 as [|a l1 IH]; intros [|b l2] H; auto.
  - specialize (H 0); discriminate.
  - specialize (H 0); discriminate.
  - pose proof (H 0) as H0; simpl in H0; inversion H0; subst. f_equal.
    apply IH. intros i. apply (H (S i)).
Qed.

Lemma nth_error_map_seq {A} (f : nat -> A) n i :
  nth_error (map f (seq 0 n)) i = if i <? n then Some (f i) else None.
Proof.
  destruct (Nat.ltb_spec i n).
  - rewrite nth_error_map. rewrite (nth_error_nth' _ 0) by (rewrite seq_length; auto).
    rewrite seq_nth by auto. reflexivity.
  - apply nth_error_None. rewrite map_length, seq_length; auto.
Qed.

Lemma scatter_loop_spec {A} (f : A -> V -> A) (init : list A) idx src :
  Forall (fun i => i < length init) idx -> length idx = length src ->
  exists out, scatter_loop f init idx src = Ok out /\ length out = length init /\
    forall i, nth_error out i =
      option_map (fun a => fold_left f (messages_to i idx src) a) (nth_error init i).
Proof.
  unfold scatter_loop.
  revert init src; induction idx as [|j idx IH]; intros init src HF Hl; destruct src as [|v src];
    simpl in *; try discriminate.
  - eexists; split; [reflexivity|]; split; auto. intros i. destruct (nth_error init i); auto.
  - inversion HF as [|? ? Hj HF']; subst.
    destruct (upd_ok init j (fun a => f a v) Hj) as (r & Hr & Hlen & Hn). rewrite Hr; simpl.
    destruct (IH r src) as (out & Ho & Hlo & Hno).
    + rewrite Hlen; auto.
    + lia.
    + rewrite Ho. exists out; split; auto. split; [lia|]. intros i. rewrite Hno, Hn.
      unfold messages_to; simpl. rewrite (Nat.eqb_sym j i).
      destruct (i =? j); simpl; auto. destruct (nth_error init i); auto.
Qed.

Lemma scatter_loop_err {A} (f : A -> V -> A) (init : list A) idx src i :
  length idx = length src -> In i idx -> length init <= i ->
  exists e, scatter_loop f init idx src = Err e.
Proof.
  unfold scatter_loop.
  revert init src; induction idx as [|j idx IH]; intros init src Hl Hi Hge; destruct src as [|v src];
    simpl in *; try discriminate; try tauto.
  destruct (Nat.lt_ge_cases j (length init)) as [Hj|Hj].
  - destruct (upd_ok init j (fun a => f a v) Hj) as (r & Hr & Hlen & Hn). rewrite Hr; simpl.
    destruct Hi as [->|Hi]; [lia|]. apply IH; auto; lia.
  - rewrite upd_err by auto. simpl; eauto.
Qed.

Lemma nth_error_repeat' {A} (a : A) n i :
  nth_error (repeat a n) i = if i <? n then Some a else None.
Proof.
  revert i; induction n as [|n IH]; intros [|i]; simpl; auto.
  rewrite IH. destruct (Nat.ltb_spec i n), (Nat.ltb_spec (S i) (S n)); auto; lia.
Qed.

Lemma fold_opt_step f l a :
  fold_left (opt_step f) l (Some a) = Some (fold_left f l (a : V)).
Proof. revert a; induction l; simpl; auto. Qed.

Lemma fold_count (l : list V) k : fold_left (fun k _ => S k) l k = length l + k.
Proof. revert k; induction l; simpl; auto. intros; rewrite IHl; lia. Qed.

Lemma nth_error_combine {A B} (l : list A) (l' : list B) i :
  nth_error (combine l l') i =
  match nth_error l i, nth_error l' i with Some a, Some b => Some (a, b) | _, _ => None end.
Proof.
  revert l' i; induction l as [|a l IH]; intros [|b l'] [|i]; simpl; auto.
  destruct (nth_error l i); auto.
Qed.

(** The scatter loop computes the reduction of the addressed messages. *)
Lemma scatter_correct r n idx src :
  Forall (fun i => i < n) idx -> length idx = length src ->
  scatter o r (Some n) idx src =
    Ok (map (fun i => reduce_rows o r (messages_to i idx src)) (seq 0 n)).
Proof.
  intros HF Hl. unfold scatter. rewrite Hl, Nat.eqb_refl; simpl.
  assert (Hn : forall A (a : A), length (repeat a n) = n) by (intros; apply repeat_length).
  destruct r; simpl.
  - destruct (scatter_loop_spec (vadd o) (repeat (vzero o) n) idx src) as (out & Ho & Hlo & Hno);
      rewrite ?Hn; auto. rewrite Ho. f_equal. apply nth_error_ext. intros i.
    rewrite Hno, nth_error_repeat', nth_error_map_seq. destruct (i <? n); auto.
  - destruct (scatter_loop_spec (vadd o) (repeat (vzero o) n) idx src) as (out & Ho & Hlo & Hno);
      rewrite ?Hn; auto. rewrite Ho; simpl.
    destruct (scatter_loop_spec (fun k (_ : V) => S k) (repeat 0 n) idx src) as (out' & Ho' & Hlo' & Hno');
      rewrite ?Hn; auto. rewrite Ho'; simpl.
    f_equal. apply nth_error_ext. intros i.
    rewrite nth_error_map, nth_error_combine, Hno, Hno', !nth_error_repeat', nth_error_map_seq.
    destruct (i <? n); auto. simpl. rewrite fold_count, Nat.add_0_r. reflexivity.
  - destruct (scatter_loop_spec (opt_step (vmax o)) (repeat None n) idx src) as (out & Ho & Hlo & Hno);
      rewrite ?Hn; auto. rewrite Ho; simpl. f_equal. apply nth_error_ext. intros i.
    rewrite nth_error_map, Hno, nth_error_repeat', nth_error_map_seq.
    destruct (i <? n); auto. simpl. destruct (messages_to i idx src); simpl; auto.
    rewrite fold_opt_step; reflexivity.
  - destruct (scatter_loop_spec (opt_step (vmin o)) (repeat None n) idx src) as (out & Ho & Hlo & Hno);
      rewrite ?Hn; auto. rewrite Ho; simpl. f_equal. apply nth_error_ext. intros i.
    rewrite nth_error_map, Hno, nth_error_repeat', nth_error_map_seq.
    destruct (i <? n); auto. simpl. destruct (messages_to i idx src); simpl; auto.
    rewrite fold_opt_step; reflexivity.
Qed.

Lemma scatter_out_of_range r n idx src i :
  length idx = length src -> In i idx -> n <= i ->
  exists e, scatter o r (Some n) idx src = Err e.
Proof.
  intros Hl Hi Hn. unfold scatter. rewrite Hl, Nat.eqb_refl; simpl.
  destruct r;
  match goal with |- context [scatter_loop ?f ?init idx src] =>
    destruct (scatter_loop_err f init idx src i) as [e He]; rewrite ?repeat_length; auto;
    rewrite He; simpl; eauto
  end.
Qed.

(** ** Permutation invariance of the reductions *)
Lemma fold_left_comm_shift (f : V -> V -> V)
  (Hc : forall a b, f a b = f b a) (Ha : forall a b c, f a (f b c) = f (f a b) c) l a b :
  fold_left f l (f a b) = f a (fold_left f l b).
Proof.
  revert b; induction l as [|c l IH]; intros b; simpl; auto.
  rewrite <- Ha. apply IH.
Qed.

Lemma fold_left_perm (f : V -> V -> V)
  (Hc : forall a b, f a b = f b a) (Ha : forall a b c, f a (f b c) = f (f a b) c) l l' a :
  Permutation l l' -> fold_left f l a = fold_left f l' a.
Proof.
  intros HP; revert a; induction HP; intros a; simpl; auto.
  - f_equal. rewrite <- !Ha. f_equal. apply Hc.
  - rewrite IHHP1; auto.
Qed.

Lemma fold_left_cons_perm (f : V -> V -> V)
  (Hc : forall a b, f a b = f b a) (Ha : forall a b c, f a (f b c) = f (f a b) c) l l' a a' :
  Permutation (a :: l) (a' :: l') -> fold_left f l a = fold_left f l' a'.
Proof.
  intros HP.
  destruct (in_split a (a' :: l')) as (l1 & l2 & E).
  { eapply Permutation_in; [exact HP|]. left; auto. }
  destruct l1 as [|b l1]; simpl in E; inversion E; subst.
  - apply Permutation_cons_inv in HP. apply fold_left_perm; auto.
  - assert (HP' : Permutation l (b :: l1 ++ l2)).
    { apply Permutation_cons_inv with (a := a). rewrite HP.
      change (b :: l1 ++ a :: l2) with ((b :: l1) ++ a :: l2).
      rewrite <- Permutation_middle. reflexivity. }
    rewrite (fold_left_perm f Hc Ha l _ a HP'). simpl.
    transitivity (fold_left f (a :: l1 ++ l2) b).
    + simpl. rewrite (Hc a b). reflexivity.
    + apply fold_left_perm; auto. apply Permutation_middle.
Qed.

Lemma reduce_rows_perm (H : ops_ok o) r l l' :
  Permutation l l' -> reduce_rows o r l = reduce_rows o r l'.
Proof.
  intros HP; destruct H; destruct r; simpl.
  - apply fold_left_perm; auto.
  - rewrite (Permutation_length HP). f_equal. apply fold_left_perm; auto.
  - destruct l, l'; auto.
    + apply Permutation_nil in HP; discriminate.
    + symmetry in HP; apply Permutation_nil in HP; discriminate.
    + apply fold_left_cons_perm; auto.
  - destruct l, l'; auto.
    + apply Permutation_nil in HP; discriminate.
    + symmetry in HP; apply Permutation_nil in HP; discriminate.
    + apply fold_left_cons_perm; auto.
Qed.

Lemma reduce_rows_nil r : (r = RMean -> vdivn o (vzero o) 1 = vzero o) ->
  reduce_rows o r [] = vzero o.
Proof. intros H; destruct r; simpl; auto. Qed.

Lemma filter_perm {A} (f : A -> bool) l l' :
  Permutation l l' -> Permutation (filter f l) (filter f l').
Proof.
  induction 1; simpl; auto.
  - destruct (f x); auto.
  - destruct (f x), (f y); auto. apply perm_swap.
  - etransitivity; eauto.
Qed.

Lemma combine_fst {A B} (l : list A) (l' : list B) :
  length l = length l' -> map fst (combine l l') = l.
Proof.
  revert l'; induction l as [|a l IH]; intros [|b l'] H; simpl in *; try discriminate; auto.
  f_equal; auto.
Qed.

Lemma scatter_cols_perm (H : ops_ok o) r n idx src idx' src' :
  length idx = length src -> length idx' = length src' ->
  Permutation (combine idx src) (combine idx' src') ->
  Forall (fun i => i < n) idx ->
  scatter o r (Some n) idx src = scatter o r (Some n) idx' src'.
Proof.
  intros Hl Hl' HP HF.
  assert (HF' : Forall (fun i => i < n) idx').
  { rewrite Forall_forall in *. intros i Hi. apply HF.
    rewrite <- (combine_fst idx src Hl). rewrite <- (combine_fst idx' src' Hl') in Hi.
    eapply Permutation_in; [|exact Hi]. apply Permutation_map. symmetry; auto. }
  rewrite !scatter_correct by auto. f_equal. apply map_ext. intros i.
  apply reduce_rows_perm; auto. unfold messages_to. apply Permutation_map. apply filter_perm; auto.
Qed.

End Proofs.
