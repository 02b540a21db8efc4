(** C24: aggregation by scatter. *)
From Coq Require Import List Arith Lia ZArith Bool Permutation.
From Verif Require Import Base ScatterModel ScatterSpec ScatterProofs.
Import ListNotations.

Section Props.
Context {V : Type} (o : ops V).

(** Each target cell receives the reduction of exactly the messages addressed to it. *)
Theorem C24_scatter_reduces_addressed r n idx src :
  length idx = length src -> Forall (fun i => i < n) idx ->
  exists out, scatter o r (Some n) idx src = Ok out /\ length out = n /\
    forall i, i < n -> nth_error out i = Some (reduce_rows o r (messages_to i idx src)).
Proof.
  intros Hl HF. rewrite (scatter_correct o r n idx src HF Hl). eexists; split; [reflexivity|].
  split; [rewrite map_length, seq_length; auto|].
  intros i Hi. rewrite nth_error_map, (nth_error_nth' _ 0) by (rewrite seq_length; auto).
  rewrite seq_nth by auto. reflexivity.
Qed.

(** A target without messages receives the zero row. *)
Theorem C24_no_message_zero r n idx src out i :
  ops_ok o -> length idx = length src -> Forall (fun j => j < n) idx ->
  scatter o r (Some n) idx src = Ok out -> i < n -> ~ In i idx ->
  nth_error out i = Some (vzero o).
Proof.
  intros Ho Hl HF Hs Hi Hni.
  destruct (C24_scatter_reduces_addressed r n idx src Hl HF) as (out' & Hs' & _ & H).
  rewrite Hs in Hs'. inversion Hs'; subst out'. rewrite H by auto. f_equal.
  assert (E : messages_to i idx src = []).
  { unfold messages_to. clear -Hni. revert src; induction idx as [|j idx IH]; intros [|s src]; simpl; auto.
    destruct (Nat.eqb_spec j i); [exfalso; apply Hni; left; auto|]. apply IH. intros H; apply Hni; right; auto. }
  rewrite E. apply reduce_rows_nil. intros _. apply (div_0_1 _ Ho).
Qed.

(** The order of the columns is irrelevant. *)
Theorem C24_column_order r n idx src idx' src' :
  ops_ok o -> length idx = length src -> length idx' = length src' ->
  Permutation (combine idx src) (combine idx' src') -> Forall (fun i => i < n) idx ->
  scatter o r (Some n) idx src = scatter o r (Some n) idx' src'.
Proof. intros; apply scatter_cols_perm; auto. Qed.

(** A message addressed outside the target range is an error, never silently dropped. *)
Theorem C24_out_of_range_raises r n idx src i :
  length idx = length src -> In i idx -> n <= i -> exists e, scatter o r (Some n) idx src = Err e.
Proof. apply scatter_out_of_range. Qed.

End Props.

Example C24_example :
  ops_ok Zops /\ Permutation (combine [2;0;2] [5;-7;3]%Z) (combine [2;2;0] [3;5;-7]%Z) /\
  scatter Zops RAdd (Some 4) [2;0;2] [5;-7;3]%Z = Ok [-7;0;8;0]%Z /\
  scatter Zops RMax (Some 4) [2;0;2] [5;-7;3]%Z = Ok [-7;0;5;0]%Z /\
  scatter Zops RMean (Some 4) [2;2;0] [3;5;-7]%Z = Ok [-7;0;4;0]%Z.
Proof.
  split; [apply Zops_ok|]. split.
  - simpl. apply perm_trans with [(2,5%Z);(2,3%Z);(0,(-7)%Z)]; [apply perm_skip, perm_swap|apply perm_swap].
  - vm_compute. auto.
Qed.

Print Assumptions C24_scatter_reduces_addressed.
Print Assumptions C24_no_message_zero.
Print Assumptions C24_column_order.
Print Assumptions C24_out_of_range_raises.
