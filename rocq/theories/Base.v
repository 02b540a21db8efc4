(** Shared vocabulary of the model: exceptions as values, tensors as lists. *)
From Coq Require Import List Arith Lia ZArith Bool Permutation.
Import ListNotations.

(** Python exceptions that the modelled code can raise. *)
Inductive exn :=
| AssertionError | ValueError | IndexError | KeyError | TypeError
| RuntimeError | NotImplementedError | ZeroDivisionError | AttributeError
| NetworkXError | NameError | SystemExit.

Inductive result (A : Type) :=
| Ok (a : A)
| Err (e : exn).
Arguments Ok {A} a.
Arguments Err {A} e.

Definition bind {A B} (m : result A) (k : A -> result B) : result B :=
  match m with Ok a => k a | Err e => Err e end.

Notation "'let*' x ':=' m 'in' k" := (bind m (fun x => k))
  (at level 200, x pattern, m at level 100, k at level 200).

(** Python [assert b]. *)
Definition assert_ (b : bool) : result unit :=
  if b then Ok tt else Err AssertionError.

Fixpoint mapM {A B} (f : A -> result B) (l : list A) : result (list B) :=
  match l with
  | [] => Ok []
  | a :: l' => let* b := f a in let* bs := mapM f l' in Ok (b :: bs)
  end.

Definition of_option {A} (e : exn) (o : option A) : result A :=
  match o with Some a => Ok a | None => Err e end.

(** [l[i]] on a Python list / tensor row, non-negative index. *)
Definition get {A} (l : list A) (i : nat) : result A :=
  of_option IndexError (nth_error l i).

(** [torch.index_select(l, 0, idx)]: out-of-range indices raise. *)
Definition index_select {A} (l : list A) (idx : list nat) : result (list A) :=
  mapM (get l) idx.

Definition isSome {A} (o : option A) : bool :=
  match o with Some _ => true | None => false end.

(** [max] of a tensor/list; an empty one raises. *)
Definition list_max_err (l : list nat) : result nat :=
  match l with [] => Err RuntimeError | _ => Ok (list_max l) end.

(** Replace position [i]; out of range is an error. *)
Fixpoint upd {A} (l : list A) (i : nat) (f : A -> A) : result (list A) :=
  match l, i with
  | [], _ => Err IndexError
  | a :: l', 0 => Ok (f a :: l')
  | a :: l', S i' => let* r := upd l' i' f in Ok (a :: r)
  end.

Fixpoint foldM {A B} (f : A -> B -> result A) (a : A) (l : list B) : result A :=
  match l with
  | [] => Ok a
  | b :: l' => let* a' := f a b in foldM f a' l'
  end.

(** ** Elementary facts *)

Lemma bind_ok {A B} (m : result A) (k : A -> result B) b :
  bind m k = Ok b <-> exists a, m = Ok a /\ k a = Ok b.
Proof.
  destruct m; simpl; split.
  - intros; eauto.
  - intros (a' & H & ?); inversion H; subst; auto.
  - discriminate.
  - intros (a' & H & ?); discriminate.
Qed.

Lemma mapM_ok_iff {A B} (f : A -> result B) l bs :
  mapM f l = Ok bs <-> Forall2 (fun a b => f a = Ok b) l bs.
Proof.
  revert bs; induction l as [|a l IH]; intros bs; simpl.
  - split; intros H; [inversion H; subst; constructor | inversion H; subst; auto].
  - split; intros H.
    + apply bind_ok in H as (b & H1 & H). apply bind_ok in H as (bs' & H2 & H).
      inversion H; subst. constructor; auto. apply IH; auto.
    + inversion H as [|? b ? bs' H1 H2]; subst. rewrite H1; simpl.
      apply IH in H2. rewrite H2; reflexivity.
Qed.

Lemma mapM_map {A B} (f : A -> result B) (g : A -> B) l :
  (forall a, In a l -> f a = Ok (g a)) -> mapM f l = Ok (map g l).
Proof.
  induction l as [|a l IH]; intros H; simpl; auto.
  rewrite H by (left; auto); simpl. rewrite IH; [reflexivity|].
  intros; apply H; right; auto.
Qed.

Lemma mapM_ext {A B} (f g : A -> result B) l :
  (forall a, In a l -> f a = g a) -> mapM f l = mapM g l.
Proof.
  induction l as [|a l IH]; intros H; simpl; auto.
  rewrite H by (left; auto). rewrite IH; auto. intros; apply H; right; auto.
Qed.

Lemma get_ok {A} (l : list A) i a : get l i = Ok a <-> nth_error l i = Some a.
Proof. unfold get, of_option; destruct (nth_error l i); split; congruence. Qed.

Lemma get_nth {A} (l : list A) i d : i < length l -> get l i = Ok (nth i l d).
Proof.
  intros H. apply get_ok. apply nth_error_nth'; auto.
Qed.

Lemma index_select_nth {A} (l : list A) idx d :
  Forall (fun i => i < length l) idx ->
  index_select l idx = Ok (map (fun i => nth i l d) idx).
Proof.
  intros H. apply mapM_map. intros i Hi. rewrite Forall_forall in H.
  apply get_nth; auto.
Qed.

Lemma index_select_err {A} (l : list A) idx i :
  In i idx -> length l <= i -> exists e, index_select l idx = Err e.
Proof.
  unfold index_select. induction idx as [|j idx IH]; simpl; [tauto|].
  intros [->|Hi] Hl.
  - unfold get. rewrite (proj2 (nth_error_None l i)) by auto. simpl; eauto.
  - destruct (get l j); simpl; [|eauto]. destruct (IH Hi Hl) as [e ->]; simpl; eauto.
Qed.

Lemma list_max_lt l n : 0 < n -> (forall x, In x l -> x < n) -> list_max l < n.
Proof.
  intros Hn H. destruct l as [|a l]; [simpl; auto|].
  apply list_max_lt; [discriminate|]. apply Forall_forall; auto.
Qed.

Lemma list_max_in_le l x : In x l -> x <= list_max l.
Proof.
  intros H. pose proof (proj1 (list_max_le l (list_max l)) (le_n _)) as HF.
  rewrite Forall_forall in HF; auto.
Qed.

Lemma upd_ok {A} (l : list A) i f :
  i < length l ->
  exists r, upd l i f = Ok r /\ length r = length l /\
    forall j, nth_error r j = if j =? i then option_map f (nth_error l j) else nth_error l j.
Proof.
  revert i; induction l as [|a l IH]; intros [|i] H; simpl in *; try lia.
  - eexists; split; [reflexivity|]; split; [reflexivity|]. intros [|j]; simpl; auto.
  - destruct (IH i) as (r & -> & Hl & Hn); [lia|]. simpl.
    eexists; split; [reflexivity|]; split; [simpl; lia|].
    intros [|j]; simpl; auto.
Qed.

Lemma upd_err {A} (l : list A) i f : length l <= i -> upd l i f = Err IndexError.
Proof.
  revert i; induction l as [|a l IH]; intros [|i] H; simpl in *; try lia; auto.
  rewrite IH by lia. reflexivity.
Qed.

(** Map with position. *)
Fixpoint mapi_from {A B} (f : nat -> A -> B) (i : nat) (l : list A) : list B :=
  match l with [] => [] | a :: l' => f i a :: mapi_from f (S i) l' end.
Definition mapi {A B} (f : nat -> A -> B) (l : list A) : list B := mapi_from f 0 l.

Lemma mapi_from_length {A B} (f : nat -> A -> B) i l : length (mapi_from f i l) = length l.
Proof. revert i; induction l; simpl; auto. Qed.
Lemma mapi_length {A B} (f : nat -> A -> B) l : length (mapi f l) = length l.
Proof. apply mapi_from_length. Qed.

Lemma nth_error_mapi_from {A B} (f : nat -> A -> B) i l j :
  nth_error (mapi_from f i l) j = option_map (f (i + j)) (nth_error l j).
Proof.
  revert i j; induction l as [|a l IH]; intros i [|j]; simpl; auto.
  - rewrite Nat.add_0_r; auto.
  - rewrite IH. rewrite Nat.add_succ_r. reflexivity.
Qed.
Lemma nth_error_mapi {A B} (f : nat -> A -> B) l j :
  nth_error (mapi f l) j = option_map (f j) (nth_error l j).
Proof. apply nth_error_mapi_from. Qed.

Lemma mapi_from_ext {A B} (f g : nat -> A -> B) i l :
  (forall j a, nth_error l j = Some a -> f (i + j) a = g (i + j) a) ->
  mapi_from f i l = mapi_from g i l.
Proof.
  revert i; induction l as [|a l IH]; intros i H; simpl; auto. f_equal.
  - specialize (H 0 a eq_refl). rewrite Nat.add_0_r in H; auto.
  - apply IH. intros j b Hj. specialize (H (S j) b Hj). rewrite Nat.add_succ_r in H; auto.
Qed.
Lemma mapi_ext {A B} (f g : nat -> A -> B) l :
  (forall j a, nth_error l j = Some a -> f j a = g j a) -> mapi f l = mapi g l.
Proof. intros; apply mapi_from_ext; auto. Qed.

Lemma map_mapi {A B C} (g : B -> C) (f : nat -> A -> B) l :
  map g (mapi f l) = mapi (fun i a => g (f i a)) l.
Proof.
  unfold mapi; generalize 0; induction l as [|a l IH]; intros i; simpl; auto. rewrite IH; auto.
Qed.
Lemma mapi_map {A B C} (f : nat -> B -> C) (g : A -> B) l :
  mapi f (map g l) = mapi (fun i a => f i (g a)) l.
Proof.
  unfold mapi; generalize 0; induction l as [|a l IH]; intros i; simpl; auto. rewrite IH; auto.
Qed.
Lemma mapi_const {A B} (g : A -> B) l : mapi (fun _ a => g a) l = map g l.
Proof.
  unfold mapi; generalize 0; induction l as [|a l IH]; intros i; simpl; auto. rewrite IH; auto.
Qed.

Lemma Forall2_length {A B} {R : A -> B -> Prop} {l l'} : Forall2 R l l' -> length l = length l'.
Proof. induction 1; simpl; congruence. Qed.
