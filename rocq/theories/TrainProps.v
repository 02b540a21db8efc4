(** C57: the batches of a training epoch. *)
From Coq Require Import String List Arith Lia ZArith QArith Bool Permutation.
From Verif Require Import Base ComplexModel BatchSpec BatchSpec2 BatchProofs BatchProofs2 DummyModel BatchProps InferModel InferProps
  MPSpec TrainModel TrainSpec.
Import ListNotations.
Open Scope nat_scope.

Lemma masked_paired {Y} (isnan : Y -> bool) qs ys : length qs = length ys ->
  forall r, masked isnan (combine qs ys) = r <-> paired isnan qs ys r.
Proof.
  revert ys. induction qs as [|q qs IH]; intros [|y ys] H; try discriminate; cbn [combine masked filter]; intros r.
  - split; [intros <-; constructor|inversion 1; auto].
  - cbn [snd]. destruct (isnan y) eqn:E; cbn [negb].
    + fold (masked isnan (combine qs ys)). rewrite IH by (cbn in H; lia).
      split; [intros; constructor; auto|]. intros X; inversion X; subst; auto; congruence.
    + fold (masked isnan (combine qs ys)). split.
      * intros <-. apply Pd_keep; auto. apply IH; auto.
      * intros X; inversion X; subst; [congruence|]. f_equal. apply IH; auto.
Qed.
Lemma paired_length {Y} (isnan : Y -> bool) qs ys r : paired isnan qs ys r -> length qs = length ys.
Proof. induction 1; cbn; auto. Qed.

Section Loop.
Context {P Bt Y : Type}.
Variable samples : Bt -> result nat.
Variable labels : Bt -> option (list Y).
Variable isnan : Y -> bool.
Variable fwd : P -> Bt -> result (list (list Q) * P).
Variable learn : loss_kind -> P -> list (list Q * Y) -> option Q * P.

Definition used (b : Bt) : Prop := exists n, samples b = Ok n /\ 2 <= n.
Definition opt_step (lk : loss_kind) (p : P) (b : Bt) (l : option Q) (p' : P) : Prop :=
  exists pred p1 y ts, fwd p b = Ok (pred, p1) /\ labels b = Some y /\ paired isnan (entries lk pred) y ts /\ learn lk p1 ts = (l, p').

Lemma targets_ok lk pred y ts : targets_of isnan lk pred y = Ok ts <->
  exists y', y = Some y' /\ paired isnan (entries lk pred) y' ts.
Proof.
  unfold targets_of. destruct y as [y|]; cbn [of_option bind]; [|split; [discriminate|intros (y' & H & _); discriminate]].
  assert (G : forall e qs, (if length qs =? length y then Ok (masked isnan (combine qs y)) else Err e) = Ok ts <-> paired isnan qs y ts).
  { intros e qs. destruct (Nat.eqb_spec (length qs) (length y)) as [H|H].
    - rewrite <- masked_paired by auto. split; congruence.
    - split; [discriminate|]. intros X. apply paired_length in X. congruence. }
  destruct lk; cbn [entries]; rewrite G; split; eauto; intros (y' & E & X); congruence.
Qed.

(** The loop makes exactly one step per used batch, in order. *)
Lemma train_loop_iff lk bl : (forall b, In b bl -> exists n, samples b = Ok n) -> forall c0 p c p',
  train_loop samples labels isnan fwd learn lk (c0, p) bl = Ok (c, p') <->
  exists c1, c = c0 ++ c1 /\ epoch used (opt_step lk) p bl c1 p'.
Proof.
  induction bl as [|b bl IH]; intros HS c0 p c p'; cbn [train_loop].
  - split.
    + intros H; inversion H; subst. exists []. rewrite app_nil_r. split; auto. constructor.
    + intros (c1 & -> & H). inversion H; subst. rewrite app_nil_r. auto.
  - assert (HS' : forall b, In b bl -> exists n, samples b = Ok n) by (intros; apply HS; right; auto).
    destruct (HS b) as (n & Hn); [left; auto|]. unfold train_batch. rewrite Hn. cbn [bind].
    destruct (Nat.leb_spec n 1) as [Hle|Hle].
    + cbn [bind]. rewrite IH by auto. assert (NU : ~ used b) by (intros (m & Hm & H2); rewrite Hn in Hm; inversion Hm; lia).
      split; intros (c1 & -> & H); exists c1; split; auto; [constructor; auto|]. inversion H; subst; auto; contradiction.
    + assert (U : used b) by (exists n; split; auto; lia). split.
      * intros H. apply bind_ok in H as (acc & H & HR). apply bind_ok in H as ((pred & p1) & Hf & H).
        apply bind_ok in H as (ts & Ht & H). destruct (learn lk p1 ts) as [l p2] eqn:El. inversion H; subst acc.
        apply IH in HR as (c1 & -> & HE); auto. exists (l :: c1). rewrite <- app_assoc. split; auto.
        eapply E_step; eauto. apply targets_ok in Ht as (y & Hy & Hp). exists pred, p1, y, ts. auto.
      * intros (c1 & -> & H). inversion H; subst; [contradiction|].
        match goal with H : opt_step _ _ _ _ _ |- _ => destruct H as (pred & q1 & y & ts & Hf & Hy & Hp & Hl) end.
        rewrite Hf. cbn [bind]. rewrite (proj2 (targets_ok lk pred (labels b) ts)) by eauto. cbn [bind]. rewrite Hl. cbn [bind].
        apply IH; auto. eexists. rewrite <- app_assoc. split; [reflexivity|auto].
Qed.

(** ** Facts about epochs *)
Lemma epoch_skip_iff (ok : Bt -> Prop) step b bl : ~ ok b -> forall pre (p : P) c p',
  epoch ok step p (pre ++ b :: bl) c p' <-> epoch ok step p (pre ++ bl) c p'.
Proof.
  intros Hb. induction pre as [|a pre IH]; intros p c p'; cbn [app].
  - split; [intros H; inversion H; subst; auto; contradiction|constructor; auto].
  - split; intros H; inversion H; subst; try (constructor; auto; apply IH; auto); econstructor; eauto; apply IH; auto.
Qed.
End Loop.

(** ** Which batches are used *)
Section Counts.
Context {V : Type}.

Lemma fold_min_ok (f : nat -> result nat) (g : nat -> nat) l : (forall d, In d l -> f d = Ok (g d)) -> forall n,
  fold_left (fun acc d => let* n := acc in let* m := f d in Ok (Nat.min n m)) l (Ok n) = Ok (fold_left Nat.min (map g l) n).
Proof.
  induction l as [|d l IH]; intros H n; cbn [fold_left map]; auto. rewrite (H d) by (left; auto). cbn [bind]. apply IH. intros; apply H; right; auto.
Qed.
Lemma fold_min_le l : forall n m, m <= fold_left Nat.min l n <-> m <= n /\ Forall (fun x => m <= x) l.
Proof.
  induction l as [|x l IH]; intros n m; cbn [fold_left]; [split; [auto|tauto]|].
  rewrite IH. split.
  - intros [H F]. split; [lia|]. constructor; auto. lia.
  - intros [H F]. inversion F; subst. split; auto. lia.
Qed.
Lemma fold_left_ext_in {A B} (f g : A -> B -> A) l : (forall a b, In b l -> f a b = g a b) -> forall a, fold_left f l a = fold_left g l a.
Proof. induction l as [|b l IH]; intros H a; cbn [fold_left]; auto. rewrite H by (left; auto). apply IH. intros; apply H; right; auto. Qed.

(** A batch is used exactly if every dimension up to its own holds at least two cells. *)
Theorem C57_used (ks : list (complex V)) szs max_dim :
  ks <> [] -> Forall2 wf_complex ks szs -> uniform_x ks (dims ks max_dim) ->
  (forall k, In k ks -> attr c_x 0 k <> None) ->
  exists b n, from_complex_list ks max_dim = Ok b /\ num_samples b = Ok n /\
    (2 <= n <-> enough szs (dims ks max_dim)).
Proof.
  intros Hne HW HU HX. destruct (C01_batch_assigns_cells ks szs max_dim Hne HW HU) as (b & Hb & _ & HD & HC).
  pose proof (batch_parts ks szs max_dim b 0 Hne HW HU Hb (Nat.le_0_l _)) as (C & EC & UC & NC & _).
  assert (Hx : exists xs, c_x C = Some xs /\ length xs = total szs 0).
  { unfold num_cells in NC. rewrite (un_n _ _ _ _ _ UC) in NC. destruct (c_x C) as [xs|] eqn:Ex.
    - exists xs. split; auto. congruence.
    - exfalso. rewrite (un_x _ _ _ _ _ UC) in Ex. destruct ks as [|k ks]; [congruence|]. specialize (HX k (or_introl eq_refl)).
      unfold joined in Ex. cbn [map existsb] in Ex. destruct (attr c_x 0 k); [discriminate|congruence]. }
  destruct Hx as (xs & Ex & Lx).
  exists b. eexists. split; auto. split.
  - unfold num_samples, get. rewrite EC. cbn [of_option bind]. rewrite Ex. cbn [of_option bind].
    rewrite HD. erewrite fold_left_ext_in; [apply (fold_min_ok (fun d => let* c := of_option IndexError (nth_error (k_cochains (kb_complex b)) d) in
      let* m := num_cells c in of_option TypeError m) (total szs))|].
    + intros d Hd. apply in_seq in Hd. destruct (HC d) as (Cd & bt & pt & E1 & E2 & _); [lia|]. rewrite E1. cbn [of_option bind]. rewrite E2. reflexivity.
    + intros a d _. destruct a as [n|]; auto. cbn [bind]. destruct (of_option IndexError (nth_error (k_cochains (kb_complex b)) d)) as [c|]; auto. cbn [bind].
      destruct (num_cells c); auto.
  - rewrite fold_min_le, Lx. unfold enough. split.
    + intros [H0 HF] d Hd. destruct d as [|d]; [exact H0|]. rewrite Forall_forall in HF. apply (HF (total szs (S d))), in_map, in_seq. lia.
    + intros H. split; [apply (H 0); lia|]. apply Forall_forall. intros x Hx. apply in_map_iff in Hx as (d & <- & Hd). apply in_seq in Hd. apply (H d). lia.
Qed.
End Counts.

(** ** Theorems *)
Section Main.
Context {P V : Type} (isnan : Z -> bool) (fwd : P -> kbatch V -> result (list (list Q) * P))
  (learn : loss_kind -> P -> list (list Q * Z) -> option Q * P) (max_dim : nat).

(** What a chunk of complexes contributes: the batch of its members. *)
Definition chunk_step (lk : loss_kind) (p : P) (c : list (complex V)) (l : option Q) (p' : P) : Prop :=
  exists b pred p1 y ts, from_complex_list c max_dim = Ok b /\ fwd p b = Ok (pred, p1) /\ k_y (kb_complex b) = Some y /\
    paired isnan (entries lk pred) y ts /\ learn lk p1 ts = (l, p').
Definition chunk_used (sizes : complex V -> nat -> nat) (c : list (complex V)) : Prop :=
  enough (map sizes c) (dims c max_dim).

Variable sizes : complex V -> nat -> nat.
Definition good (ks : list (complex V)) : Prop :=
  forall k, In k ks -> wf_complex k (sizes k) /\ has_features max_dim k.

Lemma good_batch c : c <> [] -> good c -> exists b n, from_complex_list c max_dim = Ok b /\ num_samples b = Ok n /\
  (2 <= n <-> chunk_used sizes c).
Proof.
  intros Hne HG. unfold chunk_used. apply C57_used; auto.
  - clear Hne. induction c as [|k c IH]; cbn [map]; constructor; [apply HG; left; auto|]. apply IH. intros k' Hk. apply HG. right; auto.
  - intros d Hd. left. intros k x Hk Hx. apply (proj2 (HG k Hk) d x); auto. unfold dims in Hd. lia.
  - intros k Hk. destruct (HG k Hk) as [W HF]. unfold attr. destruct (nth_error (k_cochains k) 0) as [x|] eqn:E.
    + apply (HF 0 x); auto. lia.
    + apply nth_error_None in E. rewrite (wfk_len _ _ W) in E. lia.
Qed.

Lemma epoch_chunks task lk bs p ks curve p' : loss_of_task task = Ok lk -> 1 <= bs -> good ks ->
  (train_complexes isnan fwd learn max_dim task bs p ks = Ok (curve, p') <->
   epoch (chunk_used sizes) (chunk_step lk) p (chunks (length ks) bs ks) curve p').
Proof.
  intros Ht Hbs HG. unfold train_complexes, loader. replace (bs =? 0) with false by (symmetry; apply Nat.eqb_neq; lia). cbn [bind].
  assert (Hne : forall c, In c (chunks (length ks) bs ks) -> c <> []) by (intros c; apply chunks_nonempty; auto).
  assert (HGc : forall c, In c (chunks (length ks) bs ks) -> good c).
  { intros c Hc k Hk. apply HG. rewrite <- (chunks_concat bs ks Hbs (length ks) (le_n _)). apply in_concat. eauto. }
  revert Hne HGc. generalize (chunks (length ks) bs ks). intros bl Hne HGc.
  assert (HB : exists kb, mapM (fun c => from_complex_list c max_dim) bl = Ok kb /\
    Forall2 (fun c b => from_complex_list c max_dim = Ok b /\ exists n, num_samples b = Ok n /\ (2 <= n <-> chunk_used sizes c)) bl kb).
  { clear Ht HG Hbs. induction bl as [|c bl IH]; [exists []; split; auto|].
    destruct IH as (kb & E & F); [intros; apply Hne; right; auto|intros; apply HGc; right; auto|].
    destruct (good_batch c) as (b & n & Eb & En & Hn); [apply Hne; left; auto|apply HGc; left; auto|].
    exists (b :: kb). cbn [mapM]. rewrite Eb, E. cbn [bind]. split; auto. constructor; eauto. }
  destruct HB as (kb & EK & F). rewrite EK. cbn [bind]. unfold train. rewrite Ht. cbn [bind].
  rewrite train_loop_iff.
  2:{ intros b Hb. clear -F Hb. induction F as [|c b0 bl kb (_ & n & Hn & _) F IH]; [destruct Hb|]. destruct Hb as [<-|Hb]; eauto. }
  assert (G : forall c : unit, (exists c1, curve = [] ++ c1 /\ epoch (used num_samples) (opt_step (fun b => k_y (kb_complex b)) isnan fwd learn lk) p kb c1 p') <->
    epoch (used num_samples) (opt_step (fun b => k_y (kb_complex b)) isnan fwd learn lk) p kb curve p').
  { intros _. split; [intros (c1 & -> & H); auto|intros H; exists curve; auto]. }
  rewrite (G tt). clear G EK Hne HGc.
  revert p curve. induction F as [|c b bl kb (Eb & n & En & Hn) F IH]; intros p curve.
  - split; intros H; inversion H; constructor.
  - assert (U : used num_samples b <-> chunk_used sizes c).
    { rewrite <- Hn. unfold used. rewrite En. split; [intros (m & E & H); inversion E; subst; auto|eauto]. }
    split; intros H; inversion H; subst.
    + apply E_skip; [rewrite <- U; auto|]. apply IH; auto.
    + match goal with H : opt_step _ _ _ _ _ _ _ _ _ |- _ => destruct H as (pred & q1 & y & ts & Hf & Hy & Hp & Hl) end.
      eapply E_step; [apply U; auto| |apply IH; eauto]. exists b, pred, q1, y, ts. auto.
    + apply E_skip; [rewrite U; auto|]. apply IH; auto.
    + match goal with H : chunk_step _ _ _ _ _ |- _ => destruct H as (b' & pred & q1 & y & ts & Eb' & Hf & Hy & Hp & Hl) end.
      rewrite Eb in Eb'. inversion Eb'; subst b'.
      eapply E_step; [apply U; auto| |apply IH; eauto]. exists pred, q1, y, ts. auto.
Qed.

Lemma chunks_dealt {A} bs : 1 <= bs -> forall fuel (l : list A), length l <= fuel -> dealt bs l (chunks fuel bs l).
Proof.
  intros Hb. induction fuel as [|f IH]; intros [|x l] Hl; cbn [length] in Hl; [constructor|lia|constructor|].
  cbn [chunks]. destruct (le_lt_dec (length (x :: l)) bs) as [H|H].
  - rewrite (firstn_all2 (x :: l) H), (skipn_all2 (x :: l) H). replace (chunks f bs []) with (@nil (list A)) by (destruct f; reflexivity).
    apply Dl_last. cbn [length] in *. lia.
  - rewrite <- (firstn_skipn bs (x :: l)) at 1. apply Dl_full.
    + rewrite firstn_length. lia.
    + intros E. apply (f_equal (@length A)) in E. rewrite skipn_length in E. cbn [length] in E, H. lia.
    + apply IH. rewrite skipn_length. cbn [length] in *. lia.
Qed.
Lemma dealt_fun {A} bs : 1 <= bs -> forall (l : list A) c1, dealt bs l c1 -> forall c2, dealt bs l c2 -> c1 = c2.
Proof.
  intros Hb l c1 H. induction H as [|l Hl|h t r Hh Ht H IH]; intros c2 H2.
  - inversion H2 as [|? Hx|h' t' r' Hh' Ht' H' E]; subst; [reflexivity|cbn in Hx; lia|].
    destruct h'; [cbn in Hb; lia|discriminate].
  - inversion H2 as [E|? Hx|h' t' r' Hh' Ht' H' E]; subst; [cbn in Hl; lia|reflexivity|].
    rewrite app_length in Hl. destruct t'; [congruence|cbn in Hl; lia].
  - inversion H2 as [E|? Hx|h' t' r' Hh' Ht' H' E]; subst.
    + destruct h; [cbn in Hb; lia|discriminate].
    + rewrite app_length in Hx. destruct t; [congruence|cbn in Hx; lia].
    + assert (E1 : h' = h /\ t' = t).
      { clear -Hh' E. revert h' Hh' E. induction h as [|x h IH]; intros [|y h'] HL E; try discriminate; cbn in *; auto.
        injection E as -> E. destruct (IH h') as [-> ->]; auto. }
      destruct E1 as [-> ->]. f_equal. apply IH. exact H'.
Qed.
Lemma task_loss_ok task lk : In (task, lk) task_losses <-> loss_of_task task = Ok lk.
Proof.
  unfold loss_of_task, task_losses. split.
  - cbn [In]. intros [H|[H|[H|[H|[]]]]]; injection H as <- <-; reflexivity.
  - repeat match goal with |- context[string_dec ?a ?b] => destruct (string_dec a b) as [->|_]; [intros H; injection H as <-; cbn; auto 6|] end.
    discriminate.
Qed.

(** An epoch is exactly one step for every chunk with at least two cells in every dimension of its batch,
    in the order of the loader and with the loss of the task; nothing else changes the state. *)
Theorem C57_epoch task lk bs p ks cs curve p' : In (task, lk) task_losses -> 1 <= bs -> good ks -> dealt bs ks cs ->
  (train_complexes isnan fwd learn max_dim task bs p ks = Ok (curve, p') <->
   epoch (chunk_used sizes) (chunk_step lk) p cs curve p').
Proof.
  intros Ht Hbs HG Hd. rewrite (dealt_fun bs Hbs _ _ Hd _ (chunks_dealt bs Hbs _ ks (le_n _))).
  apply epoch_chunks; auto. now apply task_loss_ok.
Qed.

(** The curve has one entry per used chunk. *)
Theorem C57_curve task bs p ks cs curve p' okb : 1 <= bs -> good ks -> dealt bs ks cs ->
  (forall c, okb c = true <-> chunk_used sizes c) ->
  train_complexes isnan fwd learn max_dim task bs p ks = Ok (curve, p') ->
  length curve = length (filter okb cs).
Proof.
  intros Hbs HG Hd Hok H. destruct (loss_of_task task) as [lk|e] eqn:E.
  - apply (C57_epoch task lk bs p ks cs) in H; [|now apply task_loss_ok|auto..].
    clear Hd. induction H as [p|p b r c p' Hb H IH|p b r l p1 c p' Hb Hs H IH]; auto; cbn [filter length].
    + destruct (okb b) eqn:Eb; auto. apply Hok in Eb. contradiction.
    + rewrite (proj2 (Hok b) Hb). cbn [length]. lia.
  - unfold train_complexes, train in H. rewrite E in H. apply bind_ok in H as (bl & _ & H). apply bind_ok in H as (kb & _ & H). discriminate.
Qed.

(** If no chunk is used, an epoch changes nothing and the curve is empty. *)
Theorem C57_no_step task lk bs p ks cs : In (task, lk) task_losses -> 1 <= bs -> good ks -> dealt bs ks cs ->
  (forall c, In c cs -> ~ chunk_used sizes c) ->
  train_complexes isnan fwd learn max_dim task bs p ks = Ok ([], p).
Proof.
  intros Ht Hbs HG Hd HN. apply (C57_epoch task lk bs p ks cs); auto. clear Hd.
  induction cs as [|c bl IH]; [constructor|]. apply E_skip; [apply HN; left; auto|]. apply IH. intros c' Hc. apply HN. right. auto.
Qed.
End Main.

(** Unknown task types raise before anything is done (also isomorphism, which can only be evaluated). *)
Theorem C57_unknown_task {P Bt Y} samples labels isnan fwd learn task (p : P) (bl : list Bt) :
  ~ In task ["classification"; "bin_classification"; "regression"; "mse_regression"]%string ->
  @train P Bt Y samples labels isnan fwd learn task p bl = Err NotImplementedError.
Proof.
  intros H. unfold train, loss_of_task. cbn [In] in H.
  repeat (match goal with |- context[string_dec ?a ?b] => destruct (string_dec a b) as [E|_]; [exfalso; apply H; rewrite E; intuition|] end).
  reflexivity.
Qed.

(** Batches that are not used can be taken out of the loader (whatever batches are). *)
Theorem C57_unused_irrelevant {P Bt Y} samples labels isnan fwd learn task (p : P) (pre post : list Bt) b n :
  samples b = Ok n -> n <= 1 ->
  @train P Bt Y samples labels isnan fwd learn task p (pre ++ b :: post) = train samples labels isnan fwd learn task p (pre ++ post).
Proof.
  intros Hn Hle. unfold train. destruct (loss_of_task task) as [lk|]; auto. cbn [bind]. generalize (@nil (option Q), p).
  induction pre as [|a pre IH]; intros acc; cbn [app train_loop].
  - unfold train_batch at 1. destruct acc as [c q]. rewrite Hn. cbn [bind]. rewrite (proj2 (Nat.leb_le n 1) Hle). reflexivity.
  - destruct (train_batch samples labels isnan fwd learn lk acc a); auto. cbn [bind]. apply IH.
Qed.

(** ** Examples *)
Definition ex_sizes (k : complex Z) (d : nat) : nat :=
  nth d (map (fun c => match c_x c with Some x => length x | None => 0 end) (k_cochains k)) 0.
(** A model whose state counts steps, predicting one row per complex. *)
Definition ex_fwd (p : nat) (b : kbatch Z) : result (list (list Q) * nat) :=
  Ok (repeat [inject_Z (Z.of_nat p)] (kb_num b), p).
Definition ex_learn (lk : loss_kind) (p : nat) (ts : list (list Q * Z)) : option Q * nat := (Some (inject_Z (Z.of_nat (length ts))), S p).
Definition ex_nan (y : Z) : bool := (y =? -1)%Z.
Definition ex_train := train_complexes ex_nan ex_fwd ex_learn 2 "regression" 2 0.
Definition house_y := with_y house 1. Definition path_y := with_y path3 2. Definition unlabelled := with_y path3 (-1).

Lemma ex_good : good 2 ex_sizes [house_y; house_y; house_y; path_y; path_y; unlabelled].
Proof.
  intros k Hk. assert (E : k = house_y \/ k = path_y \/ k = unlabelled) by (cbn [In] in Hk; intuition auto). clear Hk.
  destruct E as [->|[->| ->]]; split; try (intros d c _; destruct d as [|[|[|d]]]; cbn; intros H; inversion H; subst; try discriminate; destruct d; discriminate).
  - apply (wf_complexb_ok house_y [5; 6; 1]). reflexivity.
  - apply (wf_complexb_ok path_y [3; 2]). reflexivity.
  - apply (wf_complexb_ok unlabelled [3; 2]). reflexivity.
Qed.
(** Two houses: a step on two labels.  House and path: one ring, skipped.  Two paths: a step on one label. *)
Example ex_epoch : ex_train [house_y; house_y; house_y; path_y; path_y; unlabelled] = Ok ([Some 2%Q; Some 1%Q], 2).
Proof. vm_compute. reflexivity. Qed.

Example ex_dealt : dealt 2 [house_y; house_y; house_y; path_y; path_y] [[house_y; house_y]; [house_y; path_y]; [path_y]].
Proof.
  apply (Dl_full 2 [house_y; house_y] [house_y; path_y; path_y]); [reflexivity|discriminate|].
  apply (Dl_full 2 [house_y; path_y] [path_y]); [reflexivity|discriminate|]. apply Dl_last. cbn. lia.
Qed.

(** A batch of several complexes need not be used: one in which all members together have exactly one
    ring is skipped, although it is used without the member with the ring. *)
Theorem C57_one_ring_refuted :
  ~ (forall (ks : list (complex Z)) szs b n, 2 <= length ks -> Forall2 wf_complex ks szs -> Forall (has_features 2) ks ->
       from_complex_list ks 2 = Ok b -> num_samples b = Ok n -> 2 <= n) /\
  (exists b, from_complex_list [path_y; path_y] 2 = Ok b /\ num_samples b = Ok 4) /\
  (exists b, from_complex_list [path_y; path_y; house_y] 2 = Ok b /\ num_samples b = Ok 1).
Proof.
  split; [|split; eexists; split; vm_compute; reflexivity].
  intros H. assert (E : exists b, from_complex_list [house_y; path_y] 2 = Ok b /\ num_samples b = Ok 1).
  { eexists; split; vm_compute; reflexivity. }
  destruct E as (b & E1 & E2). specialize (H [house_y; path_y] [ex_sizes house_y; ex_sizes path_y] b 1).
  assert (2 <= 1); [|lia]. apply H; auto.
  - constructor; [apply ex_good; cbn; auto|]. constructor; [apply ex_good; cbn; auto 6|constructor].
  - constructor; [apply ex_good; cbn; auto|]. constructor; [apply ex_good; cbn; auto 6|constructor].
Qed.

Print Assumptions C57_used.
Print Assumptions C57_epoch.
Print Assumptions C57_curve.
Print Assumptions C57_no_step.
Print Assumptions C57_unknown_task.
Print Assumptions C57_unused_irrelevant.
Print Assumptions C57_one_ring_refuted.
