(** Proofs about the k-dimensional Weisfeiler-Lehman test, for C79. *)
From Coq Require Import List Arith Lia Bool Permutation.
From Verif Require Import Base LiftSpec HierSpec HierProofs.
From Verif Require Import KwlSpec.
Import ListNotations.

(** ** Tuples *)
Lemma replace_len {N} (a : list N) j w : j < length a -> length (replace a j w) = length a.
Proof. intros H. unfold replace. rewrite app_length. cbn [length]. rewrite firstn_length, skipn_length. lia. Qed.
Lemma replace_map {N M} (f : N -> M) a j w : map f (replace a j w) = replace (map f a) j (f w).
Proof. unfold replace. rewrite map_app, firstn_map. cbn [map]. rewrite skipn_map. reflexivity. Qed.
Lemma firstn_in {A} n (l : list A) x : In x (firstn n l) -> In x l.
Proof. revert l. induction n as [|n IH]; intros [|y l] H; cbn in *; try tauto. destruct H; auto. Qed.
Lemma skipn_in {A} n (l : list A) x : In x (skipn n l) -> In x l.
Proof. revert l. induction n as [|n IH]; intros [|y l] H; cbn in *; try tauto. right. auto. Qed.
Lemma replace_in {N} (a : list N) j w v : In v (replace a j w) -> v = w \/ In v a.
Proof.
  unfold replace. intros H. apply in_app_or in H as [H|[H|H]]; [right|left|right]; auto.
  - eapply firstn_in; eauto.
  - eapply (skipn_in (S j)); eauto.
Qed.
Lemma replace_forall {N} (P : N -> Prop) a j w : Forall P a -> P w -> Forall P (replace a j w).
Proof. intros H Hw. apply Forall_forall. intros v Hv. apply replace_in in Hv as [-> |Hv]; auto. rewrite Forall_forall in H. auto. Qed.

Lemma tuples_in {N} (nodes : list N) k a : In a (tuples nodes k) <-> length a = k /\ Forall (fun v => In v nodes) a.
Proof.
  revert a. induction k as [|k IH]; intros a; cbn [tuples].
  - split; [intros [<-|[]]; auto|]. intros [H _]. destruct a; [left; auto|discriminate].
  - rewrite in_map_iff. split.
    + intros ([v b] & <- & H). apply in_prod_iff in H as [H1 H2]. apply IH in H2 as [H2 H3]. cbn. split; [lia|constructor; auto].
    + intros [H1 H2]. destruct a as [|v b]; [discriminate|]. inversion H2; subst. exists (v, b). split; auto. apply in_prod_iff. split; auto. apply IH. split; auto.
Qed.
Lemma prod_nodup {A B} (l : list A) (l' : list B) : NoDup l -> NoDup l' -> NoDup (list_prod l l').
Proof.
  intros H H'. induction H as [|a l Ha H IH]; cbn; [constructor|].
  assert (HA : forall l l' : list (A * B), NoDup l -> NoDup l' -> (forall x, In x l -> ~ In x l') -> NoDup (l ++ l')).
  { clear. induction l as [|a l IH]; intros l' H H' HD; cbn; auto. inversion H; subst. constructor.
    - intros X. apply in_app_or in X as [X|X]; [auto|]. apply (HD a); cbn; auto.
    - apply IH; auto. intros x Hx. apply HD. right; auto. }
  apply HA; auto.
  - apply FinFun.Injective_map_NoDup; [intros x y E; injection E; auto|auto].
  - intros [x y] X Y. apply in_map_iff in X as (b & E & _). injection E as <- <-. apply in_prod_iff in Y. tauto.
Qed.
Lemma tuples_nodup {N} (nodes : list N) k : NoDup nodes -> NoDup (tuples nodes k).
Proof.
  intros H. induction k as [|k IH]; cbn; [constructor; [intros []|constructor]|].
  apply FinFun.Injective_map_NoDup; [intros [x y] [x' y'] E; cbn in E; congruence|]. apply prod_nodup; auto.
Qed.
Lemma tuples_map {N M} (f : N -> M) nodes k : tuples (map f nodes) k = map (map f) (tuples nodes k).
Proof.
  induction k as [|k IH]; cbn; auto. rewrite IH. clear IH. generalize (tuples nodes k). intros t. rewrite !map_map. cbn [fst snd].
  induction nodes as [|v nodes IHn]; cbn; auto. rewrite !map_app, !map_map, IHn. cbn. reflexivity.
Qed.
Lemma perm_map_nodup {A B} (g : A -> B) l l' : NoDup l -> NoDup l' -> (forall x y, In x l -> In y l -> g x = g y -> x = y) ->
  (forall y, In y l' <-> exists x, In x l /\ g x = y) -> Permutation (map g l) l'.
Proof.
  intros N N' HI HS. apply NoDup_Permutation; auto.
  - clear HS N'. induction N as [|a l Ha N IH]; cbn; constructor.
    + intros X. apply in_map_iff in X as (b & E & Hb). assert (a = b) by (apply HI; cbn; auto). congruence.
    + apply IH. intros x y Hx Hy. apply HI; cbn; auto.
  - intros y. rewrite HS, in_map_iff. split; intros (x & H1 & H2); exists x; auto.
Qed.

(** ** Isomorphic structures *)
Section Iso.
Context {N M A C : Type} (init : A -> C) (hash : C -> list (list C) -> C) (HS : kwl_symmetric hash).
Variables (f : N -> M) (nodes : list N) (nodes' : list M) (atom : list N -> A) (atom' : list M -> A).
Hypothesis HP : Permutation (map f nodes) nodes'.
Hypothesis HA : forall a, Forall (fun v => In v nodes) a -> atom' (map f a) = atom a.
Lemma kwl_iso l : forall a, Forall (fun v => In v nodes) a -> kwl init hash nodes' atom' l (map f a) = kwl init hash nodes atom l a.
Proof.
  induction l as [|l IH]; intros a H; cbn [kwl]; [rewrite HA; auto|]. rewrite IH by auto. apply HS.
  rewrite <- (Permutation_map (fun w => map (fun j => kwl init hash nodes' atom' l (replace (map f a) j w)) (seq 0 (length (map f a)))) HP).
  rewrite map_map, map_length.
  replace (map _ nodes) with (map (fun w => map (fun j => kwl init hash nodes atom l (replace a j w)) (seq 0 (length a))) nodes); [reflexivity|].
  apply map_ext_in. intros w Hw. apply map_ext. intros j. rewrite <- replace_map. symmetry. apply IH. apply replace_forall; auto.
Qed.
End Iso.

(** ** Moving the twist *)
Definition odd_at (q : option nat) (i : nat) : bool := match q with Some t => i =? t | None => false end.
Definition spots_at (r : nat) (q : option nat) : list (nat * list bool) := flat_map (fun i => map (pair i) (choices r i (odd_at q i))) (seq 0 r).
Lemma spots_at_in r q i f : In (i, f) (spots_at r q) <-> i < r /\ length f = r /\ nth i f false = false /\ parity f = odd_at q i.
Proof.
  unfold spots_at. rewrite in_flat_map. split.
  - intros (j & Hj & H). apply in_seq in Hj. apply in_map_iff in H as (g & E & H). injection E as -> ->. unfold choices in H. apply filter_In in H as [H1 H2].
    apply andb_true_iff in H2 as [H2 H3]. apply negb_true_iff in H2. apply eqb_prop in H3. apply vectors_len in H1. repeat split; auto. lia.
  - intros (H1 & H2 & H3 & H4). exists i. split; [apply in_seq; lia|]. apply in_map. unfold choices. apply filter_In. split; [apply vectors_all; auto|].
    rewrite H3, H4. cbn. apply eqb_reflx.
Qed.
Lemma spots_at_nodup r q : NoDup (spots_at r q).
Proof.
  unfold spots_at. assert (N : NoDup (seq 0 r)) by apply seq_NoDup. induction N as [|i l Hi N IH]; cbn; [constructor|].
  assert (HA : forall l l' : list (nat * list bool), NoDup l -> NoDup l' -> (forall x, In x l -> ~ In x l') -> NoDup (l ++ l')).
  { clear. induction l as [|a l IH]; intros l' H H' HD; cbn; auto. inversion H; subst. constructor.
    - intros X. apply in_app_or in X as [X|X]; [auto|]. apply (HD a); cbn; auto.
    - apply IH; auto. intros x Hx. apply HD. right; auto. }
  apply HA; auto.
  - apply FinFun.Injective_map_NoDup; [intros x y E; injection E; auto|]. apply NoDup_filter, vectors_nodup.
  - intros x H H'. apply in_map_iff in H as (f & <- & _). apply in_flat_map in H' as (j & Hj & H'). apply in_map_iff in H' as (g & E & _). injection E as -> _. auto.
Qed.
Lemma spots_twisted r tw : spots r tw = spots_at r (if tw then Some 0 else None).
Proof. destruct tw; reflexivity. Qed.

(** Flip the bit between the places [t] and [t']. *)
Fixpoint flip (j : nat) (f : list bool) : list bool :=
  match f, j with [], _ => [] | b :: f', 0 => negb b :: f' | b :: f', S j' => b :: flip j' f' end.
Lemma flip_len j f : length (flip j f) = length f.
Proof. revert j. induction f as [|b f IH]; intros [|j]; cbn; auto. Qed.
Lemma flip_nth j f i : nth i (flip j f) false = if (i =? j) && (j <? length f) then negb (nth i f false) else nth i f false.
Proof.
  revert i j. induction f as [|b f IH]; intros [|i] [|j]; cbn; auto; try (rewrite andb_false_r; reflexivity).
  rewrite IH. reflexivity.
Qed.
Lemma flip_parity j f : j < length f -> parity (flip j f) = negb (parity f).
Proof.
  revert j. induction f as [|b f IH]; intros [|j] H; cbn in *; try lia.
  - unfold parity. destruct b, (fold_right xorb false f); reflexivity.
  - fold (parity (flip j f)) (parity f). rewrite IH by lia. destruct b, (parity f); reflexivity.
Qed.
Lemma flip_flip j f : flip j (flip j f) = f.
Proof. revert j. induction f as [|b f IH]; intros [|j]; cbn; auto; [rewrite negb_involutive|rewrite IH]; auto. Qed.
Definition switch (t t' : nat) (v : nat * list bool) : nat * list bool :=
  if t =? t' then v else (fst v, if fst v =? t then flip t' (snd v) else if fst v =? t' then flip t (snd v) else snd v).
Lemma switch_place t t' v : fst (switch t t' v) = fst v.
Proof. unfold switch. destruct (t =? t'); auto. Qed.
Lemma switch_twice t t' v : switch t t' (switch t t' v) = v.
Proof.
  unfold switch. destruct (t =? t') eqn:E; auto. destruct v as [i f]. cbn [fst snd].
  destruct (i =? t) eqn:E1; [rewrite flip_flip; auto|]. destruct (i =? t') eqn:E2; [rewrite flip_flip; auto|auto].
Qed.
Lemma switch_far t t' v : fst v <> t -> fst v <> t' -> switch t t' v = v.
Proof. intros H H'. unfold switch. destruct (t =? t'); auto. rewrite (proj2 (Nat.eqb_neq _ _) H), (proj2 (Nat.eqb_neq _ _) H'). destruct v; auto. Qed.
Lemma switch_in r t t' v : t < r -> t' < r -> In v (spots_at r (Some t')) -> In (switch t t' v) (spots_at r (Some t)).
Proof.
  intros Ht Ht' H. unfold switch. destruct (t =? t') eqn:E; [apply Nat.eqb_eq in E; subst; auto|]. apply Nat.eqb_neq in E. destruct v as [i f]. cbn [fst snd].
  apply spots_at_in in H as (H1 & H2 & H3 & H4). cbn [odd_at] in H4. apply spots_at_in. cbn [odd_at].
  destruct (Nat.eqb_spec i t) as [-> |E1].
  - rewrite (proj2 (Nat.eqb_neq _ _) E) in H4. rewrite flip_len, flip_nth, flip_parity, H4, (proj2 (Nat.eqb_neq _ _) E) by lia. auto.
  - destruct (Nat.eqb_spec i t') as [-> |E2].
    + rewrite flip_len, flip_nth, flip_parity, H4, (proj2 (Nat.eqb_neq _ _) E1) by lia. auto.
    + auto.
Qed.
Lemma switch_agree r t t' q u v : t < r -> t' < r -> In u (spots_at r q) -> In v (spots_at r q) -> agree (switch t t' u) (switch t t' v) = agree u v.
Proof.
  intros Ht Ht' Hu Hv. unfold switch. destruct (t =? t') eqn:E; auto. apply Nat.eqb_neq in E. destruct u as [i f], v as [j g].
  apply spots_at_in in Hu as (_ & Lf & _), Hv as (_ & Lg & _). unfold agree. cbn [fst snd]. f_equal.
  assert (X : t <? r = true) by (apply Nat.ltb_lt; auto). assert (X' : t' <? r = true) by (apply Nat.ltb_lt; auto).
  destruct (Nat.eqb_spec i t) as [-> |I1], (Nat.eqb_spec j t) as [-> |J1].
  - rewrite !flip_nth, (proj2 (Nat.eqb_neq _ _) E). cbn [andb]. auto.
  - destruct (Nat.eqb_spec j t') as [-> |J2].
    + rewrite !flip_nth, !Nat.eqb_refl, Lf, Lg, X, X'. cbn [andb]. destruct (nth t' f false), (nth t g false); reflexivity.
    + rewrite !flip_nth, (proj2 (Nat.eqb_neq _ _) J2). auto.
  - destruct (Nat.eqb_spec i t') as [-> |I2].
    + rewrite !flip_nth, !Nat.eqb_refl, Lf, Lg, X, X'. cbn [andb]. destruct (nth t f false), (nth t' g false); reflexivity.
    + rewrite !flip_nth, (proj2 (Nat.eqb_neq _ _) I2). auto.
  - destruct (Nat.eqb_spec i t') as [-> |I2], (Nat.eqb_spec j t') as [-> |J2]; rewrite ?flip_nth, ?(proj2 (Nat.eqb_neq _ _) I1), ?(proj2 (Nat.eqb_neq _ _) J1); auto.
Qed.
Lemma switch_perm r t t' : t < r -> t' < r -> Permutation (map (switch t t') (spots_at r (Some t'))) (spots_at r (Some t)).
Proof.
  intros Ht Ht'. apply perm_map_nodup; try apply spots_at_nodup.
  - intros x y _ _ E. rewrite <- (switch_twice t t' x), E. apply switch_twice.
  - intros y. split.
    + intros H. exists (switch t t' y). split; [|apply switch_twice].
      assert (X : switch t t' y = switch t' t y).
      { unfold switch. rewrite (Nat.eqb_sym t' t). destruct (t =? t') eqn:E; auto. apply Nat.eqb_neq in E.
        destruct (Nat.eqb_spec (fst y) t) as [E1|E1], (Nat.eqb_spec (fst y) t') as [E2|E2]; auto. congruence. }
      rewrite X. apply switch_in; auto.
    + intros (x & Hx & <-). apply switch_in; auto.
Qed.

(** ** Which places a tuple leaves out *)
Definition misses (a : list (nat * list bool)) (t : nat) : bool := negb (existsb (fun v => fst v =? t) a).
Lemma misses_iff a t : misses a t = true <-> forall v, In v a -> fst v <> t.
Proof.
  unfold misses. rewrite negb_true_iff, <- not_true_iff_false, existsb_exists. split.
  - intros H v Hv E. apply H. exists v. split; auto. apply Nat.eqb_eq. auto.
  - intros H (v & Hv & E). apply Nat.eqb_eq in E. exact (H v Hv E).
Qed.
Lemma some_missed a l : NoDup l -> length a < length l -> exists t, In t l /\ misses a t = true.
Proof.
  intros N H. destruct (find (misses a) l) as [t|] eqn:E; [apply List.find_some in E; eauto|]. exfalso.
  assert (X : incl l (map fst a)).
  { intros t Ht. pose proof (find_none _ _ E t Ht) as X. unfold misses in X. apply negb_false_iff in X. apply existsb_exists in X as (v & Hv & X).
    apply Nat.eqb_eq in X. subst. apply in_map. auto. }
  pose proof (NoDup_incl_length N X) as Y. rewrite map_length in Y. lia.
Qed.

Section Twist.
Context {A C : Type} (init : A -> C) (hash : C -> list (list C) -> C) (HS : kwl_symmetric hash) (r : nat).
Variable atom : list (nat * list bool) -> A.
Hypothesis HA : forall t t' a, t < r -> t' < r -> Forall (fun v => In v (spots_at r (Some t'))) a -> atom (map (switch t t') a) = atom a.
Notation colour q := (kwl init hash (spots_at r q) atom).
Lemma hidden l : forall t a, t < r -> S (length a) < r -> misses a t = true -> Forall (fun v => In v (spots_at r None)) a -> colour None l a = colour (Some t) l a.
Proof.
  induction l as [|l IH]; intros t a Ht Hk Hm Ha; [reflexivity|]. cbn [kwl]. rewrite <- (IH t a) by auto. apply HS.
  destruct (some_missed a (filter (fun i => negb (i =? t)) (seq 0 r))) as (t' & Ht' & Hm').
  { apply NoDup_filter, seq_NoDup. }
  { assert (X : length (seq 0 r) <= length (t :: filter (fun i => negb (i =? t)) (seq 0 r))).
    { apply NoDup_incl_length; [apply seq_NoDup|]. intros i Hi. destruct (Nat.eq_dec i t); [left; auto|right]. apply filter_In. split; auto.
      apply negb_true_iff, Nat.eqb_neq. auto. }
    rewrite seq_length in X. cbn [length] in X. lia. }
  apply filter_In in Ht' as [Ht' Et]. apply in_seq in Ht'. apply negb_true_iff, Nat.eqb_neq in Et. destruct Ht' as [_ Ht']. cbn in Ht'.
  set (g := fun w => if fst w =? t then switch t t' w else w : nat * list bool).
  assert (P : Permutation (map g (spots_at r None)) (spots_at r (Some t))).
  { apply perm_map_nodup; try apply spots_at_nodup.
    - intros x y _ _ E. assert (X : forall z, fst (g z) = fst z) by (intros z; unfold g; destruct (fst z =? t); auto; apply switch_place).
      assert (Y : fst x = fst y) by (rewrite <- (X x), E; auto). unfold g in E. rewrite Y in E. destruct (fst y =? t); auto.
      rewrite <- (switch_twice t t' x), E. apply switch_twice.
    - intros [i f]. split.
      + intros H. exists (g (i, f)). apply spots_at_in in H as (H1 & H2 & H3 & H4). cbn [odd_at] in H4. unfold g, switch. cbn [fst snd].
        destruct (Nat.eqb_spec i t) as [-> |E].
        * rewrite (proj2 (Nat.eqb_neq t t')) by auto. cbn [fst snd]. rewrite Nat.eqb_refl. cbn [fst snd]. rewrite flip_flip. split; auto.
          apply spots_at_in. cbn [odd_at]. rewrite flip_len, flip_nth, flip_parity, H4, (proj2 (Nat.eqb_neq t t')) by (auto; lia). auto.
        * cbn [fst snd]. rewrite (proj2 (Nat.eqb_neq i t) E). split; auto. apply spots_at_in. auto.
      + intros ([j h] & H & E). apply spots_at_in in H as (H1 & H2 & H3 & H4). cbn [odd_at] in H4. unfold g, switch in E. cbn [fst snd] in E.
        destruct (Nat.eqb_spec j t) as [-> |Ej].
        * rewrite (proj2 (Nat.eqb_neq t t')) in E by auto. injection E as <- <-. apply spots_at_in. cbn [odd_at].
          rewrite flip_len, flip_nth, flip_parity, H4, (proj2 (Nat.eqb_neq t t')), Nat.eqb_refl by (auto; lia). auto.
        * injection E as <- <-. apply spots_at_in. cbn [odd_at]. rewrite (proj2 (Nat.eqb_neq j t) Ej). auto. }
  rewrite <- (Permutation_map (fun w => map (fun j => colour (Some t) l (replace a j w)) (seq 0 (length a))) P), map_map.
  match goal with |- Permutation ?x ?y => replace y with x; [reflexivity|] end.
  apply map_ext_in. intros w Hw. apply map_ext_in. intros j Hj. apply in_seq in Hj. unfold g. destruct (Nat.eqb_spec (fst w) t) as [E|E].
  - assert (F : Forall (fun v => In v (spots_at r None)) (replace a j w)) by (apply replace_forall; auto).
    rewrite (IH t'); auto.
    + rewrite <- (kwl_iso init hash HS (switch t t') (spots_at r (Some t')) (spots_at r (Some t)) atom atom (switch_perm r t t' Ht Ht')).
      * rewrite replace_map. do 2 f_equal. transitivity (map (fun v => v) a); [|apply map_id]; apply map_ext_in.
        intros v Hv. apply switch_far; [apply misses_iff with (1 := Hm)|apply misses_iff with (1 := Hm')]; auto.
      * intros b Hb. apply HA; auto.
      * apply replace_forall.
        -- rewrite Forall_forall in Ha |- *. intros [i f] Hv. pose proof (proj1 (misses_iff _ _) Hm' _ Hv) as X. specialize (Ha _ Hv). apply spots_at_in in Ha.
           apply spots_at_in. cbn [odd_at fst] in *. rewrite (proj2 (Nat.eqb_neq _ _) X). auto.
        -- destruct w as [i f]. apply spots_at_in in Hw. apply spots_at_in. cbn [odd_at fst] in *. subst i. rewrite (proj2 (Nat.eqb_neq t t')) by auto. auto.
    + rewrite replace_len; [auto|lia].
    + apply misses_iff. intros v Hv. apply replace_in in Hv as [-> |Hv]; [congruence|]. apply misses_iff with (1 := Hm'); auto.
  - apply IH; auto.
    + rewrite replace_len; [auto|lia].
    + apply misses_iff. intros v Hv. apply replace_in in Hv as [-> |Hv]; auto. apply misses_iff with (1 := Hm); auto.
    + apply replace_forall; auto.
Qed.

Definition pick (a : list (nat * list bool)) : nat := match find (misses a) (seq 0 r) with Some t => t | None => 0 end.
Lemma pick_ok a : length a < r -> pick a < r /\ misses a (pick a) = true.
Proof.
  intros H. unfold pick. destruct (find (misses a) (seq 0 r)) as [t|] eqn:E.
  - apply List.find_some in E as [E1 E2]. apply in_seq in E1. split; [lia|auto].
  - destruct (some_missed a (seq 0 r)) as (t & Ht & Hm); [apply seq_NoDup|rewrite seq_length; auto|].
    pose proof (find_none _ _ E t Ht). congruence.
Qed.
Lemma all_hidden k l t0 : t0 < r -> S k < r ->
  Permutation (map (colour None l) (tuples (spots_at r None) k)) (map (colour (Some t0) l) (tuples (spots_at r (Some t0)) k)).
Proof.
  intros Ht0 Hk. set (h := fun a => map (switch t0 (pick a)) a).
  assert (PK : forall a t t', pick (map (switch t t') a) = pick a).
  { intros a t t'. unfold pick. replace (find (misses (map (switch t t') a)) (seq 0 r)) with (find (misses a) (seq 0 r)); auto.
    generalize (seq 0 r). intros s. induction s as [|i s IH]; cbn; auto. rewrite IH.
    replace (misses (map (switch t t') a) i) with (misses a i); auto. unfold misses. f_equal.
    clear. induction a as [|v a IH]; cbn; auto. rewrite switch_place, IH. auto. }
  assert (HH : forall a, h (h a) = a).
  { intros a. unfold h. rewrite PK, map_map. transitivity (map (fun v => v) a); [|apply map_id]. apply map_ext. intros v. apply switch_twice. }
  assert (F : forall a, In a (tuples (spots_at r None) k) -> Forall (fun v => In v (spots_at r (Some (pick a)))) a).
  { intros a Ha. apply tuples_in in Ha as [Hl Ha]. destruct (pick_ok a) as [Hp Hm]; [lia|]. rewrite Forall_forall in Ha |- *. intros [i f] Hv.
    pose proof (proj1 (misses_iff _ _) Hm _ Hv) as X. specialize (Ha _ Hv). apply spots_at_in in Ha. apply spots_at_in. cbn [odd_at fst] in *.
    rewrite (proj2 (Nat.eqb_neq _ _) X). auto. }
  assert (P : Permutation (map h (tuples (spots_at r None) k)) (tuples (spots_at r (Some t0)) k)).
  { apply perm_map_nodup; try apply tuples_nodup, spots_at_nodup.
    - intros x y _ _ E. rewrite <- (HH x), E. apply HH.
    - intros a. rewrite tuples_in. split.
      + intros [Hl Ha]. exists (h a). split; [|apply HH]. destruct (pick_ok a) as [Hp Hm]; [lia|]. apply tuples_in. unfold h. rewrite map_length. split; auto.
        rewrite Forall_forall in Ha. apply Forall_forall. intros v' Hv'. apply in_map_iff in Hv' as (v & <- & Hv). specialize (Ha _ Hv).
        pose proof (switch_perm r (pick a) t0 Hp Ht0) as S1.
        assert (X : switch t0 (pick a) v = switch (pick a) t0 v).
        { unfold switch. rewrite (Nat.eqb_sym (pick a) t0). destruct (t0 =? pick a) eqn:E; auto. apply Nat.eqb_neq in E.
          destruct (Nat.eqb_spec (fst v) t0) as [E1|E1], (Nat.eqb_spec (fst v) (pick a)) as [E2|E2]; auto. congruence. }
        assert (Y : In (switch (pick a) t0 v) (spots_at r (Some (pick a)))) by (apply switch_in; auto).
        rewrite X. pose proof (proj1 (misses_iff _ _) Hm _ Hv) as Z. pose proof (switch_place (pick a) t0 v) as Q.
        destruct (switch (pick a) t0 v) as [i f]. cbn [fst] in Q. rewrite <- Q in Z. apply spots_at_in in Y. apply spots_at_in. cbn [odd_at] in *.
        rewrite (proj2 (Nat.eqb_neq _ _) Z) in Y. auto.
      + intros (b & Hb & <-). pose proof (F b Hb) as Fb. apply tuples_in in Hb as [Hl Hb]. destruct (pick_ok b) as [Hp Hm]; [lia|]. unfold h. rewrite map_length. split; auto.
        rewrite Forall_forall in Fb. apply Forall_forall. intros v' Hv'. apply in_map_iff in Hv' as (v & <- & Hv). apply switch_in; auto. }
  rewrite <- (Permutation_map (colour (Some t0) l) P), map_map.
  match goal with |- Permutation ?x ?y => replace y with x; [reflexivity|] end.
  apply map_ext_in. intros a Ha. pose proof (F a Ha) as Fa. apply tuples_in in Ha as [Hl Ha]. destruct (pick_ok a) as [Hp Hm]; [lia|].
  rewrite (hidden l (pick a) a) by (auto; lia). unfold h. symmetry.
  apply (kwl_iso init hash HS (switch t0 (pick a)) (spots_at r (Some (pick a))) (spots_at r (Some t0)) atom atom (switch_perm r _ _ Ht0 Hp)); auto.
Qed.
End Twist.
