(** Facts about lists, dictionaries, sorting and combinations used by the lifting proofs. *)
From Coq Require Import List Arith Lia ZArith Bool Permutation.
From Verif Require Import Base ScatterModel ComplexModel BatchProofs LiftModel.
Import ListNotations.

Lemma ceqb_spec a b : reflect (a = b) (ceqb a b).
Proof. unfold ceqb. destruct (list_eq_dec Nat.eq_dec a b); constructor; auto. Qed.
Lemma ceqb_refl a : ceqb a a = true.
Proof. destruct (ceqb_spec a a); congruence. Qed.
Lemma mem_In s l : mem s l = true <-> In s l.
Proof.
  unfold mem. rewrite existsb_exists. split.
  - intros (x & Hx & E). destruct (ceqb_spec s x); congruence.
  - intros H. exists s. split; auto. apply ceqb_refl.
Qed.

(** ** Lists of lists indexed by dimension *)
Definition rep {A} (n : nat) (l : list A) (F : nat -> A) : Prop := l = map F (seq 0 n).

Lemma rep_length {A} n (l : list A) F : rep n l F -> length l = n.
Proof. intros ->. rewrite map_length, seq_length. auto. Qed.
Lemma rep_nth {A} n (l : list A) F d : rep n l F -> d < n -> nth_error l d = Some (F d).
Proof.
  intros -> Hd. rewrite nth_error_map, (nth_error_nth' _ 0) by (rewrite seq_length; auto).
  rewrite seq_nth by auto. reflexivity.
Qed.
Lemma rep_get {A} n (l : list A) F d : rep n l F -> d < n -> get l d = Ok (F d).
Proof. intros H Hd. apply get_ok. eapply rep_nth; eauto. Qed.
Lemma rep_ext {A} n (l : list A) F G : rep n l F -> (forall d, d < n -> F d = G d) -> rep n l G.
Proof. intros -> H. apply map_ext_in. intros d Hd. apply in_seq in Hd. apply H. lia. Qed.
Lemma rep_intro {A} n (l : list A) F :
  length l = n -> (forall d, d < n -> nth_error l d = Some (F d)) -> rep n l F.
Proof.
  intros Hl H. unfold rep. apply nth_ext with (d := F 0) (d' := F 0).
  - rewrite map_length, seq_length. auto.
  - intros d Hd. rewrite (map_nth F), seq_nth by lia. apply nth_error_nth. rewrite H by lia. auto.
Qed.
Lemma rep_repeat {A} n (a : A) : rep n (repeat a n) (fun _ => a).
Proof.
  apply rep_intro; [apply repeat_length|]. intros d Hd.
  rewrite (nth_error_nth' _ a) by (rewrite repeat_length; auto). f_equal. apply nth_repeat.
Qed.
Lemma rep_upd {A} n (l : list A) F i g : rep n l F -> i < n ->
  exists l', upd l i g = Ok l' /\ rep n l' (fun d => if d =? i then g (F d) else F d).
Proof.
  intros H Hi. destruct (upd_ok l i g) as (r & E & Hl & Hn).
  { rewrite (rep_length _ _ _ H). auto. }
  exists r. split; auto. apply rep_intro; [rewrite Hl; eapply rep_length; eauto|].
  intros d Hd. rewrite Hn. destruct (d =? i); rewrite (rep_nth _ _ _ _ H Hd); auto.
Qed.
Lemma rep_app {A} n (l : list A) F a : rep n l F -> rep (n + 1) (l ++ [a]) (fun d => if d =? n then a else F d).
Proof.
  intros H. unfold rep. rewrite seq_app, map_app. simpl. rewrite Nat.eqb_refl. f_equal.
  rewrite H. apply map_ext_in. intros d Hd. apply in_seq in Hd. destruct (Nat.eqb_spec d n); auto; lia.
Qed.

(** ** Dictionaries *)
Lemma dget_In {A} (m : dict A) k a : dget m k = Some a -> In (k, a) m.
Proof.
  induction m as [|[k' a'] m IH]; simpl; [discriminate|]. destruct (ceqb_spec k k').
  - intros E; inversion E; subst. auto.
  - auto.
Qed.
Lemma dget_None {A} (m : dict A) k : dget m k = None <-> ~ In k (map fst m).
Proof.
  induction m as [|[k' a'] m IH]; simpl; [tauto|]. destruct (ceqb_spec k k').
  - split; [discriminate|]. intros H. destruct H; auto.
  - rewrite IH. split; intros H; [intros [E|E]; [congruence|auto]|auto].
Qed.
Lemma In_dget {A} (m : dict A) k a : NoDup (map fst m) -> In (k, a) m -> dget m k = Some a.
Proof.
  induction m as [|[k' a'] m IH]; simpl; [tauto|]. intros Hn [E|E].
  - inversion E; subst. rewrite ceqb_refl. auto.
  - inversion Hn; subst. destruct (ceqb_spec k k').
    + subst. exfalso. apply H1. apply (in_map fst) in E. auto.
    + auto.
Qed.
Lemma dget_dset {A} (m : dict A) k a k' : dget (dset m k a) k' = if ceqb k' k then Some a else dget m k'.
Proof.
  induction m as [|[q b] m IH]; simpl.
  - destruct (ceqb k' k); auto.
  - destruct (ceqb_spec k q); simpl.
    + subst q. destruct (ceqb k' k); auto.
    + rewrite IH. destruct (ceqb_spec k' q), (ceqb_spec k' k); auto. congruence.
Qed.
Lemma dget_dappend {A} (m : dict (list A)) k a k' :
  dget (dappend m k a) k' =
    if ceqb k' k then Some (match dget m k with Some l => l | None => [] end ++ [a]) else dget m k'.
Proof. unfold dappend. apply dget_dset. Qed.
Lemma dset_new {A} (m : dict A) k a : ~ In k (map fst m) -> dset m k a = m ++ [(k, a)].
Proof.
  induction m as [|[q b] m IH]; simpl; auto. intros H. destruct (ceqb_spec k q).
  - destruct H; auto.
  - rewrite IH; auto.
Qed.

(** The dictionary cell -> position. *)
Definition index_map (T : list cell) : dict nat := combine T (seq 0 (length T)).
Definition pos (T : list cell) (s : cell) : nat := match dget (index_map T) s with Some i => i | None => 0 end.

Lemma map_fst_combine {A B} (l : list A) (l' : list B) : length l = length l' -> map fst (combine l l') = l.
Proof. revert l'; induction l; intros [|b l']; simpl; intros; try discriminate; auto. f_equal; auto. Qed.
Lemma map_snd_combine {A B} (l : list A) (l' : list B) : length l = length l' -> map snd (combine l l') = l'.
Proof. revert l'; induction l; intros [|b l']; simpl; intros; try discriminate; auto. f_equal; auto. Qed.

Lemma index_map_fst T : map fst (index_map T) = T.
Proof. unfold index_map. apply map_fst_combine. rewrite seq_length. auto. Qed.
Lemma index_map_length T : length (index_map T) = length T.
Proof. unfold index_map. rewrite combine_length, seq_length. lia. Qed.

Lemma combine_seq_nth {A} (T : list A) i b t : In (t, i) (combine T (seq b (length T))) <-> b <= i /\ nth_error T (i - b) = Some t.
Proof.
  revert b; induction T as [|a T IH]; intros b; simpl.
  - split; [tauto|]. intros [_ H]. destruct (i - b); discriminate.
  - rewrite IH. split.
    + intros [E|[H1 H2]].
      * inversion E; subst. rewrite Nat.sub_diag. auto.
      * split; [lia|]. replace (i - b) with (S (i - S b)) by lia. auto.
    + intros [H1 H2]. destruct (Nat.eq_dec i b).
      * subst. rewrite Nat.sub_diag in H2. inversion H2; auto.
      * right. split; [lia|]. replace (i - b) with (S (i - S b)) in H2 by lia. auto.
Qed.
Lemma index_map_In T s i : In (s, i) (index_map T) <-> nth_error T i = Some s.
Proof. unfold index_map. rewrite combine_seq_nth, Nat.sub_0_r. intuition lia. Qed.
Lemma index_map_get T s i : NoDup T -> (dget (index_map T) s = Some i <-> nth_error T i = Some s).
Proof.
  intros Hn. rewrite <- index_map_In. split; [apply dget_In|]. apply In_dget. rewrite index_map_fst. auto.
Qed.
Lemma pos_spec T s : NoDup T -> In s T -> dget (index_map T) s = Some (pos T s) /\ nth_error T (pos T s) = Some s.
Proof.
  intros Hn Hs. apply In_nth_error in Hs as [i Hi]. apply index_map_get in Hi; auto.
  unfold pos. rewrite Hi. split; auto. apply index_map_get; auto.
Qed.
Lemma pos_nth T i s : NoDup T -> nth_error T i = Some s -> pos T s = i.
Proof. intros Hn H. unfold pos. rewrite (proj2 (index_map_get T s i Hn) H). auto. Qed.
Lemma pos_inj T s s' : NoDup T -> In s T -> In s' T -> pos T s = pos T s' -> s = s'.
Proof.
  intros Hn H H' E. apply (pos_spec T) in H as [_ H]; auto. apply (pos_spec T) in H' as [_ H']; auto. congruence.
Qed.
Lemma index_map_app T s : index_map (T ++ [s]) = index_map T ++ [(s, length T)].
Proof.
  unfold index_map. rewrite app_length, seq_app. simpl. generalize (seq_length (length T) 0).
  generalize (seq 0 (length T)) as l. intros l Hl. revert l Hl. generalize (length T) at 2 3 as q.
  induction T as [|a T IH]; intros q [|b l] Hl; simpl in *; try discriminate; auto. f_equal. apply IH. lia.
Qed.
Lemma index_map_new T s : ~ In s T -> dset (index_map T) s (length T) = index_map (T ++ [s]).
Proof. intros H. rewrite dset_new, index_map_app; auto. rewrite index_map_fst. auto. Qed.
Lemma key_get_pos T s : NoDup T -> In s T -> key_get (index_map T) s = Ok (pos T s).
Proof. intros Hn Hs. unfold key_get. rewrite (proj1 (pos_spec T s Hn Hs)). reflexivity. Qed.
Lemma pos_lt T s : NoDup T -> In s T -> pos T s < length T.
Proof. intros Hn Hs. apply nth_error_Some. rewrite (proj2 (pos_spec T s Hn Hs)). discriminate. Qed.
Lemma NoDup_map_pos T l : NoDup T -> incl l T -> NoDup l -> NoDup (map (pos T) l).
Proof.
  intros Hn. induction l as [|a l IH]; intros Hi Hl; simpl; constructor; inversion Hl; subst.
  - intros H. apply in_map_iff in H as (b & E & Hb). apply pos_inj in E; subst; auto.
    + apply Hi; right; auto.
    + apply Hi; left; auto.
  - apply IH; auto. intros x Hx. apply Hi; right; auto.
Qed.

(** ** Pairs *)
Lemma pairs_map {A B} (f : A -> B) l : pairs (map f l) = map (fun p => (f (fst p), f (snd p))) (pairs l).
Proof.
  induction l as [|a l IH]; simpl; auto. rewrite map_app, IH, !map_map. reflexivity.
Qed.
Lemma pairs_In {A} (l : list A) a b : In (a, b) (pairs l) -> In a l /\ In b l.
Proof.
  induction l as [|c l IH]; simpl; [tauto|]. rewrite in_app_iff, in_map_iff. intros [(x & E & Hx)|H].
  - inversion E; subst. auto.
  - apply IH in H. tauto.
Qed.
Lemma pairs_total {A} (l : list A) a b : In a l -> In b l -> a <> b -> In (a, b) (pairs l) \/ In (b, a) (pairs l).
Proof.
  induction l as [|c l IH]; simpl; [tauto|]. rewrite !in_app_iff, !in_map_iff. intros [<-|Ha] [<-|Hb] Hn.
  - congruence.
  - left; left. eauto.
  - right; left. eauto.
  - destruct (IH Ha Hb Hn); auto.
Qed.
Lemma pairs_asym {A} (l : list A) a b : NoDup l -> In (a, b) (pairs l) -> a <> b /\ ~ In (b, a) (pairs l).
Proof.
  induction l as [|c l IH]; simpl; [tauto|]. intros Hn. inversion Hn; subst. rewrite !in_app_iff, !in_map_iff.
  intros [(x & E & Hx)|H].
  - inversion E; subst. split; [congruence|]. intros [(y & E' & Hy)|H'].
    + inversion E'; subst. auto.
    + apply pairs_In in H'. tauto.
  - destruct (IH H2 H) as [H3 H4]. split; auto. intros [(y & E' & Hy)|H']; auto.
    inversion E'; subst. apply pairs_In in H. tauto.
Qed.
Lemma NoDup_app {A} (l l' : list A) : NoDup l -> NoDup l' -> (forall a, In a l -> ~ In a l') -> NoDup (l ++ l').
Proof.
  induction l as [|a l IH]; simpl; auto. intros Hn Hn' H. inversion Hn; subst. constructor.
  - rewrite in_app_iff. intros [H'|H']; auto. apply (H a); auto.
  - apply IH; auto.
Qed.
Lemma NoDup_map_inj {A B} (f : A -> B) l : (forall a b, In a l -> In b l -> f a = f b -> a = b) -> NoDup l -> NoDup (map f l).
Proof.
  induction l as [|a l IH]; intros H Hn; simpl; constructor; inversion Hn; subst.
  - intros H'. apply in_map_iff in H' as (b & E & Hb). apply H in E; [subst; auto|right; auto|left; auto].
  - apply IH; auto. intros; apply H; auto; right; auto.
Qed.
Lemma pairs_NoDup {A} (l : list A) : NoDup l -> NoDup (pairs l).
Proof.
  induction l as [|c l IH]; simpl; intros Hn; [constructor|]. inversion Hn; subst. apply NoDup_app.
  - apply NoDup_map_inj; auto. intros a b _ _ E. inversion E; auto.
  - auto.
  - intros [a b] H H'. apply in_map_iff in H as (x & E & Hx). inversion E; subst. apply pairs_In in H'. tauto.
Qed.
Lemma both_ways_In l a b : In (a, b) (both_ways l) <-> In (a, b) l \/ In (b, a) l.
Proof.
  unfold both_ways. rewrite in_flat_map. split.
  - intros ([x y] & Hp & [E|[E|[]]]); simpl in E; inversion E; subst; auto.
  - intros [H|H]; [exists (a, b)|exists (b, a)]; simpl; auto.
Qed.
Lemma both_ways_pairs_In l a b : NoDup l -> (In (a, b) (both_ways (pairs l)) <-> a <> b /\ In a l /\ In b l).
Proof.
  intros Hn. rewrite both_ways_In. split.
  - intros [H|H]; pose proof (pairs_In _ _ _ H); pose proof (pairs_asym _ _ _ Hn H); intuition.
  - intros (H1 & H2 & H3). apply pairs_total; auto.
Qed.
Lemma both_ways_NoDup l : NoDup l -> (forall a b, In (a, b) l -> a <> b /\ ~ In (b, a) l) -> NoDup (both_ways l).
Proof.
  induction l as [|[a b] l IH]; intros Hn H; simpl; [constructor|]. inversion Hn; subst.
  destruct (H a b (or_introl eq_refl)) as [N1 N2].
  assert (HN : forall x y, In (x, y) (both_ways l) -> ((x, y) <> (a, b) /\ (x, y) <> (b, a))).
  { intros x y Hx. apply both_ways_In in Hx. split; intros E; inversion E; subst; destruct Hx as [Hx|Hx]; auto;
      apply N2; right; auto. }
  constructor; [|constructor].
  - intros [E|E]; [inversion E; congruence|]. apply HN in E. tauto.
  - intros E. apply HN in E. tauto.
  - apply IH; auto. intros x y Hx. destruct (H x y) as [H5 H6]; [right; auto|]. split; auto.
    intros H'. apply H6. right; auto.
Qed.
Lemma both_ways_pairs_NoDup l : NoDup l -> NoDup (both_ways (pairs l)).
Proof. intros Hn. apply both_ways_NoDup; [apply pairs_NoDup; auto|]. intros; apply pairs_asym; auto. Qed.
Lemma both_ways_length l : length (both_ways l) = 2 * length l.
Proof. induction l; simpl; auto. unfold both_ways in *. simpl. lia. Qed.

Lemma NoDup_flat_map {A B} (f : A -> list B) l :
  NoDup l -> (forall a, In a l -> NoDup (f a)) ->
  (forall a a' b, In a l -> In a' l -> In b (f a) -> In b (f a') -> a = a') -> NoDup (flat_map f l).
Proof.
  induction l as [|a l IH]; simpl; intros Hn H1 H2; [constructor|]. inversion Hn; subst. apply NoDup_app.
  - apply H1; auto.
  - apply IH; auto. intros; eapply H2; eauto.
  - intros b Hb Hb'. apply in_flat_map in Hb' as (a' & Ha' & Hb'). assert (a = a') by (eapply H2; eauto). subst; auto.
Qed.

Lemma combine_app' {A B} (l1 l2 : list A) (m1 m2 : list B) :
  length l1 = length m1 -> combine (l1 ++ l2) (m1 ++ m2) = combine l1 m1 ++ combine l2 m2.
Proof. revert m1; induction l1; intros [|b m1]; simpl; intros; try discriminate; auto. f_equal; auto. Qed.
Lemma combine_repeat {A B} (l : list A) (b : B) : combine l (repeat b (length l)) = map (fun a => (a, b)) l.
Proof. induction l; simpl; auto. f_equal; auto. Qed.

(** ** Sorting *)
Lemma sinsert_perm {A} leb (a : A) l : Permutation (a :: l) (sinsert leb a l).
Proof.
  induction l as [|b l IH]; simpl; auto. destruct (leb a b); auto.
  rewrite perm_swap. constructor. auto.
Qed.
Lemma sort_perm {A} leb (l : list A) : Permutation l (sort leb l).
Proof. induction l as [|a l IH]; simpl; auto. rewrite <- sinsert_perm. auto. Qed.

Lemma flat_map_map {A B C} (f : B -> list C) (g : A -> B) l : flat_map f (map g l) = flat_map (fun a => f (g a)) l.
Proof. induction l; simpl; auto. rewrite IHl. auto. Qed.
Lemma flat_map_ext_in {A B} (f g : A -> list B) l : (forall a, In a l -> f a = g a) -> flat_map f l = flat_map g l.
Proof. induction l; simpl; intros H; auto. rewrite H, IHl; auto. Qed.
