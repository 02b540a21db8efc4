(** The k-dimensional test bounds networks on clique complexes, for C79. *)
From Coq Require Import List Arith Lia Bool Permutation.
From Verif Require Import Base LiftSpec HierSpec HierProofs.
From Verif Require Import KwlSpec KwlProofs.
Import ListNotations.

(** ** Lists that match up to order *)
Definition matched {A B} (R : A -> B -> Prop) (l : list A) (l' : list B) : Prop := exists m, Permutation m l' /\ Forall2 R l m.
Lemma matched_imp {A B} (R Q : A -> B -> Prop) l l' : (forall a b, In a l -> In b l' -> R a b -> Q a b) -> matched R l l' -> matched Q l l'.
Proof.
  intros H (m & P & F). exists m. split; [exact P|].
  assert (H' : forall a b, In a l -> In b m -> R a b -> Q a b) by (intros a b Ha Hb; apply H; [exact Ha|eapply Permutation_in; eauto]).
  clear P H. induction F as [|a b l m HR F IH]; constructor; [apply H'; cbn; auto|]. apply IH. intros; apply H'; cbn; auto.
Qed.
Lemma matched_map {A B C} (R : A -> B -> Prop) (f : A -> C) (g : B -> C) l l' : (forall a b, R a b -> f a = g b) -> matched R l l' -> Permutation (map f l) (map g l').
Proof.
  intros H (m & P & F). rewrite <- P. clear P. induction F as [|a b l m HR F IH]; cbn; [constructor|]. rewrite (H a b HR). constructor. exact IH.
Qed.
Lemma matched_of_map {A B C} (f : A -> C) (g : B -> C) l l' : Permutation (map f l) (map g l') -> matched (fun a b => f a = g b) l l'.
Proof.
  intros H. apply Permutation_map_inv in H as (m & E & P). exists m. split; [symmetry; exact P|]. revert l E. clear P.
  induction m as [|b m IH]; intros [|a l] E; cbn in E; try discriminate; constructor; injection E; auto.
Qed.
Lemma matched_filter {A B} (R : A -> B -> Prop) p q l l' : (forall a b, R a b -> p a = q b) -> matched R l l' -> matched R (filter p l) (filter q l').
Proof.
  intros H (m & P & F). exists (filter q m). split.
  - clear F. induction P; cbn; auto.
    + destruct (q x); auto.
    + destruct (q x), (q y); auto. constructor.
    + etransitivity; eauto.
  - clear P. induction F as [|a b l m HR F IH]; cbn; [constructor|]. rewrite <- (H a b HR). destruct (p a); auto.
Qed.
Lemma matched_flat {A B C D} (R : A -> B -> Prop) (Q : C -> D -> Prop) f g l l' : (forall a b, R a b -> matched Q (f a) (g b)) -> matched R l l' -> matched Q (flat_map f l) (flat_map g l').
Proof.
  intros H (m & P & F).
  assert (X : matched Q (flat_map f l) (flat_map g m)).
  { clear P. induction F as [|a b l m HR F (m2 & P2 & F2)]; [exists []; split; constructor|]. destruct (H a b HR) as (m1 & P1 & F1).
    exists (m1 ++ m2). cbn. split; [apply Permutation_app; assumption|apply Forall2_app; assumption]. }
  destruct X as (m' & P' & F'). exists m'. split; [|exact F']. rewrite P'. apply Permutation_flat_map. exact P.
Qed.
Lemma matched_mapped {A B C D} (R : C -> D -> Prop) (f : A -> C) (g : B -> D) l l' : matched (fun a b => R (f a) (g b)) l l' -> matched R (map f l) (map g l').
Proof.
  intros (m & P & F). exists (map g m). split; [apply Permutation_map; exact P|]. clear P. induction F; cbn; constructor; auto.
Qed.
Lemma matched_forall {A B} (R : A -> B -> Prop) l l' : Forall2 R l l' -> matched R l l'.
Proof. intros F. exists l'. split; [reflexivity|exact F]. Qed.
Lemma matched_with {A B} (R : A -> B -> Prop) l l' a : matched R l l' -> In a l -> exists b, In b l' /\ R a b.
Proof.
  intros (m & P & F) Ha. assert (X : exists b, In b m /\ R a b).
  { clear P. induction F as [|a0 b l m HR F IH]; [destruct Ha|]. destruct Ha as [-> |Ha]; [exists b; cbn; auto|]. destruct (IH Ha) as (b' & Hb & H). exists b'. cbn. auto. }
  destruct X as (b & Hb & H). exists b. split; [eapply Permutation_in; eauto|exact H].
Qed.

(** ** Entries of tuples *)
Lemma replace_nth {N} (a : list N) j w i d : j < length a -> nth i (replace a j w) d = if i =? j then w else nth i a d.
Proof.
  intros H. unfold replace. destruct (Nat.eqb_spec i j) as [-> |E].
  - rewrite app_nth2; rewrite firstn_length, Nat.min_l by lia; [|lia]. rewrite Nat.sub_diag. reflexivity.
  - assert (X : a = firstn j a ++ nth j a d :: skipn (S j) a).
    { clear -H. revert j H. induction a as [|b a IH]; intros [|j] H; cbn in *; try lia; auto. f_equal. apply IH. lia. }
    rewrite X at 3. destruct (Nat.lt_ge_cases i j) as [L|L].
    + rewrite !app_nth1 by (rewrite firstn_length; lia). reflexivity.
    + rewrite !app_nth2 by (rewrite firstn_length; lia). rewrite firstn_length, Nat.min_l by lia.
      destruct (i - j) as [|m] eqn:Em; [lia|]. reflexivity.
Qed.
Lemma replace_pairs {N M} (a : list N) (a' : list M) j w w' u u' : length a = length a' -> j < length a ->
  (In (u, u') (combine (replace a j w) (replace a' j w')) <-> (u, u') = (w, w') \/ exists i, i <> j /\ nth_error a i = Some u /\ nth_error a' i = Some u').
Proof.
  revert a' j. induction a as [|b a IH]; intros [|b' a'] [|j] HL Hj; cbn in HL, Hj; try lia.
  - injection HL as HL. unfold replace. cbn [firstn skipn app combine In]. split.
    + intros [H|H]; [left; congruence|right]. apply (In_nth_error (combine a a')) in H as (i & H). exists (S i). split; [lia|]. cbn.
      clear -H. revert a' i H. induction a as [|c a IH]; intros [|c' a'] [|i] H; cbn in *; try discriminate; [injection H as -> ->; auto|apply IH; exact H].
    + intros [H|(i & Hi & H1 & H2)]; [left; congruence|right]. destruct i as [|i]; [lia|]. cbn in H1, H2. clear -H1 H2. revert a' i H1 H2.
      induction a as [|c a IH]; intros [|c' a'] [|i] H1 H2; cbn in *; try discriminate; [left; congruence|right; eapply IH; eauto].
  - injection HL as HL. change (replace (b :: a) (S j) w) with (b :: replace a j w). change (replace (b' :: a') (S j) w') with (b' :: replace a' j w').
    cbn [combine In]. rewrite IH by lia. split.
    + intros [H|[H|(i & Hi & H)]]; [right; exists 0; injection H as -> ->; auto|left; exact H|right; exists (S i); split; [lia|exact H]].
    + intros [H|(i & Hi & H1 & H2)]; [auto|]. destruct i as [|i]; cbn in H1, H2; [left; congruence|right; right; exists i; split; [lia|auto]].
Qed.
Lemma combine_nth_in {N M} (a : list N) (a' : list M) u u' : In (u, u') (combine a a') <-> exists i, nth_error a i = Some u /\ nth_error a' i = Some u'.
Proof.
  revert a'. induction a as [|b a IH]; intros [|b' a']; cbn.
  - split; [intros []|intros ([|i] & H & _); discriminate].
  - split; [intros []|intros ([|i] & H & _); discriminate].
  - split; [intros []|intros ([|i] & _ & H); discriminate].
  - rewrite IH. split.
    + intros [H|(i & H)]; [exists 0; injection H as -> ->; auto|exists (S i); auto].
    + intros ([|i] & H1 & H2); cbn in *; [left; congruence|right; exists i; auto].
Qed.
Lemma combine_left {N M} (a : list N) (a' : list M) u : length a = length a' -> In u a -> exists u', In (u, u') (combine a a').
Proof. revert a'. induction a as [|b a IH]; intros [|b' a'] HL H; cbn in *; try discriminate; try contradiction. destruct H as [-> |H]; [eauto|]. destruct (IH a') as (u' & Hu); auto. eauto. Qed.
Lemma combine_right {N M} (a : list N) (a' : list M) u' : length a = length a' -> In u' a' -> exists u, In (u, u') (combine a a').
Proof. revert a'. induction a as [|b a IH]; intros [|b' a'] HL H; cbn in *; try discriminate; try contradiction. destruct H as [-> |H]; [eauto|]. destruct (IH a') as (u & Hu); auto. eauto. Qed.

Lemma app_inj_len {N} (a b c d : list N) : length a = length c -> a ++ b = c ++ d -> a = c /\ b = d.
Proof. revert c. induction a as [|u a IH]; intros [|v c] HL H; cbn in *; try lia; [auto|]. injection H as -> H. destruct (IH c) as [-> ->]; auto. Qed.
(** The tuples look alike: [u] in one stands where [u'] stands in the other. *)
Section Look.
Context {W : Type} (es es' : list (nat * nat)) (x x' : nat -> W).
Record look (z z' : list nat) : Prop := {
  lk_len : length z = length z';
  lk_eq : forall u u' v v', In (u, u') (combine z z') -> In (v, v') (combine z z') -> (u = v <-> u' = v');
  lk_adj : forall u u' v v', In (u, u') (combine z z') -> In (v, v') (combine z z') -> joined es u v = joined es' u' v';
  lk_lab : forall u u', In (u, u') (combine z z') -> x u = x' u'
}.
Lemma pairs_same {N M R} (f : N -> N -> R) (g : M -> M -> R) a a' : length a = length a' -> pairs f a = pairs g a' ->
  forall u u' v v', In (u, u') (combine a a') -> In (v, v') (combine a a') -> f u v = g u' v'.
Proof.
  unfold pairs. intros HL H u u' v v' Hu Hv.
  assert (G : forall b b', length b = length b' -> map (fun p => f (fst p) (snd p)) (list_prod b a) = map (fun p => g (fst p) (snd p)) (list_prod b' a') ->
    In (u, u') (combine b b') -> f u v = g u' v').
  { induction b as [|c b IH]; intros [|c' b'] Hl Hp Hin; cbn in *; try discriminate; try contradiction.
    rewrite !map_app, !map_map in Hp. cbn [fst snd] in Hp.
    assert (E : map (fun y => f c y) a = map (fun y => g c' y) a' /\ map (fun p => f (fst p) (snd p)) (list_prod b a) = map (fun p => g (fst p) (snd p)) (list_prod b' a')).
    { apply app_inj_len; [rewrite !map_length; exact HL|exact Hp]. }
    destruct E as [E1 E2]. destruct Hin as [Hin|Hin]; [|apply (IH b'); auto]. injection Hin as -> ->.
    apply combine_nth_in in Hv as (i & H1 & H2). apply (f_equal (fun l => nth_error l i)) in E1. rewrite !nth_error_map, H1, H2 in E1. cbn in E1. congruence. }
  exact (G a a' HL H Hu).
Qed.
Lemma atoms_look a a' : length a = length a' -> tuple_atom es x a = tuple_atom es' x' a' -> look a a'.
Proof.
  intros HL H. unfold tuple_atom in H. injection H as H1 H2 H3. split; [exact HL| | |].
  - intros u u' v v' Hu Hv. pose proof (pairs_same _ _ a a' HL H2 u u' v v' Hu Hv) as E. rewrite <- !Nat.eqb_eq, E. tauto.
  - exact (pairs_same _ _ a a' HL H3).
  - intros u u' Hu. apply combine_nth_in in Hu as (i & E1 & E2). apply (f_equal (fun l => nth_error l i)) in H1. rewrite !nth_error_map, E1, E2 in H1. cbn in H1. congruence.
Qed.
(** The different entries correspond. *)
Lemma look_nodup z z' : (length z = length z' /\ forall u u' v v', In (u, u') (combine z z') -> In (v, v') (combine z z') -> (u = v <-> u' = v')) ->
  Forall2 (fun u u' => In (u, u') (combine z z')) (nodup Nat.eq_dec z) (nodup Nat.eq_dec z').
Proof.
  revert z'. induction z as [|b z IH]; intros [|b' z'] [HL H]; cbn in HL; try discriminate; [constructor|]. injection HL as HL.
  assert (F : Forall2 (fun u u' => In (u, u') (combine (b :: z) (b' :: z'))) (nodup Nat.eq_dec z) (nodup Nat.eq_dec z')).
  { assert (F : Forall2 (fun u u' => In (u, u') (combine z z')) (nodup Nat.eq_dec z) (nodup Nat.eq_dec z')).
    { apply IH. split; [exact HL|]. intros u u' v v' Hu Hv. apply H; cbn; auto. }
    clear -F. induction F; constructor; cbn; auto. }
  cbn [nodup]. destruct (in_dec Nat.eq_dec b z) as [I|I], (in_dec Nat.eq_dec b' z') as [I'|I'].
  - exact F.
  - exfalso. apply I'. destruct (combine_left z z' b HL I) as (c' & Hc). pose proof (proj1 (H b b' b c' (or_introl eq_refl) (or_intror Hc)) eq_refl) as ->. eapply in_combine_r; eauto.
  - exfalso. apply I. destruct (combine_right z z' b' HL I') as (c & Hc). pose proof (proj2 (H b b' c b' (or_introl eq_refl) (or_intror Hc)) eq_refl) as ->. eapply in_combine_l; eauto.
  - constructor; [cbn; auto|exact F].
Qed.
End Look.

(** ** Equal colours of tuples *)
Section Pair.
Context {W C : Type} (init : list W * list bool * list bool -> C) (hash : C -> list (list C) -> C).
Hypothesis faithful : kwl_faithful init hash.
Variables (es es' : list (nat * nat)) (n n' : nat) (x x' : nat -> W) (K : nat).
Hypothesis HK : 2 <= K.
Notation c := (kwl init hash (seq 0 n) (tuple_atom es x)).
Notation c' := (kwl init hash (seq 0 n') (tuple_atom es' x')).
Notation look := (look es es' x x').
Definition tup (a a' : list nat) : Prop := length a = K /\ length a' = K.
Definition E (l : nat) (a a' : list nat) : Prop := c l a = c' l a'.
Definition EE (l : nat) (a a' : list nat) (w w' : nat) : Prop := E l a a' /\ forall j, j < K -> E l (replace a j w) (replace a' j w').

Lemma E_step l a a' : tup a a' -> E (S l) a a' -> E l a a' /\ matched (fun w w' => forall j, j < K -> E l (replace a j w) (replace a' j w')) (seq 0 n) (seq 0 n').
Proof.
  intros [HA HA'] H. unfold E in H. cbn [kwl] in H. apply (proj2 faithful) in H as [H P]. split; [exact H|]. apply matched_of_map in P. revert P. apply matched_imp.
  intros w w' _ _ Q j Hj. rewrite HA, HA' in Q. apply (f_equal (fun l => nth_error l j)) in Q. rewrite !nth_error_map in Q.
  rewrite (nth_error_nth' (seq 0 K) 0) in Q by (rewrite seq_length; exact Hj). rewrite seq_nth in Q by exact Hj. cbn [option_map] in Q. injection Q as Q. exact Q.
Qed.
Lemma E_le l m a a' : tup a a' -> l <= m -> E m a a' -> E l a a'.
Proof. intros T L. induction L as [|m L IH]; [auto|]. intros H. apply IH. exact (proj1 (E_step _ _ _ T H)). Qed.
Lemma E_look l a a' : tup a a' -> E l a a' -> look a a'.
Proof.
  intros T H. assert (H0 : E 0 a a') by (apply (E_le 0 l); [exact T|lia|exact H]). unfold E in H0. cbn [kwl] in H0. apply (proj1 faithful) in H0.
  apply atoms_look; [destruct T; congruence|exact H0].
Qed.
Lemma tup_replace a a' j w w' : j < K -> tup a a' -> tup (replace a j w) (replace a' j w').
Proof. intros Hj [H H']. split; rewrite replace_len; auto; congruence. Qed.
Lemma E_match l a a' w : tup a a' -> E (S l) a a' -> In w (seq 0 n) -> exists w', In w' (seq 0 n') /\ EE l a a' w w'.
Proof.
  intros T H Hw. destruct (E_step _ _ _ T H) as [H0 M]. destruct (matched_with _ _ _ w M Hw) as (w' & Hw' & HR). exists w'. split; [exact Hw'|]. split; assumption.
Qed.
Lemma E_all l a a' : tup a a' -> E (S l) a a' -> matched (EE l a a') (seq 0 n) (seq 0 n').
Proof. intros T H. destruct (E_step _ _ _ T H) as [H0 M]. revert M. apply matched_imp. intros w w' _ _ Q. split; assumption. Qed.
Lemma E_assign l a a' u u' j : tup a a' -> Forall (fun v => v < n) a -> E (S l) a a' -> In (u, u') (combine a a') -> j < K -> E l (replace a j u) (replace a' j u').
Proof.
  intros T HF H Hu Hj. assert (Lu : In u (seq 0 n)) by (apply in_seq; rewrite Forall_forall in HF; specialize (HF u (in_combine_l _ _ _ _ Hu)); lia).
  destruct (E_match l a a' u T H Lu) as (w' & _ & _ & M).
  assert (Ew : w' = u'); [|subst w'; exact (M j Hj)].
  destruct T as [HA HA']. pose proof Hu as Hi. apply combine_nth_in in Hi as (i & Hi & Hi').
  assert (Li : i < K) by (rewrite <- HA; apply nth_error_Some; congruence).
  assert (exists q, q < K /\ q <> i) as (q & Hq & Nq) by (destruct i; [exists 1|exists 0]; lia).
  assert (LK : look (replace a q u) (replace a' q w')) by (apply (E_look l); [apply tup_replace; [exact Hq|split; assumption]|exact (M q Hq)]).
  symmetry. apply (lk_eq _ _ _ _ _ _ LK u u' u w'); [| |reflexivity]; apply replace_pairs; try congruence; [right; exists i; auto|auto].
Qed.

(** One value replaced by another at the first [m] places. *)
Definition psub (m v u : nat) (a : list nat) : list nat := map (fun i => if (i <? m) && (nth i a 0 =? v) then u else nth i a 0) (seq 0 (length a)).
Lemma psub_len m v u a : length (psub m v u a) = length a.
Proof. unfold psub. now rewrite map_length, seq_length. Qed.
Lemma psub_nth m v u a i : i < length a -> nth i (psub m v u a) 0 = if (i <? m) && (nth i a 0 =? v) then u else nth i a 0.
Proof. intros H. unfold psub. erewrite nth_indep; [|rewrite map_length, seq_length; exact H]. rewrite (map_nth (fun i => if (i <? m) && (nth i a 0 =? v) then u else nth i a 0)), seq_nth by exact H. reflexivity. Unshelve. exact 0. Qed.
Lemma psub_0 v u a : psub 0 v u a = a.
Proof. apply (nth_ext _ _ 0 0); [apply psub_len|]. intros i H. rewrite psub_len in H. rewrite psub_nth by exact H. reflexivity. Qed.
Lemma psub_S m v u a : m < length a -> psub (S m) v u a = if nth m a 0 =? v then replace (psub m v u a) m u else psub m v u a.
Proof.
  intros H. apply (nth_ext _ _ 0 0).
  - rewrite psub_len. destruct (_ =? _); [rewrite replace_len|]; rewrite psub_len; auto.
  - intros i Hi. rewrite psub_len in Hi. rewrite psub_nth by exact Hi. destruct (Nat.eqb_spec (nth m a 0) v) as [Em|Em].
    + rewrite replace_nth by (rewrite psub_len; exact H). destruct (Nat.eqb_spec i m) as [-> |N].
      * rewrite Em, Nat.eqb_refl. replace (m <? S m) with true by (symmetry; apply Nat.ltb_lt; lia). reflexivity.
      * rewrite psub_nth by exact Hi. replace (i <? S m) with (i <? m); [reflexivity|]. destruct (Nat.ltb_spec i m), (Nat.ltb_spec i (S m)); auto; lia.
    + rewrite psub_nth by exact Hi. destruct (Nat.eqb_spec i m) as [-> |N].
      * apply Nat.eqb_neq in Em. rewrite Em, !andb_false_r. reflexivity.
      * replace (i <? S m) with (i <? m); [reflexivity|]. destruct (Nat.ltb_spec i m), (Nat.ltb_spec i (S m)); auto; lia.
Qed.
Lemma psub_in m v u a y : length a <= m -> In u a -> u <> v -> (In y (psub m v u a) <-> In y a /\ y <> v).
Proof.
  intros Hm Hu N. unfold psub. rewrite in_map_iff. split.
  - intros (i & <- & Hi). apply in_seq in Hi. replace (i <? m) with true by (symmetry; apply Nat.ltb_lt; lia). cbn [andb].
    destruct (Nat.eqb_spec (nth i a 0) v) as [Ev|Ev]; [auto|]. split; [apply nth_In; lia|exact Ev].
  - intros [Hy Ny]. apply (In_nth _ _ 0) in Hy as (i & Hi & <-). exists i. apply Nat.eqb_neq in Ny. rewrite Ny, andb_false_r. split; [reflexivity|apply in_seq; lia].
Qed.
Lemma psub_range m v u a : Forall (fun y => y < n) a -> u < n -> Forall (fun y => y < n) (psub m v u a).
Proof.
  intros H Hu. rewrite Forall_forall in *. intros y Hy. unfold psub in Hy. apply in_map_iff in Hy as (i & <- & Hi). apply in_seq in Hi.
  destruct (_ && _); [exact Hu|]. apply H, nth_In. lia.
Qed.
Lemma E_sub l a a' u u' v v' : tup a a' -> Forall (fun y => y < n) a -> E (K + l) a a' -> In (u, u') (combine a a') -> In (v, v') (combine a a') -> u <> v ->
  E l (psub K v u a) (psub K v' u' a').
Proof.
  intros T HF H Hu Hv N. pose proof (E_look _ _ _ T H) as LK. destruct T as [HA HA'].
  assert (N' : u' <> v') by (intros Q; apply N, (lk_eq _ _ _ _ _ _ LK _ _ _ _ Hu Hv); exact Q).
  assert (Ru : u < n) by (rewrite Forall_forall in HF; exact (HF u (in_combine_l _ _ _ _ Hu))).
  assert (G : forall m, m <= K -> E (K - m + l) (psub m v u a) (psub m v' u' a')).
  { induction m as [|m IH]; intros Hm; [rewrite !psub_0, Nat.sub_0_r; exact H|]. specialize (IH ltac:(lia)). replace (K - m + l) with (S (K - S m + l)) in IH by lia.
    rewrite !psub_S by lia.
    assert (Hp : In (nth m a 0, nth m a' 0) (combine a a')) by (apply combine_nth_in; exists m; split; apply nth_error_nth'; lia).
    assert (Eq : (nth m a 0 =? v) = (nth m a' 0 =? v')).
    { pose proof (lk_eq _ _ _ _ _ _ LK _ _ _ _ Hp Hv) as Q. destruct (Nat.eqb_spec (nth m a 0) v), (Nat.eqb_spec (nth m a' 0) v'); tauto. }
    rewrite <- Eq. assert (T : tup (psub m v u a) (psub m v' u' a')) by (split; rewrite psub_len; assumption).
    destruct (_ =? v); [|apply (E_le _ (S (K - S m + l))); [exact T|lia|exact IH]].
    apply E_assign; [exact T|apply psub_range; assumption|exact IH| |lia].
    apply combine_nth_in in Hu as (i & Hi & Hi'). pose proof (nth_error_nth _ _ 0 Hi) as E1. pose proof (nth_error_nth _ _ 0 Hi') as E1'.
    assert (Li : i < K) by (rewrite <- HA; apply nth_error_Some; congruence).
    apply combine_nth_in. exists i. rewrite !(nth_error_nth' _ 0) by (rewrite psub_len; lia). rewrite !psub_nth by lia. rewrite E1, E1'.
    apply Nat.eqb_neq in N, N'. rewrite N, N', !andb_false_r. auto. }
  specialize (G K ltac:(lia)). rewrite Nat.sub_diag in G. exact G.
Qed.

(** Pairs of a tuple and a node look alike too. *)
Lemma EE_look l a a' w w' : tup a a' -> EE l a a' w w' -> look (w :: a) (w' :: a').
Proof.
  intros T [H M]. pose proof (E_look _ _ _ T H) as LK. pose proof T as [HA HA'].
  assert (one : forall u u', In (u, u') (combine a a') -> exists q, q < K /\ In (u, u') (combine (replace a q w) (replace a' q w')) /\ In (w, w') (combine (replace a q w) (replace a' q w'))).
  { intros u u' Hu. apply combine_nth_in in Hu as (i & Hi & Hi'). assert (Li : i < K) by (rewrite <- HA; apply nth_error_Some; congruence).
    assert (exists q, q < K /\ q <> i) as (q & Hq & Nq) by (destruct i; [exists 1|exists 0]; lia). exists q. split; [exact Hq|].
    split; apply replace_pairs; try congruence; [right; exists i; auto|auto]. }
  assert (R : forall q, q < K -> look (replace a q w) (replace a' q w')) by (intros q Hq; apply (E_look l); [apply tup_replace; [exact Hq|exact T]|exact (M q Hq)]).
  split.
  - cbn. congruence.
  - intros u u' v v' Hu Hv. cbn [combine In] in Hu, Hv. destruct Hu as [Hu|Hu], Hv as [Hv|Hv].
    + injection Hu as <- <-. injection Hv as <- <-. tauto.
    + injection Hu as <- <-. destruct (one _ _ Hv) as (q & Hq & I1 & I2). exact (lk_eq _ _ _ _ _ _ (R q Hq) _ _ _ _ I2 I1).
    + injection Hv as <- <-. destruct (one _ _ Hu) as (q & Hq & I1 & I2). exact (lk_eq _ _ _ _ _ _ (R q Hq) _ _ _ _ I1 I2).
    + exact (lk_eq _ _ _ _ _ _ LK _ _ _ _ Hu Hv).
  - intros u u' v v' Hu Hv. cbn [combine In] in Hu, Hv.
    assert (ww : joined es w w = joined es' w' w').
    { assert (I0 : In (w, w') (combine (replace a 0 w) (replace a' 0 w'))) by (apply replace_pairs; try congruence; [lia|auto]).
      exact (lk_adj _ _ _ _ _ _ (R 0 ltac:(lia)) _ _ _ _ I0 I0). }
    destruct Hu as [Hu|Hu], Hv as [Hv|Hv].
    + injection Hu as <- <-. injection Hv as <- <-. exact ww.
    + injection Hu as <- <-. destruct (one _ _ Hv) as (q & Hq & I1 & I2). exact (lk_adj _ _ _ _ _ _ (R q Hq) _ _ _ _ I2 I1).
    + injection Hv as <- <-. destruct (one _ _ Hu) as (q & Hq & I1 & I2). exact (lk_adj _ _ _ _ _ _ (R q Hq) _ _ _ _ I1 I2).
    + exact (lk_adj _ _ _ _ _ _ LK _ _ _ _ Hu Hv).
  - intros u u' Hu. cbn [combine In] in Hu. destruct Hu as [Hu|Hu]; [|exact (lk_lab _ _ _ _ _ _ LK _ _ Hu)]. injection Hu as <- <-.
    assert (I0 : In (w, w') (combine (replace a 0 w) (replace a' 0 w'))) by (apply replace_pairs; try congruence; [lia|auto]).
    exact (lk_lab _ _ _ _ _ _ (R 0 ltac:(lia)) _ _ I0).
Qed.

(** One value taken out of a pair: a tuple lists the others. *)
Lemma EE_face l a a' w w' v v' t t' : tup a a' -> Forall (fun y => y < n) (w :: a) -> EE (K + l) a a' w w' ->
  In (v, v') (combine (w :: a) (w' :: a')) -> In (t, t') (combine (w :: a) (w' :: a')) -> t <> v ->
  exists g g', tup g g' /\ Forall (fun y => y < n) g /\ E l g g' /\ (forall y, In y g <-> In y (w :: a) /\ y <> v) /\ (forall y, In y g' <-> In y (w' :: a') /\ y <> v').
Proof.
  intros T HF H Hv Ht N. pose proof (EE_look _ _ _ _ _ T H) as LK. pose proof H as [H0 M]. pose proof T as [HA HA'].
  inversion HF as [|y z Fw Fa]; subst y z. assert (HL : length a = length a') by congruence.
  assert (Iw : In (w, w') (combine (w :: a) (w' :: a'))) by (left; reflexivity).
  assert (Et : t' <> v') by (intros Q; apply N, (lk_eq _ _ _ _ _ _ LK _ _ _ _ Ht Hv); exact Q).
  pose proof (lk_eq _ _ _ _ _ _ LK _ _ _ _ Iw Hv) as Wv.
  destruct (in_dec Nat.eq_dec w a) as [I|I].
  - (* the node is in the tuple *)
    destruct (combine_left a a' w HL I) as (w2 & Hw).
    assert (w2 = w') as -> by (symmetry; apply (lk_eq _ _ _ _ _ _ LK _ _ _ _ Iw (or_intror Hw)); reflexivity).
    assert (I' : In w' a') by (eapply in_combine_r; exact Hw).
    assert (back : forall y y', In (y, y') (combine (w :: a) (w' :: a')) -> In (y, y') (combine a a')) by (intros y y' [Q|Q]; [injection Q as <- <-; exact Hw|exact Q]).
    apply back in Hv, Ht. exists (psub K v t a), (psub K v' t' a'). assert (Rt : t < n) by (rewrite Forall_forall in Fa; exact (Fa t (in_combine_l _ _ _ _ Ht))).
    split; [split; rewrite psub_len; assumption|]. split; [apply psub_range; assumption|]. split; [apply E_sub; assumption|]. split; intros y; rewrite psub_in.
    + split; [intros [Q1 Q2]; split; [right; exact Q1|exact Q2]|intros [[Q1|Q1] Q2]; [subst y; auto|auto]].
    + lia.
    + eapply in_combine_l; exact Ht.
    + exact N.
    + split; [intros [Q1 Q2]; split; [right; exact Q1|exact Q2]|intros [[Q1|Q1] Q2]; [subst y; auto|auto]].
    + lia.
    + eapply in_combine_r; exact Ht.
    + exact Et.
  - assert (I' : ~ In w' a').
    { intros Q. destruct (combine_right a a' w' HL Q) as (w2 & Hw). apply I. replace w with w2; [eapply in_combine_l; exact Hw|]. symmetry. apply (lk_eq _ _ _ _ _ _ LK _ _ _ _ Iw (or_intror Hw)). reflexivity. }
    destruct (Nat.eq_dec v w) as [Ew|Ew].
    + (* the node itself is taken out *)
      assert (Ew' : v' = w') by (symmetry; apply Wv; congruence). subst v v'. exists a, a'. split; [exact T|]. split; [exact Fa|]. split; [apply (E_le _ (K + l)); [exact T|lia|exact H0]|].
      split; intros y; cbn [In]; split; try tauto.
      * intros Q. split; [auto|]. intros ->. auto.
      * intros [[Q|Q] Q2]; [congruence|exact Q].
      * intros Q. split; [auto|]. intros ->. auto.
      * intros [[Q|Q] Q2]; [congruence|exact Q].
    + assert (Ew' : v' <> w') by (intros Q; apply Ew; symmetry; apply Wv; congruence).
      destruct Hv as [Hv|Hv]; [congruence|]. pose proof Hv as Hp. apply combine_nth_in in Hp as (p & Hp & Hp').
      assert (Lp : p < K) by (rewrite <- HA; apply nth_error_Some; congruence).
      set (b := replace a p w). set (b' := replace a' p w').
      assert (Tb : tup b b') by (apply tup_replace; [exact Lp|exact T]).
      assert (Wb : In (w, w') (combine b b')) by (apply replace_pairs; [exact HL|lia|auto]).
      assert (Fb : Forall (fun y => y < n) b).
      { rewrite Forall_forall in *. intros y Hy. destruct (combine_left b b' y ltac:(destruct Tb; congruence) Hy) as (y' & Hy'). apply replace_pairs in Hy'; [|exact HL|lia].
        destruct Hy' as [Q|(i & _ & Q & _)]; [injection Q as -> _; exact Fw|]. apply Fa. eapply nth_error_In; exact Q. }
      assert (Lb : look b b') by (apply (E_look (K + l)); [exact Tb|exact (M p Lp)]).
      (* which values the tuple has *)
      assert (Vb : forall y, y <> v -> (In y b <-> In y (w :: a))).
      { intros y Ny. split; intros Hy.
        - destruct (combine_left b b' y ltac:(destruct Tb; congruence) Hy) as (y' & Hy'). apply replace_pairs in Hy'; [|exact HL|lia].
          destruct Hy' as [Q|(i & _ & Q & _)]; [injection Q as -> _; left; reflexivity|]. right. eapply nth_error_In; exact Q.
        - destruct Hy as [-> |Hy]; [eapply in_combine_l; exact Wb|]. destruct (combine_left a a' y HL Hy) as (y' & Hy'). apply combine_nth_in in Hy' as (i & Hi & Hi').
          apply (in_combine_l _ b' _ y'). apply replace_pairs; [exact HL|lia|]. right. exists i. split; [intros ->; congruence|auto]. }
      assert (Vb' : forall y, y <> v' -> (In y b' <-> In y (w' :: a'))).
      { intros y Ny. split; intros Hy.
        - destruct (combine_right b b' y ltac:(destruct Tb; congruence) Hy) as (y' & Hy'). apply replace_pairs in Hy'; [|exact HL|lia].
          destruct Hy' as [Q|(i & _ & _ & Q)]; [injection Q as _ ->; left; reflexivity|]. right. eapply nth_error_In; exact Q.
        - destruct Hy as [-> |Hy]; [eapply in_combine_r; exact Wb|]. destruct (combine_right a a' y HL Hy) as (y' & Hy'). apply combine_nth_in in Hy' as (i & Hi & Hi').
          apply (in_combine_r b _ y' _). apply replace_pairs; [exact HL|lia|]. right. exists i. split; [intros ->; congruence|auto]. }
      destruct (in_dec Nat.eq_dec v b) as [J|J].
      * assert (Hvb : In (v, v') (combine b b')).
        { destruct (combine_left b b' v ltac:(destruct Tb; congruence) J) as (v2 & Hv2). replace v' with v2; [exact Hv2|]. apply replace_pairs in Hv2; [|exact HL|lia].
          destruct Hv2 as [Q|(i & _ & Q1 & Q2)]; [congruence|]. symmetry. apply (lk_eq _ _ _ _ _ _ LK v v' v v2); [right; exact Hv| |reflexivity].
          right. apply combine_nth_in. exists i. auto. }
        exists (psub K v w b), (psub K v' w' b'). destruct Tb as [TB TB']. split; [split; rewrite psub_len; assumption|]. split; [apply psub_range; assumption|].
        split; [apply E_sub; auto; [split; assumption|exact (M p Lp)]|]. split; intros y; rewrite psub_in; auto; try lia.
        -- split; intros [Q1 Q2]; (split; [apply (Vb y Q2); exact Q1|exact Q2]).
        -- eapply in_combine_l; exact Wb.
        -- split; intros [Q1 Q2]; (split; [apply (Vb' y Q2); exact Q1|exact Q2]).
        -- eapply in_combine_r; exact Wb.
      * assert (J' : ~ In v' b').
        { intros Q. destruct (combine_right b b' v' ltac:(destruct Tb; congruence) Q) as (v2 & Hv2). apply J. replace v with v2; [eapply in_combine_l; exact Hv2|].
          apply replace_pairs in Hv2; [|exact HL|lia]. destruct Hv2 as [Q0|(i & _ & Q1 & Q2)]; [congruence|]. symmetry. apply (lk_eq _ _ _ _ _ _ LK v v' v2 v'); [right; exact Hv| |reflexivity].
          right. apply combine_nth_in. exists i. auto. }
        exists b, b'. split; [exact Tb|]. split; [exact Fb|]. split; [apply (E_le _ (K + l)); [exact Tb|lia|exact (M p Lp)]|]. split; intros y; split.
        -- intros Q. assert (y <> v) by (intros ->; auto). split; [apply Vb; assumption|assumption].
        -- intros [Q1 Q2]. apply Vb; assumption.
        -- intros Q. assert (y <> v') by (intros ->; auto). split; [apply Vb'; assumption|assumption].
        -- intros [Q1 Q2]. apply Vb'; assumption.
Qed.

Lemma nodup_or (a : list nat) : NoDup a \/ exists i j u, i <> j /\ nth_error a i = Some u /\ nth_error a j = Some u.
Proof.
  induction a as [|b a [IH|(i & j & u & N & H1 & H2)]]; [left; constructor| |right; exists (S i), (S j), u; auto].
  destruct (in_dec Nat.eq_dec b a) as [I|I]; [|left; constructor; assumption]. right. apply In_nth_error in I as (i & I). exists 0, (S i), b. auto.
Qed.
(** Few values: a tuple lists them all. *)
Lemma EE_small l a a' w w' : tup a a' -> Forall (fun y => y < n) (w :: a) -> EE l a a' w w' -> length (nodup Nat.eq_dec (w :: a)) <= K ->
  exists g g', tup g g' /\ Forall (fun y => y < n) g /\ E l g g' /\ (forall y, In y g <-> In y (w :: a)) /\ (forall y, In y g' <-> In y (w' :: a')).
Proof.
  intros T HF H HN. pose proof (EE_look _ _ _ _ _ T H) as LK. pose proof H as [H0 M]. pose proof T as [HA HA'].
  inversion HF as [|y z Fw Fa]; subst y z. assert (HL : length a = length a') by congruence.
  assert (Iw : In (w, w') (combine (w :: a) (w' :: a'))) by (left; reflexivity).
  destruct (in_dec Nat.eq_dec w a) as [I|I].
  - destruct (combine_left a a' w HL I) as (w2 & Hw).
    assert (w2 = w') as -> by (symmetry; apply (lk_eq _ _ _ _ _ _ LK _ _ _ _ Iw (or_intror Hw)); reflexivity).
    assert (I' : In w' a') by (eapply in_combine_r; exact Hw). exists a, a'. split; [exact T|]. split; [exact Fa|]. split; [exact H0|].
    split; intros y; cbn [In]; (split; [auto|intros [<- |Q]; assumption]).
  - destruct (nodup_or a) as [ND|(i & j & u & N & Hi & Hj)].
    { exfalso. rewrite nodup_fixed_point in HN by (constructor; assumption). cbn in HN. lia. }
    assert (Lj : j < K) by (rewrite <- HA; apply nth_error_Some; congruence). assert (Li : i < K) by (rewrite <- HA; apply nth_error_Some; congruence).
    destruct (nth_error a' i) as [ui|] eqn:Hi'; [|apply nth_error_None in Hi'; lia]. destruct (nth_error a' j) as [uj|] eqn:Hj'; [|apply nth_error_None in Hj'; lia].
    assert (ui = uj) as <-.
    { apply (lk_eq _ _ _ _ _ _ LK u ui u uj); [right; apply combine_nth_in; eauto|right; apply combine_nth_in; eauto|reflexivity]. }
    exists (replace a j w), (replace a' j w'). assert (Tb : tup (replace a j w) (replace a' j w')) by (apply tup_replace; assumption). destruct Tb as [TB TB'].
    assert (in1 : forall y, In y (replace a j w) <-> In y (w :: a)).
    { intros y. split; intros Hy.
      - destruct (combine_left (replace a j w) (replace a' j w') y ltac:(congruence) Hy) as (y' & Hy'). apply replace_pairs in Hy'; [|exact HL|lia].
        destruct Hy' as [Q|(q & _ & Q & _)]; [injection Q as -> _; left; reflexivity|]. right. eapply nth_error_In; exact Q.
      - assert (exists y', In (y, y') (combine (replace a j w) (replace a' j w'))) as (y' & Q); [|eapply in_combine_l; exact Q].
        destruct Hy as [<- |Hy]; [exists w'; apply replace_pairs; [exact HL|lia|auto]|]. destruct (combine_left a a' y HL Hy) as (y' & Hy'). apply combine_nth_in in Hy' as (q & Hq & Hq').
        destruct (Nat.eq_dec q j) as [-> |Nq]; [exists ui|exists y']; (apply replace_pairs; [exact HL|lia|]); right; [exists i; split; [exact N|]; split; congruence|exists q; auto]. }
    assert (in2 : forall y, In y (replace a' j w') <-> In y (w' :: a')).
    { intros y. split; intros Hy.
      - destruct (combine_right (replace a j w) (replace a' j w') y ltac:(congruence) Hy) as (y' & Hy'). apply replace_pairs in Hy'; [|exact HL|lia].
        destruct Hy' as [Q|(q & _ & _ & Q)]; [injection Q as _ ->; left; reflexivity|]. right. eapply nth_error_In; exact Q.
      - assert (exists y', In (y', y) (combine (replace a j w) (replace a' j w'))) as (y' & Q); [|eapply in_combine_r; exact Q].
        destruct Hy as [<- |Hy]; [exists w; apply replace_pairs; [exact HL|lia|auto]|]. destruct (combine_right a a' y HL Hy) as (y' & Hy'). apply combine_nth_in in Hy' as (q & Hq & Hq').
        destruct (Nat.eq_dec q j) as [-> |Nq]; [exists u|exists y']; (apply replace_pairs; [exact HL|lia|]); right; [exists i; split; [exact N|]; split; congruence|exists q; auto]. }
    split; [split; assumption|]. split; [|split; [exact (M j Lj)|split; assumption]].
    rewrite Forall_forall in *. intros y Hy. apply HF, in1, Hy.
Qed.
End Pair.
