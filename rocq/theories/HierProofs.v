(** Counting in the graphs of HierSpec. *)
From Coq Require Import List Arith Lia Bool Permutation.
From Verif Require Import LiftSpec BlindSpec.
From Verif Require Import HierSpec.
Import ListNotations.
Open Scope nat_scope.

(** ** Bit graphs *)
Fixpoint matchb (P : list (option bool)) (f : list bool) : bool :=
  match P, f with
  | [], [] => true
  | p :: P', b :: f' => match p with Some c => eqb b c | None => true end && matchb P' f'
  | _, _ => false
  end.
Fixpoint nones (P : list (option bool)) : nat := match P with [] => 0 | None :: P' => S (nones P') | Some _ :: P' => nones P' end.
Definition cnt (P : list (option bool)) (p : bool) : nat := length (filter (fun f => matchb P f && eqb (parity f) p) (vectors (length P))).

Lemma filter_map_len {A B} (g : A -> B) (P : B -> bool) l : length (filter P (map g l)) = length (filter (fun a => P (g a)) l).
Proof. induction l as [|a l IH]; cbn; auto. destruct (P (g a)); cbn; auto. Qed.
Lemma filter_ext_len {A} (P Q : A -> bool) l : (forall a, In a l -> P a = Q a) -> length (filter P l) = length (filter Q l).
Proof. intros H. f_equal. apply filter_ext_in. auto. Qed.
Lemma filter_false {A} (P : A -> bool) l : (forall a, In a l -> P a = false) -> filter P l = [].
Proof. induction l as [|a l IH]; intros H; cbn; auto. rewrite (H a) by (left; auto). apply IH. intros; apply H; right; auto. Qed.

Lemma cnt_cons q P p : cnt (q :: P) p = match q with Some b => cnt P (xorb b p) | None => cnt P p + cnt P (negb p) end.
Proof.
  unfold cnt. cbn [length vectors]. rewrite filter_app, app_length, !filter_map_len. cbn [matchb parity fold_right].
  destruct q as [[|]|].
  - rewrite (filter_false _ (vectors (length P))) by (intros; reflexivity). cbn [length Nat.add]. apply filter_ext_len. intros f _. cbn.
    fold (parity f). destruct (matchb P f), (parity f), p; reflexivity.
  - match goal with |- _ + length (filter ?Q _) = _ => rewrite (filter_false Q) by (intros; reflexivity) end. rewrite Nat.add_0_r. apply filter_ext_len. intros f _. cbn.
    fold (parity f). destruct (matchb P f), (parity f), p; reflexivity.
  - f_equal; apply filter_ext_len; intros f _; cbn; fold (parity f); destruct (matchb P f), (parity f), p; reflexivity.
Qed.
Lemma cnt_full P : nones P = 0 -> cnt P true + cnt P false = 1.
Proof.
  induction P as [|[b|] P IH]; intros H; [reflexivity| |discriminate H]. rewrite !cnt_cons. specialize (IH H). destruct b; cbn; lia.
Qed.
Lemma cnt_free P n p : nones P = S n -> cnt P p = 2 ^ n.
Proof.
  revert n p. induction P as [|[b|] P IH]; intros n p H; [discriminate H| |]; rewrite cnt_cons.
  - apply IH. exact H.
  - cbn in H. injection H as H. destruct n as [|n].
    + pose proof (cnt_full P H). destruct p; cbn; lia.
    + rewrite !(IH n) by auto. cbn. lia.
Qed.

Lemma vectors_len m f : In f (vectors m) -> length f = m.
Proof.
  revert f. induction m as [|m IH]; intros f; cbn; [intros [<-|[]]; auto|]. intros H. apply in_app_or in H as [H|H]; apply in_map_iff in H as (g & <- & Hg); cbn; auto.
Qed.
Lemma vectors_all m f : length f = m -> In f (vectors m).
Proof.
  revert f. induction m as [|m IH]; intros [|b f] H; try discriminate; cbn; [auto|]. apply in_or_app. injection H as H. destruct b; [right|left]; apply in_map; auto.
Qed.
Lemma vectors_nodup m : NoDup (vectors m).
Proof.
  induction m as [|m IH]; cbn; [constructor; [intros []|constructor]|].
  assert (HI : forall b, NoDup (map (cons b) (vectors m))).
  { intros b. apply FinFun.Injective_map_NoDup; auto. intros x y E. injection E; auto. }
  apply NoDup_app_iff_2 || idtac.
  assert (HA : forall l l' : list (list bool), NoDup l -> NoDup l' -> (forall x, In x l -> ~ In x l') -> NoDup (l ++ l')).
  { clear. induction l as [|a l IH]; intros l' H H' HD; cbn; auto. inversion H; subst. constructor.
    - intros X. apply in_app_or in X as [X|X]; [auto|]. apply (HD a); cbn; auto.
    - apply IH; auto. intros x Hx. apply HD. right; auto. }
  apply HA; auto. intros x H H'. apply in_map_iff in H as (y & <- & _). apply in_map_iff in H' as (z & E & _). discriminate E.
Qed.

(** The conditions that nodes [ws] in other places pose on a node in place [i]. *)
Definition conds (r i : nat) (ws : list (nat * list bool)) : list (option bool) :=
  map (fun j => if j =? i then Some false else match find (fun w => fst w =? j) ws with Some w => Some (nth i (snd w) false) | None => None end) (seq 0 r).
Lemma matchb_iff P f : length f = length P -> (matchb P f = true <-> forall j b, nth_error P j = Some (Some b) -> nth j f false = b).
Proof.
  revert f. induction P as [|p P IH]; intros [|b f] H; try discriminate; cbn.
  - split; auto. intros _ [|j] b X; discriminate X.
  - injection H as H. rewrite andb_true_iff, (IH f H). split.
    + intros [H1 H2] [|j] c X; cbn in X; [injection X as ->; apply eqb_prop; auto|auto].
    + intros X. split; [|intros j c E; apply (X (S j) c E)]. destruct p as [c|]; auto. apply eqb_true_iff. apply (X 0 c eq_refl).
Qed.
Lemma find_part ws j f : NoDup (map fst ws) -> In (j, f) ws -> find (fun w : nat * list bool => fst w =? j) ws = Some (j, f).
Proof.
  induction ws as [|[i g] ws IH]; cbn; intros N H; [destruct H|]. inversion N; subst. destruct H as [E|H].
  - injection E as -> ->. rewrite Nat.eqb_refl. auto.
  - destruct (Nat.eqb_spec i j) as [->|]; auto. exfalso. match goal with X : ~ In j _ |- _ => apply X end. apply (in_map fst) in H. exact H.
Qed.
Lemma find_no ws j : ~ In j (map fst ws) -> find (fun w : nat * list bool => fst w =? j) ws = None.
Proof.
  induction ws as [|[i g] ws IH]; cbn; intros H; auto. destruct (Nat.eqb_spec i j) as [->|]; [exfalso; apply H; auto|]. apply IH. tauto.
Qed.
Lemma find_some ws j w : find (fun w : nat * list bool => fst w =? j) ws = Some w -> In w ws /\ fst w = j.
Proof. intros H. apply find_some in H as [H1 H2]. apply Nat.eqb_eq in H2. auto. Qed.
Lemma conds_nth r i ws j : j < r -> nth_error (conds r i ws) j =
  Some (if j =? i then Some false else match find (fun w => fst w =? j) ws with Some w => Some (nth i (snd w) false) | None => None end).
Proof.
  intros H. unfold conds. rewrite nth_error_map, (nth_error_nth' _ 0) by (rewrite seq_length; auto). rewrite seq_nth by auto. reflexivity.
Qed.
Lemma conds_len r i ws : length (conds r i ws) = r.
Proof. unfold conds. rewrite map_length, seq_length. auto. Qed.
Lemma conds_match r i ws f : i < r -> length f = r -> NoDup (map fst ws) -> (forall w, In w ws -> fst w < r /\ fst w <> i) ->
  (matchb (conds r i ws) f = true <-> nth i f false = false /\ forall w, In w ws -> nth (fst w) f false = nth i (snd w) false).
Proof.
  intros Hi Hf N HW. rewrite matchb_iff by (rewrite conds_len; auto). split.
  - intros H. split.
    + apply (H i). rewrite conds_nth, Nat.eqb_refl; auto.
    + intros [j g] Hw. destruct (HW _ Hw) as [H1 H2]. cbn [fst snd] in *. apply (H j). rewrite conds_nth by auto.
      rewrite (proj2 (Nat.eqb_neq _ _) H2), (find_part _ _ _ N Hw). reflexivity.
  - intros [H1 H2] j b E. assert (Hj : j < r). { apply nth_error_Some_lt in E || (assert (X : nth_error (conds r i ws) j <> None) by congruence; apply nth_error_Some in X; rewrite conds_len in X; exact X). }
    rewrite conds_nth in E by auto. destruct (Nat.eqb_spec j i) as [->|].
    + injection E as <-. auto.
    + destruct (find _ ws) as [w|] eqn:Ef; [|discriminate]. injection E as <-. apply find_some in Ef as [E1 <-]. auto.
Qed.
Lemma nones_filter l (g : nat -> option bool) : nones (map g l) = length (filter (fun j => match g j with None => true | _ => false end) l).
Proof. induction l as [|a l IH]; cbn; auto. destruct (g a); cbn; auto. Qed.
Lemma complement_len r (l : list nat) : NoDup l -> (forall x, In x l -> x < r) ->
  length (filter (fun j => negb (existsb (Nat.eqb j) l)) (seq 0 r)) = r - length l.
Proof.
  intros N H. assert (E : length (filter (fun j => existsb (Nat.eqb j) l) (seq 0 r)) = length l).
  { apply Permutation_length, NoDup_Permutation; auto; [apply NoDup_filter, seq_NoDup|]. intros x. rewrite filter_In, in_seq. split.
    - intros [_ X]. apply existsb_exists in X as (y & Hy & Ey). apply Nat.eqb_eq in Ey. subst; auto.
    - intros Hx. split; [specialize (H x Hx); lia|]. apply existsb_exists. exists x. split; auto. apply Nat.eqb_refl. }
  assert (F : forall (P : nat -> bool) k, length (filter P k) + length (filter (fun j => negb (P j)) k) = length k).
  { intros P k. induction k as [|a k IH]; cbn; auto. destruct (P a); cbn; lia. }
  specialize (F (fun j => existsb (Nat.eqb j) l) (seq 0 r)). rewrite seq_length in F. cbn beta in F. lia.
Qed.
Lemma conds_nones r i ws : i < r -> NoDup (map fst ws) -> (forall w, In w ws -> fst w < r /\ fst w <> i) -> nones (conds r i ws) = r - S (length ws).
Proof.
  intros Hi N HW. unfold conds. rewrite nones_filter.
  rewrite <- (map_length fst ws). change (S (length (map fst ws))) with (length (i :: map fst ws)). rewrite <- complement_len.
  - apply filter_ext_len. intros j _. cbn [existsb]. rewrite negb_orb. destruct (Nat.eqb_spec j i); cbn; auto.
    destruct (in_dec Nat.eq_dec j (map fst ws)) as [Hin|Hin].
    + pose proof Hin as H2. apply in_map_iff in Hin as ([j' f] & <- & Hin). cbn [fst] in *. rewrite (find_part _ _ _ N Hin).
      symmetry. apply negb_false_iff, existsb_exists. exists j'. split; auto. apply Nat.eqb_refl.
    + rewrite (find_no _ _ Hin). symmetry. apply negb_true_iff. apply not_true_is_false. intros X. apply existsb_exists in X as (y & Hy & Ey). apply Nat.eqb_eq in Ey. subst; auto.
  - constructor; auto. intros X. apply in_map_iff in X as (w & E & Hw). destruct (HW w Hw). congruence.
  - intros x [<-|Hx]; auto. apply in_map_iff in Hx as (w & <- & Hw). apply HW; auto.
Qed.

Lemma choices_count r i p ws : i < r -> NoDup (map fst ws) -> (forall w, In w ws -> fst w < r /\ fst w <> i) ->
  length (filter (fun f => forallb (fun w => eqb (nth i (snd w) false) (nth (fst w) f false)) ws) (choices r i p)) = cnt (conds r i ws) p.
Proof.
  intros Hi N HW. unfold cnt, choices. rewrite conds_len.
  assert (E : forall (P Q : list bool -> bool) l, filter P (filter Q l) = filter (fun f => Q f && P f) l).
  { intros P Q l. induction l as [|a l IH]; cbn; auto. destruct (Q a); cbn; [destruct (P a); cbn; rewrite IH|]; auto. }
  rewrite E. apply filter_ext_len. intros f Hf. apply vectors_len in Hf.
  assert (HM : matchb (conds r i ws) f = negb (nth i f false) && forallb (fun w => eqb (nth i (snd w) false) (nth (fst w) f false)) ws).
  { apply eq_true_iff_eq. rewrite (conds_match r i ws f Hi Hf N HW), andb_true_iff, negb_true_iff, forallb_forall.
    split; intros [H1 H2]; split; auto; intros w Hw; specialize (H2 w Hw); [rewrite H2; apply eqb_reflx|apply eqb_prop in H2; auto]. }
  rewrite HM. destruct (negb (nth i f false)), (eqb (parity f) p); cbn; auto; rewrite ?andb_true_r, ?andb_false_r; auto.
Qed.

Lemma spots_in r tw i f : In (i, f) (spots r tw) <-> i < r /\ length f = r /\ nth i f false = false /\ parity f = (tw && (i =? 0)).
Proof.
  unfold spots. rewrite in_flat_map. split.
  - intros (j & Hj & H). apply in_seq in Hj. apply in_map_iff in H as (g & E & H). injection E as -> ->. unfold choices in H. apply filter_In in H as [H1 H2].
    apply andb_true_iff in H2 as [H2 H3]. apply negb_true_iff in H2. apply eqb_prop in H3. apply vectors_len in H1. repeat split; auto. lia.
  - intros (H1 & H2 & H3 & H4). exists i. split; [apply in_seq; lia|]. apply in_map. unfold choices. apply filter_In. split; [apply vectors_all; auto|].
    rewrite H3, H4. cbn. apply eqb_reflx.
Qed.
Lemma spots_nodup r tw : NoDup (spots r tw).
Proof.
  unfold spots. assert (N : NoDup (seq 0 r)) by apply seq_NoDup. induction N as [|i l Hi N IH]; cbn; [constructor|].
  assert (HA : forall l l' : list (nat * list bool), NoDup l -> NoDup l' -> (forall x, In x l -> ~ In x l') -> NoDup (l ++ l')).
  { clear. induction l as [|a l IH]; intros l' H H' HD; cbn; auto. inversion H; subst. constructor.
    - intros X. apply in_app_or in X as [X|X]; [auto|]. apply (HD a); cbn; auto.
    - apply IH; auto. intros x Hx. apply HD. right; auto. }
  apply HA; auto.
  - apply FinFun.Injective_map_NoDup; [intros x y E; injection E; auto|]. apply NoDup_filter, vectors_nodup.
  - intros x H H'. apply in_map_iff in H as (f & <- & _). apply in_flat_map in H' as (j & Hj & H'). apply in_map_iff in H' as (g & E & _). injection E as -> _. auto.
Qed.

Lemma flat_len {A B} (f : A -> list B) l n (P : A -> bool) : (forall a, In a l -> length (f a) = if P a then n else 0) -> length (flat_map f l) = length (filter P l) * n.
Proof.
  induction l as [|a l IH]; intros H; cbn; auto. rewrite app_length, (H a (or_introl eq_refl)), IH by (intros b Hb; apply H; right; exact Hb). destruct (P a); cbn; lia.
Qed.
Lemma filter_flat {A B} (P : B -> bool) (f : A -> list B) l : filter P (flat_map f l) = flat_map (fun a => filter P (f a)) l.
Proof. induction l as [|a l IH]; cbn; auto. rewrite filter_app, IH. auto. Qed.

(** Nodes that agree with all of [ws], which lie in different places. *)
Lemma extensions r tw ws : NoDup (map fst ws) -> (forall w, In w ws -> fst w < r) -> S (length ws) < r ->
  length (filter (fun v => forallb (fun w => agree w v) ws) (spots r tw)) = (r - length ws) * 2 ^ (r - 2 - length ws).
Proof.
  intros N HW HL. unfold spots. rewrite filter_flat.
  rewrite (flat_len _ _ (2 ^ (r - 2 - length ws)) (fun i => negb (existsb (Nat.eqb i) (map fst ws)))).
  - f_equal. rewrite complement_len; auto; [rewrite map_length; auto|]. intros x Hx. apply in_map_iff in Hx as (w & <- & Hw). auto.
  - intros i Hi. apply in_seq in Hi. rewrite filter_map_len. destruct (existsb (Nat.eqb i) (map fst ws)) eqn:E; cbn [negb].
    + apply existsb_exists in E as (j & Hj & Ej). apply Nat.eqb_eq in Ej. subst j. apply in_map_iff in Hj as (w & Ew & Hw).
      rewrite filter_false; auto. intros f _. apply not_true_is_false. intros X. rewrite forallb_forall in X. specialize (X w Hw). unfold agree in X. cbn [fst] in X.
      rewrite Ew, Nat.eqb_refl in X. discriminate X.
    + assert (HN : forall w, In w ws -> fst w < r /\ fst w <> i).
      { intros w Hw. split; auto. intros X. apply not_true_iff_false in E. apply E. apply existsb_exists. exists (fst w). split; [apply in_map; auto|]. rewrite X. apply Nat.eqb_refl. }
      rewrite (filter_ext_len _ (fun f => forallb (fun w => eqb (nth i (snd w) false) (nth (fst w) f false)) ws)).
      * rewrite choices_count by (auto; lia). apply cnt_free. rewrite conds_nones by (auto; lia). lia.
      * intros f _. cbn [fst snd]. apply eq_true_iff_eq. rewrite !forallb_forall. unfold agree. cbn [fst snd]. split; intros X w Hw; specialize (X w Hw).
        -- apply andb_true_iff in X. apply X.
        -- rewrite (proj2 (Nat.eqb_neq _ _) (proj2 (HN w Hw))). exact X.
Qed.
Lemma spots_len r tw : 2 <= r -> length (spots r tw) = r * 2 ^ (r - 2).
Proof.
  intros H. pose proof (extensions r tw [] ltac:(constructor) ltac:(intros ? []) ltac:(cbn; lia)) as E. cbn [length forallb] in E. rewrite !Nat.sub_0_r in E. rewrite <- E.
  f_equal. clear E. induction (spots r tw) as [|a l IH]; cbn; congruence.
Qed.

(** *** The graph *)
Section Graph.
Variables (r : nat) (tw : bool).
Notation n := (length (spots r tw)).
Lemma spot_in u : u < n -> In (spot r tw u) (spots r tw).
Proof. intros H. apply nth_In. auto. Qed.
Lemma agree_sym a b : agree a b = agree b a.
Proof. unfold agree. rewrite (Nat.eqb_sym (fst a)). f_equal. destruct (nth _ _ _), (nth _ _ _); reflexivity. Qed.
Lemma agree_irrefl a : agree a a = false.
Proof. unfold agree. rewrite Nat.eqb_refl. reflexivity. Qed.
Lemma bit_in u v : In (u, v) (bit_graph r tw) <-> u < v /\ v < n /\ agree (spot r tw u) (spot r tw v) = true.
Proof.
  unfold bit_graph. cbv zeta. rewrite filter_In, in_prod_iff, !in_seq. cbn [fst snd]. rewrite andb_true_iff, Nat.ltb_lt. intuition lia.
Qed.
Lemma bit_adjacent u v : adjacent (bit_graph r tw) u v <-> u < n /\ v < n /\ agree (spot r tw u) (spot r tw v) = true.
Proof.
  unfold adjacent. rewrite !bit_in. rewrite (agree_sym (spot r tw v)). split; [intuition lia|]. intros (H1 & H2 & H3).
  assert (u <> v) by (intros ->; rewrite agree_irrefl in H3; discriminate). split; auto. destruct (Nat.lt_ge_cases u v); [left|right]; intuition lia.
Qed.
Lemma bit_ok : graph_ok (bit_graph r tw) n.
Proof. intros u v H. apply bit_in in H. lia. Qed.

Lemma clique_places s : clique (bit_graph r tw) n s -> NoDup (map fst (map (spot r tw) s)) /\ forall w, In w (map (spot r tw) s) -> fst w < r.
Proof.
  intros (_ & N & HR & HA). split.
  - rewrite map_map. revert N HA. clear HR. induction s as [|u s IH]; intros N HA; cbn; constructor; inversion N; subst.
    + intros X. apply in_map_iff in X as (v & E & Hv). assert (X : adjacent (bit_graph r tw) u v) by (apply HA; cbn; auto; intros ->; auto).
      apply bit_adjacent in X as (_ & _ & X). unfold agree in X. rewrite E, Nat.eqb_refl in X. discriminate X.
    + apply IH; auto. intros a b Ha Hb. apply HA; cbn; auto.
  - intros w Hw. apply in_map_iff in Hw as (u & <- & Hu). specialize (HR u Hu). pose proof (spot_in u HR) as X. destruct (spot r tw u) as [i f]. apply spots_in in X. cbn. tauto.
Qed.
Lemma count_spots (P : nat * list bool -> bool) : length (filter (fun u => P (spot r tw u)) (seq 0 n)) = length (filter P (spots r tw)).
Proof.
  rewrite <- (filter_map_len (spot r tw) P). do 2 f_equal. unfold spot. apply (nth_ext _ _ (0, []) (0, [])); [rewrite map_length, seq_length; auto|].
  intros i Hi. rewrite map_length, seq_length in Hi. rewrite (nth_indep _ (0, []) (nth 0 (spots r tw) (0, []))) by (rewrite map_length, seq_length; auto).
  rewrite (map_nth (fun u => nth u (spots r tw) (0, []))), seq_nth by auto. auto.
Qed.
Lemma bit_regular : 3 <= r -> clique_regular (bit_graph r tw) n (r - 2) (fun s => (r - s) * 2 ^ (r - 2 - s)).
Proof.
  intros Hr s Hs HL. destruct (clique_places s Hs) as [N HW].
  exists (filter (fun v => forallb (fun w => agree w (spot r tw v)) (map (spot r tw) s)) (seq 0 n)). split; [apply NoDup_filter, seq_NoDup|]. split.
  - rewrite (count_spots (fun v => forallb (fun w => agree w v) (map (spot r tw) s))), extensions; auto; rewrite map_length; auto. lia.
  - intros v. rewrite filter_In, in_seq, forallb_forall. destruct Hs as (Hne & _ & HR & _). split.
    + intros [H1 H2] u Hu. apply bit_adjacent. split; [apply HR; auto|]. split; [lia|]. apply H2. apply in_map. auto.
    + intros H. split.
      * destruct s as [|u s]; [congruence|]. specialize (H u (or_introl eq_refl)). apply bit_adjacent in H. lia.
      * intros w Hw. apply in_map_iff in Hw as (u & <- & Hu). specialize (H u Hu). apply bit_adjacent in H. tauto.
Qed.
End Graph.

(** *** A choice for all places *)
Fixpoint xsum (n : nat) (g : nat -> bool) : bool := match n with 0 => false | S n' => xorb (xsum n' g) (g n') end.
Lemma xsum_ext n g h : (forall i, i < n -> g i = h i) -> xsum n g = xsum n h.
Proof. induction n as [|n IH]; intros H; cbn; auto. rewrite IH, (H n) by auto. auto. Qed.
Lemma xsum_xor n g h : xsum n (fun i => xorb (g i) (h i)) = xorb (xsum n g) (xsum n h).
Proof. induction n as [|n IH]; cbn; auto. rewrite IH. destruct (xsum n g), (xsum n h), (g n), (h n); reflexivity. Qed.
Lemma xsum_sym n (M : nat -> nat -> bool) : (forall i j, i < n -> j < n -> M i j = M j i) -> (forall i, i < n -> M i i = false) ->
  xsum n (fun i => xsum n (M i)) = false.
Proof.
  induction n as [|n IH]; intros HS HD; cbn [xsum]; auto. rewrite (xsum_xor n (fun i => xsum n (M i)) (fun i => M i n)), IH by auto.
  rewrite (xsum_ext n (fun i => M i n) (M n)) by auto. rewrite HD by auto. destruct (xsum n (M n)); reflexivity.
Qed.
Lemma parity_xsum f : parity f = xsum (length f) (fun j => nth j f false).
Proof.
  induction f as [|b f IH] using rev_ind; [reflexivity|]. unfold parity. rewrite fold_right_app, app_length, Nat.add_1_r. cbn [fold_right xsum].
  rewrite app_nth2, Nat.sub_diag by lia. cbn [nth]. rewrite (xsum_ext (length f) _ (fun j => nth j f false)) by (intros j Hj; rewrite app_nth1; auto). rewrite <- IH.
  rewrite xorb_false_r. clear. induction f as [|c f IH]; cbn; [destruct b; reflexivity|]. rewrite IH. unfold parity. destruct c, (fold_right xorb false f), b; reflexivity.
Qed.
Lemma xsum_one r tw : 0 < r -> xsum r (fun i => tw && (i =? 0)) = tw.
Proof.
  intros H. destruct r as [|r]; [lia|]. clear H. induction r as [|r IH]; [cbn; rewrite andb_true_r; destruct tw; reflexivity|].
  cbn [xsum] in *. rewrite IH. replace (S r =? 0) with false by reflexivity. rewrite andb_false_r. destruct tw; reflexivity.
Qed.
Lemma no_clique r s : 0 < r -> clique (bit_graph r true) (length (spots r true)) s -> length s <> r.
Proof.
  intros Hr Hs HL. destruct (clique_places r true s Hs) as [N HW]. destruct Hs as (_ & _ & HR & HA).
  assert (HP : forall i, i < r -> In i (map fst (map (spot r true) s))).
  { assert (I : incl (seq 0 r) (map fst (map (spot r true) s))).
    { apply NoDup_length_incl; [exact N|rewrite seq_length, !map_length; lia|]. intros x Hx. apply in_map_iff in Hx as (w & <- & Hw). apply in_seq. specialize (HW w Hw). lia. }
    intros i Hi. apply I, in_seq. lia. }
  assert (HC : forall i, i < r -> exists u, In u s /\ fst (spot r true u) = i).
  { intros i Hi. specialize (HP i Hi). apply in_map_iff in HP as (w & Ew & Hw). apply in_map_iff in Hw as (u & <- & Hu). eauto. }
  set (F := fun i => match find (fun u => fst (spot r true u) =? i) s with Some u => snd (spot r true u) | None => [] end).
  assert (HF : forall i, i < r -> exists u, In u s /\ spot r true u = (i, F i)).
  { intros i Hi. unfold F. destruct (find _ s) as [u|] eqn:E.
    - apply List.find_some in E as [E1 E2]. apply Nat.eqb_eq in E2. exists u. split; auto. rewrite <- E2. destruct (spot r true u); reflexivity.
    - destruct (HC i Hi) as (u & Hu & Eu). pose proof (find_none _ _ E u Hu) as X. cbn in X. rewrite Eu, Nat.eqb_refl in X. discriminate. }
  assert (HI : forall i, i < r -> length (F i) = r /\ nth i (F i) false = false /\ parity (F i) = (true && (i =? 0))).
  { intros i Hi. destruct (HF i Hi) as (u & Hu & Eu). pose proof (spot_in r true u (HR u Hu)) as X. rewrite Eu in X. apply spots_in in X. tauto. }
  assert (HSy : forall i j, i < r -> j < r -> nth j (F i) false = nth i (F j) false).
  { intros i j Hi Hj. destruct (Nat.eq_dec i j) as [->|D]; auto. destruct (HF i Hi) as (u & Hu & Eu), (HF j Hj) as (v & Hv & Ev).
    assert (X : adjacent (bit_graph r true) u v) by (apply HA; auto; intros ->; congruence). apply bit_adjacent in X as (_ & _ & X). unfold agree in X. rewrite Eu, Ev in X.
    cbn [fst snd] in X. apply andb_true_iff in X as [_ X]. apply eqb_prop in X. exact X. }
  assert (E : xsum r (fun i => xsum r (fun j => nth j (F i) false)) = true).
  { rewrite (xsum_ext r _ (fun i => true && (i =? 0))); [apply xsum_one; auto|]. intros i Hi. destruct (HI i Hi) as (H1 & _ & <-). rewrite parity_xsum, H1. reflexivity. }
  rewrite (xsum_sym r (fun i j => nth j (F i) false)) in E; [discriminate|exact HSy|]. intros i Hi. apply (HI i Hi).
Qed.
Lemma some_clique r : 0 < r -> exists s, clique (bit_graph r false) (length (spots r false)) s /\ length s = r.
Proof.
  intros Hr. set (z := repeat false r).
  assert (Hz : forall i, i < r -> exists u, u < length (spots r false) /\ spot r false u = (i, z)).
  { intros i Hi. assert (X : In (i, z) (spots r false)).
    { apply spots_in. split; auto. split; [apply repeat_length|]. split.
      - unfold z. destruct (Nat.lt_ge_cases i r); [|lia]. clear. revert i. induction r as [|r IH]; intros [|i]; cbn; auto.
      - cbn. unfold z, parity. clear. induction r as [|r IH]; cbn; auto. rewrite IH. reflexivity. }
    apply (In_nth _ _ (0, [])) in X as (u & Hu & Eu). eauto. }
  assert (exists us, Forall2 (fun i u => u < length (spots r false) /\ spot r false u = (i, z)) (seq 0 r) us) as (us & H).
  { assert (X : forall i, In i (seq 0 r) -> i < r) by (intros i Hi; apply in_seq in Hi; lia). induction (seq 0 r) as [|i l IH]; [exists []; constructor|].
    destruct (Hz i (X i (or_introl eq_refl))) as (u & Hu). destruct IH as (us & H); [intros; apply X; right; auto|]. exists (u :: us). constructor; auto. }
  assert (HE : map (spot r false) us = map (fun i => (i, z)) (seq 0 r)).
  { clear - H. induction H as [|i u l us [_ E] _ IH]; cbn; auto. rewrite E, IH. auto. }
  pose proof (f_equal (@length _) HE) as HL. rewrite !map_length, seq_length in HL.
  assert (HN : NoDup us).
  { apply (NoDup_map_inv (spot r false)). rewrite HE. apply FinFun.Injective_map_NoDup; [intros x y E; injection E; auto|apply seq_NoDup]. }
  assert (HI : forall u, In u us -> u < length (spots r false) /\ exists i, spot r false u = (i, z)).
  { intros u Hu. clear - H Hu. induction H as [|i v l us [H1 H2] _ IH]; [destruct Hu|]. destruct Hu as [<-|Hu]; eauto. }
  exists us. split; [|lia]. split; [destruct us; [cbn in HL; lia|discriminate]|]. split; auto. split; [intros v Hv; apply HI; auto|].
  intros u v Hu Hv D. destruct (HI u Hu) as (Lu & i & Eu), (HI v Hv) as (Lv & j & Ev). apply bit_adjacent. split; auto. split; auto. rewrite Eu, Ev. unfold agree. cbn [fst snd].
  assert (i <> j). { intros ->. apply D. assert (X : nth_error us = nth_error us) by auto. clear X.
    apply In_nth_error in Hu as (a & Ha), Hv as (b & Hb).
    assert (Xa : nth_error (map (spot r false) us) a = Some (j, z)) by (rewrite nth_error_map, Ha; cbn; congruence).
    assert (Xb : nth_error (map (spot r false) us) b = Some (j, z)) by (rewrite nth_error_map, Hb; cbn; congruence).
    rewrite HE, nth_error_map in Xa, Xb. destruct (nth_error (seq 0 r) a) as [a'|] eqn:Ea; [|discriminate]. destruct (nth_error (seq 0 r) b) as [b'|] eqn:Eb; [|discriminate].
    cbn in Xa, Xb. assert (a' = b') by congruence. subst b'. assert (a = b); [|congruence].
    apply (proj1 (NoDup_nth_error (seq 0 r)) (seq_NoDup r 0)); [apply nth_error_Some; congruence|congruence]. }
  rewrite (proj2 (Nat.eqb_neq _ _) H0). cbn. assert (Z : forall a, nth a z false = false) by (intros a; unfold z; clear; revert a; induction r as [|r IH]; intros [|a]; cbn; auto).
  rewrite !Z. reflexivity.
Qed.

(** ** Cycles *)
Section Cycles.
Variables (es : list (nat * nat)) (size : nat) (nxt prv : nat -> nat).
Hypothesis nxt_lt : forall u, u < size -> nxt u < size.
Hypothesis prv_lt : forall u, u < size -> prv u < size.
Hypothesis nxt_prv : forall u, u < size -> nxt (prv u) = u.
Hypothesis prv_nxt : forall u, u < size -> prv (nxt u) = u.
Hypothesis apart : forall u, u < size -> nxt u <> u /\ prv u <> u /\ nxt u <> prv u.
Hypothesis cols : forall u v, In (u, v) es <-> u < size /\ v = nxt u.

Lemma step_adjacent u v : adjacent es u v <-> u < size /\ (v = nxt u \/ v = prv u).
Proof using nxt_lt prv_lt nxt_prv prv_nxt apart cols.
  unfold adjacent. rewrite !cols. split.
  - intros (_ & [ [H1 ->] | [H1 ->] ]); auto. split; auto. right. symmetry. auto.
  - intros (H & [-> | ->]); destruct (apart u H) as (A & B & _); (split; [congruence|]); [left; auto|right; split; auto; symmetry; auto].
Qed.
Lemma two_neighbours u : u < size -> count_nodes (adjacent es u) 2.
Proof using nxt_lt prv_lt nxt_prv prv_nxt apart cols.
  intros H. exists [nxt u; prv u]. split; [|split; [reflexivity|]].
  - constructor; [|constructor; [intros []|constructor]]. intros [E|[]]. destruct (apart u H) as (_ & _ & X). auto.
  - intros v. rewrite step_adjacent. cbn. intuition.
Qed.
Lemma cycle_closed c a : induced_cycle es c -> In a c -> In (nxt a) c.
Proof using nxt_lt prv_lt nxt_prv prv_nxt apart cols.
  intros (H3 & N & HA) Ha. apply In_nth_error in Ha as (i & Ei). set (k := length c) in *.
  assert (Hi : i < k) by (apply nth_error_Some; congruence).
  assert (L1 : (i + 1) mod k < k) by (apply Nat.mod_upper_bound; lia). assert (L2 : (i + (k - 1)) mod k < k) by (apply Nat.mod_upper_bound; lia).
  destruct (nth_error c ((i + 1) mod k)) as [b|] eqn:Eb; [|apply nth_error_None in Eb; lia].
  destruct (nth_error c ((i + (k - 1)) mod k)) as [d|] eqn:Ed; [|apply nth_error_None in Ed; lia].
  assert (M1 : (i + 1) mod k = if i =? k - 1 then 0 else i + 1).
  { destruct (Nat.eqb_spec i (k - 1)) as [->|]; [replace (k - 1 + 1) with k by lia; apply Nat.mod_same; lia|apply Nat.mod_small; lia]. }
  assert (M2 : (i + (k - 1)) mod k = if i =? 0 then k - 1 else i - 1).
  { destruct (Nat.eqb_spec i 0) as [->|]; [apply Nat.mod_small; lia|]. replace (i + (k - 1)) with (i - 1 + 1 * k) by lia. rewrite Nat.mod_add by lia. apply Nat.mod_small; lia. }
  assert (Ab : adjacent es a b).
  { apply (HA i ((i + 1) mod k)); auto. split; [|left; auto]. rewrite M1. destruct (i =? k - 1) eqn:E; [apply Nat.eqb_eq in E|]; lia. }
  assert (Ad : adjacent es a d).
  { apply (HA i ((i + (k - 1)) mod k)); auto. split; [rewrite M2; destruct (i =? 0) eqn:E; [apply Nat.eqb_eq in E|apply Nat.eqb_neq in E]; lia|right].
    rewrite M2. destruct (Nat.eqb_spec i 0) as [->|]; [replace (k - 1 + 1) with k by lia; rewrite Nat.mod_same by lia; reflexivity|]. replace (i - 1 + 1) with i by lia. symmetry. apply Nat.mod_small; lia. }
  assert (D : b <> d).
  { intros ->. assert (X : (i + 1) mod k = (i + (k - 1)) mod k) by (apply (proj1 (NoDup_nth_error c) N); [exact L1|congruence]). rewrite M1, M2 in X.
    destruct (Nat.eqb_spec i (k - 1)), (Nat.eqb_spec i 0); lia. }
  apply step_adjacent in Ab as (Hs & Ab), Ad as (_ & Ad). apply nth_error_In in Eb, Ed. destruct Ab as [-> | ->]; auto. destruct Ad as [-> | ->]; auto. congruence.
Qed.
Lemma cycle_range c a : induced_cycle es c -> In a c -> a < size.
Proof using nxt_lt prv_lt nxt_prv prv_nxt apart cols.
  intros H Ha. pose proof (cycle_closed c a H Ha) as Hn. pose proof H as (H3 & N & HA). apply In_nth_error in Ha as (i & Ei). set (k := length c) in *.
  assert (Hi : i < k) by (apply nth_error_Some; congruence). assert (L1 : (i + 1) mod k < k) by (apply Nat.mod_upper_bound; lia).
  destruct (nth_error c ((i + 1) mod k)) as [b|] eqn:Eb; [|apply nth_error_None in Eb; lia].
  assert (M1 : (i + 1) mod k = if i =? k - 1 then 0 else i + 1).
  { destruct (Nat.eqb_spec i (k - 1)) as [->|]; [replace (k - 1 + 1) with k by lia; apply Nat.mod_same; lia|apply Nat.mod_small; lia]. }
  assert (Ab : adjacent es a b).
  { apply (HA i ((i + 1) mod k)); auto. split; [|left; auto]. rewrite M1. destruct (i =? k - 1) eqn:E; [apply Nat.eqb_eq in E|]; lia. }
  apply step_adjacent in Ab. tauto.
Qed.
Lemma cycle_iter c a j : induced_cycle es c -> In a c -> In (Nat.iter j nxt a) c.
Proof using nxt_lt prv_lt nxt_prv prv_nxt apart cols. intros H Ha. induction j as [|j IH]; cbn; auto. apply cycle_closed; auto. Qed.
End Cycles.

Definition turn (from n u : nat) : nat := if u =? from + n - 1 then from else u + 1.
Definition back (from n u : nat) : nat := if u =? from then from + n - 1 else u - 1.
Lemma turn_mod from n i : i < n -> from + (i + 1) mod n = turn from n (from + i).
Proof.
  intros H. unfold turn. destruct (Nat.eqb_spec (from + i) (from + n - 1)).
  - replace (i + 1) with n by lia. rewrite Nat.mod_same by lia. lia.
  - rewrite Nat.mod_small by lia. lia.
Qed.
Lemma cycle_from_in from n u v : In (u, v) (cycle_from from n) <-> from <= u < from + n /\ v = turn from n u.
Proof.
  unfold cycle_from. rewrite in_map_iff. split.
  - intros (i & E & Hi). apply in_seq in Hi. injection E as <- <-. split; [lia|]. apply turn_mod. lia.
  - intros (H & ->). exists (u - from). split; [|apply in_seq; lia]. rewrite turn_mod by lia. replace (from + (u - from)) with u by lia. reflexivity.
Qed.
Lemma turn_iter from n u j : from <= u < from + n -> Nat.iter j (turn from n) u = from + (u - from + j) mod n.
Proof.
  intros H. induction j as [|j IH]; [change (u = from + (u - from + 0) mod n); rewrite Nat.add_0_r, Nat.mod_small; lia|].
  change (turn from n (Nat.iter j (turn from n) u) = from + (u - from + S j) mod n).
  rewrite IH. rewrite <- turn_mod by (apply Nat.mod_upper_bound; lia). rewrite Nat.add_mod_idemp_l by lia. do 2 f_equal. lia.
Qed.

Section Long.
Variable n : nat.
Hypothesis Hn : 3 <= n.
Lemma long_cols u v : In (u, v) (long_cycle n) <-> u < n + n /\ v = turn 0 (n + n) u.
Proof. unfold long_cycle. rewrite cycle_from_in. intuition lia. Qed.
Definition turn2 (u : nat) : nat := if u <? n then turn 0 n u else turn n n u.
Definition back2 (u : nat) : nat := if u <? n then back 0 n u else back n n u.
Lemma two_cols u v : In (u, v) (two_cycles n) <-> u < n + n /\ v = turn2 u.
Proof.
  unfold two_cycles, turn2. rewrite in_app_iff, !cycle_from_in. destruct (Nat.ltb_spec u n); intuition lia.
Qed.
Ltac arith := intros; repeat match goal with
  | |- context [?a =? ?b] => destruct (Nat.eqb_spec a b)
  | |- context [?a <? ?b] => destruct (Nat.ltb_spec a b)
  | H : context [?a =? ?b] |- _ => destruct (Nat.eqb_spec a b)
  | H : context [?a <? ?b] |- _ => destruct (Nat.ltb_spec a b)
  end; lia.
Lemma long_step : (forall u, u < n + n -> turn 0 (n + n) u < n + n) /\ (forall u, u < n + n -> back 0 (n + n) u < n + n) /\
  (forall u, u < n + n -> turn 0 (n + n) (back 0 (n + n) u) = u) /\ (forall u, u < n + n -> back 0 (n + n) (turn 0 (n + n) u) = u) /\
  (forall u, u < n + n -> turn 0 (n + n) u <> u /\ back 0 (n + n) u <> u /\ turn 0 (n + n) u <> back 0 (n + n) u).
Proof. unfold turn, back. repeat split; arith. Qed.
Lemma two_step : (forall u, u < n + n -> turn2 u < n + n) /\ (forall u, u < n + n -> back2 u < n + n) /\
  (forall u, u < n + n -> turn2 (back2 u) = u) /\ (forall u, u < n + n -> back2 (turn2 u) = u) /\
  (forall u, u < n + n -> turn2 u <> u /\ back2 u <> u /\ turn2 u <> back2 u).
Proof. unfold turn2, back2, turn, back. repeat split; arith. Qed.

Lemma long_degrees u : u < n + n -> count_nodes (adjacent (long_cycle n) u) 2.
Proof. destruct long_step as (A & B & C & D & E). exact (two_neighbours _ _ _ _ A B C D E long_cols u). Qed.
Lemma two_degrees u : u < n + n -> count_nodes (adjacent (two_cycles n) u) 2.
Proof. destruct two_step as (A & B & C & D & E). exact (two_neighbours _ _ _ _ A B C D E two_cols u). Qed.

Lemma long_cycles c : induced_cycle (long_cycle n) c -> n + n <= length c.
Proof.
  intros H. destruct long_step as (A & B & C & D & E). destruct c as [|a c]; [destruct H as [H _]; cbn in H; lia|].
  assert (Ha : a < n + n) by (apply (cycle_range _ _ _ _ A B C D E long_cols (a :: c) a H); left; auto).
  rewrite <- (seq_length (n + n) 0). apply NoDup_incl_length; [apply seq_NoDup|]. intros v Hv. apply in_seq in Hv.
  pose proof (cycle_iter _ _ _ _ A B C D E long_cols (a :: c) a (v + (n + n) - a) H (or_introl eq_refl)) as X. rewrite turn_iter in X by lia.
  replace (0 + (a - 0 + (v + (n + n) - a)) mod (n + n)) with v in X; auto. replace (a - 0 + (v + (n + n) - a)) with (v + 1 * (n + n)) by lia. rewrite Nat.mod_add, Nat.mod_small; lia.
Qed.
Lemma two_iter a j : a < n + n -> Nat.iter j turn2 a = if a <? n then Nat.iter j (turn 0 n) a else Nat.iter j (turn n n) a.
Proof.
  intros Ha. induction j as [|j IH]; [destruct (a <? n); reflexivity|].
  change (turn2 (Nat.iter j turn2 a) = if a <? n then turn 0 n (Nat.iter j (turn 0 n) a) else turn n n (Nat.iter j (turn n n) a)). rewrite IH. destruct (Nat.ltb_spec a n); unfold turn2 at 1.
  - rewrite (turn_iter 0 n a j) by lia. assert ((a - 0 + j) mod n < n) by (apply Nat.mod_upper_bound; lia). destruct (Nat.ltb_spec (0 + (a - 0 + j) mod n) n); auto; lia.
  - rewrite (turn_iter n n a j) by lia. destruct (Nat.ltb_spec (n + (a - n + j) mod n) n); auto; lia.
Qed.
Lemma two_cycles_long c : induced_cycle (two_cycles n) c -> n <= length c.
Proof.
  intros H. destruct two_step as (A & B & C & D & E). destruct c as [|a c]; [destruct H as [H _]; cbn in H; lia|].
  assert (Ha : a < n + n) by (apply (cycle_range _ _ _ _ A B C D E two_cols (a :: c) a H); left; auto).
  set (from := if a <? n then 0 else n). assert (Hf : from <= a < from + n) by (unfold from; destruct (Nat.ltb_spec a n); lia).
  rewrite <- (seq_length n from). apply NoDup_incl_length; [apply seq_NoDup|]. intros v Hv. apply in_seq in Hv.
  pose proof (cycle_iter _ _ _ _ A B C D E two_cols (a :: c) a (v + n - a) H (or_introl eq_refl)) as X. rewrite two_iter in X by lia.
  assert (Y : In (Nat.iter (v + n - a) (turn from n) a) (a :: c)) by (unfold from; destruct (a <? n); exact X). rewrite turn_iter in Y by lia.
  replace (from + (a - from + (v + n - a)) mod n) with v in Y; auto. replace (a - from + (v + n - a)) with (v - from + 1 * n) by lia. rewrite Nat.mod_add, Nat.mod_small; lia.
Qed.
Lemma two_cycles_has : induced_cycle (two_cycles n) (seq 0 n).
Proof.
  destruct two_step as (A & B & C & D & E). split; [rewrite seq_length; auto|]. split; [apply seq_NoDup|]. intros i j a b Ha Hb. rewrite seq_length.
  assert (S : forall i a, nth_error (seq 0 n) i = Some a -> a = i /\ i < n).
  { intros i' a' X. assert (L : i' < n) by (rewrite <- (seq_length n 0); apply nth_error_Some; congruence). split; auto. apply (nth_error_nth _ _ 0) in X. rewrite seq_nth in X; auto. }
  apply S in Ha as [-> Hi], Hb as [-> Hj]. rewrite (step_adjacent _ _ _ _ A B C D E two_cols). unfold next_to.
  pose proof (turn_mod 0 n i Hi) as T1. pose proof (turn_mod 0 n j Hj) as T2. cbn [Nat.add] in T1, T2. rewrite T1, T2. unfold turn2, back2, turn, back.
  destruct (Nat.ltb_spec i n); [|lia]. destruct (Nat.eqb_spec i (0 + n - 1)), (Nat.eqb_spec j (0 + n - 1)), (Nat.eqb_spec i 0); split; intros X; (split; [lia|]); lia.
Qed.
Lemma long_ok : graph_ok (long_cycle n) (n + n).
Proof. intros u v H. apply long_cols in H as [H ->]. split; auto. apply long_step; auto. Qed.
Lemma two_ok : graph_ok (two_cycles n) (n + n).
Proof. intros u v H. apply two_cols in H as [H ->]. split; auto. apply two_step; auto. Qed.
Lemma long_edge : adjacent (long_cycle n) 0 1.
Proof. destruct long_step as (A & B & C & D & E). apply (step_adjacent _ _ _ _ A B C D E long_cols). split; [lia|]. left. unfold turn. destruct (Nat.eqb_spec 0 (0 + (n + n) - 1)); lia. Qed.
Lemma two_edge : adjacent (two_cycles n) 0 1.
Proof. destruct two_step as (A & B & C & D & E). apply (step_adjacent _ _ _ _ A B C D E two_cols). split; [lia|]. left. unfold turn2, turn. destruct (Nat.ltb_spec 0 n); [|lia]. destruct (Nat.eqb_spec 0 (0 + n - 1)); lia. Qed.
Lemma no_cycles es max_k : (forall u, u < n + n -> count_nodes (adjacent es u) 2) -> (forall c, induced_cycle es c -> max_k < length c) ->
  ring_regular es (n + n) max_k 2 (fun _ => 0).
Proof.
  intros H1 H2. split; auto. intros u v _ k Hk. exists []. split; auto. split; [intros c []|]. split; [|intros [|i] j c c' X; discriminate X].
  intros c Hc Hl _ _. specialize (H2 c Hc). lia.
Qed.
End Long.
