(** Proofs about the experiment scripts. *)
From Coq Require Import String List Arith Lia ZArith QArith Bool Permutation Lqa.
From Verif Require Import Base LiftModel LiftSpec LiftBase LiftRing ExpModel ExpSpec.
Import ListNotations.
Open Scope nat_scope.

(** ** argmax and argmin *)
Definition beats (m : bool) (q b : Q) : bool := if m then negb (Qle_bool b q) else negb (Qle_bool q b).
Definition np_best (m : bool) := np_arg (beats m).

Lemma np_best_eq (m : bool) l : (if m then np_argmin l else np_argmax l) = np_best m l.
Proof. destruct m; reflexivity. Qed.

Lemma beats_true m q b : beats m q b = true <-> better m q b.
Proof.
  unfold beats, better. destruct m; rewrite negb_true_iff, <- not_true_iff_false, Qle_bool_iff; split; lra.
Qed.
Lemma beats_false m q b : beats m q b = false <-> as_good m b q.
Proof.
  unfold beats, as_good. destruct m; rewrite negb_false_iff, Qle_bool_iff; split; lra.
Qed.

Lemma as_good_trans m a b c : as_good m a b -> as_good m b c -> as_good m a c.
Proof. destruct m; simpl; intros; lra. Qed.
Lemma better_as_good m a b : better m a b -> as_good m a b.
Proof. destruct m; simpl; intros; lra. Qed.
Lemma better_as_good_trans m a b c : better m a b -> as_good m b c -> better m a c.
Proof. destruct m; simpl; intros; lra. Qed.
Lemma as_good_refl m a : as_good m a a.
Proof. destruct m; simpl; lra. Qed.

Lemma arg_scan_best m l : (forall x, In x l -> x <> None) -> forall bi b i,
  (arg_scan (beats m) bi b i l = bi /\ forall q, In (Some q) l -> as_good m b q) \/
  (exists j q, arg_scan (beats m) bi b i l = i + j /\ nth_error l j = Some (Some q) /\ better m q b /\
     (forall w, In (Some w) l -> as_good m q w) /\
     (forall e w, e < j -> nth_error l e = Some (Some w) -> better m q w)).
Proof.
  induction l as [|x l IH]; intros Hn bi b i.
  - left. split; auto. intros q [].
  - destruct x as [q|]; [|exfalso; apply (Hn None); [left; auto|auto]]. cbn [arg_scan].
    assert (Hn' : forall y, In y l -> y <> None) by (intros; apply Hn; right; auto).
    destruct (beats m q b) eqn:Eb.
    + apply beats_true in Eb. right. destruct (IH Hn' i q (S i)) as [[E1 E2]|(j & q' & E1 & E2 & E3 & E4 & E5)].
      * exists 0, q. rewrite E1. split; [lia|]. split; [reflexivity|]. split; auto. split.
        -- intros w [E|Hw]; auto. inversion E; subst. apply as_good_refl.
        -- intros e w He. lia.
      * exists (S j), q'. rewrite E1. split; [lia|]. split; [exact E2|]. split.
        -- eapply better_as_good_trans; eauto. apply better_as_good; auto.
        -- split.
           ++ intros w [E|Hw]; auto. inversion E; subst. apply better_as_good; auto.
           ++ intros [|e] w He Hw; cbn in Hw; [inversion Hw; subst; auto|]. eapply E5; eauto. lia.
    + apply beats_false in Eb. destruct (IH Hn' bi b (S i)) as [[E1 E2]|(j & q' & E1 & E2 & E3 & E4 & E5)].
      * left. rewrite E1. split; auto. intros w [E|Hw]; auto. inversion E; subst; auto.
      * right. exists (S j), q'. rewrite E1. split; [lia|]. split; [exact E2|]. split; auto. split.
        -- intros w [E|Hw]; auto. inversion E; subst. apply better_as_good. eapply better_as_good_trans; eauto.
        -- intros [|e] w He Hw; cbn in Hw.
           ++ inversion Hw; subst. eapply better_as_good_trans; eauto.
           ++ eapply E5; eauto. lia.
Qed.

Lemma arg_scan_nan m l : forall j bi b i, nth_error l j = Some None ->
  (forall e, e < j -> exists w, nth_error l e = Some (Some w)) ->
  arg_scan (beats m) bi b i l = i + j.
Proof.
  induction l as [|x l IH]; intros [|j] bi b i Hj Hb; cbn in Hj; try discriminate.
  - inversion Hj; subst. cbn. lia.
  - destruct (Hb 0 ltac:(lia)) as [w Hw]. cbn in Hw. inversion Hw; subst. cbn [arg_scan].
    assert (Hb' : forall e, e < j -> exists w, nth_error l e = Some (Some w)).
    { intros e He. apply (Hb (S e)). lia. }
    destruct (beats m w b); rewrite IH with (j := j); auto; lia.
Qed.

Lemma np_best_spec m l : l <> [] -> (forall x, In x l -> x <> None) ->
  exists j q, np_best m l = Ok j /\ nth_error l j = Some (Some q) /\
    (forall w, In (Some w) l -> as_good m q w) /\
    (forall e w, e < j -> nth_error l e = Some (Some w) -> better m q w).
Proof.
  intros Hl Hn. destruct l as [|[q|] l]; [congruence| |exfalso; apply (Hn None); [left; auto|auto]].
  unfold np_best, np_arg. destruct (arg_scan_best m l (fun x Hx => Hn x (or_intror Hx)) 0 q 1)
    as [[E1 E2]|(j & q' & E1 & E2 & E3 & E4 & E5)]; rewrite E1.
  - exists 0, q. split; auto. split; auto. split.
    + intros w [E|Hw]; auto. inversion E; subst. apply as_good_refl.
    + intros e w He. lia.
  - exists (1 + j), q'. split; auto. split; auto. split.
    + intros w [E|Hw]; auto. inversion E; subst. apply better_as_good; auto.
    + intros [|e] w He Hw; cbn in Hw; [inversion Hw; subst; auto|]. eapply E5; eauto. lia.
Qed.

Lemma np_best_nan m l j : nth_error l j = Some None ->
  (forall e, e < j -> exists w, nth_error l e = Some (Some w)) -> np_best m l = Ok j.
Proof.
  intros Hj Hb. destruct l as [|[q|] l]; destruct j as [|j]; cbn in Hj; try discriminate; auto.
  - unfold np_best, np_arg. rewrite arg_scan_nan with (j := j); auto.
    intros e He. apply (Hb (S e)). lia.
  - destruct (Hb 0 ltac:(lia)) as [w Hw]. discriminate.
Qed.

(** ** The training loop *)
Definition refresh (period e : nat) : nat := if e <? period then 1 else e - e mod period.

Lemma refresh_ok period b : 1 <= period -> 1 <= b -> last_refresh period b (refresh period b).
Proof.
  intros Hp Hb. unfold refresh. destruct (Nat.ltb_spec b period) as [H|H].
  - split; [lia|]. split; auto. intros e He [z Hz]. subst e. destruct z; [lia|]. nia.
  - pose proof (Nat.mod_upper_bound b period ltac:(lia)). pose proof (Nat.div_mod b period ltac:(lia)) as E.
    assert (1 <= b / period) by (apply Nat.div_le_lower_bound; lia).
    split; [nia|]. split.
    + right. exists (b / period). rewrite Nat.mul_comm. lia.
    + intros e He [z Hz]. subst e. set (q := b / period) in *. set (r := b mod period) in *.
      destruct (Nat.le_gt_cases z q) as [L|L].
      * apply (Nat.mul_le_mono_r _ _ period) in L. lia.
      * apply Nat.le_succ_l, (Nat.mul_le_mono_r _ _ period) in L. lia.
Qed.
Lemma refresh_step period e : 1 <= period -> 2 <= e ->
  refresh period e = if e mod period =? 0 then e else refresh period (e - 1).
Proof.
  intros Hp He. unfold refresh. pose proof (Nat.div_mod e period ltac:(lia)) as E.
  pose proof (Nat.mod_upper_bound e period ltac:(lia)).
  destruct (Nat.eqb_spec (e mod period) 0) as [H0|H0].
  - destruct (Nat.ltb_spec e period) as [H1|H1]; [|lia]. rewrite Nat.mod_small in H0; lia.
  - destruct (Nat.ltb_spec e period) as [H1|H1].
    + destruct (Nat.ltb_spec (e - 1) period); [auto|lia].
    + destruct (Nat.eq_dec e period) as [->|Hne]; [rewrite Nat.mod_same in H0; lia|].
      destruct (Nat.ltb_spec (e - 1) period) as [H2|H2]; [lia|].
      assert (E' : (e - 1) mod period = e mod period - 1).
      { symmetry. apply Nat.mod_unique with (q := e / period); lia. }
      rewrite E'. lia.
Qed.
Lemma refresh_1 b : 1 <= b -> refresh 1 b = b.
Proof.
  intros H. unfold refresh. destruct (Nat.ltb_spec b 1); [lia|]. rewrite Nat.mod_1_r. lia.
Qed.

Definition stops (a : run_args) (h : history) (e : nat) : bool := r_plateau a && r_early_stop a && h_low_lr h e.
Definition test_at (h : history) (e : nat) : score := match h_test h with Some f => f e | None => None end.

(** The curves after [n] epochs. *)
Definition after (a : run_args) (h : history) (n : nat) : loop_state :=
  mkLoop (map (fun e => h_train h (refresh (r_period a) e)) (seq 1 n)) (map (h_val h) (seq 1 n))
         (map (test_at h) (seq 1 n))
         (if n =? 0 then None else Some (h_train h (refresh (r_period a) n))).

Lemma map_seq_snoc {A} (f : nat -> A) n : map f (seq 1 n) ++ [f (S n)] = map f (seq 1 (S n)).
Proof. rewrite seq_S, map_app. reflexivity. Qed.

Lemma epoch_loop_ok a h : 1 <= r_period a -> forall left n,
  exists m, epoch_loop a h left (S n) (after a h n) = Ok (after a h m, m) /\
    n <= m <= n + left /\ (forall e, n < e < m -> stops a h e = false) /\
    (m = n + left \/ (n < m /\ stops a h m = true)).
Proof.
  intros Hp. induction left as [|left IH]; intros n.
  - exists n. cbn [epoch_loop]. rewrite Nat.sub_succ, Nat.sub_0_r. split; auto. split; [lia|]. split; [lia|]. lia.
  - cbn [epoch_loop].
    assert (Hm : py_mod (S n) (r_period a) = Ok (S n mod r_period a)).
    { unfold py_mod. destruct (Nat.eqb_spec (r_period a) 0); [lia|auto]. }
    set (due := if S n =? 1 then _ else _).
    assert (Hdue : due = Ok ((S n =? 1) || (S n mod r_period a =? 0))).
    { unfold due. destruct (S n =? 1); auto. rewrite Hm. reflexivity. }
    rewrite Hdue. cbn [bind].
    assert (Hperf : (if (S n =? 1) || (S n mod r_period a =? 0) then Some (h_train h (S n)) else l_perf (after a h n))
                    = Some (h_train h (refresh (r_period a) (S n)))).
    { destruct n as [|n].
      - cbn [Nat.eqb orb]. f_equal. f_equal. unfold refresh. destruct (Nat.ltb_spec 1 (r_period a)); auto.
        replace (r_period a) with 1 by lia. reflexivity.
      - cbn [after l_perf]. change (S (S n) =? 1) with false. cbn [orb]. change (S n =? 0) with false. cbv iota.
        rewrite (refresh_step (r_period a) (S (S n))) by lia.
        destruct (S (S n) mod r_period a =? 0); auto. }
    rewrite Hperf. cbn [of_option bind].
    assert (Hst : mkLoop (l_train (after a h n) ++ [h_train h (refresh (r_period a) (S n))])
        (l_val (after a h n) ++ [h_val h (S n)])
        (l_test (after a h n) ++ [match h_test h with Some f => f (S n) | None => None end])
        (Some (h_train h (refresh (r_period a) (S n)))) = after a h (S n)).
    { unfold after. cbn [l_train l_val l_test]. change (S n =? 0) with false. cbv iota.
      rewrite <- (map_seq_snoc (h_val h)), <- (map_seq_snoc (test_at h)),
        <- (map_seq_snoc (fun e => h_train h (refresh (r_period a) e))). reflexivity. }
    rewrite Hst. fold (stops a h (S n)). destruct (stops a h (S n)) eqn:Es.
    + exists (S n). split; auto. split; [lia|]. split; [intros e He; lia|]. right. split; [lia|auto].
    + rewrite Hm. cbn [bind]. destruct (IH (S n)) as (m & E1 & E2 & E3 & E4). exists m. split; auto.
      split; [lia|]. split.
      * intros e He. destruct (Nat.eq_dec e (S n)) as [->|]; auto. apply E3. lia.
      * destruct E4 as [->|[E4 E5]]; [left; lia|right; split; [lia|auto]].
Qed.

Lemma nth_map_seq {A} (f : nat -> A) n j : j < n -> nth_error (map f (seq 1 n)) j = Some (f (S j)).
Proof.
  intros H. rewrite nth_error_map.
  replace (nth_error (seq 1 n) j) with (Some (S j)); auto.
  symmetry. rewrite nth_error_nth' with (d := 0) by (rewrite seq_length; auto). rewrite seq_nth; auto.
Qed.

(** What [main] returns when it trains: the curves of the executed epochs. *)
Lemma main_ok a h : r_untrained a = false -> 1 <= r_period a -> 1 <= r_epochs a ->
  exists n j, last_epoch (r_epochs a) (stops a h) n /\ j < n /\
    np_best (r_minimize a) (map (h_val h) (seq 1 n)) = Ok j /\
    main a h = Ok (mkCurves (map (fun e => h_train h (refresh (r_period a) e)) (seq 1 n))
       (map (h_val h) (seq 1 n)) (map (test_at h) (seq 1 n))
       (if r_sr a then None else h_train h n) (if r_sr a then None else h_val h n) (test_at h n) j).
Proof.
  intros Hu Hp He. destruct (epoch_loop_ok a h Hp (r_epochs a) 0) as (n & E1 & E2 & E3 & E4).
  assert (Hn : 1 <= n) by (destruct E4 as [->|[? _]]; lia).
  assert (Hb : exists j, j < n /\ np_best (r_minimize a) (map (h_val h) (seq 1 n)) = Ok j).
  { destruct (existsb (fun e => match h_val h e with None => true | _ => false end) (seq 1 n)) eqn:Ex.
    - (* the first NaN *)
      assert (HN : exists j, j < n /\ h_val h (S j) = None /\ forall e, e < j -> h_val h (S e) <> None).
      { apply existsb_exists in Ex as (e & Hin & Hv). apply in_seq in Hin.
        assert (exists e, 1 <= e <= n /\ h_val h e = None).
        { exists e. split; [lia|]. destruct (h_val h e) eqn:?; [discriminate|reflexivity]. }
        clear -H. destruct H as (e & He & Hv). revert e He Hv.
        apply (well_founded_induction lt_wf (fun e => 1 <= e <= n -> h_val h e = None -> _)).
        intros e IH He Hv.
        destruct (existsb (fun e => match h_val h e with None => true | _ => false end) (seq 1 (e - 1))) eqn:Ex.
        - apply existsb_exists in Ex as (e' & Hin & Hv'). apply in_seq in Hin.
          apply (IH e'); [lia|lia|]. destruct (h_val h e') eqn:?; [discriminate|reflexivity].
        - exists (e - 1). split; [lia|]. replace (S (e - 1)) with e by lia. split; auto.
          intros e' He' Hc. rewrite <- not_true_iff_false in Ex. apply Ex. apply existsb_exists.
          exists (S e'). split; [apply in_seq; lia|rewrite Hc; auto]. }
      destruct HN as (j & Hj & Hv & Hbef). exists j. split; auto. apply np_best_nan.
      + rewrite nth_map_seq; auto. congruence.
      + intros e He'. rewrite nth_map_seq by lia. specialize (Hbef e He'). destruct (h_val h (S e)); [eauto|congruence].
    - destruct (np_best_spec (r_minimize a) (map (h_val h) (seq 1 n))) as (j & q & Hj & Hq & _).
      + destruct n; [lia|discriminate].
      + intros x Hx. apply in_map_iff in Hx as (e & <- & Hin). intros Hc.
        rewrite <- not_true_iff_false in Ex. apply Ex. apply existsb_exists. exists e. rewrite Hc. auto.
      + exists j. split; auto. assert (j < List.length (map (h_val h) (seq 1 n))) as Hlt
          by (apply nth_error_Some; intros Hc; rewrite Hq in Hc; discriminate).
        rewrite map_length, seq_length in Hlt; exact Hlt. }
  destruct Hb as (j & Hj & Hb). exists n, j. split.
  { split; [lia|]. split.
    - intros e He'. apply E3. lia.
    - destruct E4 as [->|[_ E4]]; auto. }
  split; auto. split; auto.
  unfold main. rewrite Hu. change (mkLoop [] [] [] None) with (after a h 0). rewrite E1. cbn [bind].
  change (l_val (after a h n)) with (map (h_val h) (seq 1 n)). rewrite np_best_eq, Hb. reflexivity.
Qed.

(** ** The pairs of pdist *)
Lemma filter_map_comm {A B} (f : B -> bool) (g : A -> B) l : filter f (map g l) = map g (filter (fun a => f (g a)) l).
Proof. induction l as [|a l IH]; simpl; auto. destruct (f (g a)); simpl; rewrite IH; auto. Qed.

Lemma row_pairs_length {A} (l : list A) : List.length (row_pairs l) = List.length l * (List.length l - 1) / 2.
Proof.
  assert (H : 2 * List.length (row_pairs l) = List.length l * (List.length l - 1)).
  { induction l as [|a l IH]; [reflexivity|]. cbn [row_pairs]. rewrite app_length, map_length. cbn [List.length].
    rewrite Nat.mul_add_distr_l, IH. destruct (List.length l); [reflexivity|]. rewrite !Nat.sub_succ, !Nat.sub_0_r. nia. }
  rewrite <- H, Nat.mul_comm, Nat.div_mul; auto.
Qed.

Definition close_count {A} (close : A -> A -> bool) (l : list A) : nat :=
  List.length (filter (fun ab => close (fst ab) (snd ab)) (row_pairs l)).

Lemma close_count_cons {A} close (a : A) l :
  close_count close (a :: l) = List.length (filter (close a) l) + close_count close l.
Proof.
  unfold close_count. cbn [row_pairs]. rewrite filter_app, app_length. f_equal.
  rewrite filter_map_comm, map_length. reflexivity.
Qed.

Lemma filter_length_perm {A} (f : A -> bool) l l' : Permutation l l' ->
  List.length (filter f l) = List.length (filter f l').
Proof. induction 1; simpl; repeat match goal with |- context [if ?b then _ else _] => destruct b end; simpl; congruence. Qed.

Lemma close_count_perm {A} (close : A -> A -> bool) l l' : (forall a b, close a b = close b a) ->
  Permutation l l' -> close_count close l = close_count close l'.
Proof.
  intros Hs. induction 1; auto.
  - rewrite !close_count_cons. rewrite IHPermutation. f_equal. apply filter_length_perm; auto.
  - rewrite !close_count_cons. cbn [filter]. rewrite (Hs y x). destruct (close x y); simpl; lia.
  - congruence.
Qed.

(** The index pairs of the spec. *)
Lemma close_pairs_cons {A} close (a : A) l :
  close_pairs close (a :: l) = List.length (filter (close a) l) + close_pairs close l.
Proof.
  unfold close_pairs. cbn [List.length]. set (n := List.length l).
  change (seq 0 (S n)) with (0 :: seq 1 n). cbn [list_prod].
  rewrite filter_app, app_length. f_equal.
  - (* pairs (0, j) *)
    cbn [map filter fst snd]. change (0 <? 0) with false. cbn [andb]. rewrite filter_map_comm, map_length. cbn [fst snd].
    replace (filter (close a) l) with (filter (close a) (map (fun j => nth j l a) (seq 0 n))).
    2:{ f_equal. unfold n. clear. induction l as [|b l IH]; [reflexivity|]. cbn [List.length seq map].
        f_equal. rewrite <- seq_shift, map_map. exact IH. }
    rewrite filter_map_comm, map_length. rewrite <- seq_shift, filter_map_comm, map_length.
    f_equal. apply filter_ext_in. intros j Hj. apply in_seq in Hj. cbn [Nat.ltb Nat.leb andb nth_error].
    rewrite nth_error_nth' with (d := a) by (unfold n in *; lia). reflexivity.
  - (* the others *)
    rewrite <- seq_shift.
    assert (E : forall L, filter (fun ij => (fst ij <? snd ij) && match nth_error (a :: l) (fst ij) with
        | Some a0 => match nth_error (a :: l) (snd ij) with Some b => close a0 b | None => false end
        | None => false end) (list_prod (map S L) (0 :: map S (seq 0 n))) =
      map (fun ij => (S (fst ij), S (snd ij))) (filter (fun ij => (fst ij <? snd ij) && match nth_error l (fst ij) with
        | Some a0 => match nth_error l (snd ij) with Some b => close a0 b | None => false end
        | None => false end) (list_prod L (seq 0 n)))).
    { induction L as [|i L IH]; [reflexivity|]. cbn [map list_prod]. rewrite !filter_app, map_app. f_equal; auto.
      cbn [filter fst snd]. change (S i <? 0) with false. cbn [andb].
      rewrite map_map, !filter_map_comm, !map_map. cbn [fst snd]. reflexivity. }
    rewrite E, map_length. reflexivity.
Qed.

Lemma close_pairs_count {A} close (l : list A) : close_pairs close l = close_count close l.
Proof.
  induction l as [|a l IH]; [reflexivity|]. rewrite close_pairs_cons, close_count_cons, IH. reflexivity.
Qed.

Lemma filter_length_le {A} (f : A -> bool) l : List.length (filter f l) <= List.length l.
Proof. induction l as [|a l IH]; simpl; auto. destruct (f a); simpl; lia. Qed.

(** ** The grid *)
Lemma product_In {A} (vs : list (list A)) x : In x (product vs) <-> Forall2 (fun a v => In a v) x vs.
Proof.
  revert x. induction vs as [|v vs IH]; intros x; cbn [product].
  - split; [intros [<-|[]]; constructor|intros H; inversion H; left; auto].
  - rewrite in_flat_map. split.
    + intros (a & Ha & H). apply in_map_iff in H as (y & <- & Hy). constructor; auto. apply IH; auto.
    + intros H. inversion H; subst. exists x0. split; auto. apply in_map. apply IH; auto.
Qed.

Lemma NoDup_flat_map {A B} (f : A -> list B) l : NoDup l -> (forall a, In a l -> NoDup (f a)) ->
  (forall a b x, In a l -> In b l -> In x (f a) -> In x (f b) -> a = b) -> NoDup (flat_map f l).
Proof.
  induction l as [|a l IH]; intros Hn Hf Hd; cbn [flat_map]; [constructor|]. inversion Hn; subst.
  apply NoDup_app; auto.
  - apply Hf; left; auto.
  - apply IH; auto; [intros; apply Hf; right; auto|intros; eapply Hd; eauto; right; auto].
  - intros x Hx Hx'. apply in_flat_map in Hx' as (b & Hb & Hx'). 
    assert (a = b) by (eapply Hd; eauto; [left; auto|right; auto]). subst. contradiction.
Qed.

Lemma product_NoDup {A} (vs : list (list A)) : Forall (@NoDup A) vs -> NoDup (product vs).
Proof.
  induction 1 as [|v vs Hv H IH]; cbn [product]; [repeat constructor; intros []|].
  apply NoDup_flat_map; auto.
  - intros a _. apply FinFun.Injective_map_NoDup; auto. intros x y E. inversion E; auto.
  - intros a b x Ha Hb Hx Hy. apply in_map_iff in Hx as (y & <- & _). apply in_map_iff in Hy as (z & E & _).
    inversion E; auto.
Qed.

Lemma product_length {A} (vs : list (list A)) : List.length (product vs) = fold_right (fun v n => List.length v * n) 1 vs.
Proof.
  induction vs as [|v vs IH]; [reflexivity|]. cbn [product fold_right]. rewrite <- IH.
  induction v as [|a v IHv]; [reflexivity|]. cbn [flat_map List.length]. rewrite app_length, map_length, IHv. reflexivity.
Qed.

Lemma partition_classes {A} (cls : A -> nat) n l : (forall a, In a l -> cls a < n) ->
  Permutation (flat_map (fun i => filter (fun a => cls a =? i) l) (seq 0 n)) l.
Proof.
  intros H. induction l as [|a l IH].
  - replace (flat_map _ (seq 0 n)) with (@nil A); auto. clear. induction (seq 0 n); auto.
  - assert (Ha : In (cls a) (seq 0 n)) by (apply in_seq; specialize (H a (or_introl eq_refl)); lia).
    pose proof (seq_NoDup n 0) as HN. apply in_split in Ha as (s1 & s2 & Es). rewrite Es in *.
    apply NoDup_remove_2 in HN. rewrite in_app_iff in HN.
    assert (E : forall s, ~ In (cls a) s -> flat_map (fun i => filter (fun b => cls b =? i) (a :: l)) s =
                          flat_map (fun i => filter (fun b => cls b =? i) l) s).
    { induction s as [|i s IHs]; intros Hs; auto. cbn [flat_map]. rewrite IHs by (intros ?; apply Hs; right; auto).
      f_equal. cbn [filter]. destruct (Nat.eqb_spec (cls a) i) as [E|]; auto. exfalso. apply Hs. left; auto. }
    rewrite !flat_map_app in *. cbn [flat_map] in *. rewrite !E by tauto. cbn [filter]. rewrite Nat.eqb_refl.
    apply Permutation_sym. etransitivity.
    + apply perm_skip. apply Permutation_sym. apply IH. intros; apply H; right; auto.
    + apply Permutation_middle.
Qed.

Lemma exp_queue_nat {A} i (grid : list A) : i < 8 ->
  exp_queue (Z.of_nat i) grid = filter (fun hx => fst hx mod 8 =? i) (enumerate grid).
Proof.
  intros Hi. unfold exp_queue, max_devices. apply filter_ext. intros [h x]. cbn [fst].
  rewrite <- !Nat2Z.inj_mod. rewrite (Nat.mod_small i 8) by auto.
  destruct (Nat.eqb_spec (h mod 8) i) as [->|H]; [apply Z.eqb_refl|]. apply Z.eqb_neq. lia.
Qed.

Lemma enumerate_nth {A} (l : list A) h x : In (h, x) (enumerate l) <-> nth_error l h = Some x.
Proof.
  unfold enumerate. assert (G : forall s, In (h, x) (combine (seq s (List.length l)) l) <-> s <= h /\ nth_error l (h - s) = Some x).
  { induction l as [|a l IH]; intros s; cbn [List.length seq combine].
    - split; [intros []|intros [_ E]]. destruct (h - s); discriminate.
    - cbn [In]. rewrite IH. split.
      + intros [E|[H1 H2]].
        * inversion E; subst. split; auto. rewrite Nat.sub_diag. reflexivity.
        * split; [lia|]. replace (h - s) with (S (h - S s)) by lia. auto.
      + intros [H1 H2]. destruct (Nat.eq_dec h s) as [->|].
        * rewrite Nat.sub_diag in H2. cbn in H2. inversion H2. auto.
        * right. split; [lia|]. replace (h - s) with (S (h - S s)) in H2 by lia. auto. }
  rewrite G. rewrite Nat.sub_0_r. split; [intros [_ H]; auto|intros H; split; [lia|auto]].
Qed.

Lemma enumerate_fst {A} (l : list A) : map fst (enumerate l) = seq 0 (List.length l).
Proof.
  unfold enumerate. generalize 0. induction l as [|a l IH]; intros s; cbn; auto. rewrite IH. reflexivity.
Qed.

(** ** Dicts *)
Lemma dict_upd_keys {A} (g : nat -> A) f ks k : NoDup ks -> In k ks ->
  dict_upd (map (fun k => (k, g k)) ks) k f = Ok (map (fun k' => (k', if k' =? k then f (g k') else g k')) ks).
Proof.
  intros Hn Hin. induction ks as [|a ks IH]; [destruct Hin|]. cbn [map dict_upd]. inversion Hn; subst.
  destruct (Nat.eqb_spec a k) as [->|Hne].
  - f_equal. f_equal. apply map_ext_in. intros b Hb. destruct (Nat.eqb_spec b k); auto. subst; contradiction.
  - destruct Hin as [E|Hin]; [congruence|]. rewrite IH by auto. reflexivity.
Qed.

Lemma dict_get_keys {A} (g : nat -> A) ks k : In k ks -> dict_get (map (fun k => (k, g k)) ks) k = Ok (g k).
Proof.
  intros Hin. unfold dict_get. induction ks as [|a ks IH]; [destruct Hin|]. cbn [map find fst].
  destruct (Nat.eqb_spec a k) as [->|Hne]; [reflexivity|]. destruct Hin as [E|Hin]; [congruence|]. auto.
Qed.

Definition count_len (rings : list cell) (k : nat) : nat := List.length (filter (fun r => List.length r =? k) rings).

Lemma ring_count_ok rings ks : NoDup ks -> (forall r, In r rings -> In (List.length r) ks) ->
  ring_count rings ks = Ok (map (fun k => (k, count_len rings k)) ks).
Proof.
  intros Hn Hr. unfold ring_count.
  assert (G : forall g, foldM (fun d ring => dict_upd d (List.length ring) S) (map (fun k => (k, g k)) ks) rings =
                 Ok (map (fun k => (k, g k + count_len rings k)) ks)).
  { induction rings as [|r rings IH]; intros g; cbn [foldM].
    - f_equal. apply map_ext. intros k. unfold count_len. simpl. f_equal. lia.
    - rewrite dict_upd_keys by (auto; apply Hr; left; auto). cbn [bind]. rewrite IH by (intros; apply Hr; right; auto).
      f_equal. apply map_ext. intros k. f_equal. unfold count_len. cbn [filter]. rewrite (Nat.eqb_sym k).
      destruct (List.length r =? k); cbn [List.length]; lia. }
  apply (G (fun _ => 0)).
Qed.

Lemma foldM_keys {A B} (upd1 : nat -> A -> A) ks (g : nat -> A) (step : dict A -> B -> result (dict A)) (key : B -> nat) (l : list B) (f : B -> A -> A) :
  NoDup ks -> (forall b, In b l -> In (key b) ks) ->
  (forall g b, In b l -> step (map (fun k => (k, g k)) ks) b = dict_upd (map (fun k => (k, g k)) ks) (key b) (f b)) ->
  foldM step (map (fun k => (k, g k)) ks) l =
  Ok (map (fun k => (k, fold_left (fun a b => if k =? key b then f b a else a) l (g k))) ks).
Proof.
  intros Hn. revert g. induction l as [|b l IH]; intros g Hk Hs; cbn [foldM fold_left]; auto.
  rewrite Hs by (left; auto). rewrite dict_upd_keys by (auto; apply Hk; left; auto). cbn [bind].
  rewrite IH; [|intros; apply Hk; right; auto|intros; apply Hs; right; auto].
  f_equal.
Qed.

Lemma fold_once {A} (f : nat -> A -> A) ks k : NoDup ks -> In k ks -> forall a,
  fold_left (fun a k' => if k =? k' then f k' a else a) ks a = f k a.
Proof.
  intros Hn Hin. induction ks as [|k' ks IH]; [destruct Hin|]. inversion Hn; subst. intros a. cbn [fold_left].
  destruct (Nat.eqb_spec k k') as [->|Hne].
  - assert (E : forall ks a, ~ In k' ks -> fold_left (fun a k0 => if k' =? k0 then f k0 a else a) ks a = a).
    { clear. induction ks as [|c ks IH]; intros a H; auto. cbn [fold_left]. destruct (Nat.eqb_spec k' c) as [->|]; [exfalso; apply H; left; auto|].
      apply IH. intros ?; apply H; right; auto. }
    apply E; auto.
  - destruct Hin as [E|Hin]; [congruence|]. auto.
Qed.

Lemma combine_cards_ok (count : nat -> nat -> nat) ks n : NoDup ks -> 0 < n ->
  combine_all_cards (map (fun i => map (fun k => (k, count i k)) ks) (seq 0 n)) =
  Ok (map (fun k => (k, map (fun i => count i k) (seq 0 n))) ks).
Proof.
  intros Hn Hp. unfold combine_all_cards. destruct n as [|n]; [lia|].
  set (cards := map (fun i => map (fun k => (k, count i k)) ks) (seq 0 (S n))).
  change (get (A := dict nat) cards 0) with (Ok (map (fun k => (k, count 0 k)) ks : dict nat)). cbn [bind].
  rewrite map_map. cbn [fst]. rewrite map_id.
  assert (G : forall is g, foldM (fun acc card => foldM (fun acc k => let* v := dict_get card k in
        dict_upd acc k (fun l => l ++ [v])) acc ks) (map (fun k => (k, g k)) ks)
        (map (fun i => map (fun k => (k, count i k)) ks) is) =
      Ok (map (fun k => (k, g k ++ map (fun i => count i k) is)) ks)).
  { induction is as [|i is IH]; intros g; cbn [map foldM].
    - f_equal. apply map_ext. intros k. rewrite app_nil_r. auto.
    - rewrite (foldM_keys (fun _ a => a) ks g _ (fun k => k) ks (fun k l => l ++ [count i k])); auto.
      + cbn [bind]. rewrite IH. f_equal. apply map_ext_in. intros k Hk.
        rewrite (fold_once (fun k l => l ++ [count i k]) ks k Hn Hk). rewrite <- app_assoc. reflexivity.
      + intros g' k Hk. rewrite dict_get_keys by auto. reflexivity. }
  apply (G (seq 0 (S n)) (fun _ => [])).
Qed.

Lemma combine_counts_ok ks (stats : list (nat -> list nat)) : NoDup ks -> stats <> [] ->
  combine_all_counts (map (fun s => map (fun k => (k, s k)) ks) stats) =
  Ok (map (fun k => (k, flat_map (fun s => s k) stats)) ks).
Proof.
  intros Hn Hne. destruct stats as [|s0 stats]; [congruence|]. unfold combine_all_counts.
  set (all := map (fun s => map (fun k => (k, s k)) ks) (s0 :: stats)). change (get (A := dict (list nat)) all 0) with (Ok (map (fun k => (k, s0 k)) ks : dict (list nat))).
  cbn [bind]. rewrite map_map. cbn [fst]. rewrite map_map. 
  assert (G : forall ss g, foldM (fun acc stat => foldM (fun acc kv => dict_upd acc (fst kv) (fun l => l ++ snd kv)) acc stat)
        (map (fun k => (k, g k)) ks) (map (fun s => map (fun k => (k, s k)) ks) ss) =
      Ok (map (fun k => (k, g k ++ flat_map (fun s : nat -> list nat => s k) ss)) ks)).
  { induction ss as [|s ss IH]; intros g; cbn [map foldM flat_map].
    - f_equal. apply map_ext. intros k. rewrite app_nil_r. auto.
    - rewrite (foldM_keys (fun _ a => a) ks g _ fst _ (fun kv l => l ++ snd kv)); auto.
      + cbn [bind]. rewrite IH. f_equal. apply map_ext_in. intros k Hk. f_equal. rewrite app_assoc. f_equal.
        transitivity (fold_left (fun a k' => if k =? k' then a ++ s k' else a) ks (g k)).
        * assert (forall L a, fold_left (fun a b => if k =? fst b then a ++ snd b else a) (map (fun k0 => (k0, s k0)) L) a =
             fold_left (fun a k'0 => if k =? k'0 then a ++ s k'0 else a) L a) as HH.
          { induction L as [|x L IHL]; intros a; auto. cbn [map fold_left fst snd]. apply IHL. }
          apply HH.
        * apply (fold_once (fun k l => l ++ s k) ks k Hn Hk).
      + intros b Hb. apply in_map_iff in Hb as (k & <- & Hk). auto. }
  apply (G (s0 :: stats) (fun _ => [])).
Qed.
