(** Proofs about DatasetModel. *)
From Coq Require Import String List Arith Lia ZArith Bool.
From Verif Require Import Base ComplexModel BatchSpec BatchProofs DatasetModel DatasetSpec.
Import ListNotations.

Lemma mapM_ok_map {A B} (f : A -> result B) (g : A -> B) l :
  (forall a, In a l -> f a = Ok (g a)) -> mapM f l = Ok (map g l).
Proof. apply mapM_map. Qed.

(** ** One key *)
Definition opt_list {T} (o : option (list T)) : list T := match o with Some l => l | None => [] end.
Definition opt_size {T} (o : option (list T)) : nat := length (opt_list o).
Definition upto {T} (ls : list (option (list T))) (i : nat) : nat :=
  list_sum (map opt_size (firstn i ls)).

Lemma slices_from_length {T} (ls : list (option (list T))) : forall s, length (slices_from s ls) = length ls.
Proof. induction ls; intros s; simpl; auto. Qed.

Lemma slices_from_nth {T} (ls : list (option (list T))) : forall s i,
  i <= length ls -> nth_error (s :: slices_from s ls) i = Some (s + upto ls i).
Proof.
  induction ls as [|o ls IH]; intros s i Hi.
  - assert (i = 0) by (simpl in Hi; lia). subst. simpl. unfold upto; simpl. f_equal; lia.
  - destruct i as [|i].
    + simpl. unfold upto; simpl. f_equal; lia.
    + cbn [slices_from]. cbn zeta.
      replace (s + match o with Some l => length l | None => 0 end) with (s + opt_size o)
        by (destruct o; reflexivity).
      simpl nth_error at 1.
      assert (Hi' : i <= length ls) by (simpl in Hi; lia).
      pose proof (IH (s + opt_size o) i Hi') as E. simpl nth_error in E. rewrite E. unfold upto. simpl. f_equal. lia.
Qed.

Lemma skipn_concat {T} (ls : list (option (list T))) : forall i o,
  nth_error ls i = Some o ->
  firstn (opt_size o) (skipn (upto ls i) (concat (map opt_list ls))) = opt_list o.
Proof.
  induction ls as [|a ls IH]; intros [|i] o H; try discriminate.
  - inversion H; subst. unfold upto; cbn [firstn map list_sum fold_right skipn].
    simpl. rewrite firstn_app. unfold opt_size. rewrite Nat.sub_diag, firstn_all. simpl. apply app_nil_r.
  - simpl in H. unfold upto. cbn [firstn map concat].
    change (list_sum (opt_size a :: map opt_size (firstn i ls))) with (opt_size a + upto ls i).
    rewrite skipn_app, skipn_all2 by (unfold opt_size; lia). simpl app.
    replace (opt_size a + upto ls i - length (opt_list a)) with (upto ls i) by (unfold opt_size; lia).
    apply IH; auto.
Qed.

Lemma upto_S {T} (ls : list (option (list T))) : forall i o,
  nth_error ls i = Some o -> upto ls (S i) = upto ls i + opt_size o.
Proof.
  induction ls as [|a ls IH]; intros [|i] o H; try discriminate.
  - inversion H; subst. unfold upto; simpl. lia.
  - simpl in H. specialize (IH _ _ H). unfold upto in *.
    change (firstn (S (S i)) (a :: ls)) with (a :: firstn (S i) ls).
    change (firstn (S i) (a :: ls)) with (a :: firstn i ls).
    cbn [map]. change (list_sum (opt_size a :: map opt_size (firstn (S i) ls)))
      with (opt_size a + list_sum (map opt_size (firstn (S i) ls))).
    change (list_sum (opt_size a :: map opt_size (firstn i ls)))
      with (opt_size a + list_sum (map opt_size (firstn i ls))). lia.
Qed.

Lemma unpack_pack {T} (ls : list (option (list T))) i o :
  nth_error ls i = Some o -> unpack (pack ls) i = Ok (shrink o).
Proof.
  intros H. unfold pack. destruct (existsb isSome ls) eqn:E.
  - unfold unpack.
    assert (Hi : i < length ls) by (apply nth_error_Some; congruence).
    rewrite (proj2 (get_ok _ i (0 + upto ls i))) by (apply slices_from_nth; lia).
    rewrite (proj2 (get_ok _ (S i) (0 + upto ls (S i)))) by (apply slices_from_nth; lia).
    cbn [bind]. simpl plus. rewrite (upto_S _ _ _ H). f_equal.
    replace (upto ls i + opt_size o - upto ls i) with (opt_size o) by lia.
    change (map (fun o0 : option (list T) => match o0 with Some l => l | None => [] end) ls) with (map opt_list ls).
    rewrite (skipn_concat _ _ _ H).
    destruct (Nat.eqb_spec (upto ls i) (upto ls i + opt_size o)) as [Z|NZ];
      destruct o as [[|t l]|]; unfold opt_size in *; simpl in *; auto; lia.
  - simpl. f_equal. destruct o as [l|]; auto.
    assert (X : existsb isSome ls = true).
    { apply existsb_exists. exists (Some l). split; auto. eapply nth_error_In; eauto. }
    congruence.
Qed.

Lemma pack_slices_length {T} (ls : list (option (list T))) s :
  In s (slices_of (pack ls)) -> length s = S (length ls).
Proof.
  unfold pack. destruct (existsb isSome ls); simpl; [|intros []].
  intros [<- |[]]. simpl. rewrite slices_from_length. auto.
Qed.

Lemma pack_slices_some {T} (ls : list (option (list T))) l :
  In (Some l) ls -> slices_of (pack ls) <> [].
Proof.
  intros H. unfold pack. assert (X : existsb isSome ls = true).
  { apply existsb_exists. exists (Some l). auto. }
  rewrite X. simpl. discriminate.
Qed.

Section Proofs.
Context {V : Type}.
Notation cochain := (cochain V).
Notation complex := (complex V).

Lemma items_nth {T} (f : cochain -> option (list T)) ks d i k :
  nth_error ks i = Some k ->
  nth_error (items f ks d) i = Some (match at_dim k d with Some c => f c | None => None end).
Proof. intros H. unfold items. rewrite nth_error_map, H. reflexivity. Qed.

Lemma counts_nth (f : cochain -> option (option nat)) ks d i k :
  nth_error ks i = Some k ->
  nth_error (counts f ks d) i =
  Some (match at_dim k d with
        | Some c => match f c with Some n => n | None => None end
        | None => None
        end).
Proof. intros H. unfold counts. rewrite nth_error_map, H. reflexivity. Qed.

Lemma seq_nth_error n : forall s d, d < n -> nth_error (seq s n) d = Some (s + d).
Proof.
  induction n as [|n IH]; intros s d H; [lia|].
  destruct d as [|d]; simpl; [f_equal; lia|]. rewrite IH by lia. f_equal; lia.
Qed.

(** What is read back at one dimension: the cochain if the complex has one, else an empty one. *)
Definition kept (o : option (option nat)) : option (option nat) :=
  match o with Some (Some n) => Some (Some n) | _ => None end.
Definition readback (d : nat) (c : cochain) : cochain :=
  mkCochain d (shrink (c_x c)) (shrink (c_upper c)) (shrink (c_lower c)) (shrink (c_shb c))
    (shrink (c_shc c)) (shrink (c_bidx c)) (shrink (c_uor c)) (shrink (c_lor c)) (shrink (c_y c))
    (shrink (c_mask c)) (kept (c_n c)) (kept (c_nup c))
    (match c_ndown c with Some (Some n) => Some (Some n) | _ => if d =? 0 then Some None else None end).

Lemma get_cochain_spec (ks : list complex) ls dims md d i k :
  d <= md -> nth_error ks i = Some k ->
  get_cochain (mkCollated (map (store_dim ks) (seq 0 (S md))) ls dims) d i =
  let c := readback d (match at_dim k d with Some c => c | None => empty_cochain d end) in
  let* m := num_cells c in Ok (c, negb (isSome m)).
Proof.
  intros Hd Hk. unfold get_cochain. cbn [co_store].
  rewrite nth_error_map, (seq_nth_error (S md) 0 d) by lia. simpl plus. cbn [option_map of_option bind].
  unfold store_dim; cbn [s_x s_upper s_lower s_shb s_shc s_bidx s_uor s_lor s_y s_mask s_n s_nup s_ndown].
  rewrite (proj2 (get_ok _ _ _) (counts_nth c_n ks d i k Hk)). cbn [bind].
  rewrite (proj2 (get_ok _ _ _) (counts_nth c_nup ks d i k Hk)). cbn [bind].
  rewrite (proj2 (get_ok _ _ _) (counts_nth c_ndown ks d i k Hk)). cbn [bind].
  rewrite (unpack_pack _ _ _ (items_nth c_x ks d i k Hk)). cbn [bind].
  rewrite (unpack_pack _ _ _ (items_nth c_upper ks d i k Hk)). cbn [bind].
  rewrite (unpack_pack _ _ _ (items_nth c_lower ks d i k Hk)). cbn [bind].
  rewrite (unpack_pack _ _ _ (items_nth c_shb ks d i k Hk)). cbn [bind].
  rewrite (unpack_pack _ _ _ (items_nth c_shc ks d i k Hk)). cbn [bind].
  rewrite (unpack_pack _ _ _ (items_nth c_bidx ks d i k Hk)). cbn [bind].
  rewrite (unpack_pack _ _ _ (items_nth c_uor ks d i k Hk)). cbn [bind].
  rewrite (unpack_pack _ _ _ (items_nth c_lor ks d i k Hk)). cbn [bind].
  rewrite (unpack_pack _ _ _ (items_nth c_y ks d i k Hk)). cbn [bind].
  rewrite (unpack_pack _ _ _ (items_nth c_mask ks d i k Hk)). cbn [bind].
  cbv zeta.
  assert (G : forall c c' : cochain, c = c' ->
    (let* m := num_cells c in Ok (c, negb (isSome m))) = (let* m := num_cells c' in Ok (c', negb (isSome m))))
    by (intros ? ? ->; reflexivity).
  apply G. unfold readback. destruct (at_dim k d) as [c|]; cbn; [|reflexivity].
  destruct (c_n c) as [[?|]|], (c_nup c) as [[?|]|], (c_ndown c) as [[?|]|]; reflexivity.
Qed.

Lemma list_max_bound b n : (exists p : nat * nat, In p b /\ S (snd p) = n) ->
  (forall p, In p b -> snd p < n) -> b <> [] /\ S (list_max (map snd b)) = n.
Proof.
  intros (p & Hp & E) Hb. split; [intros ->; destruct Hp|].
  assert (A : snd p <= list_max (map snd b)) by (apply list_max_in_le, in_map; auto).
  assert (B : list_max (map snd b) < n).
  { apply list_max_lt; [lia|]. intros x Hx. apply in_map_iff in Hx as (q & <- & Hq). auto. }
  lia.
Qed.

Lemma readback_num n D d c : storable_cochain n D d c -> num_cells (readback d c) = Ok (Some (n d)).
Proof.
  intros H. unfold num_cells, readback; cbn [c_n c_x c_bidx c_upper c_lower].
  destruct (so_n _ _ _ _ H) as [E|[(E & xs & Ex & Hne & Hl)|(E & Ex & b & Eb & Hp & Hb)]]; rewrite E; cbn [kept].
  - reflexivity.
  - rewrite Ex. destruct xs; [congruence|]. simpl shrink. rewrite <- Hl. reflexivity.
  - rewrite Ex, Eb. destruct (list_max_bound _ _ Hp Hb) as [Hne M].
    destruct b as [|p b]; [congruence|]. cbn [shrink].
    unfold list_max_err. cbn [map]. cbn [bind]. change (snd p :: map snd b) with (map snd (p :: b)).
    rewrite M. reflexivity.
Qed.

Lemma readback_empty d : num_cells (readback d (empty_cochain d)) = Ok None.
Proof. reflexivity. Qed.

Lemma filter_seq_retrieved (f : nat -> cochain * bool) a : forall m s,
  a <= m -> (forall d, s <= d < s + a -> snd (f d) = false) ->
  (forall d, s + a <= d < s + m -> snd (f d) = true) ->
  map fst (filter (fun p => negb (snd p)) (map f (seq s m))) = map (fun d => fst (f d)) (seq s a).
Proof.
  induction a as [|a IH]; intros m s Hm H0 H1.
  - simpl. replace (filter _ _) with (@nil (cochain * bool)); auto. symmetry.
    assert (G : forall l, (forall d, In d l -> s <= d < s + m) ->
      filter (fun p => negb (snd p)) (map f l) = []).
    { induction l as [|d l IHl]; intros Hl; auto. simpl. rewrite H1 by (specialize (Hl d (or_introl eq_refl)); lia).
      simpl. apply IHl. intros; apply Hl; right; auto. }
    apply G. intros d Hd. apply in_seq in Hd. lia.
  - destruct m as [|m]; [lia|]. simpl. rewrite H0 by lia. simpl. f_equal.
    apply IH; [lia| |]; intros d Hd; [apply H0|apply H1]; lia.
Qed.

(** ** A whole complex *)
Lemma fetch_spec (ks : list complex) md co i k n :
  collate ks md = Ok co -> labelled ks -> nth_error ks i = Some k -> storable k n -> k_dim k <= md ->
  exists k', fetch co md i = Ok k' /\ same_complex k k'.
Proof.
  intros Hc Hl Hk Hs Hd. unfold collate in Hc.
  apply bind_ok in Hc as (u & _ & Hc).
  destruct ks as [|k0 ks0]; [destruct i; discriminate|].
  apply bind_ok in Hc as (ls & Els & Hc).
  set (ks := k0 :: ks0) in *.
  assert (co = mkCollated (map (store_dim ks) (seq 0 (S md))) ls (map k_dim ks)) as -> by congruence. clear Hc.
  assert (Et : get_target ls i = Ok (k_y k)).
  { assert (Hin : In k ks) by (eapply nth_error_In; eauto).
    destruct Hl as [Hn|Hz].
    - rewrite (Hn k0 (or_introl eq_refl)) in Els.
      assert (ls = LList (map k_y ks)) as -> by congruence. cbn [get_target].
      rewrite (proj2 (get_ok _ i (k_y k))) by (rewrite nth_error_map, Hk; reflexivity).
      cbn [bind]. rewrite (Hn _ Hin). reflexivity.
    - destruct (Hz k0 (or_introl eq_refl)) as (z0 & E0). rewrite E0 in Els.
      set (g := fun k : complex => match k_y k with Some y => y | None => [] end).
      assert (Em : mapM (fun k : complex => of_option TypeError (k_y k)) ks = Ok (map g ks)).
      { apply mapM_map. intros a Ha. destruct (Hz a Ha) as (z & E). unfold g. rewrite E. reflexivity. }
      rewrite Em in Els. cbn [bind] in Els.
      assert (ls = LTensor (concat (map g ks))) as -> by congruence. cbn [get_target].
      destruct (Hz _ Hin) as (z & E). rewrite E. f_equal. f_equal.
      assert (G : forall l j, nth_error l j = Some k -> (forall a, In a l -> exists z, k_y a = Some [z]) ->
        firstn 1 (skipn j (concat (map g l))) = [z]).
      { induction l as [|a l IH]; intros [|j] Hj Ha; try discriminate.
        - inversion Hj; subst a. simpl. unfold g at 1. rewrite E. reflexivity.
        - simpl map. destruct (Ha a (or_introl eq_refl)) as (za & Ea). simpl concat.
          unfold g at 1. rewrite Ea. simpl app.
          change (skipn (S j) (za :: concat (map g l))) with (skipn j (concat (map g l))).
          apply IH; auto. intros; apply Ha; right; auto. }
      apply G; auto. }
  unfold fetch. cbn [co_labels co_dims].
  set (f := fun d => (readback d (match at_dim k d with Some c => c | None => empty_cochain d end),
                      k_dim k <? d)).
  assert (Hat : forall d, d <= k_dim k -> exists c, at_dim k d = Some c /\ storable_cochain n (k_dim k) d c).
  { intros d Hle. unfold at_dim. destruct (nth_error (k_cochains k) d) as [c|] eqn:E.
    - exists c. split; auto. apply (st_each _ _ Hs); auto.
    - apply nth_error_None in E. rewrite (st_len _ _ Hs) in E. lia. }
  assert (Hno : forall d, k_dim k < d -> at_dim k d = None).
  { intros d Hlt. apply nth_error_None. rewrite (st_len _ _ Hs). lia. }
  assert (Em : mapM (fun d => get_cochain (mkCollated (map (store_dim ks) (seq 0 (S md))) ls (map k_dim ks)) d i)
                 (seq 0 (S md)) = Ok (map f (seq 0 (S md)))).
  { apply mapM_map. intros d Hin. apply in_seq in Hin. rewrite (get_cochain_spec ks ls _ md d i k) by (auto; lia).
    cbv zeta. unfold f. destruct (Nat.ltb_spec (k_dim k) d) as [Hlt|Hle].
    - rewrite (Hno d Hlt). rewrite readback_empty. reflexivity.
    - destruct (Hat d Hle) as (c & -> & Hc). rewrite (readback_num _ _ _ _ Hc). reflexivity. }
  rewrite Em. cbn [bind]. cbv zeta.
  rewrite (filter_seq_retrieved f (k_dim k + 1)).
  2: lia.
  2: { intros d Hdd. unfold f; cbn [snd]. apply Nat.ltb_ge. lia. }
  2: { intros d Hdd. unfold f; cbn [snd]. apply Nat.ltb_lt. lia. }
  set (cs := map (fun d => fst (f d)) (seq 0 (k_dim k + 1))).
  assert (Hcs : length cs = k_dim k + 1) by (unfold cs; rewrite map_length, seq_length; auto).
  rewrite Et. cbn [bind].
  rewrite (proj2 (get_ok _ i (k_dim k))) by (rewrite nth_error_map, Hk; reflexivity). cbn [bind].
  rewrite Hcs. replace (S (k_dim k) =? k_dim k + 1) with true by (symmetry; apply Nat.eqb_eq; lia).
  cbn [assert_ bind].
  assert (Hnth : forall d c', nth_error cs d = Some c' ->
    d <= k_dim k /\ exists c, at_dim k d = Some c /\ storable_cochain n (k_dim k) d c /\ c' = readback d c).
  { intros d c' H. assert (Hlt : d < length cs) by (apply nth_error_Some; congruence).
    rewrite Hcs in Hlt. unfold cs in H. rewrite nth_error_map, seq_nth_error in H by lia.
    simpl in H. inversion H; subst c'. split; [lia|].
    destruct (Hat d ltac:(lia)) as (c & E & Hc). exists c. rewrite E. auto. }
  destruct (mk_complex_ok cs (k_dim k) n (k_y k)) as (K & EK & KD & KY & KL & KC).
  { exact Hcs. }
  { intros d c' H. destruct (Hnth d c' H) as (Hle & c & E & Hc & ->). split; [reflexivity|].
    eapply readback_num; eauto. }
  exists K. split; [exact EK|]. split; auto.
  - rewrite KL, (st_len _ _ Hs). auto.
  - intros d c Hdc.
    assert (Hlt : d < length (k_cochains K)).
    { rewrite KL, <- (st_len _ _ Hs). apply nth_error_Some. congruence. }
    destruct (nth_error (k_cochains K) d) as [c'|] eqn:Ec'; [|apply nth_error_None in Ec'; lia].
    exists c'. split; auto. destruct (KC d c' Ec') as (cr & Er & ->).
    destruct (Hnth d cr Er) as (Hle & c1 & E1 & Hc1 & ->).
    unfold at_dim in E1. rewrite Hdc in E1. inversion E1; subst c1. clear E1.
    pose proof (so_dim _ _ _ _ Hc1) as Hdim. pose proof (so_nup _ _ _ _ Hc1) as Hup.
    pose proof (so_ndown _ _ _ _ Hc1) as Hdown. pose proof (so_n _ _ _ _ Hc1) as Hn.
    constructor; unfold consolidated, readback; cbn [c_dim c_x c_upper c_lower c_shb c_shc c_bidx c_uor c_lor c_y c_mask c_n c_nup c_ndown]; auto.
    + destruct Hn as [->|[(-> & _)|(-> & _)]]; reflexivity.
    + destruct (d <? k_dim k); [congruence|]. destruct (c_nup c) as [[?|]|]; simpl; congruence.
    + intros Hpos. destruct d as [|d']; [lia|]. symmetry. apply Hdown; auto.
Qed.

Lemma collate_ok (ks : list complex) md : ks <> [] -> labelled ks -> exists co, collate ks md = Ok co /\
  co_store co = map (store_dim ks) (seq 0 (S md)) /\ co_dims co = map k_dim ks.
Proof.
  intros Hne Hl. unfold collate.
  assert (E : mapM label_check ks = Ok (map (fun _ => tt) ks)).
  { apply mapM_map. intros k Hk. unfold label_check. destruct Hl as [H|H].
    - rewrite (H k Hk). reflexivity.
    - destruct (H k Hk) as (z & ->). reflexivity. }
  rewrite E. cbn [bind]. destruct ks as [|k0 ks0]; [congruence|].
  destruct Hl as [H|H].
  - rewrite (H k0 (or_introl eq_refl)). cbn [bind]. eauto.
  - destruct (H k0 (or_introl eq_refl)) as (z & ->).
    rewrite (mapM_map _ (fun k => match k_y k with Some y => y | None => [] end)).
    2: { intros a Ha. destruct (H a Ha) as (za & ->). reflexivity. }
    cbn [bind]. eauto.
Qed.

Lemma stored_slices_length (ks : list complex) d s : In s (stored_slices (store_dim ks d)) -> length s = S (length ks).
Proof.
  unfold stored_slices, store_dim; cbn [s_x s_upper s_lower s_shb s_shc s_bidx s_uor s_lor s_y s_mask].
  intros H.
  repeat (apply in_app_or in H; destruct H as [H|H]);
    apply pack_slices_length in H; unfold items in H; rewrite map_length in H; auto.
Qed.

Lemma co_len_spec (ks : list complex) md co : collate ks md = Ok co -> nonvoid ks md -> co_len co = length ks.
Proof.
  intros Hc (k & d & c & Hk & Hd & Ec & Hcar).
  assert (Es : co_store co = map (store_dim ks) (seq 0 (S md))).
  { unfold collate in Hc. apply bind_ok in Hc as (u & _ & Hc). destruct ks; [discriminate|].
    apply bind_ok in Hc as (ls & _ & Hc). inversion Hc; reflexivity. }
  unfold co_len. rewrite Es.
  assert (Hall : forall s, In s (concat (map stored_slices (map (store_dim ks) (seq 0 (S md))))) ->
    length s = S (length ks)).
  { intros s Hs. apply in_concat in Hs as (l & Hl & Hs). apply in_map_iff in Hl as (st & <- & Hst).
    apply in_map_iff in Hst as (e & <- & _). eapply stored_slices_length; eauto. }
  destruct (concat (map stored_slices (map (store_dim ks) (seq 0 (S md))))) as [|s r] eqn:E.
  - exfalso.
    assert (N : stored_slices (store_dim ks d) <> []).
    { assert (I : forall T (f : cochain -> option (list T)), f c <> None -> slices_of (pack (items f ks d)) <> []).
      { intros T f Hf. destruct (f c) as [l|] eqn:Ef; [|congruence].
        apply (pack_slices_some _ l). unfold items. apply in_map_iff. exists k. split; auto.
        unfold at_dim. rewrite Ec. auto. }
      unfold stored_slices, store_dim; cbn [s_x s_upper s_lower s_shb s_shc s_bidx s_uor s_lor s_y s_mask].
      intros Z. repeat (apply app_eq_nil in Z; destruct Z as [? Z]).
      destruct Hcar as [G|[G|[G|[G|[G|[G|[G|[G|[G|G]]]]]]]]]; apply I in G; apply G; assumption. }
    destruct (stored_slices (store_dim ks d)) as [|s r] eqn:Es'; [congruence|].
    assert (X : In s (concat (map stored_slices (map (store_dim ks) (seq 0 (S md)))))).
    { apply in_concat. exists (stored_slices (store_dim ks d)). split.
      - apply in_map, in_map. apply in_seq. lia.
      - rewrite Es'. left; auto. }
    rewrite E in X. destruct X.
  - rewrite (Hall s (or_introl eq_refl)). lia.
Qed.

(** ** The cache *)
Definition cache_ok (ds : dataset V) (n : nat) (f : nat -> result complex) : Prop :=
  (forall i k, (exists l, d_cache ds = Some l /\ nth_error l i = Some (Some k)) -> f i = Ok k) /\
  match d_cache ds with Some l => length l = n | None => ds_len ds = Ok n end.

Lemma set_nth_spec {A} (l : list A) i a : i < length l -> exists l', set_nth l i a = Ok l' /\
  length l' = length l /\ (forall j, nth_error l' j = if j =? i then Some a else nth_error l j).
Proof.
  unfold set_nth. revert i. induction l as [|b l IH]; intros i Hi; [simpl in Hi; lia|].
  destruct i as [|i].
  - exists (a :: l). repeat split. intros [|j]; auto.
  - simpl in Hi. destruct (IH i ltac:(lia)) as (l' & E & El & Hn). simpl. rewrite E. cbn [bind].
    exists (b :: l'). simpl. repeat split; auto. intros [|j]; simpl; auto.
Qed.

(** Accesses only ever change the cache. *)
Definition same_source (ds ds' : dataset V) : Prop :=
  d_max_dim ds' = d_max_dim ds /\ d_data ds' = d_data ds /\ d_train ds' = d_train ds /\
  d_val ds' = d_val ds /\ d_test ds' = d_test ds /\ d_indices ds' = d_indices ds.

Lemma get_miss_spec ds co n cache i (f := fetch co (d_max_dim ds)) :
  d_data ds = Some co -> length cache = n -> i < n ->
  (forall j k, nth_error cache j = Some (Some k) -> f j = Ok k) ->
  exists ds', get_miss ds cache i = (f i, ds') /\ same_source ds ds' /\ cache_ok ds' n f.
Proof.
  intros Hd Hn Hi Hc. unfold get_miss. rewrite Hd. fold f.
  assert (Hok : cache_ok (with_cache ds cache) n f).
  { split; [|exact Hn]. intros j k (l & E & Hj). simpl in E. inversion E; subst l. auto. }
  change (fetch co (d_max_dim ds) i) with (f i).
  destruct (f i) as [k|e] eqn:E.
  - destruct (set_nth_spec cache i (Some k) ltac:(lia)) as (l' & El & Hl & Hnth). rewrite El.
    exists (with_cache ds l'). split; [auto|]. split; [repeat split|].
    split; [|simpl; lia]. intros j k' (l & E' & Hj). simpl in E'. inversion E'; subst l.
    rewrite Hnth in Hj. destruct (Nat.eqb_spec j i); [inversion Hj; subst; auto|auto].
  - exists (with_cache ds cache). split; [auto|]. split; [repeat split|]. exact Hok.
Qed.

Lemma ds_get_spec ds co n i (f := fetch co (d_max_dim ds)) :
  d_data ds = Some co -> cache_ok ds n f -> i < n ->
  exists ds', ds_get ds i = (f i, ds') /\ same_source ds ds' /\ cache_ok ds' n f.
Proof.
  intros Hd [Hc Hl] Hi. unfold ds_get. destruct (d_cache ds) as [l|] eqn:E.
  - destruct (nth_error l i) as [[k|]|] eqn:En.
    + exists ds. rewrite (Hc i k) by eauto. split; auto. split; [repeat split|].
      split; [rewrite E; auto|rewrite E; auto].
    + apply get_miss_spec; auto. intros j k Hj. apply Hc. eauto.
    + apply nth_error_None in En. lia.
  - rewrite Hl. apply get_miss_spec; auto.
    + apply repeat_length.
    + intros j k Hj. apply nth_error_In, repeat_spec in Hj. discriminate.
Qed.

Lemma same_source_trans a b c : same_source a b -> same_source b c -> same_source a c.
Proof. unfold same_source. intuition congruence. Qed.

Lemma ds_gets_spec idxs : forall ds co n (f := fetch co (d_max_dim ds)),
  d_data ds = Some co -> cache_ok ds n f -> (forall i, In i idxs -> i < n) ->
  exists ds', ds_gets ds idxs = (map f idxs, ds') /\ same_source ds ds' /\ cache_ok ds' n f.
Proof.
  induction idxs as [|i r IH]; intros ds co n f Hd Hc Hi.
  - exists ds. split; auto. split; [repeat split|auto].
  - destruct (ds_get_spec ds co n i Hd Hc (Hi i (or_introl eq_refl))) as (ds1 & E1 & S1 & C1).
    simpl. rewrite E1.
    destruct (IH ds1 co n) as (ds2 & E2 & S2 & C2).
    { destruct S1 as (_ & -> & _). auto. }
    { destruct S1 as (-> & _). auto. }
    { intros j Hj. apply Hi. right; auto. }
    rewrite E2. destruct S1 as (M & S1). rewrite M in *. exists ds2. split; auto. split; auto.
    eapply same_source_trans; [|exact S2]. split; auto.
Qed.

End Proofs.
