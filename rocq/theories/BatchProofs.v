From Coq Require Import List Arith Lia ZArith Bool.
From Verif Require Import Base ComplexModel BatchSpec.
Import ListNotations.

(** ** Offsets *)
Section Offsets.
Implicit Types szs : list (nat -> nat).

Lemma off_0 szs d : off szs 0 d = 0.
Proof. reflexivity. Qed.

Lemma off_S szs i d sz :
  nth_error szs i = Some sz -> off szs (S i) d = off szs i d + sz d.
Proof.
  unfold off. revert i; induction szs as [|s szs IH]; intros [|i] H; simpl in *; try discriminate.
  - inversion H; subst. lia.
  - specialize (IH _ H). simpl in IH. destruct szs; [destruct i; discriminate|].
    simpl in *. rewrite IH. lia.
Qed.

Lemma off_all szs d : off szs (length szs) d = total szs d.
Proof. unfold off, total. rewrite firstn_all; auto. Qed.

Lemma off_mono szs i j d : i <= j -> off szs i d <= off szs j d.
Proof.
  unfold off. revert i j; induction szs as [|s szs IH]; intros i j H.
  - rewrite !firstn_nil; simpl; lia.
  - destruct i; [simpl; lia|]. destruct j; [lia|]. simpl.
    specialize (IH i j). lia.
Qed.

Lemma off_le_total szs i d : off szs i d <= total szs d.
Proof.
  destruct (Nat.le_gt_cases i (length szs)).
  - rewrite <- off_all. apply off_mono; auto.
  - unfold off, total. rewrite firstn_all2 by lia. auto.
Qed.

Lemma off_in_range szs i d sz j :
  nth_error szs i = Some sz -> j < sz d -> off szs i d + j < total szs d.
Proof.
  intros H Hj. pose proof (off_S szs i d sz H). pose proof (off_le_total szs (S i) d). lia.
Qed.

(** Blocks are disjoint. *)
Lemma block_unique szs d i i' sz sz' j j' :
  nth_error szs i = Some sz -> nth_error szs i' = Some sz' -> j < sz d -> j' < sz' d ->
  j + off szs i d = j' + off szs i' d -> i = i' /\ j = j'.
Proof.
  intros Hi Hi' Hj Hj' E.
  pose proof (off_S szs i d sz Hi). pose proof (off_S szs i' d sz' Hi').
  destruct (lt_eq_lt_dec i i') as [[Hlt| ->]|Hlt].
  - pose proof (off_mono szs (S i) i' d Hlt). lia.
  - split; [auto|lia].
  - pose proof (off_mono szs (S i') i d Hlt). lia.
Qed.

Lemma block_of szs d t :
  t < total szs d ->
  exists i sz j, nth_error szs i = Some sz /\ j < sz d /\ t = j + off szs i d.
Proof.
  unfold total, off. revert t; induction szs as [|s szs IH]; simpl; intros t Ht; [lia|].
  destruct (Nat.lt_ge_cases t (s d)).
  - exists 0, s, t. simpl. repeat split; auto.
  - destruct (IH (t - s d)) as (i & sz & j & H1 & H2 & H3); [lia|].
    exists (S i), sz, j. simpl. repeat split; auto. lia.
Qed.

Lemma last_pos szs d :
  0 < total szs d ->
  exists i sz, nth_error szs i = Some sz /\ 0 < sz d /\ off szs (S i) d = total szs d.
Proof.
  intros H. destruct (block_of szs d (total szs d - 1)) as (i & sz & j & H1 & H2 & H3); [lia|].
  exists i, sz. repeat split; auto; [lia|].
  pose proof (off_S szs i d sz H1). pose proof (off_le_total szs (S i) d). lia.
Qed.

End Offsets.

Section Proofs.
Context {V : Type}.
Notation cochain := (cochain V).
Notation complex := (complex V).

Lemma existsb_map {A B} (f : A -> B) (p : B -> bool) l :
  existsb p (map f l) = existsb (fun a => p (f a)) l.
Proof. induction l; simpl; congruence. Qed.

(** ** One key *)
Lemma key_loop_spec {T C} (get : cochain -> option (list T)) (inc : cochain -> result C)
    plus shift (cumf : nat -> C) i data :
  (forall j c, nth_error data j = Some c ->
     exists v, inc c = Ok v /\ plus v (cumf (i + j)) = cumf (S (i + j))) ->
  exists r, key_loop get inc plus shift (cumf i) data = Ok r /\
    concat r = concat (mapi_from (fun j c => match get c with
                                             | Some l => map (shift (cumf j)) l
                                             | None => [] end) i data).
Proof.
  revert i; induction data as [|c data IH]; intros i H; simpl.
  - eexists; split; reflexivity.
  - destruct (H 0 c eq_refl) as (v & Hv & Hp). rewrite Nat.add_0_r in Hp.
    rewrite Hv; simpl. rewrite Hp.
    destruct (IH (S i)) as (r & Hr & Hc).
    { intros j c' Hj. destruct (H (S j) c' Hj) as (v' & Hv' & Hp').
      rewrite Nat.add_succ_r in Hp'. exists v'; auto. }
    rewrite Hr; simpl. eexists; split; [reflexivity|].
    rewrite concat_app, Hc. destruct (get c); simpl; auto. rewrite app_nil_r; auto.
Qed.

Lemma batch_key_spec {T C} (get : cochain -> option (list T)) (inc : cochain -> result C)
    plus shift (cumf : nat -> C) zero data :
  cumf 0 = zero ->
  (existsb (fun c => isSome (get c)) data = true ->
   forall j c, nth_error data j = Some c ->
     exists v, inc c = Ok v /\ plus v (cumf j) = cumf (S j)) ->
  batch_key get inc plus zero shift data = Ok (joined (fun i => shift (cumf i)) (map get data)).
Proof.
  intros H0 H. unfold batch_key, joined. rewrite existsb_map.
  destruct (existsb (fun c => isSome (get c)) data); [|reflexivity].
  destruct (key_loop_spec get inc plus shift cumf 0 data) as (r & Hr & Hc).
  { intros j c Hj. apply H; auto. }
  rewrite <- H0, Hr; simpl. rewrite Hc, mapi_map. reflexivity.
Qed.

Lemma joined_ext {T} (f g : nat -> T -> T) (ls : list (option (list T))) :
  (forall i l a, nth_error ls i = Some (Some l) -> In a l -> f i a = g i a) ->
  joined f ls = joined g ls.
Proof.
  intros H. unfold joined. destruct (existsb isSome ls); auto. do 2 f_equal.
  apply mapi_ext. intros j [l|] Hj; auto. apply map_ext_in. intros; eapply H; eauto.
Qed.

(** ** Cell counts of a well-formed cochain *)
Lemma wf_num_cells sz D d (c : cochain) :
  wf_cochain sz D d c -> num_cells c = Ok (Some (sz d)).
Proof.
  intros [Hd Hn Hx Hu Hl Hb Hup Hdn]. unfold num_cells.
  destruct Hn as [->| ->]; auto. destruct (c_x c) as [xs|]; [congruence|].
  destruct Hx as (b & p & Hbe & Hp & Hs). rewrite Hbe in *. destruct Hb as [_ Hb].
  destruct b as [|q b]; [destruct Hp|]. unfold list_max_err. simpl map. cbn [bind].
  do 2 f_equal.
  assert (Hle : snd p <= list_max (map snd (q :: b))) by (apply list_max_in_le, in_map; auto).
  assert (Hlt : list_max (map snd (q :: b)) < sz d).
  { apply Base.list_max_lt; [lia|]. intros x Hin. apply in_map_iff in Hin as ([f t] & <- & Hin).
    apply (Hb f t); auto. }
  simpl map in *. lia.
Qed.

Definition below (sz : nat -> nat) (d : nat) : nat := match d with 0 => 0 | S d' => sz d' end.

Lemma below_pred sz d : d <> 0 -> below sz d = sz (pred d).
Proof. destruct d; [congruence|reflexivity]. Qed.

Lemma wf_num_up sz D d (c : cochain) :
  wf_cochain sz D d c -> (D <= d -> sz (S d) = 0) -> num_cells_up c = Ok (Some (sz (S d))).
Proof.
  intros [Hd Hn Hx Hu Hl Hb Hup Hdn] Ht. unfold num_cells_up.
  destruct (Nat.ltb_spec d D).
  - rewrite Hup; auto.
  - rewrite Ht by auto. destruct Hup as [->| ->]; auto.
    destruct (c_upper c); [destruct Hu; lia|]. rewrite Hu. reflexivity.
Qed.

Lemma wf_inc_down sz D d (c : cochain) : wf_cochain sz D d c -> inc_down c = Ok (below sz d).
Proof.
  intros [Hd Hn Hx Hu Hl Hb Hup Hdn]. unfold inc_down, num_cells_down. rewrite Hd.
  destruct d; simpl; auto. rewrite Hdn by lia. reflexivity.
Qed.

(** ** The cochain a complex contributes to a batch *)
Record member_ok (k : complex) (sz : nat -> nat) (d : nat) (m : cochain) : Prop := {
  mo_ok : member_cochain k d = Ok m;
  mo_dim : c_dim m = d;
  mo_attr : forall T (get : cochain -> option (list T)),
      (forall e n, get (set_ndown (empty_cochain e) n) = None) ->
      (forall e, get (empty_cochain e) = None) -> get m = attr get d k;
  mo_num : num_cells m = Ok (if d <=? k_dim k then Some (sz d) else None);
  mo_inc : inc_cells m = Ok (sz d);
  mo_up : inc_up m = Ok (sz (S d));
  mo_down : inc_down m = Ok (below sz d);
  mo_bnd : inc_boundary m = Ok (below sz d, sz d)
}.

Lemma member_spec (k : complex) sz d : wf_complex k sz -> exists m, member_ok k sz d m.
Proof.
  intros [Hlen Heach Habove]. unfold member_cochain.
  destruct (nth_error (k_cochains k) d) as [c|] eqn:Ec.
  - exists c. pose proof (Heach _ _ Ec) as W.
    assert (Hd : d <= k_dim k) by (assert (d < length (k_cochains k)) by (apply nth_error_Some; congruence); lia).
    pose proof (wf_num_cells _ _ _ _ W) as Hn.
    assert (Hdn : inc_down c = Ok (below sz d)) by (eapply wf_inc_down; eauto).
    split.
    + unfold member_cochain; rewrite Ec; auto.
    + apply W.
    + intros. unfold attr. rewrite Ec. auto.
    + rewrite Hn. destruct (Nat.leb_spec d (k_dim k)); [auto|lia].
    + unfold inc_cells. rewrite Hn; auto.
    + unfold inc_up. rewrite (wf_num_up _ _ _ _ W); [reflexivity|]. intros; apply Habove; lia.
    + auto.
    + unfold inc_boundary. unfold inc_down in Hdn.
      destruct (num_cells_down c) as [n|]; simpl in *; [|discriminate].
      rewrite Hn; simpl. inversion Hdn; auto.
  - assert (Hd : k_dim k < d) by (apply nth_error_None in Ec; lia).
    assert (Hz : sz d = 0) by auto. assert (Hz' : sz (S d) = 0) by auto.
    destruct d as [|d']; [lia|].
    destruct (nth_error (k_cochains k) d') as [c|] eqn:Ec'.
    + pose proof (Heach _ _ Ec') as W. pose proof (wf_num_cells _ _ _ _ W) as Hn.
      exists (set_ndown (empty_cochain (S d')) (Some (sz d'))). split.
      * unfold member_cochain; rewrite Ec, Ec', Hn; auto.
      * reflexivity.
      * intros T get G1 G2. unfold attr. rewrite Ec, G1; auto.
      * destruct (Nat.leb_spec (S d') (k_dim k)); [lia|reflexivity].
      * unfold inc_cells; simpl. rewrite Hz; auto.
      * unfold inc_up; simpl. rewrite Hz'; auto.
      * reflexivity.
      * unfold inc_boundary; simpl. rewrite Hz; auto.
    + assert (Hd' : k_dim k < d') by (apply nth_error_None in Ec'; lia).
      assert (Hz'' : sz d' = 0) by auto.
      exists (empty_cochain (S d')). split.
      * unfold member_cochain; rewrite Ec, Ec'; auto.
      * reflexivity.
      * intros T get G1 G2. unfold attr. rewrite Ec, G2; auto.
      * destruct (Nat.leb_spec (S d') (k_dim k)); [lia|reflexivity].
      * unfold inc_cells; simpl. rewrite Hz; auto.
      * unfold inc_up; simpl. rewrite Hz'; auto.
      * unfold inc_down; simpl. rewrite Hz''; auto.
      * unfold inc_boundary; simpl. rewrite Hz, Hz''; auto.
Qed.

Lemma members_spec ks szs d :
  Forall2 wf_complex ks szs ->
  exists ms, mapM (fun k => member_cochain k d) ks = Ok ms /\
    Forall2 (fun ksz m => member_ok (fst ksz) (snd ksz) d m) (combine ks szs) ms /\
    length ms = length ks.
Proof.
  induction 1 as [|k sz ks szs W _ (ms & Hm & HF & Hl)].
  - exists []. repeat split; constructor.
  - destruct (member_spec k sz d W) as [m Mo]. exists (m :: ms). simpl.
    rewrite (mo_ok _ _ _ _ Mo); simpl. rewrite Hm; simpl. repeat split; auto.
Qed.

Lemma Forall2_nth_error {A B} (R : A -> B -> Prop) l l' :
  Forall2 R l l' -> forall i b, nth_error l' i = Some b ->
  exists a, nth_error l i = Some a /\ R a b.
Proof.
  induction 1; intros [|i] b Hb; simpl in *; try discriminate.
  - inversion Hb; subst; eauto.
  - eauto.
Qed.

Lemma Forall2_nth_error_l {A B} (R : A -> B -> Prop) l l' :
  Forall2 R l l' -> forall i a, nth_error l i = Some a ->
  exists b, nth_error l' i = Some b /\ R a b.
Proof.
  induction 1; intros [|i] b Hb; simpl in *; try discriminate.
  - inversion Hb; subst; eauto.
  - eauto.
Qed.

Lemma nth_error_combine_some {A B} (l : list A) (l' : list B) i a b :
  nth_error (combine l l') i = Some (a, b) -> nth_error l i = Some a /\ nth_error l' i = Some b.
Proof.
  revert l' i; induction l as [|x l IH]; intros [|y l'] [|i]; simpl; try discriminate; auto.
  intros H; inversion H; auto.
Qed.

Section OneDim.
Variables (ks : list complex) (szs : list (nat -> nat)) (d : nat) (ms : list cochain).
Hypothesis HW : Forall2 wf_complex ks szs.
Hypothesis HM : Forall2 (fun ksz m => member_ok (fst ksz) (snd ksz) d m) (combine ks szs) ms.

Lemma len_ks : length ks = length szs.
Proof. exact (Forall2_length HW). Qed.

Lemma member_at j m : nth_error ms j = Some m ->
  exists k sz, nth_error ks j = Some k /\ nth_error szs j = Some sz /\ member_ok k sz d m
               /\ wf_complex k sz.
Proof.
  intros H. destruct (Forall2_nth_error _ _ _ HM _ _ H) as ([k sz] & E & Mo).
  apply nth_error_combine_some in E as [E1 E2]. exists k, sz. split; [auto|]. split; [auto|]. split; [auto|].
  destruct (Forall2_nth_error_l _ _ _ HW _ _ E1) as (sz' & E2' & W).
  rewrite E2 in E2'; inversion E2'; subst; auto.
Qed.

Hypothesis Hlen : length ms = length ks.

Lemma attrs_of {T} (get : cochain -> option (list T)) :
  (forall e n, get (set_ndown (empty_cochain e) n) = None) ->
  (forall e, get (empty_cochain e) = None) ->
  map get ms = map (attr get d) ks.
Proof.
  intros G1 G2.
  assert (H : forall i, nth_error (map get ms) i = nth_error (map (attr get d) ks) i).
  { intros i. rewrite !nth_error_map. destruct (nth_error ms i) as [m|] eqn:E; simpl.
    - destruct (member_at _ _ E) as (k & sz & E1 & E2 & Mo & _). rewrite E1; simpl.
      f_equal. eapply (mo_attr _ _ _ _ Mo); auto.
    - apply nth_error_None in E. rewrite (proj2 (nth_error_None ks i)); auto. lia. }
  revert H. generalize (map get ms), (map (attr get d) ks).
  intros l1; induction l1 as [|a l1 IH]; intros [|b l2] H; auto; try (specialize (H 0); discriminate).
  pose proof (H 0) as H0; inversion H0; subst. f_equal. apply IH. intros i; apply (H (S i)).
Qed.

Lemma plain_spec {T} (get : cochain -> option (list T)) :
  (forall e n, get (set_ndown (empty_cochain e) n) = None) ->
  (forall e, get (empty_cochain e) = None) ->
  batch_plain get ms = Ok (joined (fun _ v => v) (map (attr get d) ks)).
Proof.
  intros G1 G2. unfold batch_plain.
  rewrite (batch_key_spec get inc_none (fun _ _ => tt) keep (fun _ => tt) tt); auto.
  - rewrite attrs_of by auto. reflexivity.
  - intros _ j c _. exists tt; split; auto.
Qed.

Lemma adj_spec (get : cochain -> option (list (nat * nat))) :
  (forall e n, get (set_ndown (empty_cochain e) n) = None) ->
  (forall e, get (empty_cochain e) = None) ->
  batch_key get inc_cells Nat.add 0 shift_pair ms =
  Ok (joined (fun i p => (fst p + off szs i d, snd p + off szs i d)) (map (attr get d) ks)).
Proof.
  intros G1 G2.
  rewrite (batch_key_spec get inc_cells Nat.add shift_pair (fun i => off szs i d) 0); auto.
  - rewrite attrs_of by auto. reflexivity.
  - intros _ j m Hj. destruct (member_at _ _ Hj) as (k & sz & E1 & E2 & Mo & _).
    exists (sz d). split; [apply Mo|]. rewrite (off_S _ _ _ _ E2). lia.
Qed.

Lemma shc_spec :
  batch_key c_shc inc_up Nat.add 0 shift1 ms =
  Ok (joined (fun i j => j + off szs i (S d)) (map (attr c_shc d) ks)).
Proof.
  rewrite (batch_key_spec c_shc inc_up Nat.add shift1 (fun i => off szs i (S d)) 0); auto.
  - rewrite attrs_of by auto. reflexivity.
  - intros _ j m Hj. destruct (member_at _ _ Hj) as (k & sz & E1 & E2 & Mo & _).
    exists (sz (S d)). split; [apply Mo|]. rewrite (off_S _ _ _ _ E2). lia.
Qed.

(** Dimension 0 has neither shared boundaries nor a boundary index. *)
Lemma attr_shb_0 (k : complex) sz : wf_complex k sz -> attr c_shb 0 k = None.
Proof.
  intros W. unfold attr. destruct (nth_error (k_cochains k) 0) as [c|] eqn:E; auto.
  destruct (wfk_each _ _ W _ _ E) as [? ? ? ? Hl ? ? ?].
  destruct (c_lower c); auto. destruct Hl; lia.
Qed.
Lemma attr_bidx_0 (k : complex) sz : wf_complex k sz -> attr c_bidx 0 k = None.
Proof.
  intros W. unfold attr. destruct (nth_error (k_cochains k) 0) as [c|] eqn:E; auto.
  destruct (wfk_each _ _ W _ _ E) as [? ? ? ? Hl Hb ? ?].
  destruct (c_bidx c); auto. destruct Hb; lia.
Qed.

Lemma no_attr_0 {T} (get : cochain -> option (list T)) :
  (forall e n, get (set_ndown (empty_cochain e) n) = None) ->
  (forall e, get (empty_cochain e) = None) ->
  (forall k sz, wf_complex k sz -> attr get 0 k = None) -> d = 0 ->
  existsb (fun c => isSome (get c)) ms = false.
Proof.
  intros G1 G2 G3 E0. destruct (existsb (fun c => isSome (get c)) ms) eqn:E; auto. exfalso.
  apply existsb_exists in E as (m & Hin & Hs). apply In_nth_error in Hin as [j Hj].
  destruct (member_at _ _ Hj) as (k & sz & E1 & E2 & Mo & W).
  rewrite (mo_attr _ _ _ _ Mo T get G1 G2), E0, (G3 k sz W) in Hs. discriminate.
Qed.

Lemma shb_spec :
  batch_key c_shb inc_down Nat.add 0 shift1 ms =
  Ok (joined (fun i j => j + off szs i (pred d)) (map (attr c_shb d) ks)).
Proof.
  rewrite (batch_key_spec c_shb inc_down Nat.add shift1 (fun i => off szs i (pred d)) 0); auto.
  - rewrite attrs_of by auto. reflexivity.
  - destruct (Nat.eq_dec d 0) as [Ed|Ed].
    + intros H. rewrite (no_attr_0 c_shb) in H; auto. discriminate. exact attr_shb_0.
    + intros _ j m Hj. destruct (member_at _ _ Hj) as (k & sz & E1 & E2 & Mo & _).
      exists (below sz d). split; [apply Mo|]. rewrite below_pred by auto.
      rewrite (off_S _ _ _ _ E2). lia.
Qed.

Lemma bidx_spec :
  batch_key c_bidx inc_boundary plus2 (0, 0) shift_bnd ms =
  Ok (joined (fun i p => (fst p + off szs i (pred d), snd p + off szs i d)) (map (attr c_bidx d) ks)).
Proof.
  rewrite (batch_key_spec c_bidx inc_boundary plus2 shift_bnd
             (fun i => (off szs i (pred d), off szs i d)) (0, 0)); auto.
  - rewrite attrs_of by auto. reflexivity.
  - destruct (Nat.eq_dec d 0) as [Ed|Ed].
    + intros H. rewrite (no_attr_0 c_bidx) in H; auto. discriminate. exact attr_bidx_0.
    + intros _ j m Hj. destruct (member_at _ _ Hj) as (k & sz & E1 & E2 & Mo & _).
      exists (below sz d, sz d). split; [apply Mo|]. unfold plus2; cbn [fst snd].
      rewrite below_pred by auto. rewrite !(off_S _ _ _ _ E2). f_equal; lia.
Qed.

Lemma batch_loop_spec :
  exists r, batch_loop 0 0 ms = Ok r /\
    concat (fst r) = membership szs d /\
    snd r = concat (mapi (fun i k => if d <=? k_dim k then [off szs (S i) d] else []) ks) /\
    (fst r = [] -> forall k, In k ks -> k_dim k < d) /\
    (snd r = [] -> forall k, In k ks -> k_dim k < d).
Proof.
  unfold membership, mapi.
  assert (H : forall pre post ks' szs' i,
    szs = pre ++ szs' -> length pre = i ->
    Forall2 (fun ksz m => member_ok (fst ksz) (snd ksz) d m) (combine ks' szs') post ->
    length ks' = length szs' ->
    Forall2 wf_complex ks' szs' ->
    exists r, batch_loop i (off szs i d) post = Ok r /\
      concat (fst r) = concat (mapi_from (fun i sz => repeat i (sz d)) i szs') /\
      snd r = concat (mapi_from (fun i k => if d <=? k_dim k then [off szs (S i) d] else []) i ks') /\
      (fst r = [] -> forall k, In k ks' -> k_dim k < d) /\
      (snd r = [] -> forall k, In k ks' -> k_dim k < d)).
  2:{ apply (H [] ms ks szs 0); auto. apply len_ks. }
  intros pre post; revert pre; induction post as [|m post IH]; intros pre ks' szs' i Es Ei HF Hl HFW.
  - destruct ks' as [|k ks'], szs' as [|sz szs']; simpl in *; try discriminate.
    + exists ([], []); simpl; repeat split; auto; intros; tauto.
    + inversion HF.
  - destruct ks' as [|k ks'], szs' as [|sz szs']; simpl in *; try discriminate;
      inversion HF as [|? ? ? ? Mo HF']; subst. simpl in Mo.
    inversion HFW as [|? ? ? ? W HFW']; subst.
    assert (Hnth : nth_error (pre ++ sz :: szs') (length pre) = Some sz).
    { rewrite nth_error_app2, Nat.sub_diag by lia; auto. }
    pose proof (off_S _ _ d _ Hnth) as HoS.
    destruct (IH (pre ++ [sz]) ks' szs' (S (length pre))) as (r & Hr & H1 & H2 & H3 & H4); auto.
    { rewrite <- app_assoc; auto. } { rewrite app_length; simpl; lia. }
    simpl. rewrite (mo_num _ _ _ _ Mo). simpl. destruct (Nat.leb_spec d (k_dim k)) as [Hd|Hd].
    + rewrite <- HoS, Hr; simpl. eexists; split; [reflexivity|]. simpl.
      rewrite H1, H2. repeat split; auto; intros E; discriminate.
    + assert (Hz : sz d = 0) by (apply (wfk_above _ _ W); auto).
      rewrite Hz, Nat.add_0_r in HoS. cbn [bind]. rewrite <- HoS, Hr.
      exists r; split; auto. rewrite Hz; simpl. repeat split; auto.
      * intros E k' [->|Hin]; [lia|eauto].
      * intros E k' [->|Hin]; [lia|eauto].
Qed.

End OneDim.

Lemma from_cochain_list_spec ks szs d ms :
  Forall2 wf_complex ks szs ->
  Forall2 (fun ksz m => member_ok (fst ksz) (snd ksz) d m) (combine ks szs) ms ->
  length ms = length ks -> (exists k, In k ks /\ d <= k_dim k) ->
  exists cb, from_cochain_list ms = Ok cb /\
    cb_batch cb = Some (membership szs d) /\
    cb_ptr cb = Some (boundaries_of ks szs d) /\
    c_nup (cb_cochain cb) = None /\ c_ndown (cb_cochain cb) = None /\
    forall c', c_dim c' = c_dim (cb_cochain cb) -> c_n c' = None ->
      c_x c' = c_x (cb_cochain cb) -> c_upper c' = c_upper (cb_cochain cb) ->
      c_lower c' = c_lower (cb_cochain cb) -> c_shb c' = c_shb (cb_cochain cb) ->
      c_shc c' = c_shc (cb_cochain cb) -> c_bidx c' = c_bidx (cb_cochain cb) ->
      c_uor c' = c_uor (cb_cochain cb) -> c_lor c' = c_lor (cb_cochain cb) ->
      c_y c' = c_y (cb_cochain cb) -> c_mask c' = c_mask (cb_cochain cb) ->
      c_dim c' = d /\
      c_x c' = joined (fun _ v => v) (map (attr c_x d) ks) /\
      c_upper c' = joined (fun i p => (fst p + off szs i d, snd p + off szs i d)) (map (attr c_upper d) ks) /\
      c_lower c' = joined (fun i p => (fst p + off szs i d, snd p + off szs i d)) (map (attr c_lower d) ks) /\
      c_shc c' = joined (fun i j => j + off szs i (S d)) (map (attr c_shc d) ks) /\
      c_shb c' = joined (fun i j => j + off szs i (pred d)) (map (attr c_shb d) ks) /\
      c_bidx c' = joined (fun i p => (fst p + off szs i (pred d), snd p + off szs i d)) (map (attr c_bidx d) ks) /\
      c_uor c' = joined (fun _ v => v) (map (attr c_uor d) ks) /\
      c_lor c' = joined (fun _ v => v) (map (attr c_lor d) ks) /\
      c_y c' = joined (fun _ v => v) (map (attr c_y d) ks) /\
      c_mask c' = joined (fun _ v => v) (map (attr c_mask d) ks).
Proof.
  intros HW HM Hl (k0 & Hk0 & Hd0).
  destruct ms as [|m0 ms']; [destruct ks; [destruct Hk0|discriminate]|].
  pose proof (fun T => @plain_spec ks szs d _ HW HM Hl T) as Hplain.
  pose proof (adj_spec ks szs d _ HW HM Hl) as Hadj.
  pose proof (shc_spec ks szs d _ HW HM Hl) as Hshc.
  pose proof (shb_spec ks szs d _ HW HM Hl) as Hshb.
  pose proof (bidx_spec ks szs d _ HW HM Hl) as Hbidx.
  destruct (batch_loop_spec ks szs d _ HW HM Hl) as (r & Hr & H1 & H2 & H3 & H4).
  cbv beta iota delta [from_cochain_list].
  rewrite (Hplain _ c_x) by auto; cbn [bind]. rewrite Hadj by auto; cbn [bind].
  rewrite Hadj by auto; cbn [bind]. rewrite Hshb, Hshc, Hbidx; cbn [bind].
  rewrite (Hplain _ c_uor) by auto; cbn [bind]. rewrite (Hplain _ c_lor) by auto; cbn [bind].
  rewrite (Hplain _ c_y) by auto; cbn [bind]. rewrite (Hplain _ c_mask) by auto; cbn [bind].
  rewrite Hr; cbn [bind].
  eexists; split; [reflexivity|]. simpl.
  assert (Hdim : c_dim m0 = d).
  { destruct (Forall2_nth_error _ _ _ HM 0 m0 eq_refl) as (a & _ & Mo). apply Mo. }
  repeat split; try congruence.
  - destruct (fst r) eqn:E; [exfalso; specialize (H3 eq_refl _ Hk0); lia|]. rewrite <- H1, ?E; reflexivity.
  - unfold boundaries_of. rewrite <- H2.
    destruct (snd r) eqn:E; [exfalso; specialize (H4 eq_refl _ Hk0); lia|]. auto.
Qed.

(** ** Cell count of a batched cochain *)
Lemma joined_Some {T} (shift : nat -> T -> T) ls :
  (exists l, In (Some l) ls) ->
  joined shift ls =
    Some (concat (mapi (fun i o => match o with Some l => map (shift i) l | None => [] end) ls)).
Proof.
  intros (l & Hin). unfold joined.
  assert (E : existsb isSome ls = true) by (apply existsb_exists; exists (Some l); auto).
  rewrite E; auto.
Qed.

Lemma joined_None {T} (shift : nat -> T -> T) ls :
  (forall l, In (Some l) ls -> False) -> joined shift ls = None.
Proof.
  intros H. unfold joined. destruct (existsb isSome ls) eqn:E; auto.
  apply existsb_exists in E as ([l|] & Hin & Hs); [destruct (H l Hin)|discriminate].
Qed.

Lemma in_concat_mapi {A T} (f : nat -> A -> list T) l t :
  In t (concat (mapi f l)) <-> exists i a, nth_error l i = Some a /\ In t (f i a).
Proof.
  rewrite in_concat. split.
  - intros (x & Hx & Ht). apply In_nth_error in Hx as [i Hi]. rewrite nth_error_mapi in Hi.
    destruct (nth_error l i) as [a|] eqn:E; [|discriminate]. inversion Hi; subst. eauto.
  - intros (i & a & Hi & Ht). exists (f i a). split; auto.
    apply nth_error_In with (n := i). rewrite nth_error_mapi, Hi; auto.
Qed.

Lemma in_joined {T} (shift : nat -> T -> T) ls L t :
  joined shift ls = Some L ->
  (In t L <-> exists i l a, nth_error ls i = Some (Some l) /\ In a l /\ t = shift i a).
Proof.
  unfold joined. destruct (existsb isSome ls); [|discriminate]. intros E; inversion E; subst; clear E.
  rewrite in_concat_mapi. split.
  - intros (i & [l|] & Hi & Ht); [|destruct Ht]. apply in_map_iff in Ht as (a & <- & Ha).
    exists i, l, a; auto.
  - intros (i & l & a & Hi & Ha & ->). exists i, (Some l); split; auto. apply in_map; auto.
Qed.

Lemma concat_attr_length ks szs d :
  Forall2 wf_complex ks szs ->
  (forall k c, In k ks -> nth_error (k_cochains k) d = Some c -> c_x c <> None) ->
  length (concat (mapi (fun (i : nat) o => match o with Some l => map (fun v : V => v) l | None => [] end)
                   (map (attr c_x d) ks))) = total szs d.
Proof.
  intros HW HU. unfold mapi, total. generalize 0.
  induction HW as [|k sz ks szs W _ IH]; intros i; simpl; auto.
  rewrite app_length, IH by (intros; eapply HU; eauto; right; auto). f_equal.
  unfold attr. destruct (nth_error (k_cochains k) d) as [c|] eqn:E.
  - pose proof (wf_x _ _ _ _ (wfk_each _ _ W _ _ E)) as Hx.
    destruct (c_x c) eqn:Ex; [rewrite map_length; auto|].
    exfalso; apply (HU k c (or_introl eq_refl) E Ex).
  - simpl. symmetry. apply (wfk_above _ _ W). apply nth_error_None in E.
    rewrite (wfk_len _ _ W) in E. lia.
Qed.

Lemma union_num_cells ks szs d (c : cochain) :
  Forall2 wf_complex ks szs ->
  (exists k, In k ks /\ d <= k_dim k) ->
  ((forall k c, In k ks -> nth_error (k_cochains k) d = Some c -> c_x c <> None) \/
   (forall k c, In k ks -> nth_error (k_cochains k) d = Some c -> c_x c = None)) ->
  c_n c = None ->
  c_x c = joined (fun _ v => v) (map (attr c_x d) ks) ->
  c_bidx c = joined (fun i p => (fst p + off szs i (pred d), snd p + off szs i d)) (map (attr c_bidx d) ks) ->
  num_cells c = Ok (Some (total szs d)).
Proof.
  intros HW (k0 & Hk0 & Hd0) HU Hn Hx Hb. unfold num_cells. rewrite Hn.
  assert (W0 : exists sz, wf_complex k0 sz).
  { apply In_nth_error in Hk0 as [i Hi].
    destruct (Forall2_nth_error_l _ _ _ HW _ _ Hi) as (sz & _ & W); eauto. }
  destruct W0 as [sz0 W0].
  destruct (nth_error (k_cochains k0) d) as [c0|] eqn:E0.
  2:{ apply nth_error_None in E0. rewrite (wfk_len _ _ W0) in E0. lia. }
  destruct HU as [HU|HU].
  - rewrite Hx. rewrite joined_Some.
    + rewrite (concat_attr_length ks szs d); auto.
    + pose proof (HU _ _ Hk0 E0) as Hne. destruct (c_x c0) as [l|] eqn:Ex; [|congruence].
      exists l. apply in_map_iff. exists k0. unfold attr. rewrite E0; auto.
  - rewrite Hx. rewrite joined_None.
    2:{ intros l Hin. apply in_map_iff in Hin as (k & Ek & Hk). unfold attr in Ek.
        destruct (nth_error (k_cochains k) d) as [c'|] eqn:E'; [|discriminate].
        rewrite (HU _ _ Hk E') in Ek. discriminate. }
    assert (HB : forall k c, In k ks -> nth_error (k_cochains k) d = Some c ->
              exists sz b p, wf_complex k sz /\ c_bidx c = Some b /\ In p b /\ S (snd p) = sz d).
    { intros k c' Hk E'. apply In_nth_error in Hk as [i Hi].
      destruct (Forall2_nth_error_l _ _ _ HW _ _ Hi) as (sz & _ & W).
      pose proof (wf_x _ _ _ _ (wfk_each _ _ W _ _ E')) as Hx'.
      rewrite (HU k c') in Hx'; [|eapply nth_error_In; eauto|auto].
      destruct Hx' as (b & p & ? & ? & ?). exists sz, b, p. auto. }
    rewrite Hb. destruct (joined _ (map (attr c_bidx d) ks)) as [B|] eqn:EJ.
    2:{ exfalso. destruct (HB _ _ Hk0 E0) as (sz & b & p & _ & Eb & _).
        rewrite joined_Some in EJ; [discriminate|].
        exists b. apply in_map_iff. exists k0. unfold attr; rewrite E0; auto. }
    pose proof (fun t => in_joined _ _ _ t EJ) as HIn.
    assert (Hall : forall t, In t B -> snd t < total szs d).
    { intros t Ht. apply HIn in Ht as (i & l & a & Hi & Ha & ->). simpl.
      rewrite nth_error_map in Hi. destruct (nth_error ks i) as [k|] eqn:Ei; [|discriminate].
      destruct (Forall2_nth_error_l _ _ _ HW _ _ Ei) as (sz & Es & W).
      simpl in Hi. unfold attr in Hi. destruct (nth_error (k_cochains k) d) as [c'|] eqn:E'; [|discriminate].
      inversion Hi as [Hi']. pose proof (wf_bidx _ _ _ _ (wfk_each _ _ W _ _ E')) as Hbi.
      rewrite Hi' in Hbi. destruct Hbi as [_ Hbi]. destruct a as [f t]. simpl.
      destruct (Hbi f t Ha). rewrite Nat.add_comm. eapply off_in_range; eauto. }
    assert (Hpos : 0 < total szs d).
    { apply In_nth_error in Hk0 as [i Hi].
      destruct (Forall2_nth_error_l _ _ _ HW _ _ Hi) as (sz & Es & W).
      pose proof (wf_x _ _ _ _ (wfk_each _ _ W _ _ E0)) as Hx0.
      rewrite (HU k0 c0) in Hx0; [|eapply nth_error_In; eauto|auto].
      destruct Hx0 as (b & p & Eb & Hp & Hs).
      pose proof (off_in_range szs i d sz 0 Es). lia. }
    destruct (last_pos szs d Hpos) as (i & sz & Es & Hsz & Hoff).
    destruct (Forall2_nth_error _ _ _ HW _ _ Es) as (k & Ek & W).
    destruct (nth_error (k_cochains k) d) as [c'|] eqn:E'.
    2:{ apply nth_error_None in E'. rewrite (wfk_len _ _ W) in E'.
        rewrite (wfk_above _ _ W) in Hsz by lia. lia. }
    assert (Hex : exists t, In t B /\ S (snd t) = total szs d).
    { pose proof (wf_x _ _ _ _ (wfk_each _ _ W _ _ E')) as Hx'.
      rewrite (HU k c') in Hx'; [|eapply nth_error_In; eauto|auto].
      destruct Hx' as (b & p & Eb & Hp & Hs).
      exists (fst p + off szs i (pred d), snd p + off szs i d). split.
      - apply HIn. exists i, b, p. repeat split; auto. rewrite nth_error_map, Ek. simpl.
        unfold attr. rewrite E', Eb; auto.
      - simpl. rewrite <- Hoff, (off_S _ _ _ _ Es). lia. }
    destruct Hex as (t & Ht & Hs).
    assert (Hmx : list_max (map snd B) = snd t).
    { apply Nat.le_antisymm.
      - assert (list_max (map snd B) < total szs d); [|lia].
        apply Base.list_max_lt; auto. intros x Hx'. apply in_map_iff in Hx' as (q & <- & Hq). auto.
      - apply list_max_in_le, in_map; auto. }
    unfold list_max_err. destruct (map snd B) eqn:EB.
    + destruct B; [destruct Ht|discriminate].
    + rewrite <- EB. cbn [bind]. rewrite EB in *. rewrite Hmx, Hs. reflexivity.
Qed.

(** ** The whole batch *)
Definition consolidated (c : cochain) (nup ndown : option (option nat)) : cochain :=
  mkCochain (c_dim c) (c_x c) (c_upper c) (c_lower c) (c_shb c) (c_shc c) (c_bidx c) (c_uor c)
    (c_lor c) (c_y c) (c_mask c) (c_n c) nup ndown.

Lemma mk_complex_ok (cs : list cochain) (D : nat) (n : nat -> nat) y :
  length cs = D + 1 ->
  (forall d c, nth_error cs d = Some c -> c_dim c = d /\ num_cells c = Ok (Some (n d))) ->
  exists K, mk_complex cs y None = Ok K /\ k_dim K = D /\ k_y K = y /\
    length (k_cochains K) = D + 1 /\
    forall d c', nth_error (k_cochains K) d = Some c' ->
      exists c, nth_error cs d = Some c /\
        c' = consolidated c (if d <? D then Some (Some (n (S d))) else c_nup c)
                            (match d with 0 => c_ndown c | S d' => Some (Some (n d')) end).
Proof.
  intros Hl Hc.
  set (f := fun d => match nth_error cs d with
    | Some c => consolidated c (if d <? D then Some (Some (n (S d))) else c_nup c)
                       (match d with 0 => c_ndown c | S d' => Some (Some (n d')) end)
    | None => empty_cochain 0 end).
  assert (Hm : mapM (consolidate_at cs D) (seq 0 (D + 1)) = Ok (map f (seq 0 (D + 1)))).
  { apply mapM_map. intros d Hd. apply in_seq in Hd.
    unfold consolidate_at, f.
    destruct (nth_error cs d) as [c|] eqn:E; [|apply nth_error_None in E; lia].
    assert (G : get cs d = Ok c) by (apply get_ok; auto). rewrite G; cbn [bind].
    destruct (Hc _ _ E) as [Hdim Hnum]. rewrite Hdim, Nat.eqb_refl; cbn [bind assert_].
    assert (G1 : (if d <? D then
                let* up := get cs (S d) in
                let* n := num_cells up in
                let* _ := assert_ (isSome n) in
                Ok (set_nup c n)
              else Ok c) = Ok (consolidated c (if d <? D then Some (Some (n (S d))) else c_nup c) (c_ndown c))).
    { destruct (Nat.ltb_spec d D).
      - destruct (nth_error cs (S d)) as [c1|] eqn:E1; [|apply nth_error_None in E1; lia].
        rewrite (proj2 (get_ok cs (S d) c1) E1); cbn [bind].
        destruct (Hc _ _ E1) as [_ ->]. reflexivity.
      - destruct c; reflexivity. }
    rewrite G1; cbn [bind]. destruct d as [|d'].
    - reflexivity.
    - destruct (nth_error cs d') as [c1|] eqn:E1; [|apply nth_error_None in E1; lia].
      rewrite (proj2 (get_ok cs d' c1) E1); cbn [bind].
      destruct (Hc _ _ E1) as [_ ->]. reflexivity. }
  unfold mk_complex. destruct cs as [|c0 cs']; [simpl in Hl; lia|].
  rewrite Hl. replace (D + 1 - 1) with D by lia. rewrite Nat.ltb_irrefl. rewrite Hm; cbn [bind].
  eexists; split; [reflexivity|]. simpl. repeat split; auto.
  - rewrite map_length, seq_length; auto.
  - intros d c' Hd. rewrite nth_error_map in Hd.
    destruct (nth_error (seq 0 (D + 1)) d) as [e|] eqn:E; [|discriminate].
    assert (Hlt : d < D + 1) by (rewrite <- (seq_length (D + 1) 0); apply nth_error_Some; congruence).
    rewrite (nth_error_nth' _ 0) in E by (rewrite seq_length; auto). rewrite seq_nth in E by auto.
    simpl in E. inversion E; subst e. simpl in Hd. inversion Hd; subst c'.
    unfold f. destruct (nth_error (c0 :: cs') d) as [c|] eqn:Ec.
    + exists c. auto.
    + apply nth_error_None in Ec. rewrite Hl in Ec. lia.
Qed.

Lemma list_max_exists l : l <> [] -> In (list_max l) l.
Proof.
  induction l as [|a l IH]; [congruence|]. intros _. simpl.
  destruct (Nat.max_spec a (list_max l)) as [[H ->]|[H ->]]; auto.
  right. apply IH. intros ->; simpl in H; lia.
Qed.

Lemma mapM_exists {A B} (f : A -> result B) (P : A -> B -> Prop) l :
  (forall a, In a l -> exists b, f a = Ok b /\ P a b) ->
  exists bs, mapM f l = Ok bs /\ Forall2 P l bs.
Proof.
  induction l as [|a l IH]; intros H; simpl.
  - exists []; split; constructor.
  - destruct (H a (or_introl eq_refl)) as (b & Hb & Pb).
    destruct IH as (bs & Hbs & PF); [intros; apply H; right; auto|].
    rewrite Hb, Hbs; simpl. exists (b :: bs). split; auto.
Qed.

Lemma from_complex_list_is_batch (ks : list complex) szs max_dim :
  ks <> [] -> Forall2 wf_complex ks szs ->
  uniform_x ks (Nat.min (list_max (map k_dim ks)) max_dim) ->
  exists b, from_complex_list ks max_dim = Ok b /\
    is_batch ks szs (Nat.min (list_max (map k_dim ks)) max_dim) b /\
    k_y (kb_complex b) = batch_labels ks.
Proof.
  intros Hne HW HU. set (D := Nat.min (list_max (map k_dim ks)) max_dim) in *.
  assert (Hpres : forall d, d <= D -> exists k, In k ks /\ d <= k_dim k).
  { intros d Hd. assert (Hin : In (list_max (map k_dim ks)) (map k_dim ks)).
    { apply list_max_exists. destruct ks; [congruence|discriminate]. }
    apply in_map_iff in Hin as (k & Ek & Hk). exists k; split; auto. unfold D in Hd. lia. }
  assert (Hun : from_complex_list ks max_dim =
    let* bs := mapM (fun d => let* cs := mapM (fun k => member_cochain k d) ks in
                              from_cochain_list cs) (seq 0 (D + 1)) in
    let* k := mk_complex (map cb_cochain bs) (batch_labels ks) None in
    Ok (mkKBatch k (map cb_batch bs) (map cb_ptr bs) (length ks))).
  { unfold D. destruct ks; [congruence|reflexivity]. }
  rewrite Hun; clear Hun.
  destruct (mapM_exists
    (fun d => let* cs := mapM (fun k => member_cochain k d) ks in from_cochain_list cs)
    (fun d cb =>
       cb_batch cb = Some (membership szs d) /\ cb_ptr cb = Some (boundaries_of ks szs d) /\
       c_nup (cb_cochain cb) = None /\
       union_cochain ks szs 0 d (consolidated (cb_cochain cb) None
           (match d with 0 => None | S d' => Some (Some (total szs d')) end)))
    (seq 0 (D + 1))) as (bs & Hbs & HF).
  { intros d Hd. apply in_seq in Hd.
    destruct (members_spec ks szs d HW) as (ms & Hms & HM & Hl).
    destruct (from_cochain_list_spec ks szs d ms HW HM Hl) as (cb & Hcb & H1 & H2 & H3 & H4 & H5).
    { apply Hpres; lia. }
    exists cb. rewrite Hms; simpl. split; auto. split; auto. split; auto. split; auto.
    assert (Hcn : c_n (cb_cochain cb) = None).
    { clear -Hcb. unfold from_cochain_list in Hcb. destruct ms; [discriminate|].
      repeat (apply bind_ok in Hcb as (? & _ & Hcb)). inversion Hcb; reflexivity. }
    destruct (H5 (consolidated (cb_cochain cb) None
                   (match d with 0 => None | S d' => Some (Some (total szs d')) end)))
      as (G1 & G2 & G3 & G4 & G5 & G6 & G7 & G8 & G9 & G10 & G11); auto.
    split; auto; simpl; [destruct (Nat.ltb_spec d 0); [lia|reflexivity] | destruct d; [lia|auto]]. }
  rewrite Hbs; cbn [bind].
  pose proof (Forall2_length HF) as Hlen. rewrite seq_length in Hlen.
  assert (Hat : forall d cb, nth_error bs d = Some cb ->
     d < D + 1 /\ cb_batch cb = Some (membership szs d) /\ cb_ptr cb = Some (boundaries_of ks szs d) /\
       c_nup (cb_cochain cb) = None /\
       union_cochain ks szs 0 d (consolidated (cb_cochain cb) None
           (match d with 0 => None | S d' => Some (Some (total szs d')) end))).
  { intros d cb Hd. assert (Hlt : d < D + 1) by (rewrite Hlen; apply nth_error_Some; congruence).
    split; auto. destruct (Forall2_nth_error _ _ _ HF _ _ Hd) as (e & He & HP).
    rewrite (nth_error_nth' _ 0) in He by (rewrite seq_length; auto).
    rewrite seq_nth in He by auto. inversion He; subst. exact HP. }
  destruct (mk_complex_ok (map cb_cochain bs) D (total szs) (batch_labels ks))
    as (K & HK & K1 & K2 & K3 & K4).
  { rewrite map_length; auto. }
  { intros d c Hd. rewrite nth_error_map in Hd. destruct (nth_error bs d) as [cb|] eqn:Ecb; [|discriminate].
    inversion Hd; subst c. destruct (Hat _ _ Ecb) as (Hlt & _ & _ & _ & U).
    split; [apply U|]. apply (union_num_cells ks szs); auto.
    - apply Hpres; lia.
    - apply HU; lia.
    - apply (un_n _ _ _ _ _ U).
    - apply (un_x _ _ _ _ _ U).
    - apply (un_bidx _ _ _ _ _ U). }
  rewrite HK; cbn [bind]. eexists; split; [reflexivity|]. simpl. split; [|auto].
  assert (Hmap : forall T (g : cbatch V -> T) (h : nat -> T),
     (forall d cb, nth_error bs d = Some cb -> g cb = h d) -> map g bs = map h (seq 0 (D + 1))).
  { intros T g h Hgh. rewrite Hlen. clear -Hgh.
    assert (Haux : forall i, (forall d cb, nth_error bs d = Some cb -> g cb = h (i + d)) ->
              map g bs = map h (seq i (length bs))).
    { clear. induction bs as [|cb bs IH]; intros i H; simpl; auto. f_equal.
      - specialize (H 0 cb eq_refl). rewrite Nat.add_0_r in H; auto.
      - apply IH. intros d cb' Hd. replace (S i + d) with (i + S d) by lia. apply H; auto. }
    apply Haux. auto. }
  split; simpl.
  - split; auto. intros d c Hd. destruct (K4 _ _ Hd) as (c0 & Hc0 & ->).
    rewrite nth_error_map in Hc0. destruct (nth_error bs d) as [cb|] eqn:Ecb; [|discriminate].
    inversion Hc0; subst c0. destruct (Hat _ _ Ecb) as (Hlt & _ & _ & Hup & U).
    destruct U; split; auto; simpl.
    + destruct (d <? D); auto.
    + destruct d; [lia|]. auto.
  - auto.
  - apply Hmap. intros d cb Hd. apply (Hat _ _ Hd).
  - apply Hmap. intros d cb Hd. apply (Hat _ _ Hd).
Qed.

End Proofs.
