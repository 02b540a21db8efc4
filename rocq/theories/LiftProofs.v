(** Building adjacencies and cochains from tables of cells: proofs for arbitrary tables. *)
From Coq Require Import List Arith Lia ZArith Bool Permutation.
From Verif Require Import Base ScatterModel ScatterSpec ScatterProofs ComplexModel BatchSpec BatchSpec2 BatchProofs
  LiftModel LiftSpec LiftBase.
Import ListNotations.

Section Tables.
Variables (n : nat) (T : nat -> list cell) (B C : nat -> cell -> list cell).
Hypothesis T_nodup : forall d, NoDup (T d).
(** [B d c]: faces of the [d]-cell [c], [C d s]: cofaces of the [d]-cell [s]. *)
Hypothesis B_in : forall d s, 0 < d < n -> In s (T d) -> incl (B d s) (T (d - 1)).
Hypothesis C_in : forall d s, d + 1 < n -> In s (T d) -> incl (C d s) (T (d + 1)).

Variables (b : bmaps) (maps : list (dict nat)) (down : bool).
Hypothesis Hmaps : rep n maps (fun d => index_map (T d)).
Hypothesis Hbnd : forall d s, 0 < d < n -> In s (T d) ->
  exists bm, nth_error (b_bnd b) d = Some bm /\ dget bm s = Some (B d s).
Hypothesis Hcob : forall d s, d + 1 < n -> In s (T d) ->
  exists cm, nth_error (b_cob b) d = Some cm /\
    match dget cm s with Some l => l = C d s | None => C d s = [] end.

Definition up_part (d : nat) (e : cell * nat) : list (nat * nat) :=
  both_ways (pairs (map (pos (T d)) (B (d + 1) (fst e)))).
Definition up_refs (d : nat) (e : cell * nat) : list nat := repeat (snd e) (length (up_part d e)).
Definition low_part (d : nat) (e : cell * nat) : list (nat * nat) :=
  both_ways (pairs (map (pos (T d)) (C (d - 1) (fst e)))).
Definition low_refs (d : nat) (e : cell * nat) : list nat := repeat (snd e) (length (low_part d e)).

Lemma id_pairs_ok d l : d < n -> incl l (T d) -> id_pairs (index_map (T d)) l = Ok (pairs (map (pos (T d)) l)).
Proof.
  intros Hd Hl. unfold id_pairs. rewrite pairs_map. apply mapM_map. intros [x y] Hp.
  apply pairs_In in Hp as [Hx Hy]. simpl. rewrite !key_get_pos by auto. reflexivity.
Qed.

Lemma adj_loop dim : dim < n -> forall P a Fu Fl Fb Fc, incl (map fst P) (T dim) ->
  rep n (a_upper a) Fu -> rep n (a_lower a) Fl -> rep n (a_shb a) Fb -> rep n (a_shc a) Fc ->
  exists a', foldM (adj_step b maps n down dim) a P = Ok a' /\
    rep n (a_upper a') (fun d => if d + 1 =? dim then Fu d ++ flat_map (up_part d) P else Fu d) /\
    rep n (a_lower a') (fun d => if down && (d =? dim + 1) then Fl d ++ flat_map (low_part d) P else Fl d) /\
    rep n (a_shb a') (fun d => if down && (d =? dim + 1) then Fb d ++ flat_map (low_refs d) P else Fb d) /\
    rep n (a_shc a') (fun d => if d + 1 =? dim then Fc d ++ flat_map (up_refs d) P else Fc d).
Proof.
  intros Hdim P. induction P as [|e P IH]; intros a Fu Fl Fb Fc HP HU HL HB HC.
  - exists a. split; [reflexivity|]. repeat split; (eapply rep_ext; [eassumption|]); intros d _; simpl; rewrite ?app_nil_r;
      match goal with |- _ = if ?c then _ else _ => destruct c; auto end.
  - assert (He : In (fst e) (T dim)) by (apply HP; left; auto).
    assert (HP' : incl (map fst P) (T dim)) by (intros x Hx; apply HP; right; auto).
    assert (S1 : exists a1,
      (if 0 <? dim then
       let* bm := get (b_bnd b) dim in
       let* bs := key_get bm (fst e) in
       let* m := get maps (dim - 1) in
       let* ps := id_pairs m bs in
       let* up := upd (a_upper a) (dim - 1) (fun l => l ++ both_ways ps) in
       let* shc := upd (a_shc a) (dim - 1) (fun l => l ++ repeat (snd e) (2 * length ps)) in
       Ok (mkA up (a_lower a) (a_shb a) shc)
       else Ok a) = Ok a1 /\
      rep n (a_upper a1) (fun d => if d + 1 =? dim then Fu d ++ up_part d e else Fu d) /\
      rep n (a_lower a1) Fl /\ rep n (a_shb a1) Fb /\
      rep n (a_shc a1) (fun d => if d + 1 =? dim then Fc d ++ up_refs d e else Fc d)).
    { destruct (Nat.ltb_spec 0 dim) as [Hpos|Hz].
      - destruct (Hbnd dim (fst e)) as (bm & E1 & E2); [lia|auto|].
        rewrite (proj2 (get_ok _ _ _) E1). cbn [bind]. unfold key_get. rewrite E2. cbn [bind of_option].
        rewrite (rep_get _ _ _ (dim - 1) Hmaps) by lia. cbn [bind].
        rewrite (id_pairs_ok (dim - 1)) by (auto; lia). cbn [bind].
        destruct (rep_upd n (a_upper a) Fu (dim - 1) (fun l => l ++ both_ways (pairs (map (pos (T (dim - 1))) (B dim (fst e))))) HU)
          as (u' & -> & Ru); [lia|]. cbn [bind].
        destruct (rep_upd n (a_shc a) Fc (dim - 1) (fun l => l ++ repeat (snd e) (2 * length (pairs (map (pos (T (dim - 1))) (B dim (fst e)))))) HC)
          as (c' & -> & Rc); [lia|]. cbn [bind].
        eexists. split; [reflexivity|]. simpl a_upper. simpl a_lower. simpl a_shb. simpl a_shc.
        split; [|split; [auto|split; [auto|]]].
        + eapply rep_ext; [exact Ru|]. intros d Hd. cbv beta.
          destruct (Nat.eqb_spec d (dim - 1)), (Nat.eqb_spec (d + 1) dim); auto; try lia.
          subst. unfold up_part. replace (dim - 1 + 1) with dim by lia. auto.
        + eapply rep_ext; [exact Rc|]. intros d Hd. cbv beta.
          destruct (Nat.eqb_spec d (dim - 1)), (Nat.eqb_spec (d + 1) dim); auto; try lia.
          subst. unfold up_refs, up_part. replace (dim - 1 + 1) with dim by lia. rewrite both_ways_length. auto.
      - exists a. split; [reflexivity|]. repeat split; auto; (eapply rep_ext; [eassumption|]); intros d Hd;
          destruct (Nat.eqb_spec (d + 1) dim); auto; lia. }
    destruct S1 as (a1 & E1 & U1 & L1 & B1 & C1).
    assert (S2 : exists a2, adj_step b maps n down dim a e = Ok a2 /\
      rep n (a_upper a2) (fun d => if d + 1 =? dim then Fu d ++ up_part d e else Fu d) /\
      rep n (a_lower a2) (fun d => if down && (d =? dim + 1) then Fl d ++ low_part d e else Fl d) /\
      rep n (a_shb a2) (fun d => if down && (d =? dim + 1) then Fb d ++ low_refs d e else Fb d) /\
      rep n (a_shc a2) (fun d => if d + 1 =? dim then Fc d ++ up_refs d e else Fc d)).
    { unfold adj_step. rewrite E1. cbn [bind]. clear E1.
      destruct down eqn:Edown; cbn [andb].
      2:{ exists a1. split; [reflexivity|]. split; [exact U1|]. split; [exact L1|]. split; [exact B1|exact C1]. }
      destruct (Nat.ltb_spec (dim + 1) n) as [Hlt|Hge].
      2:{ exists a1. split; [reflexivity|]. split; [exact U1|].
          split; [|split; [|exact C1]]; (eapply rep_ext; [eassumption|]); intros d Hd;
            destruct (Nat.eqb_spec d (dim + 1)); auto; lia. }
      destruct (Hcob dim (fst e)) as (cm & G1 & G2); auto.
      rewrite (proj2 (get_ok _ _ _) G1). cbn [bind].
      destruct (dget cm (fst e)) as [cs|].
      - subst cs. rewrite (rep_get _ _ _ (dim + 1) Hmaps) by lia. cbn [bind].
        rewrite (id_pairs_ok (dim + 1)) by auto. cbn [bind].
        destruct (rep_upd n (a_lower a1) Fl (dim + 1) (fun l => l ++ both_ways (pairs (map (pos (T (dim + 1))) (C dim (fst e))))) L1)
          as (l' & -> & Rl); [lia|]. cbn [bind].
        destruct (rep_upd n (a_shb a1) Fb (dim + 1) (fun l => l ++ repeat (snd e) (2 * length (pairs (map (pos (T (dim + 1))) (C dim (fst e)))))) B1)
          as (b' & -> & Rb); [lia|]. cbn [bind].
        eexists. split; [reflexivity|]. simpl a_upper. simpl a_lower. simpl a_shb. simpl a_shc.
        split; [exact U1|]. split; [|split; [|exact C1]].
        + eapply rep_ext; [exact Rl|]. intros d Hd. cbv beta. destruct (Nat.eqb_spec d (dim + 1)); auto.
          subst. unfold low_part. replace (dim + 1 - 1) with dim by lia. auto.
        + eapply rep_ext; [exact Rb|]. intros d Hd. cbv beta. destruct (Nat.eqb_spec d (dim + 1)); auto.
          subst. unfold low_refs, low_part. replace (dim + 1 - 1) with dim by lia. rewrite both_ways_length. auto.
      - exists a1. split; [reflexivity|]. split; [exact U1|].
        assert (Z : low_part (dim + 1) e = []).
        { unfold low_part. replace (dim + 1 - 1) with dim by lia. rewrite G2. reflexivity. }
        split; [|split; [|exact C1]]; (eapply rep_ext; [eassumption|]); intros d Hd;
            destruct (Nat.eqb_spec d (dim + 1)); auto; subst; unfold low_refs; rewrite Z; simpl; rewrite app_nil_r; auto. }
    destruct S2 as (a2 & E2 & U2 & L2 & B2 & C2). cbn [foldM]. rewrite E2. cbn [bind].
    destruct (IH a2 _ _ _ _ HP' U2 L2 B2 C2) as (a' & E3 & U3 & L3 & B3 & C3).
    exists a'. split; [exact E3|].
    split; [|split; [|split]]; (eapply rep_ext; [eassumption|]); intros d Hd; cbv beta; simpl flat_map;
      match goal with |- (if ?c then _ else _) = _ => destruct c; auto; rewrite app_assoc; auto end.
Qed.

(** The result of [build_adj]. *)
Definition upper_at (d : nat) : list (nat * nat) :=
  if d + 1 <? n then flat_map (up_part d) (index_map (T (d + 1))) else [].
Definition upref_at (d : nat) : list nat :=
  if d + 1 <? n then flat_map (up_refs d) (index_map (T (d + 1))) else [].
Definition lower_at (d : nat) : list (nat * nat) :=
  if down && (0 <? d) then flat_map (low_part d) (index_map (T (d - 1))) else [].
Definition lowref_at (d : nat) : list nat :=
  if down && (0 <? d) then flat_map (low_refs d) (index_map (T (d - 1))) else [].

Lemma build_adj_ok : exists a, build_adj b maps n down = Ok a /\
  rep n (a_upper a) upper_at /\ rep n (a_lower a) lower_at /\
  rep n (a_shb a) lowref_at /\ rep n (a_shc a) upref_at.
Proof.
  unfold build_adj.
  assert (G : forall m, m <= n -> forall k, k + m = n -> forall a,
    rep n (a_upper a) (fun d => if d + 1 <? k then flat_map (up_part d) (index_map (T (d + 1))) else []) ->
    rep n (a_lower a) (fun d => if down && (0 <? d) && (d - 1 <? k) then flat_map (low_part d) (index_map (T (d - 1))) else []) ->
    rep n (a_shb a) (fun d => if down && (0 <? d) && (d - 1 <? k) then flat_map (low_refs d) (index_map (T (d - 1))) else []) ->
    rep n (a_shc a) (fun d => if d + 1 <? k then flat_map (up_refs d) (index_map (T (d + 1))) else []) ->
    exists a', foldM (fun a dim => let* m := get maps dim in foldM (adj_step b maps n down dim) a m) a (seq k m) = Ok a' /\
      rep n (a_upper a') upper_at /\ rep n (a_lower a') lower_at /\
      rep n (a_shb a') lowref_at /\ rep n (a_shc a') upref_at).
  { induction m as [|m IH]; intros Hm k Hk a HU HL HB HC.
    - exists a. split; [reflexivity|].
      assert (k = n) by lia. subst k.
      split; [|split; [|split]]; (eapply rep_ext; [eassumption|]); intros d Hd; cbv beta;
        unfold upper_at, lower_at, lowref_at, upref_at; auto;
        destruct (Nat.ltb_spec (d - 1) n); try lia; rewrite ?andb_true_r; auto.
    - simpl seq. cbn [foldM].
      rewrite (rep_get _ _ _ k Hmaps) by lia. cbn [bind].
      destruct (adj_loop k ltac:(lia) (index_map (T k)) a _ _ _ _ ltac:(rewrite index_map_fst; apply incl_refl) HU HL HB HC)
        as (a1 & E1 & U1 & L1 & B1 & C1).
      rewrite E1. cbn [bind]. apply IH; try lia.
      + eapply rep_ext; [exact U1|]. intros d Hd. cbv beta.
        destruct (Nat.eqb_spec (d + 1) k), (Nat.ltb_spec (d + 1) k), (Nat.ltb_spec (d + 1) (S k)); try lia; auto.
        subst k. auto.
      + eapply rep_ext; [exact L1|]. intros d Hd. cbv beta. destruct down; cbn [andb]; auto.
        destruct (Nat.eqb_spec d (k + 1)), (Nat.ltb_spec 0 d), (Nat.ltb_spec (d - 1) k), (Nat.ltb_spec (d - 1) (S k));
          try lia; cbn [andb]; auto.
        subst d. replace (k + 1 - 1) with k by lia. auto.
      + eapply rep_ext; [exact B1|]. intros d Hd. cbv beta. destruct down; cbn [andb]; auto.
        destruct (Nat.eqb_spec d (k + 1)), (Nat.ltb_spec 0 d), (Nat.ltb_spec (d - 1) k), (Nat.ltb_spec (d - 1) (S k));
          try lia; cbn [andb]; auto.
        subst d. replace (k + 1 - 1) with k by lia. auto.
      + eapply rep_ext; [exact C1|]. intros d Hd. cbv beta.
        destruct (Nat.eqb_spec (d + 1) k), (Nat.ltb_spec (d + 1) k), (Nat.ltb_spec (d + 1) (S k)); try lia; auto.
        subst k. auto. }
  apply (G n (le_n _) 0); auto; simpl; (eapply rep_ext; [apply rep_repeat|]); intros d Hd; cbv beta; auto;
    try (destruct (Nat.ltb_spec (d + 1) 0); [lia|auto]); rewrite ?andb_false_r; auto;
    destruct (Nat.ltb_spec (d - 1) 0); try lia; rewrite ?andb_false_r; auto.
Qed.

(** ** What the adjacencies say *)
Variable Bo : nat -> cell -> list cell.
Hypothesis Hn : 0 < n.
Hypothesis T_full : forall d, d < n -> T d <> [].
Hypothesis T_above : forall d, n <= d -> T d = [].
Hypothesis B_spec : forall d s, 0 < d < n -> In s (T d) ->
  NoDup (B d s) /\ 2 <= length (B d s) /\ forall f, In f (B d s) <-> In f (T (d - 1)) /\ incl f s.
Hypothesis C_spec : forall d s, d + 1 < n -> In s (T d) ->
  NoDup (C d s) /\ forall c, In c (C d s) <-> In c (T (d + 1)) /\ incl s c.
Hypothesis Bo_spec : forall d s, 0 < d < n -> In s (T d) ->
  NoDup (Bo d s) /\ forall f, In f (Bo d s) <-> In f (T (d - 1)) /\ incl f s.
Hypothesis Htab : rep n (b_tables b)
  (fun d => if d =? 0 then [] else map (fun s => map (pos (T (d - 1))) (Bo d s)) (T d)).

Lemma combine_parts (f : cell * nat -> list (nat * nat)) l :
  combine (flat_map f l) (flat_map (fun e => repeat (snd e) (length (f e))) l) =
  flat_map (fun e => map (fun p => (p, snd e)) (f e)) l.
Proof.
  induction l as [|e l IH]; simpl; auto. rewrite combine_app', IH by (rewrite repeat_length; auto).
  rewrite combine_repeat. auto.
Qed.
Lemma parts_length (f : cell * nat -> list (nat * nat)) l :
  length (flat_map f l) = length (flat_map (fun e => repeat (snd e) (length (f e))) l).
Proof. induction l as [|e l IH]; simpl; auto. rewrite !app_length, repeat_length. auto. Qed.

Lemma in_parts (f : cell * nat -> list (nat * nat)) (l : list cell) a c t :
  In ((a, c), t) (flat_map (fun e => map (fun p => (p, snd e)) (f e)) (index_map l)) <->
  exists s, nth_error l t = Some s /\ In (a, c) (f (s, t)).
Proof.
  rewrite in_flat_map. split.
  - intros ([s i] & Hs & Hin). apply index_map_In in Hs. apply in_map_iff in Hin as (p & E & Hp). simpl in E.
    inversion E; subst. eauto.
  - intros (s & Hs & Hp). exists (s, t). split; [apply index_map_In; auto|]. apply in_map_iff. exists (a, c). auto.
Qed.
Lemma NoDup_parts (f : cell * nat -> list (nat * nat)) (l : list cell) : NoDup l ->
  (forall s i, In s l -> NoDup (f (s, i))) ->
  NoDup (flat_map (fun e => map (fun p => (p, snd e)) (f e)) (index_map l)).
Proof.
  intros Hl Hf. apply NoDup_flat_map.
  - apply (NoDup_map_inv fst). rewrite index_map_fst. auto.
  - intros [s i] Hs. apply NoDup_map_inj; [intros x y _ _ E; inversion E; auto|].
    apply Hf. apply (in_map fst) in Hs. rewrite index_map_fst in Hs. auto.
  - intros [s i] [s' i'] p H1 H2 H3 H4. apply index_map_In in H1, H2.
    apply in_map_iff in H3 as (q & <- & _). apply in_map_iff in H4 as (q' & E & _). simpl in E. inversion E; subst. congruence.
Qed.

Lemma in_map_pos d l i : incl l (T d) -> (In i (map (pos (T d)) l) <-> exists s, nth_error (T d) i = Some s /\ In s l).
Proof.
  intros Hl. rewrite in_map_iff. split.
  - intros (s & <- & Hs). exists s. split; auto. apply pos_spec; auto.
  - intros (s & Hs & Hin). exists s. split; auto. apply pos_nth; auto.
Qed.

Lemma in_faces d s i (F : nat -> cell -> list cell) :
  (forall d s, 0 < d < n -> In s (T d) -> NoDup (F d s) /\ forall f, In f (F d s) <-> In f (T (d - 1)) /\ incl f s) ->
  d + 1 < n -> forall t, nth_error (T (d + 1)) t = Some s ->
  (In i (map (pos (T d)) (F (d + 1) s)) <-> face_of T d i t).
Proof.
  intros HF Hd t Ht. assert (Hs : In s (T (d + 1))) by (eapply nth_error_In; eauto).
  destruct (HF (d + 1) s ltac:(lia) Hs) as [_ HI]. replace (d + 1 - 1) with d in HI by lia.
  rewrite in_map_pos by (intros x Hx; apply HI; auto). unfold face_of, names. split.
  - intros (f & Hf & Hin). exists f, s. apply HI in Hin. replace (S d) with (d + 1) by lia. tauto.
  - intros (f & s' & Hf & Hs' & Hi). replace (S d) with (d + 1) in Hs' by lia. rewrite Ht in Hs'. inversion Hs'; subst s'.
    exists f. split; auto. apply HI. split; auto. eapply nth_error_In; eauto.
Qed.

Lemma B_faces d s : 0 < d < n -> In s (T d) -> NoDup (B d s) /\ forall f, In f (B d s) <-> In f (T (d - 1)) /\ incl f s.
Proof. intros H1 H2. destruct (B_spec d s H1 H2) as (H3 & _ & H4). auto. Qed.

Lemma face_above d f t : n <= d + 1 -> ~ face_of T d f t.
Proof.
  intros Hd (sf & sc & _ & H & _). unfold names in H. rewrite T_above in H by lia. destruct t; discriminate.
Qed.

Lemma upper_triples d a c t :
  In ((a, c), t) (combine (upper_at d) (upref_at d)) <-> a <> c /\ face_of T d a t /\ face_of T d c t.
Proof.
  unfold upper_at, upref_at. destruct (Nat.ltb_spec (d + 1) n) as [Hd|Hd].
  - unfold up_refs. rewrite combine_parts, in_parts. split.
    + intros (s & Hs & Hp). unfold up_part in Hp. simpl in Hp.
      assert (HI : In s (T (d + 1))) by (eapply nth_error_In; eauto).
      destruct (B_faces (d + 1) s ltac:(lia) HI) as [N1 N2]. replace (d + 1 - 1) with d in N2 by lia.
      apply both_ways_pairs_In in Hp; [|apply NoDup_map_pos; auto; intros x Hx; apply N2; auto].
      destruct Hp as (H1 & H2 & H3).
      rewrite (in_faces d s a B B_faces Hd t Hs) in H2. rewrite (in_faces d s c B B_faces Hd t Hs) in H3. auto.
    + intros (H1 & H2 & H3). pose proof H2 as (sf & s & _ & Hs & _). unfold names in Hs.
      replace (S d) with (d + 1) in Hs by lia. exists s. split; auto. unfold up_part. simpl.
      assert (HI : In s (T (d + 1))) by (eapply nth_error_In; eauto).
      destruct (B_faces (d + 1) s ltac:(lia) HI) as [N1 N2]. replace (d + 1 - 1) with d in N2 by lia.
      apply both_ways_pairs_In; [apply NoDup_map_pos; auto; intros x Hx; apply N2; auto|].
      rewrite (in_faces d s a B B_faces Hd t Hs), (in_faces d s c B B_faces Hd t Hs). auto.
  - simpl. split; [tauto|]. intros (_ & H & _). apply (face_above d a t Hd H).
Qed.

Lemma upper_NoDup d : NoDup (combine (upper_at d) (upref_at d)).
Proof.
  unfold upper_at, upref_at. destruct (Nat.ltb_spec (d + 1) n) as [Hd|Hd]; [|constructor].
  unfold up_refs. rewrite combine_parts. apply NoDup_parts; auto. intros s i Hs.
  unfold up_part. apply both_ways_pairs_NoDup. simpl.
  destruct (B_faces (d + 1) s ltac:(lia) Hs) as [N1 N2]. replace (d + 1 - 1) with d in N2 by lia.
  apply NoDup_map_pos; auto. intros x Hx; apply N2; auto.
Qed.

Lemma upper_len d : length (upper_at d) = length (upref_at d).
Proof. unfold upper_at, upref_at. destruct (_ <? _); auto. apply parts_length. Qed.

Lemma in_cofaces d s i : d + 1 < n -> forall t, nth_error (T d) t = Some s ->
  (In i (map (pos (T (d + 1))) (C d s)) <-> face_of T d t i).
Proof.
  intros Hd t Ht. assert (Hs : In s (T d)) by (eapply nth_error_In; eauto).
  destruct (C_spec d s Hd Hs) as [_ HI].
  rewrite in_map_pos by (intros x Hx; apply HI; auto). unfold face_of, names. split.
  - intros (f & Hf & Hin). exists s, f. apply HI in Hin. replace (S d) with (d + 1) by lia. tauto.
  - intros (s' & f & Hs' & Hf & Hi). replace (S d) with (d + 1) in Hf by lia. rewrite Ht in Hs'. inversion Hs'; subst s'.
    exists f. split; auto. apply HI. split; auto. eapply nth_error_In; eauto.
Qed.

Lemma lower_triples d a c t : down = true -> d + 1 < n ->
  (In ((a, c), t) (combine (lower_at (d + 1)) (lowref_at (d + 1))) <-> a <> c /\ face_of T d t a /\ face_of T d t c).
Proof.
  intros Hdown Hd. unfold lower_at, lowref_at. rewrite Hdown. destruct (Nat.ltb_spec 0 (d + 1)) as [_|H]; [|lia]. cbn [andb].
  replace (d + 1 - 1) with d by lia. unfold low_refs. rewrite combine_parts, in_parts. split.
  - intros (s & Hs & Hp). unfold low_part in Hp. simpl in Hp. replace (d + 1 - 1) with d in Hp by lia.
    assert (HI : In s (T d)) by (eapply nth_error_In; eauto).
    destruct (C_spec d s Hd HI) as [N1 N2].
    apply both_ways_pairs_In in Hp; [|apply NoDup_map_pos; auto].
    destruct Hp as (H1 & H2 & H3). rewrite (in_cofaces d s a Hd t Hs) in H2. rewrite (in_cofaces d s c Hd t Hs) in H3. auto.
  - intros (H1 & H2 & H3). pose proof H2 as (s & sc & Hs & _). unfold names in Hs. exists s. split; auto.
    unfold low_part. simpl. replace (d + 1 - 1) with d by lia.
    assert (HI : In s (T d)) by (eapply nth_error_In; eauto).
    destruct (C_spec d s Hd HI) as [N1 N2].
    apply both_ways_pairs_In; [apply NoDup_map_pos; auto; intros x Hx; apply N2; auto|].
    rewrite (in_cofaces d s a Hd t Hs), (in_cofaces d s c Hd t Hs). auto.
Qed.

Lemma lower_NoDup d : d + 1 < n -> NoDup (combine (lower_at (d + 1)) (lowref_at (d + 1))).
Proof.
  intros Hd. unfold lower_at, lowref_at. destruct down; [|constructor].
  destruct (Nat.ltb_spec 0 (d + 1)) as [_|H]; [|lia]. cbn [andb]. replace (d + 1 - 1) with d by lia.
  unfold low_refs. rewrite combine_parts. apply NoDup_parts; auto. intros s i Hs.
  unfold low_part. simpl. replace (d + 1 - 1) with d by lia. apply both_ways_pairs_NoDup.
  destruct (C_spec d s Hd Hs) as [N1 N2]. apply NoDup_map_pos; auto.
Qed.

Lemma lower_len d : length (lower_at d) = length (lowref_at d).
Proof. unfold lower_at, lowref_at. destruct (_ && _); auto. apply parts_length. Qed.

(** The boundary pairs. *)
Definition bpairs (bt : list (list nat)) : list (nat * nat) :=
  concat (mapi (fun s bs => map (fun b => (b, s)) bs) bt).
Definition btab (d : nat) : list (list nat) := map (fun s => map (pos (T (d - 1))) (Bo d s)) (T d).

Lemma bpairs_In bt f t : In (f, t) (bpairs bt) <-> exists row, nth_error bt t = Some row /\ In f row.
Proof.
  unfold bpairs. rewrite in_concat_mapi. split.
  - intros (i & row & Hi & Hin). apply in_map_iff in Hin as (x & E & Hx). inversion E; subst. eauto.
  - intros (row & Hi & Hin). exists t, row. split; auto. apply in_map_iff. eauto.
Qed.

Lemma bpairs_NoDup bt : (forall row, In row bt -> NoDup row) -> NoDup (bpairs bt).
Proof.
  unfold bpairs, mapi. generalize 0 as k. induction bt as [|row bt IH]; intros k H; simpl; [constructor|].
  apply NoDup_app.
  - apply NoDup_map_inj; [intros a c _ _ E; inversion E; auto|]. apply H; left; auto.
  - apply IH. intros; apply H; right; auto.
  - intros [f t] H1 H2. apply in_map_iff in H1 as (x & E & _). inversion E; subst.
    assert (G : forall k, In (f, t) (concat (mapi_from (fun s bs => map (fun b => (b, s)) bs) k bt)) -> k <= t).
    { clear. induction bt as [|r bt IH]; simpl; [tauto|]. intros k. rewrite in_app_iff. intros [H|H].
      - apply in_map_iff in H as (x & E & _). inversion E; auto.
      - apply IH in H. lia. }
    apply G in H2. lia.
Qed.

Lemma nth_error_app_inv {A} (l l' : list A) i a : nth_error (l ++ l') i = Some a ->
  (i < length l /\ nth_error l i = Some a) \/ (length l <= i /\ nth_error l' (i - length l) = Some a).
Proof.
  intros H. destruct (Nat.lt_ge_cases i (length l)).
  - left. rewrite nth_error_app1 in H by auto. auto.
  - right. rewrite nth_error_app2 in H by auto. auto.
Qed.

Lemma bpairs_sorted bt i j p q : nth_error (bpairs bt) i = Some p -> nth_error (bpairs bt) j = Some q -> i < j -> snd p <= snd q.
Proof.
  unfold bpairs, mapi.
  assert (G : forall (bt : list (list nat)) k (p : nat * nat), In p (concat (mapi_from (fun s bs => map (fun b => (b, s)) bs) k bt)) -> k <= snd p).
  { clear. induction bt as [|r bt IH]; simpl; [tauto|]. intros k p. rewrite in_app_iff. intros [H|H].
    - apply in_map_iff in H as (x & <- & _). auto.
    - apply IH in H. lia. }
  generalize 0 as k. revert i j. induction bt as [|row bt IH]; intros i j k Hi Hj Hlt; simpl in *.
  - destruct i; discriminate.
  - apply nth_error_app_inv in Hi as [[I1 I2]|[I1 I2]]; apply nth_error_app_inv in Hj as [[J1 J2]|[J1 J2]].
    + apply nth_error_In, in_map_iff in I2 as (x & <- & _). apply nth_error_In, in_map_iff in J2 as (y & <- & _). auto.
    + apply nth_error_In, in_map_iff in I2 as (x & <- & _). apply nth_error_In, G in J2. simpl. lia.
    + lia.
    + eapply IH; eauto. lia.
Qed.

Lemma boundary_pairs d f t : d + 1 < n -> (In (f, t) (bpairs (btab (d + 1))) <-> face_of T d f t).
Proof.
  intros Hd. rewrite bpairs_In. unfold btab. replace (d + 1 - 1) with d by lia. split.
  - intros (row & Hr & Hin). rewrite nth_error_map in Hr. destruct (nth_error (T (d + 1)) t) as [s|] eqn:E; [|discriminate].
    inversion Hr; subst row. apply (in_faces d s f Bo Bo_spec Hd t E) in Hin. auto.
  - intros H. pose proof H as (sf & s & _ & Hs & _). unfold names in Hs. replace (S d) with (d + 1) in Hs by lia.
    eexists. split; [rewrite nth_error_map, Hs; reflexivity|]. apply (in_faces d s f Bo Bo_spec Hd t Hs). auto.
Qed.

Lemma Bo_length d s : 0 < d < n -> In s (T d) -> length (Bo d s) = length (B d s).
Proof.
  intros H1 H2. destruct (Bo_spec d s H1 H2) as [N1 N2]. destruct (B_faces d s H1 H2) as [M1 M2].
  apply Permutation_length, NoDup_Permutation; auto. intros f. rewrite N2, M2. tauto.
Qed.

Lemma face_last d : d + 1 < n -> exists f f', f <> f' /\ face_of T d f (length (T (d + 1)) - 1) /\ face_of T d f' (length (T (d + 1)) - 1).
Proof.
  intros Hd. pose proof (T_full (d + 1) Hd) as HT.
  destruct (nth_error (T (d + 1)) (length (T (d + 1)) - 1)) as [s|] eqn:E.
  2:{ apply nth_error_None in E. destruct (T (d + 1)); [congruence|simpl in E; lia]. }
  assert (HI : In s (T (d + 1))) by (eapply nth_error_In; eauto).
  destruct (B_spec (d + 1) s ltac:(lia) HI) as (N1 & N2 & N3). replace (d + 1 - 1) with d in N3 by lia.
  assert (HP : NoDup (map (pos (T d)) (B (d + 1) s))) by (apply NoDup_map_pos; auto; intros x Hx; apply N3; auto).
  destruct (map (pos (T d)) (B (d + 1) s)) as [|f [|f' l]] eqn:El;
    try (apply (f_equal (@length nat)) in El; rewrite map_length in El; simpl in El; lia).
  exists f, f'. rewrite <- (in_faces d s f B B_faces Hd _ E), <- (in_faces d s f' B B_faces Hd _ E), El. simpl. inversion HP; subst. simpl in *. intuition.
Qed.

Lemma upper_nonempty d : d + 1 < n -> upper_at d <> [].
Proof.
  intros Hd H. destruct (face_last d Hd) as (f & f' & H1 & H2 & H3).
  assert (HI : In ((f, f'), length (T (d + 1)) - 1) (combine (upper_at d) (upref_at d))) by (apply upper_triples; auto).
  rewrite H in HI. destruct HI.
Qed.

Lemma face_range d f t : face_of T d f t -> f < length (T d) /\ t < length (T (d + 1)).
Proof.
  intros (sf & sc & H1 & H2 & _). unfold names in *. split; apply nth_error_Some; [congruence|].
  replace (d + 1) with (S d) by lia. congruence.
Qed.

Lemma in_combine_snd {A B'} (l : list A) (l' : list B') y : length l = length l' -> In y l' -> exists x, In (x, y) (combine l l').
Proof.
  revert l'; induction l as [|a l IH]; intros [|c l'] Hl Hy; simpl in *; try discriminate; try tauto.
  destruct Hy as [->|Hy]; [eauto|]. destruct (IH l' ltac:(lia) Hy) as [x Hx]. eauto.
Qed.
Lemma in_combine_fst {A B'} (l : list A) (l' : list B') x : length l = length l' -> In x l -> exists y, In (x, y) (combine l l').
Proof.
  revert l'; induction l as [|a l IH]; intros [|c l'] Hl Hy; simpl in *; try discriminate; try tauto.
  destruct Hy as [->|Hy]; [eauto|]. destruct (IH l' ltac:(lia) Hy) as [y Hx]. eauto.
Qed.

Lemma upref_max d : d + 1 < n -> list_max (upref_at d) + 1 = length (T (d + 1)).
Proof.
  intros Hd. pose proof (T_full (d + 1) Hd) as HT.
  assert (Hpos : 0 < length (T (d + 1))) by (destruct (T (d + 1)); [congruence|simpl; lia]).
  destruct (face_last d Hd) as (f & f' & H1 & H2 & H3).
  assert (HI : In ((f, f'), length (T (d + 1)) - 1) (combine (upper_at d) (upref_at d))) by (apply upper_triples; auto).
  apply in_combine_r in HI. apply list_max_in_le in HI.
  assert (list_max (upref_at d) < length (T (d + 1))); [|lia].
  apply Base.list_max_lt; auto. intros t Ht.
  destruct (in_combine_snd _ _ _ (upper_len d) Ht) as [[a c] Hin]. apply upper_triples in Hin as (_ & Hf & _).
  apply face_range in Hf. tauto.
Qed.

Lemma lowref_range d t : d + 1 < n -> In t (lowref_at (d + 1)) -> t < length (T d).
Proof.
  intros Hd Ht. destruct (in_combine_snd _ _ _ (lower_len (d + 1)) Ht) as [[a c] Hin].
  destruct down eqn:E.
  - apply lower_triples in Hin as (_ & Hf & _); auto. apply face_range in Hf. tauto.
  - unfold lower_at in Hin. rewrite E in Hin. destruct Hin.
Qed.

(** ** Cochains *)
Context {V : Type}.
Variables (xs : list (option (list V))) (X : nat -> option (list V)) (a : adjs) (tables : list (list cell)).
Hypothesis Hxs : forall d, d < n -> nth_error xs d = Some (X d).
Hypothesis HX : forall d, d < n -> match X d with Some l => length l = length (T d) | None => 0 < d end.
Hypothesis Htables : rep n tables T.
Hypothesis Hau : rep n (a_upper a) upper_at.
Hypothesis Hal : rep n (a_lower a) lower_at.
Hypothesis Hab : rep n (a_shb a) lowref_at.
Hypothesis Hac : rep n (a_shc a) upref_at.

Definition gen (d : nat) (y : option (list Z)) : cochain V :=
  mkCochain d (X d) (nonempty (upper_at d)) (nonempty (lower_at d)) (nonempty (lowref_at d)) (nonempty (upref_at d))
    (if d =? 0 then None else Some (bpairs (btab d))) None None y None None
    (Some (Some (length (T (d + 1))))) (Some (if 0 <? d then Some (length (T (d - 1))) else None)).

Lemma nonempty_content {A} (l : list A) : content (nonempty l) = l.
Proof. destruct l; auto. Qed.
Lemma nonempty_Some {A} (l : list A) : isSome (nonempty l) = negb (length l =? 0).
Proof. destruct l; auto. Qed.

Lemma lower0 : lower_at 0 = [] /\ lowref_at 0 = [].
Proof. unfold lower_at, lowref_at. simpl. rewrite andb_false_r. auto. Qed.

Lemma upper_top d : n <= d + 1 -> upper_at d = [] /\ upref_at d = [].
Proof. intros H. unfold upper_at, upref_at. destruct (Nat.ltb_spec (d + 1) n); [lia|auto]. Qed.

Lemma generate_ok d y : d < n -> generate_cochain d (X d) a tables (b_tables b) n y = Ok (gen d y).
Proof.
  intros Hd. unfold generate_cochain.
  rewrite (rep_get _ _ _ d Hau), (rep_get _ _ _ d Hal), (rep_get _ _ _ d Hab), (rep_get _ _ _ d Hac) by auto. cbn [bind].
  assert (E1 : (if d =? 0 then let* _ := assert_ (length (lower_at d) =? 0) in assert_ (length (lowref_at d) =? 0) else Ok tt) = Ok tt).
  { destruct (Nat.eqb_spec d 0); auto. subst d. destruct lower0 as [-> ->]. reflexivity. }
  rewrite E1. cbn [bind]. clear E1.
  assert (E2 : (if 0 <? d then let* t := get tables (d - 1) in Ok (Some (length t)) else Ok None) =
               Ok (if 0 <? d then Some (length (T (d - 1))) else None)).
  { destruct (Nat.ltb_spec 0 d); auto. rewrite (rep_get _ _ _ (d - 1) Htables) by lia. reflexivity. }
  rewrite E2. cbn [bind]. clear E2.
  assert (E3 : (if d + 1 <? n then let* t := get tables (d + 1) in Ok (length t) else Ok 0) = Ok (length (T (d + 1)))).
  { destruct (Nat.ltb_spec (d + 1) n).
    - rewrite (rep_get _ _ _ (d + 1) Htables) by lia. reflexivity.
    - rewrite T_above by lia. reflexivity. }
  rewrite E3. cbn [bind]. clear E3.
  rewrite (rep_get _ _ _ d Htab) by auto. cbn [bind].
  assert (E4 : match (if 0 <? d then Some (length (T (d - 1))) else None) with
               | Some _ => Ok tt | None => assert_ (negb (isSome (nonempty (lowref_at d)))) end = Ok tt).
  { destruct (Nat.ltb_spec 0 d); auto. replace d with 0 by lia. destruct lower0 as [_ ->]. reflexivity. }
  rewrite E4. cbn [bind]. clear E4.
  assert (E5 : (if length (T (d + 1)) =? 0 then assert_ (negb (isSome (nonempty (upref_at d)))) else Ok tt) = Ok tt).
  { destruct (Nat.eqb_spec (length (T (d + 1))) 0) as [Hz|]; auto. destruct (Nat.lt_ge_cases (d + 1) n) as [Hlt|Hge].
    - apply length_zero_iff_nil in Hz. destruct (T_full (d + 1)); auto.
    - destruct (upper_top d Hge) as [_ ->]. reflexivity. }
  rewrite E5. cbn [bind]. clear E5.
  assert (E6 : (if isSome (nonempty (upper_at d)) then
               match nonempty (upref_at d) with
               | None => Err AttributeError
               | Some s =>
                   let* _ := assert_ (length (upper_at d) =? length s) in
                   let* m := list_max_err s in
                   assert_ (length (T (d + 1)) =? m + 1)
               end
             else Ok tt) = Ok tt).
  { destruct (upper_at d) as [|p u] eqn:Eu; auto. simpl isSome. cbv iota.
    pose proof (upper_len d) as Hl. rewrite Eu in Hl.
    destruct (upref_at d) as [|r rs] eqn:Er; [discriminate|]. simpl nonempty. cbv iota.
    rewrite Hl, Nat.eqb_refl. cbn [bind assert_]. unfold list_max_err. cbn [bind].
    assert (Hlt : d + 1 < n).
    { destruct (Nat.lt_ge_cases (d + 1) n); auto. destruct (upper_top d) as [Z _]; auto. congruence. }
    pose proof (upref_max d Hlt) as Hm. rewrite Er in Hm. rewrite Hm, Nat.eqb_refl. reflexivity. }
  rewrite E6. cbn [bind]. clear E6.
  assert (E7 : (if isSome (nonempty (lower_at d)) then
               match nonempty (lowref_at d) with
               | None => Err AttributeError
               | Some s =>
                   let* _ := assert_ (length (lower_at d) =? length s) in
                   let* m := list_max_err s in
                   match (if 0 <? d then Some (length (T (d - 1))) else None) with
                   | None => Err TypeError
                   | Some k => assert_ (m + 1 <=? k)
                   end
               end
             else Ok tt) = Ok tt).
  { destruct (lower_at d) as [|p u] eqn:Eu; auto. simpl isSome. cbv iota.
    pose proof (lower_len d) as Hl. rewrite Eu in Hl.
    destruct (lowref_at d) as [|r rs] eqn:Er; [discriminate|]. simpl nonempty. cbv iota.
    rewrite Hl, Nat.eqb_refl. cbn [bind assert_]. unfold list_max_err. cbn [bind].
    destruct d as [|d]. { destruct lower0 as [Z _]. congruence. }
    destruct (Nat.ltb_spec 0 (S d)); [|lia].
    assert (G : list_max (r :: rs) < length (T (S d - 1))).
    { replace (S d - 1) with d by lia. apply Base.list_max_lt.
      - assert (HT : T d <> []) by (apply T_full; lia). destruct (T d); [congruence|simpl; lia].
      - intros t Ht. rewrite <- Er in Ht. apply (lowref_range d t); [lia|]. rewrite Nat.add_1_r. auto. }
    destruct (Nat.leb_spec (list_max (r :: rs) + 1) (length (T (S d - 1)))); [reflexivity|lia]. }
  rewrite E7. cbn [bind]. clear E7.
  assert (E8 : option_map (fun bt => concat (mapi (fun (s : nat) bs => map (fun b0 : nat => (b0, s)) bs) bt))
                 (nonempty (if d =? 0 then [] else map (fun s => map (pos (T (d - 1))) (Bo d s)) (T d))) =
               if d =? 0 then None else Some (bpairs (btab d))).
  { destruct (Nat.eqb_spec d 0); auto. unfold btab, bpairs.
    destruct (map (fun s => map (pos (T (d - 1))) (Bo d s)) (T d)) eqn:E; auto.
    apply map_eq_nil in E. destruct (T_full d); auto. }
  rewrite E8. clear E8. unfold init_checks.
  match goal with |- bind (assert_ ?q) _ = _ => assert (Eq : q = true) end.
  { simpl. destruct (Nat.eqb_spec d 0); auto. subst d. destruct lower0 as [-> ->]. reflexivity. }
  rewrite Eq. cbn [bind assert_]. reflexivity.
Qed.

Lemma gen_wf d y : d < n -> wf_cochain (fun d => length (T d)) (n - 1) d (gen d y).
Proof.
  intros Hd. split; unfold gen; cbn [c_dim c_n c_x c_upper c_shc c_lower c_shb c_bidx c_nup c_ndown].
  - auto.
  - auto.
  - pose proof (HX d Hd) as Hx. destruct (X d); auto.
    destruct d as [|d]; [lia|]. simpl. rewrite <- Nat.add_1_r.
    destruct (face_last d ltac:(lia)) as (f & _ & _ & Hf & _).
    exists (bpairs (btab (d + 1))), (f, length (T (d + 1)) - 1). split; [auto|]. split; [apply boundary_pairs; auto; lia|].
    simpl. assert (HT : T (d + 1) <> []) by (apply T_full; lia). destruct (T (d + 1)); [congruence|simpl; lia].
  - destruct (upper_at d) as [|p u] eqn:Eu.
    + pose proof (upper_len d) as Hl. rewrite Eu in Hl. destruct (upref_at d); [reflexivity|discriminate].
    + simpl nonempty. cbv iota. rewrite <- Eu.
      assert (Hlt : d + 1 < n).
      { destruct (Nat.lt_ge_cases (d + 1) n); auto. destruct (upper_top d) as [Z _]; auto. congruence. }
      split; [lia|]. split.
      * intros x y' Hin. destruct (in_combine_fst _ _ _ (upper_len d) Hin) as [t Ht].
        apply upper_triples in Ht as (_ & H1 & H2). apply face_range in H1, H2. tauto.
      * exists (upref_at d). split; [|split].
        -- pose proof (upper_len d) as Hl. rewrite Eu in Hl. destruct (upref_at d); [discriminate|auto].
        -- symmetry. apply upper_len.
        -- intros t Ht. destruct (in_combine_snd _ _ _ (upper_len d) Ht) as [[x y'] Hin].
           apply upper_triples in Hin as (_ & H1 & _). apply face_range in H1. rewrite <- Nat.add_1_r. tauto.
  - destruct (lower_at d) as [|p u] eqn:Eu.
    + pose proof (lower_len d) as Hl. rewrite Eu in Hl. destruct (lowref_at d); [reflexivity|discriminate].
    + simpl nonempty. cbv iota. rewrite <- Eu.
      destruct d as [|d]. { destruct lower0 as [Z _]. congruence. }
      assert (Hdown : down = true).
      { unfold lower_at in Eu. destruct down; auto. discriminate. }
      rewrite <- Nat.add_1_r in *.
      split; [lia|]. split.
      * intros x y' Hin. destruct (in_combine_fst _ _ _ (lower_len (d + 1)) Hin) as [t Ht].
        apply lower_triples in Ht as (_ & H1 & H2); auto. apply face_range in H1, H2. tauto.
      * exists (lowref_at (d + 1)). split; [|split].
        -- pose proof (lower_len (d + 1)) as Hl. rewrite Eu in Hl. destruct (lowref_at (d + 1)); [discriminate|auto].
        -- symmetry. apply lower_len.
        -- intros t Ht. replace (pred (d + 1)) with d by lia. apply lowref_range; auto.
  - destruct (Nat.eqb_spec d 0); auto. split; [lia|]. intros f t Hin.
    destruct d as [|d]; [lia|]. rewrite <- Nat.add_1_r in *. apply boundary_pairs in Hin; auto.
    apply face_range in Hin. replace (pred (d + 1)) with d by lia. auto.
  - destruct (Nat.ltb_spec d (n - 1)); [rewrite (Nat.add_1_r d); auto|]. right. rewrite T_above by lia. auto.
  - intros Hpos. destruct (Nat.ltb_spec 0 d); [|lia]. replace (d - 1) with (pred d) by lia. auto.
Qed.

Lemma map_seq_nth {A} (f : nat -> A) m d c : nth_error (map f (seq 0 m)) d = Some c <-> d < m /\ c = f d.
Proof.
  rewrite nth_error_map. destruct (Nat.lt_ge_cases d m).
  - rewrite (nth_error_nth' _ 0) by (rewrite seq_length; auto). rewrite seq_nth by auto. simpl.
    split; intros E; [inversion E; auto|]. destruct E as [_ ->]. auto.
  - rewrite (proj2 (nth_error_None _ _)) by (rewrite seq_length; auto). simpl. split; [discriminate|]. intros [H1 _]. lia.
Qed.

Theorem assemble_ok v_y k_y' : exists k, assemble xs a tables (b_tables b) n v_y k_y' = Ok k /\
  k_dim k = n - 1 /\ k_y k = k_y' /\ has_cells T down X k /\
  (forall c, nth_error (k_cochains k) 0 = Some c -> c_y c = v_y) /\
  (forall d c, nth_error (k_cochains k) (S d) = Some c -> c_y c = None).
Proof.
  unfold assemble.
  set (G := fun i => gen i (if i =? 0 then v_y else None)).
  assert (E : mapM (fun i => let* x := get xs i in
      generate_cochain i x a tables (b_tables b) n (if i =? 0 then v_y else None)) (seq 0 n) = Ok (map G (seq 0 n))).
  { apply mapM_map. intros i Hi. apply in_seq in Hi.
    rewrite (proj2 (get_ok _ _ _) (Hxs i ltac:(lia))). cbn [bind]. apply generate_ok. lia. }
  rewrite E. cbn [bind].
  assert (Hlen : length (map G (seq 0 n)) = n - 1 + 1) by (rewrite map_length, seq_length; lia).
  destruct (mk_complex_ok (map G (seq 0 n)) (n - 1) (fun d => length (T d)) k_y' Hlen) as (k & Hk & Hd & Hy & Hl & Hc).
  { intros d c Hin. apply map_seq_nth in Hin as [Hlt ->]. split; [reflexivity|].
    exact (wf_num_cells (fun d => length (T d)) (n - 1) d _ (gen_wf d _ Hlt)). }
  assert (HC : forall d c, nth_error (k_cochains k) d = Some c -> d < n /\ c = G d).
  { intros d c Hin. destruct (Hc d c Hin) as (c0 & Hc0 & ->). apply map_seq_nth in Hc0 as [Hlt ->]. split; auto.
    unfold consolidated, G, gen. simpl. f_equal.
    - destruct (Nat.ltb_spec d (n - 1)); auto. rewrite Nat.add_1_r. auto.
    - destruct d; auto. simpl. rewrite Nat.sub_0_r. auto. }
  exists k. split.
  { unfold mk_complex in Hk |- *. destruct (map G (seq 0 n)) eqn:EG; [discriminate|].
    assert (EL : length (c :: l) - 1 = n - 1) by (rewrite Hlen; lia). rewrite EL in Hk. exact Hk. }
  split; auto. split; auto. split; [split|split].
  - split.
    + lia.
    + intros d c Hin. apply HC in Hin as [Hlt ->]. rewrite Hd. apply gen_wf; auto.
    + intros d Hlt. rewrite T_above by lia. auto.
  - intros d Hle. apply T_full. lia.
  - intros d c Hin. apply HC in Hin as [Hlt ->]. reflexivity.
  - intros c Hin. apply HC in Hin as [Hlt ->]. unfold G, gen. simpl. destruct lower0 as [-> ->]. auto.
  - intros d c Hin. apply HC in Hin as [Hlt ->]. assert (ES : S d = d + 1) by lia. rewrite ES in *. unfold G, gen. assert (E0 : (d + 1 =? 0) = false) by (apply Nat.eqb_neq; lia). rewrite E0. split; cbn [c_bidx]; unfold content; cbv iota.
    + intros f t. apply boundary_pairs; lia.
    + apply bpairs_NoDup. intros row Hr. unfold btab in Hr. apply in_map_iff in Hr as (s & <- & Hs).
      destruct (Bo_spec (d + 1) s ltac:(lia) Hs) as [N1 N2]. apply NoDup_map_pos; auto. intros x Hx; apply N2; auto.
    + intros i j p q. apply bpairs_sorted.
  - intros d c Hin. apply HC in Hin as [Hlt ->]. unfold G, gen. split; unfold triples; simpl; rewrite ?nonempty_content.
    + apply upper_len.
    + intros x y t. apply upper_triples.
    + apply upper_NoDup.
  - intros d c Hin. apply HC in Hin as [Hlt ->]. assert (ES : S d = d + 1) by lia. rewrite ES in *. unfold G, gen.
    destruct down eqn:Edown.
    + split; unfold triples; simpl; rewrite ?nonempty_content.
      * apply lower_len.
      * intros x y t. apply lower_triples; auto.
      * apply lower_NoDup; auto.
    + simpl. unfold lower_at, lowref_at. rewrite Edown. auto.
  - intros c Hin. apply HC in Hin as [Hlt ->]. reflexivity.
  - intros d c Hin. apply HC in Hin as [Hlt ->]. reflexivity.
Qed.
End Tables.
