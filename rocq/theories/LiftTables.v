(** Tables of a simplicial complex enumerated by gudhi: closed forms of build_tables,
    extract_boundaries_and_coboundaries_from_simplex_tree and construct_features. *)
From Coq Require Import List Arith Lia ZArith Bool Permutation Sorted.
From Verif Require Import Base ScatterModel ScatterSpec ScatterProofs ComplexModel BatchSpec BatchSpec2 BatchProofs
  LiftModel LiftSpec LiftBase LiftProofs LiftClique.
Import ListNotations.

(** ** Lists of dictionaries *)
Definition repd {A} (m : nat) (l : list (dict A)) (D : nat -> cell -> option A) : Prop :=
  length l = m /\ forall d, d < m -> exists q, nth_error l d = Some q /\ forall c, dget q c = D d c.

Lemma repd_upd {A} m (l : list (dict A)) D i g D' : repd m l D -> i < m ->
  (forall q, (forall c, dget q c = D i c) -> forall c, dget (g q) c = D' c) ->
  exists l', upd l i g = Ok l' /\ repd m l' (fun d c => if d =? i then D' c else D d c).
Proof.
  intros [Hl HD] Hi Hg. destruct (upd_ok l i g) as (r & E & Hl' & Hn); [lia|].
  exists r. split; auto. split; [congruence|]. intros d Hd. destruct (HD d Hd) as (q & Hq & Hc).
  rewrite Hn. rewrite Hq. cbn [option_map]. destruct (Nat.eqb_spec d i) as [->|Hne].
  - exists (g q). split; auto. 
  - exists q. auto.
Qed.
Lemma repd_ext {A} m (l : list (dict A)) D D' : repd m l D -> (forall d c, d < m -> D d c = D' d c) -> repd m l D'.
Proof.
  intros [Hl HD] H. split; auto. intros d Hd. destruct (HD d Hd) as (q & Hq & Hc). exists q. split; auto.
  intros c. rewrite <- H; auto.
Qed.
Lemma repd_repeat {A} m : @repd A m (repeat [] m) (fun _ _ => None).
Proof.
  split; [apply repeat_length|]. intros d Hd. exists []. split; auto.
  exact (rep_nth m _ _ d (rep_repeat m []) Hd).
Qed.

Definition singles (size : nat) : list cell := map (fun v => [v]) (seq 0 size).
Lemma singles_In size s : In s (singles size) <-> exists v, v < size /\ s = [v].
Proof.
  unfold singles. rewrite in_map_iff. split.
  - intros (v & <- & H). apply in_seq in H. exists v. split; [lia|auto].
  - intros (v & H & ->). exists v. split; auto. apply in_seq. lia.
Qed.
Lemma singles_nodup size : NoDup (singles size).
Proof. apply NoDup_map_inj; [|apply seq_NoDup]. intros a b _ _ E. inversion E; auto. Qed.
Lemma singles_length size : length (singles size) = size.
Proof. unfold singles. rewrite map_length, seq_length. auto. Qed.
Lemma singles_map size : map (fun v => ([v], v)) (seq 0 size) = index_map (singles size).
Proof.
  unfold index_map. rewrite singles_length. unfold singles. generalize (seq 0 size) as l.
  induction l as [|a l IH]; simpl; auto. f_equal; auto.
Qed.

(** ** Closed forms *)
Section Simplicial.
Variables (S : list cell) (cof : cell -> list cell) (size : nat).
Let st := mkST S cof.
Let n := st_levels st.
Hypothesis S_nodup : NoDup S.
Hypothesis S_sorted : forall s, In s S -> sorted s /\ s <> [].
Hypothesis S_down : forall s f, In s S -> f <> [] -> incl f s -> sorted f -> In f S.
Hypothesis S_vert : forall v, In [v] S <-> v < size.
Hypothesis cof_ok : forall s, In s S -> NoDup (cof s) /\
  forall c, In c (cof s) <-> In c S /\ length c = 1 + length s /\ incl s c.

Definition level (d : nat) : list cell :=
  if d =? 0 then singles size else filter (fun s => length s =? d + 1) S.

Lemma S_length s : In s S -> 1 <= length s <= n.
Proof.
  intros H. split.
  - destruct (S_sorted s H) as [_ H']. destruct s; [congruence|simpl; lia].
  - unfold n, st_levels, st. cbn [st_simplices].
    assert (G : Forall (fun k => k <= list_max (map (@length nat) S)) (map (@length nat) S)) by (apply list_max_le; auto).
    rewrite Forall_forall in G. apply G. apply in_map; auto.
Qed.

Lemma level_In d s : In s (level d) <-> In s S /\ length s = d + 1.
Proof.
  unfold level. destruct (Nat.eqb_spec d 0) as [->|Hd].
  - rewrite singles_In. split.
    + intros (v & Hv & ->). split; auto. apply S_vert; auto.
    + intros [H1 H2]. destruct s as [|v [|w s]]; try discriminate. exists v. split; auto. apply S_vert; auto.
  - rewrite filter_In, Nat.eqb_eq. tauto.
Qed.
Lemma level_nodup d : NoDup (level d).
Proof. unfold level. destruct (d =? 0); [apply singles_nodup|apply NoDup_filter; auto]. Qed.
Lemma level_above d : n <= d -> level d = [].
Proof.
  intros H. destruct (level d) as [|s l] eqn:E; auto.
  assert (Hs : In s (level d)) by (rewrite E; left; auto). apply level_In in Hs as [H1 H2].
  apply S_length in H1. lia.
Qed.
Lemma sorted_firstn k (s : cell) : sorted s -> sorted (firstn k s).
Proof.
  revert k; induction s as [|a s IH]; intros [|k] H; simpl; try constructor.
  - apply IH. apply sorted_cons in H. tauto.
  - apply sorted_cons in H as [_ H]. apply Forall_forall. intros x Hx. apply H.
    rewrite <- (firstn_skipn k s). apply in_app_iff. auto.
Qed.
Lemma level_full d : d < n -> level d <> [].
Proof.
  intros H E.
  assert (exists s, In s S /\ length s = n).
  { assert (G : forall l : list nat, 0 < list_max l -> In (list_max l) l).
    { induction l as [|a l IH]; simpl; [lia|]. intros Hl. destruct (Nat.max_spec a (list_max l)) as [[H1 H2]|[H1 H2]].
      - right. rewrite H2. apply IH. lia.
      - left. lia. }
    assert (Hp : 0 < n) by lia. apply G in Hp. apply in_map_iff in Hp as (s & E1 & E2). exists s. split; auto. }
  destruct H0 as (s & Hs & Hl). assert (Hin : In (firstn (d + 1) s) (level d)).
  { apply level_In. assert (L : length (firstn (d + 1) s) = d + 1) by (rewrite firstn_length; lia). split; auto.
    apply (S_down s); auto.
    - intros E'. rewrite E' in L. simpl in L. lia.
    - intros x Hx. rewrite <- (firstn_skipn (d + 1) s). apply in_app_iff. auto.
    - apply sorted_firstn. apply S_sorted; auto. }
  rewrite E in Hin. destruct Hin.
Qed.

(** *** Tables *)
Definition added (P : list cell) (d : nat) : list cell := if d =? 0 then [] else filter (fun s => length s =? d + 1) P.

Lemma tables_loop P : forall tm Ft, NoDup P -> (forall s, In s P -> 1 <= length s <= n) ->
  (forall s, In s P -> 1 < length s -> ~ In s (Ft (length s - 1))) ->
  rep n (fst tm) Ft -> rep n (snd tm) (fun d => index_map (Ft d)) ->
  exists tm', foldM table_step tm P = Ok tm' /\
    rep n (fst tm') (fun d => Ft d ++ added P d) /\ rep n (snd tm') (fun d => index_map (Ft d ++ added P d)).
Proof.
  induction P as [|s P IH]; intros tm Ft HN HL HD Ht Hm.
  - exists tm. split; [reflexivity|]. split; (eapply rep_ext; [eassumption|]); intros d Hd;
      unfold added; destruct (d =? 0); simpl; rewrite app_nil_r; auto.
  - inversion HN as [|? ? N1 N2]; subst. cbn [foldM].
    assert (Hs : 1 <= length s <= n) by (apply HL; left; auto).
    destruct (Nat.eq_dec (length s) 1) as [E1|E1].
    + unfold table_step at 1. rewrite E1. cbn [Nat.sub Nat.eqb bind].
      destruct (IH tm Ft) as (tm' & R1 & R2 & R3); auto.
      { intros x Hx. apply HL; right; auto. }
      { intros x Hx. apply HD; right; auto. }
      exists tm'. split; auto. split; (eapply rep_ext; [eassumption|]); intros d Hd; unfold added; cbn [filter];
        destruct (Nat.eqb_spec d 0); auto; destruct (Nat.eqb_spec (length s) (d + 1)); auto; lia.
    + set (dim := length s - 1).
      assert (Hdim : 0 < dim < n) by (unfold dim; lia).
      assert (Hnew : ~ In s (Ft dim)) by (apply HD; [left; auto|lia]).
      destruct (rep_upd n (snd tm) _ dim (fun m => dset m s (length (Ft dim))) Hm) as (m1 & E2 & R2); [lia|].
      destruct (rep_upd n (fst tm) _ dim (fun t => t ++ [s]) Ht) as (t1 & E3 & R3); [lia|].
      assert (ES : table_step tm s = Ok (t1, m1)).
      { unfold table_step. fold dim. destruct (Nat.eqb_spec dim 0); [lia|].
        rewrite (rep_get _ _ _ _ Ht) by lia. cbn [bind]. rewrite E2. cbn [bind]. rewrite E3. reflexivity. }
      rewrite ES. cbn [bind].
      set (Ft' := fun d => if d =? dim then Ft d ++ [s] else Ft d).
      destruct (IH (t1, m1) Ft') as (tm' & R4 & R5 & R6); auto.
      { intros x Hx. apply HL; right; auto. }
      { intros x Hx Hx1 Hin. unfold Ft' in Hin. destruct (Nat.eqb_spec (length x - 1) dim) as [Ed|Ed].
        - apply in_app_iff in Hin as [Hin|[<-|[]]]; auto. apply HD in Hin; auto. right; auto.
        - apply HD in Hin; auto. right; auto. }
      { eapply rep_ext; [apply R2|]. intros d Hd. unfold Ft'. destruct (Nat.eqb_spec d dim) as [->|]; auto.
        apply index_map_new; auto. }
      assert (EF : forall d, Ft' d ++ added P d = Ft d ++ added (s :: P) d).
      { intros d. unfold Ft', added. cbn [filter]. destruct (Nat.eqb_spec d dim) as [->|Hne].
        - destruct (Nat.eqb_spec dim 0); [lia|]. destruct (Nat.eqb_spec (length s) (dim + 1)); [|unfold dim in *; lia].
          rewrite <- app_assoc. reflexivity.
        - destruct (Nat.eqb_spec d 0); auto. destruct (Nat.eqb_spec (length s) (d + 1)); auto. unfold dim in *; lia. }
      exists tm'. split; auto. split; (eapply rep_ext; [eassumption|]); intros d Hd; rewrite <- EF; auto.
Qed.

Lemma build_tables_ok : 0 < n -> exists tables maps, build_tables st size = Ok (tables, maps) /\
  rep n tables level /\ rep n maps (fun d => index_map (level d)).
Proof.
  intros Hn. unfold build_tables. fold n.
  destruct (rep_upd n (repeat [] n) _ 0 (fun _ => singles size) (rep_repeat n [])) as (t & E1 & R1); auto.
  destruct (rep_upd n (repeat [] n) _ 0 (fun _ => index_map (singles size)) (rep_repeat n [])) as (m & E2 & R2); auto.
  unfold singles in E1. rewrite E1. cbn [bind]. rewrite singles_map, E2. cbn [bind].
  destruct (tables_loop S (t, m) (fun d => if d =? 0 then singles size else [])) as (tm & E3 & R3 & R4); auto.
  - intros s Hs. apply S_length; auto.
  - intros s Hs Hl. destruct (Nat.eqb_spec (length s - 1) 0); [lia|]. intros [].
  - eapply rep_ext; [apply R2|]. intros d Hd. cbv beta. destruct (Nat.eqb_spec d 0); auto.
  - exists (fst tm), (snd tm). unfold st at 1. cbn [st_simplices]. rewrite E3. split; [destruct tm; auto|].
    assert (EF : forall d, (if d =? 0 then singles size else []) ++ added S d = level d).
    { intros d. unfold added, level. destruct (d =? 0); auto. rewrite app_nil_r. auto. }
    split; (eapply rep_ext; [eassumption|]); intros d _; simpl; rewrite EF; auto.
Qed.

(** *** Boundaries *)
Definition bnd_of (P : list cell) (d : nat) (c : cell) : list cell :=
  filter (fun s => (length s =? d) && mem c (cof s)) P.
Definition row_of (maps : list (dict nat)) (s : cell) : list nat :=
  map (pos (level (length s - 1 - 1))) (combs (length s - 1) s).

Definition bstate (P : list cell) (b : bmaps) : Prop :=
  rep n (b_tables b) (fun d => if d =? 0 then [] else map (row_of []) (filter (fun s => length s =? d + 1) P)) /\
  repd (n + 1) (b_bnd b) (fun d c => if 0 <? d then nonempty (bnd_of P d c) else None) /\
  repd (n + 1) (b_cob b) (fun d s => if (length s =? d + 1) && mem s P then nonempty (cof s) else None).

Lemma cob_loop s (Hs : 1 <= length s <= n) : forall cs b D E, NoDup cs ->
  (forall c, In c cs -> length c = length s + 1) ->
  repd (n + 1) (b_bnd b) D -> repd (n + 1) (b_cob b) E ->
  exists b', foldM (cob_step s) b cs = Ok b' /\ b_tables b' = b_tables b /\
    repd (n + 1) (b_bnd b') (fun d c => if (d =? length s) && mem c cs
        then Some (match D d c with Some l => l | None => [] end ++ [s]) else D d c) /\
    repd (n + 1) (b_cob b') (fun d t => if (d + 1 =? length s) && ceqb t s && negb (length cs =? 0)
        then Some (match E d t with Some l => l | None => [] end ++ cs) else E d t).
Proof.
  induction cs as [|c cs IH]; intros b D E HN HL HB HC.
  - exists b. split; [reflexivity|]. split; auto. split.
    + eapply repd_ext; [eassumption|]. intros d t _. cbn. rewrite andb_false_r. auto.
    + eapply repd_ext; [eassumption|]. intros d t _. cbn. rewrite andb_false_r. auto.
  - inversion HN as [|? ? N1 N2]; subst. cbn [foldM].
    set (i := length s - 1).
    destruct (repd_upd (n + 1) (b_cob b) E i (fun m => dappend m s c)
               (fun t => if ceqb t s then Some (match E i s with Some l => l | None => [] end ++ [c]) else E i t) HC) as (co & E1 & R1).
    { unfold i; lia. }
    { intros q Hq t. rewrite dget_dappend, !Hq. auto. }
    destruct (repd_upd (n + 1) (b_bnd b) D (i + 1) (fun m => dappend m c s)
               (fun t => if ceqb t c then Some (match D (i + 1) c with Some l => l | None => [] end ++ [s]) else D (i + 1) t) HB) as (bn & E2 & R2).
    { unfold i; lia. }
    { intros q Hq t. rewrite dget_dappend, !Hq. auto. }
    assert (ES : cob_step s b c = Ok (mkB (b_tables b) bn co)).
    { unfold cob_step. rewrite (HL c (or_introl eq_refl)), Nat.eqb_refl. cbn [assert_ bind]. fold i.
      rewrite E1. cbn [bind]. rewrite E2. reflexivity. }
    rewrite ES. cbn [bind].
    destruct (IH (mkB (b_tables b) bn co) _ _ N2 (fun x Hx => HL x (or_intror Hx)) R2 R1) as (b' & R3 & R4 & R5 & R6).
    exists b'. split; auto. split; [auto|]. split.
    + eapply repd_ext; [apply R5|]. intros d t Hd. cbv beta.
      assert (Ei : i + 1 = length s) by (unfold i; lia). rewrite Ei.
      destruct (Nat.eqb_spec d (length s)) as [->|Hne]; cbn [andb]; auto.
      cbn [mem existsb]. change (existsb (ceqb t) cs) with (mem t cs).
      destruct (ceqb_spec t c) as [->|Hnc]; cbn [orb]; auto.
      destruct (mem c cs) eqn:Em; auto. apply mem_In in Em. tauto.
    + eapply repd_ext; [apply R6|]. intros d t Hd. cbv beta. cbn [length Nat.eqb negb]. rewrite andb_true_r.
      destruct (Nat.eqb_spec (d + 1) (length s)) as [Ed|Hne]; cbn [andb].
      * assert (Edi : d = i) by (unfold i; lia). rewrite Edi, Nat.eqb_refl.
        destruct (ceqb_spec t s) as [->|Hnt]; cbn [andb]; auto.
        destruct cs as [|c' cs]; cbn [length Nat.eqb negb]; auto. rewrite <- app_assoc. auto.
      * destruct (Nat.eqb_spec d i); [unfold i in *; lia|auto].
Qed.

Lemma nonempty_app_r {A} (l : list A) a : nonempty (l ++ [a]) = Some (l ++ [a]).
Proof. destruct l; auto. Qed.
Lemma nonempty_default {A} (l : list A) : match nonempty l with Some l => l | None => [] end = l.
Proof. destruct l; auto. Qed.
Lemma mem_app s l l' : mem s (l ++ l') = mem s l || mem s l'.
Proof. apply existsb_app. Qed.

Lemma extract_loop maps : 0 < n -> (forall d, d < n -> get maps d = Ok (index_map (level d))) ->
  forall Q P b, P ++ Q = S -> bstate P b ->
  exists b', foldM (extract_step st maps) b Q = Ok b' /\ bstate S b'.
Proof.
  intros Hn Hm. induction Q as [|s Q IH]; intros P b HPQ (I1 & I2 & I3).
  - rewrite app_nil_r in HPQ. subst P. exists b. split; [reflexivity|]. repeat split; auto; apply I2 || apply I3.
  - cbn [foldM].
    assert (HsS : In s S) by (rewrite <- HPQ; apply in_app_iff; right; left; auto).
    assert (HnP : ~ In s P).
    { intros H. rewrite <- HPQ in S_nodup. apply NoDup_remove_2 in S_nodup. apply S_nodup. apply in_app_iff; auto. }
    pose proof (S_length s HsS) as Hl. destruct (S_sorted s HsS) as [Hso Hne].
    destruct (cof_ok s HsS) as [Hcn Hci].
    assert (S1 : exists t1, (if 0 <? length s - 1 then
         let* m := get maps (length s - 1 - 1) in
         let* ids := mapM (key_get m) (get_simplex_boundaries s) in
         let* t := upd (b_tables b) (length s - 1) (fun t => t ++ [ids]) in
         Ok (mkB t (b_bnd b) (b_cob b))
         else Ok b) = Ok (mkB t1 (b_bnd b) (b_cob b)) /\
       rep n t1 (fun d => if d =? 0 then [] else map (row_of []) (filter (fun s => length s =? d + 1) (P ++ [s])))).
    { destruct (Nat.ltb_spec 0 (length s - 1)) as [Hd|Hd].
      - rewrite Hm by lia. cbn [bind].
        assert (EM : mapM (key_get (index_map (level (length s - 1 - 1)))) (get_simplex_boundaries s) = Ok (row_of [] s)).
        { apply mapM_map. intros f Hf. apply key_get_pos; [apply level_nodup|]. unfold get_simplex_boundaries in Hf.
          apply combs_sorted in Hf as (L1 & L2 & L3); auto. apply level_In. split; [|lia].
          apply (S_down s); auto. destruct f; [simpl in L1; lia|discriminate]. }
        rewrite EM. cbn [bind].
        destruct (rep_upd n (b_tables b) _ (length s - 1) (fun t => t ++ [row_of [] s]) I1) as (t1 & E1 & R1); [lia|].
        rewrite E1. cbn [bind]. exists t1. split; auto. eapply rep_ext; [apply R1|]. intros d Hdn. cbv beta.
        rewrite filter_app. cbn [filter].
        destruct (Nat.eqb_spec d (length s - 1)) as [->|Hdne].
        + destruct (Nat.eqb_spec (length s - 1) 0); [lia|].
          destruct (Nat.eqb_spec (length s) (length s - 1 + 1)); [|lia]. rewrite map_app. auto.
        + destruct (Nat.eqb_spec d 0); auto. destruct (Nat.eqb_spec (length s) (d + 1)); [lia|]. rewrite app_nil_r. auto.
      - exists (b_tables b). split; [destruct b; auto|]. eapply rep_ext; [apply I1|]. intros d Hdn. cbv beta.
        rewrite filter_app. cbn [filter]. destruct (Nat.eqb_spec d 0); auto.
        destruct (Nat.eqb_spec (length s) (d + 1)); [lia|]. rewrite app_nil_r. auto. }
    destruct S1 as (t1 & E1 & R1).
    assert (Hc' : forall c, In c (cof s) -> length c = length s + 1) by (intros c Hc; apply Hci in Hc; lia).
    destruct (cob_loop s Hl (cof s) (mkB t1 (b_bnd b) (b_cob b)) _ _ Hcn Hc' I2 I3) as (b' & E2 & R2 & R3 & R4).
    assert (ES : extract_step st maps b s = Ok b').
    { unfold extract_step. rewrite E1. cbn [bind]. exact E2. }
    rewrite ES. cbn [bind]. apply (IH (P ++ [s])).
    { rewrite <- app_assoc. auto. }
    split; [|split].
    + rewrite R2. exact R1.
    + eapply repd_ext; [apply R3|]. intros d c Hd. cbv beta. unfold bnd_of at 3. rewrite filter_app. cbn [filter].
      fold (bnd_of P d c). destruct (Nat.eqb_spec d (length s)) as [->|Hdne].
      * destruct (Nat.ltb_spec 0 (length s)); [|lia]. rewrite Nat.eqb_refl. cbn [andb].
        destruct (mem c (cof s)); cbn [andb]; [|rewrite app_nil_r; auto].
        rewrite nonempty_default, nonempty_app_r. auto.
      * cbn [andb]. destruct (Nat.eqb_spec (length s) d); [congruence|]. cbn [andb]. rewrite app_nil_r. auto.
    + eapply repd_ext; [apply R4|]. intros d t Hd. cbv beta. rewrite mem_app. cbn [mem existsb]. rewrite orb_false_r.
      change (existsb (ceqb t) P) with (mem t P).
      destruct (ceqb_spec t s) as [->|Hnt].
      * assert (Em : mem s P = false).
        { destruct (mem s P) eqn:Em; auto. apply mem_In in Em. tauto. }
        rewrite Em, orb_true_r, !andb_true_r, andb_false_r. rewrite (Nat.eqb_sym (length s)).
        destruct (d + 1 =? length s); cbn [andb]; auto. destruct (cof s); cbn; auto.
      * rewrite orb_false_r, andb_false_r. cbn [andb]. auto.
Qed.

Lemma extract_ok maps : 0 < n -> (forall d, d < n -> get maps d = Ok (index_map (level d))) ->
  exists b, extract_boundaries st maps n = Ok b /\ bstate S b.
Proof.
  intros Hn Hm. unfold extract_boundaries. apply (extract_loop maps Hn Hm S []); auto.
  repeat split; cbn [b_tables b_bnd b_cob].
  - eapply rep_ext; [apply rep_repeat|]. intros d _. destruct (d =? 0); auto.
  - apply repeat_length.
  - intros d Hd. destruct (@repd_repeat (list cell) (n + 1)) as [_ H]. destruct (H d Hd) as (q & Hq & Hc).
    exists q. split; auto. intros c. rewrite Hc. destruct (0 <? d); auto.
  - apply repeat_length.
  - intros d Hd. destruct (@repd_repeat (list cell) (n + 1)) as [_ H]. destruct (H d Hd) as (q & Hq & Hc).
    exists q. split; auto. intros c. rewrite Hc. rewrite andb_false_r. auto.
Qed.

(** *** The facts needed about faces *)
Definition Bs (d : nat) (c : cell) : list cell := bnd_of S d c.
Definition Cs (d : nat) (s : cell) : list cell := cof s.
Definition Os (d : nat) (s : cell) : list cell := combs d s.

Lemma Os_spec d s : 0 < d -> In s (level d) ->
  NoDup (Os d s) /\ forall f, In f (Os d s) <-> In f (level (d - 1)) /\ incl f s.
Proof.
  intros Hd Hs. apply level_In in Hs as [HS Hl]. destruct (S_sorted s HS) as [Hso Hne]. unfold Os. split.
  - apply combs_NoDup. apply sorted_NoDup; auto.
  - intros f. rewrite combs_sorted by auto. rewrite level_In. split.
    + intros (L1 & L2 & L3). split; auto. split; [|lia]. apply (S_down s); auto. destruct f; [simpl in L1; lia|discriminate].
    + intros [[H1 H2] H3]. split; [lia|]. split; auto. apply S_sorted; auto.
Qed.
Lemma Bs_spec d c : 0 < d -> In c (level d) ->
  NoDup (Bs d c) /\ 2 <= length (Bs d c) /\ forall f, In f (Bs d c) <-> In f (level (d - 1)) /\ incl f c.
Proof.
  intros Hd Hc. pose proof (Os_spec d c Hd Hc) as [O1 O2].
  assert (HB : forall f, In f (Bs d c) <-> In f (level (d - 1)) /\ incl f c).
  { apply level_In in Hc as [HS Hl]. intros f. unfold Bs, bnd_of. rewrite filter_In, level_In, andb_true_iff, Nat.eqb_eq, mem_In. split.
    - intros (H1 & H2 & H3). apply cof_ok in H3; auto. destruct H3 as (_ & _ & H3). repeat split; auto. lia.
    - intros ((H1 & H2) & H3). repeat split; auto; [lia|]. apply cof_ok; auto. repeat split; auto. lia. }
  assert (HN : NoDup (Bs d c)) by (apply NoDup_filter; auto).
  split; auto. split; auto.
  assert (P : Permutation (Os d c) (Bs d c)).
  { apply NoDup_Permutation; auto. intros f. rewrite O2, HB. tauto. }
  apply Permutation_length in P. rewrite <- P. apply level_In in Hc as [HS Hl]. unfold Os.
  replace d with (length c - 1) by lia. rewrite combs_length; [lia|]. apply S_sorted; auto.
Qed.
Lemma Cs_spec d s : In s (level d) -> NoDup (Cs d s) /\ forall c, In c (Cs d s) <-> In c (level (d + 1)) /\ incl s c.
Proof.
  intros Hs. apply level_In in Hs as [HS Hl]. destruct (cof_ok s HS) as [N I]. split; auto.
  intros c. unfold Cs. rewrite I, level_In. split.
  - intros (H1 & H2 & H3). repeat split; auto. lia.
  - intros ((H1 & H2) & H3). repeat split; auto. lia.
Qed.

Lemma bstate_facts b : bstate S b ->
  (forall d s, 0 < d < n -> In s (level d) ->
     exists bm, nth_error (b_bnd b) d = Some bm /\ dget bm s = Some (Bs d s)) /\
  (forall d s, d + 1 < n -> In s (level d) ->
     exists cm, nth_error (b_cob b) d = Some cm /\ match dget cm s with Some l => l = Cs d s | None => Cs d s = [] end) /\
  rep n (b_tables b) (fun d => if d =? 0 then [] else map (fun s => map (pos (level (d - 1))) (Os d s)) (level d)).
Proof.
  intros (I1 & [L2 I2] & [L3 I3]). split; [|split].
  - intros d s Hd Hs. destruct (I2 d) as (q & Hq & Hc); [lia|]. exists q. split; auto. rewrite Hc.
    destruct (Nat.ltb_spec 0 d); [|lia]. fold (Bs d s).
    destruct (Bs_spec d s) as (_ & H2 & _); auto. destruct (Bs d s); [simpl in H2; lia|]. reflexivity.
  - intros d s Hd Hs. destruct (I3 d) as (q & Hq & Hc); [lia|]. exists q. split; auto. rewrite Hc.
    apply level_In in Hs as [H1 H2]. rewrite H2, Nat.eqb_refl. apply mem_In in H1. rewrite H1. cbn [andb].
    unfold Cs. destruct (cof s); reflexivity.
  - eapply rep_ext; [apply I1|]. intros d Hd. cbv beta. unfold level at 2. destruct (Nat.eqb_spec d 0); auto.
    apply map_ext_in. intros s Hs. apply filter_In in Hs as [_ E]. apply Nat.eqb_eq in E. unfold row_of, Os.
    rewrite E, Nat.add_sub. auto.
Qed.
End Simplicial.

(** ** Features *)
Section Features.
Context {V : Type} (o : ops V).

Lemma messages_app i (idx idx' : list nat) (src src' : list V) : length idx = length src ->
  messages_to i (idx ++ idx') (src ++ src') = messages_to i idx src ++ messages_to i idx' src'.
Proof. intros H. unfold messages_to. rewrite combine_app', filter_app, map_app by auto. auto. Qed.
Lemma messages_repeat i j (src : list V) :
  messages_to i (repeat j (length src)) src = if j =? i then src else [].
Proof.
  unfold messages_to. induction src as [|a src IH]; simpl; [destruct (j =? i); auto|].
  destruct (Nat.eqb_spec j i); simpl; rewrite IH; auto.
Qed.
Lemma owners_messages (g : nat -> V) cells : forall b i,
  messages_to i (concat (mapi_from (fun c (cell : list nat) => repeat c (length cell)) b cells)) (map g (concat cells)) =
  if i <? b then [] else map g (nth (i - b) cells []).
Proof.
  induction cells as [|s cells IH]; intros b i; cbn [mapi_from concat].
  - unfold messages_to. simpl. destruct (i <? b), (i - b); auto.
  - rewrite map_app, messages_app by (rewrite repeat_length, map_length; auto).
    rewrite IH. replace (length s) with (length (map g s)) by apply map_length. rewrite messages_repeat.
    destruct (Nat.eqb_spec b i) as [->|Hne].
    + destruct (Nat.ltb_spec i i); [lia|]. destruct (Nat.ltb_spec i (Datatypes.S i)); [|lia]. rewrite Nat.sub_diag, app_nil_r. auto.
    + destruct (Nat.ltb_spec i b); destruct (Nat.ltb_spec i (Datatypes.S b)); try lia; auto.
      replace (i - b) with (Datatypes.S (i - Datatypes.S b)) by lia. auto.
Qed.
Lemma owners_length (cells : list (list nat)) : forall b,
  length (concat (mapi_from (fun c (cell : list nat) => repeat c (length cell)) b cells)) = length (concat cells).
Proof. induction cells as [|s cells IH]; intros b; simpl; auto. rewrite !app_length, repeat_length, IH. auto. Qed.
Lemma owners_range (cells : list (list nat)) : forall b,
  Forall (fun i => i < b + length cells) (concat (mapi_from (fun c (cell : list nat) => repeat c (length cell)) b cells)).
Proof.
  induction cells as [|s cells IH]; intros b; simpl; auto. apply Forall_app. split.
  - apply Forall_forall. intros i Hi. apply repeat_spec in Hi. lia.
  - eapply Forall_impl; [|apply IH]. intros i; simpl; lia.
Qed.

Lemma level_features_ok r (vx : list V) cells : (forall s v, In s cells -> In v s -> v < length vx) ->
  level_features o r vx cells = Ok (map (cell_row o r vx) cells).
Proof.
  intros H. unfold level_features.
  assert (E : index_select vx (concat cells) = Ok (map (fun v => nth v vx (vzero o)) (concat cells))).
  { unfold index_select. apply mapM_map. intros v Hv. apply in_concat in Hv as (s & Hs & Hv).
    apply get_ok. apply nth_error_nth'. eauto. }
  rewrite E. cbn [bind]. unfold mapi. rewrite scatter_correct.
  - f_equal. transitivity (map (fun i => cell_row o r vx (nth i cells [])) (seq 0 (length cells))).
    { apply map_ext. intros i. unfold cell_row. f_equal. rewrite owners_messages. simpl. rewrite Nat.sub_0_r. auto. }
    rewrite <- (map_map (fun i => nth i cells []) (cell_row o r vx)). f_equal.
    clear. induction cells as [|s cells IH]; simpl; auto. f_equal. rewrite <- seq_shift, map_map. auto.
  - apply (owners_range cells 0).
  - rewrite owners_length, map_length. auto.
Qed.

Lemma construct_features_ok r (vx : list V) n (T : nat -> list (list nat)) tables : 0 < n -> rep n tables T ->
  (forall d s v, d < n -> In s (T d) -> In v s -> v < length vx) ->
  construct_features o r vx tables = Ok (map (fun d => if d =? 0 then vx else map (cell_row o r vx) (T d)) (seq 0 n)).
Proof.
  intros Hn Ht HR. unfold construct_features. rewrite Ht. destruct n as [|n]; [lia|]. cbn [seq map tl].
  assert (E : mapM (level_features o r vx) (map T (seq 1 n)) = Ok (map (fun s => map (cell_row o r vx) s) (map T (seq 1 n)))).
  { apply mapM_map. intros t Hin. apply in_map_iff in Hin as (d & <- & Hd). apply in_seq in Hd.
    apply level_features_ok. intros s v Hs Hv. apply (HR d s v); auto. lia. }
  rewrite E. cbn [bind Nat.eqb]. rewrite map_map. do 2 f_equal. apply map_ext_in. intros d Hd. apply in_seq in Hd.
  destruct (Nat.eqb_spec d 0); [lia|auto].
Qed.
End Features.
