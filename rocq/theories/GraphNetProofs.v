(** The tensor model of the graph networks computes the node-wise specification, and batches of
    graphs are computed graph by graph. *)
From Coq Require Import List Arith Lia ZArith Bool Permutation.
From Verif Require Import Base ScatterModel ScatterSpec ScatterProofs ComplexModel BatchSpec BatchSpec2
  BatchProofs BatchProofs2 MPModel MPSpec MPProofs LiftSpec GraphNetModel GraphNetSpec.
Import ListNotations.

Section Proofs.
Context {V : Type} (o : ops V).

Lemma last_map' {A B} (f : A -> B) l d : last (map f l) (f d) = f (last l d).
Proof. induction l as [|a l IH]; auto. destruct l; auto. Qed.

Lemma gin_conv_spec l es (X : nat -> V) n : graph_ok es n ->
  gin_conv o l es (map X (seq 0 n)) = Ok (map (gin_step o l es X) (seq 0 n)).
Proof.
  intros Hg. unfold gin_conv. rewrite map_length, seq_length.
  replace es with (map (fun e : nat * nat => (fst e, snd e)) es) at 1.
  2:{ rewrite <- (map_id es) at 2. apply map_ext. intros []; auto. }
  pose proof (maa_spec o (MsgFst (fun v : V => v)) RAdd fst snd es X n n None) as E. cbn [option_map] in E.
  rewrite E; clear E; [|discriminate|].
  2:{ intros [u v] He. apply Hg in He. simpl. auto. }
  cbn [bind msg_fun]. unfold addt. rewrite !map_map, zipw_map, !map_map. reflexivity.
Qed.

Lemma gin_convs_spec ls es X n : graph_ok es n ->
  gin_convs o ls es (map X (seq 0 n)) = Ok (map (fun Y => map Y (seq 0 n)) (gin_history o ls es X)).
Proof.
  intros Hg. revert X. induction ls as [|l ls IH]; intros X; cbn [gin_convs gin_history map]; auto.
  rewrite gin_conv_spec by auto. cbn [bind]. rewrite IH. reflexivity.
Qed.

(** ** Disjoint unions *)
(** On a union of two graphs every layer computes the parts separately. *)
Lemma into_shift n es i : into (shift_edges n es) (n + i) = shift_edges n (into es i).
Proof.
  unfold into, shift_edges. induction es as [|[u v] es IH]; simpl; auto.
  destruct (Nat.eqb_spec (v + n) (n + i)), (Nat.eqb_spec v i); try lia; simpl; rewrite IH; auto.
Qed.
Lemma into_shift_none n es i : i < n -> into (shift_edges n es) i = [].
Proof.
  intros Hi. unfold into, shift_edges. induction es as [|[u v] es IH]; simpl; auto.
  destruct (Nat.eqb_spec (v + n) i); [lia|auto].
Qed.
Lemma into_out n es i : graph_ok es n -> n <= i -> into es i = [].
Proof.
  intros Hg Hi. unfold into. apply filter_none. intros [u v] He. apply Hg in He. simpl. apply Nat.eqb_neq. lia.
Qed.

Lemma union_step l e1 e2 n X X1 X2 : graph_ok e1 n ->
  (forall i, i < n -> X i = X1 i) -> (forall i, X (n + i) = X2 i) ->
  (forall i, i < n -> gin_step o l (e1 ++ shift_edges n e2) X i = gin_step o l e1 X1 i) /\
  (forall i, gin_step o l (e1 ++ shift_edges n e2) X (n + i) = gin_step o l e2 X2 i).
Proof.
  intros Hg H1 H2. unfold gin_step. split; intros i.
  - intros Hi. rewrite H1 by auto. do 4 f_equal. unfold into. rewrite filter_app. fold (into e1 i).
    change (filter (fun e => snd e =? i) (shift_edges n e2)) with (into (shift_edges n e2) i).
    rewrite into_shift_none by auto. rewrite app_nil_r. apply map_ext_in. intros [u v] He.
    apply filter_In in He as [He _]. apply Hg in He. simpl. apply H1. tauto.
  - rewrite H2. do 4 f_equal. unfold into at 1. rewrite filter_app.
    change (filter (fun e => snd e =? n + i) e1) with (into e1 (n + i)).
    change (filter (fun e => snd e =? n + i) (shift_edges n e2)) with (into (shift_edges n e2) (n + i)).
    rewrite (into_out n) by (auto; lia). rewrite into_shift. simpl. unfold shift_edges. rewrite map_map.
    apply map_ext. intros [u v]. simpl. rewrite Nat.add_comm. apply H2.
Qed.

Lemma union_history ls e1 e2 n : graph_ok e1 n -> forall X X1 X2,
  (forall i, i < n -> X i = X1 i) -> (forall i, X (n + i) = X2 i) ->
  let h := gin_history o ls (e1 ++ shift_edges n e2) X in
  (forall i, i < n -> map (fun Y => Y i) h = map (fun Y => Y i) (gin_history o ls e1 X1)) /\
  (forall i, map (fun Y => Y (n + i)) h = map (fun Y => Y i) (gin_history o ls e2 X2)).
Proof.
  intros Hg. induction ls as [|l ls IH]; intros X X1 X2 H1 H2; cbn [gin_history map]; auto.
  destruct (union_step l e1 e2 n X X1 X2 Hg H1 H2) as [S1 S2].
  destruct (IH _ _ _ S1 S2) as [T1 T2]. cbv zeta in *. split; intros; f_equal; auto.
Qed.

(** A node-wise function of the history. *)
Definition readf (jump : option (list V -> V)) (h : list (nat -> V)) (X : nat -> V) : nat -> V :=
  fun i => match jump with None => last (map (fun Y => Y i) h) (X i) | Some j => j (map (fun Y => Y i) h) end.

Lemma union_read jump ls e1 e2 n X X1 X2 : graph_ok e1 n ->
  (forall i, i < n -> X i = X1 i) -> (forall i, X (n + i) = X2 i) ->
  let F := readf jump (gin_history o ls (e1 ++ shift_edges n e2) X) X in
  (forall i, i < n -> F i = readf jump (gin_history o ls e1 X1) X1 i) /\
  (forall i, F (n + i) = readf jump (gin_history o ls e2 X2) X2 i).
Proof.
  intros Hg H1 H2. destruct (union_history ls e1 e2 n Hg X X1 X2 H1 H2) as [T1 T2]. cbv zeta in *.
  unfold readf. split; intros i; [intros Hi; rewrite T1, H1 by auto|rewrite T2, H2]; reflexivity.
Qed.

(** ** Batches *)
Lemma batch_edges_shift n m gs : batch_edges (n + m) gs = shift_edges n (batch_edges (V := V) m gs).
Proof.
  revert m. induction gs as [|g gs IH]; intros m; cbn [batch_edges]; auto.
  unfold shift_edges at 2. rewrite map_app. rewrite <- Nat.add_assoc, IH. f_equal.
  unfold shift_edges. rewrite map_map. apply map_ext. intros []; simpl. f_equal; lia.
Qed.

Lemma batch_edges_cons g gs :
  batch_edges 0 (g :: gs) = g_edges g ++ shift_edges (length (g_x g)) (batch_edges (V := V) 0 gs).
Proof.
  cbn [batch_edges]. rewrite Nat.add_0_l, <- batch_edges_shift, Nat.add_0_r. f_equal.
  unfold shift_edges. rewrite <- (map_id (g_edges g)) at 2. apply map_ext. intros []; simpl. f_equal; lia.
Qed.

Lemma batch_ok gs : Forall pgraph_ok gs -> graph_ok (batch_edges 0 gs) (length (concat (map (g_x (V := V)) gs))).
Proof.
  induction 1 as [|g gs Hg HF IH].
  - intros u v [].
  - rewrite batch_edges_cons. cbn [map concat]. rewrite app_length. intros u v Huv. apply in_app_iff in Huv as [H|H].
    + apply Hg in H. lia.
    + apply in_map_iff in H as ([a b] & E & H). inversion E; subst. apply IH in H. simpl. lia.
Qed.

(** The rows computed for the nodes of a batch are those of the graphs one after the other. *)
Lemma batch_rows jump ls (f : V -> V) gs : Forall pgraph_ok gs ->
  let X := fun i => f (nth i (concat (map g_x gs)) (vzero o)) in
  map (readf jump (gin_history o ls (batch_edges 0 gs) X) X) (seq 0 (length (concat (map g_x gs)))) =
  concat (map (fun g => let X := fun i => f (node_feats o g i) in
     map (readf jump (gin_history o ls (g_edges g) X) X) (seq 0 (length (g_x g)))) gs).
Proof.
  induction 1 as [|g gs Hg HF IH]; [reflexivity|]. cbv zeta in *. cbn [map concat]. rewrite batch_edges_cons.
  rewrite app_length, seq_app, map_app. cbn [Nat.add].
  set (X := fun i => f (nth i (g_x g ++ concat (map g_x gs)) (vzero o))).
  set (X1 := fun i => f (node_feats o g i)).
  set (X2 := fun i => f (nth i (concat (map g_x gs)) (vzero o))) in *.
  destruct (union_read jump ls (g_edges g) (batch_edges 0 gs) (length (g_x g)) X X1 X2) as [E1 E2]; auto.
  { intros i Hi. unfold X, X1, node_feats. rewrite app_nth1 by auto. auto. }
  { intros i. unfold X, X2. rewrite app_nth2 by lia. do 2 f_equal. lia. }
  cbv zeta in *. f_equal.
  - apply map_ext_in. intros i Hi. apply in_seq in Hi. apply E1. lia.
  - rewrite <- IH. clear -E2. set (n := length (g_x g)) in *.
    set (c := length (concat (map g_x gs))). clearbody c.
    replace (seq n c) with (map (fun i => n + i) (seq 0 c)).
    + rewrite map_map. apply map_ext. auto.
    + clearbody n. clear. revert n. induction c as [|c IH]; intros n; auto. cbn [seq map]. f_equal; [lia|].
      rewrite <- (IH (S n)), <- seq_shift, map_map. apply map_ext. intros. lia.
Qed.

(** ** Masks *)
Lemma mask_select_map {A} mask (x : list A) (d : A) : length mask = length x ->
  mask_select mask x = Ok (map (fun i => nth i x d) (marked mask)).
Proof.
  intros Hl. unfold mask_select. rewrite Hl, Nat.eqb_refl. f_equal. unfold marked.
  revert x Hl. induction mask as [|b mask IH]; intros [|a x] Hl; cbn [length] in Hl; try lia; auto.
  cbn [combine length seq fst]. rewrite <- seq_shift.
  assert (E : filter (fun i => nth i (b :: mask) false) (map S (seq 0 (length mask))) =
              map S (filter (fun i => nth i mask false) (seq 0 (length mask)))).
  { clear. generalize (seq 0 (length mask)) as l. induction l as [|i l IHl]; auto. 
    cbn [map filter]. change (nth (S i) (b :: mask) false) with (nth i mask false).
    destruct (nth i mask false); cbn [map]; rewrite IHl; auto. }
  cbn [filter fst]. rewrite E. change (nth 0 (b :: mask) false) with b. destruct b; cbn [map snd]; [f_equal|]; rewrite IH by lia; rewrite map_map; reflexivity.
Qed.

Lemma mask_select_app {A} m1 m2 (x1 x2 : list A) y1 y2 :
  mask_select m1 x1 = Ok y1 -> mask_select m2 x2 = Ok y2 -> mask_select (m1 ++ m2) (x1 ++ x2) = Ok (y1 ++ y2).
Proof.
  unfold mask_select. destruct (Nat.eqb_spec (length m1) (length x1)) as [E1|]; [|discriminate].
  destruct (Nat.eqb_spec (length m2) (length x2)) as [E2|]; [|discriminate].
  intros H1 H2. inversion H1; inversion H2; subst. rewrite !app_length, E1, E2, Nat.eqb_refl. f_equal.
  clear -E1. revert x1 E1. induction m1 as [|b m1 IH]; intros [|a x1] E; cbn [length] in E; try lia; auto.
  cbn [app combine filter fst]. destruct b; cbn [map app]; [f_equal|]; apply IH; lia.
Qed.

Lemma mask_select_concat {A} (l : list (list bool * (list A * list A))) :
  Forall (fun q => mask_select (fst q) (fst (snd q)) = Ok (snd (snd q))) l ->
  mask_select (concat (map fst l)) (concat (map (fun q => fst (snd q)) l)) = Ok (concat (map (fun q => snd (snd q)) l)).
Proof.
  induction 1 as [|q l Hq HF IH]; [reflexivity|]. cbn [map concat]. apply mask_select_app; auto.
Qed.

Lemma batch_mask_ok gs : gs <> [] -> Forall mask_ok gs ->
  batch_mask gs = Ok (Some (concat (map (fun g => content (g_mask (V := V) g)) gs))).
Proof.
  intros Hne HF. destruct gs as [|g gs]; [congruence|].
  assert (E : mapM (fun h => of_option KeyError (g_mask h)) (g :: gs) = Ok (map (fun g => content (g_mask g)) (g :: gs))).
  { clear Hne. induction HF as [|h l (m & Hm & _) HF IH]; [reflexivity|]. cbn [mapM map]. rewrite Hm. cbn [of_option bind content].
    rewrite IH. reflexivity. }
  unfold batch_mask. inversion HF as [|? ? (m & Hm & _) HF']; subst. rewrite Hm, E. reflexivity.
Qed.

Lemma rows_nth (F : nat -> V) n i : i < n -> nth i (map F (seq 0 n)) (vzero o) = F i.
Proof.
  intros H. apply nth_error_nth with (d := vzero o). rewrite nth_error_map_seq. destruct (Nat.ltb_spec i n); [auto|lia].
Qed.

Lemma last_rows ls es (X : nat -> V) n : ls <> [] ->
  last (map (fun Y => map Y (seq 0 n)) (gin_history o ls es X)) [] =
  map (readf None (gin_history o ls es X) X) (seq 0 n).
Proof.
  intros Hne. unfold readf.
  assert (Hh : gin_history o ls es X <> []) by (destruct ls; [congruence|discriminate]).
  revert Hh. generalize (gin_history o ls es X) as h. intros h Hh.
  assert (E : forall (h : list (nat -> V)) d, h <> [] -> last (map (fun Y => map Y (seq 0 n)) h) [] = map (last h d) (seq 0 n)).
  { clear. induction h as [|Y h IH]; intros d Hne; [congruence|]. destruct h as [|Z h]; auto.
    change (last (map (fun Y0 => map Y0 (seq 0 n)) (Z :: h)) [] = map (last (Z :: h) d) (seq 0 n)). apply IH. discriminate. }
  rewrite (E h X Hh). apply map_ext. intros i. rewrite (last_map' (fun Y => Y i)). reflexivity.
Qed.

Lemma jump_rows_spec j ls es (X : nat -> V) n : ls <> [] ->
  jump_rows o j (map (fun Y => map Y (seq 0 n)) (gin_history o ls es X)) =
  map (readf (Some j) (gin_history o ls es X) X) (seq 0 n).
Proof.
  intros Hne. unfold jump_rows.
  assert (Hh : gin_history o ls es X <> []) by (destruct ls; [congruence|discriminate]).
  destruct (gin_history o ls es X) as [|Y h] eqn:E; [congruence|]. cbn [map hd]. rewrite map_length, seq_length.
  apply map_ext_in. intros i Hi. apply in_seq in Hi. unfold readf. cbn [map]. f_equal. rewrite rows_nth by lia. f_equal.
  rewrite map_map. apply map_ext. intros Z. apply rows_nth. lia.
Qed.

Lemma readf_None h (X : nat -> V) i : readf None h X i = last h X i.
Proof. unfold readf. apply (last_map' (fun Y => Y i)). Qed.

(** RingGIN on a batch. *)
Lemma ring_gin_batch (m : ring_gin V) gs : gs <> [] -> Forall pgraph_ok gs -> Forall mask_ok gs ->
  exists b, batch_graphs gs = Ok b /\ ring_gin_forward o m b = Ok (concat (map (ring_gin_answers o m) gs)).
Proof.
  intros Hne HG HM. unfold batch_graphs. rewrite batch_mask_ok by auto. cbn [bind]. eexists. split; [reflexivity|].
  unfold ring_gin_forward. cbn [gb_graph g_edges g_x g_mask].
  set (ls := rg_first m :: rg_rest m). set (x := concat (map g_x gs)).
  assert (E : map (rg_init m) x = map (fun i => rg_init m (nth i x (vzero o))) (seq 0 (length x))).
  { rewrite <- (map_nth_seq x (vzero o)) at 1. apply map_map. }
  rewrite E, gin_convs_spec by (apply batch_ok; auto). cbn [bind of_option].
  rewrite last_rows by discriminate. unfold x. rewrite (batch_rows None ls (rg_init m) gs HG).
  set (rows := fun g => map (readf None (gin_history o ls (g_edges g) (fun i => rg_init m (node_feats o g i)))
        (fun i => rg_init m (node_feats o g i))) (seq 0 (length (g_x g)))).
  set (ans := fun g => map (fun i => nth i (rows g) (vzero o)) (marked (content (g_mask g)))).
  pose proof (mask_select_concat (map (fun g => (content (g_mask g), (rows g, ans g))) gs)) as MS.
  rewrite !map_map in MS. cbn [fst snd] in MS. cbv zeta.
  match goal with |- context [mask_select ?a ?b] => change (mask_select a b) with
    (mask_select (concat (map (fun x => content (g_mask x)) gs)) (concat (map (fun x => rows x) gs))) end.
  rewrite MS; clear MS.
  2:{ apply Forall_map. rewrite Forall_forall in *. intros g Hg. cbn [fst snd].
      destruct (HM g Hg) as (k & Hk & Hl). apply mask_select_map. rewrite Hk. cbn [content].
      unfold rows. rewrite map_length, seq_length. auto. }
  cbn [bind]. f_equal. rewrite concat_map, map_map. f_equal. apply map_ext_in. intros g Hg.
  unfold ans, ring_gin_answers. rewrite map_map. apply map_ext_in. intros i Hi. f_equal.
  rewrite Forall_forall in HM. destruct (HM g Hg) as (k & Hk & Hl). rewrite Hk in Hi. cbn [content] in Hi.
  apply filter_In in Hi as [Hi _]. apply in_seq in Hi. unfold rows. rewrite rows_nth by lia. apply readf_None.
Qed.

(** *** Pooling *)
Lemma batch_vector_len i gs : length (batch_vector i gs) = length (concat (map (g_x (V := V)) gs)).
Proof.
  revert i. induction gs as [|g gs IH]; intros i; auto. cbn [batch_vector map concat]. rewrite !app_length, repeat_length, IH. auto.
Qed.
Lemma batch_vector_in i gs j : In j (batch_vector (V := V) i gs) -> i <= j < i + length gs.
Proof.
  revert i. induction gs as [|g gs IH]; intros i; [intros []|]. cbn [batch_vector length]. rewrite in_app_iff.
  intros [H|H]; [apply repeat_spec in H; lia|apply IH in H; lia].
Qed.
Lemma batch_vector_last i gs : gs <> [] -> Forall (fun g => g_x g <> []) gs -> In (i + length gs - 1) (batch_vector (V := V) i gs).
Proof.
  intros Hne HF. revert i Hne. induction HF as [|g gs Hg HF IH]; intros i Hne; [congruence|]. cbn [batch_vector length].
  apply in_app_iff. destruct gs as [|h gs].
  - left. change (length (@nil (graph V))) with 0. replace (i + 1 - 1) with i by lia. destruct (g_x g); [congruence|]. left; auto.
  - right. replace (i + S (length (h :: gs)) - 1) with (S i + length (h :: gs) - 1) by lia. apply IH. discriminate.
Qed.
Lemma batch_vector_max gs : gs <> [] -> Forall (fun g => g_x g <> []) gs ->
  list_max_err (batch_vector (V := V) 0 gs) = Ok (length gs - 1).
Proof.
  intros Hne HF. pose proof (batch_vector_last 0 gs Hne HF) as Hin. unfold list_max_err.
  destruct (batch_vector 0 gs) as [|a l] eqn:E; [destruct Hin|]. f_equal. apply Nat.le_antisymm.
  - apply list_max_le. apply Forall_forall. intros j Hj. rewrite <- E in Hj. apply batch_vector_in in Hj. lia.
  - apply list_max_in_le in Hin. simpl in *. lia.
Qed.

Lemma batch_pool i gs (rows : graph V -> list V) j : (forall g, In g gs -> length (rows g) = length (g_x g)) ->
  messages_to j (batch_vector i gs) (concat (map rows gs)) =
  if (i <=? j) then match nth_error gs (j - i) with Some g => rows g | None => [] end else [].
Proof.
  intros Hl. revert i. induction gs as [|g gs IH]; intros i.
  - cbn. destruct (i <=? j); auto. destruct (j - i); auto.
  - cbn [batch_vector map concat]. unfold messages_to.
    assert (Hg : length (repeat i (length (g_x g))) = length (rows g)) by (rewrite repeat_length, Hl; [auto|left; auto]).
    assert (C : forall (a1 : list nat) (b1 : list V) a2 b2, length a1 = length b1 ->
      combine (a1 ++ a2) (b1 ++ b2) = combine a1 b1 ++ combine a2 b2).
    { clear. induction a1 as [|x a1 IH]; intros [|y b1] a2 b2 H; simpl in *; try lia; auto. f_equal. apply IH. lia. }
    rewrite C, filter_app, map_app by auto. fold (messages_to j (batch_vector (S i) gs) (concat (map rows gs))).
    rewrite IH by (intros; apply Hl; right; auto).
    assert (R : map snd (filter (fun p : nat * V => fst p =? j) (combine (repeat i (length (g_x g))) (rows g))) =
      if i =? j then rows g else []).
    { revert Hg. generalize (rows g). clear. generalize (length (g_x g)). intros n l.
      revert l; induction n as [|n IH]; intros [|v l] H; simpl in *; try lia; [destruct (i =? j); auto|].
      specialize (IH l ltac:(lia)). destruct (i =? j); simpl; rewrite IH; auto. }
    rewrite R. destruct (Nat.eqb_spec i j) as [->|N].
    + rewrite Nat.leb_refl, Nat.sub_diag. cbn [nth_error]. destruct (Nat.leb_spec (S j) j); [lia|]. apply app_nil_r.
    + cbn [app]. destruct (Nat.leb_spec i j), (Nat.leb_spec (S i) j); try lia; auto.
      replace (j - i) with (S (j - S i)) by lia. reflexivity.
Qed.

Lemma concat_len {A B C} (f : A -> list B) (g : A -> list C) l : (forall a, In a l -> length (f a) = length (g a)) ->
  length (concat (map f l)) = length (concat (map g l)).
Proof.
  induction l as [|a l IH]; intros H; auto. cbn [map concat]. rewrite !app_length, IH, (H a); auto; [left; auto|]. intros b Hb. apply H. right; auto.
Qed.

Lemma gin_batch (m : gin_net V) gs : gs <> [] -> Forall pgraph_ok gs -> Forall (fun g => g_x g <> []) gs ->
  Forall (fun g => g_mask g = None) gs \/ Forall mask_ok gs ->
  exists b, batch_graphs gs = Ok b /\ gin_forward o m b = Ok (map (gin_predict o m) gs).
Proof.
  intros Hne HG HX HM.
  assert (EM : exists mm, batch_mask gs = Ok mm).
  { destruct HM as [HM|HM]; [|rewrite batch_mask_ok by auto; eauto]. destruct gs as [|g gs]; [congruence|].
    inversion HM; subst. unfold batch_mask. rewrite H1. eauto. }
  destruct EM as [mm EM]. unfold batch_graphs. rewrite EM. cbn [bind]. eexists. split; [reflexivity|].
  unfold gin_forward. cbn [gb_graph gb_batch g_edges g_x].
  set (ls := gn_first m :: gn_rest m). set (x := concat (map g_x gs)).
  assert (E : x = map (fun i => nth i x (vzero o)) (seq 0 (length x))) by (symmetry; apply map_nth_seq).
  rewrite E at 1. rewrite gin_convs_spec by (apply batch_ok; auto). cbn [bind].
  set (X := fun i => nth i x (vzero o)).
  assert (EJ : match gn_jump m with
     | Some j => jump_rows o j (map (fun Y => map Y (seq 0 (length x))) (gin_history o ls (batch_edges 0 gs) X))
     | None => last (map (fun Y => map Y (seq 0 (length x))) (gin_history o ls (batch_edges 0 gs) X)) []
     end = map (readf (gn_jump m) (gin_history o ls (batch_edges 0 gs) X) X) (seq 0 (length x))).
  { destruct (gn_jump m); [apply jump_rows_spec|apply last_rows]; discriminate. }
  rewrite EJ. unfold X, x. rewrite (batch_rows (gn_jump m) ls (fun v => v) gs HG). cbv zeta.
  rewrite batch_vector_max by auto. cbn [bind].
  set (rows := fun g => map (readf (gn_jump m) (gin_history o ls (g_edges g) (fun i => node_feats o g i))
        (fun i => node_feats o g i)) (seq 0 (length (g_x g)))).
  rewrite scatter_correct.
  - cbn [bind]. f_equal. rewrite map_map. apply nth_error_ext. intros i. rewrite nth_error_map_seq, nth_error_map.
    assert (Hlen : S (length gs - 1) = length gs) by (destruct gs; [congruence|simpl; lia]). rewrite Hlen.
    destruct (Nat.ltb_spec i (length gs)) as [Hi|Hi].
    + destruct (nth_error gs i) as [g|] eqn:Eg; [|apply nth_error_None in Eg; lia]. cbn [option_map]. f_equal.
      unfold gin_predict. f_equal. f_equal.
      match goal with |- messages_to ?a ?b ?c = _ => change (messages_to a b c) with (messages_to a b (concat (map rows gs))) end.
      rewrite batch_pool.
      2:{ intros h _. unfold rows. rewrite map_length, seq_length. auto. }
      cbn [Nat.leb]. rewrite Nat.sub_0_r, Eg. apply map_ext. intros j. destruct (gn_jump m); [reflexivity|].
      apply readf_None.
    + apply nth_error_None in Hi as ->. reflexivity.
  - apply Forall_forall. intros i Hi. apply batch_vector_in in Hi. destruct gs; [congruence|simpl in *; lia].
  - rewrite batch_vector_len. apply concat_len. intros g _. unfold rows. rewrite map_length, seq_length. auto.
Qed.

(** ** Locality *)
Lemma last_cons' {A} (a : A) h d : last (a :: h) d = last h a.
Proof. revert a d. induction h as [|b h IH]; intros a d; auto. change (last (b :: h) d = last (b :: h) a). rewrite !IH. auto. Qed.

Lemma gin_last ls es Z : last (gin_history o ls es Z) Z = fold_left (fun F l => gin_step o l es F) ls Z.
Proof.
  revert Z. induction ls as [|l ls IH]; intros Z; [reflexivity|]. cbn [gin_history fold_left].
  rewrite last_cons'. apply IH.
Qed.

Lemma gin_local ls es : forall X Y i,
  (forall n k, n <= length ls -> walk es n i k -> X k = Y k) ->
  last (gin_history o ls es X) X i = last (gin_history o ls es Y) Y i.
Proof.
  intros X Y i H. rewrite !gin_last. revert X Y i H.
  induction ls as [|l ls IH]; intros X Y i H; cbn [fold_left].
  - apply (H 0); [auto|constructor].
  - apply IH. intros n k Hn Hw. unfold gin_step. rewrite (H n k) by (simpl; auto; lia). do 4 f_equal.
    apply map_ext_in. intros [u v] He. apply filter_In in He as [He Ev]. apply Nat.eqb_eq in Ev. simpl in Ev. subst v. simpl.
    apply (H (S n)); [simpl; lia|]. clear -Hw He. revert He. induction Hw as [i|n i j k' Hin Hw IHw]; intros He.
    + econstructor; [exact He|constructor].
    + econstructor; [exact Hin|]. apply IHw; auto.
Qed.

End Proofs.
