From Coq Require Import List Arith Lia ZArith Bool Permutation.
From Verif Require Import Base ScatterModel ScatterSpec ScatterProofs ComplexModel MPModel MPIso
  OrientModel OrientSpec.
Import ListNotations.

Lemma combine_length_l {A B} (l : list A) (l' : list B) : length l' = length l ->
  length (combine l l') = length l.
Proof. intros H. rewrite combine_length. lia. Qed.

Lemma combine_map_fst {A B C} (f : A -> C) (l : list A) (l' : list B) :
  combine (map f l) l' = map (fun e => (f (fst e), snd e)) (combine l l').
Proof. revert l'; induction l as [|a l IH]; intros [|b l']; simpl; f_equal; auto. Qed.

Lemma combine_same {A B C} (f : A -> B) (g : A -> C) (l : list A) :
  combine (map f l) (map g l) = map (fun a => (f a, g a)) l.
Proof. induction l; simpl; f_equal; auto. Qed.

Lemma combine_fst' {A B} (l : list A) (l' : list B) : length l' = length l ->
  map fst (combine l l') = l.
Proof. intros; apply combine_fst; auto. Qed.

Lemma combine_snd' {A B} (l : list A) (l' : list B) : length l' = length l ->
  map snd (combine l l') = l'.
Proof. revert l'; induction l as [|a l IH]; intros [|b l'] H; simpl in *; try discriminate; f_equal; auto. Qed.

Lemma filter_map_comm {A B} (f : A -> B) (P : B -> bool) l :
  filter P (map f l) = map f (filter (fun a => P (f a)) l).
Proof. induction l as [|a l IH]; simpl; auto. rewrite IH. destruct (P (f a)); auto. Qed.

Lemma sign_sq s : sign s -> (s * s)%Z = 1%Z.
Proof. intros [-> | ->]; reflexivity. Qed.

Section Proofs.
Context {V : Type} (o : ops V) (sc : Z -> V -> V) (vabs : V -> V).
Notation cochain := (cochain V).

Lemma aggregate_spec orient adj x sg : length sg = length adj ->
  (forall j i, In (j, i) adj -> j < length x /\ i < length x) ->
  oriented_aggregate o sc orient adj x sg =
    Ok (map (inflow o sc orient x adj sg) (seq 0 (length x))).
Proof.
  intros Hl Hr. unfold oriented_aggregate.
  rewrite (index_select_nth x (map fst adj) (vzero o)).
  2:{ apply Forall_forall. intros j Hj. apply in_map_iff in Hj as ([j' i] & <- & Hj). apply (Hr j' i); auto. }
  cbn [bind]. set (xj := map (fun i => nth i x (vzero o)) (map fst adj)).
  assert (E : (if orient then zipw sc sg xj else xj) =
    map (fun e => let v := nth (fst (fst e)) x (vzero o) in if orient then sc (snd e) v else v) (combine adj sg)).
  { unfold xj. clear Hr xj. revert sg Hl.
    induction adj as [|[j i] adj IH]; intros [|s sg] Hl; try discriminate Hl; [destruct orient; reflexivity|].
    simpl in Hl. specialize (IH sg (eq_add_S _ _ Hl)). cbn [combine map].
    rewrite <- IH. destruct orient; reflexivity. }
  rewrite E. rewrite scatter_correct.
  - f_equal. apply map_ext_in. intros i Hi. cbn [reduce_rows]. unfold inflow, messages_to.
    f_equal. rewrite <- (combine_fst' adj sg Hl) at 1. rewrite map_map, combine_same, filter_map_comm, map_map. reflexivity.
  - apply Forall_forall. intros i Hi. apply in_map_iff in Hi as ([j i'] & <- & Hi). apply (Hr j i'); auto.
  - rewrite !map_length, combine_length_l; auto.
Qed.

Lemma ends_lt (adj : list (nat * nat)) n :
  (forall j i, In (j, i) adj -> j < n /\ i < n) -> adj <> [] ->
  exists m, list_max_err (ends adj) = Ok m /\ m < n.
Proof.
  intros H Hne. destruct adj as [|[j i] adj]; [tauto|]. eexists. split; [reflexivity|].
  apply list_max_lt.
  - specialize (H j i (or_introl eq_refl)). lia.
  - intros k Hk. unfold ends in Hk. apply in_app_or in Hk as [Hk|Hk]; apply in_map_iff in Hk as ([a b] & <- & Hk); apply (H a b Hk).
Qed.

Lemma addt_maps {A} (f g : A -> V) (l : list A) :
  addt o (map f l) (map g l) = map (fun a => vadd o (f a) (g a)) l.
Proof. unfold addt, zipw. rewrite combine_same, map_map. reflexivity. Qed.

Lemma as_map_seq {A} (f : V -> A) (x : list V) :
  map f x = map (fun i => f (nth i x (vzero o))) (seq 0 (length x)).
Proof.
  apply nth_error_ext. intros i. rewrite nth_error_map_seq. destruct (Nat.ltb_spec i (length x)).
  - rewrite nth_error_map, (nth_error_nth' x (vzero o)) by auto. reflexivity.
  - apply nth_error_None. rewrite map_length; auto.
Qed.

(** The layer computes [layer_row] at every cell, unless an adjacency is empty. *)
Lemma oriented_conv_spec l c x up su lo sl : oriented c x up su lo sl ->
  oriented_conv o sc l c =
    match up, lo with
    | [], _ => Err RuntimeError
    | _, [] => Err RuntimeError
    | _, _ => Ok (map (layer_row o sc l x up su lo sl) (seq 0 (length x)))
    end.
Proof.
  intros H. unfold oriented_conv.
  rewrite (or_x _ _ _ _ _ _ H), (or_up _ _ _ _ _ _ H), (or_uor _ _ _ _ _ _ H), (or_lo _ _ _ _ _ _ H), (or_lor _ _ _ _ _ _ H).
  cbn [need bind]. rewrite (or_len_up _ _ _ _ _ _ H), (or_len_lo _ _ _ _ _ _ H), !Nat.eqb_refl. cbn [assert_ bind].
  destruct up as [|e up]; [reflexivity|]. remember (e :: up) as u eqn:Eu.
  destruct (ends_lt u (length x)) as (m & Em & Hm); [apply H|subst; discriminate|].
  rewrite Em. cbn [bind]. rewrite (proj2 (Nat.ltb_lt _ _) Hm). cbn [assert_ bind].
  destruct lo as [|e' lo]; [reflexivity|]. remember (e' :: lo) as w eqn:Ew.
  destruct (ends_lt w (length x)) as (m' & Em' & Hm'); [apply H|subst; discriminate|].
  rewrite Em'. cbn [bind]. rewrite (proj2 (Nat.ltb_lt _ _) Hm'). cbn [assert_ bind].
  rewrite !aggregate_spec by apply H. cbn [bind].
  rewrite !map_map, (as_map_seq (ol_upd l) x), !addt_maps, map_map. reflexivity.
Qed.

Lemma set_x_oriented (c : cochain) x up su lo sl y : oriented c x up su lo sl -> length y = length x ->
  exists c1 : cochain, set_x c (Some y) = Ok c1 /\ oriented c1 y up su lo sl /\ c1 = set_x_raw c (Some y).
Proof.
  intros H Hl. unfold set_x.
  assert (E : num_cells c = Ok (Some (length x))).
  { unfold num_cells. destruct (or_n _ _ _ _ _ _ H) as [-> | ->]; auto. rewrite (or_x _ _ _ _ _ _ H). auto. }
  rewrite E. cbn [bind]. rewrite Hl, Nat.eqb_refl. cbn [assert_ bind]. eexists. split; [reflexivity|].
  split; auto. destruct H. split; cbn [set_x_raw c_x c_upper c_uor c_lower c_lor c_n]; auto; rewrite Hl; auto.
Qed.

Section Signs.
Context (Ho : ops_ok o) (Hs : sign_ok o sc).

Lemma odd_sign f s v : odd sc f -> sign s -> f (sc s v) = sc s (f v).
Proof. intros Hf [-> | ->]; [rewrite !(sc_one _ _ Hs); auto|apply Hf]. Qed.

Lemma sc_fold s l a : sign s ->
  fold_left (vadd o) (map (sc s) l) (sc s a) = sc s (fold_left (vadd o) l a).
Proof.
  intros H. revert a; induction l as [|b l IH]; intros a; simpl; auto.
  rewrite <- (sc_add _ _ Hs) by auto. apply IH.
Qed.

Lemma moved_nth p d x x' i : moved sc p d x x' -> i < length x ->
  nth (p i) x' (vzero o) = sc (d i) (nth i x (vzero o)).
Proof.
  intros [_ H] Hi. specialize (H i Hi). rewrite (nth_error_nth' x (vzero o)) in H by auto.
  cbn [option_map] in H. apply nth_error_nth with (1 := H).
Qed.

(** Entries of a moved adjacency that arrive at [p i] come from entries arriving at [i]. *)
Lemma moved_adj_filter p d n a s a' s' i :
  (forall j i, In (j, i) a -> j < n /\ i < n) -> (forall i j, i < n -> j < n -> p i = p j -> i = j) ->
  i < n -> moved_adj p d a s a' s' ->
  Permutation (filter (fun e => snd (fst e) =? p i) (combine a' s'))
    (map (fun e => ((p (fst (fst e)), p (snd (fst e))), (d (fst (fst e)) * d (snd (fst e)) * snd e)%Z))
       (filter (fun e => snd (fst e) =? i) (combine a s))).
Proof.
  intros Hr Hinj Hi HP. unfold moved_adj in HP. apply (perm_filter (fun e => snd (fst e) =? p i)) in HP.
  eapply Permutation_trans; [exact HP|]. rewrite (filter_map_inj _ _ (fun e => snd (fst e) =? i)); auto.
  intros [[j k] t] He. cbn [fst snd]. apply in_combine_l in He. destruct (Hr j k He).
  destruct (Nat.eqb_spec k i); [subst; apply Nat.eqb_refl|]. apply Nat.eqb_neq. intros E. apply n0. apply Hinj; auto.
Qed.

Lemma inflow_moved p d x x' a s a' s' i :
  (forall i, sign (d i)) ->
  (forall j i, In (j, i) a -> j < length x /\ i < length x) ->
  (forall i j, i < length x -> j < length x -> p i = p j -> i = j) ->
  moved sc p d x x' -> moved_adj p d a s a' s' -> i < length x ->
  inflow o sc true x' a' s' (p i) = sc (d i) (inflow o sc true x a s i).
Proof.
  intros Hd Hr Hinj Hx Ha Hi. unfold inflow.
  pose proof (moved_adj_filter p d (length x) a s a' s' i Hr Hinj Hi Ha) as HP.
  rewrite (fold_left_perm (vadd o) (add_comm _ Ho) (add_assoc _ Ho) _ _ _ (Permutation_map _ HP)).
  rewrite <- sc_fold by auto. rewrite (sc_zero _ _ Hs) by auto.
  f_equal. rewrite !map_map. apply map_ext_in. intros [[j k] t] He. apply filter_In in He as (He & Hk).
  cbn [fst snd] in *. apply Nat.eqb_eq in Hk. subst k. apply in_combine_l in He. destruct (Hr j i He) as (Hj & _).
  rewrite (moved_nth p d x x' j) by auto. rewrite (sc_mul_r _ _ Hs) by auto. rewrite (sc_mul _ _ Hs) by auto.
  f_equal. destruct (Hd j) as [-> | ->]; ring.
Qed.

(** Without orientation only the positions matter. *)
Lemma inflow_unsigned p d d' x x' a s a' s' i :
  (forall j i, In (j, i) a -> j < length x /\ i < length x) ->
  (forall i j, i < length x -> j < length x -> p i = p j -> i = j) ->
  (forall i, d i = 1%Z) ->
  moved sc p d x x' -> moved_adj p d' a s a' s' -> i < length x ->
  inflow o sc false x' a' s' (p i) = inflow o sc false x a s i.
Proof.
  intros Hr Hinj Hd Hx Ha Hi. unfold inflow.
  pose proof (moved_adj_filter p d' (length x) a s a' s' i Hr Hinj Hi Ha) as HP.
  rewrite (fold_left_perm (vadd o) (add_comm _ Ho) (add_assoc _ Ho) _ _ _ (Permutation_map _ HP)).
  f_equal. rewrite !map_map. apply map_ext_in. intros [[j k] t] He. apply filter_In in He as (He & Hk).
  cbn [fst snd] in *. apply in_combine_l in He. destruct (Hr j k He) as (Hj & _).
  rewrite (moved_nth p d x x' j) by auto. rewrite Hd. apply (sc_one _ _ Hs).
Qed.

Lemma layer_row_moved l p d x x' up su up' su' lo sl lo' sl' i :
  odd_layer sc l -> (forall i, sign (d i)) ->
  (forall j i, In (j, i) up -> j < length x /\ i < length x) ->
  (forall j i, In (j, i) lo -> j < length x /\ i < length x) ->
  (forall i j, i < length x -> j < length x -> p i = p j -> i = j) ->
  moved sc p d x x' -> moved_adj p d up su up' su' -> moved_adj p d lo sl lo' sl' -> i < length x ->
  layer_row o sc l x' up' su' lo' sl' (p i) = sc (d i) (layer_row o sc l x up su lo sl i).
Proof.
  intros Hl Hd Hu Hw Hinj Hx Hau Hal Hi. unfold layer_row. rewrite (od_orient _ _ Hl).
  rewrite (inflow_moved p d x x' up su), (inflow_moved p d x x' lo sl), (moved_nth p d x x') by auto.
  rewrite (odd_sign (ol_upd l)), (odd_sign (ol_up l)), (odd_sign (ol_down l)) by (auto; apply Hl).
  rewrite <- !(sc_add _ _ Hs) by auto. apply odd_sign; auto. apply Hl.
Qed.

Lemma layer_row_unsigned l p d d' x x' up su up' su' lo sl lo' sl' i :
  ol_orient l = false ->
  (forall j i, In (j, i) up -> j < length x /\ i < length x) ->
  (forall j i, In (j, i) lo -> j < length x /\ i < length x) ->
  (forall i j, i < length x -> j < length x -> p i = p j -> i = j) ->
  (forall i, d i = 1%Z) ->
  moved sc p d x x' -> moved_adj p d' up su up' su' -> moved_adj p d' lo sl lo' sl' -> i < length x ->
  layer_row o sc l x' up' su' lo' sl' (p i) = layer_row o sc l x up su lo sl i.
Proof.
  intros Hl Hu Hw Hinj Hd Hx Hau Hal Hi. unfold layer_row. rewrite Hl.
  rewrite (inflow_unsigned p d d' x x' up su), (inflow_unsigned p d d' x x' lo sl), (moved_nth p d x x') by auto.
  rewrite Hd, (sc_one _ _ Hs). reflexivity.
Qed.

Lemma moved_map_seq p d (f g : nat -> V) n :
  (forall i, i < n -> p i < n) -> (forall i, i < n -> g (p i) = sc (d i) (f i)) ->
  moved sc p d (map f (seq 0 n)) (map g (seq 0 n)).
Proof.
  intros Hp H. split; rewrite !map_length, ?seq_length; auto. intros i Hi.
  rewrite !nth_error_map_seq. rewrite (proj2 (Nat.ltb_lt _ _) Hi), (proj2 (Nat.ltb_lt _ _) (Hp i Hi)).
  cbn [option_map]. rewrite H; auto.
Qed.

Lemma moved_adj_nil p d a s a' s' : length s = length a -> length s' = length a' ->
  moved_adj p d a s a' s' -> length a' = length a.
Proof.
  intros H H' HP. apply Permutation_length in HP. rewrite map_length, !combine_length in HP. lia.
Qed.

(** One layer commutes with re-orienting and renumbering, errors included. *)
Lemma conv_resigned l p d c c' : odd_layer sc l -> resigned sc p d c c' ->
  match oriented_conv o sc l c, oriented_conv o sc l c' with
  | Ok y, Ok y' => moved sc p d y y' /\ (exists x, c_x c = Some x /\ length y = length x)
  | Err e, Err e' => e = e'
  | _, _ => False
  end.
Proof.
  intros Hl (Hd & x & up & su & lo & sl & x' & up' & su' & lo' & sl' & H & H' & Hp & Hi & Hx & Hu & Hw).
  rewrite (oriented_conv_spec l c x up su lo sl H), (oriented_conv_spec l c' x' up' su' lo' sl' H').
  pose proof (moved_adj_nil _ _ _ _ _ _ (or_len_up _ _ _ _ _ _ H) (or_len_up _ _ _ _ _ _ H') Hu) as Lu.
  pose proof (moved_adj_nil _ _ _ _ _ _ (or_len_lo _ _ _ _ _ _ H) (or_len_lo _ _ _ _ _ _ H') Hw) as Lw.
  destruct up as [|e up], up' as [|e' up']; try discriminate Lu; auto.
  destruct lo as [|f lo], lo' as [|f' lo']; try discriminate Lw; auto.
  split; [|exists x; split; [apply H|rewrite map_length, seq_length; auto]].
  rewrite (proj1 Hx). apply moved_map_seq; auto. intros i Hi'.
  apply layer_row_moved; auto; apply H.
Qed.

Lemma conv_unsigned l p d d' c c' x up su lo sl x' up' su' lo' sl' :
  ol_orient l = false -> (forall i, d i = 1%Z) ->
  oriented c x up su lo sl -> oriented c' x' up' su' lo' sl' ->
  (forall i, i < length x -> p i < length x) ->
  (forall i j, i < length x -> j < length x -> p i = p j -> i = j) ->
  moved sc p d x x' -> moved_adj p d' up su up' su' -> moved_adj p d' lo sl lo' sl' ->
  match oriented_conv o sc l c, oriented_conv o sc l c' with
  | Ok y, Ok y' => moved sc p d y y' /\ length y = length x
  | Err e, Err e' => e = e'
  | _, _ => False
  end.
Proof.
  intros Hl Hd H H' Hp Hi Hx Hu Hw.
  rewrite (oriented_conv_spec l c x up su lo sl H), (oriented_conv_spec l c' x' up' su' lo' sl' H').
  pose proof (moved_adj_nil _ _ _ _ _ _ (or_len_up _ _ _ _ _ _ H) (or_len_up _ _ _ _ _ _ H') Hu) as Lu.
  pose proof (moved_adj_nil _ _ _ _ _ _ (or_len_lo _ _ _ _ _ _ H) (or_len_lo _ _ _ _ _ _ H') Hw) as Lw.
  destruct up as [|e up], up' as [|e' up']; try discriminate Lu; auto.
  destruct lo as [|f lo], lo' as [|f' lo']; try discriminate Lw; auto.
  split; [|rewrite map_length, seq_length; auto].
  rewrite (proj1 Hx). apply moved_map_seq; auto. intros i Hi'. rewrite Hd, (sc_one _ _ Hs).
  eapply layer_row_unsigned; eauto; apply H.
Qed.

Lemma resigned_set_x p d c c' x y y' : resigned sc p d c c' -> c_x c = Some x -> length y = length x ->
  moved sc p d y y' ->
  exists k k', set_x c (Some y) = Ok k /\ set_x c' (Some y') = Ok k' /\ resigned sc p d k k' /\
    c_x k = Some y /\ c_x k' = Some y'.
Proof.
  intros (Hd & x0 & up & su & lo & sl & x' & up' & su' & lo' & sl' & H & H' & Hp & Hi & Hx & Hu & Hw) Ex Hy Hm.
  rewrite (or_x _ _ _ _ _ _ H) in Ex. injection Ex as ->.
  destruct (set_x_oriented _ _ _ _ _ _ y H Hy) as (k & E & Hk & _).
  destruct (set_x_oriented _ _ _ _ _ _ y' H') as (k' & E' & Hk' & _).
  { rewrite (proj1 Hm), (proj1 Hx). auto. }
  exists k, k'. split; auto. split; auto. split; [|split; [apply Hk|apply Hk']].
  split; auto. exists y, up, su, lo, sl, y', up', su', lo', sl'. rewrite Hy.
  repeat (split; auto); apply Hm.
Qed.

Lemma loop_resigned ls : Forall (odd_layer sc) ls -> forall p d c c', resigned sc p d c c' ->
  match conv_loop o sc ls c, conv_loop o sc ls c' with
  | Ok k, Ok k' => resigned sc p d k k' /\
      forall x, c_x c = Some x -> exists y, c_x k = Some y /\ length y = length x
  | Err e, Err e' => e = e'
  | _, _ => False
  end.
Proof.
  induction 1 as [|l ls Hl _ IH]; intros p d c c' HR; cbn [conv_loop].
  - split; auto. intros x Hx. exists x; auto.
  - pose proof (conv_resigned l p d c c' Hl HR) as HC.
    destruct (oriented_conv o sc l c) as [y|e], (oriented_conv o sc l c') as [y'|e']; try tauto; cbn [bind]; auto.
    destruct HC as (Hm & x & Ex & Hy).
    destruct (resigned_set_x p d c c' x y y' HR Ex Hy Hm) as (k & k' & -> & -> & HR' & Ek & Ek'). cbn [bind].
    specialize (IH p d k k' HR').
    destruct (conv_loop o sc ls k), (conv_loop o sc ls k'); try tauto.
    destruct IH as (IH1 & IH2). split; auto. intros x0 Ex0. rewrite Ex in Ex0. injection Ex0 as <-.
    destruct (IH2 y Ek) as (z & Ez & Hz). exists z. split; auto. lia.
Qed.

Lemma loop_unsigned ls : Forall (fun l => ol_orient l = false) ls ->
  forall p d d' c c' x up su lo sl x' up' su' lo' sl', (forall i, d i = 1%Z) ->
  oriented c x up su lo sl -> oriented c' x' up' su' lo' sl' ->
  (forall i, i < length x -> p i < length x) ->
  (forall i j, i < length x -> j < length x -> p i = p j -> i = j) ->
  moved sc p d x x' -> moved_adj p d' up su up' su' -> moved_adj p d' lo sl lo' sl' ->
  match conv_loop o sc ls c, conv_loop o sc ls c' with
  | Ok k, Ok k' => exists y y', c_x k = Some y /\ c_x k' = Some y' /\ moved sc p d y y' /\ length y = length x
  | Err e, Err e' => e = e'
  | _, _ => False
  end.
Proof.
  induction 1 as [|l ls Hl _ IH]; intros p d d' c c' x up su lo sl x' up' su' lo' sl' Hd H H' Hp Hi Hx Hu Hw; cbn [conv_loop].
  - exists x, x'. split; [apply H|]. split; [apply H'|]. auto.
  - pose proof (conv_unsigned l p d d' c c' x up su lo sl x' up' su' lo' sl' Hl Hd H H' Hp Hi Hx Hu Hw) as HC.
    destruct (oriented_conv o sc l c) as [y|e], (oriented_conv o sc l c') as [y'|e']; try tauto; cbn [bind]; auto.
    destruct HC as (Hm & Hy).
    destruct (set_x_oriented _ _ _ _ _ _ y H Hy) as (k & -> & Hk & _).
    destruct (set_x_oriented _ _ _ _ _ _ y' H') as (k' & -> & Hk' & _).
    { rewrite (proj1 Hm), (proj1 Hx). auto. }
    cbn [bind]. specialize (IH p d d' k k' y up su lo sl y' up' su' lo' sl' Hd Hk Hk').
    rewrite Hy in IH. apply IH; auto.
Qed.

(** Pooling moved rows: the multiset of rows of a sample is the same. *)
Lemma moved_pool r n p (bt bt' : list nat) (x x' : list V) : length bt = length x ->
  length x' = length x -> length bt' = length bt ->
  (forall i, i < length x -> p i < length x) ->
  (forall i j, i < length x -> j < length x -> p i = p j -> i = j) ->
  (forall i, i < length bt -> nth_error bt' (p i) = nth_error bt i) ->
  (forall i, i < length x -> nth_error x' (p i) = nth_error x i) ->
  Forall (fun i => i < n) bt ->
  scatter o r (Some n) bt' x' = scatter o r (Some n) bt x.
Proof.
  intros Hb Hx Hb' Hp Hi Eb Ex HF. symmetry. apply scatter_cols_perm; auto; [lia|].
  assert (E : forall (l : list nat) (y : list V), length l = length y ->
     combine l y = map (fun i => (nth i l 0, nth i y (vzero o))) (seq 0 (length y))).
  { intros l y Hl. apply nth_error_ext. intros i. rewrite nth_error_combine, nth_error_map_seq.
    destruct (Nat.ltb_spec i (length y)).
    - rewrite (nth_error_nth' l 0), (nth_error_nth' y (vzero o)) by lia. reflexivity.
    - rewrite (proj2 (nth_error_None l i)) by lia. reflexivity. }
  rewrite (E bt x Hb), (E bt' x') by lia. rewrite Hx.
  apply Permutation_sym. eapply Permutation_trans.
  { apply Permutation_map, Permutation_sym, (bij_perm p (length x)); auto. }
  rewrite map_map. erewrite map_ext_in; [apply Permutation_refl|]. intros i Hi'. apply in_seq in Hi'.
  cbn beta. f_equal.
  - apply nth_error_nth. rewrite Eb by lia. apply nth_error_nth'. lia.
  - apply nth_error_nth. rewrite Ex by lia. apply nth_error_nth'. lia.
Qed.

Lemma moved_vals (p : nat -> nat) (l l' : list nat) n : length l = n -> length l' = n ->
  (forall i, i < n -> p i < n) -> (forall i j, i < n -> j < n -> p i = p j -> i = j) ->
  (forall i, i < n -> nth_error l' (p i) = nth_error l i) -> Permutation l' l.
Proof.
  intros H H' Hp Hi E.
  assert (A : forall l : list nat, l = map (fun i => nth i l 0) (seq 0 (length l))).
  { intros k. apply nth_error_ext. intros i. rewrite nth_error_map_seq. destruct (Nat.ltb_spec i (length k)).
    - apply nth_error_nth'; auto. - apply nth_error_None; auto. }
  rewrite (A l), (A l'), H, H'. eapply Permutation_trans.
  { apply Permutation_map, Permutation_sym, (bij_perm p n); auto. }
  rewrite map_map. erewrite map_ext_in; [apply Permutation_refl|]. intros i Hi'. apply in_seq in Hi'.
  apply nth_error_nth. rewrite E by lia. apply nth_error_nth'. lia.
Qed.

Lemma list_max_err_perm l l' : Permutation l' l -> list_max_err l' = list_max_err l.
Proof.
  intros H. assert (HM : list_max l' = list_max l).
  { clear -H. induction H; simpl; auto; try congruence. lia. }
  destruct l, l'; auto.
  - apply Permutation_length in H; discriminate.
  - apply Permutation_length in H; discriminate.
  - cbn [list_max_err]. f_equal. exact HM.
Qed.

Lemma batch_bound bt s : list_max_err bt = Ok s -> Forall (fun i => i < S s) bt.
Proof.
  intros H. destruct bt; [constructor|]. injection H as <-.
  apply Forall_impl with (2 := proj1 (list_max_le _ _) (Nat.le_refl _)). intros; simpl in *; lia.
Qed.

Lemma moved_abs p d x x' : abs_ok sc vabs -> (forall i, sign (d i)) -> moved sc p d x x' ->
  length (map vabs x') = length (map vabs x) /\
  forall i, i < length (map vabs x) -> nth_error (map vabs x') (p i) = nth_error (map vabs x) i.
Proof.
  intros Ha Hd [Hl H]. rewrite !map_length. split; auto. intros i Hi. rewrite !nth_error_map, H by auto.
  destruct (nth_error x i) as [v|]; cbn [option_map]; auto. rewrite Ha; auto.
Qed.

End Signs.
End Proofs.
