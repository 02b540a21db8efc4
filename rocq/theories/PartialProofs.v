(** Proofs for C74: dictionaries of partial results. *)
From Coq Require Import String Ascii Decimal DecimalString DecimalNat List Arith Lia ZArith Bool Permutation.
From Verif Require Import Base ScatterModel ScatterSpec ScatterProofs ComplexModel BatchSpec BatchSpec2
  BatchProofs BatchProofs2 MPModel MPSpec MPProofs MPEngine MPBatch MPForward MPNets EmbedModel.
From Verif Require Import PartialModel PartialSpec.
Import ListNotations.
Open Scope string_scope.
Open Scope nat_scope.
Open Scope list_scope.

(** ** Keys *)
Fixpoint no_us (s : string) : Prop := match s with EmptyString => True | String c s' => c <> "_"%char /\ no_us s' end.
Lemma uint_no_us d : no_us (NilEmpty.string_of_uint d).
Proof. induction d; cbn; repeat split; try assumption; discriminate. Qed.
Lemma number_inj a b : number a = number b -> a = b.
Proof.
  unfold number. intros H. apply (f_equal NilEmpty.uint_of_string) in H. rewrite !NilEmpty.usu in H.
  assert (E : Nat.to_uint a = Nat.to_uint b) by congruence. rewrite <- (Unsigned.of_to a), <- (Unsigned.of_to b). now rewrite E.
Qed.
Lemma cut_us x : forall x' y y', no_us x -> no_us x' -> (x ++ String "_" y = x' ++ String "_" y')%string -> x = x' /\ y = y'.
Proof.
  induction x as [|c x IH]; intros [|c' x'] y y' H H' E; cbn in *.
  - injection E as ->. auto.
  - injection E as <- _. destruct H'. congruence.
  - injection E as -> _. destruct H. congruence.
  - injection E as -> E. destruct (IH x' y y' (proj2 H) (proj2 H') E) as [-> ->]. auto.
Qed.
Lemma layer_key_inj c k c' k' : layer_key c k = layer_key c' k' -> c = c' /\ k = k'.
Proof.
  unfold layer_key. cbn [append]. intros H. injection H as H. apply cut_us in H as [H1 H2]; try apply uint_no_us. split; now apply number_inj.
Qed.
Lemma pool_key_inj k k' : pool_key k = pool_key k' -> k = k'.
Proof. unfold pool_key. cbn [append]. intros H. injection H as H. now apply number_inj. Qed.
Lemma layer_pool c k k' : layer_key c k <> pool_key k'.
Proof. discriminate. Qed.

(** ** Dictionaries *)
Section Dict.
Context {A : Type}.
Lemma get_set key key' (a : A) d : dict_get key (dict_set key' a d) = if String.eqb key' key then Some a else dict_get key d.
Proof.
  induction d as [|[k b] d IH]; cbn [dict_set dict_get]; [reflexivity|]. destruct (String.eqb_spec k key') as [->|N]; cbn [dict_get].
  - destruct (String.eqb_spec key' key); reflexivity.
  - rewrite IH. destruct (String.eqb_spec k key) as [->|]; [|reflexivity]. destruct (String.eqb_spec key' key); [congruence|reflexivity].
Qed.
Lemma set_new key (a : A) d : ~ In key (map fst d) -> dict_set key a d = d ++ [(key, a)].
Proof.
  induction d as [|[k b] d IH]; cbn; [reflexivity|]. intros H. destruct (String.eqb_spec k key) as [->|]; [tauto|]. rewrite IH; tauto.
Qed.
Lemma set_all_new (es d : dict A) : NoDup (map fst (d ++ es)) -> set_all es d = d ++ es.
Proof.
  revert d. induction es as [|[k a] es IH]; intros d H; cbn; [now rewrite app_nil_r|]. unfold set_all in IH. 
  assert (N : ~ In k (map fst d)). { rewrite map_app in H. apply NoDup_remove_2 in H. intros X. apply H, in_or_app. now left. }
  rewrite set_new by exact N. rewrite IH; rewrite <- app_assoc; [reflexivity|exact H].
Qed.
Lemma get_In (d : dict A) key a : NoDup (map fst d) -> dict_get key d = Some a <-> In (key, a) d.
Proof.
  induction d as [|[k b] d IH]; cbn; intros H; [split; [discriminate|tauto]|]. inversion H as [|? ? Hn Hd]; subst. destruct (String.eqb_spec k key) as [->|N].
  - split; [intros [= ->]; now left|]. intros [[= ->]|X]; [reflexivity|]. destruct Hn. apply in_map_iff. exists (key, a). auto.
  - rewrite IH by exact Hd. split; [auto|]. intros [X|X]; [congruence|exact X].
Qed.
Lemma get_app (d e : dict A) key : dict_get key (d ++ e) = match dict_get key d with Some a => Some a | None => dict_get key e end.
Proof. induction d as [|[k b] d IH]; cbn; [reflexivity|]. destruct (String.eqb k key); [reflexivity|exact IH]. Qed.
Lemma get_none (d : dict A) key : ~ In key (map fst d) -> dict_get key d = None.
Proof. induction d as [|[k b] d IH]; cbn; [reflexivity|]. intros H. destruct (String.eqb_spec k key) as [->|]; [tauto|apply IH; tauto]. Qed.
Lemma get_some (d : dict A) key a : dict_get key d = Some a -> In key (map fst d).
Proof. induction d as [|[k b] d IH]; cbn; [discriminate|]. destruct (String.eqb_spec k key) as [->|]; auto. Qed.
End Dict.

(** ** Collecting *)
Lemma join_app {A} (l l' : list (option (list A))) :
  join (l ++ l') = match join l, join l' with Some x, Some y => Some (x ++ y) | Some x, None => Some x | None, y => y end.
Proof.
  induction l as [|[x|] l IH]; cbn; [destruct (join l'); reflexivity| |exact IH].
  rewrite IH. destruct (join l), (join l'); try rewrite app_assoc; reflexivity.
Qed.
Lemma join_chunks {A} (L : list (list (option (list A)))) : join (map join L) = join (List.concat L).
Proof. induction L as [|l L IH]; cbn; [reflexivity|]. rewrite join_app, <- IH. destruct (join l), (join (map join L)); reflexivity. Qed.
Lemma join_form {A} (l : list (option (list A))) :
  join l = if existsb (fun x => match x with Some _ => true | None => false end) l then Some (List.concat (map (fun x => match x with Some y => y | None => [] end) l)) else None.
Proof.
  induction l as [|[x|] l IH]; cbn; [reflexivity| |exact IH]. rewrite IH. destruct (existsb _ l) eqn:E; [reflexivity|].
  f_equal. assert (X : List.concat (map (fun x => match x with Some y => y | None => [] end) l) = []); [|now rewrite X, app_nil_r].
  clear IH. induction l as [|[y|] l IH]; cbn in *; [reflexivity|discriminate|auto].
Qed.

Section Collect.
Context {A : Type}.
Lemma append_get (res : dict (list A)) : forall all key, NoDup (map fst res) ->
  dict_get key (append_res all res) = match dict_get key res with
    | Some x => Some (match dict_get key all with Some l => l | None => [] end ++ [x])
    | None => dict_get key all end.
Proof.
  unfold append_res. induction res as [|[k x] res IH]; intros all key H; cbn [fold_left fst snd]; [reflexivity|].
  inversion H as [|? ? Hn Hd]; subst. rewrite IH by exact Hd. cbn [dict_get]. destruct (String.eqb_spec k key) as [->|N].
  - rewrite (get_none res key Hn), get_set, String.eqb_refl. reflexivity.
  - rewrite get_set. destruct (String.eqb_spec k key); [congruence|reflexivity].
Qed.
Lemma append_all (rs : list (dict (list A))) : forall all key, Forall (fun r => NoDup (map fst r)) rs ->
  dict_get key (fold_left append_res rs all) =
  match dict_get key all, join (map (fun r => option_map (fun x => [x]) (dict_get key r)) rs) with
  | Some l, Some l' => Some (l ++ l') | Some l, None => Some l | None, r => r end.
Proof.
  induction rs as [|r rs IH]; intros all key H; cbn [fold_left map join]; [destruct (dict_get key all); reflexivity|].
  inversion H; subst. rewrite IH, append_get by assumption. destruct (dict_get key r) as [x|]; cbn [option_map join].
  - destruct (dict_get key all), (join _); cbn; try rewrite <- app_assoc; reflexivity.
  - reflexivity.
Qed.
Lemma cat_get (d : dict (list (list A))) key : dict_get key (cat_res d) = option_map (@List.concat A) (dict_get key d).
Proof. unfold cat_res. induction d as [|[k b] d IH]; cbn; [reflexivity|]. destruct (String.eqb k key); [reflexivity|exact IH]. Qed.
Lemma collect_get (rs : list (dict (list A))) key : Forall (fun r => NoDup (map fst r)) rs ->
  dict_get key (cat_res (fold_left append_res rs [])) = join (map (dict_get key) rs).
Proof.
  intros H. rewrite cat_get, append_all by exact H. cbn [dict_get]. clear H. induction rs as [|r rs IH]; cbn [map join]; [reflexivity|].
  destruct (dict_get key r) as [x|]; cbn [option_map join]; [|exact IH]. rewrite <- IH. destruct (join _); cbn; [reflexivity|now rewrite app_nil_r].
Qed.
Lemma append_keys (res : dict (list A)) : forall all, NoDup (map fst all) -> NoDup (map fst (append_res all res)).
Proof.
  assert (S : forall B key (a : B) d, NoDup (map fst d) -> NoDup (map fst (dict_set key a d))).
  { intros B key a d. induction d as [|[k b] d IH]; cbn; intros H; [repeat constructor; tauto|]. inversion H as [|? ? Hn Hd]; subst. destruct (String.eqb_spec k key) as [->|N]; cbn; [now constructor|].
    constructor; [|auto]. intros X. apply Hn. clear - X N. induction d as [|[k' b'] d IH]; cbn in *; [destruct X as [X|[]]; congruence|].
    destruct (String.eqb_spec k' key) as [->|]; cbn in X; [exact X|]. destruct X as [X|X]; auto. }
  unfold append_res. induction res as [|[k x] res IH]; intros all H; cbn; [exact H|]. apply IH, S, H.
Qed.
Lemma collect_keys (rs : list (dict (list A))) : NoDup (map fst (cat_res (fold_left append_res rs []))).
Proof.
  unfold cat_res. rewrite map_map. cbn. change (fun x => fst x) with (@fst string (list (list A))).
  assert (G : forall all, NoDup (map fst all) -> NoDup (map fst (fold_left append_res rs all))).
  { induction rs as [|r rs IH]; intros all H; cbn; [exact H|]. apply IH, append_keys, H. }
  apply G. constructor.
Qed.
End Collect.

(** ** The entries of one pass *)
Section Entries.
Context {V : Type}.
Definition entries (hist : list (list (list V))) (sel : list (list V)) (x : list V) : dict (list V) :=
  layer_entries hist ++ pool_entries sel ++ [("out", x)].

Lemma mapi_In {A B} (f : nat -> A -> B) l b : In b (mapi f l) <-> exists i a, nth_error l i = Some a /\ b = f i a.
Proof.
  split.
  - intros H. apply In_nth_error in H as [i H]. rewrite nth_error_mapi in H. destruct (nth_error l i) as [a|] eqn:E; [|discriminate]. injection H as <-. exists i, a. auto.
  - intros (i & a & H & ->). apply (nth_error_In _ i). now rewrite nth_error_mapi, H.
Qed.
Lemma layer_In (hist : list (list (list V))) key x : In (key, x) (layer_entries hist) <-> exists c k xs, nth_error hist c = Some xs /\ nth_error xs k = Some x /\ key = layer_key c k.
Proof.
  unfold layer_entries. rewrite in_concat. split.
  - intros (l & Hl & H). apply mapi_In in Hl as (c & xs & Hc & ->). apply mapi_In in H as (k & y & Hk & [= -> ->]). exists c, k, xs. auto.
  - intros (c & k & xs & Hc & Hk & ->). eexists. split; [apply mapi_In; exists c, xs; split; [exact Hc|reflexivity]|]. apply mapi_In. exists k, x. auto.
Qed.
Lemma pool_In (sel : list (list V)) key x : In (key, x) (pool_entries sel) <-> exists k, nth_error sel k = Some x /\ key = pool_key k.
Proof. unfold pool_entries. rewrite mapi_In. split; [intros (k & y & H & [= -> ->]); eauto|intros (k & H & ->); eauto]. Qed.
Lemma NoDup_mapi {A B} (f : nat -> A -> B) l : (forall i j a b, f i a = f j b -> i = j) -> NoDup (mapi f l).
Proof.
  intros H. apply NoDup_nth_error. intros i j Hi E. rewrite mapi_length in Hi. rewrite !nth_error_mapi in E.
  destruct (nth_error l i) as [a|] eqn:Ei; [|apply nth_error_None in Ei; lia]. destruct (nth_error l j) as [b|]; [|discriminate]. cbn in E. injection E as E. eauto.
Qed.
Lemma map_mapi {A B C} (g : B -> C) (f : nat -> A -> B) l : map g (mapi f l) = mapi (fun i a => g (f i a)) l.
Proof. apply nth_error_ext. intros i. rewrite nth_error_map, !nth_error_mapi. destruct (nth_error l i); reflexivity. Qed.
Lemma NoDup_concat_mapi {A B} (f : nat -> A -> list B) l : (forall i a, NoDup (f i a)) -> (forall i j a b y, In y (f i a) -> In y (f j b) -> i = j) ->
  NoDup (List.concat (mapi f l)).
Proof.
  intros H1 H2. unfold mapi. generalize 0 as s. induction l as [|a l IH]; intros s; cbn; [constructor|].
  assert (G : forall y, In y (f s a) -> ~ In y (List.concat (mapi_from f (S s) l))).
  { intros y Hy X. apply in_concat in X as (L & HL & X). apply In_nth_error in HL as [i HL]. rewrite nth_error_mapi_from in HL.
    destruct (nth_error l i) as [b|]; [|discriminate]. injection HL as <-. specialize (H2 _ _ _ _ _ Hy X). lia. }
  specialize (IH (S s)). specialize (H1 s a). revert H1 G IH. induction (f s a) as [|y L IHL]; cbn; [auto|]. intros H1 G IH. inversion H1; subst.
  constructor; [|apply IHL; auto]. intros X. apply in_app_or in X as [X|X]; [auto|]. exact (G y (or_introl eq_refl) X).
Qed.
Lemma entries_keys (hist : list (list (list V))) sel x : NoDup (map fst (entries hist sel x)).
Proof.
  unfold entries. rewrite !map_app. cbn.
  assert (L : NoDup (map fst (layer_entries hist))).
  { unfold layer_entries. rewrite concat_map, map_mapi. apply NoDup_concat_mapi.
    - intros c xs. rewrite map_mapi. apply NoDup_mapi. intros i j a b E. cbn in E. now apply layer_key_inj in E.
    - intros c c' xs xs' y H H'. rewrite map_mapi in H, H'. apply mapi_In in H as (k & a & _ & ->). apply mapi_In in H' as (k' & a' & _ & E). cbn in E. now apply layer_key_inj in E. }
  assert (P : NoDup (map fst (pool_entries sel))).
  { unfold pool_entries. rewrite map_mapi. apply NoDup_mapi. intros i j a b E. cbn in E. now apply pool_key_inj in E. }
  assert (D : forall B (l l' : list B), NoDup l -> NoDup l' -> (forall y, In y l -> ~ In y l') -> NoDup (l ++ l')).
  { intros B l l' H1 H2 H. induction H1 as [|y l Hy H1 IH]; cbn; [exact H2|]. constructor; [|apply IH; intros z Hz; apply H; now right].
    intros X. apply in_app_or in X as [X|X]; [auto|]. exact (H y (or_introl eq_refl) X). }
  apply D; [exact L|apply D; [exact P|repeat constructor; tauto|]|].
  - intros y Hy [<-|[]]. apply in_map_iff in Hy as ([k z] & E & Hy). apply pool_In in Hy as (j & _ & ->). discriminate.
  - intros y Hy Hy'. apply in_map_iff in Hy as ([k z] & E & Hy). apply layer_In in Hy as (c & j & xs & _ & _ & ->). cbn in E. subst y.
    apply in_app_or in Hy' as [Hy'|[Hy'|[]]]; [|discriminate]. apply in_map_iff in Hy' as ([k' z'] & E & Hy'). apply pool_In in Hy' as (j' & _ & ->). discriminate.
Qed.
Definition kind (key : string) : Prop := (exists c k, key = layer_key c k) \/ (exists k, key = pool_key k) \/ key = "out".
Lemma entries_In hist sel x key y : In (key, y) (entries hist sel x) <->
  (exists c k xs, nth_error hist c = Some xs /\ nth_error xs k = Some y /\ key = layer_key c k) \/
  (exists k, nth_error sel k = Some y /\ key = pool_key k) \/ (key = "out" /\ y = x).
Proof.
  unfold entries. rewrite !in_app_iff, layer_In, pool_In. cbn [In]. split.
  - intros [H|[H|[H|[]]]]; [now left|right; now left|]. right. right. injection H as <- <-. auto.
  - intros [H|[H|[-> ->]]]; [now left|right; now left|]. right. right. now left.
Qed.
Lemma entries_kind hist sel x key y : dict_get key (entries hist sel x) = Some y -> kind key.
Proof.
  intros H. apply get_In, entries_In in H; [|apply entries_keys]. destruct H as [(c & k & xs & _ & _ & ->)|[(k & _ & ->)|[-> _]]]; unfold kind; eauto.
Qed.
Lemma option_ext {A} (a b : option A) : (forall x, a = Some x <-> b = Some x) -> a = b.
Proof. intros H. destruct a as [x|]; [symmetry; now apply H|]. destruct b as [x|]; [now apply H|reflexivity]. Qed.
Lemma entries_layer hist sel x c k : dict_get (layer_key c k) (entries hist sel x) = match nth_error hist c with Some xs => nth_error xs k | None => None end.
Proof.
  apply option_ext. intros y. rewrite (get_In _ _ _ (entries_keys hist sel x)), entries_In. split.
  - intros [(c' & k' & xs & H1 & H2 & E)|[(k' & _ & E)|[E _]]]; try discriminate. apply layer_key_inj in E as [-> ->]. now rewrite H1.
  - destruct (nth_error hist c) as [xs|] eqn:E; [|discriminate]. intros H. left. eauto 8.
Qed.
Lemma entries_pool hist sel x k : dict_get (pool_key k) (entries hist sel x) = nth_error sel k.
Proof.
  apply option_ext. intros y. rewrite (get_In _ _ _ (entries_keys hist sel x)), entries_In. split.
  - intros [(c' & k' & xs & H1 & H2 & E)|[(k' & H & E)|[E _]]]; try discriminate. apply pool_key_inj in E as ->. exact H.
  - intros H. right. left. eauto.
Qed.
Lemma entries_out hist sel x : dict_get "out" (entries hist sel x) = Some x.
Proof. rewrite (get_In _ _ _ (entries_keys hist sel x)), entries_In. auto. Qed.
Lemma set_entries hist sel x : dict_set "out" x (set_all (pool_entries sel) (set_all (layer_entries hist) [])) = entries hist sel x.
Proof.
  pose proof (entries_keys hist sel x) as H.
  change (dict_set "out" x (set_all (pool_entries sel) (set_all (layer_entries hist) []))) with (set_all [("out", x)] (set_all (pool_entries sel) (set_all (layer_entries hist) []))).
  unfold entries in H.
  assert (P : forall (l l' : dict (list V)), NoDup (map fst (l ++ l')) -> NoDup (map fst l)). { intros l l'. rewrite map_app. generalize (map fst l) (map fst l'). clear. intros l l' H. induction l as [|a l IH]; [constructor|]. inversion H; subst. constructor; [|auto]. intros X. apply H2, in_or_app. now left. }
  rewrite app_assoc in H. rewrite (set_all_new (layer_entries hist) []) by (cbn [app]; apply P in H; now apply P in H).
  cbn [app]. rewrite (set_all_new (pool_entries sel)) by (apply P in H; exact H). rewrite set_all_new by exact H. unfold entries. now rewrite <- app_assoc.
Qed.
End Entries.

Lemma Forall2_nth_error_r {A B} (R : A -> B -> Prop) l l' : Forall2 R l l' -> forall i b, nth_error l' i = Some b -> exists a, nth_error l i = Some a /\ R a b.
Proof. induction 1 as [|a b l l' H HF IH]; intros [|i] c Hc; cbn in *; try discriminate; [injection Hc as <-; eauto|eauto]. Qed.

(** ** One batch *)
Section Pass.
Context {V : Type} (o : ops V).
Hypothesis Hdiv : vdivn o (vzero o) 1 = vzero o.
Notation complex := (complex V).

Lemma partial_runs (m : net V) b K hist xs pooled sel x0 sel' : run_convs (n_max_dim m) (n_pdim m) (n_top m) (n_down m) (n_convs m) (kb_complex b) = Ok (K, hist) ->
  final_xs o (n_jump m) hist = Ok xs -> pool_complex o xs (kb_batch b) (n_max_dim m) (n_pool m) = Ok pooled -> mapM (get pooled) (n_dims m) = Ok sel -> sel = x0 :: sel' ->
  exists out b', net_forward o m b = Ok (out, b') /\ partial_forward o m b = Ok (out, entries hist sel out, b').
Proof.
  intros H1 H2 H3 H4 H5. unfold net_forward, partial_forward, readout. rewrite H1. cbn [bind]. rewrite H2. cbn [bind]. rewrite H3. cbn [bind]. rewrite H4. cbn [bind]. rewrite H5.
  eexists _, _. split; [reflexivity|]. now rewrite set_entries.
Qed.
(** With partial results the prediction and the batch left behind are the same. *)
Lemma partial_same (m : net V) b : match partial_forward o m b with Ok (out, _, b') => net_forward o m b = Ok (out, b') | Err e => net_forward o m b = Err e end.
Proof.
  unfold net_forward, partial_forward, readout. destruct (run_convs _ _ _ _ _ _) as [[k hist]|]; cbn [bind]; [|reflexivity].
  destruct (final_xs o (n_jump m) hist) as [xs|]; cbn [bind]; [|reflexivity]. destruct (pool_complex _ _ _ _ _) as [pooled|]; cbn [bind]; [|reflexivity].
  destruct (mapM (get pooled) (n_dims m)) as [sel|]; cbn [bind]; [|reflexivity]. destruct sel; reflexivity.
Qed.
Lemma blocks {A B} (f : nat -> B) (n : A -> nat) (row : A -> list B) (l : list A) : forall s,
  (forall i a, nth_error l i = Some a -> row a = map f (seq (s + list_sum (map n (firstn i l))) (n a))) ->
  map f (seq s (list_sum (map n l))) = List.concat (map row l).
Proof.
  induction l as [|a l IH]; intros s H; [reflexivity|]. cbn [map list_sum fold_right List.concat]. fold (list_sum (map n l)). rewrite seq_app, map_app. f_equal.
  - rewrite (H 0 a eq_refl). cbn. now rewrite Nat.add_0_r.
  - apply IH. intros i b Hb. rewrite (H (S i) b Hb). cbn [firstn map list_sum fold_right]. fold (list_sum (map n (firstn i l))). now rewrite Nat.add_assoc.
Qed.

(** The dictionary of a member alone. *)
Definition member_hist (a : arch V) (S : skel) (X : feats V) : list (list (list V)) := map (matrices S (a_pdim a)) (history o (a_pdim a) (a_top a) S (a_layers a) X).
Definition member_pool (a : arch V) (S : skel) (X : feats V) (d : nat) : V :=
  if d <=? a_pdim a then reduce_rows o (a_pool a) (map (final_feats (a_jump a) (history o (a_pdim a) (a_top a) S (a_layers a) X) X d) (seq 0 (s_n S d))) else vzero o.
Definition member (a : arch V) (S : skel) (X : feats V) : dict (list V) :=
  entries (member_hist a S X) (map (fun d => [member_pool a S X d]) (a_dims a)) [predict o a S X].

Lemma history_length pdim top S Ls : forall X : feats V, length (history o pdim top S Ls X) = length Ls.
Proof. induction Ls as [|L Ls IH]; intros X; cbn; [reflexivity|]. now rewrite IH. Qed.
Lemma matrices_at S pdim (X : feats V) d : nth_error (matrices S pdim X) d = if d <=? Nat.min pdim (s_dim S) then Some (map (X d) (seq 0 (s_n S d))) else None.
Proof.
  unfold matrices. rewrite nth_error_map_seq. destruct (Nat.leb_spec d (Nat.min pdim (s_dim S))), (Nat.ltb_spec d (Nat.min pdim (s_dim S) + 1)); try lia; reflexivity.
Qed.
Lemma join_ones {A B} (f : A -> B) l : l <> [] -> join (map (fun a => Some [f a]) l) = Some (map f l).
Proof. induction l as [|a l IH]; [congruence|]. intros _. cbn. destruct l as [|b l]; [reflexivity|]. rewrite IH by discriminate. reflexivity. Qed.

Lemma partial_from (m : net V) (a : arch V) ks szs D b K XB (XM : complex * (nat -> nat) -> feats V) K' :
  net_ok o m a -> ks <> [] -> Forall2 wf_complex ks szs -> union_complex ks szs D K ->
  (forall d, d <= D -> exists k, In k ks /\ d <= k_dim k) ->
  run_convs (n_max_dim m) (n_pdim m) (n_top m) (n_down m) (n_convs m) (kb_complex b) =
    Ok (K', map (matrices (skel_of D K (total szs)) (n_pdim m)) (history o (n_pdim m) (n_top m) (skel_of D K (total szs)) (a_layers a) XB)) ->
  (forall i k sz, nth_error ks i = Some k -> nth_error szs i = Some sz -> agree (blk szs D i k sz) 0 (XM (k, sz)) XB) ->
  kb_batch b = map (fun d => Some (membership szs d)) (seq 0 (D + 1)) ->
  Forall (fun sz : nat -> nat => 0 < sz 0) szs ->
  exists out res b', partial_forward o m b = Ok (out, res, b') /\ NoDup (map fst res) /\
    map fst res = List.concat (map (fun c => map (layer_key c) (seq 0 (Nat.min (n_pdim m) D + 1))) (seq 0 (length (a_layers a)))) ++ map pool_key (seq 0 (length (n_dims m))) ++ ["out"] /\
    forall key, dict_get key res = join (map (fun q => dict_get key (member a (skel_of D (fst q) (snd q)) (XM q))) (combine ks szs)).
Proof.
  intros HN Hne HW HU Hpres Hrun Hag Hbt Hpos. pose proof HN as [N1 N2 N3 N4 N5 N6 N7 N8 N9 N10 N11 N12 N13].
  set (SB := skel_of D K (total szs)) in *. set (h := history o (n_pdim m) (n_top m) SB (a_layers a) XB) in *.
  assert (Hh : h <> []) by (unfold h; destruct (a_layers a); [congruence|discriminate]).
  set (F := final_feats (n_jump m) h XB). pose proof (final_xs_spec o (n_jump m) SB (n_pdim m) h XB Hh) as Hfin. fold F in Hfin.
  assert (Hszs : szs <> []) by (intros ->; inversion HW; subst; congruence).
  pose proof (SB_dim ks szs D K HU) as HSD. fold SB in HSD. pose proof (Forall2_length HW) as Hlen.
  assert (Hmat : matrices SB (n_pdim m) F = map (fun d => map (F d) (seq 0 (total szs d))) (seq 0 (Nat.min (n_pdim m) D + 1))).
  { unfold matrices. rewrite HSD. apply map_ext_in. intros d Hd. apply in_seq in Hd. f_equal. f_equal. apply (SB_n ks szs D K HU). lia. }
  set (NN := Nat.min (n_pdim m) D + 1) in *.
  assert (Hpool : pool_complex o (matrices SB (n_pdim m) F) (kb_batch b) (n_max_dim m) (n_pool m) =
     Ok (map (fun d => map (pooled o (n_pool m) szs NN F d) (seq 0 (length szs))) (seq 0 (n_max_dim m + 1)))).
  { rewrite Hmat, Hbt. apply pool_complex_spec; auto; unfold NN; lia. }
  set (PL := fun d => map (pooled o (n_pool m) szs NN F d) (seq 0 (length szs))) in *.
  assert (Hsel : mapM (get (map PL (seq 0 (n_max_dim m + 1)))) (n_dims m) = Ok (map PL (n_dims m))).
  { apply mapM_map_ok. intros d Hd. unfold get. rewrite nth_error_map_seq. specialize (N10 d Hd).
    destruct (Nat.ltb_spec d (n_max_dim m + 1)); [reflexivity|lia]. }
  assert (Hmp : forall i k sz, nth_error ks i = Some k -> nth_error szs i = Some sz -> forall d, pooled o (n_pool m) szs NN F d i = member_pool a (skel_of D k sz) (XM (k, sz)) d).
  { intros i k sz Ek Es d. unfold pooled, member_pool. rewrite (nth_error_nth _ _ _ Es). pose proof (Wk ks szs HW i k sz Ek Es) as W.
    destruct (Nat.ltb_spec d NN) as [Hdn|Hdn].
    - destruct (Nat.leb_spec d (a_pdim a)) as [Hda|]; [|unfold NN in *; lia].
      rewrite <- N7. rewrite skel_of_n by (auto; unfold NN in *; lia). f_equal.
      apply map_ext_in. intros j Hj. apply in_seq in Hj. symmetry. unfold F, h. rewrite <- N1, <- N3, <- N6.
      apply (final_agree o (fun A => @eq (list A)) (fun A B f l l' E => f_equal (map f) E) (fun r l l' E => f_equal (reduce_rows o r) E)
               (skel_of D k sz) SB (n_pdim m) (n_top m) true (blk szs D i k sz) (blk_refines ks szs D K HW HU i k sz Ek Es (n_pdim m) (n_top m))
               (n_jump m) (a_layers a) (XM (k, sz)) XB).
      + apply Forall_forall. intros L _ E. discriminate.
      + apply (Hag i k sz Ek Es).
      + split; auto. rewrite skel_of_n by (auto; unfold NN in *; lia). lia.
    - destruct (Nat.leb_spec d (a_pdim a)) as [Hda|]; auto. rewrite (so_above _ (skel_of_ok D k sz W)).
      { simpl. rewrite reduce_nil; auto. } simpl. unfold NN in *. lia. }
  assert (Hper : forall (f : nat -> V) (g : complex * (nat -> nat) -> V), (forall i k sz, nth_error ks i = Some k -> nth_error szs i = Some sz -> f i = g (k, sz)) ->
     map f (seq 0 (length szs)) = map g (combine ks szs)).
  { intros f g H. apply nth_error_ext. intros i. rewrite nth_error_map_seq, nth_error_map, nth_error_combine.
    destruct (Nat.ltb_spec i (length szs)) as [Hi|Hi].
    - destruct (nth_error szs i) as [sz|] eqn:Es; [|apply nth_error_None in Es; lia]. destruct (nth_error ks i) as [k|] eqn:Ek; [|apply nth_error_None in Ek; lia].
      cbn. f_equal. now apply H.
    - destruct (nth_error szs i) as [sz|] eqn:Es; [assert (i < length szs) by (apply nth_error_Some; congruence); lia|]. destruct (nth_error ks i); reflexivity. }
  destruct (n_dims m) as [|d0 dims'] eqn:Edims; [congruence|].
  destruct (partial_runs m b K' (map (matrices SB (n_pdim m)) h) _ _ _ (PL d0) (map PL dims') Hrun Hfin Hpool ltac:(rewrite Edims; exact Hsel) eq_refl) as (out & b' & Hnf & Hpf).
  assert (Hout : out = map (fun q => predict o a (skel_of D (fst q) (snd q)) (XM q)) (combine ks szs)).
  { unfold net_forward in Hnf. rewrite Hrun in Hnf. cbn [bind] in Hnf. rewrite Hfin in Hnf. cbn [bind] in Hnf.
    rewrite (readout_spec o m a _ _ (length szs) (pooled o (n_pool m) szs NN F) HN Hpool) in Hnf. cbn [bind] in Hnf. injection Hnf as <- _.
    apply Hper. intros i k sz Ek Es. unfold predict. apply combine_dims_ext. intros d _. exact (Hmp i k sz Ek Es d). }
  set (sel := map PL (d0 :: dims')) in *. exists out, (entries (map (matrices SB (n_pdim m)) h) sel out), b'.
  assert (Hcne : combine ks szs <> []) by (destruct ks, szs; try congruence; discriminate).
  split; [exact Hpf|]. split; [apply entries_keys|]. split.
  - unfold entries. rewrite !map_app. cbn [map fst]. f_equal; [|f_equal].
    + unfold layer_entries. rewrite concat_map, map_mapi. f_equal. apply nth_error_ext. intros c. rewrite nth_error_mapi, nth_error_map, nth_error_map_seq.
      assert (Hhl : length h = length (a_layers a)) by apply history_length.
      destruct (Nat.ltb_spec c (length (a_layers a))) as [Hc|Hc].
      * destruct (nth_error h c) as [X|] eqn:E; [|apply nth_error_None in E; lia]. cbn [option_map]. f_equal. rewrite map_mapi. cbn [fst].
        apply nth_error_ext. intros d. rewrite nth_error_mapi, nth_error_map_seq, matrices_at, HSD. unfold NN.
        destruct (Nat.leb_spec d (Nat.min (n_pdim m) D)), (Nat.ltb_spec d (Nat.min (n_pdim m) D + 1)); try lia; reflexivity.
      * destruct (nth_error h c) as [X|] eqn:E; [assert (c < length h) by (apply nth_error_Some; congruence); lia|reflexivity].
    + unfold pool_entries. rewrite map_mapi. cbn [fst]. apply nth_error_ext. intros j. rewrite nth_error_mapi, nth_error_map_seq. unfold sel. rewrite nth_error_map.
      destruct (Nat.ltb_spec j (length (d0 :: dims'))) as [Hj|Hj].
      * destruct (nth_error (d0 :: dims') j) eqn:E; [reflexivity|]. apply nth_error_None in E. lia.
      * apply nth_error_None in Hj. now rewrite Hj.
  - assert (Hk : forall key, kind key -> dict_get key (entries (map (matrices SB (n_pdim m)) h) sel out) =
                   join (map (fun q => dict_get key (member a (skel_of D (fst q) (snd q)) (XM q))) (combine ks szs))).
    { intros key [(c & d & ->)|[(j & ->)| ->]].
      - rewrite entries_layer. transitivity (join (map (fun q : complex * (nat -> nat) => match nth_error (member_hist a (skel_of D (fst q) (snd q)) (XM q)) c with Some xs => nth_error xs d | None => None end) (combine ks szs))); [|f_equal; apply map_ext; intros q; symmetry; apply entries_layer]. rewrite nth_error_map. unfold member_hist.
        destruct (nth_error h c) as [X|] eqn:Ec.
        + cbn [option_map]. rewrite matrices_at, HSD.
          assert (Hmem : forall i k sz, nth_error ks i = Some k -> nth_error szs i = Some sz ->
             exists Y, nth_error (history o (a_pdim a) (a_top a) (skel_of D k sz) (a_layers a) (XM (k, sz))) c = Some Y /\ agree (blk szs D i k sz) (length (a_layers a)) Y X).
          { intros i k sz Ek Es.
            pose proof (history_agree o (fun A => @eq (list A)) (fun A B f l l' E => f_equal (map f) E) (fun r l l' E => f_equal (reduce_rows o r) E)
               (skel_of D k sz) SB (n_pdim m) (n_top m) true (blk szs D i k sz) (blk_refines ks szs D K HW HU i k sz Ek Es (n_pdim m) (n_top m))
               (a_layers a) 0 (XM (k, sz)) XB ltac:(apply Forall_forall; intros L _ E; discriminate) (Hag i k sz Ek Es)) as HA.
            fold h in HA. rewrite N1, N3 in HA. destruct (Forall2_nth_error_r _ _ _ HA _ _ Ec) as (Y & HY & HYX). exists Y. auto. }
          set (sub := fun q : complex * (nat -> nat) => match nth_error (map (matrices (skel_of D (fst q) (snd q)) (a_pdim a)) (history o (a_pdim a) (a_top a) (skel_of D (fst q) (snd q)) (a_layers a) (XM q))) c with
                             | Some xs => nth_error xs d | None => None end).
          change (map _ (combine ks szs)) with (map sub (combine ks szs)).
          assert (Hsub : forall i k sz, nth_error ks i = Some k -> nth_error szs i = Some sz ->
              sub (k, sz) = if d <=? Nat.min (n_pdim m) (Nat.min (k_dim k) D) then Some (map (X d) (seq (off szs i d) (sz d))) else None).
          { intros i k sz Ek Es. destruct (Hmem i k sz Ek Es) as (Y & HY & HA). unfold sub. cbn [fst snd]. rewrite nth_error_map, HY. cbn [option_map].
            rewrite matrices_at. cbn [skel_of s_dim]. rewrite <- N1. destruct (Nat.leb_spec d (Nat.min (n_pdim m) (Nat.min (k_dim k) D))) as [Hd|Hd]; [|reflexivity]. f_equal.
            pose proof (Wk ks szs HW i k sz Ek Es) as W. change (s_n _ d) with (s_n (skel_of D k sz) d). rewrite skel_of_n by (auto; lia).
            apply nth_error_ext. intros j. rewrite !nth_error_map. destruct (Nat.ltb_spec j (sz d)) as [Hj|Hj].
            - rewrite !(nth_error_nth' (seq _ _) 0) by (rewrite seq_length; lia). rewrite !seq_nth by lia. cbn. f_equal. apply HA. split; [|reflexivity]. rewrite skel_of_n by (auto; lia). exact Hj.
            - rewrite !(proj2 (nth_error_None (seq _ _) j)) by (rewrite seq_length; lia). reflexivity. }
          rewrite join_form. destruct (Nat.leb_spec d (Nat.min (n_pdim m) D)) as [Hd|Hd].
          * assert (Hex : existsb (fun x => match x with Some _ => true | None => false end) (map sub (combine ks szs)) = true).
            { destruct (Hpres d ltac:(lia)) as (k & Hk & Hdk). apply In_nth_error in Hk as [i Ek].
              destruct (nth_error szs i) as [sz|] eqn:Es; [|apply nth_error_None in Es; assert (i < length ks) by (apply nth_error_Some; congruence); lia].
              apply existsb_exists. exists (sub (k, sz)). split.
              - apply in_map, (nth_error_In _ i). now rewrite nth_error_combine, Ek, Es.
              - rewrite (Hsub i k sz Ek Es). destruct (Nat.leb_spec d (Nat.min (n_pdim m) (Nat.min (k_dim k) D))); [reflexivity|lia]. }
            rewrite Hex. f_equal. rewrite map_map. rewrite (SB_n ks szs D K HU) by lia.
            assert (Htot : total szs d = list_sum (map (fun q : complex * (nat -> nat) => snd q d) (combine ks szs))).
            { unfold total. f_equal. apply nth_error_ext. intros i. rewrite !nth_error_map, nth_error_combine. destruct (nth_error szs i) as [sz|] eqn:Es.
              - destruct (nth_error ks i) as [k|] eqn:Ek; [reflexivity|]. apply nth_error_None in Ek. assert (i < length szs) by (apply nth_error_Some; congruence). lia.
              - destruct (nth_error ks i); reflexivity. }
            rewrite Htot. apply blocks. intros i [k sz] Hi. rewrite nth_error_combine in Hi. destruct (nth_error ks i) as [k1|] eqn:Ek; [|discriminate]. destruct (nth_error szs i) as [sz1|] eqn:Es; [|discriminate].
            injection Hi as -> ->. rewrite (Hsub i k sz Ek Es). cbn [snd].
            assert (Hoff : 0 + list_sum (map (fun q : complex * (nat -> nat) => snd q d) (firstn i (combine ks szs))) = off szs i d).
            { unfold off. cbn [plus]. f_equal. apply nth_error_ext. intros j. rewrite !nth_error_map. clear - Hlen. revert szs ks Hlen j. induction i as [|i IH]; intros szs ks Hlen j; [destruct j; reflexivity|].
              destruct ks as [|k ks], szs as [|z szs]; try discriminate; [destruct j; reflexivity|]. cbn [combine firstn]. destruct j as [|j]; [reflexivity|]. cbn. apply IH. cbn in Hlen. lia. }
            rewrite Hoff. destruct (Nat.leb_spec d (Nat.min (n_pdim m) (Nat.min (k_dim k) D))) as [Hd'|Hd']; [reflexivity|].
            rewrite (wfk_above _ _ (Wk ks szs HW i k sz Ek Es)) by lia. reflexivity.
          * assert (Hex : existsb (fun x => match x with Some _ => true | None => false end) (map sub (combine ks szs)) = false); [|now rewrite Hex].
            apply not_true_is_false. intros Hex. apply existsb_exists in Hex as (x & Hx & E). apply in_map_iff in Hx as ([k sz] & <- & Hx). apply In_nth_error in Hx as [i Hi].
            rewrite nth_error_combine in Hi. destruct (nth_error ks i) as [k1|] eqn:Ek; [|discriminate]. destruct (nth_error szs i) as [sz1|] eqn:Es; [|discriminate]. injection Hi as -> ->.
            rewrite (Hsub i k sz Ek Es) in E. destruct (Nat.leb_spec d (Nat.min (n_pdim m) (Nat.min (k_dim k) D))); [lia|discriminate].
        + cbn [option_map]. symmetry. rewrite join_form.
          assert (Hex : existsb (fun x => match x with Some _ => true | None => false end) (map (fun q : complex * (nat -> nat) => match nth_error (map (matrices (skel_of D (fst q) (snd q)) (a_pdim a)) (history o (a_pdim a) (a_top a) (skel_of D (fst q) (snd q)) (a_layers a) (XM q))) c with
                             | Some xs => nth_error xs d | None => None end) (combine ks szs)) = false); [|now rewrite Hex].
          apply not_true_is_false. intros Hex. apply existsb_exists in Hex as (x & Hx & E). apply in_map_iff in Hx as (q & <- & Hx).
          apply nth_error_None in Ec. unfold h in Ec. rewrite history_length in Ec. rewrite nth_error_map in E.
          rewrite (proj2 (nth_error_None _ c)) in E by (rewrite history_length; exact Ec). discriminate.
      - rewrite entries_pool. transitivity (join (map (fun q : complex * (nat -> nat) => nth_error (map (fun d => [member_pool a (skel_of D (fst q) (snd q)) (XM q) d]) (a_dims a)) j) (combine ks szs))); [|f_equal; apply map_ext; intros q; symmetry; apply entries_pool]. unfold sel. rewrite nth_error_map. rewrite <- N8.
        destruct (nth_error (d0 :: dims') j) as [d|] eqn:Ej.
        + cbn [option_map]. rewrite (map_ext _ (fun q : complex * (nat -> nat) => Some [member_pool a (skel_of D (fst q) (snd q)) (XM q) d])).
          * rewrite join_ones by exact Hcne. f_equal. unfold PL. apply Hper. intros i k sz Ek Es. exact (Hmp i k sz Ek Es d).
          * intros q. now rewrite nth_error_map, Ej.
        + cbn [option_map]. rewrite (map_ext _ (fun q : complex * (nat -> nat) => None)).
          * clear. induction (combine ks szs); [reflexivity|assumption].
          * intros q. now rewrite nth_error_map, Ej.
      - rewrite entries_out. transitivity (join (map (fun q : complex * (nat -> nat) => Some [predict o a (skel_of D (fst q) (snd q)) (XM q)]) (combine ks szs))); [|f_equal; apply map_ext; intros q; symmetry; apply entries_out]. rewrite join_ones by exact Hcne. now rewrite Hout. }
    intros key. destruct (dict_get key (entries (map (matrices SB (n_pdim m)) h) sel out)) as [x|] eqn:E.
    + rewrite <- E. apply Hk. eapply entries_kind. exact E.
    + destruct (join _) as [y|] eqn:Ej; [|reflexivity]. rewrite <- E, <- Ej. apply Hk. rewrite join_form in Ej.
      destruct (existsb _ _) eqn:Ex; [|discriminate]. apply existsb_exists in Ex as (x & Hx & Hs). apply in_map_iff in Hx as (q & <- & Hq).
      destruct (dict_get key (member a (skel_of D (fst q) (snd q)) (XM q))) as [z|] eqn:Ez; [|discriminate]. unfold member in Ez. eapply entries_kind. exact Ez.
Qed.
End Pass.
