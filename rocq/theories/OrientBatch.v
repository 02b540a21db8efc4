From Coq Require Import List Arith Lia ZArith Bool Permutation.
From Verif Require Import Base ScatterModel ScatterSpec ScatterProofs ComplexModel MPModel
  OrientModel OrientSpec OrientProofs.
Import ListNotations.

Section Batch.
Context {V : Type} (o : ops V) (sc : Z -> V -> V) (vabs : V -> V).
Notation cochain := (cochain V).

(** The content of an oriented cochain as one record. *)
Record odata := mkOData {
  t_x : list V; t_up : list (nat * nat); t_su : list Z; t_lo : list (nat * nat); t_sl : list Z }.
Definition holds (c : cochain) (t : odata) : Prop :=
  oriented c (t_x t) (t_up t) (t_su t) (t_lo t) (t_sl t).

Definition shifted (n : nat) (a : list (nat * nat)) : list (nat * nat) :=
  map (fun e => (fst e + n, snd e + n)) a.

(** Disjoint union. *)
Definition oplus (t u : odata) : odata :=
  mkOData (t_x t ++ t_x u)
    (t_up t ++ shifted (length (t_x t)) (t_up u)) (t_su t ++ t_su u)
    (t_lo t ++ shifted (length (t_x t)) (t_lo u)) (t_sl t ++ t_sl u).
Definition ozero : odata := mkOData [] [] [] [] [].
Definition ojoin (ts : list odata) : odata := fold_right oplus ozero ts.

Lemma combine_app' {A B} (a a' : list A) (b b' : list B) : length b = length a ->
  combine (a ++ a') (b ++ b') = combine a b ++ combine a' b'.
Proof. revert b; induction a as [|x a IH]; intros [|y b] H; simpl in *; try discriminate; f_equal; auto. Qed.

Lemma inflow_app orient x x' a a' s s' i : length s = length a -> length s' = length a' ->
  (forall j i, In (j, i) a -> j < length x /\ i < length x) ->
  (forall j i, In (j, i) a' -> j < length x' /\ i < length x') ->
  inflow o sc orient (x ++ x') (a ++ shifted (length x) a') (s ++ s') i =
    if i <? length x then inflow o sc orient x a s i else inflow o sc orient x' a' s' (i - length x).
Proof.
  intros Hs Hs' Hr Hr'. unfold inflow. rewrite combine_app' by auto. rewrite filter_app.
  destruct (Nat.ltb_spec i (length x)) as [Hi|Hi].
  - assert (E : filter (fun e => snd (fst e) =? i) (combine (shifted (length x) a') s') = []).
    { unfold shifted. rewrite combine_map_fst, filter_map_comm. cbn [fst snd].
      rewrite (filter_ext _ (fun _ => false)); [|intros a0; apply Nat.eqb_neq; lia].
      induction (combine a' s'); simpl; auto. }
    rewrite E, app_nil_r. f_equal. apply map_ext_in. intros [[j k] t] He. apply filter_In in He as (He & _).
    apply in_combine_l in He. destruct (Hr j k He). cbn [fst snd]. rewrite app_nth1; auto.
  - assert (E : filter (fun e => snd (fst e) =? i) (combine a s) = []).
    { assert (G : forall e, In e (combine a s) -> (snd (fst e) =? i) = false).
      { intros [[j k] t] He. apply in_combine_l in He. destruct (Hr j k He). apply Nat.eqb_neq. cbn [fst snd]. lia. }
      revert G. induction (combine a s) as [|e l IH]; intros G; auto. cbn [filter]. rewrite G by (left; auto). apply IH. intros; apply G; right; auto. }
    rewrite E. cbn [app]. unfold shifted. rewrite combine_map_fst, filter_map_comm, map_map. cbn [fst snd].
    rewrite (filter_ext _ (fun e => snd (fst e) =? i - length x)).
    2:{ intros [[j k] t]. cbn [fst snd]. destruct (Nat.eqb_spec k (i - length x)).
        - apply Nat.eqb_eq; lia. - apply Nat.eqb_neq; lia. }
    f_equal. apply map_ext. intros [[j k] t]. cbn [fst snd].
    rewrite app_nth2 by lia. rewrite Nat.add_sub. reflexivity.
Qed.

Definition tok (t : odata) : Prop :=
  length (t_su t) = length (t_up t) /\ length (t_sl t) = length (t_lo t) /\
  (forall j i, In (j, i) (t_up t) -> j < length (t_x t) /\ i < length (t_x t)) /\
  (forall j i, In (j, i) (t_lo t) -> j < length (t_x t) /\ i < length (t_x t)).

Lemma holds_tok c t : holds c t -> tok t.
Proof. intros H. split; [apply H|]. split; [apply H|]. split; apply H. Qed.

Lemma oplus_tok t u : tok t -> tok u -> tok (oplus t u).
Proof.
  intros (A & B & C & D) (A' & B' & C' & D'). unfold oplus, tok, shifted; cbn [t_x t_up t_su t_lo t_sl].
  rewrite !app_length, !map_length. split; [lia|]. split; [lia|].
  assert (G : forall a a', (forall j i, In (j, i) a -> j < length (t_x t) /\ i < length (t_x t)) ->
     (forall j i, In (j, i) a' -> j < length (t_x u) /\ i < length (t_x u)) ->
     forall j i, In (j, i) (a ++ map (fun e : nat * nat => (fst e + length (t_x t), snd e + length (t_x t))) a') ->
     j < length (t_x t) + length (t_x u) /\ i < length (t_x t) + length (t_x u)).
  { intros a a' Ha Ha' j i Hi. apply in_app_or in Hi as [Hi|Hi]; [destruct (Ha _ _ Hi); lia|].
    apply in_map_iff in Hi as ([j' i'] & E & Hi). injection E as <- <-. destruct (Ha' _ _ Hi). cbn [fst snd]. lia. }
  split; apply G; auto.
Qed.

Lemma ozero_tok : tok ozero.
Proof. unfold tok, ozero; cbn. repeat split; auto; tauto. Qed.

Lemma ojoin_tok ts : Forall tok ts -> tok (ojoin ts).
Proof. induction 1; cbn; [apply ozero_tok|apply oplus_tok; auto]. Qed.

(** What a layer computes on the content. *)
Definition tconv (l : olayer V) (t : odata) : list V :=
  map (layer_row o sc l (t_x t) (t_up t) (t_su t) (t_lo t) (t_sl t)) (seq 0 (length (t_x t))).

Lemma tconv_oplus l t u : tok t -> tok u -> tconv l (oplus t u) = tconv l t ++ tconv l u.
Proof.
  intros (A & B & C & D) (A' & B' & C' & D').
  apply nth_error_ext. intros i. unfold tconv. cbn [t_x oplus]. rewrite app_length.
  rewrite nth_error_map_seq.
  assert (Er : forall i, layer_row o sc l (t_x (oplus t u)) (t_up (oplus t u)) (t_su (oplus t u)) (t_lo (oplus t u)) (t_sl (oplus t u)) i =
    if i <? length (t_x t) then layer_row o sc l (t_x t) (t_up t) (t_su t) (t_lo t) (t_sl t) i
    else layer_row o sc l (t_x u) (t_up u) (t_su u) (t_lo u) (t_sl u) (i - length (t_x t))).
  { intros k. unfold layer_row, oplus; cbn [t_x t_up t_su t_lo t_sl]. rewrite !inflow_app by auto.
    destruct (Nat.ltb_spec k (length (t_x t))).
    - rewrite app_nth1 by auto. reflexivity.
    - rewrite app_nth2 by lia. reflexivity. }
  rewrite Er. destruct (Nat.ltb_spec i (length (t_x t))) as [Hi|Hi].
  - rewrite nth_error_app1 by (rewrite map_length, seq_length; auto). rewrite nth_error_map_seq.
    rewrite (proj2 (Nat.ltb_lt _ _)) by lia. rewrite (proj2 (Nat.ltb_lt _ _)) by lia. reflexivity.
  - rewrite nth_error_app2 by (rewrite map_length, seq_length; auto).
    rewrite map_length, seq_length, nth_error_map_seq.
    destruct (Nat.ltb_spec i (length (t_x t) + length (t_x u))), (Nat.ltb_spec (i - length (t_x t)) (length (t_x u))); auto; lia.
Qed.

Lemma tconv_join l ts : Forall tok ts -> tconv l (ojoin ts) = concat (map (tconv l) ts).
Proof.
  induction 1 as [|t ts Ht Hts IH]; [reflexivity|]. cbn [ojoin fold_right map concat].
  fold (ojoin ts). rewrite tconv_oplus; [f_equal; auto|auto|apply ojoin_tok; auto].
Qed.

Definition set_tx (t : odata) (y : list V) : odata := mkOData y (t_up t) (t_su t) (t_lo t) (t_sl t).

Lemma set_tx_oplus t u y z : length y = length (t_x t) ->
  set_tx (oplus t u) (y ++ z) = oplus (set_tx t y) (set_tx u z).
Proof. intros H. unfold set_tx, oplus; cbn. rewrite H. reflexivity. Qed.

Lemma ojoin_set ts ys : Forall2 (fun t y => length y = length (t_x t)) ts ys ->
  set_tx (ojoin ts) (concat ys) = ojoin (map (fun p => set_tx (fst p) (snd p)) (combine ts ys)).
Proof.
  induction 1 as [|t y ts ys H _ IH]; [reflexivity|]. cbn [ojoin fold_right concat combine map fst snd].
  fold (ojoin ts). rewrite set_tx_oplus by auto. rewrite IH. reflexivity.
Qed.

Lemma oriented_conv_holds l c t : holds c t ->
  oriented_conv o sc l c =
    match t_up t, t_lo t with [], _ => Err RuntimeError | _, [] => Err RuntimeError | _, _ => Ok (tconv l t) end.
Proof. intros H. apply (oriented_conv_spec o sc l c _ _ _ _ _ H). Qed.

Lemma conv_ok_inv l c t y : holds c t -> oriented_conv o sc l c = Ok y ->
  t_up t <> [] /\ t_lo t <> [] /\ y = tconv l t.
Proof.
  intros H E. rewrite (oriented_conv_holds l c t H) in E.
  destruct (t_up t), (t_lo t); try discriminate. injection E as <-. repeat split; discriminate.
Qed.

Lemma tconv_length l t : length (tconv l t) = length (t_x t).
Proof. unfold tconv. rewrite map_length, seq_length. reflexivity. Qed.

(** [C] is the disjoint union of the oriented cochains [cs]. *)
Definition joins (cs : list cochain) (C : cochain) : Prop :=
  exists ts, Forall2 holds cs ts /\ holds C (ojoin ts).

Lemma joins_tok cs C ts : Forall2 holds cs ts -> holds C (ojoin ts) -> Forall tok ts.
Proof. intros H _. induction H; constructor; eauto using holds_tok. Qed.

Lemma conv_joins l cs C ys : cs <> [] -> joins cs C ->
  Forall2 (fun c y => oriented_conv o sc l c = Ok y) cs ys ->
  oriented_conv o sc l C = Ok (concat ys).
Proof.
  intros Hne (ts & HF & HC) HY. pose proof (joins_tok _ _ _ HF HC) as HT.
  assert (E : ys = map (tconv l) ts).
  { clear HC HT Hne. revert ys HY. induction HF as [|c t cs ts H _ IH]; intros ys HY; inversion HY; subst; [reflexivity|].
    destruct (conv_ok_inv l c t _ H H2) as (_ & _ & ->). cbn [map]. f_equal. auto. }
  rewrite (oriented_conv_holds l C _ HC), E, <- tconv_join by auto.
  destruct HF as [|c t cs ts H HF]; [congruence|]. inversion HY as [|? y ? ys' H1 H2]; subst.
  destruct (conv_ok_inv l c t _ H H1) as (U & L & _).
  cbn [ojoin fold_right oplus t_up t_lo]. destruct (t_up t); [congruence|]. destruct (t_lo t); [congruence|]. reflexivity.
Qed.

Lemma set_x_holds c t y : holds c t -> length y = length (t_x t) ->
  exists k, set_x c (Some y) = Ok k /\ holds k (set_tx t y) /\ k = set_x_raw c (Some y).
Proof. intros H Hl. apply (set_x_oriented c _ _ _ _ _ y H Hl). Qed.

Lemma set_joins cs C ys : joins cs C ->
  Forall2 (fun c y => exists x, c_x c = Some x /\ length y = length x) cs ys ->
  exists ks K, Forall2 (fun cy k => set_x (fst cy) (Some (snd cy)) = Ok k) (combine cs ys) ks /\
    set_x C (Some (concat ys)) = Ok K /\ joins ks K /\ Forall2 (fun k y => c_x k = Some y) ks ys /\
    c_x K = Some (concat ys).
Proof.
  intros (ts & HF & HC) HY.
  assert (HL : Forall2 (fun t y => length y = length (t_x t)) ts ys).
  { clear HC. revert ys HY. induction HF as [|c t cs ts H _ IH]; intros ys HY; inversion HY; subst; constructor; auto.
    destruct H2 as (x & Ex & Hl). rewrite (or_x _ _ _ _ _ _ H) in Ex. injection Ex as <-. auto. }
  assert (HK : exists ks, Forall2 (fun cy k => set_x (fst cy) (Some (snd cy)) = Ok k) (combine cs ys) ks /\
     Forall2 holds ks (map (fun p => set_tx (fst p) (snd p)) (combine ts ys)) /\ Forall2 (fun k y => c_x k = Some y) ks ys).
  { clear HC HY. revert ys HL. induction HF as [|c t cs ts H _ IH]; intros ys HL; inversion HL; subst.
    - exists []. repeat constructor.
    - destruct (IH _ H4) as (ks & K1 & K2 & K3). destruct (set_x_holds c t y H H2) as (k & E & Hk & _).
      exists (k :: ks). split; [constructor; auto|]. split; [constructor; auto|]. constructor; auto. apply Hk. }
  destruct HK as (ks & K1 & K2 & K3).
  destruct (set_x_holds C _ (concat ys) HC) as (K & E & HK & _).
  { clear - HL. induction HL as [|t y ts ys H _ IH]; [reflexivity|]. cbn [concat ojoin fold_right oplus t_x].
    rewrite !app_length. fold (ojoin ts). lia. }
  exists ks, K. split; auto. split; auto. pose proof (or_x _ _ _ _ _ _ HK) as EK. rewrite (ojoin_set _ _ HL) in HK.
  split; [eexists; split; eauto|]. split; auto.
Qed.

Lemma loop_joins ls : forall cs C ks, cs <> [] -> joins cs C ->
  Forall2 (fun c k => conv_loop o sc ls c = Ok k) cs ks ->
  exists K, conv_loop o sc ls C = Ok K /\ joins ks K.
Proof.
  induction ls as [|l ls IH]; intros cs C ks Hne HJ HK; cbn [conv_loop] in *.
  - exists C. split; auto. replace ks with cs; auto. clear -HK.
    induction HK as [|c k cs ks H _ IH]; auto. injection H as ->. f_equal; auto.
  - assert (HY : exists ys, Forall2 (fun c y => oriented_conv o sc l c = Ok y) cs ys).
    { clear - HK. induction HK as [|c k cs ks H _ (ys & IH)]; [exists []; constructor|].
      apply bind_ok in H as (y & Hy & _). exists (y :: ys). constructor; auto. }
    destruct HY as (ys & HY). pose proof (conv_joins l cs C ys Hne HJ HY) as EC.
    rewrite EC. cbn [bind]. destruct (set_joins cs C ys HJ) as (ms & M & M1 & M2 & M3 & _).
    { destruct HJ as (ts & HF & HC). clear - HF HY. revert ys HY.
      induction HF as [|c t cs ts H _ IH]; intros ys HY; inversion HY; subst; constructor; auto.
      exists (t_x t). split; [apply H|]. destruct (conv_ok_inv l c t _ H H2) as (_ & _ & ->). apply tconv_length. }
    rewrite M2. cbn [bind]. apply (IH ms); auto.
    { intros ->. destruct HY; [congruence|]. inversion M1. }
    clear - HK HY M1. revert ys ms HY M1. induction HK as [|c k cs ks H _ IH]; intros ys ms HY M1.
    + inversion HY; subst. inversion M1; subst. constructor.
    + inversion HY; subst. inversion M1; subst. constructor; eauto. cbn [fst snd] in *.
      rewrite H2 in H. cbn [bind] in H. rewrite H3 in H. exact H.
Qed.

(** ** The batch of a list of oriented cochains *)
Lemma holds_num c t : holds c t -> num_cells c = Ok (Some (length (t_x t))).
Proof.
  intros H. unfold num_cells. destruct (or_n _ _ _ _ _ _ H) as [-> | ->]; auto.
  rewrite (or_x _ _ _ _ _ _ H). auto.
Qed.

Lemma plain_keys {T} (get : cochain -> option (list T)) (f : odata -> list T) cs ts :
  Forall2 holds cs ts -> (forall c t, holds c t -> get c = Some (f t)) -> cs <> [] ->
  batch_plain get cs = Ok (Some (concat (map f ts))).
Proof.
  intros HF Hg Hne. unfold batch_plain, batch_key.
  assert (E : existsb (fun c => isSome (get c)) cs = true).
  { destruct HF as [|c t cs ts H]; [congruence|]. cbn [existsb]. rewrite (Hg c t H). reflexivity. }
  rewrite E.
  assert (G : exists r, key_loop get inc_none (fun _ _ => tt) keep tt cs = Ok r /\ concat r = concat (map f ts)).
  { clear E Hne. induction HF as [|c t cs ts H _ (r & IH & IH')]; [exists []; auto|].
    cbn [key_loop inc_none bind]. rewrite IH. cbn [bind]. eexists. split; [reflexivity|].
    rewrite (Hg c t H). cbn [concat map app]. rewrite IH'. f_equal. rewrite (map_ext _ (fun x => x)); [apply map_id|reflexivity]. }
  destruct G as (r & Er & Ec). rewrite Er. cbn [bind]. rewrite Ec. reflexivity.
Qed.

Lemma shifted_app n a b : shifted n (a ++ b) = shifted n a ++ shifted n b.
Proof. apply map_app. Qed.
Lemma shifted_shifted n m a : shifted n (shifted m a) = shifted (m + n) a.
Proof. unfold shifted. rewrite map_map. apply map_ext. intros e; cbn [fst snd]. f_equal; lia. Qed.
Lemma shifted_0 a : shifted 0 a = a.
Proof. unfold shifted. rewrite <- (map_id a) at 2. apply map_ext. intros [j i]. cbn [fst snd]. f_equal; lia. Qed.

Lemma adj_keys (get : cochain -> option (list (nat * nat))) (f : odata -> list (nat * nat)) cs ts :
  Forall2 holds cs ts -> (forall c t, holds c t -> get c = Some (f t)) -> cs <> [] ->
  (forall t u, f (oplus t u) = f t ++ shifted (length (t_x t)) (f u)) -> f ozero = [] ->
  batch_key get inc_cells Nat.add 0 shift_pair cs = Ok (Some (f (ojoin ts))).
Proof.
  intros HF Hg Hne Hp H0. unfold batch_key.
  assert (E : existsb (fun c => isSome (get c)) cs = true).
  { destruct HF as [|c t cs ts H]; [congruence|]. cbn [existsb]. rewrite (Hg c t H). reflexivity. }
  rewrite E.
  assert (G : forall k, exists r, key_loop get inc_cells Nat.add shift_pair k cs = Ok r /\ concat r = shifted k (f (ojoin ts))).
  { clear E Hne. induction HF as [|c t cs ts H _ IH]; intros k.
    - exists []. split; auto. cbn [ojoin fold_right concat]. rewrite H0. reflexivity.
    - cbn [key_loop]. unfold inc_cells at 1. rewrite (holds_num c t H). cbn [bind or0].
      destruct (IH (length (t_x t) + k)) as (r & -> & Er). cbn [bind]. eexists. split; [reflexivity|].
      rewrite (Hg c t H). cbn [concat app ojoin fold_right]. fold (ojoin ts). rewrite Hp, shifted_app, shifted_shifted, Er. reflexivity. }
  destruct (G 0) as (r & -> & Er). cbn [bind]. rewrite Er, shifted_0. reflexivity.
Qed.

Lemma join_x ts : t_x (ojoin ts) = concat (map t_x ts).
Proof. induction ts; cbn [ojoin fold_right oplus t_x map concat]; auto. f_equal. auto. Qed.
Lemma join_su ts : t_su (ojoin ts) = concat (map t_su ts).
Proof. induction ts; cbn [ojoin fold_right oplus t_su map concat]; auto. f_equal. auto. Qed.
Lemma join_sl ts : t_sl (ojoin ts) = concat (map t_sl ts).
Proof. induction ts; cbn [ojoin fold_right oplus t_sl map concat]; auto. f_equal. auto. Qed.

(** The assignment vector: the number of every sample, once per cell. *)
Definition numbered {A} (s : nat) (xs : list (list A)) : list nat :=
  concat (mapi_from (fun i x => repeat i (length x)) s xs).

Lemma batch_loop_holds cs ts : Forall2 holds cs ts -> forall i ptr,
  exists r, batch_loop i ptr cs = Ok r /\ concat (fst r) = numbered i (map t_x ts) /\
    length (fst r) = length cs.
Proof.
  induction 1 as [|c t cs ts H _ IH]; intros i ptr; cbn [batch_loop].
  - exists ([], []). auto.
  - rewrite (holds_num c t H). cbn [bind]. destruct (IH (S i) (ptr + length (t_x t))) as (r & -> & E & El).
    cbn [bind]. eexists. split; [reflexivity|]. cbn [fst concat length]. rewrite E, El. split; auto.
Qed.

Lemma from_list_joins cs ts b : Forall2 holds cs ts -> from_cochain_list cs = Ok b ->
  holds (cb_cochain b) (ojoin ts) /\ cb_batch b = Some (numbered 0 (map t_x ts)).
Proof.
  intros HF. destruct HF as [|c t cs ts H HF]; [discriminate|]. unfold from_cochain_list.
  assert (HF' : Forall2 holds (c :: cs) (t :: ts)) by (constructor; auto).
  assert (Hne : c :: cs <> []) by discriminate.
  pose proof (joins_tok' := ojoin_tok (t :: ts)).
  assert (HT : Forall tok (t :: ts)).
  { clear -HF'. induction HF'; constructor; eauto using holds_tok. }
  rewrite (plain_keys c_x t_x _ _ HF') by (auto; intros ? ? K; apply K). cbn [bind].
  rewrite (adj_keys c_upper t_up _ _ HF') by (auto; intros ? ? K; apply K). cbn [bind].
  rewrite (adj_keys c_lower t_lo _ _ HF') by (auto; intros ? ? K; apply K). cbn [bind].
  intros E. apply bind_ok in E as (shb & _ & E). apply bind_ok in E as (shc & _ & E). apply bind_ok in E as (bi & _ & E).
  rewrite (plain_keys c_uor t_su _ _ HF') in E by (auto; intros ? ? K; apply K). cbn [bind] in E.
  rewrite (plain_keys c_lor t_sl _ _ HF') in E by (auto; intros ? ? K; apply K). cbn [bind] in E.
  apply bind_ok in E as (y & _ & E). apply bind_ok in E as (mask & _ & E).
  destruct (batch_loop_holds _ _ HF' 0 0) as (r & Er & E1 & E2). rewrite Er in E. cbn [bind] in E. injection E as <-.
  cbn [cb_cochain cb_batch]. split.
  - specialize (joins_tok' HT) as (A & B & C & D).
    split; cbn [c_x c_upper c_uor c_lower c_lor c_n]; rewrite ?join_x, ?join_su, ?join_sl; auto.
    + rewrite <- join_su; auto. + rewrite <- join_sl; auto. + rewrite <- join_x; auto. + rewrite <- join_x; auto.
  - destruct (fst r) as [|r0 rs] eqn:Ef; [discriminate E2|]. f_equal. rewrite <- E1. reflexivity.
Qed.

(** Oriented cochains as the flow data sets make them can always be batched. *)
Lemma from_list_ok cs : cs <> [] -> (forall c, In c cs -> (exists t, holds c t) /\
    c_shb c = None /\ c_shc c = None /\ c_bidx c = None) ->
  exists b, from_cochain_list cs = Ok b.
Proof.
  intros Hne H.
  assert (HF : exists ts, Forall2 holds cs ts).
  { clear Hne. induction cs as [|c cs IH]; [exists []; constructor|].
    destruct IH as (ts & IH); [intros; apply H; right; auto|]. destruct (H c (or_introl eq_refl)) as ((t & Ht) & _).
    exists (t :: ts). constructor; auto. }
  destruct HF as (ts & HF).
  assert (HN : forall T C (get : cochain -> option (list T)) inc plus (zero : C) shift,
    (forall c, In c cs -> get c = None) -> batch_key get inc plus zero shift cs = Ok None).
  { intros T C get inc plus zero shift Hg. unfold batch_key.
    replace (existsb (fun c => isSome (get c)) cs) with false; auto. symmetry.
    clear - Hg. induction cs as [|c cs IH]; auto. cbn [existsb]. rewrite Hg by (left; auto). apply IH. intros; apply Hg; right; auto. }
  assert (HP : forall T (get : cochain -> option (list T)), exists r, batch_plain get cs = Ok r).
  { intros T get. unfold batch_plain, batch_key. destruct (existsb _ cs); [|eauto].
    assert (G : exists r, key_loop get inc_none (fun _ _ => tt) keep tt cs = Ok r).
    { clear. induction cs as [|c cs (r & IH)]; cbn [key_loop inc_none bind]; eauto. rewrite IH. cbn [bind]. eauto. }
    destruct G as (r & ->). cbn [bind]. eauto. }
  destruct cs as [|c cs]; [congruence|]. unfold from_cochain_list.
  rewrite (plain_keys c_x t_x _ _ HF) by (auto; intros ? ? K; apply K). cbn [bind].
  rewrite (adj_keys c_upper t_up _ _ HF) by (auto; intros ? ? K; apply K). cbn [bind].
  rewrite (adj_keys c_lower t_lo _ _ HF) by (auto; intros ? ? K; apply K). cbn [bind].
  rewrite !HN by (intros; apply H; auto). cbn [bind].
  rewrite (plain_keys c_uor t_su _ _ HF) by (auto; intros ? ? K; apply K). cbn [bind].
  rewrite (plain_keys c_lor t_sl _ _ HF) by (auto; intros ? ? K; apply K). cbn [bind].
  destruct (HP _ c_y) as (y & ->). cbn [bind]. destruct (HP _ c_mask) as (m & ->). cbn [bind].
  destruct (batch_loop_holds _ _ HF 0 0) as (r & -> & _). cbn [bind]. eauto.
Qed.

(** ** Pooling *)
Lemma numbered_length {A} s (xs : list (list A)) : length (numbered s xs) = length (concat xs).
Proof.
  unfold numbered. revert s; induction xs as [|x xs IH]; intros s; cbn [mapi_from concat]; auto.
  rewrite !app_length, repeat_length, IH. reflexivity.
Qed.

Lemma messages_numbered s (xs : list (list V)) i :
  messages_to i (numbered s xs) (concat xs) = if i <? s then [] else nth (i - s) xs [].
Proof.
  unfold messages_to, numbered. revert s; induction xs as [|x xs IH]; intros s; cbn [mapi_from concat].
  - destruct (i <? s), (i - s); reflexivity.
  - rewrite combine_app' by (rewrite repeat_length; auto). rewrite filter_app, map_app, IH.
    assert (E : map snd (filter (fun p => fst p =? i) (combine (repeat s (length x)) x)) = if i =? s then x else []).
    { clear. induction x as [|v x IH]; [destruct (i =? s); reflexivity|]. cbn [length repeat combine filter fst].
      rewrite (Nat.eqb_sym s i). destruct (i =? s) eqn:E; cbn [map snd]; [f_equal|]; auto. }
    rewrite E. destruct (Nat.eqb_spec i s) as [->|Hne].
    + rewrite (proj2 (Nat.ltb_ge s s)), (proj2 (Nat.ltb_lt s (S s))) by lia. rewrite Nat.sub_diag, app_nil_r. reflexivity.
    + destruct (Nat.ltb_spec i s), (Nat.ltb_spec i (S s)); try lia; auto.
      replace (i - s) with (S (i - S s)) by lia. reflexivity.
Qed.

Lemma numbered_max (xs : list (list V)) : xs <> [] -> Forall (fun x => x <> []) xs ->
  list_max_err (numbered 0 xs) = Ok (length xs - 1).
Proof.
  intros Hne HF.
  assert (Hin : forall s k, In k (numbered s xs) -> s <= k < s + length xs).
  { clear. unfold numbered. induction xs as [|x xs IH]; intros s k; cbn [mapi_from concat]; [intros []|].
    intros H. apply in_app_or in H as [H|H]; [apply repeat_spec in H; subst; simpl; lia|]. specialize (IH _ _ H). simpl. lia. }
  assert (Hlast : forall s, In (s + length xs - 1) (numbered s xs)).
  { clear Hin. unfold numbered. revert Hne. induction HF as [|x xs Hx HF IH]; intros Hne s; [congruence|].
    cbn [mapi_from concat]. destruct xs as [|x' xs].
    - cbn [length mapi_from concat]. rewrite app_nil_r. replace (s + 1 - 1) with s by lia. destruct x; [congruence|]. left; auto.
    - apply in_or_app. right. specialize (IH ltac:(discriminate) (S s)).
      replace (s + length (x :: x' :: xs) - 1) with (S s + length (x' :: xs) - 1) by (cbn [length]; lia). exact IH. }
  specialize (Hlast 0). remember (numbered 0 xs) as l eqn:El. destruct l as [|k l]; [destruct Hlast|].
  cbn [list_max_err]. f_equal. apply Nat.le_antisymm.
  - apply list_max_le. apply Forall_forall. intros j Hj. specialize (Hin 0 j). rewrite <- El in Hin. specialize (Hin Hj). lia.
  - pose proof (proj1 (list_max_le (k :: l) (list_max (k :: l))) (Nat.le_refl _)) as HM. rewrite Forall_forall in HM.
    apply HM in Hlast. cbn [Nat.add] in Hlast. exact Hlast.
Qed.

Lemma pool_numbered r (xs : list (list V)) : xs <> [] -> Forall (fun x => x <> []) xs ->
  exists s, list_max_err (numbered 0 xs) = Ok s /\
    scatter o r (Some (S s)) (numbered 0 xs) (concat xs) = Ok (map (reduce_rows o r) xs).
Proof.
  intros Hne HF. exists (length xs - 1). split; [apply numbered_max; auto|].
  assert (Hl : 0 < length xs) by (destruct xs; [congruence|simpl; lia]).
  replace (S (length xs - 1)) with (length xs) by lia.
  rewrite scatter_correct.
  - f_equal. apply nth_error_ext. intros i. rewrite nth_error_map_seq, nth_error_map.
    destruct (Nat.ltb_spec i (length xs)) as [Hi|Hi].
    + rewrite messages_numbered, Nat.sub_0_r. cbn [Nat.ltb]. rewrite (nth_error_nth' xs []) by auto. reflexivity.
    + rewrite (proj2 (nth_error_None xs i)) by auto. reflexivity.
  - apply Forall_forall. intros k Hk. assert (Hin : forall (ys : list (list V)) s, In k (numbered s ys) -> k < s + length ys).
    { clear. unfold numbered. induction ys as [|x xs IH]; intros s; cbn [mapi_from concat]; [intros []|].
      intros H. apply in_app_or in H as [H|H]; [apply repeat_spec in H; subst; simpl; lia|]. specialize (IH _ H). simpl. lia. }
    apply Hin in Hk. exact Hk.
  - apply numbered_length.
Qed.

End Batch.
