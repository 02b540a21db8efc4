(** C52: evaluation over a data loader. *)
From Coq Require Import List Arith Lia ZArith QArith Bool Permutation Lqa.
From Verif Require Import Base ScatterModel ScatterSpec ScatterProofs ComplexModel BatchSpec BatchSpec2
  BatchProofs BatchProofs2 BatchProps MPModel MPSpec MPProofs MPEngine MPBatch MPForward MPNets MPProps
  EmbedModel EmbedSpec EmbedProofs EmbedNets EmbedProps
  DatasetModel DatasetSpec DatasetProofs DatasetProps ExpModel ExpProofs ExpProps InferModel DummyModel.
Import ListNotations.
Open Scope nat_scope.

(** ** Chunks *)
Lemma chunks_concat {A} bs (l : list A) : 1 <= bs -> forall fuel, length l <= fuel -> concat (chunks fuel bs l) = l.
Proof.
  intros Hb fuel. revert l. induction fuel as [|f IH]; intros [|a l] Hl; auto; cbn [length] in Hl; [lia|].
  cbn [chunks concat]. rewrite IH; [apply firstn_skipn|]. rewrite skipn_length. cbn [length]. lia.
Qed.
Lemma chunks_nonempty {A} bs (l : list A) : 1 <= bs -> forall fuel c, In c (chunks fuel bs l) -> c <> [].
Proof.
  intros Hb fuel. revert l. induction fuel as [|f IH]; intros [|a l] c Hc; cbn in Hc; try tauto.
  destruct Hc as [<-|Hc]; [|eapply IH; eauto]. destruct bs; [lia|discriminate].
Qed.

Section Generic.
Context {V : Type}.
Variable fwd : kbatch V -> result (list V * kbatch V).
Variable md : nat.
Notation complex := (complex V).

(** The prediction for a complex that is batched alone. *)
Definition alone (k : complex) (v : V) : Prop :=
  exists b b', from_complex_list [k] md = Ok b /\ fwd b = Ok ([v], b').

Lemma alone_fun k v v' : alone k v -> alone k v' -> v = v'.
Proof. intros (b & b' & H1 & H2) (c & c' & H3 & H4). congruence. Qed.

(** Every batch of complexes of [ks] is evaluated, each member as if it were alone. *)
Definition independent (ks : list complex) : Prop :=
  forall ks', ks' <> [] -> incl ks' ks ->
  exists b out b', from_complex_list ks' md = Ok b /\ fwd b = Ok (out, b') /\ Forall2 alone ks' out.

Lemma predicts ks : independent ks -> exists f : list complex -> list V, forall ks', ks' <> [] -> incl ks' ks ->
  (exists y, predict fwd md ks' = Ok (f ks', y)) /\ Forall2 alone ks' (f ks').
Proof.
  intros HI. exists (fun ks' => match predict fwd md ks' with Ok (out, _) => out | _ => [] end).
  intros ks' Hne Hin. destruct (HI ks' Hne Hin) as (b & out & b' & H1 & H2 & H3).
  unfold predict. rewrite H1. cbn [bind]. rewrite H2. cbn [bind]. eauto.
Qed.

Lemma mapM_preds ks bl : independent ks -> (forall c, In c bl -> c <> [] /\ incl c ks) ->
  exists preds, mapM (predict fwd md) bl = Ok preds /\ Forall2 alone (concat bl) (concat (map fst preds)) /\
    length preds = length bl /\ map snd preds = map (batch_labels (V := V)) bl.
Proof.
  intros HI. induction bl as [|c bl IH]; intros Hc.
  - exists []. split; auto. split; [constructor|auto].
  - destruct IH as (preds & P1 & P2 & P3 & P4); [intros; apply Hc; right; auto|].
    destruct (Hc c (or_introl eq_refl)) as [Hne Hin].
    destruct (HI c Hne Hin) as (b & out & b' & H1 & H2 & H3).
    exists ((out, k_y (kb_complex b)) :: preds). cbn [mapM]. unfold predict at 1. rewrite H1. cbn [bind]. rewrite H2. cbn [bind].
    rewrite P1. split; auto. split; [cbn [map concat fst]; apply Forall2_app; auto|]. cbn [length map snd]. split; [congruence|].
    rewrite (from_complex_list_y _ _ _ H1). congruence.
Qed.

(** Inference over a data loader returns, in order, the prediction of every complex alone. *)
Theorem C52_infer bs ks : independent ks -> 1 <= bs -> ks <> [] ->
  exists out, infer fwd md bs ks = Ok out /\ Forall2 alone ks out.
Proof.
  intros HI Hb Hne. unfold infer, loader. destruct (Nat.eqb_spec bs 0); [lia|]. cbn [bind].
  set (bl := chunks (length ks) bs ks).
  assert (Hcc : concat bl = ks) by (apply chunks_concat; auto).
  destruct (mapM_preds ks bl HI) as (preds & P1 & P2 & P3 & _).
  { intros c Hc. split; [eapply chunks_nonempty; eauto|]. intros k Hk. rewrite <- Hcc. apply in_concat. eauto. }
  rewrite P1. cbn [bind]. rewrite Hcc in P2. destruct preds as [|p preds].
  - destruct bl; [|discriminate]. cbn in Hcc. congruence.
  - eexists. split; [reflexivity|auto].
Qed.

Lemma forall2_alone_fun ks out out' : Forall2 alone ks out -> Forall2 alone ks out' -> out = out'.
Proof.
  intros H. revert out'. induction H as [|k v ks out Hk H IH]; intros out' H'; inversion H'; subst; auto.
  f_equal; auto. eapply alone_fun; eauto.
Qed.

(** The predictions do not depend on the batch size... *)
Theorem C52_batch_size bs bs' ks : independent ks -> 1 <= bs -> 1 <= bs' -> ks <> [] ->
  infer fwd md bs ks = infer fwd md bs' ks.
Proof.
  intros HI H1 H2 Hne. destruct (C52_infer bs ks HI H1 Hne) as (o1 & E1 & F1).
  destruct (C52_infer bs' ks HI H2 Hne) as (o2 & E2 & F2). rewrite E1, E2. f_equal. eapply forall2_alone_fun; eauto.
Qed.

(** ... and move with the complexes when the loader shuffles. *)
Lemma combine_perm {B} (P : complex -> B -> Prop) ks ks' out : (forall k v v', P k v -> P k v' -> v = v') ->
  Permutation ks ks' -> Forall2 P ks out -> exists out', Forall2 P ks' out' /\ Permutation (combine ks out) (combine ks' out').
Proof.
  intros Hf HP. revert out. induction HP as [|k ks ks' HP IH|k k' ks|ks ks' ks'' H1 IH1 H2 IH2]; intros out H.
  - inversion H; subst. exists []. split; constructor.
  - inversion H; subst. destruct (IH _ H4) as (out' & F & E). exists (y :: out'). split; [constructor; auto|]. cbn. auto.
  - inversion H; subst. inversion H4; subst. exists (y0 :: y :: l'0). split; [repeat constructor; auto|]. cbn. apply perm_swap.
  - destruct (IH1 _ H) as (o1 & F1 & E1). destruct (IH2 _ F1) as (o2 & F2 & E2). exists o2. split; auto. etransitivity; eauto.
Qed.

Lemma independent_perm ks ks' : Permutation ks ks' -> independent ks -> independent ks'.
Proof. intros HP HI c Hne Hin. apply HI; auto. intros k Hk. eapply Permutation_in; [apply Permutation_sym; eauto|auto]. Qed.

Theorem C52_shuffled bs bs' ks ks' : independent ks -> 1 <= bs -> 1 <= bs' -> ks <> [] -> Permutation ks ks' ->
  exists out out', infer fwd md bs ks = Ok out /\ infer fwd md bs' ks' = Ok out' /\
    Permutation (combine ks out) (combine ks' out').
Proof.
  intros HI Hb Hb' Hne HP. destruct (C52_infer bs ks HI Hb Hne) as (out & E & F).
  destruct (C52_infer bs' ks' (independent_perm _ _ HP HI) Hb') as (out' & E' & F').
  { intros ->. apply Permutation_sym, Permutation_nil in HP. contradiction. }
  exists out, out'. split; auto. split; auto.
  destruct (combine_perm alone ks ks' out alone_fun HP F) as (out2 & F2 & P2).
  replace out' with out2; auto. eapply forall2_alone_fun; eauto.
Qed.

(** The failure rate of the isomorphism test depends neither on the batch size nor on the order. *)
Theorem C52_failure_rate bs bs' ks ks' (dist : V -> V -> option Q) eps :
  (forall a b, dist a b = dist b a) -> independent ks -> 1 <= bs -> 1 <= bs' -> ks <> [] -> Permutation ks ks' ->
  exists out out', infer fwd md bs ks = Ok out /\ infer fwd md bs' ks' = Ok out' /\
    isomorphism_metric dist eps true out = isomorphism_metric dist eps true out'.
Proof.
  intros Hs HI Hb Hb' Hne HP. destruct (C52_shuffled bs bs' ks ks' HI Hb Hb' Hne HP) as (out & out' & E & E' & P).
  destruct (C52_infer bs ks HI Hb Hne) as (o1 & E1 & F1). assert (o1 = out) by congruence. subst o1.
  destruct (C52_infer bs' ks' (independent_perm _ _ HP HI) Hb') as (o2 & E2 & F2).
  { intros ->. apply Permutation_sym, Permutation_nil in HP. contradiction. }
  assert (o2 = out') by congruence. subst o2.
  exists out, out'. split; auto. split; auto.
  assert (HPo : Permutation out out').
  { apply (Permutation_map snd) in P. 
    assert (G : forall (a : list complex) (b : list V), length a = length b -> map snd (combine a b) = b).
    { induction a as [|x a IH]; intros [|y b] Hl; cbn in *; try lia; auto. f_equal. auto. }
    rewrite !G in P by (eapply Forall2_length; eauto). auto. }
  unfold isomorphism_metric. cbn [assert_ bind].
  rewrite !map_length, !row_pairs_length, (Permutation_length HPo), !filter_map_comm, !map_length.
  pose proof (close_count_perm (fun a b => below eps (dist a b)) out out' (fun a b => f_equal (below eps) (Hs a b)) HPo) as Ec.
  unfold close_count in Ec. rewrite Ec. reflexivity.
Qed.

(** ** Evaluation with labels *)
Definition labelled_by (y : complex -> Z) (ks : list complex) : Prop := forall k, In k ks -> k_y k = Some [y k].

Lemma batch_labels_of y c : labelled_by y c -> batch_labels c = Some (map y c).
Proof.
  intros H. unfold batch_labels. rewrite label_fold_all; simpl.
  - f_equal. revert H. induction c as [|k c IH]; intros H; auto. cbn [map concat].
    rewrite (H k (or_introl eq_refl)). cbn. rewrite IH; auto. intros q Hq; apply H; right; auto.
  - intros k Hk E. rewrite (H k Hk) in E. discriminate.
Qed.

Lemma eval_ok loss_fn bs ks y : independent ks -> 1 <= bs -> ks <> [] -> labelled_by y ks ->
  exists out m, eval_loader fwd md loss_fn bs ks = Ok (out, map y ks, m) /\ infer fwd md bs ks = Ok out /\ Forall2 alone ks out.
Proof.
  intros HI Hb Hne HL. unfold eval_loader, infer, loader. destruct (Nat.eqb_spec bs 0); [lia|]. cbn [bind].
  set (bl := chunks (length ks) bs ks).
  assert (Hcc : concat bl = ks) by (apply chunks_concat; auto).
  assert (Hbl : forall c, In c bl -> c <> [] /\ incl c ks).
  { intros c Hc. split; [eapply chunks_nonempty; eauto|]. intros k Hk. rewrite <- Hcc. apply in_concat. eauto. }
  destruct (mapM_preds ks bl HI Hbl) as (preds & P1 & P2 & P3 & P4). rewrite P1. cbn [bind].
  assert (HE : mapM (eval_batch fwd md loss_fn) bl = Ok (map (fun p => (fst p, match snd p with Some l => l | None => [] end,
                 loss_fn (fst p) (match snd p with Some l => l | None => [] end))) preds)).
  { clear -P1 P4 HL Hbl. revert preds P1 P4. induction bl as [|c bl IH]; intros preds P1 P4; cbn [mapM] in *.
    - inversion P1; reflexivity.
    - apply bind_ok in P1 as ([out yy] & H1 & P1). apply bind_ok in P1 as (ps & H2 & P1). inversion P1; subst preds.
      cbn [map snd] in P4. inversion P4 as [[E1 E2]]. 
      unfold eval_batch at 1. rewrite H1. cbn [bind]. rewrite E1. rewrite (batch_labels_of y).
      2:{ intros k Hk. apply HL. destruct (Hbl c (or_introl eq_refl)) as [_ Hin]. apply Hin; auto. }
      cbn [of_option bind]. rewrite (IH (fun c0 H0 => Hbl c0 (or_intror H0)) ps H2 E2). cbn [bind map fst snd].
      reflexivity. }
  rewrite HE. cbn [bind]. rewrite Hcc in P2. destruct preds as [|p preds].
  - destruct bl; [|discriminate]. cbn in Hcc. congruence.
  - set (ps := p :: preds) in *. change (map ?f ps) with (f p :: map f preds) at 1. cbv iota. 
    eexists. eexists. split; [|split; [reflexivity|exact P2]]. f_equal. f_equal.
    f_equal.
    + rewrite map_map. reflexivity.
    + rewrite map_map. cbn [fst snd]. transitivity (map y (concat bl)); [|rewrite Hcc; reflexivity]. rewrite concat_map. f_equal. clear -P4 HL Hbl.
      clearbody ps. revert ps P4. induction bl as [|c bl IH]; intros [|q ps] P4; cbn [map] in P4; try discriminate; auto.
      inversion P4 as [[E1 E2]]. cbn [map]. rewrite E1, (batch_labels_of y).
      2:{ intros k Hk. apply HL. destruct (Hbl c (or_introl eq_refl)) as [_ Hin]. apply Hin; auto. }
      f_equal. apply IH; auto. intros; apply Hbl; right; auto.
Qed.

(** Predictions and labels reach the evaluator side by side, complex by complex. *)
Theorem C52_eval loss_fn bs ks y : independent ks -> 1 <= bs -> ks <> [] -> labelled_by y ks ->
  exists out m, eval_loader fwd md loss_fn bs ks = Ok (out, map y ks, m) /\ Forall2 alone ks out.
Proof. intros HI Hb Hne HL. destruct (eval_ok loss_fn bs ks y HI Hb Hne HL) as (out & m & H1 & _ & H2). eauto. Qed.

Lemma nan_sum_perm l l' : Permutation l l' -> match nan_sum l, nan_sum l' with
  | Some a, Some b => (a == b)%Q | None, None => True | _, _ => False end.
Proof.
  induction 1 as [|x l l' H IH|x y l|l1 l2 l3 H1 IH1 H2 IH2].
  - reflexivity.
  - cbn [nan_sum]. destruct x; auto. destruct (nan_sum l), (nan_sum l'); auto. lra.
  - cbn [nan_sum]. destruct x, y; auto; destruct (nan_sum l); auto. lra.
  - destruct (nan_sum l1), (nan_sum l2), (nan_sum l3); try tauto. lra.
Qed.


Lemma accuracy_spec y (top : V -> Z) (ks : list complex) out : length ks = length out -> ks <> [] ->
  exists a, accuracy top out (map y ks) = Ok (Some a) /\
    (a * inject_Z (Z.of_nat (length ks)) ==
       inject_Z (Z.of_nat (length (filter (fun kv => Z.eqb (top (snd kv)) (y (fst kv))) (combine ks out)))))%Q.
Proof.
  intros Hl Hne. unfold accuracy. rewrite map_length, Hl, Nat.eqb_refl.
  assert (En : exists s, nan_sum (map (fun py => Some (if Z.eqb (top (fst py)) (snd py) then 1%Q else 0%Q)) (combine out (map y ks))) = Some s /\
    (s == inject_Z (Z.of_nat (length (filter (fun kv => Z.eqb (top (snd kv)) (y (fst kv))) (combine ks out)))))%Q).
  { clear Hne. revert out Hl. induction ks as [|k ks IH]; intros [|v out] Hl; cbn [length] in Hl; try lia.
    - exists 0%Q. split; reflexivity.
    - destruct (IH out ltac:(lia)) as (s & E & Hs). cbn [map combine nan_sum]. rewrite E. eexists. split; [reflexivity|].
      cbn [fst snd filter combine]. destruct (Z.eqb (top v) (y k)).
      + cbn [length]. rewrite Nat2Z.inj_succ. unfold Z.succ. rewrite inject_Z_plus, Hs. change (inject_Z 1) with 1%Q. lra.
      + rewrite Hs. lra. }
  destruct En as (s & E & Hs). unfold np_mean.
  assert (Hlen : length (map (fun py => Some (if Z.eqb (top (fst py)) (snd py) then 1%Q else 0%Q)) (combine out (map y ks))) = length ks).
  { rewrite map_length, combine_length, map_length. lia. }
  destruct (map (fun py => Some (if Z.eqb (top (fst py)) (snd py) then 1%Q else 0%Q)) (combine out (map y ks))) as [|x l] eqn:El.
  - cbn in Hlen. destruct ks; [congruence|discriminate].
  - rewrite E, Hlen. eexists. split; [reflexivity|]. rewrite <- Hs, <- Hl. rewrite Qmult_comm. apply Qmult_div_r.
    intros Hc. unfold Qeq in Hc. cbn in Hc. destruct ks; [congruence|]. cbn in Hc. lia.
Qed.

(** The accuracy is the fraction of complexes whose prediction hits their label; it is the same
    for every batch size and every order of the data. *)
Theorem C52_accuracy loss_fn bs bs' ks ks' y top : independent ks -> 1 <= bs -> 1 <= bs' -> ks <> [] ->
  labelled_by y ks -> Permutation ks ks' ->
  exists out m out' m' a a',
    eval_loader fwd md loss_fn bs ks = Ok (out, map y ks, m) /\
    eval_loader fwd md loss_fn bs' ks' = Ok (out', map y ks', m') /\
    accuracy top out (map y ks) = Ok (Some a) /\ accuracy top out' (map y ks') = Ok (Some a') /\ (a == a')%Q /\
    (a * inject_Z (Z.of_nat (length ks)) ==
       inject_Z (Z.of_nat (length (filter (fun kv => Z.eqb (top (snd kv)) (y (fst kv))) (combine ks out)))))%Q.
Proof.
  intros HI Hb Hb' Hne HL HP. destruct (eval_ok loss_fn bs ks y HI Hb Hne HL) as (out & m & E1 & E2 & E3).
  assert (Hne' : ks' <> []) by (intros ->; apply Permutation_sym, Permutation_nil in HP; contradiction).
  assert (HL' : labelled_by y ks').
  { intros k Hk. apply HL. eapply Permutation_in; [apply Permutation_sym; eauto|auto]. }
  destruct (eval_ok loss_fn bs' ks' y (independent_perm _ _ HP HI) Hb' Hne' HL') as (out' & m' & E1' & E2' & E3').
  destruct (combine_perm alone ks ks' out alone_fun HP E3) as (out2 & F2 & P2).
  assert (out2 = out') by (eapply forall2_alone_fun; eauto). subst out2.
  destruct (accuracy_spec y top ks out) as (a & A1 & A2); [eapply Forall2_length; eauto|auto|].
  destruct (accuracy_spec y top ks' out') as (a' & A1' & A2'); [eapply Forall2_length; eauto|auto|].
  exists out, m, out', m', a, a'. do 4 (split; auto). split; auto.
  rewrite (filter_length_perm _ _ _ P2), (Permutation_length HP) in A2.
  assert (Hpos : ~ (inject_Z (Z.of_nat (length ks')) == 0)%Q).
  { intros Hc. unfold Qeq in Hc. cbn in Hc. destruct ks'; [congruence|]. cbn in Hc. lia. }
  apply Qmult_inj_r with (z := inject_Z (Z.of_nat (length ks'))); auto. rewrite A2, A2'. reflexivity.
Qed.

End Generic.

(** ** The networks of the repository are independent in this sense *)
Section Nets.
Context {V : Type} (o : ops V).
Hypothesis Hdiv : vdivn o (vzero o) 1 = vzero o.
Notation complex := (complex V).

Lemma forall2_of_nth {A B} (P : A -> B -> Prop) : forall l l', length l = length l' ->
  (forall i a b, nth_error l i = Some a -> nth_error l' i = Some b -> P a b) -> Forall2 P l l'.
Proof.
  induction l as [|a l IH]; intros [|b l'] Hl H; cbn in Hl; try lia; constructor.
  - apply (H 0); auto.
  - apply IH; [lia|]. intros i x y Hx Hy. apply (H (S i)); auto.
Qed.

Lemma incl_sizes {A B} (P : A -> B -> Prop) ks szs ks' : Forall2 P ks szs -> incl ks' ks ->
  exists szs', Forall2 P ks' szs' /\ incl szs' szs.
Proof.
  intros H. induction ks' as [|k ks' IH]; intros Hin.
  - exists []. split; [constructor|intros x []].
  - destruct IH as (szs' & F & I); [intros x Hx; apply Hin; right; auto|].
    assert (Hk : In k ks) by (apply Hin; left; auto). apply In_nth_error in Hk as (i & Hi).
    destruct (Forall2_nth_error_l _ _ _ H _ _ Hi) as (sz & Hs & HP).
    exists (sz :: szs'). split; [constructor; auto|]. intros x [<-|Hx]; auto. eapply nth_error_In; eauto.
Qed.

Theorem C52_networks (m : net V) ks szs md : cwn_net o m ->
  Forall2 wf_complex ks szs -> Forall (has_features md) ks -> Forall (fun sz => 0 < sz 0) szs ->
  independent (net_forward o m) md ks.
Proof.
  intros Hm HW HF Hp ks' Hne Hin. destruct (incl_sizes _ _ _ _ HW Hin) as (szs' & HW' & Hi).
  rewrite Forall_forall in HF, Hp.
  destruct (C06_batch_independence o Hdiv m ks' szs' md Hm Hne HW') as (b & out & b' & H1 & H2 & H3 & H4).
  - apply Forall_forall. auto.
  - apply Forall_forall. auto.
  - exists b, out, b'. split; auto. split; auto. apply forall2_of_nth; [auto|]. intros i k v Hk Hv.
    destruct (H4 i k v Hk Hv) as (b1 & b1' & E1 & E2). exists b1, b1'. auto.
Qed.

Lemma uniform_incl (ks ks' : list complex) D D' : D' <= D -> incl ks' ks -> uniform_x ks D -> uniform_x ks' D'.
Proof. intros Hle Hin HU d Hd. destruct (HU d ltac:(lia)) as [H|H]; [left|right]; intros k c Hk; apply H; auto. Qed.

Theorem C52_embedding_networks (m : enet V) ks szs md : cwn_enet o md m ->
  Forall2 (embeddable m) ks szs -> uniform_x ks md ->
  independent (embed_forward o m) md ks.
Proof.
  intros Hm HE HU ks' Hne Hin. destruct (incl_sizes _ _ _ _ HE Hin) as (szs' & HE' & Hi).
  destruct (C06_embedding_batch_independence o Hdiv m ks' szs' md) as (b & out & b' & H1 & H2 & H3 & H4); auto.
  - eapply cwn_enet_le; [|eauto]. apply Nat.le_min_r.
  - eapply uniform_incl; [|eauto|eauto]. apply Nat.le_min_r.
  - exists b, out, b'. split; auto. split; auto. apply forall2_of_nth; [auto|]. intros i k v Hk Hv.
    destruct (H4 i k v Hk Hv) as (b1 & b1' & E1 & E2). exists b1, b1'. auto.
Qed.

(** ** From the stored dataset *)
Lemma load_batches_fetch (co : collated V) n : forall bl ds, d_data ds = Some co ->
  cache_ok ds n (fetch co (d_max_dim ds)) -> (forall l i, In l bl -> In i l -> i < n) ->
  load_batches ds bl = mapM (fun idxs => mapM (fetch co (d_max_dim ds)) idxs) bl.
Proof.
  induction bl as [|idxs bl IH]; intros ds Hd Hc Hi; auto. cbn [load_batches mapM].
  destruct (ds_gets_spec idxs ds co n Hd Hc (fun i H => Hi idxs i (or_introl eq_refl) H)) as (ds' & -> & S & C').
  assert (E : mapM (fun x => x) (map (fetch co (d_max_dim ds)) idxs) = mapM (fetch co (d_max_dim ds)) idxs).
  { clear. induction idxs as [|i l IH]; auto. cbn [map mapM]. rewrite IH. reflexivity. }
  rewrite E. destruct (mapM (fetch co (d_max_dim ds)) idxs); auto. cbn [bind].
  destruct S as (S1 & S2 & S3). rewrite IH.
  - rewrite S1. reflexivity.
  - congruence.
  - rewrite S1. auto.
  - intros l i Hl. apply Hi. right; auto.
Qed.

Lemma chunks_forall2 {A B} (P : A -> B -> Prop) bs : forall fuel l l', Forall2 P l l' ->
  Forall2 (Forall2 P) (chunks fuel bs l) (chunks fuel bs l').
Proof.
  assert (G : forall n (l : list A) (l' : list B), Forall2 P l l' -> Forall2 P (firstn n l) (firstn n l') /\ Forall2 P (skipn n l) (skipn n l')).
  { induction n as [|n IH]; intros l l' H; [split; [constructor|exact H]|].
    destruct H as [|a b l l' Hab H]; [split; constructor|]. cbn [firstn skipn]. destruct (IH l l' H). split; auto. }
  induction fuel as [|f IH]; intros l l' H; destruct (G bs l l' H) as [G1 G2]; destruct H; cbn [chunks]; constructor; auto.
Qed.

(** Evaluating a stored and reloaded dataset, in any order, gives the predictions of the complexes
    that were stored. *)
Theorem C52_stored (fwd : kbatch V -> result (list V * kbatch V)) md' (ks : list complex) md co ds order picked bs :
  collection ks md -> (forall k, In k ks -> tidy k) -> collate ks md = Ok co -> loaded ds co md ->
  mapM (get ks) order = Ok picked ->
  infer_dataset fwd md' bs ds order = infer fwd md' bs picked.
Proof.
  intros HC HT E HL HP. pose proof (loaded_cache ds co md ks HL E (cl_nonvoid _ _ HC)) as HCk.
  pose proof HP as HP'. apply mapM_ok_iff in HP'. pose proof (Forall2_length HP') as Hlen.
  unfold infer_dataset, infer, loader. destruct (bs =? 0); auto. cbn [bind]. rewrite <- Hlen.
  set (bl := chunks (length order) bs order). set (bl' := chunks (length order) bs picked).
  assert (HF : Forall2 (Forall2 (fun i k => get ks i = Ok k)) bl bl') by (apply chunks_forall2; auto).
  assert (Hi : forall l i, In l bl -> In i l -> i < length ks).
  { intros l i Hl Hin. apply In_nth_error in Hl as (a & Ha). destruct (Forall2_nth_error_l _ _ _ HF _ _ Ha) as (l' & _ & F).
    apply In_nth_error in Hin as (c & Hc). destruct (Forall2_nth_error_l _ _ _ F _ _ Hc) as (k & _ & G).
    apply get_ok in G. apply nth_error_Some. congruence. }
  assert (HLd : loaded ds co md) by auto. destruct HLd as (Hd & Hm & _).
  rewrite (load_batches_fetch co (length ks) bl ds Hd HCk Hi).
  assert (G : exists kss, mapM (fun idxs => mapM (fetch co (d_max_dim ds)) idxs) bl = Ok kss /\
     mapM (predict fwd md') kss = mapM (predict fwd md') bl').
  { clear Hlen HP HP'. induction HF as [|idxs ch bl bl' F HF IH]; [exists []; auto|].
    destruct IH as (kss & K1 & K2); [intros l i Hl; apply Hi; right; auto|].
    destruct (C31_same_batches ks md co ds HC HT E HL idxs ch) as (p & P1 & P2); [apply mapM_ok_iff; auto|].
    destruct (ds_gets_spec idxs ds co (length ks) Hd HCk (fun i H => Hi idxs i (or_introl eq_refl) H)) as (ds' & Eg & _ & _).
    rewrite Eg in P1. cbn [fst] in P1.
    assert (Ef : mapM (fetch co (d_max_dim ds)) idxs = Ok p).
    { clear -P1. revert p P1. induction idxs as [|i l IH]; intros [|k p] P1; cbn [map] in P1; try discriminate; auto.
      inversion P1 as [[E1 E2]]. cbn [mapM]. rewrite E1, (IH p E2). reflexivity. }
    exists (p :: kss). cbn [mapM]. rewrite Ef. cbn [bind]. rewrite K1. split; auto. rewrite K2.
    assert (Ep : predict fwd md' p = predict fwd md' ch) by (unfold predict; rewrite P2; reflexivity).
    rewrite Ep. reflexivity. }
  destruct G as (kss & G1 & G2). rewrite G1. cbn [bind]. rewrite G2. reflexivity.
Qed.
End Nets.

(** ** The mean loss *)
Section Loss.
Context {V : Type}.
Variable fwd : kbatch V -> result (list V * kbatch V).
Variable md : nat.
Notation complex := (complex V).
Notation alone := (alone fwd md).

(** A loss function that averages a loss per sample, like those of torch. *)
Definition mean_loss (l : V -> Z -> Q) (out : list V) (ys : list Z) : option Q :=
  np_mean (map (fun py => Some (l (fst py) (snd py))) (combine out ys)).

Lemma eval_losses loss_fn bs ks y : independent fwd md ks -> 1 <= bs -> ks <> [] -> labelled_by y ks ->
  exists out, infer fwd md bs ks = Ok out /\ Forall2 alone ks out /\
  eval_loader fwd md loss_fn bs ks = Ok (out, map y ks,
    np_mean (map (fun q => loss_fn (fst q) (snd q)) (combine (chunks (length ks) bs out) (chunks (length ks) bs (map y ks))))).
Proof.
  intros HI Hb Hne HL. destruct (eval_ok fwd md loss_fn bs ks y HI Hb Hne HL) as (out & m & E1 & E2 & E3).
  exists out. split; auto. split; auto. rewrite E1. do 2 f_equal.
  unfold eval_loader, loader in E1. destruct (Nat.eqb_spec bs 0); [lia|]. cbn [bind] in E1.
  apply bind_ok in E1 as (rs & M & E1). 
  assert (Em : m = np_mean (map snd rs)) by (destruct rs; [discriminate|inversion E1; reflexivity]).
  rewrite Em. f_equal. clear Em E1.
  set (bl := chunks (length ks) bs ks) in *.
  assert (Hcc : concat bl = ks) by (apply chunks_concat; auto).
  assert (Hbl : forall c, In c bl -> c <> [] /\ incl c ks).
  { intros c Hc. split; [eapply chunks_nonempty; eauto|]. intros k Hk. rewrite <- Hcc. apply in_concat. eauto. }
  assert (F1 : Forall2 (Forall2 alone) bl (chunks (length ks) bs out)) by (apply chunks_forall2; auto).
  assert (F2 : Forall2 (Forall2 (fun k z => z = y k)) bl (chunks (length ks) bs (map y ks))).
  { apply chunks_forall2. clear. induction ks; constructor; auto. }
  clearbody bl. clear Hcc E2 E3. revert rs M F1 F2.
  generalize (chunks (length ks) bs out) as bo. generalize (chunks (length ks) bs (map y ks)) as byy.
  induction bl as [|c bl IH]; intros byy bo rs M F1 F2; inversion F1 as [|? o1 ? bo' G1 F1']; subst;
    inversion F2 as [|? y1 ? by' G2 F2']; subst; cbn [mapM] in M.
  - inversion M; reflexivity.
  - apply bind_ok in M as (r & M1 & M). apply bind_ok in M as (rs' & M2 & M). inversion M; subst rs. cbn [map combine fst snd].
    f_equal; [|apply (IH (fun c0 H0 => Hbl c0 (or_intror H0)) by' bo' rs'); auto].
    destruct (Hbl c (or_introl eq_refl)) as [Hc1 Hc2].
    destruct (HI c Hc1 Hc2) as (b & o2 & b' & B1 & B2 & B3).
    assert (o2 = o1) by (eapply forall2_alone_fun; eauto). subst o2.
    unfold eval_batch, predict in M1. rewrite B1 in M1. cbn [bind] in M1. rewrite B2 in M1. cbn [bind] in M1.
    rewrite (from_complex_list_y _ _ _ B1), (batch_labels_of y) in M1 by (intros k Hk; apply HL; auto).
    cbn [of_option bind] in M1. inversion M1; subst r. cbn [snd]. f_equal.
    clear -G2. induction G2; auto. cbn [map]. congruence.
Qed.

Lemma chunks_combine {A B} bs : forall fuel (a : list A) (b : list B), length a = length b ->
  map (fun q => combine (fst q) (snd q)) (combine (chunks fuel bs a) (chunks fuel bs b)) = chunks fuel bs (combine a b).
Proof.
  induction fuel as [|f IH]; intros a b Hl.
  { destruct a, b; reflexivity. }
  destruct a as [|x a], b as [|z b]; cbn [length] in Hl; try lia; auto.
  set (a' := x :: a) in *. set (b' := z :: b) in *. 
  assert (E : forall n (a : list A) (b : list B), combine (firstn n a) (firstn n b) = firstn n (combine a b) /\
                                      combine (skipn n a) (skipn n b) = skipn n (combine a b)).
  { clear. induction n as [|n IH]; intros a b; [auto|]. destruct a as [|x a], b as [|z b]; cbn [firstn skipn combine]; auto.
    - split; auto. destruct (skipn n a); auto.
    - destruct (IH a b) as [-> ->]. auto. }
  change (chunks (S f) bs a') with (firstn bs a' :: chunks f bs (skipn bs a')).
  change (chunks (S f) bs b') with (firstn bs b' :: chunks f bs (skipn bs b')).
  change (chunks (S f) bs (combine a' b')) with (firstn bs (combine a' b') :: chunks f bs (skipn bs (combine a' b'))).
  cbn [combine map fst snd]. destruct (E bs a' b') as [-> E2]. f_equal. rewrite <- E2. apply IH.
  rewrite !skipn_length. unfold a', b'. cbn [length]. lia.
Qed.

Lemma sum_app qs qs' : (fold_right Qplus 0 (qs ++ qs') == fold_right Qplus 0 qs + fold_right Qplus 0 qs')%Q.
Proof. induction qs as [|q qs IH]; cbn [app fold_right]; [lra|]. rewrite IH. lra. Qed.

Lemma mean_of_means {A} (g : A -> Q) bs : 1 <= bs -> forall K (s : list A) fuel, length s = K * bs -> length s <= fuel ->
  length (chunks fuel bs s) = K /\
  exists t, nan_sum (map (fun c => np_mean (map (fun a => Some (g a)) c)) (chunks fuel bs s)) = Some t /\
    (t * inject_Z (Z.of_nat bs) == fold_right Qplus 0 (map g s))%Q.
Proof.
  intros Hb. induction K as [|K IH]; intros s fuel Hs Hf.
  - destruct s; [|cbn in Hs; lia]. destruct fuel; (split; [reflexivity|exists 0%Q; split; [reflexivity|cbn; lra]]).
  - destruct fuel as [|fuel]; [cbn in Hs; lia|]. destruct s as [|a s]; [cbn in Hs; lia|]. cbn [chunks].
    set (s' := a :: s) in *.
    destruct (IH (skipn bs s') fuel) as (L & t & T1 & T2).
    { rewrite skipn_length. cbn [Nat.mul] in Hs. lia. }
    { rewrite skipn_length. lia. }
    cbn [length map nan_sum]. split; [lia|].
    assert (Hfl : length (firstn bs s') = bs) by (rewrite firstn_length; cbn [Nat.mul] in Hs; lia).
    destruct (C44_mean (map g (firstn bs s'))) as (m & M1 & M2).
    { intros C. apply (f_equal (@length Q)) in C. rewrite map_length, Hfl in C. cbn in C. lia. }
    rewrite map_map in M1. rewrite M1, T1. eexists. split; [reflexivity|].
    rewrite map_length, Hfl in M2. rewrite Qmult_plus_distr_l, M2, T2, <- sum_app, <- map_app, firstn_skipn. reflexivity.
Qed.

(** When the batch size divides the number of complexes, the mean loss is the mean over the
    complexes of the loss of their predictions. *)
Theorem C52_mean_loss (l : V -> Z -> Q) bs ks y K : independent fwd md ks -> 1 <= bs -> ks <> [] -> labelled_by y ks ->
  length ks = K * bs ->
  exists out m, eval_loader fwd md (mean_loss l) bs ks = Ok (out, map y ks, Some m) /\ Forall2 alone ks out /\
    (m * inject_Z (Z.of_nat (length ks)) == fold_right Qplus 0 (map (fun kv => l (snd kv) (y (fst kv))) (combine ks out)))%Q.
Proof.
  intros HI Hb Hne HL HK. destruct (eval_losses (mean_loss l) bs ks y HI Hb Hne HL) as (out & _ & E2 & E3).
  pose proof (Forall2_length E2) as Hlen. rewrite E3.
  assert (HK0 : 1 <= K) by (destruct K; [destruct ks; [congruence|discriminate]|lia]).
  assert (E4 : map (fun q => mean_loss l (fst q) (snd q)) (combine (chunks (length ks) bs out) (chunks (length ks) bs (map y ks)))
     = map (fun c => np_mean (map (fun py => Some (l (fst py) (snd py))) c)) (chunks (length ks) bs (combine out (map y ks)))).
  { rewrite <- chunks_combine by (rewrite map_length; auto). rewrite map_map. reflexivity. }
  rewrite E4. 
  assert (Hcl : length (combine out (map y ks)) = length ks) by (rewrite combine_length, map_length; lia).
  destruct (mean_of_means (fun py => l (fst py) (snd py)) bs Hb K (combine out (map y ks)) (length ks)) as (L & t & T1 & T2); [lia|lia|].
  unfold np_mean at 1. destruct (map _ (chunks (length ks) bs (combine out (map y ks)))) as [|x xs] eqn:Ex.
  - apply (f_equal (@length (option Q))) in Ex. rewrite map_length, L in Ex. cbn in Ex. lia.
  - rewrite T1. rewrite <- Ex, map_length, L. do 2 eexists. split; [reflexivity|]. split; [exact E2|].
    assert (HKp : ~ (inject_Z (Z.of_nat K) == 0)%Q).
    { intros Hc. unfold Qeq in Hc. cbn in Hc. lia. }
    rewrite HK, Nat2Z.inj_mul, inject_Z_mult, Qmult_assoc.
    assert (Ed : (t / inject_Z (Z.of_nat K) * inject_Z (Z.of_nat K) == t)%Q) by (rewrite Qmult_comm; apply Qmult_div_r; auto).
    rewrite Ed, T2. 
    assert (Es : map (fun py => l (fst py) (snd py)) (combine out (map y ks)) = map (fun kv => l (snd kv) (y (fst kv))) (combine ks out)).
    { clear -Hlen. revert out Hlen. induction ks as [|k ks IH]; intros [|v out] Hl; cbn in *; try lia; auto. f_equal. auto. }
    rewrite Es. reflexivity.
Qed.
End Loss.

(** ** Examples and findings *)
Definition with_y (k : complex Z) (z : Z) : complex Z := mkComplexRec (k_dim k) (k_cochains k) (Some [z]).
Definition trio_y : list (complex Z) := [with_y house 1; with_y point 2; with_y path3 3].
Definition ex_label (k : complex Z) : Z := match k_y k with Some [z] => z | _ => 0%Z end.

Lemma wf_with_y k sz z : wf_complex k sz -> wf_complex (with_y k z) sz.
Proof. intros [H1 H2 H3]. split; auto. Qed.
Lemma trio_y_ok : independent (net_forward Zops ex_net) 2 trio_y /\ trio_y <> [] /\ labelled_by ex_label trio_y.
Proof.
  split; [|split; [discriminate|]].
  - apply (C52_networks Zops Zops_div ex_net trio_y trio_sz 2).
    + apply C06_hyps.
    + pose proof trio_wf as H. inversion H as [|? ? ? ? H1 H']; subst. inversion H' as [|? ? ? ? H2 H'']; subst.
      inversion H'' as [|? ? ? ? H3 H''']; subst. 
      repeat (apply Forall2_cons; [apply wf_with_y; auto|]). constructor.
    + pose proof (trio_features 2) as H. inversion H as [|? ? H1 H']; subst. inversion H' as [|? ? H2 H'']; subst.
      inversion H'' as [|? ? H3 H''']; subst. repeat (apply Forall_cons; [auto|]). constructor.
    + repeat constructor.
  - intros k [<-|[<-|[<-|[]]]]; reflexivity.
Qed.

Example C52_example : exists out, infer (net_forward Zops ex_net) 2 2 trio_y = Ok out /\
  infer (net_forward Zops ex_net) 2 1 trio_y = Ok out /\ length out = 3.
Proof. eexists. split; [vm_compute; reflexivity|]. split; vm_compute; reflexivity. Qed.

(** Finding: the mean loss of an evaluation averages the batches, not the complexes, so it depends
    on the batch size when the last batch is smaller. *)
Theorem C52_mean_loss_refuted : exists (l : Z -> Z -> Q) out ys m m',
  eval_loader (net_forward Zops ex_net) 2 (mean_loss l) 2 trio_y = Ok (out, ys, Some m) /\
  eval_loader (net_forward Zops ex_net) 2 (mean_loss l) 3 trio_y = Ok (out, ys, Some m') /\ ~ (m == m')%Q.
Proof.
  exists (fun _ z => inject_Z z). do 4 eexists. split; [vm_compute; reflexivity|]. split; [vm_compute; reflexivity|].
  intros H. vm_compute in H. discriminate.
Qed.

(** Finding: evaluating an empty split raises. *)
Theorem C52_empty_split_refuted {V} (fwd : kbatch V -> result (list V * kbatch V)) md bs : 1 <= bs ->
  infer fwd md bs [] = Err RuntimeError.
Proof. intros H. unfold infer, loader. destruct (Nat.eqb_spec bs 0); [lia|]. reflexivity. Qed.

Print Assumptions C52_infer.
Print Assumptions C52_batch_size.
Print Assumptions C52_shuffled.
Print Assumptions C52_failure_rate.
Print Assumptions C52_eval.
Print Assumptions C52_accuracy.
Print Assumptions C52_networks.
Print Assumptions C52_embedding_networks.
Print Assumptions C52_stored.
Print Assumptions C52_mean_loss.
Print Assumptions C52_mean_loss_refuted.
Print Assumptions C52_empty_split_refuted.
