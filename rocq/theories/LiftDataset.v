(** Conversion of datasets: C22. *)
From Coq Require Import List Arith Lia ZArith Bool Permutation.
From Verif Require Import Base ScatterModel ScatterSpec ScatterProofs ComplexModel BatchSpec BatchSpec2 BatchProofs
  LiftModel LiftSpec LiftBase LiftProofs LiftClique LiftTables LiftCliqueProps LiftProps LiftRing LiftRingProps LiftRingExamples LiftIso PermProps PermLift.
Import ListNotations.

(** ** Specification *)
Section Spec.
Context {V : Type} (width : V -> nat).
(** [dim] is one more than the largest dimension of the complexes (0 if there are none). *)
Definition largest (ks : list (complex V)) (dim : nat) : Prop :=
  (forall k, In k ks -> k_dim k + 1 <= dim) /\ (ks = [] -> dim = 0) /\ (ks <> [] -> exists k, In k ks /\ dim = k_dim k + 1).
(** One entry per dimension: the number of feature columns, the same for all complexes. *)
Definition feature_table (ks : list (complex V)) (dim : nat) (nf : list (option nat)) : Prop :=
  length nf = dim /\
  forall k d c, In k ks -> d <= k_dim k -> nth_error (k_cochains k) d = Some c ->
    nth_error nf d = Some (Some (num_features width c)).
(** What the complex made of a graph must carry: its node features, its label if the label is a
    graph label, and the label of every node otherwise. *)
Definition carries (g : graph V) (k : complex V) : Prop :=
  (exists c, nth_error (k_cochains k) 0 = Some c /\ c_x c = Some (g_x g) /\
     match g_y g with
     | None => k_y k = None /\ c_y c = None
     | Some l => if length l =? 1 then k_y k = Some l /\ c_y c = None else k_y k = None /\ c_y c = Some l
     end).
(** The reductions do not change the number of columns. *)
Definition keeps_width (o : ops V) : Prop :=
  forall r l w, l <> [] -> (forall v, In v l -> width v = w) -> width (reduce_rows o r l) = w.
(** An edge list with both directions of every edge once and without loops. *)
Definition simple_edges (edges : list (nat * nat)) : Prop :=
  NoDup edges /\ loop_free edges /\ forall u v, In (u, v) edges -> In (v, u) edges.
End Spec.

(** ** The table of feature numbers *)
Lemma upd_nth {A} (f : A -> A) : forall l i l', upd l i f = Ok l' ->
  length l' = length l /\ forall j, nth_error l' j = if j =? i then option_map f (nth_error l j) else nth_error l j.
Proof.
  induction l as [|a l IH]; intros [|i] l' E; try discriminate.
  - inversion E; subst. split; auto. intros [|j]; auto.
  - cbn [upd] in E. apply bind_ok in E as (r & E1 & E2). inversion E2; subst. destruct (IH i r E1) as [L N]. split; [simpl; lia|].
    intros [|j]; auto. cbn [nth_error]. rewrite N. auto.
Qed.
Lemma upd_total {A} (f : A -> A) : forall l i, i < length l -> exists l', upd l i f = Ok l'.
Proof.
  induction l as [|a l IH]; intros [|i] H; simpl in *; try lia; eauto. destruct (IH i) as [l' ->]; [lia|]. simpl. eauto.
Qed.

Section Table.
Context {V : Type} (width : V -> nat).
Notation nfeat := (num_features width).
Notation step k := (fun nf dim =>
      let* c := get (k_cochains k) dim in
      let* cur := get nf dim in
      match cur with
      | None => upd nf dim (fun _ => Some (nfeat c))
      | Some m => let* _ := assert_ (m =? nfeat c) in Ok nf
      end).
(** Entries once set stay. *)
Definition extends (nf nf' : list (option nat)) : Prop :=
  length nf' = length nf /\ forall d m, nth_error nf d = Some (Some m) -> nth_error nf' d = Some (Some m).
Lemma extends_refl nf : extends nf nf. Proof. split; auto. Qed.
Lemma extends_trans a b c : extends a b -> extends b c -> extends a c.
Proof. intros [A1 A2] [B1 B2]. split; [congruence|auto]. Qed.

Lemma check_range (k : complex V) : forall n s nf nf', foldM (step k) nf (seq s n) = Ok nf' ->
  extends nf nf' /\ forall d, s <= d < s + n -> exists c, nth_error (k_cochains k) d = Some c /\ nth_error nf' d = Some (Some (nfeat c)).
Proof.
  induction n as [|n IH]; intros s nf nf' E.
  - inversion E; subst. split; [apply extends_refl|lia].
  - cbn [seq foldM] in E. apply bind_ok in E as (nf1 & E1 & E2). apply bind_ok in E1 as (c & Ec & E1). apply bind_ok in E1 as (cur & Ecur & E1).
    apply get_ok in Ec, Ecur. destruct (IH (S s) nf1 nf' E2) as [X H].
    assert (X1 : extends nf nf1 /\ nth_error nf1 s = Some (Some (nfeat c))).
    { destruct cur as [m|].
      - apply bind_ok in E1 as ([] & A & E1). inversion E1; subst nf1. unfold assert_ in A. destruct (Nat.eqb_spec m (nfeat c)) as [->|]; [|discriminate].
        split; [apply extends_refl|auto].
      - destruct (upd_nth _ _ _ _ E1) as [L N]. split; [split; auto|].
        + intros d m Hd. rewrite N. destruct (Nat.eqb_spec d s) as [->|]; auto. rewrite Ecur in Hd. discriminate.
        + rewrite N, Nat.eqb_refl, Ecur. auto. }
    destruct X1 as [X1 S1]. split; [eapply extends_trans; eauto|]. intros d Hd. destruct (Nat.eq_dec d s) as [->|].
    + exists c. split; auto. apply (proj2 X); auto.
    + apply H. lia.
Qed.
Lemma check_range_ok (f : nat -> nat) (k : complex V) : forall n s nf,
  (forall d, s <= d < s + n -> exists c, nth_error (k_cochains k) d = Some c /\ nfeat c = f d) -> s + n <= length nf ->
  (forall d m, nth_error nf d = Some (Some m) -> m = f d) ->
  exists nf', foldM (step k) nf (seq s n) = Ok nf' /\ length nf' = length nf /\ forall d m, nth_error nf' d = Some (Some m) -> m = f d.
Proof.
  induction n as [|n IH]; intros s nf HC HL HF; [exists nf; auto|]. cbn [seq foldM].
  destruct (HC s) as (c & Ec & Ef); [lia|]. rewrite (proj2 (get_ok _ _ _) Ec). cbn [bind].
  destruct (nth_error nf s) as [cur|] eqn:Ecur; [|apply nth_error_None in Ecur; lia]. rewrite (proj2 (get_ok _ _ _) Ecur). cbn [bind].
  assert (G : exists nf1, (match cur with None => upd nf s (fun _ => Some (nfeat c)) | Some m => let* _ := assert_ (m =? nfeat c) in Ok nf end) = Ok nf1 /\
    length nf1 = length nf /\ forall d m, nth_error nf1 d = Some (Some m) -> m = f d).
  { destruct cur as [m|].
    - exists nf. rewrite Ef, (HF s m Ecur), Nat.eqb_refl. simpl. auto.
    - destruct (upd_total (fun _ => Some (nfeat c)) nf s) as [l' E']; [lia|]. exists l'. split; auto. destruct (upd_nth _ _ _ _ E') as [L N]. split; auto.
      intros d m. rewrite N. destruct (Nat.eqb_spec d s) as [->|]; [|apply HF]. rewrite Ecur. simpl. intros E. inversion E. auto. }
  destruct G as (nf1 & -> & L1 & F1). cbn [bind]. destruct (IH (S s) nf1) as (nf' & E & L' & F'); auto; [intros d Hd; apply HC; lia|lia|].
  exists nf'. split; auto. split; [lia|auto].
Qed.

Lemma check_features_inv (nf nf' : list (option nat)) (k : complex V) : check_features width nf k = Ok nf' ->
  extends nf nf' /\ forall d, d <= k_dim k -> exists c, nth_error (k_cochains k) d = Some c /\ nth_error nf' d = Some (Some (nfeat c)).
Proof. intros E. destruct (check_range k _ _ _ _ E) as [H1 H2]. split; auto. intros d Hd. apply H2. lia. Qed.
Lemma check_features_ok (f : nat -> nat) nf (k : complex V) :
  (forall d, d <= k_dim k -> exists c, nth_error (k_cochains k) d = Some c /\ nfeat c = f d) -> k_dim k < length nf ->
  (forall d m, nth_error nf d = Some (Some m) -> m = f d) ->
  exists nf', check_features width nf k = Ok nf' /\ length nf' = length nf /\ forall d m, nth_error nf' d = Some (Some m) -> m = f d.
Proof. intros H1 H2 H3. apply check_range_ok; auto; [intros d Hd; apply H1; lia|lia]. Qed.

(** What is known after some complexes. *)
Definition seen (ks : list (complex V)) (nf : list (option nat)) : Prop :=
  forall k d c, In k ks -> d <= k_dim k -> nth_error (k_cochains k) d = Some c -> nth_error nf d = Some (Some (nfeat c)).
Lemma seen_step ks nf nf' (k : complex V) : seen ks nf -> check_features width nf k = Ok nf' -> seen (ks ++ [k]) nf'.
Proof.
  intros HS E. destruct (check_features_inv _ _ _ E) as [[_ X] H]. intros k0 d c Hin Hd Hc. apply in_app_iff in Hin as [Hin|[<-|[]]].
  - apply X. eapply HS; eauto.
  - destruct (H d Hd) as (c' & Ec' & En). congruence.
Qed.
Lemma seen_firstn ks nf dim : seen ks nf -> largest ks dim -> dim <= length nf -> feature_table width ks dim (firstn dim nf).
Proof.
  intros HS (HL & _) Hle. split; [rewrite firstn_length; lia|]. intros k d c Hin Hd Hc.
  specialize (HL k Hin). rewrite <- (HS k d c Hin Hd Hc). rewrite <- (firstn_skipn dim nf) at 2. symmetry. apply nth_error_app1.
  rewrite firstn_length. lia.
Qed.
Lemma seen_len ks nf dim : seen ks nf -> largest ks dim -> (forall k, In k ks -> exists c, nth_error (k_cochains k) (k_dim k) = Some c) -> dim <= length nf.
Proof.
  intros HS (_ & H0 & H1) Hc. destruct ks as [|k0 ks]; [rewrite H0; auto; lia|]. destruct H1 as (k & Hin & ->); [discriminate|].
  destruct (Hc k Hin) as [c Ec]. specialize (HS k (k_dim k) c Hin (le_n _) Ec). assert (k_dim k < length nf); [|lia].
  apply nth_error_Some. congruence.
Qed.
Lemma largest_step ks dim (k : complex V) : largest ks dim -> largest (ks ++ [k]) (Nat.max dim (k_dim k + 1)).
Proof.
  intros (H1 & H2 & H3). split; [|split].
  - intros k0 Hin. apply in_app_iff in Hin as [Hin|[<-|[]]]; [specialize (H1 k0 Hin)|]; lia.
  - destruct ks; discriminate.
  - intros _. destruct (Nat.le_ge_cases dim (k_dim k + 1)) as [Hle|Hge].
    + exists k. split; [apply in_app_iff; right; left; auto|lia].
    + destruct ks as [|k0 ks]; [specialize (H2 eq_refl); lia|]. destruct H3 as (k1 & Hin & ->); [discriminate|].
      exists k1. split; [apply in_app_iff; auto|lia].
Qed.
End Table.

(** ** Clique liftings *)
Section Gudhi.
Context {V : Type} (o : ops V) (width : V -> nat).
Variables (lib : list (list nat) -> simplex_tree) (r : reduce) (k : nat) (down : bool).
Notation lift g := (compute_clique_complex o lib r (g_x g) (g_edges g) (g_n g) k (g_y g) down).

Lemma gudhi_fold ds : forall ks0 dim0 nf0 ks dim nf,
  foldM (fun acc g =>
      let* c := lift g in
      let* nf := check_features width (snd acc) c in
      Ok (fst (fst acc) ++ [c], Nat.max (snd (fst acc)) (k_dim c + 1), nf)) (ks0, dim0, nf0) ds = Ok (ks, dim, nf) ->
  seen width ks0 nf0 -> largest ks0 dim0 ->
  exists ks1, ks = ks0 ++ ks1 /\ Forall2 (fun g c => lift g = Ok c) ds ks1 /\ seen width ks nf /\ largest ks dim /\
    (forall c, In c ks1 -> exists c0, nth_error (k_cochains c) (k_dim c) = Some c0).
Proof.
  induction ds as [|g ds IH]; intros ks0 dim0 nf0 ks dim nf E HS HL.
  - inversion E; subst. exists []. rewrite app_nil_r. repeat split; auto; try apply HL. intros c [].
  - cbn [foldM fst snd] in E. apply bind_ok in E as (acc & E1 & E2). apply bind_ok in E1 as (c & Ec & E1). apply bind_ok in E1 as (nf1 & En & E1).
    inversion E1; subst acc. destruct (IH _ _ _ _ _ _ E2 (seen_step width _ _ _ _ HS En) (largest_step _ _ _ HL)) as (ks1 & -> & F & S1 & L1 & N1).
    exists (c :: ks1). rewrite <- app_assoc. cbn [app]. split; auto. split; auto.
    rewrite <- app_assoc in S1, L1. split; auto. split; auto. intros c' [<-|Hin]; auto.
    destruct (check_features_inv width _ _ _ En) as [_ H]. destruct (H (k_dim c) (le_n _)) as (c0 & H0 & _). eauto.
Qed.

(** C22: whatever the libraries do, a conversion that succeeds returns the liftings of the graphs,
    one per graph and in the order of the graphs, the largest dimension and the feature numbers. *)
Theorem C22_gudhi_order ds ks dim nf : convert_with_gudhi o width lib r ds k down = Ok (ks, dim, nf) ->
  Forall2 (fun g c => lift g = Ok c) ds ks /\ largest ks dim /\ feature_table width ks dim nf.
Proof.
  unfold convert_with_gudhi. intros E. apply bind_ok in E as ([[ks' dim'] nf'] & E & E2). inversion E2; subst; clear E2.
  destruct (gudhi_fold ds [] 0 _ _ _ _ E) as (ks1 & -> & F & S1 & L1 & N1).
  - intros k0 d c [].
  - split; [intros k0 []|]. split; auto. congruence.
  - cbn [app fst snd] in *. split; auto. split; auto. apply seen_firstn; auto. eapply seen_len; eauto.
Qed.

Lemma gudhi_content g : clique_input lib (g_x g) (g_edges g) (g_n g) k (g_y g) -> exists c, lift g = Ok c /\ carries g c.
Proof.
  intros HI. destruct (given o lib r (g_x g) (g_edges g) (g_n g) k (g_y g) down HI) as (K & E & HC & HD & HL).
  exists K. split; auto. pose proof (wfk_len _ _ (hc_wf _ _ _ _ HC)) as Hlen.
  destruct (nth_error (k_cochains K) 0) as [c|] eqn:Ec; [|apply nth_error_None in Ec; lia].
  exists c. split; auto. split; [apply (hc_x _ _ _ _ HC 0 c Ec)|]. destruct (g_y g) as [l|].
  - destruct (length l =? 1); destruct HL as [H1 H2]; (split; [auto|]); rewrite (H2 0 c Ec); auto.
  - destruct HL as [H1 H2]. split; auto. apply (H2 0 c Ec).
Qed.

(** C22: conversion succeeds for datasets whose features have the same width everywhere. *)
Theorem C22_gudhi_succeeds_partial ds w : 1 <= k -> keeps_width width o ->
  Forall (fun g => clique_input lib (g_x g) (g_edges g) (g_n g) k (g_y g) /\ forall v, In v (g_x g) -> width v = w) ds ->
  exists ks dim nf, convert_with_gudhi o width lib r ds k down = Ok (ks, dim, nf) /\ Forall2 carries ds ks /\
    largest ks dim /\ feature_table width ks dim nf /\ forall d m, nth_error nf d = Some (Some m) -> m = w.
Proof.
  intros Hk HW HD.
  assert (Each : forall g, In g ds -> exists c, lift g = Ok c /\ k_dim c < k + 1 /\
    forall d, d <= k_dim c -> exists c0, nth_error (k_cochains c) d = Some c0 /\ num_features width c0 = w).
  { intros g Hg. rewrite Forall_forall in HD. destruct (HD g Hg) as [HI Hw].
    destruct (given o lib r (g_x g) (g_edges g) (g_n g) k (g_y g) down HI) as (K & E & HC & HDm & _). pose proof (given_cells lib (g_x g) (g_edges g) (g_n g) k (g_y g) HI) as CC.
    exists K. split; auto. pose proof (wfk_len _ _ (hc_wf _ _ _ _ HC)) as Hlen.
    set (cells := cells_of lib (g_edges g) (g_n g) k) in *. split.
    - pose proof (proj1 (HDm (k_dim K)) (le_n _)) as Hne. destruct (cells (k_dim K)) as [|s l] eqn:Es; [congruence|].
      assert (Hin : In s (cells (k_dim K))) by (rewrite Es; left; auto). apply (cc_iff _ _ _ _ CC) in Hin. lia.
    - intros d Hd. destruct (nth_error (k_cochains K) d) as [c0|] eqn:Ec; [|apply nth_error_None in Ec; lia]. exists c0. split; auto.
      unfold num_features. rewrite (hc_x _ _ _ _ HC d c0 Ec). unfold lift_x. fold cells. pose proof (ci_x _ _ _ _ _ _ HI) as Hx. pose proof (ci_nodes _ _ _ _ _ _ HI) as Hn.
      destruct (Nat.eqb_spec d 0) as [->|Hd0].
      + destruct (g_x g) as [|v l]; [simpl in Hx; lia|]. apply Hw. left; auto.
      + apply HDm in Hd. destruct (cells d) as [|s l] eqn:Es; [congruence|]. cbn [map].
        assert (Hin : In s (cells d)) by (rewrite Es; left; auto). apply (cc_iff _ _ _ _ CC) in Hin as ((C1 & C2 & C3 & _) & _).
        apply HW; [destruct s; [congruence|discriminate]|]. intros v Hv. apply in_map_iff in Hv as (u & <- & Hu). apply Hw, nth_In. rewrite Hx. auto. }
  assert (Fold : forall l ks0 dim0 nf0, (forall g, In g l -> In g ds) -> length nf0 = k + 1 -> (forall d m, nth_error nf0 d = Some (Some m) -> m = w) ->
    exists ks dim nf, foldM (fun acc g =>
      let* c := lift g in
      let* nf := check_features width (snd acc) c in
      Ok (fst (fst acc) ++ [c], Nat.max (snd (fst acc)) (k_dim c + 1), nf)) (ks0, dim0, nf0) l = Ok (ks, dim, nf) /\
      (forall d m, nth_error nf d = Some (Some m) -> m = w)).
  { induction l as [|g l IH]; intros ks0 dim0 nf0 Hin Hl Hf; [simpl; eauto 10|]. cbn [foldM fst snd].
    destruct (Each g (Hin g (or_introl eq_refl))) as (c & -> & Hdim & Hc). cbn [bind].
    destruct (check_features_ok width (fun _ => w) nf0 c) as (nf1 & -> & L1 & F1); auto; [lia|]. cbn [bind].
    apply IH; auto; [intros; apply Hin; right; auto|lia]. }
  destruct (Fold ds [] 0 (repeat None (k + 1))) as (ks & dim & nf & E & F); auto.
  - apply repeat_length.
  - intros d m Hd. apply nth_error_In, repeat_spec in Hd. discriminate.
  - assert (Ec : convert_with_gudhi o width lib r ds k down = Ok (ks, dim, firstn dim nf)).
    { unfold convert_with_gudhi. rewrite E. reflexivity. }
    exists ks, dim, (firstn dim nf). split; auto. destruct (C22_gudhi_order ds ks dim _ Ec) as (H1 & H2 & H3). split; [|split; [auto|split; [auto|]]].
    + clear - H1 HD. induction H1 as [|g c ds ks E H1 IH]; constructor.
      * inversion HD; subst. destruct (gudhi_content g) as (c' & E' & Hc); [tauto|]. congruence.
      * inversion HD; auto.
    + intros d m Hd. apply (F d). rewrite <- (firstn_skipn dim nf). rewrite nth_error_app1; auto. apply nth_error_Some. congruence.
Qed.
End Gudhi.

(** With expansion_dim = 0 a single graph with an edge cannot be converted. *)
Theorem C22_gudhi_zero_refuted {V} (o : ops V) (width : V -> nat) lib r g down :
  clique_input lib (g_x g) (g_edges g) (g_n g) 0 (g_y g) -> (exists u v, adjacent (g_edges g) u v) ->
  convert_with_gudhi o width lib r [g] 0 down = Err IndexError.
Proof.
  intros HI (u & v & Huv). destruct (given o lib r (g_x g) (g_edges g) (g_n g) 0 (g_y g) down HI) as (K & E & HC & HD & _).
  pose proof (given_cells lib (g_x g) (g_edges g) (g_n g) 0 (g_y g) HI) as CC. pose proof (wfk_len _ _ (hc_wf _ _ _ _ HC)) as Hlen.
  set (cells := cells_of lib (g_edges g) (g_n g) 0) in *.
  assert (H1 : 1 <= k_dim K).
  { apply HD. assert (Hin : In [Nat.min u v; Nat.max u v] (cells 1)).
    { destruct Huv as [Hne Hin]. assert (Hr : u < g_n g /\ v < g_n g) by (destruct Hin as [Hin|Hin]; apply (ci_graph _ _ _ _ _ _ HI) in Hin; lia).
      apply (cc_iff _ _ _ _ CC). split; [|split; [|split; [reflexivity|simpl; lia]]].
      - split; [discriminate|]. split; [constructor; [simpl; lia|constructor; [simpl; tauto|constructor]]|]. split.
        + intros w [<-|[<-|[]]]; lia.
        + intros a b [<-|[<-|[]]] [<-|[<-|[]]] Hab; try congruence; (split; [auto|]);
            destruct (Nat.le_ge_cases u v);
            rewrite ?(Nat.min_l u v), ?(Nat.max_r u v), ?(Nat.min_r u v), ?(Nat.max_l u v) by lia; tauto.
      - intros i j a b Hi Hj Hij. destruct i as [|[|i]]; [destruct j as [|[|j]]; [lia| |destruct j; discriminate]|destruct j as [|[|j]]; [lia|lia|destruct j; discriminate]|destruct i; discriminate].
        inversion Hi; inversion Hj; lia. }
    intros E0. rewrite E0 in Hin. destruct Hin. }
  unfold convert_with_gudhi. cbn [foldM fst snd]. rewrite E. cbn [bind].
  assert (En : check_features width (repeat None (0 + 1)) K = Err IndexError).
  { unfold check_features. replace (k_dim K + 1) with (S (S (k_dim K - 1))) by lia. cbn [seq foldM].
    destruct (nth_error (k_cochains K) 0) as [c0|] eqn:E0; [|apply nth_error_None in E0; lia].
    destruct (nth_error (k_cochains K) 1) as [c1|] eqn:E1; [|apply nth_error_None in E1; lia].
    rewrite (proj2 (get_ok _ _ _) E0), (proj2 (get_ok _ _ _) E1). reflexivity. }
  rewrite En. reflexivity.
Qed.

(** ** Ring liftings *)
Section Rings.
Context {V : Type} (o : ops V) (veqb : V -> V -> bool) (width : V -> nat).
Variables (lib : list (list nat) -> simplex_tree) (isos : list (nat * nat) -> nat -> list (list nat)) (so : list (list nat) -> list (list nat)).
Variables (r : reduce) (max_k : nat) (down init_edges init_rings : bool).
Hypothesis veqb_ok : forall a b, veqb a b = true <-> a = b.
Notation lift g := (compute_ring_2complex o veqb lib isos so r (g_x g) (g_edges g) (g_attr g) (g_n g) (g_y g) max_k down init_edges init_rings).

(** What the checks after the conversion establish. *)
Definition checked (g : graph V) (c : complex V) : Prop :=
  k_y c = g_y g /\ (exists c0, nth_error (k_cochains c) 0 = Some c0 /\ c_x c0 = Some (g_x g)) /\
  (1 <= k_dim c -> exists c1 x1, nth_error (k_cochains c) 1 = Some c1 /\ c_x c1 = Some x1 /\ length x1 = length (g_edges g) / 2).

Lemma ring_check_inv acc c g acc' : ring_check veqb width acc (c, g) = Ok acc' ->
  check_features width (snd acc) c = Ok (snd acc') /\ fst acc' = Nat.max (fst acc) (k_dim c + 1) /\ checked g c.
Proof.
  unfold ring_check. intros E. apply bind_ok in E as (nf & En & E). apply bind_ok in E as ([] & Ey & E).
  apply bind_ok in E as (c0 & E0 & E). apply bind_ok in E as ([] & Ex & E). apply bind_ok in E as ([] & E1 & E). inversion E; subst acc'; clear E.
  split; [auto|]. split; [auto|]. apply get_ok in E0. split; [|split].
  - destruct (k_y c) as [l|], (g_y g) as [l'|]; try discriminate; auto. unfold assert_ in Ey. destruct (list_eqb Z.eqb l l') eqn:El; [|discriminate].
    f_equal. apply (list_eqb_ok Z.eqb Z.eqb_eq); auto.
  - exists c0. split; auto. destruct (c_x c0) as [x|]; [|discriminate]. unfold assert_ in Ex. destruct (list_eqb veqb x (g_x g)) eqn:El; [|discriminate].
    f_equal. apply (list_eqb_ok veqb veqb_ok); auto.
  - intros Hd. destruct (Nat.leb_spec 1 (k_dim c)); [|lia]. apply bind_ok in E1 as (c1 & Ec1 & E1). apply get_ok in Ec1.
    destruct (c_x c1) as [x1|] eqn:Ex1; [|discriminate]. unfold assert_ in E1. destruct (Nat.eqb_spec (length x1) (length (g_edges g) / 2)); [|discriminate].
    exists c1, x1. auto.
Qed.
Lemma ring_fold : forall cs gs ks0 dim0 nf0 acc, length cs = length gs ->
  foldM (ring_check veqb width) (dim0, nf0) (combine cs gs) = Ok acc ->
  seen width ks0 nf0 -> largest ks0 dim0 ->
  Forall2 checked gs cs /\ seen width (ks0 ++ cs) (snd acc) /\ largest (ks0 ++ cs) (fst acc) /\
  forall c, In c cs -> exists c0, nth_error (k_cochains c) (k_dim c) = Some c0.
Proof.
  induction cs as [|c cs IH]; intros [|g gs] ks0 dim0 nf0 acc HL E HS HM; try discriminate.
  - inversion E; subst. rewrite app_nil_r. split; [constructor|]. split; [auto|]. split; [auto|]. intros c [].
  - cbn [combine foldM] in E. apply bind_ok in E as ([dim1 nf1] & E1 & E2). destruct (ring_check_inv _ _ _ _ E1) as (En & Ed & HC). cbn [fst snd] in *. subst dim1.
    destruct (IH gs (ks0 ++ [c]) _ _ _ ltac:(simpl in HL; lia) E2 (seen_step width _ _ _ _ HS En) (largest_step _ _ _ HM)) as (F & S1 & L1 & N1).
    rewrite <- app_assoc in S1, L1. split; [constructor; auto|]. split; auto. split; auto.
    intros c' [<-|Hin]; auto. destruct (check_features_inv width _ _ _ En) as [_ H]. destruct (H (k_dim c) (le_n _)) as (c0 & H0 & _). eauto.
Qed.

Theorem C22_rings_order ds ks dim nf : convert_with_rings o veqb width lib isos so r ds max_k down init_edges init_rings = Ok (ks, dim, nf) ->
  Forall2 (fun g c => lift g = Ok c) ds ks /\ Forall2 checked ds ks /\ largest ks dim /\ feature_table width ks dim nf.
Proof.
  unfold convert_with_rings. intros E. apply bind_ok in E as (ks' & E1 & E). apply bind_ok in E as ([dim' nf'] & E2 & E). inversion E; subst; clear E.
  apply mapM_ok_iff in E1. split; auto. cbn [fst snd] in *.
  destruct (ring_fold ks ds [] 0 _ _ (eq_sym (Forall2_length E1)) E2) as (F & S1 & L1 & N1).
  - intros k0 d c [].
  - split; [intros k0 []|]. split; auto. congruence.
  - cbn [app fst snd] in *. split; auto. split; auto. apply seen_firstn; auto. eapply seen_len; eauto.
Qed.

(** The number of edges of a simple graph. *)
Lemma filter_split {A} (f : A -> bool) l : length l = length (filter f l) + length (filter (fun a => negb (f a)) l).
Proof. induction l as [|a l IH]; simpl; auto. destruct (f a); simpl; lia. Qed.
Lemma edge_count edges size cells : simple_edges edges -> ring_cells edges size max_k cells -> length (cells 1) = length edges / 2.
Proof.
  intros (N & F & S) RC.
  set (lt := fun e : nat * nat => fst e <? snd e).
  assert (N1 : NoDup (cells 1)).
  { apply NoDup_nth_error. intros i j Hi E. destruct (nth_error (cells 1) i) as [s|] eqn:Es; [|apply nth_error_None in Es; lia].
    apply (rc_once _ _ _ _ RC 1 i j s s Es); [symmetry; exact E|intros v; tauto]. }
  assert (P1 : Permutation (cells 1) (map (fun e => [fst e; snd e]) (filter lt edges))).
  { apply NoDup_Permutation; auto.
    - apply NoDup_map_inj; [|apply NoDup_filter; auto]. intros [a b] [a' b'] _ _ E. inversion E; auto.
    - intros s. rewrite (rc_edge _ _ _ _ RC), in_map_iff. split.
      + intros (u & v & Hlt & -> & Hne & Hin). exists (u, v). split; auto. apply filter_In. split; [destruct Hin; auto|]. apply Nat.ltb_lt; auto.
      + intros ([u v] & <- & Hin). apply filter_In in Hin as [Hin Hlt]. apply Nat.ltb_lt in Hlt. exists u, v. simpl in *. split; auto. split; auto. split; [lia|auto]. }
  assert (P2 : Permutation (filter (fun e => negb (lt e)) edges) (map (fun e => (snd e, fst e)) (filter lt edges))).
  { apply NoDup_Permutation; [apply NoDup_filter; auto| |].
    - apply NoDup_map_inj; [|apply NoDup_filter; auto]. intros [a b] [a' b'] _ _ E. inversion E; auto.
    - intros [a b]. rewrite in_map_iff, filter_In. unfold lt. split.
      + intros [Hin Hn]. exists (b, a). split; auto. apply filter_In. split; [auto|]. simpl in *. apply negb_true_iff, Nat.ltb_ge in Hn.
        pose proof (F a b Hin). apply Nat.ltb_lt. lia.
      + intros ([u v] & E & Hin). inversion E; subst. apply filter_In in Hin as [Hin Hlt]. simpl in *. apply Nat.ltb_lt in Hlt. split; auto.
        apply negb_true_iff, Nat.ltb_ge. lia. }
  apply Permutation_length in P1, P2. rewrite map_length in P1, P2. pose proof (filter_split lt edges). rewrite P1.
  apply (Nat.div_unique _ _ _ 0); lia.
Qed.

(** A graph that ring conversion accepts: graph-level label (if any), simple edge list. *)
Record ring_graph (g : graph V) : Prop := {
  rg_in : ring_input lib isos so (g_x g) (g_edges g) (g_n g) (g_y g) max_k;
  rg_edges : simple_edges (g_edges g);
  rg_y : forall l, g_y g = Some l -> length l = 1;
  rg_attr : attr_ok (g_edges g) (g_attr g)
}.
(** The widths of the features of nodes and edges. *)
Definition widths (w : nat) (wa : option nat) (g : graph V) : Prop :=
  (forall v, In v (g_x g) -> width v = w) /\
  match g_attr g, wa with
  | None, None => True
  | Some a, Some w' => forall v, In v a -> width v = w'
  | _, _ => False
  end.

Theorem C22_rings_succeeds_partial ds w wa : init_edges = true -> keeps_width width o -> Forall ring_graph ds -> Forall (widths w wa) ds ->
  exists ks dim nf, convert_with_rings o veqb width lib isos so r ds max_k down init_edges init_rings = Ok (ks, dim, nf) /\
    Forall2 carries ds ks /\ largest ks dim /\ feature_table width ks dim nf.
Proof.
  intros Hie HW HD Hw.
  set (f := fun d => match d with 0 => w | 1 => match wa with None => w | Some w' => w' end | _ => if init_rings then w else 0 end).
  assert (Each : forall g, In g ds -> exists c, lift g = Ok c /\ k_dim c < 3 /\ carries g c /\ checked g c /\
    forall d, d <= k_dim c -> exists c0, nth_error (k_cochains c) d = Some c0 /\ num_features width c0 = f d).
  { intros g Hg. rewrite Forall_forall in HD, Hw. pose proof (HD g Hg) as [HI Hs Hy Ha]. destruct (Hw g Hg) as [W1 W2].
    destruct (ring_lift_gen o veqb lib isos so r (g_x g) (g_edges g) (g_attr g) (g_n g) (g_y g) max_k down init_edges init_rings HI veqb_ok (fun _ => Ha))
      as (K & rows & E & HR & HLr & HC & HDm & HL).
    pose proof (cells_ring lib isos so (g_x g) (g_edges g) (g_n g) (g_y g) max_k HI) as RC.
    set (cells := rcells_of lib isos so (g_edges g) (g_n g) max_k) in *.
    pose proof (wfk_len _ _ (hc_wf _ _ _ _ HC)) as Hlen. exists K. split; auto.
    assert (Hd2 : k_dim K < 3).
    { destruct (Nat.lt_ge_cases (k_dim K) 3) as [|Hge]; auto. exfalso. apply (proj1 (HDm (k_dim K)) (le_n _)). apply (rc_top _ _ _ _ RC); auto. }
    destruct (nth_error (k_cochains K) 0) as [c0|] eqn:E0; [|apply nth_error_None in E0; lia].
    assert (HY : k_y K = g_y g /\ c_y c0 = None).
    { destruct (g_y g) as [l|]; [rewrite (Hy l eq_refl) in HL; cbn [Nat.eqb] in HL|]; destruct HL as [H1 H2]; (split; [auto|]); apply (H2 0); auto. }
    split; auto. split; [|split].
    - exists c0. split; auto. split; [apply (hc_x _ _ _ _ HC 0 c0 E0)|]. destruct HY as [Y1 Y2]. destruct (g_y g) as [l|]; auto. rewrite (Hy l eq_refl). simpl. auto.
    - split; [apply HY|]. split; [exists c0; split; auto; apply (hc_x _ _ _ _ HC 0 c0 E0)|]. intros Hd1.
      destruct (nth_error (k_cochains K) 1) as [c1|] eqn:E1; [|apply nth_error_None in E1; lia].
      exists c1, rows. split; auto. split; [rewrite (hc_x _ _ _ _ HC 1 c1 E1); unfold ring_x; rewrite Hie; auto|].
      rewrite HLr. apply (edge_count (g_edges g) (g_n g) cells Hs RC).
    - intros d Hd. destruct (nth_error (k_cochains K) d) as [cd|] eqn:Ed; [|apply nth_error_None in Ed; lia]. exists cd. split; auto.
      unfold num_features. rewrite (hc_x _ _ _ _ HC d cd Ed). pose proof (ri_x _ _ _ _ _ _ _ _ HI) as Hx. pose proof (ri_nodes _ _ _ _ _ _ _ _ HI) as Hn.
      apply HDm in Hd.
      assert (RW : forall s, In s (cells d) -> width (cell_row o r (g_x g) s) = w \/ d = 0).
      { intros s Hin. destruct d as [|[|[|d]]]; auto; left.
        - apply (rc_edge _ _ _ _ RC) in Hin as (u & v & Hlt & -> & Hne & Hin). apply HW; [discriminate|]. intros z Hz.
          apply in_map_iff in Hz as (q & <- & Hq). apply W1, nth_In. rewrite Hx.
          destruct Hin as [Hin|Hin]; apply (ri_graph _ _ _ _ _ _ _ _ HI) in Hin; destruct Hq as [<-|[<-|[]]]; lia.
        - apply (rc_ring _ _ _ _ RC) in Hin as [HCy _]. pose proof HCy as (C1 & C2 & C3). apply HW; [destruct s; [simpl in C1; lia|discriminate]|].
          intros z Hz. apply in_map_iff in Hz as (q & <- & Hq). apply W1, nth_In. rewrite Hx.
          apply (induced_range (g_edges g) (g_n g) s (ri_graph _ _ _ _ _ _ _ _ HI) HCy q Hq).
        - rewrite (rc_top _ _ _ _ RC) in Hin by lia. destruct Hin. }
      destruct d as [|[|d]]; unfold ring_x, f.
      + destruct (g_x g) as [|v l]; [simpl in Hx; lia|]. apply W1. left; auto.
      + rewrite Hie. destruct rows as [|row rows]; [simpl in HLr; symmetry in HLr; apply length_zero_iff_nil in HLr; congruence|].
        specialize (HR Hie). unfold edge_rows in HR. fold cells in HR. destruct (g_attr g) as [a|], wa as [w'|]; try contradiction.
        * destruct (cells 1) as [|s l] eqn:Es; [congruence|]. assert (Hin : In s (cells 1)) by (rewrite Es; left; auto).
          apply (rc_edge _ _ _ _ RC) in Hin as (u & v & Hlt & -> & Hne & Hin).
          assert (HJ : exists j e, nth_error (g_edges g) j = Some e /\ same_set [fst e; snd e] [u; v]).
          { destruct Hin as [Hin|Hin]; apply In_nth_error in Hin as [j Hj]; exists j; eexists; (split; [exact Hj|]); intros z; simpl; tauto. }
          destruct HJ as (j & e & Hj & HS). specialize (HR j e 0 [u; v] Hj). unfold names in HR. fold cells in HR. rewrite Es in HR. specialize (HR eq_refl HS).
          cbn in HR. symmetry in HR. apply nth_error_In in HR. apply W2; auto.
        * fold cells in HR. destruct (cells 1) as [|s l] eqn:Es; [discriminate|]. cbn [map] in HR. injection HR as -> _.
          destruct (RW s) as [H|H]; [left; auto|auto|lia].
      + destruct init_rings; auto. fold cells. destruct (cells (S (S d))) as [|s l] eqn:Es; [congruence|]. cbn [map].
        destruct (RW s) as [H|H]; [left; auto|auto|lia]. }
  assert (HM : exists ks, mapM (fun g => lift g) ds = Ok ks /\
    Forall2 (fun g c => k_dim c < 3 /\ carries g c /\ checked g c /\
      forall d, d <= k_dim c -> exists c0, nth_error (k_cochains c) d = Some c0 /\ num_features width c0 = f d) ds ks).
  { clear - Each. induction ds as [|g ds IH]; [exists []; auto|]. destruct IH as (ks & E & F); [intros; apply Each; right; auto|].
    destruct (Each g (or_introl eq_refl)) as (c & Ec & H). exists (c :: ks). cbn [mapM]. rewrite Ec, E. cbn [bind]. split; auto. }
  destruct HM as (ks & EM & FM).
  assert (Fold : forall gs cs, Forall2 (fun g c => k_dim c < 3 /\ carries g c /\ checked g c /\
      forall d, d <= k_dim c -> exists c0, nth_error (k_cochains c) d = Some c0 /\ num_features width c0 = f d) gs cs ->
    forall dim0 nf0, length nf0 = 3 -> (forall d m, nth_error nf0 d = Some (Some m) -> m = f d) ->
    exists acc, foldM (ring_check veqb width) (dim0, nf0) (combine cs gs) = Ok acc).
  { intros gs cs H. induction H as [|g c gs cs (Hd & _ & (K1 & (c0 & K2 & K3) & K4) & Hc) H IH]; intros dim0 nf0 Hl Hf; [simpl; eauto|].
    cbn [combine foldM]. destruct (check_features_ok width f nf0 c Hc) as (nf1 & En & L1 & F1); auto; [lia|].
    assert (ER : ring_check veqb width (dim0, nf0) (c, g) = Ok (Nat.max dim0 (k_dim c + 1), nf1)).
    { unfold ring_check. cbn [fst snd]. rewrite En. cbn [bind].
      assert (EY : match k_y c with None => assert_ (negb (isSome (g_y g))) | Some l => match g_y g with None => Err TypeError | Some l' => assert_ (list_eqb Z.eqb l l') end end = Ok tt).
      { rewrite K1. destruct (g_y g) as [l|]; auto. rewrite (proj2 (list_eqb_ok Z.eqb Z.eqb_eq l l) eq_refl). auto. }
      rewrite EY. cbn [bind]. rewrite (proj2 (get_ok _ _ _) K2). cbn [bind]. rewrite K3, (proj2 (list_eqb_ok veqb veqb_ok _ _) eq_refl). cbn [assert_ bind].
      destruct (Nat.leb_spec 1 (k_dim c)) as [H1|H1]; [|reflexivity]. destruct (K4 H1) as (c1 & x1 & Q1 & Q2 & Q3).
      rewrite (proj2 (get_ok _ _ _) Q1). cbn [bind]. rewrite Q2, Q3, Nat.eqb_refl. reflexivity. }
    rewrite ER. cbn [bind]. apply IH; auto. lia. }
  destruct (Fold ds ks FM 0 [None; None; None]) as (acc & EA); auto.
  { intros d m. destruct d as [|[|[|d]]]; try discriminate. destruct d; discriminate. }
  assert (Ec : convert_with_rings o veqb width lib isos so r ds max_k down init_edges init_rings = Ok (ks, fst acc, firstn (fst acc) (snd acc))).
  { unfold convert_with_rings. rewrite EM. cbn [bind]. rewrite EA. reflexivity. }
  exists ks, (fst acc), (firstn (fst acc) (snd acc)). split; auto. destruct (C22_rings_order _ _ _ _ Ec) as (H1 & H2 & H3 & H4).
  split; [|auto]. clear - FM. induction FM; constructor; tauto.
Qed.

(** C22: the documented option init_edges=False fails on every graph with an edge. *)
Theorem C22_init_edges_refuted g : init_edges = false -> ring_graph g -> g_edges g <> [] ->
  convert_with_rings o veqb width lib isos so r [g] max_k down init_edges init_rings = Err AttributeError.
Proof.
  intros Hie [HI Hs Hy Ha] Hne.
  destruct (ring_lift_gen o veqb lib isos so r (g_x g) (g_edges g) (g_attr g) (g_n g) (g_y g) max_k down init_edges init_rings HI veqb_ok (fun _ => Ha))
    as (K & rows & E & _ & _ & HC & HDm & HL).
  pose proof (cells_ring lib isos so (g_x g) (g_edges g) (g_n g) (g_y g) max_k HI) as RC. pose proof (wfk_len _ _ (hc_wf _ _ _ _ HC)) as Hlen.
  set (cells := rcells_of lib isos so (g_edges g) (g_n g) max_k) in *.
  assert (H1 : 1 <= k_dim K).
  { apply HDm. destruct (ri_loops _ _ _ _ _ _ _ _ HI) as [|(u & v & Huv)]; [congruence|].
    assert (Hin : In [Nat.min u v; Nat.max u v] (cells 1)).
    { apply (rc_edge _ _ _ _ RC). exists (Nat.min u v), (Nat.max u v). destruct Huv as [Hn Hin]. split; [lia|]. split; auto. split; [lia|].
      destruct (Nat.le_ge_cases u v); rewrite ?(Nat.min_l u v), ?(Nat.max_r u v), ?(Nat.min_r u v), ?(Nat.max_l u v) by lia; tauto. }
    intros E0. rewrite E0 in Hin. destruct Hin. }
  assert (Hd2 : k_dim K < 3).
  { destruct (Nat.lt_ge_cases (k_dim K) 3) as [|Hge]; auto. exfalso. apply (proj1 (HDm (k_dim K)) (le_n _)). apply (rc_top _ _ _ _ RC); auto. }
  unfold convert_with_rings. cbn [mapM]. rewrite E. cbn [bind combine foldM].
  set (f := fun d => match nth_error (k_cochains K) d with Some c => num_features width c | None => 0 end).
  destruct (check_features_ok width f [None; None; None] K) as (nf1 & En & _).
  { intros d Hd. unfold f. destruct (nth_error (k_cochains K) d) as [c|] eqn:Ec; [|apply nth_error_None in Ec; lia]. exists c. auto. }
  { simpl. lia. }
  { intros d m. destruct d as [|[|[|d]]]; try discriminate. destruct d; discriminate. }
  assert (ER : ring_check veqb width (0, [None; None; None]) (K, g) = Err AttributeError).
  { unfold ring_check. cbn [fst snd]. rewrite En. cbn [bind].
    assert (HY : k_y K = g_y g). { destruct (g_y g) as [l|]; [rewrite (Hy l eq_refl) in HL; cbn [Nat.eqb] in HL|]; apply HL. }
    assert (EY : match k_y K with None => assert_ (negb (isSome (g_y g))) | Some l => match g_y g with None => Err TypeError | Some l' => assert_ (list_eqb Z.eqb l l') end end = Ok tt).
    { rewrite HY. destruct (g_y g) as [l|]; auto. rewrite (proj2 (list_eqb_ok Z.eqb Z.eqb_eq l l) eq_refl). auto. }
    rewrite EY. cbn [bind]. destruct (nth_error (k_cochains K) 0) as [c0|] eqn:E0; [|apply nth_error_None in E0; lia].
    rewrite (proj2 (get_ok _ _ _) E0). cbn [bind]. rewrite (hc_x _ _ _ _ HC 0 c0 E0). cbn [ring_x]. rewrite (proj2 (list_eqb_ok veqb veqb_ok _ _) eq_refl). cbn [assert_ bind].
    destruct (Nat.leb_spec 1 (k_dim K)); [|lia]. destruct (nth_error (k_cochains K) 1) as [c1|] eqn:E1; [|apply nth_error_None in E1; lia].
    rewrite (proj2 (get_ok _ _ _) E1). cbn [bind]. rewrite (hc_x _ _ _ _ HC 1 c1 E1). unfold ring_x. rewrite Hie. reflexivity. }
  rewrite ER. reflexivity.
Qed.
(** C22: graphs with one label per node (more than one node) are refused. *)
Theorem C22_node_labels_refused g l : g_y g = Some l -> length l = g_n g -> g_n g <> 1 ->
  ring_input lib isos so (g_x g) (g_edges g) (g_n g) (g_y g) max_k -> (init_edges = true -> attr_ok (g_edges g) (g_attr g)) ->
  convert_with_rings o veqb width lib isos so r [g] max_k down init_edges init_rings = Err AssertionError.
Proof.
  intros Ey Hl Hn1 HI Ha.
  destruct (ring_lift_gen o veqb lib isos so r (g_x g) (g_edges g) (g_attr g) (g_n g) (g_y g) max_k down init_edges init_rings HI veqb_ok Ha)
    as (K & rows & E & _ & _ & HC & HDm & HL).
  pose proof (cells_ring lib isos so (g_x g) (g_edges g) (g_n g) (g_y g) max_k HI) as RC. pose proof (wfk_len _ _ (hc_wf _ _ _ _ HC)) as Hlen.
  rewrite Ey in HL. destruct (Nat.eqb_spec (length l) 1); [lia|]. destruct HL as [HY _].
  set (cells := rcells_of lib isos so (g_edges g) (g_n g) max_k) in *.
  assert (Hd2 : k_dim K < 3).
  { destruct (Nat.lt_ge_cases (k_dim K) 3) as [|Hge]; auto. exfalso. apply (proj1 (HDm (k_dim K)) (le_n _)). apply (rc_top _ _ _ _ RC); auto. }
  unfold convert_with_rings. cbn [mapM]. rewrite E. cbn [bind combine foldM].
  set (f := fun d => match nth_error (k_cochains K) d with Some c => num_features width c | None => 0 end).
  destruct (check_features_ok width f [None; None; None] K) as (nf1 & En & _).
  { intros d Hd. unfold f. destruct (nth_error (k_cochains K) d) as [c|] eqn:Ec; [|apply nth_error_None in Ec; lia]. exists c. auto. }
  { simpl. lia. }
  { intros d m. destruct d as [|[|[|d]]]; try discriminate. destruct d; discriminate. }
  unfold ring_check. cbn [fst snd]. rewrite En. cbn [bind]. rewrite HY, Ey. reflexivity.
Qed.
End Rings.

(** ** Examples *)
Definition tri_g : graph Z := mkGraph [5; 6; 7; 8]%Z [(0, 1); (1, 0); (1, 2); (2, 1); (2, 0); (0, 2)] None 4 (Some [9%Z]).
Definition dot_g : graph Z := mkGraph [4%Z] [] None 1 (Some [2%Z]).
Definition one (_ : Z) : nat := 1.
Lemma one_ok : keeps_width one Zops.
Proof. intros r [|v l] w H1 H2; [congruence|]. exact (H2 v (or_introl eq_refl)). Qed.
Lemma simple_ok (l : list (nat * nat)) : NoDup l -> forallb (fun e => negb (fst e =? snd e) && existsb (fun e' => (fst e' =? snd e) && (snd e' =? fst e)) l) l = true -> simple_edges l.
Proof.
  intros HN H. rewrite forallb_forall in H. split; auto. split.
  - intros u v Huv. specialize (H _ Huv). apply andb_true_iff in H as [H _]. apply negb_true_iff, Nat.eqb_neq in H. auto.
  - intros u v Huv. specialize (H _ Huv). apply andb_true_iff in H as [_ H]. apply existsb_exists in H as ([a b] & Hin & Hab).
    simpl in Hab. apply andb_true_iff in Hab as [A B]. apply Nat.eqb_eq in A, B. subst. auto.
Qed.
Ltac edges_ok := let u := fresh in let v := fresh in let H := fresh in intros u v H; simpl in H; repeat (destruct H as [H|H]; [inversion H; subst; simpl; lia|]); destruct H.
Ltac nodup_ok := repeat (constructor; [simpl; intuition discriminate|]); constructor.
Definition C22_dataset : list (graph Z) := [tri_g; dot_g; mkGraph house_x house None 5 (Some [3%Z]); tri_g].
Lemma C22_dataset_ok : Forall (ring_graph (any_lib true) (ref_isos 5) (@rev _) 5) C22_dataset /\ Forall (widths one 1 None) C22_dataset.
Proof.
  assert (A : forall g, In g C22_dataset -> graph_ok (g_edges g) 5).
  { intros g [<-|[<-|[<-|[<-|[]]]]]; edges_ok. }
  split; [|repeat constructor].
  apply Forall_forall. intros g Hg. pose proof (A g Hg) as H5.
  split.
  - split; [| | | | |apply any_lib_ok|intros k _; apply ref_isos_ok; auto|intros l _; apply Permutation_sym, Permutation_rev];
      destruct Hg as [<-|[<-|[<-|[<-|[]]]]]; try (simpl; lia); try reflexivity; try (left; reflexivity); try edges_ok;
      try (right; exists 0, 1; split; [lia|left; left; reflexivity]).
  - destruct Hg as [<-|[<-|[<-|[<-|[]]]]]; (apply simple_ok; [simpl; nodup_ok|reflexivity]).
  - intros l. destruct Hg as [<-|[<-|[<-|[<-|[]]]]]; simpl; intros E; inversion E; reflexivity.
  - destruct Hg as [<-|[<-|[<-|[<-|[]]]]]; exact I.
Qed.
Example C22_rings_example := C22_rings_succeeds_partial Zops Z.eqb one (any_lib true) (ref_isos 5) (@rev _) RAdd 5 true true false Zeqb_ok C22_dataset 1 None
  eq_refl one_ok (proj1 C22_dataset_ok) (proj2 C22_dataset_ok).
Example C22_rings_computed : exists ks, convert_with_rings Zops Z.eqb one (any_lib true) (ref_isos 5) (@rev _) RAdd C22_dataset 5 true true false =
  Ok (ks, 3, [Some 1; Some 1; Some 0]) /\ map (fun c => k_y c) ks = [Some [9]; Some [2]; Some [3]; Some [9]]%Z /\ map (fun c => k_dim c) ks = [2; 0; 2; 2].
Proof. eexists. split; [vm_compute; reflexivity|]. split; reflexivity. Qed.
Example C22_gudhi_computed : exists ks, convert_with_gudhi Zops one (any_lib false) RMax C22_dataset 2 false =
  Ok (ks, 3, [Some 1; Some 1; Some 1]) /\ map (fun c => k_y c) ks = [Some [9]; Some [2]; Some [3]; Some [9]]%Z.
Proof. eexists. split; [vm_compute; reflexivity|]. reflexivity. Qed.
Lemma C22_gudhi_inputs k : Forall (fun g => clique_input (any_lib false) (g_x g) (g_edges g) (g_n g) k (g_y g) /\ forall v, In v (g_x g) -> one v = 1) C22_dataset.
Proof.
  apply Forall_forall. intros g Hg. split; [|intros; reflexivity].
  split; [| | | |apply any_lib_ok]; destruct Hg as [<-|[<-|[<-|[<-|[]]]]]; try (simpl; lia); try reflexivity; try (left; reflexivity); edges_ok.
Qed.
Example C22_gudhi_example := C22_gudhi_succeeds_partial Zops one (any_lib false) RMax 2 false C22_dataset 1 (le_S _ _ (le_n 1)) one_ok (C22_gudhi_inputs 2).
Example C22_init_edges_example : convert_with_rings Zops Z.eqb one (any_lib true) (ref_isos 5) (@rev _) RAdd [tri_g] 5 true false false = Err AttributeError.
Proof.
  apply C22_init_edges_refuted; auto; [apply Zeqb_ok| |discriminate]. destruct C22_dataset_ok as [H _]. inversion H; auto.
Qed.
Example C22_node_labels_example :
  convert_with_rings Zops Z.eqb one (any_lib true) (ref_isos 5) (@rev _) RAdd [mkGraph (g_x tri_g) (g_edges tri_g) None 4 (Some [1;2;3;4]%Z)] 5 true true true = Err AssertionError.
Proof. vm_compute. reflexivity. Qed.
Example C22_zero_example : convert_with_gudhi Zops one (any_lib true) RAdd [tri_g] 0 true = Err IndexError.
Proof. vm_compute. reflexivity. Qed.

Print Assumptions C22_gudhi_order.
Print Assumptions C22_gudhi_succeeds_partial.
Print Assumptions C22_gudhi_zero_refuted.
Print Assumptions C22_rings_order.
Print Assumptions C22_rings_succeeds_partial.
Print Assumptions C22_init_edges_refuted.
Print Assumptions C22_node_labels_refused.
