(** Complexes with corresponding cells are isomorphic; liftings of isomorphic graphs: C17, C28. *)
From Coq Require Import List Arith Lia ZArith Bool Permutation Sorted.
From Verif Require Import Base ScatterModel ScatterSpec ScatterProofs ComplexModel BatchSpec BatchSpec2 BatchProofs
  MPModel MPSpec MPProofs MPForward MPNets MPIso
  LiftModel LiftSpec LiftBase LiftProofs LiftClique LiftTables LiftCliqueProps LiftRing LiftProps LiftRingProps.
Import ListNotations.

(** ** Corresponding cells *)
(** The renaming [sigma] of vertices takes the cells of the first family to those of the second. *)
Record same_cells (sigma : nat -> nat) (cells cells' : nat -> list (list nat)) : Prop := {
  sc_once : forall d i j s s', names cells d i s -> names cells d j s' -> same_set s s' -> i = j;
  sc_once' : forall d i j s s', names cells' d i s -> names cells' d j s' -> same_set s s' -> i = j;
  sc_fwd : forall d i s, names cells d i s -> exists j s', names cells' d j s' /\ same_set (map sigma s) s';
  sc_bwd : forall d j s', names cells' d j s' -> exists i s, names cells d i s /\ same_set (map sigma s) s';
  sc_inj : forall d d' i i' s s' u v, names cells d i s -> names cells d' i' s' -> In u s -> In v s' ->
    sigma u = sigma v -> u = v
}.

Fixpoint find_idx {A} (f : A -> bool) (l : list A) : nat :=
  match l with [] => 0 | a :: l' => if f a then 0 else S (find_idx f l') end.
Lemma find_idx_ok {A} (f : A -> bool) l a : In a l -> f a = true ->
  exists b, nth_error l (find_idx f l) = Some b /\ f b = true.
Proof.
  induction l as [|c l IH]; [intros []|]. intros Ha Hf. simpl. destruct (f c) eqn:E; [exists c; auto|].
  destruct Ha as [->|Ha]; [congruence|]. apply IH; auto.
Qed.
Definition subb (a b : list nat) : bool := forallb (fun v => existsb (Nat.eqb v) b) a.
Lemma subb_ok a b : subb a b = true <-> incl a b.
Proof.
  unfold subb, incl. rewrite forallb_forall. split; intros H v Hv; specialize (H v Hv).
  - apply existsb_exists in H as (w & Hw & E). apply Nat.eqb_eq in E. subst. auto.
  - apply existsb_exists. exists v. rewrite Nat.eqb_refl. auto.
Qed.
Definition same_setb (a b : list nat) : bool := subb a b && subb b a.
Lemma same_setb_ok a b : same_setb a b = true <-> same_set a b.
Proof.
  unfold same_setb. rewrite andb_true_iff, !subb_ok. unfold incl, same_set. split.
  - intros [H H'] v. split; auto.
  - intros H. split; intros v; apply H.
Qed.
Lemma same_set_trans a b c : same_set a b -> same_set b c -> same_set a c.
Proof. intros H H' v. rewrite (H v). apply H'. Qed.
Lemma same_set_sym a b : same_set a b -> same_set b a.
Proof. intros H v. symmetry. apply H. Qed.

Section Same.
Variables (sigma : nat -> nat) (cells cells' : nat -> list (list nat)).
Hypothesis HS : same_cells sigma cells cells'.

Definition cell_map (d i : nat) : nat :=
  match nth_error (cells d) i with
  | Some s => find_idx (fun s' => same_setb (map sigma s) s') (cells' d)
  | None => 0
  end.

Lemma cell_map_ok d i s : names cells d i s -> exists s', names cells' d (cell_map d i) s' /\ same_set (map sigma s) s'.
Proof.
  intros Hi. destruct (sc_fwd _ _ _ HS d i s Hi) as (j & s' & Hj & E). unfold cell_map, names in *. rewrite Hi.
  destruct (find_idx_ok (fun s' => same_setb (map sigma s) s') (cells' d) s') as (b & H1 & H2).
  - eapply nth_error_In; eauto.
  - apply same_setb_ok; auto.
  - exists b. split; auto. apply same_setb_ok; auto.
Qed.
Lemma sigma_incl d i s d' i' s' : names cells d i s -> names cells d' i' s' -> incl (map sigma s) (map sigma s') -> incl s s'.
Proof.
  intros H H' HI v Hv. assert (G : In (sigma v) (map sigma s')) by (apply HI, in_map; auto).
  apply in_map_iff in G as (w & E & Hw). rewrite (sc_inj _ _ _ HS d d' i i' s s' v w); auto.
Qed.
Lemma sigma_same d i s d' i' s' : names cells d i s -> names cells d' i' s' -> same_set (map sigma s) (map sigma s') -> same_set s s'.
Proof.
  intros H H' E v. split; apply (sigma_incl d i s d' i' s') || apply (sigma_incl d' i' s' d i s); auto; intros w Hw; apply E; auto.
Qed.
Lemma cell_map_inj d i j : i < length (cells d) -> j < length (cells d) -> cell_map d i = cell_map d j -> i = j.
Proof.
  intros Hi Hj E. destruct (nth_error (cells d) i) as [s|] eqn:Es; [|apply nth_error_None in Es; lia].
  destruct (nth_error (cells d) j) as [t|] eqn:Et; [|apply nth_error_None in Et; lia].
  destruct (cell_map_ok d i s Es) as (s' & N1 & E1). destruct (cell_map_ok d j t Et) as (t' & N2 & E2).
  rewrite E in N1. unfold names in *. assert (s' = t') by congruence. subst t'.
  apply (sc_once _ _ _ HS d i j s t Es Et). apply (sigma_same d i s d j t Es Et).
  eapply same_set_trans; [exact E1|]. apply same_set_sym; auto.
Qed.
Lemma cell_map_surj d j : j < length (cells' d) -> exists i, i < length (cells d) /\ cell_map d i = j.
Proof.
  intros Hj. destruct (nth_error (cells' d) j) as [t|] eqn:Et; [|apply nth_error_None in Et; lia].
  destruct (sc_bwd _ _ _ HS d j t Et) as (i & s & Hi & E). exists i. split; [apply nth_error_Some; unfold names in Hi; congruence|].
  destruct (cell_map_ok d i s Hi) as (s' & N1 & E1). apply (sc_once' _ _ _ HS d _ j s' t N1 Et).
  eapply same_set_trans; [apply same_set_sym; exact E1|exact E].
Qed.
Lemma cell_map_lt d i : i < length (cells d) -> cell_map d i < length (cells' d).
Proof.
  intros Hi. destruct (nth_error (cells d) i) as [s|] eqn:Es; [|apply nth_error_None in Es; lia].
  destruct (cell_map_ok d i s Es) as (s' & N1 & _). apply nth_error_Some. unfold names in N1. congruence.
Qed.
Lemma cells_length d : length (cells' d) = length (cells d).
Proof.
  assert (N : NoDup (map (cell_map d) (seq 0 (length (cells d))))).
  { apply NoDup_map_inj; [|apply seq_NoDup]. intros i j Hi Hj. apply in_seq in Hi, Hj. apply cell_map_inj; lia. }
  apply Nat.le_antisymm.
  - assert (I : incl (seq 0 (length (cells' d))) (map (cell_map d) (seq 0 (length (cells d))))).
    { intros j Hj. apply in_seq in Hj. destruct (cell_map_surj d j) as (i & Hi & E); [lia|].
      apply in_map_iff. exists i. split; auto. apply in_seq. lia. }
    apply NoDup_incl_length in I; [|apply seq_NoDup]. rewrite map_length, !seq_length in I. auto.
  - assert (I : incl (map (cell_map d) (seq 0 (length (cells d)))) (seq 0 (length (cells' d)))).
    { intros j Hj. apply in_map_iff in Hj as (i & <- & Hi). apply in_seq in Hi. apply in_seq. pose proof (cell_map_lt d i). lia. }
    apply NoDup_incl_length in I; auto. rewrite map_length, !seq_length in I. auto.
Qed.
Lemma face_range (C : nat -> list (list nat)) d f t : face_of C d f t -> f < length (C d) /\ t < length (C (S d)).
Proof. intros (s & s' & H1 & H2 & _). split; apply nth_error_Some; unfold names in *; congruence. Qed.
Lemma face_map d f t : f < length (cells d) -> t < length (cells (S d)) ->
  (face_of cells d f t <-> face_of cells' d (cell_map d f) (cell_map (S d) t)).
Proof.
  intros Hf Ht. destruct (nth_error (cells d) f) as [s|] eqn:Es; [|apply nth_error_None in Es; lia].
  destruct (nth_error (cells (S d)) t) as [u|] eqn:Eu; [|apply nth_error_None in Eu; lia].
  destruct (cell_map_ok d f s Es) as (s' & N1 & E1). destruct (cell_map_ok (S d) t u Eu) as (u' & N2 & E2). split.
  - intros (a & b & A & B & HI). unfold names in A, B. rewrite Es in A. rewrite Eu in B. inversion A; inversion B; subst a b.
    exists s', u'. split; auto. split; auto. intros v Hv. apply E2. apply E1 in Hv. apply in_map_iff in Hv as (w & <- & Hw). apply in_map; auto.
  - intros (a & b & A & B & HI). unfold names in *. rewrite N1 in A. rewrite N2 in B. inversion A; inversion B; subst a b.
    exists s, u. split; auto. split; auto. apply (sigma_incl d f s (S d) t u); auto. intros v Hv. apply E2, HI, E1. auto.
Qed.

Context {V : Type}.
Variables (down : bool) (X X' : nat -> option (list V)) (k k' : complex V).
Hypothesis HK : has_cells cells down X k.
Hypothesis HK' : has_cells cells' down X' k'.
Hypothesis Hdim : forall d, d <= k_dim k <-> cells d <> [].
Hypothesis Hdim' : forall d, d <= k_dim k' <-> cells' d <> [].
Hypothesis HX : forall d i s s' j, names cells d i s -> names cells' d j s' -> same_set (map sigma s) s' ->
  nth_error (content (X' d)) j = nth_error (content (X d)) i.

Lemma dim_same : k_dim k' = k_dim k.
Proof.
  assert (G : forall d, d <= k_dim k' <-> d <= k_dim k).
  { intros d. rewrite Hdim, Hdim'. pose proof (cells_length d). destruct (cells d), (cells' d); simpl in *; try lia; intuition congruence. }
  pose proof (proj1 (G (k_dim k'))). pose proof (proj2 (G (k_dim k))). lia.
Qed.

Lemma cochain_both d : (exists c c', nth_error (k_cochains k) d = Some c /\ nth_error (k_cochains k') d = Some c') \/
  (nth_error (k_cochains k) d = None /\ nth_error (k_cochains k') d = None).
Proof.
  pose proof (wfk_len _ _ (hc_wf _ _ _ _ HK)). pose proof (wfk_len _ _ (hc_wf _ _ _ _ HK')). pose proof dim_same.
  destruct (nth_error (k_cochains k) d) as [c|] eqn:E.
  - assert (d < length (k_cochains k)) by (apply nth_error_Some; congruence).
    destruct (nth_error (k_cochains k') d) as [c'|] eqn:E'; [left; eauto|]. apply nth_error_None in E'. lia.
  - apply nth_error_None in E. right. split; auto. apply nth_error_None. lia.
Qed.

Lemma triples_perm (P : nat -> nat -> nat -> Prop) (P' : nat -> nat -> nat -> Prop) (f g : nat -> nat) n m l l' :
  NoDup l -> NoDup l' ->
  (forall a b t, In ((a, b), t) l <-> P a b t) -> (forall a b t, In ((a, b), t) l' <-> P' a b t) ->
  (forall a b t, P a b t -> a < n /\ b < n /\ t < m) ->
  (forall a b t, a < n -> b < n -> t < m -> (P a b t <-> P' (f a) (f b) (g t))) ->
  (forall a b t, P' a b t -> exists a' b' t', a' < n /\ b' < n /\ t' < m /\ a = f a' /\ b = f b' /\ t = g t') ->
  (forall i j, i < n -> j < n -> f i = f j -> i = j) -> (forall i j, i < m -> j < m -> g i = g j -> i = j) ->
  Permutation l' (map (fun e => ((f (fst (fst e)), f (snd (fst e))), g (snd e))) l).
Proof.
  intros N N' I I' R E Su If Ig. apply NoDup_Permutation; auto.
  - apply NoDup_map_inj; auto. intros [[a b] t] [[a' b'] t'] H H'. cbn [fst snd]. intros Eq. inversion Eq.
    apply I, R in H as (A1 & A2 & A3). apply I, R in H' as (B1 & B2 & B3).
    repeat f_equal; auto.
  - intros [[a b] t]. rewrite I', in_map_iff. split.
    + intros H. destruct (Su _ _ _ H) as (a' & b' & t' & Ha & Hb & Ht & -> & -> & ->). exists ((a', b'), t'). split; auto.
      apply I, E; auto.
    + intros ([[a' b'] t'] & Eq & H). cbn [fst snd] in Eq. inversion Eq; subst. apply I in H. pose proof (R _ _ _ H) as (A1 & A2 & A3).
      apply E in H; auto.
Qed.

Theorem same_cells_iso : complex_iso cell_map (fun d => length (cells d)) k k'.
Proof.
  split.
  - apply dim_same.
  - intros d i Hi. rewrite <- cells_length. apply cell_map_lt; auto.
  - intros d i j. apply cell_map_inj.
  - intros d i Hi. unfold attr. destruct (cochain_both d) as [(c & c' & Ec & Ec')|[Ec Ec']]; rewrite Ec, Ec'.
    + rewrite (hc_x _ _ _ _ HK d c Ec), (hc_x _ _ _ _ HK' d c' Ec').
      destruct (nth_error (cells d) i) as [s|] eqn:Es; [|apply nth_error_None in Es; lia].
      destruct (cell_map_ok d i s Es) as (s' & N1 & E1). eapply HX; eauto.
    + destruct (cell_map d i), i; auto.
  - intros d. unfold upper_of, attr. destruct (cochain_both d) as [(c & c' & Ec & Ec')|[Ec Ec']]; rewrite Ec, Ec'; [|constructor].
    pose proof (hc_up _ _ _ _ HK d c Ec) as [U1 U2 U3]. pose proof (hc_up _ _ _ _ HK' d c' Ec') as [U1' U2' U3'].
    unfold triples in *. rewrite Nat.add_1_r.
    eapply (triples_perm _ _ (cell_map d) (cell_map (S d)) (length (cells d)) (length (cells (S d)))); [exact U3|exact U3'|exact U2|exact U2'| | | | |].
    + intros a b t (_ & F1 & F2). apply face_range in F1, F2. tauto.
    + intros a b t Ha Hb Ht. cbv beta. rewrite (face_map d a t), (face_map d b t) by auto. split; intros (A & B & C); repeat split; auto; intros E; apply A; solve [eapply cell_map_inj; eauto|congruence].
    + intros a b t (A & F1 & F2). apply face_range in F1 as [F1 F3], F2 as [F2 _].
      destruct (cell_map_surj d a F1) as (a' & Ha & <-). destruct (cell_map_surj d b F2) as (b' & Hb & <-).
      destruct (cell_map_surj (S d) t F3) as (t' & Ht & <-). exists a', b', t'. auto 10.
    + apply cell_map_inj.
    + apply cell_map_inj.
  - intros d. unfold lower_of, attr. destruct (cochain_both d) as [(c & c' & Ec & Ec')|[Ec Ec']]; rewrite Ec, Ec'; [|constructor].
    destruct d as [|d].
    + destruct (hc_bnd0 _ _ _ _ HK c Ec) as (_ & -> & _). destruct (hc_bnd0 _ _ _ _ HK' c' Ec') as (_ & -> & _). constructor.
    + pose proof (hc_low _ _ _ _ HK d c Ec) as U. pose proof (hc_low _ _ _ _ HK' d c' Ec') as U'. destruct down.
      * destruct U as [U1 U2 U3], U' as [U1' U2' U3']. unfold triples in *. cbn [pred].
        eapply (triples_perm _ _ (cell_map (S d)) (cell_map d) (length (cells (S d))) (length (cells d))); [exact U3|exact U3'|exact U2|exact U2'| | | | |].
        -- intros a b t (_ & F1 & F2). apply face_range in F1, F2. tauto.
        -- intros a b t Ha Hb Ht. cbv beta. rewrite (face_map d t a), (face_map d t b) by auto. split; intros (A & B & C); repeat split; auto; intros E; apply A; solve [eapply cell_map_inj; eauto|congruence].
        -- intros a b t (A & F1 & F2). apply face_range in F1 as [F1 F3], F2 as [_ F2].
           destruct (cell_map_surj (S d) a F3) as (a' & Ha & <-). destruct (cell_map_surj (S d) b F2) as (b' & Hb & <-).
           destruct (cell_map_surj d t F1) as (t' & Ht & <-). exists a', b', t'. auto 10.
        -- apply cell_map_inj.
        -- apply cell_map_inj.
      * destruct U as [-> ->], U' as [-> ->]. constructor.
  - intros d. unfold boundary_of, attr. destruct (cochain_both d) as [(c & c' & Ec & Ec')|[Ec Ec']]; rewrite Ec, Ec'; [|constructor].
    destruct d as [|d].
    + destruct (hc_bnd0 _ _ _ _ HK c Ec) as (-> & _). destruct (hc_bnd0 _ _ _ _ HK' c' Ec') as (-> & _). constructor.
    + pose proof (hc_bnd _ _ _ _ HK d c Ec) as [B1 B2 _]. pose proof (hc_bnd _ _ _ _ HK' d c' Ec') as [B1' B2' _]. cbn [pred].
      apply NoDup_Permutation; auto.
      * apply NoDup_map_inj; auto. intros [f t] [f' t'] H H'. cbn [fst snd]. intros Eq. inversion Eq.
        apply B1, face_range in H as [A1 A2], H' as [A3 A4]. f_equal; eapply cell_map_inj; eauto.
      * intros [f t]. rewrite B1', in_map_iff. split.
        -- intros F. pose proof (face_range _ _ _ _ F) as [F1 F2].
           destruct (cell_map_surj d f F1) as (f' & Hf & <-). destruct (cell_map_surj (S d) t F2) as (t' & Ht & <-).
           exists (f', t'). split; auto. apply B1, face_map; auto.
        -- intros ([f' t'] & Eq & H). cbn [fst snd] in Eq. inversion Eq; subst. apply B1 in H. pose proof (face_range _ _ _ _ H) as [A1 A2].
           apply face_map in H; auto.
Qed.
End Same.

(** ** Isomorphic graphs *)
(** [sigma] is a bijection of the nodes preserving adjacency and carrying the feature rows along.
    With the identity it says that two edge lists denote the same simple graph. *)
Record graph_iso {V} (sigma : nat -> nat) (size : nat) (edges edges' : list (nat * nat)) (x x' : list V) : Prop := {
  gi_range : forall v, v < size -> sigma v < size;
  gi_inj : forall u v, u < size -> v < size -> sigma u = sigma v -> u = v;
  gi_adj : forall u v, u < size -> v < size -> (adjacent edges u v <-> adjacent edges' (sigma u) (sigma v));
  gi_x : forall v, v < size -> nth_error x' (sigma v) = nth_error x v
}.

Section GraphIso.
Context {V : Type} (o : ops V).
Variables (sigma : nat -> nat) (size : nat) (edges edges' : list (nat * nat)) (x x' : list V).
Hypothesis HG : graph_iso sigma size edges edges' x x'.

Definition inverse (w : nat) : nat := find_idx (fun v => sigma v =? w) (seq 0 size).
Lemma inverse_ok w : w < size -> inverse w < size /\ sigma (inverse w) = w.
Proof.
  intros Hw. pose proof (bij_perm sigma size (gi_range _ _ _ _ _ _ HG) (gi_inj _ _ _ _ _ _ HG)) as P.
  assert (Hin : In w (map sigma (seq 0 size))).
  { apply (Permutation_in w (Permutation_sym P)). apply in_seq. lia. }
  apply in_map_iff in Hin as (v & E & Hv).
  destruct (find_idx_ok (fun v => sigma v =? w) (seq 0 size) v Hv (proj2 (Nat.eqb_eq _ _) E)) as (b & H1 & H2).
  fold (inverse w) in H1. assert (inverse w < size) by (rewrite <- (seq_length size 0); apply nth_error_Some; congruence).
  split; auto. rewrite (nth_error_nth' _ 0) in H1 by (rewrite seq_length; auto). rewrite seq_nth in H1 by auto. simpl in H1.
  inversion H1 as [E1]. rewrite E1. apply Nat.eqb_eq; auto.
Qed.
Lemma inverse_sigma v : v < size -> inverse (sigma v) = v.
Proof.
  intros Hv. pose proof (gi_range _ _ _ _ _ _ HG v Hv) as H. destruct (inverse_ok (sigma v) H) as [H1 H2].
  eapply (gi_inj _ _ _ _ _ _ HG); eauto.
Qed.
Lemma inverse_iso : graph_iso inverse size edges' edges x' x.
Proof.
  split.
  - intros v Hv. apply inverse_ok; auto.
  - intros u v Hu Hv E. destruct (inverse_ok u Hu) as [_ <-]. destruct (inverse_ok v Hv) as [_ <-]. congruence.
  - intros u v Hu Hv. destruct (inverse_ok u Hu) as [A1 A2]. destruct (inverse_ok v Hv) as [B1 B2].
    rewrite (gi_adj _ _ _ _ _ _ HG _ _ A1 B1), A2, B2. tauto.
  - intros v Hv. destruct (inverse_ok v Hv) as [A1 A2]. rewrite <- (gi_x _ _ _ _ _ _ HG _ A1), A2. auto.
Qed.

Lemma map_sigma_NoDup s : (forall v, In v s -> v < size) -> NoDup s -> NoDup (map sigma s).
Proof. intros Hr HN. apply NoDup_map_inj; auto. intros u v Hu Hv. apply (gi_inj _ _ _ _ _ _ HG); auto. Qed.

Lemma clique_map s : clique edges size s -> clique edges' size (map sigma s).
Proof.
  intros (C1 & C2 & C3 & C4). split; [destruct s; [congruence|discriminate]|]. split; [apply map_sigma_NoDup; auto|]. split.
  - intros v Hv. apply in_map_iff in Hv as (u & <- & Hu). apply (gi_range _ _ _ _ _ _ HG); auto.
  - intros a b Ha Hb Hne. apply in_map_iff in Ha as (u & <- & Hu), Hb as (v & <- & Hv).
    apply (gi_adj _ _ _ _ _ _ HG); auto.
Qed.
Lemma cycle_map c : (forall v, In v c -> v < size) -> induced_cycle edges c -> induced_cycle edges' (map sigma c).
Proof.
  intros Hr (C1 & C2 & C3). split; [rewrite map_length; auto|]. split; [apply map_sigma_NoDup; auto|].
  intros i j a b Hi Hj. rewrite nth_error_map in Hi, Hj. rewrite map_length.
  destruct (nth_error c i) as [u|] eqn:Eu; [|discriminate]. destruct (nth_error c j) as [v|] eqn:Ev; [|discriminate].
  cbn in Hi, Hj. inversion Hi; inversion Hj; subst. rewrite <- (C3 i j u v Eu Ev). symmetry.
  apply (gi_adj _ _ _ _ _ _ HG); apply Hr; eapply nth_error_In; eauto.
Qed.

Lemma row_map (Ho : ops_ok o) r s s' : length x = size -> length x' = size -> (forall v, In v s -> v < size) -> NoDup s -> NoDup s' ->
  same_set (map sigma s) s' -> cell_row o r x' s' = cell_row o r x s.
Proof.
  intros Lx Lx' Hr N N' HS. unfold cell_row.
  assert (P : Permutation s' (map sigma s)).
  { apply NoDup_Permutation; auto; [apply map_sigma_NoDup; auto|]. intros v. symmetry. apply HS. }
  rewrite (reduce_rows_perm o Ho r _ _ (Permutation_map _ P)). rewrite map_map. f_equal. apply map_ext_in. intros v Hv.
  specialize (Hr v Hv). pose proof (gi_x _ _ _ _ _ _ HG v Hr) as E. pose proof (gi_range _ _ _ _ _ _ HG v Hr).
  rewrite !(nth_error_nth' _ (vzero o)) in E by lia. congruence.
Qed.
End GraphIso.

Section CellsIso.
Context {V : Type} (o : ops V).

Lemma clique_fwd sigma size edges edges' (x x' : list V) k cells cells' :
  graph_iso sigma size edges edges' x x' -> clique_cells edges size k cells -> clique_cells edges' size k cells' ->
  forall d i s, names cells d i s -> exists j s', names cells' d j s' /\ same_set (map sigma s) s'.
Proof.
  intros HG CC CC' d i s Hi. apply nth_error_In in Hi. apply (cc_iff _ _ _ _ CC) in Hi as (C & Hinc & Hl & Hk).
  pose proof (clique_map sigma size edges edges' x x' HG s C) as (C1 & C2 & C3 & C4).
  assert (HS : same_set (map sigma s) (sort Nat.leb (map sigma s))) by (intros v; rewrite sort_In; tauto).
  assert (Hin : In (sort Nat.leb (map sigma s)) (cells' d)).
  { apply (cc_iff _ _ _ _ CC').
    assert (L : length (sort Nat.leb (map sigma s)) = d + 1).
    { rewrite <- (Permutation_length (sort_perm Nat.leb (map sigma s))), map_length. auto. }
    split; [|split; [apply sorted_increasing, sort_sorted; auto|split; auto]].
    split; [intros E; rewrite E in L; simpl in L; lia|].
    split; [eapply Permutation_NoDup; [apply sort_perm|auto]|]. split.
    - intros v Hv. apply C3, HS; auto.
    - intros u v Hu Hv. apply C4; apply HS; auto. }
  apply In_nth_error in Hin as [j Hj]. exists j. eexists. split; eauto.
Qed.

Lemma induced_range edges size c : graph_ok edges size -> induced_cycle edges c -> forall v, In v c -> v < size.
Proof.
  intros Hg Hc v Hv. apply In_nth_error in Hv as [i Hi]. assert (Li : i < length c) by (apply nth_error_Some; congruence).
  assert (HA : adjacent edges v (nth (nxt (length c) i) c 0)).
  { rewrite <- (nth_error_nth _ _ 0 Hi). apply (adj_iff edges c Hc); auto. apply nxt_lt; auto. }
  destruct HA as [_ [HA|HA]]; apply Hg in HA; lia.
Qed.
Lemma ring_vertex edges size max_k cells i s : ring_cells edges size max_k cells -> names cells 0 i s -> i < size /\ s = [i].
Proof.
  intros RC H. assert (Hi : i < size) by (rewrite <- (rc_vertices _ _ _ _ RC); apply nth_error_Some; unfold names in H; congruence).
  split; auto. pose proof (rc_vertex _ _ _ _ RC i Hi). unfold names in *. congruence.
Qed.
Lemma ring_range edges size max_k cells d i s : graph_ok edges size -> ring_cells edges size max_k cells ->
  names cells d i s -> NoDup s /\ forall v, In v s -> v < size.
Proof.
  intros Hg RC H. pose proof (nth_error_In _ _ H) as Hin. destruct d as [|[|[|d]]].
  - apply (ring_vertex _ _ _ _ _ _ RC) in H as [H1 ->]. split; [repeat constructor; auto|]. intros v [<-|[]]; auto.
  - apply (rc_edge _ _ _ _ RC) in Hin as (u & v & Hlt & -> & _ & HA). split.
    + repeat constructor; simpl; auto. intros [E|[]]; lia.
    + destruct HA as [HA|HA]; apply Hg in HA; intros w [<-|[<-|[]]]; tauto.
  - apply (rc_ring _ _ _ _ RC) in Hin as [Hc _]. split; [apply Hc|]. eapply induced_range; eauto.
  - rewrite (rc_top _ _ _ _ RC) in Hin by lia. destruct Hin.
Qed.
Lemma ring_fwd sigma size edges edges' (x x' : list V) max_k cells cells' :
  graph_ok edges size ->
  graph_iso sigma size edges edges' x x' -> ring_cells edges size max_k cells -> ring_cells edges' size max_k cells' ->
  forall d i s, names cells d i s -> exists j s', names cells' d j s' /\ same_set (map sigma s) s'.
Proof.
  intros Hg HG RC RC' d i s Hi. pose proof (ring_range _ _ _ _ _ _ _ Hg RC Hi) as [HN Hr]. pose proof (nth_error_In _ _ Hi) as Hin. destruct d as [|[|[|d]]].
  - apply (ring_vertex _ _ _ _ _ _ RC) in Hi as [H1 ->]. exists (sigma i), [sigma i]. split; [|intros v; tauto].
    apply (rc_vertex _ _ _ _ RC'). apply (gi_range _ _ _ _ _ _ HG); auto.
  - apply (rc_edge _ _ _ _ RC) in Hin as (u & v & Hlt & -> & HA). apply (gi_adj _ _ _ _ _ _ HG) in HA; [|apply Hr; simpl; auto|apply Hr; simpl; auto].
    assert (Hin' : In (sort Nat.leb [sigma u; sigma v]) (cells' 1)).
    { apply (rc_edge _ _ _ _ RC'). destruct HA as [Hne HA]. rewrite sort_2 by auto.
      exists (Nat.min (sigma u) (sigma v)), (Nat.max (sigma u) (sigma v)). split; [lia|]. split; auto. split; [lia|].
      destruct (Nat.le_ge_cases (sigma u) (sigma v)).
      - rewrite Nat.min_l, Nat.max_r by lia. auto.
      - rewrite Nat.min_r, Nat.max_l by lia. tauto. }
    apply In_nth_error in Hin' as [j Hj]. exists j. eexists. split; eauto. intros w. rewrite sort_In. simpl. tauto.
  - apply (rc_ring _ _ _ _ RC) in Hin as [Hc Hl]. apply (cycle_map sigma size edges edges' x x' HG s Hr) in Hc.
    destruct (rc_all _ _ _ _ RC' (map sigma s) Hc) as (j & t & Hj & HS); [rewrite map_length; auto|]. exists j, t. auto.
  - rewrite (rc_top _ _ _ _ RC) in Hin by lia. destruct Hin.
Qed.

Lemma back sigma size edges edges' (x x' : list V) (s s' : list nat) :
  graph_iso sigma size edges edges' x x' -> (forall v, In v s' -> v < size) ->
  same_set (map (inverse sigma size) s') s -> same_set (map sigma s) s'.
Proof.
  intros HG Hr HS v. rewrite in_map_iff. split.
  - intros (u & <- & Hu). apply HS, in_map_iff in Hu as (w & <- & Hw).
    rewrite (proj2 (inverse_ok sigma size edges edges' x x' HG w (Hr w Hw))). auto.
  - intros Hv. exists (inverse sigma size v). split.
    + apply (inverse_ok sigma size edges edges' x x' HG v). auto.
    + apply HS. apply in_map; auto.
Qed.

Lemma clique_same_cells sigma size edges edges' (x x' : list V) k cells cells' :
  graph_iso sigma size edges edges' x x' -> clique_cells edges size k cells -> clique_cells edges' size k cells' ->
  same_cells sigma cells cells'.
Proof.
  intros HG CC CC'.
  assert (Hr : forall edges (cells : nat -> list (list nat)), clique_cells edges size k cells -> forall d i s v, names cells d i s -> In v s -> v < size).
  { intros E C HC d i s v Hi Hv. apply nth_error_In in Hi. apply (cc_iff _ _ _ _ HC) in Hi as (C' & _). apply C'; auto. }
  split.
  - apply (cc_once _ _ _ _ CC).
  - apply (cc_once _ _ _ _ CC').
  - eapply clique_fwd; eauto.
  - intros d j s' Hj. destruct (clique_fwd _ _ _ _ _ _ _ _ _ (inverse_iso _ _ _ _ _ _ HG) CC' CC d j s' Hj) as (i & s & Hi & E).
    exists i, s. split; auto. eapply back; eauto.
  - intros d d' i i' s s' u v H H' Hu Hv. apply (gi_inj _ _ _ _ _ _ HG); eauto.
Qed.
Lemma ring_same_cells sigma size edges edges' (x x' : list V) k cells cells' :
  graph_ok edges size -> graph_ok edges' size ->
  graph_iso sigma size edges edges' x x' -> ring_cells edges size k cells -> ring_cells edges' size k cells' ->
  same_cells sigma cells cells'.
Proof.
  intros Hg Hg' HG CC CC'. split.
  - apply (rc_once _ _ _ _ CC).
  - apply (rc_once _ _ _ _ CC').
  - exact (ring_fwd sigma size edges edges' x x' k cells cells' Hg HG CC CC').
  - intros d j s' Hj. destruct (ring_fwd _ _ _ _ _ _ _ _ _ Hg' (inverse_iso _ _ _ _ _ _ HG) CC' CC d j s' Hj) as (i & s & Hi & E).
    exists i, s. split; auto. apply (back sigma size edges edges' x x' s s' HG); auto. apply (ring_range edges' size k cells' d j s' Hg' CC' Hj).
  - intros d d' i i' s s' u v H H' Hu Hv. apply (gi_inj _ _ _ _ _ _ HG).
    + eapply (ring_range edges size k cells d i s); eauto.
    + eapply (ring_range edges size k cells d' i' s'); eauto.
Qed.
End CellsIso.

(** ** Liftings of isomorphic graphs *)
Lemma wf_ext {V} (k : complex V) sz sz' : (forall d, sz d = sz' d) -> wf_complex k sz -> wf_complex k sz'.
Proof.
  intros E [W1 W2 W3]. split; auto.
  - intros d c Hc. destruct (W2 d c Hc) as [D N X U L B NU ND]. split; auto.
    + rewrite <- E. auto.
    + destruct (c_x c); [rewrite <- E; auto|]. destruct X as (b & p & X). exists b, p. rewrite <- E. auto.
    + destruct (c_upper c); auto. destruct U as (U1 & U2 & sh & U3 & U4 & U5). split; auto. split.
      * intros a b H. rewrite <- E. auto.
      * exists sh. split; auto. split; auto. intros j Hj. rewrite <- E. auto.
    + destruct (c_lower c); auto. destruct L as (U1 & U2 & sh & U3 & U4 & U5). split; auto. split.
      * intros a b H. rewrite <- E. auto.
      * exists sh. split; auto. split; auto. intros j Hj. rewrite <- E. auto.
    + destruct (c_bidx c); auto. destruct B as [B1 B2]. split; auto. intros a b H. rewrite <- !E. auto.
    + destruct (d <? k_dim k); rewrite <- ?E; auto.
    + rewrite <- E. auto.
  - intros d Hd. rewrite <- E. auto.
Qed.
Section Lift.
Context {V : Type} (o : ops V) (Ho : ops_ok o) (veqb : V -> V -> bool).

(** Edge attributes correspond under the renaming. *)
Definition attr_iso (sigma : nat -> nat) (edges edges' : list (nat * nat)) (a a' : option (list V)) : Prop :=
  match a, a' with
  | None, None => True
  | Some l, Some l' => forall j e j' e', nth_error edges j = Some e -> nth_error edges' j' = Some e' ->
      same_set [sigma (fst e); sigma (snd e)] [fst e'; snd e'] -> nth_error l j = nth_error l' j'
  | _, _ => False
  end.

(** C17/C28 for the clique lifting: the two complexes have corresponding cells and are isomorphic,
    whatever enumerations gudhi uses for either. *)
Theorem clique_lift_iso sigma lib lib' r x x' edges edges' size k y y' down :
  clique_input lib x edges size k y -> clique_input lib' x' edges' size k y' ->
  graph_iso sigma size edges edges' x x' ->
  exists K K' cells cells' pi,
    compute_clique_complex o lib r x edges size k y down = Ok K /\
    compute_clique_complex o lib' r x' edges' size k y' down = Ok K' /\
    clique_cells edges size k cells /\ clique_cells edges' size k cells' /\
    wf_complex K (fun d => length (cells d)) /\ wf_complex K' (fun d => length (cells d)) /\
    length (cells 0) = size /\ (forall D, has_features D K) /\ (forall D, has_features D K') /\
    (forall d i s, names cells d i s -> exists s', names cells' d (pi d i) s' /\ same_set (map sigma s) s') /\
    complex_iso pi (fun d => length (cells d)) K K'.
Proof.
  intros HI HI' HG.
  destruct (given o lib r x edges size k y down HI) as (K & E & HC & HD & _).
  destruct (given o lib' r x' edges' size k y' down HI') as (K' & E' & HC' & HD' & _).
  pose proof (given_cells lib x edges size k y HI) as CC. pose proof (given_cells lib' x' edges' size k y' HI') as CC'.
  set (cells := cells_of lib edges size k) in *. set (cells' := cells_of lib' edges' size k) in *.
  pose proof (clique_same_cells sigma size edges edges' x x' k cells cells' HG CC CC') as SC.
  assert (Lc : forall d, length (cells' d) = length (cells d)) by (intros; apply (cells_length sigma); auto).
  exists K, K', cells, cells', (cell_map sigma cells cells'). split; auto. split; auto. split; auto. split; auto.
  split; [apply HC|]. split.
  { eapply wf_ext; [|apply HC']. exact Lc. }
  split; [unfold cells, cells_of, level; simpl; apply singles_length|].
  split; [intros D d c _ Hc; rewrite (hc_x _ _ _ _ HC d c Hc); discriminate|].
  split; [intros D d c _ Hc; rewrite (hc_x _ _ _ _ HC' d c Hc); discriminate|].
  split; [intros d i s Hi; apply (cell_map_ok sigma cells cells' SC d i s Hi)|].
  eapply same_cells_iso; eauto.
  intros d i s s' j Hi Hj HS. unfold lift_x. cbn [content]. destruct HI as [Hg _ Hx _ _], HI' as [Hg' _ Hx' _ _].
  pose proof (nth_error_In _ _ Hi) as Ii. apply (cc_iff _ _ _ _ CC) in Ii as (C & Inc & Hl & _).
  pose proof (nth_error_In _ _ Hj) as Ij. apply (cc_iff _ _ _ _ CC') in Ij as (C' & Inc' & Hl' & _).
  destruct (Nat.eqb_spec d 0) as [->|].
  - destruct s as [|a [|? ?]]; try (simpl in Hl; lia). destruct s' as [|b [|? ?]]; try (simpl in Hl'; lia).
    assert (Ha : a < size) by (apply C; left; auto). assert (Hb : b < size) by (apply C'; left; auto).
    assert (i = a). { eapply (cc_once _ _ _ _ CC 0); [exact Hi|apply (cc_vertex _ _ _ _ CC); auto|intros w; tauto]. }
    assert (j = b). { eapply (cc_once _ _ _ _ CC' 0); [exact Hj|apply (cc_vertex _ _ _ _ CC'); auto|intros w; tauto]. }
    subst i j. assert (b = sigma a). { destruct (proj2 (HS b) (or_introl eq_refl)) as [<-|[]]; auto. } subst b.
    apply (gi_x _ _ _ _ _ _ HG); auto.
  - unfold names in Hi, Hj. fold cells cells'. rewrite !nth_error_map, Hi, Hj. cbn [option_map]. f_equal.
    apply (row_map o sigma size edges edges' x x' HG Ho); auto; [apply C|apply C|apply C'].
Qed.

(** The same for the ring lifting. *)
Theorem ring_lift_iso sigma lib lib' isos isos' so so' r x x' edges edges' a a' size y y' max_k down init_edges init_rings :
  ring_input lib isos so x edges size y max_k -> ring_input lib' isos' so' x' edges' size y' max_k ->
  (forall a b, veqb a b = true <-> a = b) ->
  (init_edges = true -> attr_ok edges a /\ attr_ok edges' a' /\ attr_iso sigma edges edges' a a') ->
  graph_iso sigma size edges edges' x x' ->
  exists K K' cells cells' pi,
    compute_ring_2complex o veqb lib isos so r x edges a size y max_k down init_edges init_rings = Ok K /\
    compute_ring_2complex o veqb lib' isos' so' r x' edges' a' size y' max_k down init_edges init_rings = Ok K' /\
    ring_cells edges size max_k cells /\ ring_cells edges' size max_k cells' /\
    wf_complex K (fun d => length (cells d)) /\ wf_complex K' (fun d => length (cells d)) /\
    length (cells 0) = size /\
    (forall D, (1 <= D -> init_edges = true) -> (2 <= D -> init_rings = true) -> has_features D K /\ has_features D K') /\
    (forall d i s, names cells d i s -> exists s', names cells' d (pi d i) s' /\ same_set (map sigma s) s') /\
    complex_iso pi (fun d => length (cells d)) K K'.
Proof.
  intros HI HI' He HA HG.
  destruct (ring_lift_gen o veqb lib isos so r x edges a size y max_k down init_edges init_rings HI He) as (K & rows & E & HR & _ & HC & HD & _); [apply HA|].
  destruct (ring_lift_gen o veqb lib' isos' so' r x' edges' a' size y' max_k down init_edges init_rings HI' He) as (K' & rows' & E' & HR' & _ & HC' & HD' & _); [apply HA|].
  pose proof (cells_ring lib isos so x edges size y max_k HI) as CC. pose proof (cells_ring lib' isos' so' x' edges' size y' max_k HI') as CC'.
  unfold edge_rows in HR, HR'.
  set (cells := rcells_of lib isos so edges size max_k) in *. set (cells' := rcells_of lib' isos' so' edges' size max_k) in *.
  destruct HI as [Hg _ _ Hx _ _], HI' as [Hg' _ _ Hx' _ _].
  pose proof (ring_same_cells sigma size edges edges' x x' max_k cells cells' Hg Hg' HG CC CC') as SC.
  assert (Lc : forall d, length (cells' d) = length (cells d)) by (intros; apply (cells_length sigma); auto).
  exists K, K', cells, cells', (cell_map sigma cells cells'). split; auto. split; auto. split; auto. split; auto.
  split; [apply HC|]. split.
  { eapply wf_ext; [|apply HC']. exact Lc. }
  split; [apply CC|]. split.
  { intros D H1 H2. assert (G : forall k C Xr rws, has_cells C down (ring_x o lib isos so r Xr edges size max_k init_edges init_rings rws) k -> has_features D k).
    { intros k C Xr rws H d c Hd Hc. rewrite (hc_x _ _ _ _ H d c Hc). unfold ring_x. destruct d as [|[|d]]; [discriminate| |].
      - rewrite H1 by lia. discriminate.
      - rewrite H2 by lia. discriminate. }
    assert (G' : forall k C Xr rws, has_cells C down (ring_x o lib' isos' so' r Xr edges' size max_k init_edges init_rings rws) k -> has_features D k).
    { intros k C Xr rws H d c Hd Hc. rewrite (hc_x _ _ _ _ H d c Hc). unfold ring_x. destruct d as [|[|d]]; [discriminate| |].
      - rewrite H1 by lia. discriminate.
      - rewrite H2 by lia. discriminate. }
    split; eauto. }
  split; [intros d i s Hi; apply (cell_map_ok sigma cells cells' SC d i s Hi)|].
  eapply same_cells_iso; eauto.
  intros d i s s' j Hi Hj HS. unfold ring_x. fold cells cells'.
  pose proof (ring_range _ _ _ _ _ _ _ Hg CC Hi) as [N1 Hr]. pose proof (ring_range _ _ _ _ _ _ _ Hg' CC' Hj) as [N1' Hr'].
  assert (Hrow : cell_row o r x' s' = cell_row o r x s) by (apply (row_map o sigma size edges edges' x x' HG Ho); auto).
  destruct d as [|[|d]].
  - apply (ring_vertex _ _ _ _ _ _ CC) in Hi as [H1 ->]. apply (ring_vertex _ _ _ _ _ _ CC') in Hj as [H2 ->].
    assert (j = sigma i). { destruct (proj2 (HS j) (or_introl eq_refl)) as [<-|[]]; auto. } subst j. cbn [content].
    apply (gi_x _ _ _ _ _ _ HG); auto.
  - destruct init_edges; [|destruct i, j; auto]. cbn [content]. specialize (HR eq_refl). specialize (HR' eq_refl).
    destruct (HA eq_refl) as (HA1 & HA2 & HA3). unfold attr_iso in HA3. destruct a as [l|], a' as [l'|]; try contradiction.
    + (* the copies of the edge in either list *)
      pose proof (nth_error_In _ _ Hi) as Ii. apply (rc_edge _ _ _ _ CC) in Ii as (u & v & Hlt & -> & Hne & HE).
      pose proof (nth_error_In _ _ Hj) as Ij. apply (rc_edge _ _ _ _ CC') in Ij as (u' & v' & Hlt' & -> & Hne' & HE').
      assert (W : exists m e, nth_error edges m = Some e /\ same_set [fst e; snd e] [u; v]).
      { destruct HE as [HE|HE]; apply In_nth_error in HE as [m Hm]; exists m; eexists; (split; [exact Hm|]); intros w; simpl; tauto. }
      assert (W' : exists m e, nth_error edges' m = Some e /\ same_set [fst e; snd e] [u'; v']).
      { destruct HE' as [HE'|HE']; apply In_nth_error in HE' as [m Hm]; exists m; eexists; (split; [exact Hm|]); intros w; simpl; tauto. }
      destruct W as (m & e & Hm & Hs). destruct W' as (m' & e' & Hm' & Hs').
      rewrite (HR m e i _ Hm Hi Hs), (HR' m' e' j _ Hm' Hj Hs'). symmetry. apply (HA3 m e m' e' Hm Hm').
      eapply same_set_trans; [|apply same_set_sym; exact Hs']. eapply same_set_trans; [|exact HS].
      intros w. change [sigma (fst e); sigma (snd e)] with (map sigma [fst e; snd e]). rewrite !in_map_iff.
      split; intros (z & Ez & Hz); exists z; split; auto; apply Hs; auto.
    + unfold names in Hi, Hj. rewrite HR, HR', !nth_error_map, Hi, Hj. cbn [option_map]. f_equal. auto.
  - destruct init_rings; [|destruct i, j; auto]. cbn [content]. unfold names in Hi, Hj. rewrite !nth_error_map, Hi, Hj. cbn [option_map]. f_equal. auto.
Qed.
End Lift.
