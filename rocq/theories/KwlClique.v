(** Cells of clique complexes and tuples of nodes, for C79. *)
From Coq Require Import List Arith Lia Bool Permutation.
From Verif Require Import Base ScatterModel ScatterSpec ScatterProofs ComplexModel BatchSpec BatchSpec2
  BatchProofs BatchProofs2 DummyModel LiftSpec LiftBase MPModel MPSpec MPProofs MPEngine MPBatch MPForward MPNets MPIso PowerSpec PowerProofs.
From Verif Require Import RedundantSpec RedundantProofs.
From Verif Require Import HierSpec HierProofs PartSpec PartProofs PartProps.
From Verif Require Import KwlSpec KwlProofs KwlBound.
Import ListNotations.
Open Scope nat_scope.

Notation distinct := (nodup Nat.eq_dec).
Notation without := (remove Nat.eq_dec).
Lemma without_in v s y : In y (without v s) <-> In y s /\ y <> v.
Proof. split; [apply in_remove|]. intros [H N]. apply in_in_remove; assumption. Qed.
Lemma set_len a b : NoDup a -> NoDup b -> same_set a b -> length a = length b.
Proof. intros Na Nb H. apply Permutation_length, NoDup_Permutation; auto. Qed.
Lemma distinct_len a b : same_set a b -> length (distinct a) = length (distinct b).
Proof. intros H. apply set_len; [apply NoDup_nodup|apply NoDup_nodup|]. intros v. rewrite !nodup_In. apply H. Qed.
Lemma without_len v s : NoDup s -> In v s -> S (length (without v s)) = length s.
Proof.
  intros N H. symmetry. apply (set_len s (v :: without v s)); [exact N| |].
  - constructor; [apply remove_In|]. clear H. induction N as [|u s Hu N IH]; cbn; [constructor|]. destruct (Nat.eq_dec v u); [exact IH|]. constructor; [|exact IH]. rewrite without_in. tauto.
  - intros y. cbn [In]. rewrite without_in. destruct (Nat.eq_dec v y) as [->|Q]; [tauto|]. split; [intros; right; auto|]. intros [Q'|Q']; [congruence|tauto].
Qed.
Lemma nodup_without v s : NoDup s -> NoDup (without v s).
Proof. intros N. induction N as [|u s Hu N IH]; cbn; [constructor|]. destruct (Nat.eq_dec v u); [exact IH|]. constructor; [|exact IH]. rewrite without_in. tauto. Qed.
(** A set with one element less leaves one out. *)
Lemma one_less f t : NoDup f -> NoDup t -> length t = S (length f) -> incl f t -> exists v, In v t /\ ~ In v f /\ same_set f (without v t).
Proof.
  intros Nf Nt L I.
  assert (exists v, In v t /\ ~ In v f) as (v & Hv & Hf).
  { destruct (Forall_Exists_dec (fun v => In v f) (fun v => in_dec Nat.eq_dec v f) t) as [H|H].
    - rewrite Forall_forall in H. pose proof (NoDup_incl_length Nt H). lia.
    - apply Exists_exists in H. exact H. }
  exists v. split; [exact Hv|]. split; [exact Hf|]. pose proof (without_len v t Nt Hv) as LW.
  assert (I' : incl f (without v t)) by (intros y Hy; apply without_in; split; [auto|intros ->; auto]).
  intros y. split; [apply I'|]. apply (NoDup_length_incl Nf); [lia|exact I'].
Qed.

Lemma joined_sym es u v : joined es u v = joined es v u.
Proof. unfold joined. induction es as [|[a b] l IH]; cbn [existsb fst snd]; [reflexivity|]. rewrite IH. f_equal. apply orb_comm. Qed.
Record named_cells {W U} (es : list (nat * nat)) (n M : nat) (x : nat -> W) (phi : nat -> list W -> U) (G : skel) (X : feats U) (cell : nat -> nat -> list nat) : Prop := {
  nc_dim : forall d i, i < s_n G d -> d <= M;
  nc_once : forall d i, i < s_n G d -> NoDup (cell d i);
  nc_len : forall d i, i < s_n G d -> length (cell d i) = d + 1;
  nc_range : forall d i v, i < s_n G d -> In v (cell d i) -> v < n;
  nc_joined : forall d i u v, i < s_n G d -> In u (cell d i) -> In v (cell d i) -> u <> v -> joined es u v = true;
  nc_all : forall d s, d <= M -> NoDup s -> length s = d + 1 -> (forall v, In v s -> v < n) -> (forall u v, In u s -> In v s -> u <> v -> joined es u v = true) ->
    exists i, i < s_n G d /\ same_set (cell d i) s;
  nc_inj : forall d i j, i < s_n G d -> j < s_n G d -> same_set (cell d i) (cell d j) -> i = j;
  nc_bnd : forall d f t, In (f, t) (s_bnd G (d + 1)) <-> f < s_n G d /\ t < s_n G (d + 1) /\ incl (cell d f) (cell (d + 1) t);
  nc_bnd0 : s_bnd G 0 = [];
  nc_row : forall d i s, i < s_n G d -> NoDup s -> same_set (cell d i) s -> X d i = phi d (map x s)
}.

Section One.
Context {W U : Type} (es : list (nat * nat)) (n M : nat) (x : nat -> W) (phi : nat -> list W -> U) (G : skel) (X : feats U) (cell : nat -> nat -> list nat) (down : bool).
Hypothesis NC : named_cells es n M x phi G X cell.
Hypothesis RG : regular down G.

(** The list names a clique with [d + 1] nodes, repetitions allowed. *)
Definition spans (d : nat) (s : list nat) : Prop :=
  length (distinct s) = d + 1 /\ (forall v, In v s -> v < n) /\ (forall u v, In u s -> In v s -> u <> v -> joined es u v = true).
Lemma spans_ext d s s' : same_set s s' -> spans d s -> spans d s'.
Proof.
  intros H (H1 & H2 & H3). split; [rewrite <- (distinct_len _ _ H); exact H1|]. split; [intros v Hv; apply H2, H, Hv|]. intros u v Hu Hv. apply H3; apply H; assumption.
Qed.
Lemma cell_spans d i s : i < s_n G d -> same_set (cell d i) s -> spans d s.
Proof.
  intros Hi HS. apply (spans_ext d (cell d i) s HS). split; [|split].
  - rewrite nodup_fixed_point by (apply (nc_once _ _ _ _ _ _ _ _ NC); exact Hi). apply (nc_len _ _ _ _ _ _ _ _ NC). exact Hi.
  - intros v. apply (nc_range _ _ _ _ _ _ _ _ NC). exact Hi.
  - intros u v. apply (nc_joined _ _ _ _ _ _ _ _ NC). exact Hi.
Qed.
Definition fc (d : nat) (s : list nat) : nat := hd 0 (filter (fun i => setb (cell d i) s) (seq 0 (s_n G d))).
Lemma fc_is d i s : i < s_n G d -> same_set (cell d i) s -> fc d s = i.
Proof.
  intros Hi HS. unfold fc. destruct (filter _ _) as [|j l] eqn:E.
  - exfalso. assert (H : In i (filter (fun i => setb (cell d i) s) (seq 0 (s_n G d)))) by (apply filter_In; split; [apply in_seq; lia|apply setb_ok; exact HS]). rewrite E in H. destruct H.
  - cbn [hd]. assert (H : In j (filter (fun i => setb (cell d i) s) (seq 0 (s_n G d)))) by (rewrite E; now left). apply filter_In in H as [H1 H2]. apply in_seq in H1. apply setb_ok in H2.
    apply (nc_inj _ _ _ _ _ _ _ _ NC d); [lia|exact Hi|]. intros v. rewrite (H2 v), (HS v). tauto.
Qed.
Lemma fc_at d s : d <= M -> spans d s -> fc d s < s_n G d /\ same_set (cell d (fc d s)) s.
Proof.
  intros Hd (H1 & H2 & H3). destruct (nc_all _ _ _ _ _ _ _ _ NC d (distinct s) Hd (NoDup_nodup _ _) H1) as (i & Hi & HS).
  - intros v Hv. apply H2. now apply nodup_In in Hv.
  - intros u v Hu Hv. apply nodup_In in Hu, Hv. auto.
  - assert (HS' : same_set (cell d i) s) by (intros v; rewrite (HS v), nodup_In; tauto). rewrite (fc_is d i s Hi HS'). auto.
Qed.
Lemma spans_without d s v : spans (d + 1) s -> In v s -> spans d (without v s).
Proof.
  intros (H1 & H2 & H3) Hv. split; [|split].
  - assert (E : length (distinct (without v s)) = length (without v (distinct s))).
    { apply set_len; [apply NoDup_nodup|apply nodup_without, NoDup_nodup|]. intros y. rewrite nodup_In, !without_in, nodup_In. tauto. }
    pose proof (without_len v (distinct s) (NoDup_nodup _ _) ltac:(apply nodup_In; exact Hv)). lia.
  - intros u Hu. apply without_in in Hu as [Hu _]. auto.
  - intros a b Ha Hb. apply without_in in Ha as [Ha _], Hb as [Hb _]. auto.
Qed.
(** [w] makes a larger clique. *)
Definition ext (b : list nat) (w : nat) : bool := negb (existsb (Nat.eqb w) b) && forallb (joined es w) b.
Lemma ext_iff b w : ext b w = true <-> ~ In w b /\ forall u, In u b -> joined es w u = true.
Proof.
  unfold ext. rewrite andb_true_iff, negb_true_iff, forallb_forall. rewrite <- not_true_iff_false, existsb_exists. split; intros [H1 H2]; (split; [|exact H2]).
  - intros H. apply H1. exists w. split; [exact H|apply Nat.eqb_refl].
  - intros (y & Hy & E). apply Nat.eqb_eq in E. subst y. auto.
Qed.
Lemma spans_ext_cons d b w : spans d b -> w < n -> ext b w = true -> spans (d + 1) (w :: b).
Proof.
  intros (H1 & H2 & H3) Hw Hx. apply ext_iff in Hx as [Hn Hj]. split; [|split].
  - cbn [nodup]. destruct (in_dec Nat.eq_dec w b); [contradiction|]. cbn [length]. lia.
  - intros v [<-|Hv]; auto.
  - intros u v [<-|Hu] [<-|Hv] N; try congruence; auto. rewrite joined_sym. auto.
Qed.

Lemma bnds_perm d t z : t < s_n G (d + 1) -> same_set (cell (d + 1) t) z -> Permutation (bnds G (d + 1) t) (map (fun v => fc d (without v z)) (distinct z)).
Proof.
  intros Ht HS. pose proof (cell_spans _ _ _ Ht HS) as SP. pose proof (nc_dim _ _ _ _ _ _ _ _ NC _ _ Ht) as HM.
  assert (FC : forall v, In v z -> fc d (without v z) < s_n G d /\ same_set (cell d (fc d (without v z))) (without v z)).
  { intros v Hv. apply fc_at; [lia|]. apply spans_without; assumption. }
  apply NoDup_Permutation.
  - eapply bnds_once; exact RG.
  - apply NoDup_map_on; [apply NoDup_nodup|]. intros u v Hu Hv E. apply nodup_In in Hu, Hv. destruct (FC u Hu) as [_ Eu], (FC v Hv) as [_ Ev]. rewrite E in Eu.
    destruct (Nat.eq_dec u v) as [->|N]; [reflexivity|]. exfalso.
    assert (H : In u (without u z)); [|apply without_in in H; tauto]. apply Eu, Ev, without_in. auto.
  - intros f. rewrite bnds_in, (nc_bnd _ _ _ _ _ _ _ _ NC), in_map_iff. split.
    + intros (Hf & _ & I). destruct (one_less (cell d f) (cell (d + 1) t)) as (v & Hv & Nv & E);
        [apply (nc_once _ _ _ _ _ _ _ _ NC); exact Hf|apply (nc_once _ _ _ _ _ _ _ _ NC); exact Ht|rewrite (nc_len _ _ _ _ _ _ _ _ NC _ _ Hf), (nc_len _ _ _ _ _ _ _ _ NC _ _ Ht); lia|exact I|].
      exists v. split; [|apply nodup_In, HS, Hv]. apply fc_is; [exact Hf|]. intros y. rewrite (E y), !without_in, (HS y). tauto.
    + intros (v & <- & Hv). apply nodup_In in Hv. destruct (FC v Hv) as [H1 H2]. split; [exact H1|]. split; [exact Ht|]. intros y Hy. apply H2, without_in in Hy as [Hy _]. apply HS, Hy.
Qed.
Lemma up_perm d i b : i < s_n G d -> d + 1 <= M -> same_set (cell d i) b ->
  Permutation (up_at G d i) (flat_map (fun w => map (fun v => ((fc d (w :: without v b), i), fc (d + 1) (w :: b))) (distinct b)) (filter (ext b) (seq 0 n))).
Proof.
  intros Hi HM HS. pose proof (cell_spans _ _ _ Hi HS) as SP.
  assert (FU : forall w, w < n -> ext b w = true -> fc (d + 1) (w :: b) < s_n G (d + 1) /\ same_set (cell (d + 1) (fc (d + 1) (w :: b))) (w :: b)).
  { intros w Hw Hx. apply fc_at; [exact HM|]. apply spans_ext_cons; assumption. }
  assert (same : forall w v, ext b w = true -> In v b -> same_set (without v (w :: b)) (w :: without v b)).
  { intros w v Hx Hv y. apply ext_iff in Hx as [Hx _]. rewrite without_in. cbn [In]. rewrite without_in. split; [tauto|]. intros [<-|H]; [|tauto]. split; [auto|]. intros ->. auto. }
  assert (FN : forall w v, w < n -> ext b w = true -> In v b -> fc d (w :: without v b) < s_n G d /\ same_set (cell d (fc d (w :: without v b))) (w :: without v b)).
  { intros w v Hw Hx Hv. apply fc_at; [lia|]. apply (spans_ext d _ _ (same w v Hx Hv)). apply spans_without; [apply spans_ext_cons; assumption|now right]. }
  apply NoDup_Permutation.
  - apply NoDup_filter, (rg_up_once _ _ RG).
  - apply NoDup_flat_map; [apply NoDup_filter, seq_NoDup| |].
    + intros w Hw. apply filter_In in Hw as [Hw Hx]. apply in_seq in Hw. apply NoDup_map_on; [apply NoDup_nodup|]. intros u v Hu Hv E. apply nodup_In in Hu, Hv. injection E as E.
      destruct (FN w u ltac:(lia) Hx Hu) as [_ Eu], (FN w v ltac:(lia) Hx Hv) as [_ Ev]. rewrite E in Eu. destruct (Nat.eq_dec u v) as [->|N]; [reflexivity|]. exfalso.
      assert (H : In u (w :: without u b)) by (apply Eu, Ev; right; apply without_in; auto). destruct H as [->|H]; [|apply without_in in H; tauto].
      apply ext_iff in Hx as [Hx _]. auto.
    + intros w w' [[j i'] t] Hw Hw' H H'. apply filter_In in Hw as [Hw Hx], Hw' as [Hw' Hx']. apply in_seq in Hw, Hw'. apply in_map_iff in H as (v & E & _), H' as (v' & E' & _).
      injection E as _ _ E. injection E' as _ _ E'. destruct (FU w ltac:(lia) Hx) as [_ F], (FU w' ltac:(lia) Hx') as [_ F']. rewrite E in F. rewrite E' in F'.
      assert (H : In w (w' :: b)) by (apply F', F; now left). destruct H as [->|H]; [reflexivity|]. apply ext_iff in Hx as [Hx _]. contradiction.
  - intros [[j i'] t]. unfold up_at. rewrite filter_In. cbn [fst snd]. rewrite Nat.eqb_eq, (rg_up _ _ RG), !(nc_bnd _ _ _ _ _ _ _ _ NC), in_flat_map. split.
    + intros [(N & (Hj & Ht & Ij) & (_ & _ & Ii)) ->].
      destruct (one_less (cell d i) (cell (d + 1) t)) as (w & Hw & Nw & E);
        [apply (nc_once _ _ _ _ _ _ _ _ NC); exact Hi|apply (nc_once _ _ _ _ _ _ _ _ NC); exact Ht|rewrite (nc_len _ _ _ _ _ _ _ _ NC _ _ Hi), (nc_len _ _ _ _ _ _ _ _ NC _ _ Ht); lia|exact Ii|].
      destruct (one_less (cell d j) (cell (d + 1) t)) as (v & Hv & Nv & E2);
        [apply (nc_once _ _ _ _ _ _ _ _ NC); exact Hj|apply (nc_once _ _ _ _ _ _ _ _ NC); exact Ht|rewrite (nc_len _ _ _ _ _ _ _ _ NC _ _ Hj), (nc_len _ _ _ _ _ _ _ _ NC _ _ Ht); lia|exact Ij|].
      assert (Nvw : v <> w). { intros ->. apply N. apply (nc_inj _ _ _ _ _ _ _ _ NC d); auto. intros y. rewrite (E y), (E2 y). tauto. }
      assert (Et : same_set (cell (d + 1) t) (w :: b)).
      { intros y. cbn [In]. rewrite <- (HS y), (E y), without_in. destruct (Nat.eq_dec w y) as [->|Q]; [tauto|]. split; [intros; right; auto|]. intros [Q'|Q']; [congruence|tauto]. }
      assert (Hx : ext b w = true).
      { apply ext_iff. split; [intros H; apply Nw, HS, H|]. intros u Hu. apply (nc_joined _ _ _ _ _ _ _ _ NC (d + 1) t); auto; [apply Et; now right|]. intros <-. apply Nw, HS, Hu. }
      assert (Vb : In v b). { apply Et in Hv. destruct Hv as [->|Hv]; [congruence|exact Hv]. }
      assert (Rw : w < n) by (apply (nc_range _ _ _ _ _ _ _ _ NC _ _ _ Ht Hw)).
      exists w. split; [apply filter_In; split; [apply in_seq; lia|exact Hx]|]. apply in_map_iff. exists v. split; [|apply nodup_In; exact Vb]. f_equal; [f_equal|].
      * apply fc_is; [exact Hj|]. intros y. rewrite (E2 y), <- (same w v Hx Vb y), !without_in, (Et y). tauto.
      * apply fc_is; [exact Ht|exact Et].
    + intros (w & Hw & H). apply filter_In in Hw as [Hw Hx]. apply in_seq in Hw. apply in_map_iff in H as (v & E & Hv). apply nodup_In in Hv. injection E as <- <- <-.
      destruct (FU w ltac:(lia) Hx) as [F1 F2], (FN w v ltac:(lia) Hx Hv) as [F3 F4]. pose proof Hx as Hx'. apply ext_iff in Hx' as [Hx' _]. split; [|reflexivity]. split; [|split].
      * intros Q. rewrite Q in F4. apply Hx', HS, F4. now left.
      * split; [exact F3|]. split; [exact F1|]. intros y Hy. apply F4 in Hy. apply F2. destruct Hy as [->|Hy]; [now left|]. right. apply without_in in Hy. tauto.
      * split; [exact Hi|]. split; [exact F1|]. intros y Hy. apply F2. right. apply HS, Hy.
Qed.
Lemma up_none d i : i < s_n G d -> ~ d + 1 <= M -> up_at G d i = [].
Proof.
  intros Hi HM. destruct (up_at G d i) as [|[[j i'] t] l] eqn:E; [reflexivity|]. exfalso. assert (H : In ((j, i'), t) (up_at G d i)) by (rewrite E; now left).
  unfold up_at in H. apply filter_In in H as [H _]. apply (rg_up _ _ RG) in H as (_ & H & _). apply (nc_bnd _ _ _ _ _ _ _ _ NC) in H as (_ & H & _). apply (nc_dim _ _ _ _ _ _ _ _ NC) in H. lia.
Qed.
End One.
