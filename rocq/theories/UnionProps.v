(** C63: lifting a disjoint union is batching the liftings.  C64: triangles as rings and as cliques. *)
From Coq Require Import List Arith Lia ZArith Bool Permutation.
From Verif Require Import Base ScatterModel ScatterSpec ScatterProofs ComplexModel BatchSpec BatchSpec2 BatchProofs BatchProofs2 BatchProps
  MPModel MPSpec MPProofs MPEngine MPBatch MPForward MPNets MPProps MPIso
  LiftModel LiftSpec LiftBase LiftProofs LiftClique LiftTables LiftCliqueProps LiftRing LiftProps LiftRingProps LiftRingExamples LiftIso
  LiftInvariance PermModel PermProps PermLift UnionSpec UnionProofs UnionLift.
Import ListNotations.

Section Union.
Context {V : Type} (o : ops V) (Ho : ops_ok o) (veqb : V -> V -> bool).

(** ** Rows *)
Section Rows.
Variable gs : list (graph V).
Hypothesis HX : forall g, In g gs -> length (g_x g) = g_n g.

Lemma prefix_nodes s i : length (concat (mapi_from (fun (_ : nat) g => g_x g) s (firstn i gs))) = nodes_before gs i.
Proof.
  unfold nodes_before, list_sum. revert s i HX. induction gs as [|g l IH]; intros s [|i] HX'; cbn [firstn mapi_from concat map fold_right]; auto.
  rewrite app_length, IH by (intros; apply HX'; right; auto). rewrite (HX' g (or_introl eq_refl)). auto.
Qed.
Lemma union_row i g v : nth_error gs i = Some g -> v < g_n g -> nth_error (concat (map g_x gs)) (v + nodes_before gs i) = nth_error (g_x g) v.
Proof.
  intros Hi Hv. rewrite <- (mapi_const g_x). unfold mapi. rewrite Nat.add_comm, <- (prefix_nodes 0 i).
  apply (nth_error_concat_mapi_from (fun (_ : nat) g => g_x g) 0 gs i g v Hi). rewrite HX by (eapply nth_error_In; eauto). auto.
Qed.
Lemma union_cell_row r i g s : nth_error gs i = Some g -> (forall v, In v s -> v < g_n g) ->
  cell_row o r (concat (map g_x gs)) (map (fun v => v + nodes_before gs i) s) = cell_row o r (g_x g) s.
Proof.
  intros Hi Hs. unfold cell_row. rewrite map_map. f_equal. apply map_ext_in. intros v Hv. specialize (Hs v Hv).
  pose proof (union_row i g v Hi Hs) as E. rewrite (nth_error_nth' (g_x g) (vzero o)) in E by (rewrite HX; auto; eapply nth_error_In; eauto).
  apply nth_error_nth with (d := vzero o) in E. auto.
Qed.
Lemma cell_row_set r x s s' : NoDup s -> NoDup s' -> same_set s s' -> cell_row o r x s = cell_row o r x s'.
Proof. intros N N' HS. unfold cell_row. apply (reduce_rows_perm o Ho). apply Permutation_map. apply NoDup_Permutation; auto. Qed.
End Rows.

(** ** The batch of the members and a complex with the cells of the union *)
(** [pi] takes every cell of the complex to the copy, inside the batch, of the cell of a member on the
    same vertices. *)
Definition tracks (cs : list (nat -> list (list nat))) (cells : nat -> list (list nat)) (pi : nat -> nat -> nat) : Prop :=
  forall d t s, names cells d t s -> exists i c j s0,
    nth_error cs i = Some c /\ names c d j s0 /\ pi d t = off (sizes_of cs) i d + j /\
    same_set s (map (fun v => v + off (sizes_of cs) i 0) s0).

Lemma union_iso (ks : list (complex V)) (cs : list (nat -> list (list nat))) down b max_dim KU cellsU XU :
  ks <> [] ->
  Forall2 (fun k c => has_cells c down (fun d => attr c_x d k) k) ks cs ->
  (forall i c d s, nth_error cs i = Some c -> In s (c d) -> s <> [] /\ forall v, In v s -> v < length (c 0)) ->
  (forall k d c, In k ks -> nth_error (k_cochains k) d = Some c -> c_x c <> None) ->
  (forall k, In k ks -> k_dim k <= max_dim) ->
  from_complex_list ks max_dim = Ok b ->
  has_cells cellsU down XU KU -> (forall d, d <= k_dim KU <-> cellsU d <> []) ->
  same_cells (fun v => v) cellsU (union_cells cs) ->
  (forall i k c d j s0 t s, nth_error ks i = Some k -> nth_error cs i = Some c -> names c d j s0 -> names cellsU d t s ->
     same_set s (map (fun v => v + off (sizes_of cs) i 0) s0) -> nth_error (content (attr c_x d k)) j = nth_error (content (XU d)) t) ->
  let pi := cell_map (fun v => v) cellsU (union_cells cs) in
  complex_iso pi (fun d => length (cellsU d)) KU (kb_complex b) /\ tracks cs cellsU pi /\
  wf_complex (kb_complex b) (fun d => length (cellsU d)) /\ has_features (k_dim (kb_complex b)) (kb_complex b).
Proof.
  intros Hne HC HV HX HD Hb HK Hdim SC HR pi.
  assert (HW : Forall2 wf_complex ks (sizes_of cs)) by (eapply U_wf; eauto).
  assert (EM : Nat.min (list_max (map k_dim ks)) max_dim = list_max (map k_dim ks)).
  { apply Nat.min_l. apply list_max_le, Forall_forall. intros n Hn. apply in_map_iff in Hn as (k & <- & Hk). auto. }
  destruct (from_complex_list_is_batch ks (sizes_of cs) max_dim Hne HW) as (b' & Hb' & IB & _).
  { intros d _. left. intros k c Hk. apply HX; auto. }
  rewrite EM in IB. assert (b' = b) by congruence. subst b'. clear Hb'.
  set (D := list_max (map k_dim ks)) in *. destruct IB as [HU _ _ _].
  assert (HD' : forall k, In k ks -> k_dim k <= D).
  { intros k Hk. apply (proj1 (Forall_forall _ _) (proj1 (list_max_le (map k_dim ks) D) (le_n _))). apply in_map; auto. }
  assert (HP : exists k, In k ks /\ k_dim k = D).
  { assert (Hin : In D (map k_dim ks)) by (apply list_max_exists; destruct ks; [congruence|discriminate]).
    apply in_map_iff in Hin as (k & E & Hk). eauto. }
  pose proof (batch_cells ks cs down D (kb_complex b) HC HV HX HU HD' HP) as HB.
  assert (Hdim' : forall d, d <= k_dim (kb_complex b) <-> union_cells cs d <> []).
  { intros d. split; [apply (hc_occupied _ _ _ _ HB)|]. intros Hd. destruct (Nat.le_gt_cases d (k_dim (kb_complex b))); auto.
    destruct Hd. apply length_zero_iff_nil. apply (wfk_above _ _ (hc_wf _ _ _ _ HB)). auto. }
  assert (Row : forall i k c d j, nth_error ks i = Some k -> nth_error cs i = Some c -> j < length (c d) ->
    nth_error (content (attr c_x d (kb_complex b))) (j + off (sizes_of cs) i d) = nth_error (content (attr c_x d k)) j).
  { intros i k c d j Hi Hc Hj. destruct (Forall2_nth_error_l _ _ _ HC _ _ Hi) as (c' & Hc' & HK'). rewrite Hc in Hc'. inversion Hc'; subst c'.
    assert (Hd : d <= D).
    { apply Nat.le_trans with (k_dim k); [|apply HD'; eapply nth_error_In; eauto]. destruct (Nat.le_gt_cases d (k_dim k)) as [|Hlt]; auto.
      pose proof (wfk_above _ _ (hc_wf _ _ _ _ HK') d Hlt) as E. cbv beta in E. lia. }
    destruct (nth_error (k_cochains (kb_complex b)) d) as [C|] eqn:EC.
    2:{ apply nth_error_None in EC. rewrite (uc_len _ _ _ _ HU) in EC. lia. }
    destruct (K_x ks (sizes_of cs) D (kb_complex b) HW HU (U_pres ks D HP) d C) as (x & Ex & _ & _ & Exs); auto.
    { intros k' c' Hk'. apply HX; auto. }
    unfold attr at 1. rewrite EC, Ex, Exs. cbn [content].
    assert (LL : forall k' c', In k' ks -> has_cells c' down (fun d => attr c_x d k') k' -> length (content (attr c_x d k')) = length (c' d)).
    { intros k' c' Hk' H'. unfold attr. destruct (nth_error (k_cochains k') d) as [q|] eqn:Eq.
      - pose proof (wf_x _ _ _ _ (wfk_each _ _ (hc_wf _ _ _ _ H') _ _ Eq)) as W. specialize (HX k' d q Hk' Eq). destruct (c_x q); [auto|congruence].
      - cbn. symmetry. apply length_zero_iff_nil. eapply no_level; eauto. }
    assert (EP : forall s i, length (concat (mapi_from (fun (_ : nat) k => content (attr c_x d k)) s (firstn i ks))) = off (sizes_of cs) i d).
    { unfold off, sizes_of, list_sum. clear -HC LL. intros s i. revert s i LL.
      induction HC as [|k' c' ks' cs' H' HC' IH]; intros s [|i] LL; cbn [map firstn fold_right mapi_from concat]; auto.
      rewrite app_length, (LL k' c' (or_introl eq_refl) H'). f_equal. apply IH. intros; apply LL; auto. right; auto. }
    unfold mapi. rewrite Nat.add_comm, <- (EP 0 i).
    apply (nth_error_concat_mapi_from (fun (_ : nat) k => content (attr c_x d k)) 0 ks i k j Hi).
    rewrite (LL k c); auto. eapply nth_error_In; eauto. }
  split; [|split; [|split]].
  - unfold pi. eapply same_cells_iso; eauto. intros d t s s' j' Ht Hj' HS. rewrite map_id in HS.
    apply union_names in Hj' as (i & c & j & s0 & Hc & Hj & -> & ->).
    destruct (U_mem' ks cs down HC i c Hc) as (k & Hi & HK').
    rewrite (Row i k c d j Hi Hc) by (apply nth_error_Some; unfold names in Hj; congruence).
    eapply HR; eauto.
  - intros d t s Ht. destruct (cell_map_ok (fun v => v) cellsU (union_cells cs) SC d t s Ht) as (s' & N & E). rewrite map_id in E.
    apply union_names in N as (i & c & j & s0 & Hc & Hj & E1 & ->). exists i, c, j, s0. split; auto. split; auto. split; [|auto]. unfold pi. rewrite E1. lia.
  - eapply wf_ext; [|apply (hc_wf _ _ _ _ HB)]. intros d. apply (cells_length (fun v => v)); auto.
  - intros d c Hd Hc. destruct (K_x ks (sizes_of cs) D (kb_complex b) HW HU (U_pres ks D HP) d c) as (x & Ex & _); auto.
    + intros k' c' Hk'. apply HX; auto.
    + rewrite (uc_dim _ _ _ _ HU) in Hd. auto.
    + congruence.
Qed.

Lemma mapM_Forall2 {A B} (f : A -> result B) (P : A -> B -> Prop) l : (forall a, In a l -> exists b, f a = Ok b /\ P a b) ->
  exists l', mapM f l = Ok l' /\ Forall2 P l l'.
Proof.
  induction l as [|a l IH]; intros H; [exists []; split; [auto|constructor]|].
  destruct (H a (or_introl eq_refl)) as (b & E & HP). destruct IH as (l' & E' & HF); [intros; apply H; right; auto|].
  exists (b :: l'). cbn [mapM]. rewrite E, E'. cbn. auto.
Qed.
Lemma Forall2_self_map {A B} (P : A -> B -> Prop) (f : A -> B) l : (forall a, In a l -> P a (f a)) -> Forall2 P l (map f l).
Proof. induction l; intros H; cbn; constructor; [apply H; left; auto|apply IHl; intros; apply H; right; auto]. Qed.
Lemma Forall2_through {A B C} (P : A -> B -> Prop) (Q : A -> C -> Prop) (R : B -> C -> Prop) l l' l'' :
  (forall a b c, P a b -> Q a c -> R b c) -> Forall2 P l l' -> Forall2 Q l l'' -> Forall2 R l' l''.
Proof.
  intros H HP. revert l''. induction HP; intros l'' HQ; inversion HQ; subst; constructor; eauto.
Qed.

Lemma list_sum_pos l : l <> [] -> (forall n, In n l -> 0 < n) -> 0 < list_sum l.
Proof. destruct l as [|n l]; [congruence|]. intros _ H. specialize (H n (or_introl eq_refl)). cbn. lia. Qed.
Lemma union_x_length (gs : list (graph V)) : (forall g, In g gs -> length (g_x g) = g_n g) ->
  length (concat (map g_x gs)) = list_sum (map g_n gs).
Proof. induction gs as [|g l IH]; intros H; cbn; auto. rewrite app_length, (H g), IH; auto; [|left; auto]. intros; apply H; right; auto. Qed.

(** ** C63 for the clique lifting *)
Theorem C63_clique_union lib lib' r gs y k down max_dim :
  gs <> [] -> Nat.max 1 k <= max_dim -> good_lib lib' ->
  Forall (fun g => clique_input lib (g_x g) (g_edges g) (g_n g) k (g_y g)) gs ->
  let u := union_graph gs y in label_ok y (g_n u) ->
  exists KU ks b cells cs pi,
    compute_clique_complex o lib' r (g_x u) (g_edges u) (g_n u) k (g_y u) down = Ok KU /\
    mapM (fun g => compute_clique_complex o lib r (g_x g) (g_edges g) (g_n g) k (g_y g) down) gs = Ok ks /\
    from_complex_list ks max_dim = Ok b /\
    clique_cells (g_edges u) (g_n u) k cells /\ Forall2 (fun g c => clique_cells (g_edges g) (g_n g) k c) gs cs /\
    complex_iso pi (fun d => length (cells d)) KU (kb_complex b) /\ tracks cs cells pi /\
    wf_complex KU (fun d => length (cells d)) /\ wf_complex (kb_complex b) (fun d => length (cells d)) /\
    has_features max_dim KU /\ has_features max_dim (kb_complex b).
Proof.
  intros Hne Hmd Hlib HI u Hy. pose proof (proj1 (Forall_forall _ _) HI) as HI'.
  assert (HG : forall g, In g gs -> graph_ok (g_edges g) (g_n g)) by (intros g Hg; apply (HI' g Hg)).
  assert (HX : forall g, In g gs -> length (g_x g) = g_n g) by (intros g Hg; apply (HI' g Hg)).
  assert (IU : clique_input lib' (g_x u) (g_edges u) (g_n u) k (g_y u)).
  { split; auto.
    - apply union_graph_ok; auto.
    - cbn. apply list_sum_pos; [destruct gs; [congruence|discriminate]|]. intros n Hn. apply in_map_iff in Hn as (g & <- & Hg). apply (HI' g Hg).
    - apply union_x_length; auto. }
  destruct (given o lib' r (g_x u) (g_edges u) (g_n u) k (g_y u) down IU) as (KU & EU & HCU & HDU & _).
  pose proof (given_cells lib' (g_x u) (g_edges u) (g_n u) k (g_y u) IU) as CU.
  set (cells := cells_of lib' (g_edges u) (g_n u) k) in *.
  destruct (mapM_Forall2 (fun g => compute_clique_complex o lib r (g_x g) (g_edges g) (g_n g) k (g_y g) down)
    (fun g K => has_cells (cells_of lib (g_edges g) (g_n g) k) down (lift_x o lib r (g_x g) (g_edges g) (g_n g) k) K /\ k_dim K <= max_dim) gs)
    as (ks & Eks & HF).
  { intros g Hg. destruct (given o lib r _ _ _ _ _ down (HI' g Hg)) as (K & E & HC & HD & _). exists K. split; auto. split; auto.
    pose proof (proj1 (HD (k_dim K)) (le_n _)) as Hc. pose proof (given_cells lib _ _ _ _ _ (HI' g Hg)) as CC.
    destruct (cells_of lib (g_edges g) (g_n g) k (k_dim K)) as [|s l] eqn:Es; [congruence|].
    assert (Hin : In s (cells_of lib (g_edges g) (g_n g) k (k_dim K))) by (rewrite Es; left; auto).
    apply (cc_iff _ _ _ _ CC) in Hin. lia. }
  set (cs := map (fun g => cells_of lib (g_edges g) (g_n g) k) gs).
  assert (CC : Forall2 (fun g c => clique_cells (g_edges g) (g_n g) k c) gs cs).
  { apply Forall2_self_map. intros g Hg. apply (given_cells lib _ _ _ _ _ (HI' g Hg)). }
  assert (HC : Forall2 (fun K c => has_cells c down (fun d => attr c_x d K) K) ks cs).
  { clear -HF. unfold cs. induction HF as [|g K gs' ks' [HC _] HF IH]; cbn; constructor; auto.
    destruct HC as [H1 H2 H3 H4 H5 H6 H7]. split; auto. intros d c Hc. unfold attr. rewrite Hc. auto. }
  assert (HXk : forall K d c, In K ks -> nth_error (k_cochains K) d = Some c -> c_x c <> None).
  { intros K d c HK Hc. apply In_nth_error in HK as [i Hi].
    assert (L : i < length gs) by (rewrite (Forall2_length HF); apply nth_error_Some; congruence).
    destruct (nth_error gs i) as [g|] eqn:E; [|apply nth_error_None in E; lia].
    destruct (Forall2_nth_error_l _ _ _ HF _ _ E) as (K' & E' & H & _). assert (K' = K) by congruence. subst K'.
    rewrite (hc_x _ _ _ _ H d c Hc). discriminate. }
  assert (Hnk : ks <> []) by (intros ->; apply Forall2_length in HF; destruct gs; [congruence|discriminate]).
  assert (HDk : forall K, In K ks -> k_dim K <= max_dim).
  { clear -HF. induction HF as [|g K gs' ks' [_ H] HF IH]; intros K' HK; [destruct HK|destruct HK as [<-|HK]; auto]. }
  destruct (from_complex_list_is_batch ks (sizes_of cs) max_dim Hnk) as (b & Hb & _).
  { eapply U_wf; eauto. }
  { intros d _. left. intros K c HK. apply HXk; auto. }
  pose proof (union_clique_cells gs HG cs k CC) as CU'.
  assert (SC : same_cells (fun v => v) cells (union_cells cs)).
  { apply (clique_same_cells (fun v => v) (g_n u) (g_edges u) (g_edges u) (g_x u) (g_x u) k); auto.
    split; auto. intros; reflexivity. }
  assert (Mem : forall i K c, nth_error ks i = Some K -> nth_error cs i = Some c -> exists g, nth_error gs i = Some g /\
    c = cells_of lib (g_edges g) (g_n g) k /\ has_cells c down (lift_x o lib r (g_x g) (g_edges g) (g_n g) k) K /\
    clique_cells (g_edges g) (g_n g) k c /\ off (sizes_of cs) i 0 = nodes_before gs i).
  { intros i K c Hi Hc. assert (L : i < length gs) by (rewrite (Forall2_length HF); apply nth_error_Some; congruence).
    destruct (nth_error gs i) as [g|] eqn:E; [|apply nth_error_None in E; lia]. exists g. split; auto.
    assert (Ec : c = cells_of lib (g_edges g) (g_n g) k).
    { unfold cs in Hc. rewrite nth_error_map, E in Hc. cbn in Hc. congruence. }
    split; auto. destruct (Forall2_nth_error_l _ _ _ HF _ _ E) as (K' & E' & H & _). assert (K' = K) by congruence. subst K' c.
    split; auto. split; [apply (given_cells lib _ _ _ _ _ (HI' g (nth_error_In _ _ E)))|].
    apply off_nb. clear -CC. induction CC; constructor; auto. eapply clique_length0; eauto. }
  assert (HV : forall i c d s, nth_error cs i = Some c -> In s (c d) -> s <> [] /\ forall v, In v s -> v < length (c 0)).
  { intros i c d s Hc Hs. destruct (U_mem' ks cs down HC i c Hc) as (K & Hi & _). destruct (Mem i K c Hi Hc) as (g & Hg & Ec & _ & Cc & _).
    rewrite (clique_length0 _ _ _ _ Cc). pose proof (proj1 (cc_iff _ _ _ _ Cc d s) Hs) as ((C1 & _ & C3 & _) & _). auto. }
  destruct (union_iso ks cs down b max_dim KU cells (lift_x o lib' r (g_x u) (g_edges u) (g_n u) k) Hnk HC HV HXk HDk Hb HCU HDU SC) as (P1 & P2 & P3 & P4).
  { intros i K c d j s0 t s Hi Hc Hj Ht HS. destruct (Mem i K c Hi Hc) as (g & Hg & Ec & HCg & Cc & Eo). rewrite Eo in HS.
    pose proof (nth_error_In _ _ Hj) as Ij. apply (cc_iff _ _ _ _ Cc) in Ij as (C & Inc & Hl & _).
    pose proof (nth_error_In _ _ Ht) as It. apply (cc_iff _ _ _ _ CU) in It as (C' & Inc' & Hl' & _).
    assert (HKx : attr c_x d K = lift_x o lib r (g_x g) (g_edges g) (g_n g) k d).
    { unfold attr. destruct (nth_error (k_cochains K) d) as [q|] eqn:Eq; [apply (hc_x _ _ _ _ HCg d q Eq)|].
      pose proof (no_level down K c _ d HCg Eq) as E0. unfold names in Hj. rewrite E0 in Hj. destruct j; discriminate. }
    rewrite HKx. unfold lift_x. cbn [content]. destruct (Nat.eqb_spec d 0) as [->|].
    - destruct s0 as [|a [|? ?]]; try (cbn in Hl; lia). destruct s as [|a' [|? ?]]; try (cbn in Hl'; lia).
      assert (Ha : a < g_n g) by (apply C; left; auto).
      assert (j = a). { eapply (cc_once _ _ _ _ Cc 0); [exact Hj|apply (cc_vertex _ _ _ _ Cc); auto|intros w; tauto]. }
      assert (Ha' : a' < g_n u) by (apply C'; left; auto).
      assert (t = a'). { eapply (cc_once _ _ _ _ CU 0); [exact Ht|apply (cc_vertex _ _ _ _ CU); auto|intros w; tauto]. }
      assert (Eaa : a' = a + nodes_before gs i). { destruct (proj1 (HS a') (or_introl eq_refl)) as [<-|[]]; auto. }
      subst j t a'. symmetry. apply union_row; auto.
    - fold cells. rewrite <- Ec. unfold names in Hj, Ht. rewrite !nth_error_map, Hj, Ht. cbn [option_map]. f_equal.
      rewrite <- (union_cell_row gs HX r i g s0 Hg) by apply C. symmetry. apply cell_row_set; auto; [apply C'|].
      apply shift_NoDup. apply C. }
  exists KU, ks, b, cells, cs, (cell_map (fun v => v) cells (union_cells cs)). do 8 (split; auto). { apply HCU. } split; auto. split.
  - intros d c _ Hc. rewrite (hc_x _ _ _ _ HCU d c Hc). discriminate.
  - intros d c _ Hc. apply (P4 d c); auto. assert (d < length (k_cochains (kb_complex b))) by (apply nth_error_Some; congruence).
    rewrite (wfk_len _ _ P3) in *. lia.
Qed.

(** ** Edge attributes of the union *)
Section Attr.
Variable gs : list (graph V).
Hypothesis HA : forall g, In g gs -> LiftRingProps.attr_ok (g_edges g) (g_attr g).
Hypothesis HG : forall g, In g gs -> graph_ok (g_edges g) (g_n g).
Hypothesis HS : forall g, In g gs -> g_attr g <> None.

Let es : list (nat -> nat) := map (fun g _ => length (g_edges g)) gs.
Lemma es_prefix {T} (f : nat -> graph V -> list T) s i : (forall j g, In g gs -> length (f j g) = length (g_edges g)) ->
  length (concat (mapi_from f s (firstn i gs))) = off es i 0.
Proof.
  unfold off, es, list_sum. clear HA HG HS es. revert s i. induction gs as [|g l IH]; intros s [|i] H; cbn [map firstn fold_right mapi_from concat]; auto.
  rewrite app_length, (H s g (or_introl eq_refl)), IH; auto. intros; apply H; right; auto.
Qed.
Lemma attr_len g : In g gs -> exists l, g_attr g = Some l /\ length l = length (g_edges g).
Proof. intros Hg. specialize (HA g Hg). specialize (HS g Hg). destruct (g_attr g) as [l|]; [|congruence]. exists l. split; auto. apply HA. Qed.
Lemma union_attr_some : union_attr gs = Some (concat (map (fun g => content (g_attr g)) gs)).
Proof.
  unfold union_attr. assert (E : forallb (fun g => isSome (g_attr g)) gs = true).
  { apply forallb_forall. intros g Hg. specialize (HS g Hg). destruct (g_attr g); auto. }
  rewrite E. auto.
Qed.
Lemma edge_at i g m : nth_error gs i = Some g -> m < length (g_edges g) ->
  nth_error (union_edges gs) (m + off es i 0) = option_map (fun e => (fst e + nodes_before gs i, snd e + nodes_before gs i)) (nth_error (g_edges g) m) /\
  nth_error (content (union_attr gs)) (m + off es i 0) = nth_error (content (g_attr g)) m.
Proof.
  intros Hi Hm. rewrite union_attr_some. cbn [content]. rewrite <- (mapi_const (fun g => content (g_attr g))). rewrite Nat.add_comm. split.
  - unfold union_edges, mapi. rewrite <- (es_prefix (fun i g => map (fun e => (fst e + nodes_before gs i, snd e + nodes_before gs i)) (g_edges g)) 0 i) by (intros; apply map_length).
    rewrite (nth_error_concat_mapi_from (fun i g => map (fun e => (fst e + nodes_before gs i, snd e + nodes_before gs i)) (g_edges g)) 0 gs i g m Hi) by (rewrite map_length; auto).
    apply nth_error_map.
  - unfold mapi. assert (L : forall (j : nat) g, In g gs -> length (content (g_attr g)) = length (g_edges g)).
    { intros _ g' Hg'. destruct (attr_len g' Hg') as (l & -> & E). auto. }
    rewrite <- (es_prefix (fun (_ : nat) g => content (g_attr g)) 0 i L).
    apply (nth_error_concat_mapi_from (fun (_ : nat) g => content (g_attr g)) 0 gs i g m Hi). rewrite (L 0); auto. eapply nth_error_In; eauto.
Qed.
Lemma es_total : length (union_edges gs) = total es 0 /\ length (content (union_attr gs)) = total es 0.
Proof.
  rewrite union_attr_some. cbn [content]. split.
  - pose proof (es_prefix (fun i g => map (fun e => (fst e + nodes_before gs i, snd e + nodes_before gs i)) (g_edges g)) 0 (length gs)) as E.
    rewrite firstn_all in E. unfold union_edges, mapi. rewrite E by (intros; apply map_length). unfold es. rewrite <- off_all, map_length. auto.
  - pose proof (es_prefix (fun (_ : nat) g => content (g_attr g)) 0 (length gs)) as E. rewrite firstn_all in E.
    rewrite <- (mapi_const (fun g => content (g_attr g))). unfold mapi. rewrite E.
    + unfold es. rewrite <- off_all, map_length. auto.
    + intros _ g' Hg'. destruct (attr_len g' Hg') as (l & -> & E'). auto.
Qed.
Lemma edge_of j e : nth_error (union_edges gs) j = Some e -> exists i g m e0, nth_error gs i = Some g /\ nth_error (g_edges g) m = Some e0 /\
  j = m + off es i 0 /\ e = (fst e0 + nodes_before gs i, snd e0 + nodes_before gs i).
Proof.
  intros H. assert (L : j < total es 0) by (rewrite <- (proj1 es_total); apply nth_error_Some; congruence).
  destruct (block_of es 0 j L) as (i & sz & m & Hi & Hm & ->). unfold es in Hi. rewrite nth_error_map in Hi.
  destruct (nth_error gs i) as [g|] eqn:E; [|discriminate]. inversion Hi; subst sz.
  rewrite (proj1 (edge_at i g m E Hm)) in H. destruct (nth_error (g_edges g) m) as [e0|] eqn:E0; [|discriminate]. cbn in H. inversion H.
  exists i, g, m, e0. auto.
Qed.
Lemma union_attr_ok : LiftRingProps.attr_ok (union_edges gs) (union_attr gs).
Proof.
  rewrite union_attr_some. pose proof es_total as [L1 L2]. rewrite union_attr_some in L2. cbn [content] in L2. cbn. split; [congruence|]. split.
  - intros a b Hab. apply union_in in Hab as (i & g & u & v & Hi & Hin & -> & ->).
    destruct (attr_len g (nth_error_In _ _ Hi)) as (l & El & _). pose proof (HA g (nth_error_In _ _ Hi)) as HO. rewrite El in HO.
    destruct HO as (_ & HL & _). specialize (HL u v Hin). lia.
  - intros j j' e e' Hj Hj' HE. destruct (edge_of j e Hj) as (i & g & m & e0 & Hi & Hm & -> & ->).
    destruct (edge_of j' e' Hj') as (i' & g' & m' & e1 & Hi' & Hm' & -> & ->). cbn [fst snd] in HE.
    assert (Lm : m < length (g_edges g)) by (apply nth_error_Some; congruence).
    assert (Lm' : m' < length (g_edges g')) by (apply nth_error_Some; congruence).
    pose proof (edge_at i g m Hi Lm) as [_ E1]. pose proof (edge_at i' g' m' Hi' Lm') as [_ E2].
    rewrite union_attr_some in E1, E2. cbn [content] in E1, E2. rewrite E1, E2.
    destruct e0 as [u v], e1 as [u' v']. cbn [fst snd] in HE.
    pose proof (HG g (nth_error_In _ _ Hi) u v (nth_error_In _ _ Hm)) as [Hu Hv].
    pose proof (HG g' (nth_error_In _ _ Hi') u' v' (nth_error_In _ _ Hm')) as [Hu' Hv'].
    assert (Eii : i = i').
    { destruct (proj1 (HE _) (or_introl eq_refl)) as [E|[E|[]]].
      - destruct (node_unique gs i' i g' g u' u Hi' Hi Hu' Hu E); auto.
      - destruct (node_unique gs i' i g' g v' u Hi' Hi Hv' Hu E); auto. }
    subst i'. rewrite Hi in Hi'. inversion Hi'; subst g'. destruct (attr_len g (nth_error_In _ _ Hi)) as (l & El & _).
    pose proof (HA g (nth_error_In _ _ Hi)) as HO. rewrite El in HO |- *. destruct HO as (_ & _ & HO). cbn [content].
    apply (HO m m' _ _ Hm Hm'). cbn [fst snd]. intros w. split; intros Hw.
    + destruct (proj1 (HE (w + nodes_before gs i))) as [E|[E|[]]]; [destruct Hw as [->|[->|[]]]; cbn; auto| |]; cbn; [left|right; left]; lia.
    + destruct (proj2 (HE (w + nodes_before gs i))) as [E|[E|[]]]; [destruct Hw as [->|[->|[]]]; cbn; auto| |]; cbn; [left|right; left]; lia.
Qed.
End Attr.

(** ** C63 for the ring lifting *)
Theorem C63_ring_union lib lib' isos isos' so so' r gs y max_k down max_dim :
  gs <> [] -> 2 <= max_dim -> (forall a b, veqb a b = true <-> a = b) ->
  let u := union_graph gs y in
  good_lib lib' -> good_isos isos' (g_n u) -> good_set so' ->
  Forall (fun g => ring_input lib isos so (g_x g) (g_edges g) (g_n g) (g_y g) max_k /\ LiftRingProps.attr_ok (g_edges g) (g_attr g)) gs ->
  uniform_attr gs -> label_ok y (g_n u) ->
  exists KU ks b cells cs pi,
    compute_ring_2complex o veqb lib' isos' so' r (g_x u) (g_edges u) (g_attr u) (g_n u) (g_y u) max_k down true true = Ok KU /\
    mapM (fun g => compute_ring_2complex o veqb lib isos so r (g_x g) (g_edges g) (g_attr g) (g_n g) (g_y g) max_k down true true) gs = Ok ks /\
    from_complex_list ks max_dim = Ok b /\
    ring_cells (g_edges u) (g_n u) max_k cells /\ Forall2 (fun g c => ring_cells (g_edges g) (g_n g) max_k c) gs cs /\
    complex_iso pi (fun d => length (cells d)) KU (kb_complex b) /\ tracks cs cells pi /\
    wf_complex KU (fun d => length (cells d)) /\ wf_complex (kb_complex b) (fun d => length (cells d)) /\
    has_features max_dim KU /\ has_features max_dim (kb_complex b).
Proof.
  intros Hne Hmd Heqb u Hlib Hisos Hso HI HUA Hy. pose proof (proj1 (Forall_forall _ _) HI) as HI'.
  assert (HG : forall g, In g gs -> graph_ok (g_edges g) (g_n g)) by (intros g Hg; apply (HI' g Hg)).
  assert (HX : forall g, In g gs -> length (g_x g) = g_n g) by (intros g Hg; apply (HI' g Hg)).
  assert (HA : forall g, In g gs -> LiftRingProps.attr_ok (g_edges g) (g_attr g)) by (intros g Hg; apply (HI' g Hg)).
  assert (GU : graph_ok (g_edges u) (g_n u)) by (apply union_graph_ok; auto).
  assert (IU : ring_input lib' isos' so' (g_x u) (g_edges u) (g_n u) (g_y u) max_k).
  { split; auto.
    - cbn. apply list_sum_pos; [destruct gs; [congruence|discriminate]|]. intros n Hn. apply in_map_iff in Hn as (g & <- & Hg). apply (HI' g Hg).
    - destruct (union_edges gs) as [|e l] eqn:E; [left; auto|right].
      assert (Hin : In e (union_edges gs)) by (rewrite E; left; auto). destruct e as [a b0]. apply union_in in Hin as (i & g & u0 & v0 & Hi & Hin & _).
      destruct (ri_loops _ _ _ _ _ _ _ _ (proj1 (HI' g (nth_error_In _ _ Hi)))) as [E0|(u1 & v1 & HAd)]; [rewrite E0 in Hin; destruct Hin|].
      exists (u1 + nodes_before gs i), (v1 + nodes_before gs i). apply union_adjacent. exists i, g, u1, v1. auto.
    - apply union_x_length; auto. }
  assert (AU : LiftRingProps.attr_ok (g_edges u) (g_attr u)).
  { destruct HUA as [H|H]; [apply union_attr_ok; auto|]. unfold u. cbn [g_attr g_edges union_graph]. unfold union_attr.
    destruct gs as [|g gs']; [congruence|]. cbn [forallb]. rewrite (H g (or_introl eq_refl)). cbn. exact I. }
  destruct (ring_lift_gen o veqb lib' isos' so' r (g_x u) (g_edges u) (g_attr u) (g_n u) (g_y u) max_k down true true IU Heqb (fun _ => AU))
    as (KU & rowsU & EU & HRU & LRU & HCU & HDU & _).
  specialize (HRU eq_refl).
  pose proof (cells_ring lib' isos' so' (g_x u) (g_edges u) (g_n u) (g_y u) max_k IU) as CU.
  set (cells := rcells_of lib' isos' so' (g_edges u) (g_n u) max_k) in *.
  set (cg := fun g : graph V => rcells_of lib isos so (g_edges g) (g_n g) max_k).
  destruct (mapM_Forall2 (fun g => compute_ring_2complex o veqb lib isos so r (g_x g) (g_edges g) (g_attr g) (g_n g) (g_y g) max_k down true true)
    (fun g K => exists rows, edge_rows o lib isos so r (g_x g) (g_edges g) (g_attr g) (g_n g) max_k rows /\
       has_cells (cg g) down (ring_x o lib isos so r (g_x g) (g_edges g) (g_n g) max_k true true rows) K /\ k_dim K <= max_dim) gs)
    as (ks & Eks & HF).
  { intros g Hg. destruct (ring_lift_gen o veqb lib isos so r _ _ (g_attr g) _ _ max_k down true true (proj1 (HI' g Hg)) Heqb (fun _ => HA g Hg))
      as (K & rows & E & HR & _ & HC & HD & _). exists K. split; auto. exists rows. split; [auto|]. split; [auto|].
    pose proof (proj1 (HD (k_dim K)) (le_n _)) as Hc. pose proof (cells_ring lib isos so _ _ _ _ _ (proj1 (HI' g Hg))) as CC.
    destruct (Nat.le_gt_cases (k_dim K) max_dim); auto. destruct Hc. apply (rc_top _ _ _ _ CC). lia. }
  set (cs := map cg gs).
  assert (CC : Forall2 (fun g c => ring_cells (g_edges g) (g_n g) max_k c) gs cs).
  { apply Forall2_self_map. intros g Hg. apply (cells_ring lib isos so _ _ _ _ _ (proj1 (HI' g Hg))). }
  assert (HC : Forall2 (fun K c => has_cells c down (fun d => attr c_x d K) K) ks cs).
  { clear -HF. unfold cs. induction HF as [|g K gs' ks' (rows & _ & HC & _) HF IH]; cbn; constructor; auto.
    destruct HC as [H1 H2 H3 H4 H5 H6 H7]. split; auto. intros d c Hc. unfold attr. rewrite Hc. auto. }
  assert (HXk : forall K d c, In K ks -> nth_error (k_cochains K) d = Some c -> c_x c <> None).
  { intros K d c HK Hc. apply In_nth_error in HK as [i Hi].
    assert (L : i < length gs) by (rewrite (Forall2_length HF); apply nth_error_Some; congruence).
    destruct (nth_error gs i) as [g|] eqn:E; [|apply nth_error_None in E; lia].
    destruct (Forall2_nth_error_l _ _ _ HF _ _ E) as (K' & E' & rows & _ & H & _). assert (K' = K) by congruence. subst K'.
    rewrite (hc_x _ _ _ _ H d c Hc). destruct d as [|[|d]]; discriminate. }
  assert (Hnk : ks <> []) by (intros ->; apply Forall2_length in HF; destruct gs; [congruence|discriminate]).
  assert (HDk : forall K, In K ks -> k_dim K <= max_dim).
  { clear -HF. induction HF as [|g K gs' ks' (rows & _ & _ & H) HF IH]; intros K' HK; [destruct HK|destruct HK as [<-|HK]; auto]. }
  destruct (from_complex_list_is_batch ks (sizes_of cs) max_dim Hnk) as (b & Hb & _).
  { eapply U_wf; eauto. }
  { intros d _. left. intros K c HK. apply HXk; auto. }
  pose proof (union_ring_cells gs HG cs max_k CC) as CU'.
  assert (SC : same_cells (fun v => v) cells (union_cells cs)).
  { apply (ring_same_cells (fun v => v) (g_n u) (g_edges u) (g_edges u) (g_x u) (g_x u) max_k); auto.
    split; auto. intros; reflexivity. }
  assert (Mem : forall i K c, nth_error ks i = Some K -> nth_error cs i = Some c -> exists g rows, nth_error gs i = Some g /\
    c = cg g /\ edge_rows o lib isos so r (g_x g) (g_edges g) (g_attr g) (g_n g) max_k rows /\
    has_cells c down (ring_x o lib isos so r (g_x g) (g_edges g) (g_n g) max_k true true rows) K /\
    ring_cells (g_edges g) (g_n g) max_k c /\ off (sizes_of cs) i 0 = nodes_before gs i).
  { intros i K c Hi Hc. assert (L : i < length gs) by (rewrite (Forall2_length HF); apply nth_error_Some; congruence).
    destruct (nth_error gs i) as [g|] eqn:E; [|apply nth_error_None in E; lia].
    assert (Ec : c = cg g).
    { unfold cs in Hc. rewrite nth_error_map, E in Hc. cbn in Hc. congruence. }
    destruct (Forall2_nth_error_l _ _ _ HF _ _ E) as (K' & E' & rows & HR & H & _). assert (K' = K) by congruence. subst K' c.
    exists g, rows. split; auto. split; auto. split; auto. split; auto.
    split; [apply (cells_ring lib isos so _ _ _ _ _ (proj1 (HI' g (nth_error_In _ _ E))))|].
    apply off_nb. clear -CC. induction CC; constructor; auto. eapply rc_vertices; eauto. }
  assert (HV : forall i c d s, nth_error cs i = Some c -> In s (c d) -> s <> [] /\ forall v, In v s -> v < length (c 0)).
  { intros i c d s Hc Hs. destruct (U_mem' ks cs down HC i c Hc) as (K & Hi & _). destruct (Mem i K c Hi Hc) as (g & rows & Hg & _ & _ & _ & Cc & _).
    rewrite (rc_vertices _ _ _ _ Cc). apply In_nth_error in Hs as [j Hj].
    pose proof (ring_range _ _ _ _ _ _ _ (HG g (nth_error_In _ _ Hg)) Cc Hj) as [_ Hr]. split; [|exact Hr].
    destruct d as [|[|[|d]]].
    - pose proof (ring_vertex _ _ _ _ _ _ Cc Hj) as [E1 E2]. rewrite E2. discriminate.
    - apply nth_error_In in Hj. pose proof (proj1 (rc_edge _ _ _ _ Cc s) Hj) as (a & b0 & _ & E2 & _). rewrite E2. discriminate.
    - apply nth_error_In in Hj. pose proof (rc_ring _ _ _ _ Cc s Hj) as [(C1 & _) _]. intros E2. rewrite E2 in C1. cbn in C1. lia.
    - unfold names in Hj. rewrite (rc_top _ _ _ _ Cc) in Hj by lia. destruct j; discriminate. }
  destruct (union_iso ks cs down b max_dim KU cells (ring_x o lib' isos' so' r (g_x u) (g_edges u) (g_n u) max_k true true rowsU) Hnk HC HV HXk HDk Hb HCU HDU SC) as (P1 & P2 & P3 & P4).
  { intros i K c d j s0 t s Hi Hc Hj Ht HS. destruct (Mem i K c Hi Hc) as (g & rows & Hg & Ec & HR & HCg & Cc & Eo). rewrite Eo in HS.
    pose proof (ring_range _ _ _ _ _ _ _ (HG g (nth_error_In _ _ Hg)) Cc Hj) as [N0 Hr].
    pose proof (ring_range _ _ _ _ _ _ _ GU CU Ht) as [N1 _].
    assert (HKx : attr c_x d K = ring_x o lib isos so r (g_x g) (g_edges g) (g_n g) max_k true true rows d).
    { unfold attr. destruct (nth_error (k_cochains K) d) as [q|] eqn:Eq; [apply (hc_x _ _ _ _ HCg d q Eq)|].
      pose proof (no_level down K c _ d HCg Eq) as E0. unfold names in Hj. rewrite E0 in Hj. destruct j; discriminate. }
    assert (ER : cell_row o r (g_x u) s = cell_row o r (g_x g) s0).
    { rewrite <- (union_cell_row gs HX r i g s0 Hg Hr). apply cell_row_set; auto. apply shift_NoDup. auto. }
    rewrite HKx. unfold ring_x. change (rcells_of lib isos so (g_edges g) (g_n g) max_k) with (cg g). fold cells. rewrite <- Ec.
    destruct d as [|[|d]]; cbn [content].
    - pose proof (ring_vertex _ _ _ _ _ _ Cc Hj) as [L1 E1]. pose proof (ring_vertex _ _ _ _ _ _ CU Ht) as [L2 E2]. subst s0 s.
      assert (Et : t = j + nodes_before gs i). { destruct (proj1 (HS t) (or_introl eq_refl)) as [E|[]]; auto. }
      rewrite Et. symmetry. apply union_row; auto.
    - destruct HUA as [HAs|HAn].
      + (* attributes *)
        pose proof (nth_error_In _ _ Hj) as Ij. apply (rc_edge _ _ _ _ Cc) in Ij as (p & q & Hpq & -> & Hne' & HE).
        assert (W : exists m e, nth_error (g_edges g) m = Some e /\ same_set [fst e; snd e] [p; q]).
        { destruct HE as [HE|HE]; apply In_nth_error in HE as [m Hm]; exists m; eexists; (split; [exact Hm|]); intros w; cbn; tauto. }
        destruct W as (m & e & Hm & Hs). assert (Lm : m < length (g_edges g)) by (apply nth_error_Some; congruence).
        destruct (edge_at gs HA HAs i g m Hg Lm) as [EE EA]. rewrite Hm in EE. cbn [option_map] in EE.
        unfold edge_rows in HR, HRU. pose proof (HAs g (nth_error_In _ _ Hg)) as Hga. destruct (g_attr g) as [lg|] eqn:Elg; [|congruence].
        change (g_attr u) with (union_attr gs) in HRU. rewrite (union_attr_some gs HAs) in HRU, EA. cbn [content] in EA.
        change (rcells_of lib isos so (g_edges g) (g_n g) max_k) with (cg g) in HR. rewrite <- Ec in HR.
        rewrite (HR m e j _ Hm Hj Hs). rewrite (HRU _ _ t _ EE Ht); [symmetry; exact EA|].
        cbn [fst snd]. intros w. rewrite (HS w), in_map_iff. split.
        * intros Hw. assert (Hz : exists z, In z [fst e; snd e] /\ w = z + nodes_before gs i).
          { destruct Hw as [<-|[<-|[]]]; [exists (fst e)|exists (snd e)]; cbn; auto. }
          destruct Hz as (z & Hz & ->). exists z. split; auto. apply Hs; auto.
        * intros (z & <- & Hz). apply Hs in Hz as [->|[->|[]]]; cbn; auto.
      + (* no attributes *)
        unfold edge_rows in HR, HRU. rewrite (HAn g (nth_error_In _ _ Hg)) in HR.
        assert (EN : g_attr u = None).
        { cbn. unfold union_attr. destruct gs as [|g1 gs1]; [congruence|]. cbn [forallb]. rewrite (HAn g1 (or_introl eq_refl)). auto. }
        rewrite EN in HRU. rewrite HR, HRU. change (rcells_of lib isos so (g_edges g) (g_n g) max_k) with (cg g). fold cells. rewrite <- Ec.
        unfold names in Hj, Ht. rewrite !nth_error_map, Hj, Ht. cbn [option_map]. f_equal. auto.
    - unfold names in Hj, Ht. rewrite !nth_error_map, Hj, Ht. cbn [option_map]. f_equal. auto. }
  exists KU, ks, b, cells, cs, (cell_map (fun v => v) cells (union_cells cs)). do 8 (split; auto). { apply HCU. } split; auto. split.
  - intros d c _ Hc. rewrite (hc_x _ _ _ _ HCU d c Hc). destruct d as [|[|d]]; discriminate.
  - intros d c _ Hc. apply (P4 d c); auto. assert (d < length (k_cochains (kb_complex b))) by (apply nth_error_Some; congruence).
    rewrite (wfk_len _ _ P3) in *. lia.
Qed.

(** ** Networks do not distinguish the two *)
Lemma predict_one m K K' sz max_dim : cwn_net o m -> wf_complex K sz -> wf_complex K' sz -> has_features max_dim K -> has_features max_dim K' ->
  0 < sz 0 -> isomorphic sz K K' ->
  exists b b' out bo bo', from_complex_list [K] max_dim = Ok b /\ from_complex_list [K'] max_dim = Ok b' /\
    net_forward o m b = Ok (out, bo) /\ net_forward o m b' = Ok (out, bo').
Proof.
  intros Hm W W' F F' Hp HI. apply (C27_isomorphism_invariance o Ho m [K] [K'] [sz] max_dim); auto; try discriminate; constructor; auto.
Qed.

Theorem C63_clique_predict lib lib' r gs y k down max_dim m :
  cwn_net o m -> gs <> [] -> Nat.max 1 k <= max_dim -> good_lib lib' ->
  Forall (fun g => clique_input lib (g_x g) (g_edges g) (g_n g) k (g_y g)) gs ->
  let u := union_graph gs y in label_ok y (g_n u) ->
  exists KU ks b b1 b2 out bo1 bo2,
    compute_clique_complex o lib' r (g_x u) (g_edges u) (g_n u) k (g_y u) down = Ok KU /\
    mapM (fun g => compute_clique_complex o lib r (g_x g) (g_edges g) (g_n g) k (g_y g) down) gs = Ok ks /\
    from_complex_list ks max_dim = Ok b /\
    from_complex_list [KU] max_dim = Ok b1 /\ from_complex_list [kb_complex b] max_dim = Ok b2 /\
    net_forward o m b1 = Ok (out, bo1) /\ net_forward o m b2 = Ok (out, bo2).
Proof.
  intros Hm Hne Hmd Hlib HI u Hy.
  destruct (C63_clique_union lib lib' r gs y k down max_dim Hne Hmd Hlib HI Hy) as (KU & ks & b & cells & cs & pi & E1 & E2 & E3 & CU & _ & HP & _ & W1 & W2 & F1 & F2).
  destruct (predict_one m KU (kb_complex b) _ max_dim Hm W1 W2 F1 F2) as (b1 & b2 & out & bo1 & bo2 & H).
  - rewrite (clique_length0 _ _ _ _ CU). cbn. apply list_sum_pos; [destruct gs; [congruence|discriminate]|].
    intros n Hn. apply in_map_iff in Hn as (g & <- & Hg). apply (proj1 (Forall_forall _ _) HI g Hg).
  - exists pi. auto.
  - exists KU, ks, b, b1, b2, out, bo1, bo2. auto.
Qed.

Theorem C63_ring_predict lib lib' isos isos' so so' r gs y max_k down max_dim m :
  cwn_net o m -> gs <> [] -> 2 <= max_dim -> (forall a b, veqb a b = true <-> a = b) ->
  let u := union_graph gs y in
  good_lib lib' -> good_isos isos' (g_n u) -> good_set so' ->
  Forall (fun g => ring_input lib isos so (g_x g) (g_edges g) (g_n g) (g_y g) max_k /\ LiftRingProps.attr_ok (g_edges g) (g_attr g)) gs ->
  uniform_attr gs -> label_ok y (g_n u) ->
  exists KU ks b b1 b2 out bo1 bo2,
    compute_ring_2complex o veqb lib' isos' so' r (g_x u) (g_edges u) (g_attr u) (g_n u) (g_y u) max_k down true true = Ok KU /\
    mapM (fun g => compute_ring_2complex o veqb lib isos so r (g_x g) (g_edges g) (g_attr g) (g_n g) (g_y g) max_k down true true) gs = Ok ks /\
    from_complex_list ks max_dim = Ok b /\
    from_complex_list [KU] max_dim = Ok b1 /\ from_complex_list [kb_complex b] max_dim = Ok b2 /\
    net_forward o m b1 = Ok (out, bo1) /\ net_forward o m b2 = Ok (out, bo2).
Proof.
  intros Hm Hne Hmd He u Hlib Hiso Hso HI HA Hy.
  destruct (C63_ring_union lib lib' isos isos' so so' r gs y max_k down max_dim Hne Hmd He Hlib Hiso Hso HI HA Hy)
    as (KU & ks & b & cells & cs & pi & E1 & E2 & E3 & CU & _ & HP & _ & W1 & W2 & F1 & F2).
  destruct (predict_one m KU (kb_complex b) _ max_dim Hm W1 W2 F1 F2) as (b1 & b2 & out & bo1 & bo2 & H).
  - rewrite (rc_vertices _ _ _ _ CU). cbn. apply list_sum_pos; [destruct gs; [congruence|discriminate]|].
    intros n Hn. apply in_map_iff in Hn as (g & <- & Hg). apply (proj1 (Forall_forall _ _) HI g Hg).
  - exists pi. auto.
  - exists KU, ks, b, b1, b2, out, bo1, bo2. auto.
Qed.

(** ** C64: triangles as cliques and as rings *)
Lemma triangle_clique es n c : graph_ok es n -> induced_cycle es c -> length c <= 3 -> clique es n c /\ length c = 3.
Proof.
  intros Hg (L & N & HA) Hl. assert (E : length c = 3) by lia. split; auto.
  assert (Had : forall u v, In u c -> In v c -> u <> v -> adjacent es u v).
  { intros u v Hu Hv Huv. apply In_nth_error in Hu as [i Hi]. apply In_nth_error in Hv as [j Hj].
    apply (HA i j u v Hi Hj). assert (Hij : i <> j) by (intros ->; congruence). split; auto.
    assert (i < 3) by (rewrite <- E; apply nth_error_Some; congruence). assert (j < 3) by (rewrite <- E; apply nth_error_Some; congruence).
    rewrite E. unfold next_to. destruct i as [|[|[|i]]], j as [|[|[|j]]]; cbn; try lia. }
  split; [intros ->; discriminate|]. split; auto. split; auto. intros v Hv.
  assert (W : exists w, In w c /\ w <> v).
  { destruct c as [|a [|b [|d [|]]]]; try discriminate. inversion N as [|? ? N1 N2]; subst. destruct (Nat.eq_dec a v) as [->|]; [exists b|exists a]; split; cbn; auto.
    intros ->. apply N1. left; auto. }
  destruct W as (w & Hw & Hwv). destruct (Had v w Hv Hw (fun E' => Hwv (eq_sym E'))) as [_ [H|H]]; apply Hg in H; tauto.
Qed.
Lemma clique_triangle es n c : clique es n c -> length c = 3 -> induced_cycle es c.
Proof.
  intros (_ & N & _ & HA) E. split; [lia|]. split; auto. intros i j a b Hi Hj.
  assert (i < 3) by (rewrite <- E; apply nth_error_Some; congruence). assert (j < 3) by (rewrite <- E; apply nth_error_Some; congruence). split.
  - intros [Hab _]. assert (i <> j) by (intros ->; congruence). split; auto. rewrite E. unfold next_to. destruct i as [|[|[|i]]], j as [|[|[|j]]]; cbn; try lia.
  - intros [Hij _]. apply HA; [eapply nth_error_In; eauto|eapply nth_error_In; eauto|]. intros ->. apply Hij.
    apply (proj1 (NoDup_nth_error c) N); [lia|congruence].
Qed.
Lemma triangles_both es n cells : graph_ok es n -> clique_cells es n 2 cells -> ring_cells es n 3 cells.
Proof.
  intros Hg CC. split.
  - apply CC.
  - apply (clique_length0 _ _ _ _ CC).
  - intros s. rewrite (cc_iff _ _ _ _ CC). split.
    + intros ((_ & N & _ & HA) & Hi & L & _). destruct s as [|u [|v [|]]]; try (cbn in L; lia). exists u, v.
      assert (Hlt : u < v) by (apply (Hi 0 1 u v); auto). split; auto. split; auto. apply HA; cbn; auto. lia.
    + intros (u & v & Hlt & -> & HAd). pose proof HAd as [_ HE]. cbn. split; [|split; [|lia]].
      * split; [discriminate|]. split; [repeat constructor; cbn; intuition lia|]. split.
        -- intros w [<-|[<-|[]]]; destruct HE as [HE|HE]; apply Hg in HE; tauto.
        -- assert (HAs : adjacent es v u) by (split; [lia|tauto]). intros a b [<-|[<-|[]]] [<-|[<-|[]]] Hab; tauto.
      * intros [|[|i]] [|[|j]] a b Hi Hj Hl; cbn in Hi, Hj; try lia; try (destruct i; discriminate); try (destruct j; discriminate).
        inversion Hi; inversion Hj; subst. auto.
  - intros s Hs. apply (cc_iff _ _ _ _ CC) in Hs as (C1 & _ & L & _). split; [|lia]. apply (clique_triangle es n); auto.
  - intros s Hs Hl. destruct (triangle_clique es n s Hg Hs Hl) as [(C1 & C2 & C3 & C4) C5].
    pose proof (Permutation_sym (sort_perm Nat.leb s)) as P.
    assert (Hin : In (sort Nat.leb s) (cells 2)).
    { apply (cc_iff _ _ _ _ CC). split; [|split; [|split; [|cbn; lia]]].
      - split; [intros E; rewrite E in P; apply Permutation_length in P; cbn in P; lia|].
        split; [eapply Permutation_NoDup; [apply Permutation_sym; exact P|auto]|].
        split; [intros v Hv; apply C3; eapply Permutation_in; eauto|].
        intros a b Ha Hb. apply C4; eapply Permutation_in; eauto.
      - apply sorted_increasing, sort_sorted; auto.
      - apply Permutation_length in P. lia. }
    apply In_nth_error in Hin as [i Hi]. exists i, (sort Nat.leb s). split; auto. intros v. split; intros Hv; [apply (Permutation_in v (Permutation_sym P) Hv)|apply (Permutation_in v P Hv)].
  - intros d Hd. destruct (cells d) as [|s l] eqn:E; auto. assert (Hs : In s (cells d)) by (rewrite E; left; auto).
    apply (cc_iff _ _ _ _ CC) in Hs as (_ & _ & _ & H). cbn in H. lia.
  - apply CC.
Qed.

Theorem C64_triangles lib lib' isos so r x edges size y down :
  (forall a b, veqb a b = true <-> a = b) ->
  clique_input lib x edges size 2 y -> ring_input lib' isos so x edges size y 3 ->
  exists K K' cells cells' pi,
    compute_clique_complex o lib r x edges size 2 y down = Ok K /\
    compute_ring_2complex o veqb lib' isos so r x edges None size y 3 down true true = Ok K' /\
    clique_cells edges size 2 cells /\ ring_cells edges size 3 cells' /\ same_complex cells cells' pi K K' /\
    k_y K' = k_y K /\
    (forall d c c', nth_error (k_cochains K) d = Some c -> nth_error (k_cochains K') d = Some c' -> c_y c' = c_y c) /\
    wf_complex K (fun d => length (cells d)) /\ wf_complex K' (fun d => length (cells d)) /\
    (forall D, has_features D K /\ has_features D K').
Proof.
  intros He HI HI'. pose proof (ci_graph _ _ _ _ _ _ HI) as Hg. pose proof (ci_x _ _ _ _ _ _ HI) as Hx.
  destruct (given o lib r x edges size 2 y down HI) as (K & E & HC & HD & HY).
  pose proof (given_cells lib x edges size 2 y HI) as CC.
  destruct (ring_lift_gen o veqb lib' isos so r x edges None size y 3 down true true HI' He (fun _ => I))
    as (K' & rows & E' & HR & LR & HC' & HD' & HY').
  specialize (HR eq_refl). unfold edge_rows in HR.
  pose proof (cells_ring lib' isos so x edges size y 3 HI') as CC'.
  set (cells := cells_of lib edges size 2) in *. set (cells' := rcells_of lib' isos so edges size 3) in *.
  pose proof (triangles_both edges size cells Hg CC) as CR.
  assert (SC : same_cells (fun v => v) cells cells').
  { apply (ring_same_cells (fun v => v) size edges edges x x 3); auto. split; auto. intros; reflexivity. }
  assert (Lc : forall d, length (cells' d) = length (cells d)) by (intros; apply (cells_length (fun v => v)); auto).
  exists K, K', cells, cells', (cell_map (fun v => v) cells cells'). do 4 (split; auto). split.
  { split.
    - intros d i s Hi. destruct (cell_map_ok (fun v => v) cells cells' SC d i s Hi) as (s' & H1 & H2). rewrite map_id in H2. eauto.
    - eapply (same_cells_iso (fun v => v) cells cells' SC down); [exact HC|exact HC'|exact HD|exact HD'|].
      intros d i s s' j Hi Hj HS. rewrite map_id in HS.
      pose proof (ring_range _ _ _ _ _ _ _ Hg CR Hi) as [N1 Hr]. pose proof (ring_range _ _ _ _ _ _ _ Hg CC' Hj) as [N1' Hr'].
      assert (ER : cell_row o r x s' = cell_row o r x s) by (symmetry; apply cell_row_set; auto).
      unfold lift_x, ring_x. fold cells cells'. destruct d as [|[|d]]; cbn [Nat.eqb content].
      + apply (ring_vertex _ _ _ _ _ _ CR) in Hi as [_ ->]. apply (ring_vertex _ _ _ _ _ _ CC') in Hj as [_ ->].
        destruct (proj1 (HS i) (or_introl eq_refl)) as [Eij|[]]. rewrite Eij. auto.
      + rewrite HR. fold cells'. unfold names in Hi, Hj. rewrite !nth_error_map, Hi, Hj. cbn. f_equal. auto.
      + unfold names in Hi, Hj. rewrite !nth_error_map, Hi, Hj. cbn. f_equal. auto. }
  assert (Y : k_y K' = k_y K /\ forall d c c', nth_error (k_cochains K) d = Some c -> nth_error (k_cochains K') d = Some c' -> c_y c' = c_y c).
  { destruct y as [l|]; [destruct (length l =? 1)|]; destruct HY as [Y1 Y2], HY' as [Y1' Y2']; split; try congruence;
      intros d c c' Hc Hc'; rewrite (Y2 d c Hc), (Y2' d c' Hc'); auto. }
  split; [apply Y|]. split; [apply Y|]. split; [apply HC|]. split; [eapply wf_ext; [|apply HC']; exact Lc|].
  intros D. split; intros d c _ Hc.
  - rewrite (hc_x _ _ _ _ HC d c Hc). discriminate.
  - rewrite (hc_x _ _ _ _ HC' d c Hc). destruct d as [|[|d]]; discriminate.
Qed.

Theorem C64_predict lib lib' isos so r gs down max_dim m :
  cwn_net o m -> gs <> [] -> (forall a b, veqb a b = true <-> a = b) ->
  Forall (fun g => clique_input lib (g_x g) (g_edges g) (g_n g) 2 (g_y g) /\ ring_input lib' isos so (g_x g) (g_edges g) (g_n g) (g_y g) 3) gs ->
  exists ks ks' b b' out bo bo',
    mapM (fun g => compute_clique_complex o lib r (g_x g) (g_edges g) (g_n g) 2 (g_y g) down) gs = Ok ks /\
    mapM (fun g => compute_ring_2complex o veqb lib' isos so r (g_x g) (g_edges g) None (g_n g) (g_y g) 3 down true true) gs = Ok ks' /\
    from_complex_list ks max_dim = Ok b /\ from_complex_list ks' max_dim = Ok b' /\
    net_forward o m b = Ok (out, bo) /\ net_forward o m b' = Ok (out, bo').
Proof.
  intros Hm Hne He HI.
  assert (G : exists ks ks' szs,
    mapM (fun g => compute_clique_complex o lib r (g_x g) (g_edges g) (g_n g) 2 (g_y g) down) gs = Ok ks /\
    mapM (fun g => compute_ring_2complex o veqb lib' isos so r (g_x g) (g_edges g) None (g_n g) (g_y g) 3 down true true) gs = Ok ks' /\
    length ks = length gs /\
    Forall2 wf_complex ks szs /\ Forall2 wf_complex ks' szs /\
    Forall (has_features max_dim) ks /\ Forall (has_features max_dim) ks' /\
    Forall (fun sz => 0 < sz 0) szs /\ Forall2 (fun q k' => isomorphic (snd q) (fst q) k') (combine ks szs) ks').
  { clear Hne. induction HI as [|g gs [A1 A2] HI IH].
    - exists [], [], []. repeat split; constructor.
    - destruct IH as (ks & ks' & szs & E1 & E2 & E3 & E4 & E5 & E6 & E7 & E8 & E9).
      destruct (C64_triangles lib lib' isos so r (g_x g) (g_edges g) (g_n g) (g_y g) down He A1 A2)
        as (K & K' & cells & cells' & pi & F1 & F2 & CC & _ & [_ HP] & _ & _ & W & W' & HF).
      exists (K :: ks), (K' :: ks'), ((fun d => length (cells d)) :: szs). cbn [mapM]. rewrite F1, F2, E1, E2. cbn [bind length combine].
      split; auto. split; auto. split; auto. split; auto. split; auto. split; [constructor; auto; apply HF|]. split; [constructor; auto; apply HF|].
      split; constructor; auto.
      + cbv beta. rewrite (clique_length0 _ _ _ _ CC). apply A1.
      + exists pi. auto. }
  destruct G as (ks & ks' & szs & E1 & E2 & E3 & E4 & E5 & E6 & E7 & E8 & E9).
  assert (Hne' : ks <> []) by (intros ->; destruct gs; [congruence|discriminate]).
  destruct (C27_isomorphism_invariance o Ho m ks ks' szs max_dim Hm Hne' E4 E5 E6 E7 E8 E9) as (b & b' & out & bo & bo' & H).
  exists ks, ks', b, b', out, bo, bo'. tauto.
Qed.
End Union.

(** ** Examples *)
(** A triangle with a pendant node (edge attributes 10, 20, 30, 40), an isolated node together with an
    edge, and a square with one diagonal. *)
Definition u_tri : graph Z := mkGraph [1; 2; 3; 4]%Z [(0, 1); (1, 2); (0, 2); (2, 3)] (Some [10; 20; 30; 40]%Z) 4 (Some [1]%Z).
Definition u_edge : graph Z := mkGraph [5; 6; 7]%Z [(2, 0); (0, 2)] (Some [50; 50]%Z) 3 (Some [0]%Z).
Definition u_sq : graph Z := mkGraph [8; 9; 8; 9]%Z [(0, 1); (1, 2); (2, 3); (3, 0); (1, 3)] (Some [60; 70; 80; 90; 100]%Z) 4 (Some [1]%Z).
Definition u_gs : list (graph Z) := [u_tri; u_edge; u_sq].
Ltac graph_ok_tac := intros u v H; simpl in H; repeat (destruct H as [H|H]; [inversion H; subst; cbn; lia|]); destruct H.

Lemma u_clique b g k : In g u_gs -> clique_input (any_lib b) (g_x g) (g_edges g) (g_n g) k (g_y g).
Proof.
  intros H. split.
  - destruct H as [<-|[<-|[<-|[]]]]; graph_ok_tac.
  - destruct H as [<-|[<-|[<-|[]]]]; cbn; lia.
  - destruct H as [<-|[<-|[<-|[]]]]; reflexivity.
  - destruct H as [<-|[<-|[<-|[]]]]; cbn; auto.
  - apply any_lib_ok.
Qed.
Lemma u_ring b g k : In g u_gs -> ring_input (any_lib b) (ref_isos 11) (@rev _) (g_x g) (g_edges g) (g_n g) (g_y g) k.
Proof.
  intros H. split.
  - destruct H as [<-|[<-|[<-|[]]]]; graph_ok_tac.
  - destruct H as [<-|[<-|[<-|[]]]]; cbn; lia.
  - right. destruct H as [<-|[<-|[<-|[]]]]; [exists 0, 1|exists 0, 2|exists 0, 1]; (split; [lia|cbn; auto]).
  - destruct H as [<-|[<-|[<-|[]]]]; reflexivity.
  - destruct H as [<-|[<-|[<-|[]]]]; cbn; auto.
  - apply any_lib_ok.
  - intros j _. apply ref_isos_ok. destruct H as [<-|[<-|[<-|[]]]]; graph_ok_tac.
  - intros l _. apply Permutation_sym, Permutation_rev.
Qed.
Example C63_union_example : g_edges (union_graph u_gs (Some [7]%Z)) =
    [(0, 1); (1, 2); (0, 2); (2, 3); (6, 4); (4, 6); (7, 8); (8, 9); (9, 10); (10, 7); (8, 10)] /\
  g_attr (union_graph u_gs (Some [7]%Z)) = Some [10; 20; 30; 40; 50; 50; 60; 70; 80; 90; 100]%Z.
Proof. split; reflexivity. Qed.
Example C63_clique_example := C63_clique_predict Zops Zops_ok (any_lib true) (any_lib false) RMean u_gs (Some [7]%Z) 2 true 2 ex_net (proj1 C06_hyps)
  ltac:(discriminate) ltac:(cbn; lia) (any_lib_ok false) ltac:(apply Forall_forall; intros g H; apply u_clique; auto) ltac:(cbn; auto).
Lemma u_attr g : In g u_gs -> LiftRingProps.attr_ok (g_edges g) (g_attr g).
Proof.
  intros [<-|[<-|[<-|[]]]]; (split; [reflexivity|split; [intros u v H; simpl in H; repeat (destruct H as [H|H]; [inversion H; subst; lia|]); destruct H|]]);
    intros j j' e e' Hj Hj' HS;
    destruct j as [|[|[|[|[|j]]]]]; cbn in Hj; try discriminate; try (destruct j; discriminate); inversion Hj; subst e; clear Hj;
    destruct j' as [|[|[|[|[|j']]]]]; cbn in Hj'; try discriminate; try (destruct j'; discriminate); inversion Hj'; subst e'; clear Hj'; try reflexivity;
    exfalso; cbn [fst snd] in HS;
    pose proof (proj1 (HS _) (or_introl eq_refl)) as H1; pose proof (proj1 (HS _) (or_intror (or_introl eq_refl))) as H2; cbn in H1, H2; lia.
Qed.
Example C63_ring_example := C63_ring_predict Zops Zops_ok Z.eqb (any_lib true) (any_lib false) (ref_isos 11) (ref_isos 11) (@rev _) (fun l => l)
  RAdd u_gs (Some [7]%Z) 4 true 2 ex_net (proj1 C06_hyps) ltac:(discriminate) ltac:(lia) Z.eqb_eq (any_lib_ok false)
  (fun e k H => ref_isos_ok 11 e k H) (fun l _ => Permutation_refl l)
  ltac:(apply Forall_forall; intros g H; split; [apply u_ring; auto|apply u_attr; auto]) ltac:(left; intros g [<-|[<-|[<-|[]]]]; discriminate) ltac:(cbn; auto).
(** The features of the lifted union and of the batch: 11 nodes, the same 10 edges in another order and three
    triangles, two of them in the square. *)
Example C63_ring_features_example :
  match compute_ring_2complex Zops Z.eqb (any_lib false) (ref_isos 11) (fun l => l) RAdd (g_x (union_graph u_gs None)) (g_edges (union_graph u_gs None))
      (g_attr (union_graph u_gs None)) 11 None 4 true true true,
    bind (mapM (fun g => compute_ring_2complex Zops Z.eqb (any_lib true) (ref_isos 11) (@rev _) RAdd (g_x g) (g_edges g) (g_attr g) (g_n g) (g_y g) 4 true true true) u_gs)
      (fun ks => from_complex_list ks 2) with
  | Ok K, Ok b => map (fun c => content (c_x c)) (k_cochains K) =
        [[1; 2; 3; 4; 5; 6; 7; 8; 9; 8; 9]; [10; 20; 30; 40; 50; 60; 70; 80; 90; 100]; [6; 26; 26]]%Z /\
      map (fun c => content (c_x c)) (k_cochains (kb_complex b)) =
        [[1; 2; 3; 4; 5; 6; 7; 8; 9; 8; 9]; [40; 30; 20; 10; 50; 100; 90; 80; 70; 60]; [6; 26; 26]]%Z
  | _, _ => False
  end.
Proof. vm_compute. split; reflexivity. Qed.

(** The two liftings of the same graphs. *)
Example C64_example := C64_predict Zops Zops_ok Z.eqb (any_lib true) (any_lib false) (ref_isos 11) (@rev _) RAdd u_gs true 2 ex_net (proj1 C06_hyps)
  ltac:(discriminate) Z.eqb_eq ltac:(apply Forall_forall; intros g H; split; [apply u_clique; auto|apply u_ring; auto]).
Example C64_features_example :
  match compute_clique_complex Zops (any_lib true) RAdd (g_x u_sq) (g_edges u_sq) 4 2 None false,
    compute_ring_2complex Zops Z.eqb (any_lib false) (ref_isos 4) (@rev _) RAdd (g_x u_sq) (g_edges u_sq) None 4 None 3 false true true with
  | Ok K, Ok K' => map (fun c => content (c_x c)) (k_cochains K) = [[8; 9; 8; 9]; [18; 17; 17; 17; 17]; [26; 26]]%Z /\
      map (fun c => content (c_x c)) (k_cochains K') = [[8; 9; 8; 9]; [17; 17; 17; 17; 18]; [26; 26]]%Z
  | _, _ => False
  end.
Proof. vm_compute. split; reflexivity. Qed.

(** With rings of four nodes or with cliques of four nodes the liftings differ: in a square without diagonals
    only the ring lifting has a cell of dimension two. *)
Definition u_square : list (nat * nat) := [(0, 1); (1, 2); (2, 3); (3, 0)].
Theorem C64_larger_refuted :
  match compute_clique_complex Zops (any_lib true) RAdd [1; 1; 1; 1]%Z u_square 4 2 None false,
    compute_ring_2complex Zops Z.eqb (any_lib true) (ref_isos 4) (@rev _) RAdd [1; 1; 1; 1]%Z u_square None 4 None 4 false true true with
  | Ok K, Ok K' => k_dim K = 1 /\ k_dim K' = 2
  | _, _ => False
  end.
Proof. vm_compute. split; reflexivity. Qed.

Print Assumptions C63_clique_union.
Print Assumptions C63_ring_union.
Print Assumptions C63_clique_predict.
Print Assumptions C63_ring_predict.
Print Assumptions C64_triangles.
Print Assumptions C64_predict.
Print Assumptions C64_larger_refuted.
