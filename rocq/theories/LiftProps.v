(** Clique lifting: C11-C16, C18. *)
From Coq Require Import List Arith Lia ZArith Bool Permutation.
From Verif Require Import Base ScatterModel ScatterSpec ScatterProofs ComplexModel BatchSpec BatchSpec2 BatchProofs
  LiftModel LiftSpec LiftBase LiftProofs LiftClique LiftTables LiftCliqueProps.
Import ListNotations.

(** The relation recorded by triples is symmetric and without self-loops. *)
Definition symmetric_triples (l : list ((nat * nat) * nat)) : Prop :=
  forall a b t, In ((a, b), t) l -> a <> b /\ In ((b, a), t) l.

Section Props.
Context {V : Type} (o : ops V).

(** Inputs of compute_clique_complex_with_gudhi: a non-empty graph (self-loops and repeated
    columns allowed) with a feature row per node, a label vector of admissible length, and any
    enumeration by gudhi. *)
Record clique_input (lib : list (list nat) -> simplex_tree) (x : list V) (edges : list (nat * nat))
    (size k : nat) (y : option (list Z)) : Prop := {
  ci_graph : graph_ok edges size;
  ci_nodes : 0 < size;
  ci_x : length x = size;
  ci_y : label_ok y size;
  ci_lib : let t := expansion k (pyg_to_simplex_tree edges size) in
           enumerates t (st_simplices (lib t)) (st_cofaces (lib t))
}.

Section Given.
Variables (lib : list (list nat) -> simplex_tree) (r : reduce) (x : list V)
  (edges : list (nat * nat)) (size k : nat) (y : option (list Z)) (down : bool).
Hypothesis HI : clique_input lib x edges size k y.

Notation lifted := (compute_clique_complex o lib r x edges size k y down).
Notation cells := (cells_of lib edges size k).

Lemma given : exists K, lifted = Ok K /\
    has_cells cells down (lift_x o lib r x edges size k) K /\
    (forall d, d <= k_dim K <-> cells d <> []) /\
    match y with
    | None => k_y K = None /\ forall d c, nth_error (k_cochains K) d = Some c -> c_y c = None
    | Some l =>
        if length l =? 1 then k_y K = Some l /\ forall d c, nth_error (k_cochains K) d = Some c -> c_y c = None
        else k_y K = None /\ forall d c, nth_error (k_cochains K) d = Some c -> c_y c = if d =? 0 then Some l else None
    end.
Proof. destruct HI. apply clique_lift; auto. Qed.
Lemma given_cells : clique_cells edges size k cells.
Proof. destruct HI. apply cells_clique; auto. Qed.
Lemma given_inv K : lifted = Ok K -> has_cells cells down (lift_x o lib r x edges size k) K.
Proof. intros E. destruct given as (K' & E' & H & _). congruence. Qed.

(** C11: one cell per clique, identified by 0..n-1, vertex [v] being 0-cell [v]; the dimension of
    the complex is the largest for which there is a clique. *)
Theorem C11_clique_cells :
  exists K cells, lifted = Ok K /\ clique_cells edges size k cells /\
    (forall d, d <= k_dim K <-> cells d <> []) /\
    length (k_cochains K) = k_dim K + 1 /\
    (forall d c, nth_error (k_cochains K) d = Some c ->
       exists rows, c_x c = Some rows /\ length rows = length (cells d)) /\
    (forall d s, clique edges size s -> length s = d + 1 -> d <= Nat.max 1 k ->
       exists i t, names cells d i t /\ same_set s t /\
         forall j t', names cells d j t' -> same_set s t' -> j = i).
Proof.
  destruct given as (K & E & HC & HD & _). pose proof given_cells as CC. exists K, cells. split; auto. split; auto. split; auto.
  split; [apply (wfk_len _ _ (hc_wf _ _ _ _ HC))|]. split.
  - intros d c Hc. rewrite (hc_x _ _ _ _ HC d c Hc). unfold lift_x. eexists. split; [reflexivity|].
    destruct (Nat.eqb_spec d 0) as [->|]; [|apply map_length].
    destruct HI. unfold cells_of, level. simpl. rewrite singles_length. auto.
  - intros d s Hs Hl Hk. set (t := sort Nat.leb s).
    assert (HSt : same_set s t) by (intros v; unfold t; rewrite sort_In; tauto).
    assert (Hin : In t (cells d)).
    { apply (cc_iff _ _ _ _ CC). destruct Hs as (C1 & C2 & C3 & C4).
      assert (L : length t = length s) by (symmetry; apply Permutation_length, sort_perm).
      split; [|split; [apply sorted_increasing, sort_sorted; auto|split; [lia|auto]]].
      split; [intros E0; rewrite E0 in L; destruct s; [congruence|discriminate]|].
      split; [eapply Permutation_NoDup; [apply sort_perm|auto]|]. split.
      - intros v Hv. apply C3, HSt; auto.
      - intros u v Hu Hv. apply C4; apply HSt; auto. }
    apply In_nth_error in Hin as [i Hi]. exists i, t. split; auto. split; auto.
    intros j t' Hj HS'. eapply (cc_once _ _ _ _ CC d j i t' t); auto.
    intros v. rewrite <- (HS' v), (HSt v). tauto.
Qed.

(** C12: the boundary pairs are exactly the codimension-1 faces, once each, grouped by cell; every
    cell of dimension [d+1] has [d+2] of them. *)
Theorem C12_boundary : forall K, lifted = Ok K -> exists cells, clique_cells edges size k cells /\
  (forall c, nth_error (k_cochains K) 0 = Some c -> c_bidx c = None) /\
  forall d c, nth_error (k_cochains K) (S d) = Some c ->
    boundary_exact cells d c /\
    forall t, t < length (cells (S d)) -> length (filter (fun p => snd p =? t) (content (c_bidx c))) = d + 2.
Proof.
  intros K E. pose proof (given_inv K E) as HC. pose proof given_cells as CC. exists cells. split; auto.
  split; [intros c Hc; apply (hc_bnd0 _ _ _ _ HC c Hc)|]. intros d c Hc.
  pose proof (hc_bnd _ _ _ _ HC d c Hc) as HB. split; auto. intros t Ht.
  destruct (nth_error (cells (S d)) t) as [s|] eqn:Es; [|apply nth_error_None in Es; lia].
  set (L := filter (fun p => snd p =? t) (content (c_bidx c))).
  assert (HL : forall f, In (f, t) L <-> exists sf, names cells d f sf /\ incl sf s).
  { intros f. unfold L. rewrite filter_In. cbn [snd]. rewrite Nat.eqb_refl. rewrite (be_iff _ _ _ HB). split.
    - intros [(sf & sc & N1 & N2 & N3) _]. unfold names in N2. rewrite Es in N2. inversion N2; subst. eauto.
    - intros (sf & N1 & N2). split; auto. exists sf, s. auto. }
  assert (HLt : forall p, In p L -> snd p = t) by (intros p Hp; apply filter_In in Hp as [_ Hp]; apply Nat.eqb_eq; auto).
  assert (HN : NoDup L) by (apply NoDup_filter, (be_once _ _ _ HB)).
  set (g := fun p : nat * nat => nth (fst p) (cells d) []).
  assert (Hs : In s (cells (S d))) by (eapply nth_error_In; eauto).
  apply (cc_iff _ _ _ _ CC) in Hs as (C & Hinc & Hlen & Hk). apply increasing_sorted in Hinc.
  assert (P : Permutation (map g L) (combs (d + 1) s)).
  { apply NoDup_Permutation.
    - apply NoDup_map_inj; auto. intros p q Hp Hq Epq. destruct p as [f t1], q as [f' t2].
      pose proof (HLt _ Hp) as E1. pose proof (HLt _ Hq) as E2. cbn in E1, E2. subst t1 t2.
      apply HL in Hp as (sf & N1 & _), Hq as (sf' & N2 & _). unfold g in Epq. cbn [fst] in Epq.
      unfold names in *. rewrite (nth_error_nth _ _ _ N1), (nth_error_nth _ _ _ N2) in Epq. subst sf'.
      f_equal. eapply (cc_once _ _ _ _ CC d f f' sf sf); auto. intros v; tauto.
    - apply combs_NoDup, sorted_NoDup; auto.
    - intros f. rewrite combs_sorted by auto. rewrite in_map_iff. split.
      + intros ((i & t1) & <- & Hp). pose proof (HLt _ Hp) as E1. cbn in E1. subst t1. apply HL in Hp as (sf & N1 & N2).
        unfold g. cbn [fst]. unfold names in N1. rewrite (nth_error_nth _ _ _ N1).
        apply nth_error_In in N1. apply (cc_iff _ _ _ _ CC) in N1 as (_ & I & Hl & _).
        split; auto. split; auto. apply increasing_sorted; auto.
      + intros (L1 & L2 & L3).
        assert (Hf : In f (cells d)).
        { apply (cc_iff _ _ _ _ CC). destruct C as (C1 & C2 & C3 & C4).
          split; [|split; [apply sorted_increasing; auto|split; [auto|lia]]].
          split; [destruct f; [simpl in L1; lia|discriminate]|]. split; [apply sorted_NoDup; auto|]. split; auto. }
        apply In_nth_error in Hf as [i Hi]. exists (i, t). split.
        * unfold g. cbn [fst]. apply nth_error_nth; auto.
        * apply HL. exists f. auto. }
  apply Permutation_length in P. rewrite map_length in P. fold L. rewrite P.
  replace (d + 1) with (length s - 1) by lia. rewrite combs_length; [lia|]. destruct s; [simpl in Hlen; lia|discriminate].
Qed.

(** C13 *)
Theorem C13_upper_clique : forall K, lifted = Ok K -> exists cells, clique_cells edges size k cells /\
  forall d c, nth_error (k_cochains K) d = Some c ->
    upper_exact cells d c /\ symmetric_triples (triples (c_upper c) (c_shc c)).
Proof.
  intros K E. pose proof (given_inv K E) as HC. exists cells. split; [apply given_cells|]. intros d c Hc.
  pose proof (hc_up _ _ _ _ HC d c Hc) as U. split; auto. intros a b t Ht. rewrite (ue_iff _ _ _ U) in *. intuition.
Qed.

(** C14 *)
Theorem C14_lower_clique : forall K, lifted = Ok K -> exists cells, clique_cells edges size k cells /\
  (forall c, nth_error (k_cochains K) 0 = Some c -> c_lower c = None /\ c_shb c = None) /\
  forall d c, nth_error (k_cochains K) (S d) = Some c ->
    if down then lower_exact cells d c /\ symmetric_triples (triples (c_lower c) (c_shb c))
    else c_lower c = None /\ c_shb c = None.
Proof.
  intros K E. pose proof (given_inv K E) as HC. exists cells. split; [apply given_cells|].
  split; [intros c Hc; apply (hc_bnd0 _ _ _ _ HC c Hc)|]. intros d c Hc.
  pose proof (hc_low _ _ _ _ HC d c Hc) as U. destruct down; auto. split; auto.
  intros a b t Ht. rewrite (le_iff _ _ _ U) in *. intuition.
Qed.

(** C15: no assertion or lookup fails, and the result is a well-formed complex with cells in every
    dimension. *)
Theorem C15_clique_lifting_succeeds_partial : exists K sz, lifted = Ok K /\ wf_complex K sz /\
  sz 0 = size /\ forall d, d <= k_dim K -> 0 < sz d.
Proof.
  destruct given as (K & E & HC & HD & _). exists K, (fun d => length (cells d)). split; auto.
  split; [apply (hc_wf _ _ _ _ HC)|]. split.
  - unfold cells_of, level. simpl. apply singles_length.
  - intros d Hd. apply HD in Hd. destruct (cells d); [congruence|simpl; lia].
Qed.

(** C16 *)
Theorem C16_clique_features : forall K, lifted = Ok K -> exists cells, clique_cells edges size k cells /\
  (forall c, nth_error (k_cochains K) 0 = Some c -> c_x c = Some x) /\
  forall d c, nth_error (k_cochains K) (S d) = Some c ->
    exists rows, c_x c = Some rows /\ length rows = length (cells (S d)) /\
    forall i s, names cells (S d) i s ->
      nth_error rows i = Some (reduce_rows o r (map (fun v => nth v x (vzero o)) s)).
Proof.
  intros K E. pose proof (given_inv K E) as HC. exists cells. split; [apply given_cells|]. split.
  - intros c Hc. apply (hc_x _ _ _ _ HC 0 c Hc).
  - intros d c Hc. rewrite (hc_x _ _ _ _ HC (S d) c Hc). unfold lift_x. cbn [Nat.eqb]. eexists. split; [reflexivity|].
    split; [apply map_length|]. intros i s Hi. unfold names in Hi. rewrite nth_error_map, Hi. reflexivity.
Qed.

(** C18 *)
Theorem C18_lifted_labels_partial : forall K, lifted = Ok K ->
  match y with
  | None => k_y K = None /\ forall d c, nth_error (k_cochains K) d = Some c -> c_y c = None
  | Some l =>
      (length l = 1 -> k_y K = Some l /\ forall d c, nth_error (k_cochains K) d = Some c -> c_y c = None) /\
      (length l = size -> size <> 1 -> k_y K = None /\
         forall d c, nth_error (k_cochains K) d = Some c -> c_y c = if d =? 0 then Some l else None)
  end.
Proof.
  intros K E. destruct given as (K' & E' & _ & _ & HL). replace K' with K in * by congruence.
  destruct y as [l|]; auto. destruct (Nat.eqb_spec (length l) 1).
  - split; auto. intros. congruence.
  - split; auto. intros. congruence.
Qed.
End Given.

(** C18: exactly the label vectors of length 1 or [size] are accepted. *)
Theorem C18_extract_labels_partial l size :
  extract_labels (Some l) size =
    if length l =? 1 then Ok (None, Some l)
    else if length l =? size then Ok (Some l, None) else Err AssertionError.
Proof. simpl. destruct (length l =? 1); auto. destruct (length l =? size); auto. Qed.

(** In particular a bad label vector makes lifting fail. *)
Theorem C18_bad_labels_rejected lib r x edges size k l down :
  clique_input lib x edges size k None -> length l <> 1 -> length l <> size ->
  compute_clique_complex o lib r x edges size k (Some l) down = Err AssertionError.
Proof.
  intros HI N1 N2. destruct (given lib r x edges size k None down HI) as (K & E & _).
  unfold compute_clique_complex in *.
  do 4 (apply bind_ok in E as (? & E0 & E); rewrite E0; cbn [bind]; clear E0).
  unfold extract_labels. destruct (Nat.eqb_spec (length l) 1); [lia|]. destruct (Nat.eqb_spec (length l) size); [lia|]. reflexivity.
Qed.
End Props.

(** C18: a node label of a graph with a single node ends up on the complex, not on the node. *)
Theorem C18_single_node_refuted :
  exists (l : list Z) (size : nat), length l = size /\ 0 < size /\
    extract_labels (Some l) size = Ok (None, Some l).
Proof. exists [7%Z], 1. auto. Qed.

(** C15: the graph without nodes cannot be lifted, whatever gudhi does. *)
Theorem C15_empty_graph_refuted (lib : list (list nat) -> simplex_tree) r k y down :
  enumerates [] (st_simplices (lib [])) (st_cofaces (lib [])) ->
  compute_clique_complex Zops lib r [] [] 0 k y down = Err IndexError.
Proof.
  intros (_ & H & _). unfold compute_clique_complex.
  assert (E : expansion k (pyg_to_simplex_tree [] 0) = []).
  { unfold expansion. simpl. generalize (k - 1) as m. induction m; simpl; auto. }
  rewrite E. unfold build_tables, st_levels. destruct (st_simplices (lib [])) as [|s l] eqn:ES; [reflexivity|].
  destruct (proj1 (H s) (or_introl eq_refl)).
Qed.

(** ** Examples *)
(** An enumeration gudhi may use. *)
Definition inclb (a b : list nat) : bool := forallb (fun v => if in_dec Nat.eq_dec v b then true else false) a.
Definition ref_lib (rev_ : bool) (l : list (list nat)) : simplex_tree :=
  let l := if rev_ then rev l else l in
  mkST l (fun s => filter (fun c => (length c =? S (length s)) && inclb s c) l).
Lemma ref_lib_ok b l : NoDup l -> enumerates l (st_simplices (ref_lib b l)) (st_cofaces (ref_lib b l)).
Proof.
  intros HN. unfold ref_lib. cbn [st_simplices st_cofaces].
  set (l' := if b then rev l else l).
  assert (N' : NoDup l') by (unfold l'; destruct b; auto; apply NoDup_rev; auto).
  assert (I' : forall s, In s l' <-> In s l) by (intros s; unfold l'; destruct b; [rewrite <- in_rev|]; tauto).
  split; auto. split; auto. intros s Hs. split; [apply NoDup_filter; auto|].
  intros c. rewrite filter_In, I', andb_true_iff, Nat.eqb_eq. unfold inclb. rewrite forallb_forall. unfold incl.
  split.
  - intros (H1 & H2 & H3). repeat split; auto. intros v Hv. apply H3 in Hv. destruct (in_dec Nat.eq_dec v c); congruence.
  - intros (H1 & H2 & H3). repeat split; auto. intros v Hv. destruct (in_dec Nat.eq_dec v c); auto.
Qed.
Fixpoint nodupb (l : list (list nat)) : bool := match l with [] => true | a :: l' => negb (mem a l') && nodupb l' end.
Lemma nodupb_ok l : nodupb l = true -> NoDup l.
Proof.
  induction l as [|a l IH]; simpl; [constructor|]. intros H. apply andb_true_iff in H as [H1 H2]. constructor; auto.
  intros Hin. apply mem_In in Hin. rewrite Hin in H1. discriminate.
Qed.

(** Two triangles with a common edge, a pendant node and an isolated node; one edge is written
    twice and there is a self-loop. *)
Definition diamond : list (nat * nat) :=
  [(0, 1); (1, 0); (1, 2); (2, 1); (0, 2); (2, 0); (2, 3); (3, 2); (3, 1); (1, 3); (3, 4); (4, 3); (3, 4); (2, 2)].
Definition diamond_x : list Z := [1; 10; 100; 1000; 10000; 7]%Z.

Lemma diamond_ok b k (y : option (list Z)) : (k = 1 \/ k = 2 \/ k = 3) -> label_ok y 6 -> clique_input (ref_lib b) diamond_x diamond 6 k y.
Proof.
  intros Hk Hy. split; auto; [| lia|].
  - intros u v H. unfold diamond in H. repeat (destruct H as [H|H]; [inversion H; subst; lia|]). destruct H.
  - cbv zeta. apply ref_lib_ok. apply nodupb_ok. destruct Hk as [->|[->| ->]]; vm_compute; reflexivity.
Qed.

Example diamond_lift : exists K, compute_clique_complex Zops (ref_lib true) RAdd diamond_x diamond 6 2 (Some [5%Z]) true = Ok K /\
  k_dim K = 2 /\ k_y K = Some [5%Z] /\
  map (fun c => c_x c) (k_cochains K) = [Some diamond_x; Some [11000; 1010; 1100; 101; 110; 11]%Z; Some [1110; 111]%Z] /\
  map (fun c => content (c_bidx c)) (k_cochains K) =
    [[]; [(3, 0); (4, 0); (1, 1); (3, 1); (2, 2); (3, 2); (0, 3); (2, 3); (1, 4); (2, 4); (0, 5); (1, 5)];
     [(4, 0); (1, 0); (2, 0); (5, 1); (3, 1); (4, 1)]] /\
  map (fun c => triples (c_upper c) (c_shc c)) (tl (k_cochains K)) =
    [[((1, 2), 0); ((2, 1), 0); ((1, 4), 0); ((4, 1), 0); ((2, 4), 0); ((4, 2), 0);
      ((3, 4), 1); ((4, 3), 1); ((3, 5), 1); ((5, 3), 1); ((4, 5), 1); ((5, 4), 1)]; []] /\
  map (fun c => triples (c_lower c) (c_shb c)) (skipn 2 (k_cochains K)) = [[((0, 1), 4); ((1, 0), 4)]].
Proof. eexists. vm_compute. repeat split; reflexivity. Qed.

Example C11_example := C11_clique_cells Zops (ref_lib true) RAdd diamond_x diamond 6 2 (Some [5%Z]) true
  (diamond_ok true 2 (Some [5%Z]) (or_intror (or_introl eq_refl)) (or_introl eq_refl)).
Example C12_example := C12_boundary Zops (ref_lib false) RMax diamond_x diamond 6 2 None true
  (diamond_ok false 2 None (or_intror (or_introl eq_refl)) I).
Example C13_example := C13_upper_clique Zops (ref_lib true) RAdd diamond_x diamond 6 1 None true
  (diamond_ok true 1 None (or_introl eq_refl) I).
Example C14_example := C14_lower_clique Zops (ref_lib true) RAdd diamond_x diamond 6 3 None true
  (diamond_ok true 3 None (or_intror (or_intror eq_refl)) I).
Example C15_example := C15_clique_lifting_succeeds_partial Zops (ref_lib true) RMean diamond_x diamond 6 3 None false
  (diamond_ok true 3 None (or_intror (or_intror eq_refl)) I).
Example C16_example := C16_clique_features Zops (ref_lib true) RMean diamond_x diamond 6 3 None false
  (diamond_ok true 3 None (or_intror (or_intror eq_refl)) I).
Example C18_example : exists K, compute_clique_complex Zops (ref_lib true) RAdd diamond_x diamond 6 2 (Some [1;2;3;4;5;6]%Z) false = Ok K /\
  k_y K = None /\ map (fun c => c_y c) (k_cochains K) = [Some [1;2;3;4;5;6]%Z; None; None].
Proof. eexists. vm_compute. auto. Qed.
Example C18_example_rejected : compute_clique_complex Zops (ref_lib true) RAdd diamond_x diamond 6 2 (Some [1;2;3]%Z) false = Err AssertionError.
Proof. apply C18_bad_labels_rejected; simpl; try lia. apply diamond_ok; simpl; auto. Qed.

Print Assumptions C11_clique_cells.
Print Assumptions C12_boundary.
Print Assumptions C13_upper_clique.
Print Assumptions C14_lower_clique.
Print Assumptions C15_clique_lifting_succeeds_partial.
Print Assumptions C15_empty_graph_refuted.
Print Assumptions C16_clique_features.
Print Assumptions C18_lifted_labels_partial.
Print Assumptions C18_extract_labels_partial.
Print Assumptions C18_bad_labels_rejected.
Print Assumptions C18_single_node_refuted.
