(** Lifting with rings: closed forms of get_rings, the ring tables and the edge features. *)
From Coq Require Import List Arith Lia ZArith Bool Permutation Sorted.
From Verif Require Import Base ScatterModel ScatterSpec ScatterProofs ComplexModel BatchSpec BatchSpec2 BatchProofs
  LiftModel LiftSpec LiftBase LiftProofs LiftClique LiftTables LiftCliqueProps.
Import ListNotations.

(** ** get_rings *)
Lemma ring_fold l : forall R, NoDup (map (sort Nat.leb) R) ->
  exists R', fold_left ring_step l (R, map (sort Nat.leb) R) = (R', map (sort Nat.leb) R') /\
    NoDup (map (sort Nat.leb) R') /\ (forall c, In c R' -> In c R \/ In c l) /\
    (forall c, In c R \/ In c l -> In (sort Nat.leb c) (map (sort Nat.leb) R')).
Proof.
  induction l as [|c l IH]; intros R HN; cbn [fold_left].
  - exists R. split; auto. split; auto. split; auto. intros c [H|[]]. apply in_map; auto.
  - unfold ring_step at 2. cbn [fst snd]. destruct (mem (sort Nat.leb c) (map (sort Nat.leb) R)) eqn:E.
    + destruct (IH R HN) as (R' & E1 & E2 & E3 & E4). exists R'. split; auto. split; auto. split.
      * intros t Ht. apply E3 in Ht as [H|H]; auto. right; right; auto.
      * intros t [Ht|[<-|Ht]]; auto. apply mem_In in E. apply in_map_iff in E as (t & <- & Ht). auto.
    + assert (HN' : NoDup (map (sort Nat.leb) (R ++ [c]))).
      { rewrite map_app. apply NoDup_app; auto; [repeat constructor; simpl; tauto|].
        intros t Ht [<-|[]]. apply mem_In in Ht. congruence. }
      destruct (IH (R ++ [c]) HN') as (R' & E1 & E2 & E3 & E4). exists R'.
      rewrite map_app in E1. split; [exact E1|]. split; auto. split.
      * intros t Ht. apply E3 in Ht as [H|H]; [|right; right; auto].
        apply in_app_iff in H as [H|[H|[]]]; auto. right; left; auto.
      * intros t Ht. apply E4. rewrite in_app_iff. destruct Ht as [Ht|[Ht|Ht]]; auto. left; right; left; auto.
Qed.

Lemma fold_flat {A B C} (f : A -> B -> A) (g : C -> list B) l : forall a,
  fold_left (fun a c => fold_left f (g c) a) l a = fold_left f (flat_map g l) a.
Proof. induction l as [|c l IH]; intros a; simpl; auto. rewrite fold_left_app. auto. Qed.

Lemma sort_same a b : sort Nat.leb a = sort Nat.leb b -> same_set a b.
Proof. intros E v. rewrite <- (sort_In a), <- (sort_In b), E. tauto. Qed.
Lemma same_sort a b : NoDup a -> NoDup b -> same_set a b -> sort Nat.leb a = sort Nat.leb b.
Proof.
  intros Ha Hb H. apply sorted_ext; try (apply sort_sorted; auto). intros v. rewrite !sort_In. auto.
Qed.

Lemma get_rings_ok edges isos set_order max_k :
  (forall k, 3 <= k <= max_k -> finds_cycles edges k (isos k)) ->
  (forall l : list (list nat), NoDup l -> Permutation (set_order l) l) ->
  let R := get_rings isos set_order max_k in
  NoDup (map (sort Nat.leb) R) /\
  (forall c, In c R -> induced_cycle edges c /\ 3 <= length c <= max_k) /\
  (forall c, induced_cycle edges c -> length c <= max_k -> exists c', In c' R /\ same_set c c').
Proof.
  intros HF HO. cbv zeta. unfold get_rings. rewrite fold_flat.
  destruct (ring_fold (flat_map isos (seq 3 (max_k - 2))) [] (NoDup_nil _)) as (R & E1 & E2 & E3 & E4).
  cbn [map] in E1. rewrite E1. cbn [fst].
  assert (HNR : NoDup R) by (eapply NoDup_map_inv; eauto).
  pose proof (HO R HNR) as HP.
  assert (Hin : forall c, In c (set_order R) <-> In c R).
  { intros c. split; apply Permutation_in; auto. apply Permutation_sym; auto. }
  split; [eapply Permutation_NoDup; [apply Permutation_map, Permutation_sym, HP|auto]|]. split.
  - intros c Hc. apply Hin in Hc. apply E3 in Hc as [[]|Hc]. apply in_flat_map in Hc as (k & Hk & Hc).
    apply in_seq in Hk. destruct (HF k ltac:(lia)) as [F1 _]. apply F1 in Hc as [H1 H2]. split; auto. lia.
  - intros c Hc Hl. assert (H3 : 3 <= length c) by apply Hc. destruct (HF (length c) ltac:(lia)) as [_ F2].
    destruct (F2 c Hc eq_refl) as (c' & H1 & H2).
    assert (Hs : In (sort Nat.leb c') (map (sort Nat.leb) R)).
    { apply E4. right. apply in_flat_map. exists (length c). split; auto. apply in_seq. lia. }
    apply in_map_iff in Hs as (c'' & Es & Hc''). exists c''. split; [apply Hin; auto|].
    apply sort_same in Es. intros v. rewrite (H2 v), (Es v). tauto.
Qed.

(** ** Boundaries of a ring *)
Definition nxt (k i : nat) : nat := if i + 1 =? k then 0 else i + 1.
Definition raw_edges (c : list nat) : list (list nat) :=
  map (fun i => sort Nat.leb [nth i c 0; nth (nxt (length c) i) c 0]) (seq 0 (length c)).
Definition redges (c : list nat) : list (list nat) := sort lex_leb (raw_edges c).

Lemma nxt_lt k i : i < k -> nxt k i < k.
Proof. intros H. unfold nxt. destruct (Nat.eqb_spec (i + 1) k); lia. Qed.
Lemma nxt_mod k i : i < k -> nxt k i = (i + 1) mod k.
Proof.
  intros H. unfold nxt. destruct (Nat.eqb_spec (i + 1) k) as [->|]; [rewrite Nat.mod_same; lia|rewrite Nat.mod_small; lia].
Qed.

Lemma get_ring_boundaries_ok c : get_ring_boundaries c = Ok (redges c).
Proof.
  unfold get_ring_boundaries.
  assert (E : mapM (fun n => let* a := get c n in let* b := get c (if n + 1 =? length c then 0 else n + 1) in
      Ok (sort Nat.leb [a; b])) (seq 0 (length c)) = Ok (raw_edges c)).
  { apply mapM_map. intros i Hi. apply in_seq in Hi.
    rewrite (proj2 (get_ok c i (nth i c 0))) by (apply nth_error_nth'; lia). cbn [bind].
    fold (nxt (length c) i). pose proof (nxt_lt (length c) i ltac:(lia)).
    rewrite (proj2 (get_ok c (nxt (length c) i) (nth (nxt (length c) i) c 0))) by (apply nth_error_nth'; lia). reflexivity. }
  rewrite E. reflexivity.
Qed.

Lemma sort_2 a b : a <> b -> sort Nat.leb [a; b] = [Nat.min a b; Nat.max a b].
Proof.
  intros H. simpl. destruct (Nat.leb_spec a b).
  - rewrite Nat.min_l, Nat.max_r by lia. auto.
  - rewrite Nat.min_r, Nat.max_l by lia. auto.
Qed.
Lemma sort_2_eq a b u v : u < v -> a <> b -> (sort Nat.leb [a; b] = [u; v] <-> (a = u /\ b = v) \/ (a = v /\ b = u)).
Proof.
  intros H1 H2. rewrite sort_2 by auto. split.
  - intros E. inversion E. lia.
  - intros [[-> ->]|[-> ->]]; f_equal; [|f_equal| |f_equal]; lia.
Qed.

Section Ring.
Variable edges : list (nat * nat).
Variable c : list nat.
Hypothesis Hc : induced_cycle edges c.

Let k := length c.
Let at_ i := nth i c 0.

Lemma at_nth i : i < k -> nth_error c i = Some (at_ i).
Proof. intros H. apply nth_error_nth'. auto. Qed.
Lemma at_inj i j : i < k -> j < k -> at_ i = at_ j -> i = j.
Proof.
  intros Hi Hj E. destruct Hc as (_ & HN & _). apply (proj1 (NoDup_nth_error c) HN); auto.
  rewrite !at_nth by auto. congruence.
Qed.
Lemma k3 : 3 <= k.
Proof. apply Hc. Qed.
Lemma nxt_neq i : i < k -> nxt k i <> i.
Proof. pose proof k3. unfold nxt. destruct (Nat.eqb_spec (i + 1) k); lia. Qed.
Lemma at_next i : i < k -> at_ i <> at_ (nxt k i).
Proof. intros Hi E. apply at_inj in E; auto using nxt_lt. apply (nxt_neq i); auto. Qed.

Lemma adj_iff i j : i < k -> j < k -> (adjacent edges (at_ i) (at_ j) <-> j = nxt k i \/ i = nxt k j).
Proof.
  intros Hi Hj. destruct Hc as (_ & _ & H). rewrite (H i j) by (apply at_nth; auto). unfold next_to. fold k.
  rewrite <- !nxt_mod by auto. split; [tauto|]. intros E. split; auto.
  destruct E as [->| ->]; [apply not_eq_sym|]; apply nxt_neq; auto.
Qed.

Lemma raw_In f : In f (raw_edges c) <-> exists u v, u < v /\ f = [u; v] /\ adjacent edges u v /\ In u c /\ In v c.
Proof.
  unfold raw_edges. fold k. rewrite in_map_iff. split.
  - intros (i & <- & Hi). apply in_seq in Hi. fold (at_ i). fold (at_ (nxt k i)).
    pose proof (at_next i ltac:(lia)) as Hne. pose proof (nxt_lt k i ltac:(lia)) as Hn.
    assert (HA : adjacent edges (at_ i) (at_ (nxt k i))) by (apply adj_iff; auto; lia).
    assert (I1 : In (at_ i) c) by (apply nth_In; fold k; lia).
    assert (I2 : In (at_ (nxt k i)) c) by (apply nth_In; fold k; lia).
    rewrite sort_2 by auto. exists (Nat.min (at_ i) (at_ (nxt k i))), (Nat.max (at_ i) (at_ (nxt k i))).
    split; [lia|]. split; auto. destruct (Nat.le_ge_cases (at_ i) (at_ (nxt k i))).
    + rewrite Nat.min_l, Nat.max_r by lia. auto.
    + rewrite Nat.min_r, Nat.max_l by lia. split; auto. destruct HA as [N1 N2]. split; auto. tauto.
  - intros (u & v & Hlt & -> & HA & Hu & Hv).
    apply In_nth_error in Hu as [i Hi], Hv as [j Hj].
    assert (Hik : i < k) by (apply nth_error_Some; congruence). assert (Hjk : j < k) by (apply nth_error_Some; congruence).
    assert (Ei : at_ i = u) by (rewrite at_nth in Hi by auto; congruence).
    assert (Ej : at_ j = v) by (rewrite at_nth in Hj by auto; congruence).
    rewrite <- Ei, <- Ej in HA. apply adj_iff in HA; auto. destruct HA as [E|E].
    + exists i. split; [|apply in_seq; lia]. fold (at_ i). rewrite <- E. fold (at_ j).
      apply sort_2_eq; auto. rewrite E. apply at_next; auto.
    + exists j. split; [|apply in_seq; lia]. fold (at_ j). rewrite <- E. fold (at_ i).
      apply sort_2_eq; auto. rewrite E. apply at_next; auto.
Qed.

Lemma raw_NoDup : NoDup (raw_edges c).
Proof.
  unfold raw_edges. fold k. apply NoDup_map_inj; [|apply seq_NoDup]. intros i j Hi Hj E.
  apply in_seq in Hi, Hj. fold (at_ i) in E. fold (at_ j) in E. fold (at_ (nxt k i)) in E. fold (at_ (nxt k j)) in E.
  pose proof (at_next i ltac:(lia)) as N1. pose proof (at_next j ltac:(lia)) as N2.
  rewrite (sort_2 _ _ N2) in E. apply sort_2_eq in E; auto; [|lia].
  pose proof (nxt_lt k i ltac:(lia)). pose proof (nxt_lt k j ltac:(lia)). pose proof k3.
  assert (G : (at_ i = at_ j /\ at_ (nxt k i) = at_ (nxt k j)) \/ (at_ i = at_ (nxt k j) /\ at_ (nxt k i) = at_ j)) by lia.
  destruct G as [[G _]|[G1 G2]]; [apply at_inj in G; auto; lia|].
  apply at_inj in G1; [|lia|lia]. apply at_inj in G2; [|lia|lia].
  exfalso. rewrite G1 in G2. unfold nxt in G2. 
  destruct (Nat.eqb_spec (j + 1) k); [destruct (Nat.eqb_spec (0 + 1) k); lia|destruct (Nat.eqb_spec (j + 1 + 1) k); lia].
Qed.

Lemma redges_perm : Permutation (raw_edges c) (redges c).
Proof. apply sort_perm. Qed.
Lemma redges_NoDup : NoDup (redges c).
Proof. eapply Permutation_NoDup; [apply redges_perm|apply raw_NoDup]. Qed.
Lemma redges_length : length (redges c) = length c.
Proof.
  rewrite <- (Permutation_length redges_perm). unfold raw_edges. rewrite map_length, seq_length. auto.
Qed.
Lemma redges_In f : In f (redges c) <-> exists u v, u < v /\ f = [u; v] /\ adjacent edges u v /\ In u c /\ In v c.
Proof.
  rewrite <- raw_In. split; apply Permutation_in; [apply Permutation_sym|]; apply redges_perm.
Qed.
End Ring.

(** ** Tables with rings *)
Lemma upd_last {A} (l : list A) a f : upd (l ++ [a]) (length (l ++ [a]) - 1) f = Ok (l ++ [f a]).
Proof.
  destruct (upd_ok (l ++ [a]) (length (l ++ [a]) - 1) f) as (r & E & Hl & Hn).
  { rewrite app_length. simpl. lia. }
  rewrite E. f_equal. rewrite app_length in Hn, Hl. simpl in Hn, Hl. rewrite Nat.add_sub in Hn.
  apply nth_error_ext. 
  - intros i. rewrite Hn. destruct (Nat.eqb_spec i (length l)) as [->|Hne].
    + rewrite !nth_error_app2, Nat.sub_diag by lia. reflexivity.
    + destruct (Nat.lt_ge_cases i (length l)).
      * rewrite !nth_error_app1 by auto. auto.
      * rewrite !nth_error_app2 by lia. destruct (i - length l) as [|[|m]] eqn:E'; auto. lia.
Qed.

Lemma filter_none {A} (f : A -> bool) l : (forall a, In a l -> f a = false) -> filter f l = [].
Proof. induction l as [|a l IH]; simpl; intros H; auto. rewrite (H a); auto. Qed.
Lemma repd_app {A} m (l : list (dict A)) D : repd m l D -> repd (m + 1) (l ++ [[]]) (fun d c => if d =? m then None else D d c).
Proof.
  intros [Hl H]. split; [rewrite app_length, Hl; auto|]. intros d Hd. destruct (Nat.eqb_spec d m) as [->|].
  - exists []. split; auto. rewrite nth_error_app2 by lia. rewrite Hl, Nat.sub_diag. auto.
  - destruct (H d) as (q & Hq & Hc); [lia|]. exists q. split; auto. rewrite nth_error_app1 by lia. auto.
Qed.

Lemma not_nil_In {A} (l : list A) : l <> [] -> exists a, In a l.
Proof. destruct l as [|a l]; [congruence|exists a; left; auto]. Qed.
Lemma In_length {A} (a : A) l : In a l -> 0 < length l.
Proof. destruct l; [intros []|simpl; lia]. Qed.
Lemma expansion_1 t : expansion 1 t = t.
Proof. unfold expansion. simpl. apply app_nil_r. Qed.

Section RingLift.
Variables (lib : list (list nat) -> simplex_tree) (edges : list (nat * nat)) (size : nat).
Let st := lib (pyg_to_simplex_tree edges size).
Hypothesis Hg : graph_ok edges size.
Hypothesis Hlib : enumerates (pyg_to_simplex_tree edges size) (st_simplices st) (st_cofaces st).
Hypothesis Hsize : 0 < size.
Hypothesis Hloops : edges = [] \/ exists u v, adjacent edges u v.

Variable rings : list (list nat).
Hypothesis R_cycle : forall c, In c rings -> induced_cycle edges c.
Hypothesis R_once : NoDup (map (sort Nat.leb) rings).

Let S := st_simplices st.
Let cof := st_cofaces st.
Let n0 := st_levels st.

Lemma Hlib1 : enumerates (expansion 1 (pyg_to_simplex_tree edges size)) (st_simplices st) (st_cofaces st).
Proof. rewrite expansion_1. exact Hlib. Qed.
Lemma RS_iff s : In s S <-> clique edges size s /\ sorted s /\ length s <= 2.
Proof.
  unfold S. destruct Hlib as (_ & H & _). rewrite H. rewrite <- (expansion_1 (pyg_to_simplex_tree edges size)).
  apply clique_simplices; auto.
Qed.
Lemma RS_sorted s : In s S -> sorted s /\ s <> [].
Proof. intros H. apply RS_iff in H as (C & H & _). split; auto. apply C. Qed.
Lemma RS_down s f : In s S -> f <> [] -> incl f s -> sorted f -> In f S.
Proof.
  intros H Hf Hi Hso. apply RS_iff in H as ((C1 & C2 & C3 & C4) & H & HL). apply RS_iff. split; [|split; auto].
  - split; auto. split; [apply sorted_NoDup; auto|]. split; auto.
  - pose proof (NoDup_incl_length (sorted_NoDup f Hso) Hi). lia.
Qed.
Lemma RS_vert v : In [v] S <-> v < size.
Proof.
  rewrite RS_iff. split.
  - intros ((_ & _ & C & _) & _). apply C. left; auto.
  - intros H. split; [|split; [apply sorted_1|cbn [length]; lia]]. split; [discriminate|].
    split; [repeat constructor; simpl; tauto|]. split; [intros w [<-|[]]; auto|]. intros a b [<-|[]] [<-|[]]; congruence.
Qed.
Lemma RS_cof s : In s S -> NoDup (cof s) /\
  forall c, In c (cof s) <-> In c S /\ length c = 1 + length s /\ incl s c.
Proof.
  destruct Hlib as (_ & H & H'). intros Hs. apply H in Hs. destruct (H' s Hs) as [N I]. split; auto.
  intros c. unfold cof, S. rewrite I, H. tauto.
Qed.
Lemma RS_nodup : NoDup S.
Proof. apply Hlib. Qed.
Lemma Rst : st = mkST S cof.
Proof. unfold S, cof. destruct st; auto. Qed.

Lemma edge_adj u v : adjacent edges u v -> u < size /\ v < size.
Proof. intros [_ [H|H]]; apply Hg in H; tauto. Qed.
Lemma edge_In s : In s (level S size 1) <-> exists u v, u < v /\ s = [u; v] /\ adjacent edges u v.
Proof.
  rewrite (level_In S size RS_vert), RS_iff. split.
  - intros (((C1 & C2 & C3 & C4) & HS & _) & E). destruct s as [|u [|v [|w s]]]; try discriminate.
    apply sorted_cons in HS as [_ HS]. specialize (HS v (or_introl eq_refl)). exists u, v. split; auto. split; auto.
    apply C4; [left; auto|right; left; auto|lia].
  - intros (u & v & Hlt & -> & HA). split; auto. pose proof (edge_adj u v HA) as [A1 A2].
    assert (HS : sorted [u; v]) by (apply sorted_2; auto). split; [|split; [auto|auto]].
    split; [discriminate|]. split; [apply sorted_NoDup; auto|]. split.
    + intros x [<-|[<-|[]]]; auto.
    + intros a b [<-|[<-|[]]] [<-|[<-|[]]] Hne; try congruence; auto. destruct HA as [N1 N2]. split; [auto|tauto].
Qed.

Lemma n0_range : 1 <= n0 <= 2.
Proof.
  split.
  - assert (H : In [0] S) by (apply RS_vert; auto). unfold n0. rewrite Rst.
    apply (S_length S cof RS_sorted [0] H).
  - unfold n0, st_levels. fold S. apply list_max_le. apply Forall_forall. intros k Hk.
    apply in_map_iff in Hk as (s & <- & Hs). apply RS_iff in Hs. tauto.
Qed.
Lemma n0_edges : n0 = 2 <-> exists u v, adjacent edges u v.
Proof.
  split.
  - intros E. destruct (level S size 1) as [|s l] eqn:El.
    + exfalso. assert (HF := level_full S cof size RS_sorted RS_down RS_vert 1). rewrite <- Rst in HF. fold n0 in HF.
      apply HF; [lia|auto].
    + assert (H : In s (level S size 1)) by (rewrite El; left; auto). apply edge_In in H as (u & v & _ & _ & H). eauto.
  - intros (u & v & HA).
    assert (HA' : adjacent edges (Nat.min u v) (Nat.max u v)).
    { destruct HA as [N1 N2]. split; [lia|]. destruct (Nat.le_ge_cases u v).
      - rewrite Nat.min_l, Nat.max_r by lia. auto.
      - rewrite Nat.min_r, Nat.max_l by lia. tauto. }
    assert (H : In [Nat.min u v; Nat.max u v] (level S size 1)).
    { apply edge_In. exists (Nat.min u v), (Nat.max u v). split; auto. destruct HA. lia. }
    apply (level_In S size RS_vert) in H as [H _]. pose proof (S_length S cof RS_sorted _ H) as HL. rewrite <- Rst in HL. fold n0 in HL.
    simpl in HL. pose proof n0_range. lia.
Qed.
Lemma n0_loops : n0 = 1 -> edges = [].
Proof. intros E. destruct Hloops as [H|H]; auto. apply n0_edges in H. lia. Qed.
Lemma rings_dec : rings = [] \/ exists c, In c rings.
Proof. destruct rings as [|c l]; [auto|right; exists c; left; auto]. Qed.
Lemma rings_edges : rings <> [] -> n0 = 2.
Proof.
  intros H. destruct (rings_dec) as [E|(c & E)]; [congruence|]. apply n0_edges.
  pose proof (R_cycle c E) as Hc.
  exists (nth 0 c 0), (nth (nxt (length c) 0) c 0). pose proof (k3 edges c Hc).
  apply (adj_iff edges c Hc); [lia|apply nxt_lt; lia|auto].
Qed.

(** *** The tables *)
Definition rcells (d : nat) : list (list nat) := if d <? 2 then level S size d else if d =? 2 then rings else [].
Definition rn : nat := match rings with [] => n0 | _ => 3 end.

Lemma rn_cases : (rings = [] /\ rn = n0) \/ (rings <> [] /\ rn = 3 /\ n0 = 2).
Proof.
  destruct rings_dec as [E|(c & E)].
  - left. split; auto. unfold rn. rewrite E. auto.
  - right. assert (H : rings <> []) by (intros H; rewrite H in E; destruct E). split; auto.
    split; [|apply rings_edges; auto]. unfold rn. destruct rings; [congruence|auto].
Qed.
Lemma rn_pos : 0 < rn.
Proof. pose proof n0_range. destruct rn_cases; lia. Qed.
Lemma rn_n0 : n0 <= rn <= 3.
Proof. pose proof n0_range. destruct rn_cases; lia. Qed.
Lemma rings_nodup : NoDup rings.
Proof. eapply NoDup_map_inv; eauto. Qed.
Lemma rcells_nodup d : NoDup (rcells d).
Proof.
  unfold rcells. destruct (d <? 2); [apply level_nodup, RS_nodup|]. destruct (d =? 2); [apply rings_nodup|constructor].
Qed.
Lemma rcells_full d : d < rn -> rcells d <> [].
Proof.
  intros Hd. unfold rcells. pose proof n0_range.
  pose proof (level_full S cof size RS_sorted RS_down RS_vert d) as HF. rewrite <- Rst in HF. fold n0 in HF.
  destruct rn_cases as [(E1 & E2)|(E1 & E2 & E3)].
  - destruct (Nat.ltb_spec d 2); [apply HF; lia|lia].
  - destruct (Nat.ltb_spec d 2); [apply HF; lia|]. destruct (Nat.eqb_spec d 2); [auto|lia].
Qed.
Lemma rcells_above d : rn <= d -> rcells d = [].
Proof.
  intros Hd. unfold rcells. pose proof n0_range.
  pose proof (level_above S cof size RS_sorted RS_vert d) as HF. rewrite <- Rst in HF. fold n0 in HF.
  destruct rn_cases as [(E1 & E2)|(E1 & E2 & E3)].
  - destruct (Nat.ltb_spec d 2); [apply HF; lia|]. destruct (d =? 2); auto.
  - destruct (Nat.ltb_spec d 2); [lia|]. destruct (Nat.eqb_spec d 2); [lia|auto].
Qed.

Lemma ring_tables_loop : forall P tm Q, rings = Q ++ P ->
  rep 3 (fst tm) (fun d => if d =? 2 then Q else level S size d) ->
  rep 3 (snd tm) (fun d => if d =? 2 then index_map Q else index_map (level S size d)) ->
  exists tm', foldM ring_table_step tm P = Ok tm' /\
    rep 3 (fst tm') (fun d => if d =? 2 then rings else level S size d) /\
    rep 3 (snd tm') (fun d => if d =? 2 then index_map rings else index_map (level S size d)).
Proof.
  induction P as [|c P IH]; intros tm Q E R1 R2.
  - exists tm. rewrite app_nil_r in E. subst Q. auto.
  - cbn [foldM].
    assert (Hnew : ~ In c Q).
    { pose proof rings_nodup as HN. rewrite E in HN. apply NoDup_remove_2 in HN. intros H; apply HN, in_app_iff; auto. }
    destruct (rep_upd 3 _ _ 2 (fun m => dset m c (length Q)) R2) as (m1 & E1 & Q1); [lia|].
    destruct (rep_upd 3 _ _ 2 (fun t => t ++ [c]) R1) as (t1 & E2 & Q2); [lia|].
    assert (ES : ring_table_step tm c = Ok (t1, m1)).
    { unfold ring_table_step. rewrite (rep_get _ _ _ _ R1) by lia. cbn [bind Nat.eqb]. rewrite E1. cbn [bind]. rewrite E2. reflexivity. }
    rewrite ES. cbn [bind]. apply (IH (t1, m1) (Q ++ [c])).
    + rewrite <- app_assoc. auto.
    + eapply rep_ext; [apply Q2|]. intros d _. cbv beta. destruct (d =? 2); auto.
    + eapply rep_ext; [apply Q1|]. intros d _. cbv beta. destruct (d =? 2); auto. apply index_map_new; auto.
Qed.

Lemma ring_tables_ok : exists tables maps, build_tables_with_rings st size rings = Ok (tables, maps) /\
  rep rn tables rcells /\ rep rn maps (fun d => index_map (rcells d)).
Proof.
  pose proof n0_range as Hr.
  destruct (build_tables_ok S cof size RS_nodup RS_sorted) as (tables & maps & E1 & R1 & R2).
  { rewrite <- Rst. fold n0. lia. }
  rewrite <- Rst in E1, R1, R2. fold n0 in R1, R2.
  unfold build_tables_with_rings. rewrite E1. cbn [bind fst snd].
  destruct rn_cases as [(E0 & E3)|(E0 & E3 & E2)].
  - exists tables, maps. rewrite E0. split; auto. rewrite E3.
    split; (eapply rep_ext; [eassumption|]); intros d Hd; cbv beta; unfold rcells; (destruct (Nat.ltb_spec d 2); [auto|lia]).
  - rewrite E3. rewrite E2 in R1, R2.
    assert (Em : forall A (a b : A), match rings with [] => a | _ => b end = b) by (intros; destruct rings; [congruence|auto]).
    rewrite Em.
    rewrite app_length, (rep_length _ _ _ R1). cbn [length Nat.add Nat.eqb assert_ bind].
    destruct (ring_tables_loop rings (tables ++ [[]], maps ++ [[]]) []) as (tm & E4 & R3 & R4); auto.
    + eapply rep_ext; [apply (rep_app 2 _ _ _ R1)|]. intros d _. cbv beta. destruct (d =? 2); auto.
    + eapply rep_ext; [apply (rep_app 2 _ _ _ R2)|]. intros d _. cbv beta. destruct (d =? 2); auto.
    + exists (fst tm), (snd tm). rewrite E4. split; [destruct tm; auto|].
      split; (eapply rep_ext; [eassumption|]); intros d Hd; cbv beta; unfold rcells;
        destruct (Nat.eqb_spec d 2) as [->|]; auto; destruct (Nat.ltb_spec d 2); auto; lia.
Qed.

(** *** Boundaries *)
Let T1 := level S size 1.
Let p1 := pos T1.

Lemma redges_T1 c f : In c rings -> (In f (redges c) <-> In f T1 /\ incl f c).
Proof.
  intros Hc. rewrite (redges_In edges c (R_cycle c Hc)). unfold T1. rewrite edge_In. split.
  - intros (u & v & H1 & -> & H3 & H4 & H5). split; eauto. intros x [<-|[<-|[]]]; auto.
  - intros [(u & v & H1 & -> & H3) HI]. exists u, v. repeat split; auto; try apply H3; apply HI; [left|right; left]; auto.
Qed.

Lemma ring_boundary_loop c : forall es b t0 row Ft D E, NoDup es -> incl es T1 ->
  rep 3 (b_tables b) (fun d => if d =? 2 then t0 ++ [row] else Ft d) ->
  repd 4 (b_bnd b) D -> repd 4 (b_cob b) E ->
  exists b', foldM (ring_boundary_step (index_map T1) c) b es = Ok b' /\
    rep 3 (b_tables b') (fun d => if d =? 2 then t0 ++ [row ++ map p1 es] else Ft d) /\
    repd 4 (b_bnd b') (fun d t => if (d =? 2) && ceqb t c && negb (length es =? 0)
       then Some (match D d t with Some l => l | None => [] end ++ es) else D d t) /\
    repd 4 (b_cob b') (fun d t => if (d =? 1) && mem t es
       then Some (match E d t with Some l => l | None => [] end ++ [c]) else E d t).
Proof.
  induction es as [|e es IH]; intros b t0 row Ft D E HN HI HT HB HC.
  - exists b. split; [reflexivity|]. split; [cbn [map]; rewrite app_nil_r; auto|]. split.
    + eapply repd_ext; [eassumption|]. intros d t _. cbn. rewrite andb_false_r. auto.
    + eapply repd_ext; [eassumption|]. intros d t _. cbn. rewrite andb_false_r. auto.
  - inversion HN as [|? ? N1 N2]; subst. cbn [foldM].
    assert (He : In e T1) by (apply HI; left; auto).
    destruct (pos_spec T1 e (level_nodup S size RS_nodup 1) He) as [P1 P2].
    destruct (repd_upd 4 (b_bnd b) D 2 (fun m => dappend m c e)
       (fun t => if ceqb t c then Some (match D 2 c with Some l => l | None => [] end ++ [e]) else D 2 t) HB) as (bn & E1 & R1); [lia| |].
    { intros q Hq t. rewrite dget_dappend, !Hq. auto. }
    destruct (repd_upd 4 (b_cob b) E 1 (fun m => dappend m e c)
       (fun t => if ceqb t e then Some (match E 1 e with Some l => l | None => [] end ++ [c]) else E 1 t) HC) as (co & E2 & R2); [lia| |].
    { intros q Hq t. rewrite dget_dappend, !Hq. auto. }
    destruct (rep_upd 3 _ _ 2 (fun _ => t0 ++ [row ++ [p1 e]]) HT) as (t1 & E3 & R3); [lia|].
    assert (ES : ring_boundary_step (index_map T1) c b e = Ok (mkB t1 bn co)).
    { unfold ring_boundary_step, key_get. rewrite P1. cbn [isSome assert_ bind of_option]. rewrite E1. cbn [bind]. rewrite E2. cbn [bind].
      rewrite (rep_get _ _ _ _ HT) by lia. cbn [bind Nat.eqb]. rewrite upd_last. cbn [bind]. fold p1. rewrite E3. reflexivity. }
    rewrite ES. cbn [bind].
    assert (R3' : rep 3 t1 (fun d => if d =? 2 then t0 ++ [row ++ [p1 e]] else Ft d)).
    { eapply rep_ext; [apply R3|]. intros d _. cbv beta. destruct (d =? 2); auto. }
    destruct (IH (mkB t1 bn co) t0 (row ++ [p1 e]) Ft _ _ N2 (fun x Hx => HI x (or_intror Hx)) R3' R1 R2) as (b' & Q1 & Q2 & Q3 & Q4).
    exists b'. split; auto. split; [cbn [map]; rewrite <- app_assoc in Q2; exact Q2|]. split.
    + eapply repd_ext; [apply Q3|]. intros d t _. cbv beta. cbn [length Nat.eqb negb]. rewrite andb_true_r.
      destruct (Nat.eqb_spec d 2) as [->|]; cbn [andb]; auto.
      destruct (ceqb_spec t c) as [->|]; cbn [andb]; auto.
      destruct es as [|e' es]; cbn [length Nat.eqb negb]; auto. rewrite <- app_assoc. auto.
    + eapply repd_ext; [apply Q4|]. intros d t _. cbv beta. cbn [mem existsb]. change (existsb (ceqb t) es) with (mem t es).
      destruct (Nat.eqb_spec d 1) as [->|]; cbn [andb]; auto.
      destruct (ceqb_spec t e) as [->|]; cbn [orb]; auto.
      destruct (mem e es) eqn:Em; auto. apply mem_In in Em. tauto.
Qed.

Definition cob2 (P : list (list nat)) (e : list nat) : list (list nat) := filter (fun c => mem e (redges c)) P.

Lemma ring_extract_loop Ft D0 E0 : forall Q P b, rings = P ++ Q ->
  rep 3 (b_tables b) (fun d => if d =? 2 then map (fun c => map p1 (redges c)) P else Ft d) ->
  repd 4 (b_bnd b) (fun d t => if d =? 2 then if mem t P then Some (redges t) else None else D0 d t) ->
  repd 4 (b_cob b) (fun d t => if d =? 1 then nonempty (cob2 P t) else E0 d t) ->
  exists b', foldM (ring_extract_step (index_map T1)) b Q = Ok b' /\
    rep 3 (b_tables b') (fun d => if d =? 2 then map (fun c => map p1 (redges c)) rings else Ft d) /\
    repd 4 (b_bnd b') (fun d t => if d =? 2 then if mem t rings then Some (redges t) else None else D0 d t) /\
    repd 4 (b_cob b') (fun d t => if d =? 1 then nonempty (cob2 rings t) else E0 d t).
Proof.
  induction Q as [|c Q IH]; intros P b E HT HB HC.
  - exists b. rewrite app_nil_r in E. subst P. auto.
  - cbn [foldM].
    assert (Hc : In c rings) by (rewrite E; apply in_app_iff; right; left; auto).
    assert (Hnew : ~ In c P).
    { pose proof rings_nodup as HN. rewrite E in HN. apply NoDup_remove_2 in HN. intros H; apply HN, in_app_iff; auto. }
    pose proof (R_cycle c Hc) as HCy.
    destruct (repd_upd 4 (b_bnd b) _ 2 (fun m => dset m c [])
       (fun t => if ceqb t c then Some [] else if mem t P then Some (redges t) else None) HB) as (bn & E1 & R1); [lia| |].
    { intros q Hq t. rewrite dget_dset, Hq. auto. }
    destruct (rep_upd 3 _ _ 2 (fun t => t ++ [[]]) HT) as (t1 & E2 & R2); [lia|].
    assert (R2' : rep 3 t1 (fun d => if d =? 2 then map (fun c => map p1 (redges c)) P ++ [[]] else Ft d)).
    { eapply rep_ext; [apply R2|]. intros d _. cbv beta. destruct (d =? 2); auto. }
    assert (HI : incl (redges c) T1) by (intros f Hf; apply (redges_T1 c f Hc) in Hf; tauto).
    destruct (ring_boundary_loop c (redges c) (mkB t1 bn (b_cob b)) (map (fun c => map p1 (redges c)) P) [] Ft _ _
       (redges_NoDup edges c HCy) HI R2' R1 HC) as (b' & Q1 & Q2 & Q3 & Q4).
    assert (ES : ring_extract_step (index_map T1) b c = Ok b').
    { unfold ring_extract_step. rewrite get_ring_boundaries_ok. cbn [bind]. rewrite E1. cbn [bind]. rewrite E2. cbn [bind]. exact Q1. }
    rewrite ES. cbn [bind]. apply (IH (P ++ [c])).
    + rewrite <- app_assoc. auto.
    + eapply rep_ext; [apply Q2|]. intros d _. cbv beta. destruct (d =? 2); auto. rewrite map_app. auto.
    + eapply repd_ext; [apply Q3|]. intros d t _. cbv beta. rewrite mem_app. cbn [mem existsb]. rewrite orb_false_r.
      change (existsb (ceqb t) P) with (mem t P).
      destruct (Nat.eqb_spec d 2) as [->|]; cbn [andb]; auto.
      assert (L : (length (redges c) =? 0) = false).
      { apply Nat.eqb_neq. rewrite (redges_length c). pose proof (k3 edges c HCy). lia. }
      rewrite L. destruct (ceqb_spec t c) as [->|]; cbn [andb negb]; [rewrite orb_true_r; auto|rewrite orb_false_r; auto].
    + eapply repd_ext; [apply Q4|]. intros d t _. cbv beta. unfold cob2. rewrite filter_app. cbn [filter].
      destruct (Nat.eqb_spec d 1) as [->|]; cbn [andb]; auto.
      destruct (mem t (redges c)); [|rewrite app_nil_r; auto]. rewrite nonempty_default, nonempty_app_r. auto.
Qed.

Lemma cof_high s : In s S -> 2 <= length s -> cof s = [].
Proof.
  intros Hs Hl. destruct (RS_cof s Hs) as [_ I]. destruct (cof s) as [|c l]; auto.
  destruct (proj1 (I c) (or_introl eq_refl)) as (H1 & H2 & _). apply RS_iff in H1. lia.
Qed.
(** Faces and cofaces. *)
Definition rB (d : nat) (s : list nat) : list (list nat) := if d =? 2 then redges s else Bs S cof d s.
Definition rC (d : nat) (s : list nat) : list (list nat) := if d =? 1 then cob2 rings s else Cs cof d s.
Definition rO (d : nat) (s : list nat) : list (list nat) := if d =? 2 then redges s else Os d s.

Lemma bnd_high d t : 2 <= d -> bnd_of cof S d t = [].
Proof.
  intros Hd. unfold bnd_of. apply filter_none. intros s Hs. destruct (Nat.eqb_spec (length s) d); cbn [andb]; auto.
  rewrite cof_high by (auto; lia). auto.
Qed.
Lemma ring_extract_ok maps : rep rn maps (fun d => index_map (rcells d)) ->
  exists b, extract_boundaries_with_rings st maps = Ok b /\
  (forall d s, 0 < d < rn -> In s (rcells d) ->
     exists bm, nth_error (b_bnd b) d = Some bm /\ dget bm s = Some (rB d s)) /\
  (forall d s, d + 1 < rn -> In s (rcells d) ->
     exists cm, nth_error (b_cob b) d = Some cm /\ match dget cm s with Some l => l = rC d s | None => rC d s = [] end) /\
  rep rn (b_tables b) (fun d => if d =? 0 then [] else map (fun s => map (pos (rcells (d - 1))) (rO d s)) (rcells d)).
Proof.
  intros Hm. pose proof n0_range as Hr. pose proof rn_n0 as Hrn.
  assert (Hlow : forall d, d < 2 -> rcells d = level S size d).
  { intros d Hd. unfold rcells. destruct (Nat.ltb_spec d 2); [auto|lia]. }
  unfold extract_boundaries_with_rings. fold n0.
  destruct (Nat.leb_spec n0 2); [|lia]. cbn [assert_ bind].
  destruct (extract_ok S cof size RS_nodup RS_sorted RS_down RS_vert RS_cof maps) as (b & E1 & R1).
  { rewrite <- Rst. fold n0. lia. }
  { rewrite <- Rst. fold n0. intros d Hd. rewrite (rep_get _ _ _ _ Hm) by lia. rewrite Hlow by lia. auto. }
  pose proof (bstate_facts S cof size RS_nodup RS_sorted RS_down RS_vert RS_cof b R1) as (F1 & F2 & F3).
  destruct R1 as (_ & R2 & R3).
  rewrite <- Rst in E1, R2, R3, F1, F2, F3. fold n0 in E1, R2, R3, F1, F2, F3. rewrite E1. cbn [bind].
  rewrite (rep_length _ _ _ Hm).
  destruct (Nat.leb_spec rn 3); [|lia]. cbn [assert_ bind].
  destruct rn_cases as [(E0 & E3)|(E0 & E3 & E2)].
  - destruct (Nat.eqb_spec rn 3); [lia|]. exists b. split; auto. rewrite E3. split; [|split].
    + intros d s Hd Hs. rewrite Hlow in Hs by lia. destruct (F1 d s Hd Hs) as (bm & B1 & B2). exists bm. split; auto.
      unfold rB. destruct (Nat.eqb_spec d 2); [lia|auto].
    + intros d s Hd Hs. rewrite Hlow in Hs by lia. destruct (F2 d s Hd Hs) as (bm & B1 & B2). exists bm. split; auto.
      unfold rC. destruct (Nat.eqb_spec d 1); [lia|auto].
    + eapply rep_ext; [apply F3|]. intros d Hd. cbv beta. destruct (Nat.eqb_spec d 0); auto. rewrite !Hlow by lia.
      unfold rO. destruct (Nat.eqb_spec d 2); [lia|auto].
  - rewrite E3, E2 in *. cbn [Nat.eqb]. rewrite (rep_get _ _ _ _ Hm) by lia. cbn [bind]. rewrite (rep_get _ _ _ _ Hm) by lia. cbn [bind].
    rewrite index_map_fst. change (rcells 1) with T1. change (rcells 2) with rings.
    set (Ft := fun d => if d =? 0 then [] else map (fun s => map (pos (level S size (d - 1))) (Os d s)) (level S size d)) in *.
    set (D0 := fun d c => if 0 <? d then nonempty (bnd_of cof S d c) else None) in *.
    set (E0' := fun (d : nat) (s : list nat) => if (length s =? d + 1) && mem s S then nonempty (cof s) else None) in *.
    assert (G1 : rep 3 (b_tables b ++ [[]]) (fun d => if d =? 2 then map (fun c => map p1 (redges c)) [] else Ft d)).
    { eapply rep_ext; [apply (rep_app 2 _ _ _ F3)|]. intros d _. reflexivity. }
    assert (G2 : repd 4 (b_bnd b ++ [[]]) (fun d t => if d =? 2 then if mem t [] then Some (redges t) else None else D0 d t)).
    { eapply repd_ext; [apply (repd_app 3 _ _ R2)|]. intros d t Hd. cbv beta. cbn [mem existsb].
      destruct (Nat.eqb_spec d 3) as [->|]; [cbn [Nat.eqb]; unfold D0|destruct (Nat.eqb_spec d 2) as [->|]; auto; unfold D0].
      - cbn [Nat.ltb Nat.leb]. rewrite bnd_high by lia. auto.
      - cbn [Nat.ltb Nat.leb]. rewrite bnd_high by lia. auto. }
    assert (G3 : repd 4 (b_cob b ++ [[]]) (fun d t => if d =? 1 then nonempty (cob2 [] t) else E0' d t)).
    { eapply repd_ext; [apply (repd_app 3 _ _ R3)|]. intros d t Hd. cbv beta. cbn [cob2 filter nonempty]. unfold E0'.
      destruct (Nat.eqb_spec d 3) as [->|]; [cbn [Nat.eqb]|destruct (Nat.eqb_spec d 1) as [->|]; auto].
      - destruct (Nat.eqb_spec (length t) (3 + 1)); cbn [andb]; auto. destruct (mem t S) eqn:Em; auto.
        apply mem_In in Em. apply RS_iff in Em. lia.
      - destruct (Nat.eqb_spec (length t) (1 + 1)); cbn [andb]; auto. destruct (mem t S) eqn:Em; auto.
        apply mem_In in Em. rewrite cof_high by (auto; lia). auto. }
    destruct (ring_extract_loop Ft D0 E0' rings [] (mkB (b_tables b ++ [[]]) (b_bnd b ++ [[]]) (b_cob b ++ [[]])) eq_refl G1 G2 G3)
      as (b' & Q1 & Q2 & [_ Q3] & [_ Q4]).
    exists b'. split; [exact Q1|]. split; [|split].
    + intros d s Hd Hs. destruct (Q3 d ltac:(lia)) as (q & Hq & Hq'). exists q. split; auto. rewrite Hq'. unfold rB.
      destruct (Nat.eqb_spec d 2) as [->|].
      * change (rcells 2) with rings in Hs. apply mem_In in Hs. rewrite Hs. auto.
      * destruct (F1 d s) as (bm & B1 & B2); [lia|rewrite <- Hlow by lia; auto|].
        destruct R2 as [_ R2]. destruct (R2 d ltac:(lia)) as (q2 & Hq2 & Hq3). rewrite <- Hq3.
        rewrite B1 in Hq2. inversion Hq2; subst. auto.
    + intros d s Hd Hs. destruct (Q4 d ltac:(lia)) as (q & Hq & Hq'). exists q. split; auto. rewrite Hq'. unfold rC.
      destruct (Nat.eqb_spec d 1) as [->|].
      * destruct (cob2 rings s); reflexivity.
      * destruct (F2 d s) as (bm & B1 & B2); [lia|rewrite <- Hlow by lia; auto|].
        destruct R3 as [_ R3]. destruct (R3 d ltac:(lia)) as (q2 & Hq2 & Hq3). fold (E0' d s) in Hq3. rewrite <- (Hq3 s).
        rewrite B1 in Hq2. inversion Hq2; subst. auto.
    + eapply rep_ext; [apply Q2|]. intros d Hd. cbv beta. destruct (Nat.eqb_spec d 0) as [->|]; [reflexivity|].
      unfold rO. destruct (Nat.eqb_spec d 2) as [->|]; [reflexivity|].
      assert (d = 1) by lia. subst d. reflexivity.
Qed.

Lemma rB_spec d c : 0 < d < rn -> In c (rcells d) ->
  NoDup (rB d c) /\ 2 <= length (rB d c) /\ forall f, In f (rB d c) <-> In f (rcells (d - 1)) /\ incl f c.
Proof.
  intros Hd Hc. pose proof rn_n0. unfold rB. destruct (Nat.eqb_spec d 2) as [->|].
  - change (rcells 2) with rings in Hc. change (rcells (2 - 1)) with T1. pose proof (R_cycle c Hc) as HCy.
    split; [apply (redges_NoDup edges c HCy)|]. split.
    + rewrite (redges_length c). pose proof (k3 edges c HCy). lia.
    + intros f. apply redges_T1; auto.
  - assert (d = 1) by lia. subst d. apply (Bs_spec S cof size RS_nodup RS_sorted RS_down RS_vert RS_cof); auto.
Qed.
Lemma rO_spec d c : 0 < d < rn -> In c (rcells d) ->
  NoDup (rO d c) /\ forall f, In f (rO d c) <-> In f (rcells (d - 1)) /\ incl f c.
Proof.
  intros Hd Hc. pose proof rn_n0. pose proof (rB_spec d c Hd Hc) as (B1 & B2 & B3). unfold rB, rO in *.
  destruct (Nat.eqb_spec d 2) as [->|]; auto.
  assert (d = 1) by lia. subst d. apply (Os_spec S cof size RS_sorted RS_down RS_vert); auto.
Qed.
Lemma rC_spec d s : d + 1 < rn -> In s (rcells d) ->
  NoDup (rC d s) /\ forall c, In c (rC d s) <-> In c (rcells (d + 1)) /\ incl s c.
Proof.
  intros Hd Hs. pose proof rn_n0. unfold rC. destruct (Nat.eqb_spec d 1) as [->|].
  - change (rcells 1) with T1 in Hs. change (rcells (1 + 1)) with rings. unfold cob2.
    split; [apply NoDup_filter, rings_nodup|]. intros c. rewrite filter_In, mem_In. split.
    + intros [H1 H2]. apply redges_T1 in H2; tauto.
    + intros [H1 H2]. split; auto. apply redges_T1; auto.
  - assert (d = 0) by lia. subst d. apply (Cs_spec S cof size RS_vert RS_cof); auto.
Qed.

Lemma rcells_range d s v : In s (rcells d) -> In v s -> v < size.
Proof.
  unfold rcells. destruct (d <? 2).
  - intros Hs Hv. apply (level_In S size RS_vert) in Hs as [Hs _]. apply RS_iff in Hs as [C _]. apply C; auto.
  - destruct (d =? 2); [|intros []]. intros Hs Hv. pose proof (R_cycle s Hs) as Hc.
    apply In_nth_error in Hv as [i Hi]. assert (Hl : i < length s) by (apply nth_error_Some; congruence).
    assert (E : nth i s 0 = v) by (apply nth_error_nth; auto).
    assert (HA : adjacent edges (nth i s 0) (nth (nxt (length s) i) s 0)).
    { apply (adj_iff edges s Hc); auto. apply nxt_lt; auto. }
    rewrite E in HA. apply edge_adj in HA. tauto.
Qed.

(** *** Edge features *)
Section EdgeFeatures.
Context {V : Type} (veqb : V -> V -> bool).
Hypothesis veqb_ok : forall a b, veqb a b = true <-> a = b.
Variable attr : list V.
Hypothesis Hattr : length attr = length edges.
Hypothesis Hfree : loop_free edges.

Definition eid (e : nat * nat) : nat := p1 (sort Nat.leb [fst e; snd e]).
Lemma key_T1 e : In e edges -> In (sort Nat.leb [fst e; snd e]) T1.
Proof.
  destruct e as [u v]. intros H. cbn [fst snd]. pose proof (Hfree u v H) as Hne. rewrite sort_2 by auto.
  unfold T1. apply edge_In. exists (Nat.min u v), (Nat.max u v). split; [lia|]. split; auto. split; [lia|].
  destruct (Nat.le_ge_cases u v).
  - rewrite Nat.min_l, Nat.max_r by lia. auto.
  - rewrite Nat.min_r, Nat.max_l by lia. auto.
Qed.
Lemma mapi_pair_In j e : In (j, e) (mapi pair edges) <-> nth_error edges j = Some e.
Proof.
  split.
  - intros H. apply In_nth_error in H as [i Hi]. rewrite nth_error_mapi in Hi.
    destruct (nth_error edges i) eqn:E; inversion Hi; subst; auto.
  - intros H. apply nth_error_In with j. rewrite nth_error_mapi, H. auto.
Qed.

Definition ex_inv (Q : list (nat * (nat * nat))) (ex : list (nat * V)) : Prop :=
  (forall q, In q Q -> nget ex (eid (snd q)) = nth_error attr (fst q)) /\
  (forall i, nget ex i <> None -> exists q, In q Q /\ eid (snd q) = i) /\
  (forall i, In i (map fst ex) <-> nget ex i <> None).

Lemma nget_app (ex : list (nat * V)) i f j :
  nget (ex ++ [(i, f)]) j = match nget ex j with Some g => Some g | None => if j =? i then Some f else None end.
Proof. induction ex as [|[a g] ex IH]; simpl; auto. destruct (j =? a); auto. Qed.

Lemma ex_loop : forall P Q ex, (forall q, In q (Q ++ P) -> In (snd q) edges /\ fst q < length attr) -> ex_inv Q ex ->
  (exists ex', foldM (edge_feature_step veqb (index_map T1) attr) ex P = Ok ex' /\ ex_inv (Q ++ P) ex') \/
  (foldM (edge_feature_step veqb (index_map T1) attr) ex P = Err AssertionError /\
   exists q q', In q (Q ++ P) /\ In q' (Q ++ P) /\ eid (snd q) = eid (snd q') /\ nth_error attr (fst q) <> nth_error attr (fst q')).
Proof.
  induction P as [|q P IH]; intros Q ex HP (I1 & I2 & I3).
  - left. exists ex. rewrite app_nil_r. split; [reflexivity|]. split; auto.
  - cbn [foldM]. destruct (HP q) as [Hq Hql]; [apply in_app_iff; right; left; auto|].
    destruct (nth_error attr (fst q)) as [f|] eqn:Ef; [|apply nth_error_None in Ef; lia].
    assert (ES : edge_feature_step veqb (index_map T1) attr ex q =
      match nget ex (eid (snd q)) with
      | Some f' => let* _ := assert_ (veqb f' f) in Ok ex
      | None => Ok (ex ++ [(eid (snd q), f)]) end).
    { unfold edge_feature_step. rewrite key_get_pos; [|apply (level_nodup S size RS_nodup)|apply key_T1; auto]. cbn [bind].
      rewrite (proj2 (get_ok attr _ f) Ef). reflexivity. }
    rewrite ES. assert (EQ : Q ++ q :: P = (Q ++ [q]) ++ P) by (rewrite <- app_assoc; auto).
    rewrite EQ in HP |- *.
    assert (Hmid : In q ((Q ++ [q]) ++ P)) by (rewrite !in_app_iff; left; right; left; auto).
    destruct (nget ex (eid (snd q))) as [f'|] eqn:En.
    + destruct (veqb f' f) eqn:Ev; cbn [assert_ bind].
      * apply veqb_ok in Ev. subst f'. apply IH; auto. split; [|split; auto].
        -- intros q' Hq'. apply in_app_iff in Hq' as [H|[<-|[]]]; auto. congruence.
        -- intros i Hi. destruct (I2 i Hi) as (q' & H1 & H2). exists q'. split; auto. apply in_app_iff; auto.
      * right. split; auto. destruct (I2 (eid (snd q))) as (q' & H1 & H2); [congruence|].
        exists q', q. split; [rewrite !in_app_iff; auto|]. split; auto. split; auto.
        rewrite <- (I1 q' H1), H2, En, Ef. intros E. inversion E; subst.
        assert (veqb f f = true) by (apply veqb_ok; auto). congruence.
    + cbn [bind]. apply IH; auto. split; [|split].
      * intros q' Hq'. rewrite nget_app. apply in_app_iff in Hq' as [H|[<-|[]]].
        -- rewrite (I1 q' H). destruct (nth_error attr (fst q')) eqn:E'; auto.
           destruct (HP q') as [_ H']; [rewrite !in_app_iff; auto|]. apply nth_error_None in E'. lia.
        -- rewrite En, Nat.eqb_refl. auto.
      * intros i Hi. rewrite nget_app in Hi. destruct (nget ex i) eqn:Ei.
        -- destruct (I2 i ltac:(congruence)) as (q' & H1 & H2). exists q'. split; auto. apply in_app_iff; auto.
        -- destruct (Nat.eqb_spec i (eid (snd q))); [|congruence]. exists q. split; auto. apply in_app_iff; right; left; auto.
      * intros i. rewrite map_app, in_app_iff, I3, nget_app. cbn [map fst]. destruct (nget ex i) eqn:Ei.
        -- split; [congruence|]. intros _. left. congruence.
        -- destruct (Nat.eqb_spec i (eid (snd q))) as [->|]; split; try congruence.
           ++ intros _. right; left; auto.
           ++ intros [H|[H|[]]]; congruence.
Qed.

Lemma T1_edge s : In s T1 -> exists e, In e edges /\ sort Nat.leb [fst e; snd e] = s.
Proof.
  unfold T1. rewrite edge_In. intros (u & v & Hlt & -> & Hne & [H|H]).
  - exists (u, v). split; auto. apply sort_2_eq; auto.
  - exists (v, u). split; auto. apply sort_2_eq; auto.
Qed.
Lemma mapi_ok q : In q ([] ++ mapi pair edges) -> In (snd q) edges /\ fst q < length attr.
Proof.
  destruct q as [j e]. cbn [app fst snd]. rewrite mapi_pair_In. intros H. split; [eapply nth_error_In; eauto|].
  rewrite Hattr. apply nth_error_Some. congruence.
Qed.
Lemma ex_nil : ex_inv [] [].
Proof. split; [intros q []|]. split; [intros i H; simpl in H; congruence|]. intros i. simpl. split; [intros []|congruence]. Qed.

Definition agree : Prop := forall j j' e e', nth_error edges j = Some e -> nth_error edges j' = Some e' ->
  same_set [fst e; snd e] [fst e'; snd e'] -> nth_error attr j = nth_error attr j'.

Lemma eid_same e e' : In e edges -> In e' edges -> (eid e = eid e' <-> same_set [fst e; snd e] [fst e'; snd e']).
Proof.
  intros H H'. unfold eid. split.
  - intros E. apply pos_inj in E; [|apply (level_nodup S size RS_nodup)|apply key_T1; auto|apply key_T1; auto].
    apply sort_same; auto.
  - intros E. destruct e as [u v], e' as [u' v']. cbn [fst snd] in *.
    pose proof (Hfree _ _ H). pose proof (Hfree _ _ H'). f_equal. apply same_sort; auto;
      (constructor; [intros [E'|[]]; congruence|constructor; [simpl; tauto|constructor]]).
Qed.

Lemma edge_features_ok : edges <> [] ->
  (agree -> exists rows, edge_features veqb edges attr (index_map T1) T1 = Ok rows /\ length rows = length T1 /\
     forall j e, nth_error edges j = Some e -> nth_error rows (eid e) = nth_error attr j) /\
  (~ agree -> edge_features veqb edges attr (index_map T1) T1 = Err AssertionError).
Proof.
  intros Hne. unfold edge_features.
  destruct (ex_loop (mapi pair edges) [] [] mapi_ok ex_nil) as [(ex & E1 & I1 & I2 & I3)|(E1 & q & q' & H1 & H2 & H3 & H4)].
  - rewrite E1. cbn [bind app] in *.
    assert (HA : agree).
    { intros j j' e e' Hj Hj' HS. pose proof (I1 (j, e) (proj2 (mapi_pair_In j e) Hj)) as A1.
      pose proof (I1 (j', e') (proj2 (mapi_pair_In j' e') Hj')) as A2. cbn [fst snd] in A1, A2.
      rewrite <- A1, <- A2. f_equal. apply eid_same; auto; eapply nth_error_In; eauto. }
    split; [intros _|intros H; destruct (H HA)].
    assert (Hex : forall i, nget ex i <> None <-> i < length T1).
    { intros i. split.
      - intros H. apply I2 in H as (q & Hq & <-). unfold eid. destruct q as [j e]. apply mapi_pair_In, nth_error_In in Hq.
        apply pos_lt; [apply (level_nodup S size RS_nodup)|apply key_T1; auto].
      - intros H. destruct (nth_error T1 i) as [s|] eqn:Es; [|apply nth_error_None in Es; lia].
        destruct (T1_edge s (nth_error_In _ _ Es)) as (e & He & Ee). apply In_nth_error in He as [j Hj].
        assert (Ei : eid e = i) by (unfold eid, p1; rewrite Ee; apply pos_nth; auto; apply (level_nodup S size RS_nodup)).
        rewrite <- Ei. pose proof (I1 (j, e) (proj2 (mapi_pair_In j e) Hj)) as A1. cbn [fst snd] in A1. rewrite A1.
        intros E. apply nth_error_None in E. rewrite Hattr in E. assert (j < length edges) by (apply nth_error_Some; congruence). lia. }
    assert (HT : 0 < length T1).
    { destruct (not_nil_In _ Hne) as [e He]. apply key_T1 in He. apply (In_length _ _ He). }
    assert (Hm : list_max (map fst ex) = length T1 - 1).
    { apply Nat.le_antisymm.
      - apply list_max_le, Forall_forall. intros i Hi. apply I3, Hex in Hi. lia.
      - assert (G : Forall (fun k => k <= list_max (map fst ex)) (map fst ex)) by (apply list_max_le; auto).
        rewrite Forall_forall in G. apply G. apply I3, Hex. lia. }
    assert (Hnil : ex <> []).
    { intros ->. destruct (proj2 (Hex 0) HT). reflexivity. }
    assert (EM : (match ex with [] => Err ValueError | _ => Ok (list_max (map fst ex)) end) = Ok (length T1 - 1)).
    { rewrite <- Hm. destruct ex; [congruence|auto]. }
    rewrite EM. cbn [bind]. replace (length T1 - 1 + 1) with (length T1) by lia. rewrite Nat.eqb_refl. cbn [assert_ bind].
    destruct (nget ex 0) as [v0|] eqn:E0; [|destruct (proj2 (Hex 0) HT E0)].
    assert (ER : mapM (fun id => of_option KeyError (nget ex id)) (seq 0 (length T1)) =
                 Ok (map (fun id => match nget ex id with Some v => v | None => v0 end) (seq 0 (length T1)))).
    { apply mapM_map. intros i Hi. apply in_seq in Hi. destruct (nget ex i) eqn:Ei; auto. destruct (proj2 (Hex i) ltac:(lia) Ei). }
    rewrite ER. cbn [bind]. rewrite map_length, seq_length, index_map_length, Nat.eqb_refl. cbn [assert_ bind].
    eexists. split; [reflexivity|]. split; [rewrite map_length, seq_length; auto|].
    intros j e Hj. pose proof (I1 (j, e) (proj2 (mapi_pair_In j e) Hj)) as A1. cbn [fst snd] in A1.
    assert (Hlt : eid e < length T1).
    { unfold eid. apply pos_lt; [apply (level_nodup S size RS_nodup)|apply key_T1; eapply nth_error_In; eauto]. }
    rewrite nth_error_map, (nth_error_nth' _ 0) by (rewrite seq_length; auto). rewrite seq_nth by auto. cbn [option_map Nat.add].
    rewrite A1. destruct (nth_error attr j) eqn:Ea; auto. apply nth_error_None in Ea. rewrite Hattr in Ea.
    assert (j < length edges) by (apply nth_error_Some; congruence). lia.
  - rewrite E1. cbn [bind]. split; auto. intros HA. exfalso. apply H4. destruct q as [j e], q' as [j' e'].
    cbn [app fst snd] in *. apply mapi_pair_In in H1, H2. apply (HA j j' e e'); auto.
    apply eid_same; auto; eapply nth_error_In; eauto.
Qed.
End EdgeFeatures.
End RingLift.
