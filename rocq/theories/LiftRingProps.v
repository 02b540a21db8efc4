(** Lifting with rings: C13-C16 (rings), C19, C20, C21. *)
From Coq Require Import List Arith Lia ZArith Bool Permutation Sorted.
From Verif Require Import Base ScatterModel ScatterSpec ScatterProofs ComplexModel BatchSpec BatchSpec2 BatchProofs
  LiftModel LiftSpec LiftBase LiftProofs LiftClique LiftTables LiftCliqueProps LiftRing LiftProps.
Import ListNotations.

(** ** Specification: the cells of the ring complex *)
(** Nodes (numbered as in the graph), edges and induced cycles of length at most [max_k], each
    once. *)
Record ring_cells (edges : list (nat * nat)) (size max_k : nat) (cells : nat -> list (list nat)) : Prop := {
  rc_vertex : forall v, v < size -> names cells 0 v [v];
  rc_vertices : length (cells 0) = size;
  rc_edge : forall s, In s (cells 1) <-> exists u v, u < v /\ s = [u; v] /\ adjacent edges u v;
  rc_ring : forall s, In s (cells 2) -> induced_cycle edges s /\ length s <= max_k;
  rc_all : forall s, induced_cycle edges s -> length s <= max_k -> exists i t, names cells 2 i t /\ same_set s t;
  rc_top : forall d, 3 <= d -> cells d = [];
  rc_once : forall d i j s s', names cells d i s -> names cells d j s' -> same_set s s' -> i = j
}.

(** ** The complex *)
Section Props.
Context {V : Type} (o : ops V) (veqb : V -> V -> bool).

(** Inputs of compute_ring_2complex: a non-empty graph with a feature row per node, with no edges
    or at least one proper edge; a label vector of admissible length; any enumeration by gudhi and
    graph-tool and any iteration order of sets. *)
Record ring_input (lib : list (list nat) -> simplex_tree) (isos : list (nat * nat) -> nat -> list (list nat))
    (set_order : list (list nat) -> list (list nat)) (x : list V)
    (edges : list (nat * nat)) (size : nat) (y : option (list Z)) (max_k : nat) : Prop := {
  ri_graph : graph_ok edges size;
  ri_nodes : 0 < size;
  ri_loops : edges = [] \/ exists u v, adjacent edges u v;
  ri_x : length x = size;
  ri_y : label_ok y size;
  ri_lib : let t := pyg_to_simplex_tree edges size in
           enumerates t (st_simplices (lib t)) (st_cofaces (lib t));
  ri_isos : forall k, 3 <= k <= max_k -> finds_cycles edges k (isos edges k);
  ri_set : forall l : list (list nat), NoDup l -> Permutation (set_order l) l
}.

(** All copies of an edge carry the same attributes. *)
Definition attr_agree (edges : list (nat * nat)) (attr : list V) : Prop :=
  forall j j' e e', nth_error edges j = Some e -> nth_error edges j' = Some e' ->
  same_set [fst e; snd e] [fst e'; snd e'] -> nth_error attr j = nth_error attr j'.

(** Edge attributes are absent, or there is a row per column of edge_index, no self-loop and the
    copies of an edge agree. *)
Definition attr_ok (edges : list (nat * nat)) (edge_attr : option (list V)) : Prop :=
  match edge_attr with
  | None => True
  | Some attr => length attr = length edges /\ loop_free edges /\ attr_agree edges attr
  end.

Section Given.
Variables (lib : list (list nat) -> simplex_tree) (isos : list (nat * nat) -> nat -> list (list nat))
  (set_order : list (list nat) -> list (list nat)) (r : reduce) (x : list V)
  (edges : list (nat * nat)) (edge_attr : option (list V)) (size : nat) (y : option (list Z))
  (max_k : nat) (down init_edges init_rings : bool).
Hypothesis HI : ring_input lib isos set_order x edges size y max_k.
Hypothesis veqb_ok : forall a b, veqb a b = true <-> a = b.

Notation lifted := (compute_ring_2complex o veqb lib isos set_order r x edges edge_attr size y max_k down init_edges init_rings).
Definition rings_of := get_rings (isos edges) set_order max_k.
Definition rcells_of := rcells lib edges size rings_of.
Notation cells := rcells_of.

Lemma rings_facts :
  NoDup (map (sort Nat.leb) rings_of) /\
  (forall c, In c rings_of -> induced_cycle edges c /\ 3 <= length c <= max_k) /\
  (forall c, induced_cycle edges c -> length c <= max_k -> exists c', In c' rings_of /\ same_set c c').
Proof. destruct HI. apply get_rings_ok; auto. Qed.
Lemma rings_cycle c : In c rings_of -> induced_cycle edges c.
Proof. intros H. apply rings_facts in H. tauto. Qed.

Lemma cells_ring : ring_cells edges size max_k cells.
Proof.
  pose proof rings_facts as (R1 & R2 & R3). destruct HI as [Hg Hs Hl Hx Hy Hlib Hiso Hset]. cbv zeta in Hlib.
  split.
  - intros v Hv. unfold names, rcells_of, rcells, level. simpl. unfold singles.
    rewrite nth_error_map, (nth_error_nth' _ 0) by (rewrite seq_length; auto). rewrite seq_nth by auto. auto.
  - unfold rcells_of, rcells, level. simpl. apply singles_length.
  - intros s. apply (edge_In lib edges size Hg Hlib Hs Hl).
  - intros s Hin. apply R2 in Hin. split; [tauto|lia].
  - intros s Hc Hle. destruct (R3 s Hc Hle) as (t & Ht & HS). apply In_nth_error in Ht as [i Hi]. exists i, t. auto.
  - intros d Hd. unfold rcells_of, rcells. destruct (Nat.ltb_spec d 2); [lia|]. destruct (Nat.eqb_spec d 2); [lia|auto].
  - intros d i j s s' Hi Hj HS. unfold names, rcells_of in *.
    pose proof (rcells_nodup lib edges size Hlib rings_of R1 d) as HN.
    assert (E : s = s').
    { unfold rcells in Hi, Hj. destruct (d <? 2).
      - assert (G : forall i s, nth_error (level (st_simplices (lib (pyg_to_simplex_tree edges size))) size d) i = Some s -> sorted s).
        { intros i' t H. apply nth_error_In in H. apply (level_In _ _ (RS_vert lib edges size Hg Hlib Hs Hl)) in H as [H _].
          apply (RS_sorted lib edges size Hg Hlib); auto. }
        apply sorted_ext; eauto.
      - destruct (d =? 2); [|destruct i; discriminate].
        pose proof (nth_error_In _ _ Hi) as I1. pose proof (nth_error_In _ _ Hj) as I2.
        assert (E : sort Nat.leb s = sort Nat.leb s') by (apply same_sort; auto; apply R2; auto).
        pose proof (map_nth_error (sort Nat.leb) i _ Hi) as M1. pose proof (map_nth_error (sort Nat.leb) j _ Hj) as M2.
        assert (i = j).
        { apply (proj1 (NoDup_nth_error _) R1); [|congruence]. apply nth_error_Some. congruence. }
        subst j. congruence. }
    subst s'. apply (proj1 (NoDup_nth_error _) HN); [|congruence]. apply nth_error_Some. congruence.
Qed.

(** The rows of the 1-cells. *)
Definition edge_rows (rows : list V) : Prop :=
  match edge_attr with
  | None => rows = map (cell_row o r x) (cells 1)
  | Some attr => forall j e i s, nth_error edges j = Some e -> names cells 1 i s ->
      same_set [fst e; snd e] s -> nth_error rows i = nth_error attr j
  end.
Definition ring_x (rows : list V) (d : nat) : option (list V) :=
  match d with
  | 0 => Some x
  | 1 => if init_edges then Some rows else None
  | _ => if init_rings then Some (map (cell_row o r x) (cells d)) else None
  end.

Lemma ring_lift_gen :
  (init_edges = true -> attr_ok edges edge_attr) ->
  exists K rows, lifted = Ok K /\ (init_edges = true -> edge_rows rows) /\ length rows = length (cells 1) /\
    has_cells cells down (ring_x rows) K /\
    (forall d, d <= k_dim K <-> cells d <> []) /\
    match y with
    | None => k_y K = None /\ forall d c, nth_error (k_cochains K) d = Some c -> c_y c = None
    | Some l =>
        if length l =? 1 then k_y K = Some l /\ forall d c, nth_error (k_cochains K) d = Some c -> c_y c = None
        else k_y K = None /\ forall d c, nth_error (k_cochains K) d = Some c -> c_y c = if d =? 0 then Some l else None
    end.
Proof.
  intros Hattr. pose proof cells_ring as RC. pose proof rings_facts as (R1 & R2' & R3'). pose proof rings_cycle as R2.
  destruct HI as [Hg Hs Hl Hx Hy Hlib Hiso Hset]. cbv zeta in Hlib.
  set (st := lib (pyg_to_simplex_tree edges size)) in *. set (n := rn lib edges size rings_of).
  pose proof (n0_range lib edges size Hg Hlib Hs Hl) as Hn0. fold st in Hn0.
  pose proof (rn_n0 lib edges size Hg Hlib Hs Hl rings_of R2 R1) as Hn. fold st in Hn. fold n in Hn.
  pose proof (rn_pos lib edges size Hg Hlib Hs Hl rings_of R2 R1) as Hp. fold n in Hp.
  destruct (ring_tables_ok lib edges size Hg Hlib Hs Hl rings_of R2 R1) as (tables & maps & E1 & T1 & T2).
  fold st in E1. fold n in T1, T2. change (rcells lib edges size rings_of) with cells in T1, T2.
  destruct (ring_extract_ok lib edges size Hg Hlib Hs Hl rings_of R2 R1 maps T2) as (b & E2 & F1 & F2 & F3).
  fold st in E2. fold n in F1, F2, F3. change (rcells lib edges size rings_of) with cells in F1, F2, F3.
  set (B := rB lib edges size) in *. set (C := rC lib edges size rings_of) in *.
  pose proof (rB_spec lib edges size Hg Hlib Hs Hl rings_of R2 R1) as BS. change (rcells lib edges size rings_of) with cells in BS. fold n in BS. fold B in BS.
  pose proof (rC_spec lib edges size Hg Hlib Hs Hl rings_of R2 R1) as CS. change (rcells lib edges size rings_of) with cells in CS. fold n in CS. fold C in CS.
  pose proof (rO_spec lib edges size Hg Hlib Hs Hl rings_of R2 R1) as OS. change (rcells lib edges size rings_of) with cells in OS. fold n in OS.
  pose proof (rcells_nodup lib edges size Hlib rings_of R1) as TN. change (rcells lib edges size rings_of) with cells in TN.
  assert (B_in : forall d s, 0 < d < n -> In s (cells d) -> incl (B d s) (cells (d - 1))).
  { intros d s Hd Hin f Hf. apply (BS d s) in Hf; tauto. }
  assert (C_in : forall d s, d + 1 < n -> In s (cells d) -> incl (C d s) (cells (d + 1))).
  { intros d s Hd Hin f Hf. apply (CS d s) in Hf; tauto. }
  destruct (build_adj_ok n cells B C TN B_in C_in b maps down T2 F1 F2) as (a & E3 & A1 & A2 & A3 & A4).
  assert (HR : forall d s v, d < n -> In s (cells d) -> In v s -> v < length x).
  { intros d s v Hd Hin Hv. rewrite Hx. apply (rcells_range lib edges size Hg Hlib Hs Hl rings_of R2 d s v); auto. }
  pose proof (construct_features_ok o r x n cells tables Hp T1 HR) as E4.
  set (feats := map (fun d => if d =? 0 then x else map (cell_row o r x) (cells d)) (seq 0 n)) in *.
  assert (Hfeat : forall d, 0 < d < n -> nth_error feats d = Some (map (cell_row o r x) (cells d))).
  { intros d Hd. unfold feats. rewrite nth_error_map, (nth_error_nth' _ 0) by (rewrite seq_length; lia).
    rewrite seq_nth by lia. simpl. destruct (Nat.eqb_spec d 0); [lia|auto]. }
  destruct (extract_labels_ok y size Hy) as (vy & cy & E5 & HL).
  (* features of the edges *)
  assert (X1 : exists rows,
     (if init_edges && (2 <=? st_levels st) then
       match edge_attr with
       | None => let* f := get feats 1 in Ok (Some f)
       | Some attr =>
           let* m1 := get maps 1 in
           let* t1 := get tables 1 in
           let* f := edge_features veqb edges attr m1 t1 in Ok (Some f)
       end
     else Ok None) = Ok (if init_edges && (2 <=? st_levels st) then Some rows else None) /\
     (init_edges = true -> edge_rows rows) /\ length rows = length (cells 1)).
  { destruct (Nat.leb_spec 2 (st_levels st)) as [H2|H2].
    - assert (Hn1 : 1 < n) by lia. destruct init_edges; cbn [andb].
      + unfold edge_rows. destruct edge_attr as [attr|].
        * specialize (Hattr eq_refl). destruct Hattr as (Ha1 & Ha2 & Ha3).
          rewrite (rep_get _ _ _ _ T2) by auto. cbn [bind]. rewrite (rep_get _ _ _ _ T1) by auto. cbn [bind].
          assert (Hne : edges <> []).
          { intros E. assert (En : st_levels st = 2) by lia. apply (n0_edges lib edges size Hg Hlib Hs Hl) in En as (u & v & HA).
            rewrite E in HA. destruct HA as [_ [[]|[]]]. }
          destruct (edge_features_ok lib edges size Hg Hlib Hs Hl veqb veqb_ok attr Ha1 Ha2 Hne) as [G _].
          destruct (G Ha3) as (rows & ER & EL & EP).
          exists rows. change (cells 1) with (level (st_simplices st) size 1). fold st in ER, EL. rewrite ER. split; [reflexivity|]. split; auto.
          intros _ j e i s Hj Hi HS. rewrite <- (EP j e Hj). f_equal.
          assert (He : In e edges) by (eapply nth_error_In; eauto).
          pose proof (key_T1 lib edges size Hg Hlib Hs Hl attr Ha1 Ha2 e He) as HK. fold st in HK.
          destruct (pos_spec _ _ (level_nodup _ size (RS_nodup lib edges size Hlib) 1) HK) as [_ P2]. fold st in P2.
          unfold eid. fold st. eapply (rc_once _ _ _ _ RC 1); [exact Hi|exact P2|].
          intros v. rewrite sort_In. rewrite (HS v). tauto.
        * rewrite (proj2 (get_ok feats 1 _) (Hfeat 1 ltac:(lia))). cbn [bind].
          eexists. split; [reflexivity|]. split; [auto|apply map_length].
      + exists (map (cell_row o r x) (cells 1)). split; [reflexivity|]. split; [discriminate|apply map_length].
    - assert (Hn1 : st_levels st = 1) by lia. rewrite andb_false_r.
      assert (Hc1 : cells 1 = []).
      { destruct (rn_cases lib edges size Hg Hlib Hs Hl rings_of R2 R1) as [(Ea & Eb)|(_ & _ & Ec)]; [|fold st in Ec; lia].
        apply (rcells_above lib edges size Hg Hlib Hs Hl rings_of R2 R1); auto. rewrite Eb. fold st. lia. }
      exists []. split; auto. rewrite Hc1. split; auto. intros _. unfold edge_rows. destruct edge_attr.
      + intros j e i s _ Hi. unfold names in Hi. rewrite Hc1 in Hi. destruct i; discriminate.
      + rewrite Hc1. auto. }
  destruct X1 as (rows & E6 & ER & EL).
  destruct (@assemble_ok n cells B C TN B_in C_in b down F2 (rO) Hp
    (rcells_full lib edges size Hg Hlib Hs Hl rings_of R2 R1) (rcells_above lib edges size Hg Hlib Hs Hl rings_of R2 R1) BS CS OS F3 V)
    with (xs := [Some x; if init_edges && (2 <=? st_levels st) then Some rows else None; if init_rings then nth_error feats 2 else None])
      (X := ring_x rows) (a := a) (tables := tables) (v_y := vy) (k_y' := cy)
    as (K & E7 & D1 & D2 & D3 & D4 & D5); auto.
  { intros d Hd. unfold ring_x. destruct d as [|[|[|d]]]; [reflexivity| | |lia].
    - assert (E : 2 <=? st_levels st = true).
      { apply Nat.leb_le. destruct (rn_cases lib edges size Hg Hlib Hs Hl rings_of R2 R1) as [(Ea & Eb)|(Ea & Eb & Ec)]; fold n st in Eb; [lia|fold st in Ec; lia]. }
      rewrite E, andb_true_r. reflexivity.
    - destruct init_rings; [|reflexivity]. change (Some (nth_error feats 2) = Some (Some (map (cell_row o r x) (cells 2)))). f_equal. apply Hfeat. lia. }
  { intros d Hd. unfold ring_x. destruct d as [|[|d]].
    - rewrite Hx. symmetry. apply RC.
    - destruct init_edges; auto.
    - destruct init_rings; [apply map_length|lia]. }
  exists K, rows. split; [|split; [auto|split; [auto|split; [auto|split]]]].
  - unfold compute_ring_2complex. fold st. destruct (Nat.leb_spec (st_levels st) 2); [|lia]. cbn [assert_ bind].
    assert (EE : (if st_levels st =? 1 then assert_ (length edges =? 0) else Ok tt) = Ok tt).
    { destruct (Nat.eqb_spec (st_levels st) 1) as [En|]; auto.
      rewrite (n0_loops lib edges size Hg Hlib Hs Hl); auto. }
    rewrite EE. cbn [bind]. fold rings_of. rewrite E1. cbn [bind fst snd].
    rewrite (rep_length _ _ _ T2). destruct (Nat.leb_spec n 3); [|lia]. cbn [assert_ bind].
    rewrite E2. cbn [bind]. rewrite E3. cbn [bind]. rewrite E4. cbn [bind].
    assert (EF : (if st_levels st =? 1 then assert_ (length feats =? 1) else Ok tt) = Ok tt).
    { destruct (Nat.eqb_spec (st_levels st) 1) as [En|]; auto. unfold feats. rewrite map_length, seq_length.
      destruct (rn_cases lib edges size Hg Hlib Hs Hl rings_of R2 R1) as [(Ea & Eb)|(Ea & Eb & Ec)]; fold n st in Eb.
      - rewrite Eb, En. reflexivity.
      - fold st in Ec. lia. }
    rewrite EF. cbn [bind]. rewrite E6. cbn [bind]. rewrite E5. cbn [bind fst snd]. exact E7.
  - intros d. rewrite D1. split.
    + intros Hd. apply (rcells_full lib edges size Hg Hlib Hs Hl rings_of R2 R1). fold n. lia.
    + intros Hd. destruct (Nat.le_gt_cases n d); [|lia]. destruct Hd.
      apply (rcells_above lib edges size Hg Hlib Hs Hl rings_of R2 R1); auto.
  - assert (G : forall d c, nth_error (k_cochains K) d = Some c -> c_y c = if d =? 0 then vy else None).
    { intros [|d] c Hc; simpl; eauto. }
    destruct y as [l|]; [destruct (length l =? 1)|]; destruct HL as [-> ->]; split; auto;
      intros d c Hc; rewrite (G d c Hc); destruct d; auto.
Qed.

Lemma ring_inv K : lifted = Ok K -> (init_edges = true -> attr_ok edges edge_attr) -> exists rows,
  (init_edges = true -> edge_rows rows) /\ length rows = length (cells 1) /\ has_cells cells down (ring_x rows) K.
Proof. intros E HA. destruct (ring_lift_gen HA) as (K' & rows & E' & R1 & R2 & H & _). exists rows. assert (K' = K) by congruence. subst. auto. Qed.

(** C19: nodes, edges and one 2-cell per induced cycle, identified by 0..n-1. *)
Theorem C19_rings :
  (init_edges = true -> attr_ok edges edge_attr) ->
  exists K cells, lifted = Ok K /\ ring_cells edges size max_k cells /\
    (forall d, d <= k_dim K <-> cells d <> []) /\
    wf_complex K (fun d => length (cells d)) /\
    forall s, induced_cycle edges s -> length s <= max_k ->
      exists i t, names cells 2 i t /\ same_set s t /\ induced_cycle edges t /\
        forall j t', names cells 2 j t' -> same_set s t' -> j = i.
Proof.
  intros HA. destruct (ring_lift_gen HA) as (K & rows & E & _ & _ & HC & HD & _). pose proof cells_ring as RC.
  exists K, cells. split; auto. split; auto. split; auto. split; [apply HC|].
  intros s Hs Hl. destruct (rc_all _ _ _ _ RC s Hs Hl) as (i & t & Hi & HS). exists i, t. split; auto. split; auto. split.
  - apply nth_error_In in Hi. apply (rc_ring _ _ _ _ RC) in Hi. tauto.
  - intros j t' Hj HS'. eapply (rc_once _ _ _ _ RC 2); eauto. intros v. rewrite <- (HS' v), (HS v). tauto.
Qed.

(** C13 *)
Theorem C13_upper_ring : (init_edges = true -> attr_ok edges edge_attr) ->
  forall K, lifted = Ok K -> exists cells, ring_cells edges size max_k cells /\
  forall d c, nth_error (k_cochains K) d = Some c ->
    upper_exact cells d c /\ symmetric_triples (triples (c_upper c) (c_shc c)).
Proof.
  intros HA K E. destruct (ring_inv K E HA) as (rows & _ & _ & HC). exists cells. split; [apply cells_ring|]. intros d c Hc.
  pose proof (hc_up _ _ _ _ HC d c Hc) as U. split; auto. intros a b t Ht. rewrite (ue_iff _ _ _ U) in *. intuition.
Qed.

(** C14 *)
Theorem C14_lower_ring : (init_edges = true -> attr_ok edges edge_attr) ->
  forall K, lifted = Ok K -> exists cells, ring_cells edges size max_k cells /\
  (forall c, nth_error (k_cochains K) 0 = Some c -> c_lower c = None /\ c_shb c = None) /\
  forall d c, nth_error (k_cochains K) (S d) = Some c ->
    if down then lower_exact cells d c /\ symmetric_triples (triples (c_lower c) (c_shb c))
    else c_lower c = None /\ c_shb c = None.
Proof.
  intros HA K E. destruct (ring_inv K E HA) as (rows & _ & _ & HC). exists cells. split; [apply cells_ring|].
  split; [intros c Hc; apply (hc_bnd0 _ _ _ _ HC c Hc)|]. intros d c Hc.
  pose proof (hc_low _ _ _ _ HC d c Hc) as U. destruct down; auto. split; auto.
  intros a b t Ht. rewrite (le_iff _ _ _ U) in *. intuition.
Qed.

(** C15 *)
Theorem C15_ring_lifting_succeeds_partial : (init_edges = true -> attr_ok edges edge_attr) ->
  exists K sz, lifted = Ok K /\ wf_complex K sz /\ sz 0 = size /\ forall d, d <= k_dim K -> 0 < sz d.
Proof.
  intros HA. destruct (ring_lift_gen HA) as (K & rows & E & _ & _ & HC & HD & _). exists K, (fun d => length (cells d)). split; auto.
  split; [apply (hc_wf _ _ _ _ HC)|]. split; [apply cells_ring|].
  intros d Hd. apply HD in Hd. destruct (cells d); [congruence|simpl; lia].
Qed.

(** C16: node features unchanged; features of rings if requested; features of edges if requested and
    the graph has no edge attributes. *)
Theorem C16_ring_features : (init_edges = true -> attr_ok edges edge_attr) ->
  forall K, lifted = Ok K -> exists cells, ring_cells edges size max_k cells /\
  (forall c, nth_error (k_cochains K) 0 = Some c -> c_x c = Some x) /\
  (forall c, nth_error (k_cochains K) 1 = Some c ->
     if init_edges then exists rows, c_x c = Some rows /\ length rows = length (cells 1) /\
       (edge_attr = None -> forall i s, names cells 1 i s ->
          nth_error rows i = Some (reduce_rows o r (map (fun v => nth v x (vzero o)) s)))
     else c_x c = None) /\
  (forall c, nth_error (k_cochains K) 2 = Some c ->
     if init_rings then exists rows, c_x c = Some rows /\ length rows = length (cells 2) /\
       forall i s, names cells 2 i s ->
          nth_error rows i = Some (reduce_rows o r (map (fun v => nth v x (vzero o)) s))
     else c_x c = None).
Proof.
  intros HA K E. destruct (ring_inv K E HA) as (rows & HR & HL & HC). exists cells. split; [apply cells_ring|].
  split; [intros c Hc; apply (hc_x _ _ _ _ HC 0 c Hc)|]. split.
  - intros c Hc. rewrite (hc_x _ _ _ _ HC 1 c Hc). unfold ring_x. destruct init_edges; auto.
    exists rows. split; auto. split; auto. intros Ea i s Hi. specialize (HR eq_refl). unfold edge_rows in HR. rewrite Ea in HR.
    rewrite HR. unfold names in Hi. rewrite nth_error_map, Hi. reflexivity.
  - intros c Hc. rewrite (hc_x _ _ _ _ HC 2 c Hc). unfold ring_x. destruct init_rings; auto.
    eexists. split; [reflexivity|]. split; [apply map_length|]. intros i s Hi. unfold names in Hi. rewrite nth_error_map, Hi. reflexivity.
Qed.

(** C21: with edge attributes every 1-cell gets the row of the graph edge it represents. *)
Theorem C21_edge_attributes attr : edge_attr = Some attr -> init_edges = true ->
  length attr = length edges -> loop_free edges -> attr_agree edges attr ->
  exists K cells, lifted = Ok K /\ ring_cells edges size max_k cells /\
    forall c, nth_error (k_cochains K) 1 = Some c ->
    exists rows, c_x c = Some rows /\ length rows = length (cells 1) /\
      (forall j e i s, nth_error edges j = Some e -> names cells 1 i s -> same_set [fst e; snd e] s ->
         nth_error rows i = nth_error attr j) /\
      (forall i s, names cells 1 i s -> exists j e, nth_error edges j = Some e /\ same_set [fst e; snd e] s /\ nth_error rows i = nth_error attr j).
Proof.
  intros Ea Ei H1 H2 H3. assert (HA : init_edges = true -> attr_ok edges edge_attr).
  { intros _. rewrite Ea. simpl. auto. }
  destruct (ring_lift_gen HA) as (K & rows & E & HR & HL & HC & HD & _).
  exists K, cells. split; auto. split; [apply cells_ring|]. intros c Hc. rewrite (hc_x _ _ _ _ HC 1 c Hc). unfold ring_x. rewrite Ei.
  exists rows. split; auto. split; auto.
  specialize (HR Ei). unfold edge_rows in HR. rewrite Ea in HR. split; auto.
  intros i s Hi. pose proof (nth_error_In _ _ Hi) as Hin. apply (rc_edge _ _ _ _ cells_ring) in Hin as (u & v & Hlt & -> & Hne & [HIn|HIn]).
  - apply In_nth_error in HIn as [j Hj]. exists j, (u, v). split; auto. split; [intros w; tauto|]. apply (HR j (u, v) i [u; v]); auto. intros w; tauto.
  - apply In_nth_error in HIn as [j Hj]. exists j, (v, u).
    assert (same_set [v; u] [u; v]) by (intros w; simpl; tauto). split; auto. split; auto. apply (HR j (v, u) i [u; v]); auto.
Qed.
End Given.

(** C21: two copies of an edge with different attributes are rejected. *)
Theorem C21_disagreement_rejected lib isos set_order r x edges attr size y max_k down init_rings :
  ring_input lib isos set_order x edges size y max_k -> (forall a b, veqb a b = true <-> a = b) ->
  length attr = length edges -> loop_free edges -> ~ attr_agree edges attr ->
  compute_ring_2complex o veqb lib isos set_order r x edges (Some attr) size y max_k down true init_rings = Err AssertionError.
Proof.
  intros HI veqb_ok Ha1 Ha2 Ha3.
  destruct (ring_lift_gen lib isos set_order r x edges None size y max_k down true init_rings HI veqb_ok) as (K & rows & E & _); [simpl; auto|].
  pose proof (rings_facts lib isos set_order x edges size y max_k HI) as (R1 & _).
  pose proof (rings_cycle lib isos set_order x edges size y max_k HI) as R2.
  destruct HI as [Hg Hs Hl Hx Hy Hlib Hiso Hset]. cbv zeta in Hlib.
  set (rings := rings_of isos set_order edges max_k) in *.
  destruct (ring_tables_ok lib edges size Hg Hlib Hs Hl rings R2 R1) as (tables & maps & E1 & T1 & T2).
  assert (Hne : edges <> []).
  { intros ->. apply Ha3. intros [|j] j' e e' Hj; discriminate. }
  assert (Hl' : exists u v, adjacent edges u v) by (destruct Hl; tauto).
  pose proof (proj2 (n0_edges lib edges size Hg Hlib Hs Hl) Hl') as En.
  assert (Hn : 1 < rn lib edges size rings).
  { pose proof (rn_n0 lib edges size Hg Hlib Hs Hl rings R2 R1). lia. }
  destruct (edge_features_ok lib edges size Hg Hlib Hs Hl veqb veqb_ok attr Ha1 Ha2 Hne) as [_ G]. specialize (G Ha3).
  unfold compute_ring_2complex in *. fold (rings_of isos set_order edges max_k) in *. fold rings in E |- *.
  do 2 (apply bind_ok in E as (? & E0 & E); rewrite E0; cbn [bind]; clear E0).
  rewrite E1 in *. cbn [bind fst snd] in *.
  do 5 (apply bind_ok in E as (? & E0 & E); rewrite E0; cbn [bind]; clear E0).
  rewrite En. cbn [Nat.leb andb].
  rewrite (rep_get _ _ _ _ T2) by auto. cbn [bind]. rewrite (rep_get _ _ _ _ T1) by auto. cbn [bind].
  match goal with |- (let* x1 := (let* f := ?q in _) in _) = _ => replace q with (@Err (list V) AssertionError) end. reflexivity.
Qed.
End Props.
