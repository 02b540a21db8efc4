(** Clique lifting: C11-C16, C18 (cliques). *)
From Coq Require Import List Arith Lia ZArith Bool Permutation Sorted.
From Verif Require Import Base ScatterModel ScatterSpec ScatterProofs ComplexModel BatchSpec BatchSpec2 BatchProofs
  LiftModel LiftSpec LiftBase LiftProofs LiftClique LiftTables.
Import ListNotations.

(** ** Specification: the cells of the clique complex *)
(** [cells d] lists the cliques of [d+1] nodes, each once (as an increasing list), up to dimension
    [k] (edges are always kept); the node [v] is the 0-cell number [v]. *)
Record clique_cells (edges : list (nat * nat)) (size k : nat) (cells : nat -> list (list nat)) : Prop := {
  cc_vertex : forall v, v < size -> names cells 0 v [v];
  cc_iff : forall d s, In s (cells d) <->
    clique edges size s /\ increasing s /\ length s = d + 1 /\ d <= Nat.max 1 k;
  cc_once : forall d i j s s', names cells d i s -> names cells d j s' -> same_set s s' -> i = j
}.

(** A label vector that is absent, belongs to the graph or belongs to its nodes. *)
Definition label_ok (y : option (list Z)) (size : nat) : Prop :=
  match y with None => True | Some l => length l = 1 \/ length l = size end.

Lemma increasing_sorted l : increasing l -> sorted l.
Proof.
  induction l as [|a l IH]; intros H; [constructor|]. apply sorted_cons. split.
  - apply IH. intros i j x y Hi Hj Hlt. apply (H (S i) (S j)); auto. lia.
  - intros x Hx. apply In_nth_error in Hx as [i Hi]. apply (H 0 (S i)); auto. lia.
Qed.

Lemma extract_labels_ok y size : label_ok y size ->
  exists vy cy, extract_labels y size = Ok (vy, cy) /\
    match y with
    | None => vy = None /\ cy = None
    | Some l => if length l =? 1 then vy = None /\ cy = Some l else vy = Some l /\ cy = None
    end.
Proof.
  destruct y as [l|]; simpl; [|exists None, None; auto]. intros H.
  destruct (Nat.eqb_spec (length l) 1); [exists None, (Some l); auto|].
  assert (E : length l = size) by lia. rewrite E, Nat.eqb_refl. exists (Some l), None. auto.
Qed.

Section Clique.
Context {V : Type} (o : ops V).
Variables (lib : list (list nat) -> simplex_tree) (r : reduce) (x : list V)
  (edges : list (nat * nat)) (size k : nat) (y : option (list Z)) (down : bool).
Let st := lib (expansion k (pyg_to_simplex_tree edges size)).
Hypothesis Hg : graph_ok edges size.
Hypothesis Hlib : enumerates (expansion k (pyg_to_simplex_tree edges size)) (st_simplices st) (st_cofaces st).

Lemma S_iff s : In s (st_simplices st) <-> clique edges size s /\ sorted s /\ length s <= Nat.max 2 (k + 1).
Proof. destruct Hlib as (_ & H & _). rewrite H. apply clique_simplices; auto. Qed.
Lemma H_sorted s : In s (st_simplices st) -> sorted s /\ s <> [].
Proof. intros H. apply S_iff in H as (C & H & _). split; auto. apply C. Qed.
Lemma H_down s f : In s (st_simplices st) -> f <> [] -> incl f s -> sorted f -> In f (st_simplices st).
Proof.
  intros H Hf Hi Hso. apply S_iff in H as ((C1 & C2 & C3 & C4) & H & HL). apply S_iff. split; [|split; auto].
  - split; auto. split; [apply sorted_NoDup; auto|]. split; auto.
  - pose proof (NoDup_incl_length (sorted_NoDup f Hso) Hi). lia.
Qed.
Lemma H_vert v : In [v] (st_simplices st) <-> v < size.
Proof.
  rewrite S_iff. split.
  - intros ((_ & _ & C & _) & _). apply C. left; auto.
  - intros H. split; [|split; [apply sorted_1|cbn [length]; lia]]. split; [discriminate|].
    split; [repeat constructor; simpl; tauto|]. split; [intros w [<-|[]]; auto|]. intros a b [<-|[]] [<-|[]]; congruence.
Qed.
Lemma H_cof s : In s (st_simplices st) -> NoDup (st_cofaces st s) /\
  forall c, In c (st_cofaces st s) <-> In c (st_simplices st) /\ length c = 1 + length s /\ incl s c.
Proof.
  destruct Hlib as (_ & H & H'). intros Hs. apply H in Hs. destruct (H' s Hs) as [N I]. split; auto.
  intros c. rewrite I, H. tauto.
Qed.
Lemma H_nodup : NoDup (st_simplices st).
Proof. apply Hlib. Qed.

Definition cells_of : nat -> list (list nat) := level (st_simplices st) size.

Lemma cells_clique : clique_cells edges size k cells_of.
Proof.
  split.
  - intros v Hv. unfold names, cells_of, level. simpl. unfold singles.
    rewrite nth_error_map, (nth_error_nth' _ 0) by (rewrite seq_length; auto). rewrite seq_nth by auto. auto.
  - intros d s. unfold cells_of. rewrite (level_In (st_simplices st) size H_vert), S_iff. split.
    + intros ((C & HS & HL) & E). split; auto. split; [apply sorted_increasing; auto|lia].
    + intros (C & HI & E & HL). split; auto. split; auto. split; [apply increasing_sorted; auto|lia].
  - intros d i j s s' Hi Hj HS. unfold names, cells_of in *.
    assert (E : forall i s, nth_error (level (st_simplices st) size d) i = Some s -> sorted s).
    { intros i' t H. apply nth_error_In in H. apply (level_In _ _ H_vert) in H as [H _]. apply H_sorted; auto. }
    assert (s = s') by (apply sorted_ext; eauto). subst s'.
    apply (proj1 (NoDup_nth_error _) (level_nodup _ size H_nodup d)); [|congruence].
    apply nth_error_Some. congruence.
Qed.

Definition lift_x (d : nat) : option (list V) :=
  Some (if d =? 0 then x else map (cell_row o r x) (cells_of d)).

Theorem clique_lift : 0 < size -> length x = size -> label_ok y size ->
  exists K, compute_clique_complex o lib r x edges size k y down = Ok K /\
    has_cells cells_of down lift_x K /\
    (forall d, d <= k_dim K <-> cells_of d <> []) /\
    match y with
    | None => k_y K = None /\ forall d c, nth_error (k_cochains K) d = Some c -> c_y c = None
    | Some l =>
        if length l =? 1 then k_y K = Some l /\ forall d c, nth_error (k_cochains K) d = Some c -> c_y c = None
        else k_y K = None /\ forall d c, nth_error (k_cochains K) d = Some c -> c_y c = if d =? 0 then Some l else None
    end.
Proof.
  intros Hs Hx Hy. set (n := st_levels st).
  set (S := st_simplices st) in *. set (cof := st_cofaces st) in *.
  assert (Est : st = mkST S cof) by (unfold S, cof; destruct st; auto).
  assert (Hn : 0 < n).
  { unfold n. rewrite Est. apply (S_length S cof H_sorted [0]). apply H_vert; auto. }
  pose proof (level_full S cof size H_sorted H_down H_vert) as HT1.
  pose proof (level_above S cof size H_sorted H_vert) as HT2.
  destruct (build_tables_ok S cof size H_nodup H_sorted) as (tables & maps & E1 & R1 & R2); [rewrite <- Est; auto|].
  destruct (extract_ok S cof size H_nodup H_sorted H_down H_vert H_cof maps) as (b & E2 & R3); [rewrite <- Est; auto|intros d Hd; apply (rep_get _ _ _ _ R2 Hd)|].
  destruct (bstate_facts S cof size H_nodup H_sorted H_down H_vert H_cof b R3) as (F1 & F2 & F3).
  rewrite <- Est in HT1, HT2, E1, R1, R2, E2, F1, F2, F3. fold n in HT1, HT2, R1, R2, E2, F1, F2, F3.
  pose proof (Bs_spec S cof size H_nodup H_sorted H_down H_vert H_cof) as BS.
  pose proof (Cs_spec S cof size H_vert H_cof) as CS.
  pose proof (Os_spec S cof size H_sorted H_down H_vert) as OS.
  pose proof (level_nodup S size H_nodup) as TN.
  change (level S size) with cells_of in *.
  assert (B_in : forall d s, 0 < d < n -> In s (cells_of d) -> incl (Bs S cof d s) (cells_of (d - 1))).
  { intros d s Hd Hin f Hf. apply (BS d s) in Hf; [tauto|lia|auto]. }
  assert (C_in : forall d s, d + 1 < n -> In s (cells_of d) -> incl (Cs cof d s) (cells_of (d + 1))).
  { intros d s Hd Hin f Hf. apply (CS d s) in Hf; [tauto|auto]. }
  destruct (build_adj_ok n cells_of (Bs S cof) (Cs cof) TN B_in C_in b maps down R2 F1 F2) as (a & E3 & A1 & A2 & A3 & A4).
  assert (HR : forall d s v, d < n -> In s (cells_of d) -> In v s -> v < length x).
  { intros d s v Hd Hin Hv. apply (cc_iff _ _ _ _ cells_clique) in Hin as (C & _). rewrite Hx. apply C; auto. }
  destruct (extract_labels_ok y size Hy) as (vy & cy & E5 & HL).
  set (xs := map (fun d => if d =? 0 then x else map (cell_row o r x) (cells_of d)) (seq 0 n)).
  destruct (assemble_ok n cells_of (Bs S cof) (Cs cof) TN B_in C_in b down F2 Os Hn HT1 HT2) 
    with (xs := map Some xs) (X := lift_x) (a := a) (tables := tables) (v_y := vy) (k_y' := cy)
    as (K & E6 & D1 & D2 & D3 & D4 & D5); auto.
  { intros; apply BS; auto; lia. }
  { intros; apply OS; auto; lia. }
  { intros d Hd. unfold xs, lift_x. rewrite map_map, nth_error_map, (nth_error_nth' _ 0) by (rewrite seq_length; auto).
    rewrite seq_nth by auto. auto. }
  { intros d Hd. unfold lift_x. destruct (Nat.eqb_spec d 0) as [->|]; [|apply map_length].
    unfold cells_of, level. simpl. rewrite singles_length. auto. }
  exists K. split; [|split; [auto|split]].
  - unfold compute_clique_complex. fold st. fold n. rewrite E1. cbn [bind fst snd]. rewrite E2. cbn [bind].
    rewrite E3. cbn [bind]. rewrite (construct_features_ok o r x n cells_of tables Hn R1 HR). cbn [bind].
    rewrite E5. cbn [bind fst snd]. exact E6.
  - intros d. rewrite D1. split.
    + intros Hd. apply HT1. lia.
    + intros Hd. destruct (Nat.le_gt_cases n d); [|lia]. destruct Hd. auto.
  - assert (G : forall d c, nth_error (k_cochains K) d = Some c -> c_y c = if d =? 0 then vy else None).
    { intros [|d] c Hc; simpl; eauto. }
    destruct y as [l|]; [destruct (length l =? 1)|]; destruct HL as [-> ->]; split; auto;
      intros d c Hc; rewrite (G d c Hc); destruct d; auto.
Qed.
End Clique.
