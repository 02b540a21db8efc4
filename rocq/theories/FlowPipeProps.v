(** C83: the flow and ocean experiments, from the triangulation to the predictions. *)
From Coq Require Import List Arith Lia ZArith Bool Permutation.
From Verif Require Import Base ScatterModel ScatterSpec ScatterProofs ComplexModel MPModel FlowSpec FlowModel
  FlowProofs FlowProofs2 FlowAdj FlowProps OrientModel OrientSpec OrientProofs OrientBatch OrientProps InferModel InferProps
  OceanModel OceanProofs OceanProps.
From Verif Require Import FlowPipeModel FlowPipeProofs.
Import ListNotations.
Open Scope nat_scope.

Section Props.
Context {V : Type} (o : ops V) (sc : Z -> V -> V) (vabs : V -> V) (row : Z -> V) (m : omodel V).

(** What is asked of the network: at least one layer, and either odd layers or the fully invariant
    variant. *)
Definition sound_net : Prop := ops_ok o /\ sign_ok o sc /\ abs_ok sc vabs /\
  (forall s z, sign s -> sc s (row z) = row (s * z)%Z) /\ om_layers m <> [] /\
  (om_invar m = false /\ Forall (odd_layer sc) (om_layers m) \/
   om_invar m = true /\ Forall (fun l => ol_orient l = false) (om_layers m)).

(** [v] is what the network says about the flow [x] alone, all edges in their default orientation. *)
Definition verdict (order : list (nat * nat * Z) -> list (nat * nat * Z)) (B1 B2 : mat) (edges : nat)
    (x : list Z) (y : Z) (v : V) : Prop :=
  exists c b z b', build_cochain order B1 B2 (diag_mat (m_c B1) (fun _ => 1%Z)) x y (Some edges) = Ok c /\
    from_cochain_list [recast row c] = Ok b /\ edge_forward o sc vabs m b = Ok ([v], z, b').

Lemma verdict_det order B1 B2 edges x y v w :
  verdict order B1 B2 edges x y v -> verdict order B1 B2 edges x y w -> v = w.
Proof. intros (c & b & z & k & E1 & E2 & E3) (c' & b' & z' & k' & E1' & E2' & E3'). congruence. Qed.

Section Flow.
Context {D : Type} (dlt : D -> D -> bool) (dist : nat -> nat -> D).
Context (npoints : nat) (in_start in_end in_bot in_top : nat -> bool).
Context (draw : nat -> nat -> nat) (coin : nat -> bool).
Context (order : list (nat * nat * Z) -> list (nat * nat * Z)).
Context (g : tgraph) (t2 : list tri) (B1 B2 : mat) (tries : nat).

(** The class of the [i]-th of [num] samples: the first half through the lower checkpoint. *)
Definition half_class (num i : nat) : nat := if i <? num / 2 then 0 else 1.

(** [ys] are the predictions for the [num] samples drawn from the states [k]: each one is the verdict
    on the flow of the sample, a simple path between the two corners. *)
Definition judged (num : nat) (k : nat -> nat) (ys : list V) : Prop :=
  length ys = num /\ forall i, i < num -> exists x path s t v,
    trajectory dlt dist npoints in_start in_end (if half_class num i =? 0 then in_bot else in_top) draw coin g tries (k i)
      = Some (Ok (x, path)) /\
    in_start s = true /\ in_end t = true /\ starts path s /\ FlowSpec.ends path t /\ NoDup path /\ walk_along (side_of t2) path /\
    (forall n, outflow B1 x n = (ind t n - ind s n)%Z) /\
    nth_error ys i = Some v /\ verdict order B1 B2 (length (g_edges g)) x (Z.of_nat (half_class num i)) v.

Lemma judged_det num k ys zs : judged num k ys -> judged num k zs -> ys = zs.
Proof.
  intros (L & H) (L' & H'). apply nth_error_ext. intros i. destruct (Nat.ltb_spec i num) as [Hi|Hi].
  - destruct (H i Hi) as (x & p & s & t & v & ET & _ & _ & _ & _ & _ & _ & _ & Ev & Hv).
    destruct (H' i Hi) as (x' & p' & s' & t' & v' & ET' & _ & _ & _ & _ & _ & _ & _ & Ev' & Hv').
    rewrite ET in ET'. injection ET' as <- <-. rewrite Ev, Ev'. f_equal. eapply verdict_det; eauto.
  - rewrite (proj2 (nth_error_None ys i)), (proj2 (nth_error_None zs i)) by lia. reflexivity.
Qed.

Lemma class_half num i : num <> 1 -> i < num -> flow_class num i = Ok (half_class num i).
Proof.
  intros Hn Hi. unfold flow_class, half_class. destruct (num / 2) as [|s] eqn:E.
  { exfalso. apply Nat.div_small_iff in E; lia. }
  f_equal. destruct (Nat.ltb_spec i (S s)).
  - rewrite Nat.div_small by lia. reflexivity.
  - assert (1 <= i / S s) by (apply Nat.div_le_lower_bound; lia). lia.
Qed.

Hypothesis HG : create_graph npoints t2 = Ok g.
Hypothesis HB : boundary_matrices g t2 = Ok (B1, B2).
Hypothesis HD : distinct_tris t2.
Hypothesis Hc : forall v, corner t2 v <-> v < npoints.
Hypothesis Hpos : 0 < npoints.
Hypothesis Hord : forall l, Permutation (order l) l.
Hypothesis Hdr : forall k n, 0 < n -> draw k n < n.
Hypothesis R1 : exists v, v < npoints /\ in_start v = true.
Hypothesis R2 : exists v, v < npoints /\ in_end v = true.
Hypothesis R3 : exists v, v < npoints /\ in_bot v = true.
Hypothesis R4 : exists v, v < npoints /\ in_top v = true.
Hypothesis Hm : sound_net.

Lemma job_spec num ori bits k i : num <> 1 -> ori <> OOther -> i < num ->
  match flow_job dlt dist npoints in_start in_end in_bot in_top draw coin order g B1 B2 tries num ori bits k i with
  | None => True
  | Some (Err _) => False
  | Some (Ok c) => fit row c /\ forall v, lone o sc vabs row m c v -> exists x path s t,
      trajectory dlt dist npoints in_start in_end (if half_class num i =? 0 then in_bot else in_top) draw coin g tries (k i)
        = Some (Ok (x, path)) /\
      in_start s = true /\ in_end t = true /\ starts path s /\ FlowSpec.ends path t /\ NoDup path /\ walk_along (side_of t2) path /\
      (forall n, outflow B1 x n = (ind t n - ind s n)%Z) /\
      verdict order B1 B2 (length (g_edges g)) x (Z.of_nat (half_class num i)) v
  end.
Proof.
  intros Hn Ho Hi. unfold flow_job. rewrite class_half by auto. cbn [bind].
  assert (HT : exists d T, signs d /\ orient_matrix (m_c B1) ori (bits i) = Ok T /\ T = diag_mat (m_c B1) d).
  { destruct ori; [| |congruence]; cbn [orient_matrix]; do 2 eexists; (split; [|split; reflexivity]); intros j; auto.
    destruct (bits i j); auto. }
  destruct HT as (d & T & Hd & -> & ->). cbn [bind]. unfold flow_cochain.
  set (cls := half_class num i).
  replace (1 <? cls) with false by (unfold cls, half_class; destruct (i <? num / 2); reflexivity).
  set (ck := if cls =? 0 then in_bot else in_top).
  assert (Hck : exists v, v < npoints /\ ck v = true) by (unfold ck; destruct (cls =? 0); auto).
  destruct (trajectory dlt dist npoints in_start in_end ck draw coin g tries (k i)) as [[[x path]|e]|] eqn:ET; auto.
  2:{ revert ET. apply (C35_no_exception dlt dist npoints in_start in_end ck draw coin t2); auto. }
  destruct (C35_trajectory_is_simple_path _ _ _ _ _ _ _ _ _ _ _ _ _ _ _ _ _ HG HB ET)
      as (s & t & A1 & A2 & A3 & A4 & A5 & A6 & A7 & _ & _ & A8).
  destruct (C36_flow_cochain_built order _ _ _ _ _ d x (Z.of_nat cls) Hord Hd HG HB HD A7) as (c & Ec & Hf & _).
  assert (Hd1 : signs (fun _ : nat => 1%Z)) by (intros j; auto).
  destruct (C36_flow_cochain_built order _ _ _ _ _ (fun _ => 1%Z) x (Z.of_nat cls) Hord Hd1 HG HB HD A7) as (c0 & Ec0 & Hf0 & _).
  rewrite Ec.
  destruct (boundary_matrices_pair npoints t2 g B1 B2 HG HB) as (BP & _).
  destruct (proj2 (Hc 0) Hpos) as (t0 & Ht0 & _).
  destruct (pair_neighbours _ _ _ _ _ _ _ _ _ BP HD Ht0 Hf) as (N1 & N2).
  split; [eapply (built_fit sc vabs); eauto|].
  intros v Hv. exists x, path, s, t. split; [reflexivity|]. do 7 (split; [assumption|]).
  destruct Hm as (M1 & M2 & M3 & M4 & M5 & M6).
  assert (HS : same_sample c c0).
  { exists order, order, B1, B2, d, (fun _ => 1%Z), x, (Z.of_nat cls), (Some (length (g_edges g))), (Some (length (g_edges g))).
    do 4 (split; [assumption|]). split; [apply BP|]. split; assumption. }
  destruct (lone_reoriented o sc vabs row m M1 M2 c c0 v M3 M4 M6 HS Hv) as (b & z & k' & E1 & E2).
  exists c0, b, z, k'. auto.
Qed.

Lemma jobs_judged num ori bits k : num <> 1 -> ori <> OOther ->
  match flow_jobs dlt dist npoints in_start in_end in_bot in_top draw coin order g B1 B2 tries num ori bits k (seq 0 num) with
  | None => True
  | Some (Err _) => False
  | Some (Ok cs) => length cs = num /\ forall bs, 1 <= bs -> 0 < num ->
      exists ys, edge_infer o sc vabs row m bs cs = Ok ys /\ judged num k ys
  end.
Proof.
  intros Hn Ho.
  pose proof (jobs_ok dlt dist npoints in_start in_end in_bot in_top draw coin order g B1 B2 tries num ori bits k (seq 0 num)) as HJ.
  destruct (flow_jobs _ _ _ _ _ _ _ _ _ _ _ _ _ _ _ _ _ _ _) as [[cs|e]|]; auto.
  - pose proof (Forall2_length HJ) as HL. rewrite seq_length in HL. split; auto.
    intros bs Hb Hp.
    assert (HF : Forall (fit row) cs).
    { apply Forall_forall. intros c Hin. apply In_nth_error in Hin as (i & Ei).
      assert (Hi : i < num) by (rewrite HL; apply nth_error_Some; congruence).
      assert (Es : nth_error (seq 0 num) i = Some i).
      { rewrite nth_error_nth' with (d := 0) by (rewrite seq_length; lia). rewrite seq_nth by lia. auto. }
      pose proof (Forall2_combine_index _ _ _ HJ i i c Es Ei) as Ej. cbn beta in Ej.
      pose proof (job_spec num ori bits k i Hn Ho Hi) as HS. rewrite Ej in HS. apply HS. }
    destruct (infer_ok o sc vabs row m bs cs) as (ys & Ey & Fy); auto.
    { apply Hm. } { intros ->. cbn in HL. lia. }
    exists ys. split; auto. pose proof (Forall2_length Fy) as Ly. split; [congruence|].
    intros i Hi.
    assert (Es : nth_error (seq 0 num) i = Some i).
    { rewrite nth_error_nth' with (d := 0) by (rewrite seq_length; lia). rewrite seq_nth by lia. auto. }
    destruct (nth_error cs i) as [c|] eqn:Ei; [|apply nth_error_None in Ei; lia].
    destruct (nth_error ys i) as [v|] eqn:Ev; [|apply nth_error_None in Ev; lia].
    pose proof (Forall2_combine_index _ _ _ HJ i i c Es Ei) as Ej. cbn beta in Ej.
    pose proof (Forall2_combine_index _ _ _ Fy i c v Ei Ev) as Hv.
    pose proof (job_spec num ori bits k i Hn Ho Hi) as HS. rewrite Ej in HS. destruct HS as (_ & HS).
    destruct (HS v Hv) as (x & path & s & t & H). exists x, path, s, t, v.
    destruct H as (H1 & H2 & H3 & H4 & H5 & H6 & H7 & H8 & H9). do 8 (split; [assumption|]). auto.
  - destruct HJ as (i & Hin & Ei). apply in_seq in Hin. pose proof (job_spec num ori bits k i Hn Ho ltac:(lia)) as HS.
    rewrite Ei in HS. exact HS.
Qed.

End Flow.

(** The whole flow experiment.  Unless a trajectory never ends, the data set is built, both splits
    have their size, and for every batch size the prediction for a sample is the verdict on its flow
    alone in the default orientation. *)
Theorem C83_flow_experiment {P D} (in1 in2 : P -> bool) points ts p2 t2 g B1 B2
    (dlt : D -> D -> bool) dist in_start in_end in_bot in_top draw coin order tries ntr nval otr ote bits bits' k k' :
  prepare_flow in1 in2 points ts = Ok (p2, t2, g, B1, B2) -> distinct_tris ts ->
  (forall l, Permutation (order l) l) -> (forall k n, 0 < n -> draw k n < n) ->
  (exists v, v < length p2 /\ in_start v = true) -> (exists v, v < length p2 /\ in_end v = true) ->
  (exists v, v < length p2 /\ in_bot v = true) -> (exists v, v < length p2 /\ in_top v = true) ->
  otr <> OOther -> ote <> OOther -> ntr <> 1 -> nval <> 1 -> sound_net ->
  match flow_splits dlt dist (length p2) in_start in_end in_bot in_top draw coin order g B1 B2 tries ntr nval otr ote bits bits' k k' with
  | None => True
  | Some (Err _) => False
  | Some (Ok made) =>
      let ds := flow_dataset None made ntr nval in
      length (fst made) = ntr /\ length (snd made) = nval /\
      (forall bs, 1 <= bs -> 0 < ntr -> exists ys, flow_predictions o sc vabs row m bs (fd_train ds) ds = Ok ys /\
         judged dlt dist (length p2) in_start in_end in_bot in_top draw coin order g t2 B1 B2 tries ntr k ys) /\
      (forall bs, 1 <= bs -> 0 < nval -> exists ys, flow_predictions o sc vabs row m bs (fd_val ds) ds = Ok ys /\
         judged dlt dist (length p2) in_start in_end in_bot in_top draw coin order g t2 B1 B2 tries nval k' ys)
  end.
Proof.
  intros HP HD Hord Hdr R1 R2 R3 R4 O1 O2 N1 N2 Hm.
  destruct (C34_preparation _ _ _ _ _ _ _ _ _ HP) as (HG & HB & Hc & _ & Hd2).
  assert (Hpos : 0 < length p2) by (destruct R1 as (v & Hv & _); lia).
  unfold flow_splits.
  pose proof (jobs_judged dlt dist (length p2) in_start in_end in_bot in_top draw coin order g t2 B1 B2 tries
    HG HB (Hd2 HD) Hc Hpos Hord Hdr R1 R2 R3 R4 Hm ntr otr bits k N1 O1) as J1.
  pose proof (jobs_judged dlt dist (length p2) in_start in_end in_bot in_top draw coin order g t2 B1 B2 tries
    HG HB (Hd2 HD) Hc Hpos Hord Hdr R1 R2 R3 R4 Hm nval ote bits' k' N2 O2) as J2.
  destruct (flow_jobs _ _ _ _ _ _ _ _ _ _ _ _ _ _ ntr _ _ _ _) as [[tr|e]|]; auto.
  destruct (flow_jobs _ _ _ _ _ _ _ _ _ _ _ _ _ _ nval _ _ _ _) as [[te|e]|]; auto.
  destruct J1 as (L1 & J1), J2 as (L2 & J2). cbn [fst snd].
  destruct (items_app tr te (seq 0 ntr) (seq ntr nval)) as (I1 & I2). rewrite L1 in I1, I2. rewrite L2 in I2.
  split; auto. split; auto. unfold flow_predictions, flow_dataset. cbn [fd_train fd_val fst snd]. rewrite I1, I2. cbn [bind].
  split; intros; auto.
Qed.

(** Hence the orientations asked for, and the random signs, do not matter; nor does the batch size. *)
Theorem C83_orientations_irrelevant {P D} (in1 in2 : P -> bool) points ts p2 t2 g B1 B2
    (dlt : D -> D -> bool) dist in_start in_end in_bot in_top draw coin order tries ntr nval k k'
    otr ote bits bits' otr2 ote2 bits2 bits2' made made2 :
  prepare_flow in1 in2 points ts = Ok (p2, t2, g, B1, B2) -> distinct_tris ts ->
  (forall l, Permutation (order l) l) -> (forall k n, 0 < n -> draw k n < n) ->
  (exists v, v < length p2 /\ in_start v = true) -> (exists v, v < length p2 /\ in_end v = true) ->
  (exists v, v < length p2 /\ in_bot v = true) -> (exists v, v < length p2 /\ in_top v = true) ->
  otr <> OOther -> ote <> OOther -> otr2 <> OOther -> ote2 <> OOther -> 2 <= ntr -> 2 <= nval -> sound_net ->
  flow_splits dlt dist (length p2) in_start in_end in_bot in_top draw coin order g B1 B2 tries ntr nval otr ote bits bits' k k' = Some (Ok made) ->
  flow_splits dlt dist (length p2) in_start in_end in_bot in_top draw coin order g B1 B2 tries ntr nval otr2 ote2 bits2 bits2' k k' = Some (Ok made2) ->
  forall bs bs2, 1 <= bs -> 1 <= bs2 ->
  let ds := flow_dataset None made ntr nval in
  let ds2 := flow_dataset None made2 ntr nval in
  exists ys zs,
    flow_predictions o sc vabs row m bs (fd_train ds) ds = Ok ys /\ flow_predictions o sc vabs row m bs2 (fd_train ds2) ds2 = Ok ys /\
    flow_predictions o sc vabs row m bs (fd_val ds) ds = Ok zs /\ flow_predictions o sc vabs row m bs2 (fd_val ds2) ds2 = Ok zs.
Proof.
  intros HP HD Hord Hdr R1 R2 R3 R4 O1 O2 O3 O4 N1 N2 Hm E E2 bs bs2 Hb Hb2 ds ds2.
  pose proof (C83_flow_experiment in1 in2 points ts p2 t2 g B1 B2 dlt dist in_start in_end in_bot in_top draw coin order tries
    ntr nval otr ote bits bits' k k' HP HD Hord Hdr R1 R2 R3 R4 O1 O2 ltac:(lia) ltac:(lia) Hm) as A.
  pose proof (C83_flow_experiment in1 in2 points ts p2 t2 g B1 B2 dlt dist in_start in_end in_bot in_top draw coin order tries
    ntr nval otr2 ote2 bits2 bits2' k k' HP HD Hord Hdr R1 R2 R3 R4 O3 O4 ltac:(lia) ltac:(lia) Hm) as B.
  rewrite E in A. rewrite E2 in B. destruct A as (_ & _ & A1 & A2), B as (_ & _ & B1' & B2').
  destruct (A1 bs Hb ltac:(lia)) as (ys & Y1 & Y2). destruct (A2 bs Hb ltac:(lia)) as (zs & Z1 & Z2).
  destruct (B1' bs2 Hb2 ltac:(lia)) as (ys' & Y1' & Y2'). destruct (B2' bs2 Hb2 ltac:(lia)) as (zs' & Z1' & Z2').
  rewrite (judged_det _ _ _ _ _ _ _ _ _ _ _ _ _ _ _ _ _ _ _ Y2' Y2) in Y1'.
  rewrite (judged_det _ _ _ _ _ _ _ _ _ _ _ _ _ _ _ _ _ _ _ Z2' Z2) in Z1'.
  exists ys, zs. auto.
Qed.

(** ** Ocean *)

(** [v] is the verdict on the flow along the path [p] with the label of its turn. *)
Definition opinion order (E : list (nat * nat)) (B1 B2 : mat) (center : Z * Z) (coords : list (Z * Z))
    (p : list nat) (v : V) : Prop :=
  exists x y s t ps pt, length x = length E /\
    (forall e a b, nth_error E e = Some (a, b) -> nth e x 0%Z = net p a b) /\
    starts p s /\ FlowSpec.ends p t /\ nth_error coords s = Some ps /\ nth_error coords t = Some pt /\
    label_of center ps pt y /\ verdict order B1 B2 (length E) x y v.

Lemma opinion_det order E B1 B2 center coords p v w :
  opinion order E B1 B2 center coords p v -> opinion order E B1 B2 center coords p w -> v = w.
Proof.
  intros (x & y & s & t & ps & pt & L & N & S & T & C1 & C2 & Y & H)
    (x' & y' & s' & t' & ps' & pt' & L' & N' & S' & T' & C1' & C2' & Y' & H').
  assert (x' = x).
  { apply nth_error_ext. intros i. destruct (Nat.ltb_spec i (length E)) as [Hi|Hi].
    - destruct (nth_error E i) as [[a b]|] eqn:Ei; [|apply nth_error_None in Ei; lia].
      rewrite (nth_error_nth' x' 0%Z), (nth_error_nth' x 0%Z) by lia. rewrite (N i a b Ei), (N' i a b Ei). reflexivity.
    - rewrite (proj2 (nth_error_None x' i)), (proj2 (nth_error_None x i)) by lia. reflexivity. }
  subst x'. unfold starts, FlowSpec.ends in *.
  assert (s' = s) by congruence. assert (t' = t) by congruence. subst s' t'.
  assert (ps' = ps) by congruence. assert (pt' = pt) by congruence. subst ps' pt'.
  assert (y' = y) by (unfold label_of in *; lia). subst y'. eapply verdict_det; eauto.
Qed.

Lemma filter_forall2 {A B} (R : A -> B -> Prop) (f : bool -> bool) (l : list (bool * A)) (r : list (bool * B)) :
  Forall2 (fun a b => fst b = fst a /\ R (snd a) (snd b)) l r ->
  Forall2 R (map snd (filter (fun a => f (fst a)) l)) (map snd (filter (fun b => f (fst b)) r)).
Proof.
  induction 1 as [|a b l r (E & H) _ IH]; [constructor|]. cbn [filter]. rewrite E. destruct (f (fst a)); auto.
  cbn [map]. constructor; auto.
Qed.

(** The samples of an ocean data set. *)
Lemma ocean_made sort order shuffle bits otr ote elist faces trajs center coords tr te :
  (forall l, Permutation (shuffle l) l) ->
  load_ocean sort order shuffle bits otr ote elist faces trajs center coords = Ok (tr, te) ->
  let E := sort (g_edges (ocean_graph elist)) in
  let paths := ocean_paths trajs in
  let mask := shuffle (train_mask (length paths)) in
  exists B1 B2, incidence_matrices (sorted_nodes (ocean_graph elist)) E faces = Ok (B1, B2) /\ 100 < length paths /\
    let made := fun p c => exists x y d, path_to_flow E p = Ok x /\ extract_label center coords p = Ok y /\ signs d /\
      build_cochain order B1 B2 (diag_mat (m_c B1) d) x y (Some (length (g_edges (ocean_graph elist)))) = Ok c in
    Forall2 made (map snd (filter fst (combine mask paths))) tr /\
    Forall2 made (map snd (filter (fun a => negb (fst a)) (combine mask paths))) te.
Proof.
  intros Hsh H E paths mask. unfold load_ocean in H. apply bind_ok in H as ([B1 B2] & HB & H). fold E in HB, H. fold paths in H. fold mask in H.
  apply bind_ok in H as (u1 & _ & H). apply bind_ok in H as (flows & Hf & H). apply bind_ok in H as (labels & Hlb & H).
  apply bind_ok in H as (u2 & Hlen & H). apply bind_ok in H as (u3 & _ & H). apply bind_ok in H as (u4 & _ & H).
  apply bind_ok in H as (out & Hout & H). injection H as <- <-.
  apply mapM_ok_iff in Hf, Hlb, Hout. pose proof (Forall2_length Hlb) as Lb.
  exists B1, B2. split; auto. split.
  { destruct (Nat.leb_spec (length labels) 100); [discriminate|lia]. }
  intros made.
  assert (Lm : length mask = length paths).
  { unfold mask. rewrite (Permutation_length (Hsh _)). apply C50_mask. }
  assert (G : Forall2 (fun a b => fst b = fst a /\ made (snd a) (snd b)) (combine mask paths) out).
  { clear HB Hlen Lb. revert Hf Hlb Hout Lm. generalize mask, paths. clear mask paths.
    intros mask paths Hf. revert mask labels out.
    generalize 0. induction Hf as [|p x ps flows Hp _ IH]; intros s mask labels out Hlb Hout Lm.
    - destruct mask; [|discriminate Lm]. inversion Hlb; subst. inversion Hout; subst. constructor.
    - destruct mask as [|b mask]; [discriminate Lm|]. injection Lm as Lm. inversion Hlb as [|? y ? labels' Hy Hlb']; subst.
      cbn [length seq combine] in Hout. inversion Hout as [|? bc ? out' Hbc Hout']; subst. cbn [combine]. constructor; [|eapply IH; eauto].
      unfold ocean_sample in Hbc. apply bind_ok in Hbc as (T & HT & Hbc). apply bind_ok in Hbc as (c & Hc & Hbc). injection Hbc as <-.
      cbn [fst snd]. split; auto. destruct (orient_signs _ _ _ _ HT) as (d & Hd & ->). exists x, y, d. auto. }
  split.
  - apply (filter_forall2 made (fun b => b) _ _ G).
  - apply (filter_forall2 made negb _ _ G).
Qed.

(** The whole ocean experiment: both splits are evaluated without exception, and the prediction for a
    path is the verdict on its flow alone in the default orientation, whatever the orientations asked
    for, the random signs and the batch size. *)
Theorem C83_ocean_experiment sort order shuffle bits otr ote elist faces trajs center coords tr te :
  loop_free elist -> (forall l, Permutation (sort l) l) -> (forall l, Permutation (order l) l) ->
  (forall l, Permutation (shuffle l) l) -> distinct_tris faces -> faces <> [] -> sound_net ->
  load_ocean sort order shuffle bits otr ote elist faces trajs center coords = Ok (tr, te) ->
  let E := sort (g_edges (ocean_graph elist)) in
  let paths := ocean_paths trajs in
  let mask := shuffle (train_mask (length paths)) in
  let ds := ocean_dataset (tr, te) in
  exists B1 B2, incidence_matrices (sorted_nodes (ocean_graph elist)) E faces = Ok (B1, B2) /\
    forall bs, 1 <= bs -> exists ys zs,
      flow_predictions o sc vabs row m bs (fd_train ds) ds = Ok ys /\
      flow_predictions o sc vabs row m bs (fd_val ds) ds = Ok zs /\
      Forall2 (opinion order E B1 B2 center coords) (map snd (filter fst (combine mask paths))) ys /\
      Forall2 (opinion order E B1 B2 center coords) (map snd (filter (fun a => negb (fst a)) (combine mask paths))) zs.
Proof.
  intros Hl Hs Hord Hsh HD Hne Hm H E paths mask ds.
  pose proof (C50_ocean_dataset sort order shuffle bits otr ote elist faces trajs center coords tr te Hl Hs Hord Hsh H) as C.
  destruct C as (_ & _ & _ & _ & _ & _ & _ & _ & _ & L8 & Lsum & _). fold paths in L8, Lsum.
  destruct (ocean_made _ _ _ _ _ _ _ _ _ _ _ _ _ Hsh H) as (B1 & B2 & HB & H100 & F1 & F2). fold E paths mask in HB, H100, F1, F2.
  exists B1, B2. split; auto. intros bs Hb.
  pose proof (ocean_graph_ok elist sort Hl Hs) as HO. fold E in HO.
  pose proof (incidence_faces _ _ _ _ _ HB) as HF.
  destruct (incidence_matrices_spec _ E faces HO HF) as (B1' & B2' & E' & H1 & H2).
  assert (EB : Ok (B1', B2') = Ok (B1, B2)) by congruence. injection EB as -> ->.
  pose proof (ocean_pair _ E faces B1 B2 HO HF H1 H2) as BP.
  destruct H1 as (_ & Hc1 & _), H2 as (Hr2 & _).
  assert (Hlen : length (g_edges (ocean_graph elist)) = length E) by (symmetry; apply Permutation_length, Hs).
  assert (HDp : distinct_tris (map (tri_map (posn (sorted_nodes (ocean_graph elist)))) faces)) by (eapply distinct_positions; eauto).
  destruct Hm as (M1 & M2 & M3 & M4 & M5 & M6).
  (* one sample *)
  assert (G : forall p c, (exists x y d, path_to_flow E p = Ok x /\ extract_label center coords p = Ok y /\ signs d /\
      build_cochain order B1 B2 (diag_mat (m_c B1) d) x y (Some (length (g_edges (ocean_graph elist)))) = Ok c) ->
      fit row c /\ forall v, lone o sc vabs row m c v -> opinion order E B1 B2 center coords p v).
  { intros p c (x & y & d & Hx & Hy & Hd & Hc).
    destruct (C39_flow elist sort faces B1 B2 p x Hl Hs HB Hx) as (Lx & _ & Nx & _). fold E in Lx, Nx.
    destruct (C50_label _ _ _ _ Hy) as (s & t & ps & pt & S1 & S2 & S3 & S4 & S5).
    assert (Hr : m_r B2 = m_c B1) by congruence.
    pose proof (build_cochain_sound _ _ _ _ _ _ _ _ _ Hord Hd eq_refl Hr Hc) as Hf.
    destruct faces as [|f0 fs]; [congruence|].
    destruct (pair_neighbours _ _ _ _ (tri_map (posn (sorted_nodes (ocean_graph elist))) f0) _ _ _ _ BP HDp ltac:(left; auto) Hf) as (N1 & N2).
    split; [eapply (built_fit sc vabs); eauto|].
    intros v Hv.
    destruct (build_cochain_ok order B1 B2 (m_c B1) (fun _ => 1%Z) x y (Some (length E))) as (c0 & Hc0); auto.
    { intros j; auto. } { congruence. }
    { intros i j Hi Hj Hij. eapply gram_B1_bound; eauto. }
    { intros i j Hi Hj Hij. eapply gram_B2_bound; eauto. }
    { intros n En. congruence. }
    assert (HS : same_sample c c0).
    { exists order, order, B1, B2, d, (fun _ => 1%Z), x, y, (Some (length (g_edges (ocean_graph elist)))), (Some (length E)).
      do 3 (split; [assumption|]). split; [intros j; auto|]. auto. }
    destruct (lone_reoriented o sc vabs row m M1 M2 c c0 v M3 M4 M6 HS Hv) as (b & z & k' & E1 & E2).
    exists x, y, s, t, ps, pt. do 7 (split; [assumption|]). exists c0, b, z, k'. auto. }
  (* a split *)
  assert (S : forall ps cs, Forall2 (fun p c => exists x y d, path_to_flow E p = Ok x /\ extract_label center coords p = Ok y /\ signs d /\
      build_cochain order B1 B2 (diag_mat (m_c B1) d) x y (Some (length (g_edges (ocean_graph elist)))) = Ok c) ps cs -> cs <> [] ->
      exists ys, edge_infer o sc vabs row m bs cs = Ok ys /\ Forall2 (opinion order E B1 B2 center coords) ps ys).
  { intros ps cs F Hn.
    destruct (infer_ok o sc vabs row m bs cs M5 Hb Hn) as (ys & Ey & Fy).
    { clear Hn. induction F; constructor; auto. eapply G; eauto. }
    exists ys. split; auto. clear Ey Hn. revert ys Fy. induction F as [|p c ps cs Hp _ IH]; intros ys Fy; inversion Fy; subst; constructor; auto.
    eapply G; eauto. }
  unfold eight_tenths in L8.
  destruct (S _ _ F1) as (ys & Y1 & Y2). { intros ->. cbn in *. lia. }
  destruct (S _ _ F2) as (zs & Z1 & Z2). { intros ->. cbn in *. lia. }
  exists ys, zs. unfold flow_predictions, ds, ocean_dataset. cbn [fst snd fd_train fd_val].
  destruct (items_app tr te (seq 0 (length tr)) (seq (length tr) (length te))) as (I1 & I2). rewrite I1, I2. cbn [bind]. auto.
Qed.

Theorem C83_ocean_orientations_irrelevant sort order shuffle bits otr ote bits2 otr2 ote2 elist faces trajs center coords made made2 :
  loop_free elist -> (forall l, Permutation (sort l) l) -> (forall l, Permutation (order l) l) ->
  (forall l, Permutation (shuffle l) l) -> distinct_tris faces -> faces <> [] -> sound_net ->
  load_ocean sort order shuffle bits otr ote elist faces trajs center coords = Ok made ->
  load_ocean sort order shuffle bits2 otr2 ote2 elist faces trajs center coords = Ok made2 ->
  forall bs bs2, 1 <= bs -> 1 <= bs2 ->
  let ds := ocean_dataset made in let ds2 := ocean_dataset made2 in
  exists ys zs,
    flow_predictions o sc vabs row m bs (fd_train ds) ds = Ok ys /\ flow_predictions o sc vabs row m bs2 (fd_train ds2) ds2 = Ok ys /\
    flow_predictions o sc vabs row m bs (fd_val ds) ds = Ok zs /\ flow_predictions o sc vabs row m bs2 (fd_val ds2) ds2 = Ok zs.
Proof.
  destruct made as [tr te], made2 as [tr2 te2]. intros Hl Hs Hord Hsh HD Hne Hm H H' bs bs2 Hb Hb2 ds ds2.
  destruct (C83_ocean_experiment _ _ _ _ _ _ _ _ _ _ _ _ _ Hl Hs Hord Hsh HD Hne Hm H) as (B1 & B2 & HB & K).
  destruct (C83_ocean_experiment _ _ _ _ _ _ _ _ _ _ _ _ _ Hl Hs Hord Hsh HD Hne Hm H') as (B1' & B2' & HB' & K').
  rewrite HB in HB'. injection HB' as <- <-.
  destruct (K bs Hb) as (ys & zs & Y1 & Z1 & Y2 & Z2). destruct (K' bs2 Hb2) as (ys' & zs' & Y1' & Z1' & Y2' & Z2').
  assert (G : forall ps ys ys', Forall2 (opinion order (sort (g_edges (ocean_graph elist))) B1 B2 center coords) ps ys ->
     Forall2 (opinion order (sort (g_edges (ocean_graph elist))) B1 B2 center coords) ps ys' -> ys' = ys).
  { clear. intros ps ys ys' F. revert ys'. induction F as [|p v ps ys Hv _ IH]; intros ys' F'; inversion F'; subst; auto.
    f_equal; auto. eapply opinion_det; eauto. }
  rewrite (G _ _ _ Y2 Y2') in Y1'. rewrite (G _ _ _ Z2 Z2') in Z1'. exists ys, zs. auto.
Qed.

End Props.

(** A file made with other numbers of samples is found in the same folder: the training split then
    contains validation samples of that file, or reading it raises. *)
Theorem C83_stale_file_refuted tr te ntr nval otr ote np i c :
  length tr <= i -> nth_error te (i - length tr) = Some c -> i < ntr ->
  flow_folder np otr ote ntr nval = flow_folder np otr ote (length tr) (length te) /\
  forall made, let ds := flow_dataset (Some (tr ++ te)) made ntr nval in
    nth_error (fd_train ds) i = Some i /\ nth_error (fd_list ds) i = Some c /\
    (length tr + length te < ntr -> flow_items (fd_train ds) ds = Err IndexError).
Proof.
  intros Hi Ec Hn. split; auto. intros made. cbn [flow_dataset fd_train fd_list]. split; [|split].
  - rewrite nth_error_nth' with (d := 0) by (rewrite seq_length; lia). rewrite seq_nth by lia. auto.
  - rewrite nth_error_app2 by lia. auto.
  - intros H. unfold flow_items, flow_dataset. cbn [fd_train fd_list].
    assert (G : forall (l : list (cochain Z)) n s, length l < s + n -> s <= length l ->
      mapM (fun i => of_option IndexError (nth_error l i)) (seq s n) = Err IndexError).
    { intros l n. induction n as [|n IH]; intros s H1 H2; [lia|]. cbn [seq mapM].
      destruct (nth_error l s) as [a|] eqn:E; [|reflexivity]. cbn [of_option bind].
      assert (s < length l) by (apply nth_error_Some; congruence). rewrite IH by lia. reflexivity. }
    apply G; [rewrite app_length; lia|lia].
Qed.

(** ** The samples themselves *)

(** The signs that an orientation asks for. *)
Definition asked (ori : orientation) (bits : nat -> bool) (e : nat) : Z :=
  match ori with ORandom => if bits e then 1%Z else (-1)%Z | _ => 1%Z end.

Lemma asked_matrix n ori bits T : orient_matrix n ori bits = Ok T -> T = diag_mat n (asked ori bits) /\ signs (asked ori bits).
Proof.
  destruct ori; cbn [orient_matrix]; intros H; try discriminate; injection H as <-; (split; [reflexivity|]); intros e; cbn [asked]; auto.
  destruct (bits e); auto.
Qed.

(** Sample [i] of a flow split with its signs, its trajectory and its class. *)
Definition flow_sample_is {D} (dlt : D -> D -> bool) dist np in_start in_end in_bot in_top draw coin g B1 B2 tries num ori
    (bits : nat -> nat -> bool) (k : nat -> nat) (i : nat) (c : cochain Z) : Prop :=
  exists x path,
    trajectory dlt dist np in_start in_end (if i <? num / 2 then in_bot else in_top) draw coin g tries (k i) = Some (Ok (x, path)) /\
    is_flow_cochain (m_c B1) B1 B2 (asked ori (bits i)) x (if i <? num / 2 then 0%Z else 1%Z) c.

(** The training samples have the training orientation, the test samples the test orientation. *)
Theorem C83_flow_samples {P D} (in1 in2 : P -> bool) points ts p2 t2 g B1 B2
    (dlt : D -> D -> bool) dist in_start in_end in_bot in_top draw coin order tries ntr nval otr ote bits bits' k k' made :
  prepare_flow in1 in2 points ts = Ok (p2, t2, g, B1, B2) -> (forall l, Permutation (order l) l) ->
  flow_splits dlt dist (length p2) in_start in_end in_bot in_top draw coin order g B1 B2 tries ntr nval otr ote bits bits' k k' = Some (Ok made) ->
  let ds := flow_dataset None made ntr nval in
  exists tr te, flow_items (fd_train ds) ds = Ok tr /\ flow_items (fd_val ds) ds = Ok te /\ length tr = ntr /\ length te = nval /\
    (forall i c, nth_error tr i = Some c ->
       flow_sample_is dlt dist (length p2) in_start in_end in_bot in_top draw coin g B1 B2 tries ntr otr bits k i c) /\
    (forall i c, nth_error te i = Some c ->
       flow_sample_is dlt dist (length p2) in_start in_end in_bot in_top draw coin g B1 B2 tries nval ote bits' k' i c).
Proof.
  intros HP Hord H. destruct (C34_preparation _ _ _ _ _ _ _ _ _ HP) as (HG & HB & _).
  destruct (boundary_matrices_pair (length p2) t2 g B1 B2 HG HB) as (BP & _).
  assert (G : forall num ori bits k cs,
    flow_jobs dlt dist (length p2) in_start in_end in_bot in_top draw coin order g B1 B2 tries num ori bits k (seq 0 num) = Some (Ok cs) ->
    length cs = num /\ forall i c, nth_error cs i = Some c ->
      flow_sample_is dlt dist (length p2) in_start in_end in_bot in_top draw coin g B1 B2 tries num ori bits k i c).
  { clear H. intros num ori b0 k0 cs H.
    pose proof (jobs_ok dlt dist (length p2) in_start in_end in_bot in_top draw coin order g B1 B2 tries num ori b0 k0 (seq 0 num)) as HJ.
    rewrite H in HJ. pose proof (Forall2_length HJ) as HL. rewrite seq_length in HL. split; auto.
    intros i c Ei. assert (Hi : i < num) by (rewrite HL; apply nth_error_Some; congruence).
    assert (Es : nth_error (seq 0 num) i = Some i).
    { rewrite nth_error_nth' with (d := 0) by (rewrite seq_length; lia). rewrite seq_nth by lia. auto. }
    pose proof (Forall2_combine_index _ _ _ HJ i i c Es Ei) as Ej. cbn beta in Ej. clear HJ H.
    unfold flow_job in Ej. destruct (Nat.eq_dec num 1) as [->|Hn1]; [discriminate Ej|].
    rewrite class_half in Ej by auto. cbn [bind] in Ej.
    destruct (orient_matrix (m_c B1) ori (b0 i)) as [T|] eqn:ET; [|discriminate Ej]. cbn [bind] in Ej.
    destruct (asked_matrix _ _ _ _ ET) as (-> & Hs).
    unfold flow_cochain in Ej. unfold half_class in Ej.
    assert (Eh : forall A (a b : A), (if (if i <? num / 2 then 0 else 1) =? 0 then a else b) = if i <? num / 2 then a else b)
      by (intros; destruct (i <? num / 2); reflexivity).
    rewrite Eh in Ej.
    replace (1 <? (if i <? num / 2 then 0 else 1)) with false in Ej by (destruct (i <? num / 2); reflexivity).
    destruct (trajectory dlt dist (length p2) in_start in_end _ draw coin g tries (k0 i)) as [[[x path]|]|] eqn:Et; try discriminate Ej.
    injection Ej as Ej. exists x, path. split; [exact Et|].
    replace (if i <? num / 2 then 0%Z else 1%Z) with (Z.of_nat (if i <? num / 2 then 0 else 1)) by (destruct (i <? num / 2); reflexivity).
    eapply (build_cochain_sound order); eauto. apply BP. }
  unfold flow_splits in H.
  destruct (flow_jobs _ _ _ _ _ _ _ _ _ _ _ _ _ _ ntr _ _ _ _) as [[tr|]|] eqn:E1; try discriminate H.
  destruct (flow_jobs _ _ _ _ _ _ _ _ _ _ _ _ _ _ nval _ _ _ _) as [[te|]|] eqn:E2; try discriminate H. injection H as <-.
  destruct (G _ _ _ _ _ E1) as (L1 & G1). destruct (G _ _ _ _ _ E2) as (L2 & G2).
  destruct (items_app tr te (seq 0 ntr) (seq ntr nval)) as (I1 & I2). rewrite L1 in I1, I2. rewrite L2 in I2.
  exists tr, te. auto 10.
Qed.

(** The same for the ocean: path number [i] uses its own random signs. *)
Definition ocean_sample_is center coords (E : list (nat * nat)) B1 B2 otr ote (bits : nat -> nat -> bool)
    (i : nat) (train : bool) (p : list nat) (c : cochain Z) : Prop :=
  exists x y s t ps pt, length x = length E /\
    (forall e a b, nth_error E e = Some (a, b) -> nth e x 0%Z = net p a b) /\
    starts p s /\ FlowSpec.ends p t /\ nth_error coords s = Some ps /\ nth_error coords t = Some pt /\ label_of center ps pt y /\
    is_flow_cochain (m_c B1) B1 B2 (asked (if train then otr else ote) (bits i)) x y c.

Theorem C83_ocean_samples sort order shuffle bits otr ote elist faces trajs center coords tr te :
  loop_free elist -> (forall l, Permutation (sort l) l) -> (forall l, Permutation (order l) l) ->
  (forall l, Permutation (shuffle l) l) ->
  load_ocean sort order shuffle bits otr ote elist faces trajs center coords = Ok (tr, te) ->
  let E := sort (g_edges (ocean_graph elist)) in
  let paths := ocean_paths trajs in
  let mask := shuffle (train_mask (length paths)) in
  let ds := ocean_dataset (tr, te) in
  exists B1 B2 cs, incidence_matrices (sorted_nodes (ocean_graph elist)) E faces = Ok (B1, B2) /\ length cs = length paths /\
    flow_items (fd_train ds) ds = Ok (map snd (filter fst (combine mask cs))) /\
    flow_items (fd_val ds) ds = Ok (map snd (filter (fun a => negb (fst a)) (combine mask cs))) /\
    forall i b p c, nth_error mask i = Some b -> nth_error paths i = Some p -> nth_error cs i = Some c ->
      ocean_sample_is center coords E B1 B2 otr ote bits i b p c.
Proof.
  intros Hl Hs Hord Hsh H E paths mask ds. unfold load_ocean in H.
  apply bind_ok in H as ([B1 B2] & HB & H). fold E in HB, H. fold paths in H. fold mask in H.
  apply bind_ok in H as (u1 & _ & H). apply bind_ok in H as (flows & Hf & H). apply bind_ok in H as (labels & Hlb & H).
  apply bind_ok in H as (u2 & Hlen & H). apply bind_ok in H as (u3 & _ & H). apply bind_ok in H as (u4 & Hrc & H).
  apply bind_ok in H as (out & Hout & H). injection H as <- <-.
  apply mapM_ok_iff in Hf, Hlb, Hout. pose proof (Forall2_length Hlb) as Lb. pose proof (Forall2_length Hf) as Lf.
  assert (Lm : length mask = length paths).
  { unfold mask. rewrite (Permutation_length (Hsh _)). apply C50_mask. }
  assert (Lo : length out = length paths).
  { apply Forall2_length in Hout. rewrite <- Hout, !combine_length, seq_length. lia. }
  assert (Hr : m_r B2 = m_c B1).
  { unfold assert_ in Hrc. destruct (Nat.eqb_spec (m_c B1) (m_r B2)); [auto|discriminate]. }
  assert (Hn : forall i b c, nth_error out i = Some (b, c) -> nth_error mask i = Some b /\
     forall p, nth_error paths i = Some p -> ocean_sample_is center coords E B1 B2 otr ote bits i b p c).
  { intros i b c Hi. assert (Li : i < length paths) by (rewrite <- Lo; apply nth_error_Some; congruence).
    destruct (nth_error mask i) as [q|] eqn:Em; [|apply nth_error_None in Em; lia].
    destruct (nth_error flows i) as [x|] eqn:Ex; [|apply nth_error_None in Ex; lia].
    destruct (nth_error labels i) as [y|] eqn:Ey; [|apply nth_error_None in Ey; lia].
    assert (Es : nth_error (seq 0 (length flows)) i = Some i).
    { rewrite nth_error_nth' with (d := 0) by (rewrite seq_length; lia). rewrite seq_nth by lia. auto. }
    pose proof (Forall2_combine_index _ _ _ Hout i _ _
        (OceanProps.nth_error_combine _ _ i _ _ Es (OceanProps.nth_error_combine _ _ i _ _ Em (OceanProps.nth_error_combine _ _ i _ _ Ex Ey))) Hi) as Hs'.
    cbn beta iota in Hs'. unfold ocean_sample in Hs'. apply bind_ok in Hs' as (T & HT & Hs').
    apply bind_ok in Hs' as (c' & Hc' & Hs'). injection Hs' as -> ->. split; auto.
    intros p Hp. pose proof (Forall2_combine_index _ _ _ Hf i p x Hp Ex) as Hpx.
    pose proof (Forall2_combine_index _ _ _ Hlb i p y Hp Ey) as Hpy. cbn beta in Hpx, Hpy.
    destruct (C39_flow elist sort faces B1 B2 p x Hl Hs HB Hpx) as (Lx & _ & Nx & _).
    destruct (C50_label _ _ _ _ Hpy) as (s & t & ps & pt & S1 & S2 & S3 & S4 & S5).
    destruct (asked_matrix _ _ _ _ HT) as (-> & Hsg).
    exists x, y, s, t, ps, pt. do 7 (split; [assumption|]). eapply (build_cochain_sound order); eauto. }
  assert (Hfst : map fst out = mask).
  { apply nth_error_ext. intros i. rewrite nth_error_map.
    destruct (nth_error out i) as [[b c]|] eqn:Ei; simpl.
    - symmetry. eapply Hn; eauto.
    - symmetry. apply nth_error_None. apply nth_error_None in Ei. lia. }
  assert (Hout' : out = combine mask (map snd out)).
  { rewrite <- Hfst. clear. induction out as [|[b c] l IH]; simpl; f_equal; auto. }
  exists B1, B2, (map snd out). split; auto. split; [rewrite map_length; auto|].
  rewrite <- Hout'.
  destruct (items_app (map snd (filter fst out)) (map snd (filter (fun a => negb (fst a)) out))
    (seq 0 (length (map snd (filter fst out)))) (seq (length (map snd (filter fst out))) (length (map snd (filter (fun a => negb (fst a)) out))))) as (I1 & I2).
  split; [exact I1|]. split; [exact I2|].
  intros i b p c Eb Ep Ec. rewrite nth_error_map in Ec. destruct (nth_error out i) as [[b' c']|] eqn:Ei; [|discriminate Ec].
  injection Ec as ->. destruct (Hn i b' c Ei) as (Eb' & K). assert (b' = b) by congruence. subst. auto.
Qed.

(** ** Examples: the grid of [FlowProps], two samples per split, an odd network with two layers *)
Definition grid_splits otr ote bits := match grid_prepared with
  | Ok (p, t, g, B1, B2) =>
      flow_splits Nat.ltb (fun a b => (a - b) + (b - a)) (length p)
        (fun v => v =? 4) (fun v => v =? 5) (fun v => v =? 6) (fun v => v =? 0)
        (fun _ _ => 0) (fun _ => false) (fun l => l) g B1 B2 3 2 2 otr ote bits bits (fun i => i) (fun i => 7 + i)
  | Err _ => None
  end.
Definition grid_bits (i e : nat) : bool := Nat.odd (e + i * (e / 2)).
Definition grid_predictions otr ote bs (train : bool) := match grid_splits otr ote grid_bits with
  | Some (Ok made) => let ds := flow_dataset None made 2 2 in
      flow_predictions Zops Z.mul Z.abs (fun z => z) ex_orient bs (if train then fd_train ds else fd_val ds) ds
  | _ => Err RuntimeError
  end.

(** The orientations differ, the features differ, the predictions do not; the two classes are told apart. *)
Example C83_ex_grid : exists a b,
  grid_predictions ODefault ODefault 2 true = Ok [a; b] /\ grid_predictions ORandom ORandom 1 true = Ok [a; b] /\
  grid_predictions ORandom ODefault 5 false = Ok [a; b] /\ a <> b /\
  match grid_splits ODefault ODefault grid_bits, grid_splits ORandom ORandom grid_bits with
  | Some (Ok (c :: _, _)), Some (Ok (c' :: _, _)) => c_x c <> c_x c' /\ c_y c = c_y c'
  | _, _ => False
  end.
Proof.
  do 2 eexists. split; [vm_compute; reflexivity|]. split; [vm_compute; reflexivity|]. split; [vm_compute; reflexivity|].
  split; [discriminate|]. vm_compute. split; [discriminate|reflexivity].
Qed.

Example C83_ex_net : sound_net Zops Z.mul Z.abs (fun z => z) ex_orient.
Proof.
  split; [apply Zops_ok|]. split; [apply Zsign_ok|]. split; [apply Zabs_ok|]. split; [auto|]. split; [discriminate|].
  left. split; [reflexivity|]. apply C37_example_applies.
Qed.

(** A file with two training and two validation samples, asked for three training samples. *)
Example C83_ex_stale : match grid_splits ODefault ODefault grid_bits with
  | Some (Ok (tr, te)) =>
      let ds := flow_dataset (Some (tr ++ te)) ([], []) 3 1 in
      match flow_items (fd_train ds) ds with Ok l => nth_error l 2 = nth_error te 0 /\ length l = 3 | Err _ => False end
  | _ => False
  end.
Proof. vm_compute. auto. Qed.


Print Assumptions C83_flow_experiment.
Print Assumptions C83_orientations_irrelevant.
Print Assumptions C83_ocean_experiment.
Print Assumptions C83_ocean_orientations_irrelevant.
Print Assumptions C83_stale_file_refuted.
Print Assumptions C83_flow_samples.
Print Assumptions C83_ocean_samples.
