(** Lemmas on flow data sets and the evaluation of edge networks on them. *)
From Coq Require Import List Arith Lia ZArith Bool Permutation.
From Verif Require Import Base ScatterModel ScatterSpec ScatterProofs ComplexModel MPModel FlowSpec FlowModel
  FlowProofs FlowProofs2 FlowAdj FlowProps OrientModel OrientSpec OrientProofs OrientBatch OrientProps InferModel InferProps.
From Verif Require Import FlowPipeModel.
Import ListNotations.
Open Scope nat_scope.

Section Members.
Context {V : Type} (o : ops V) (sc : Z -> V -> V) (vabs : V -> V) (row : Z -> V) (m : omodel V).

(** The network alone on one sample. *)
Definition lone (c : cochain Z) (v : V) : Prop :=
  exists b z b', from_cochain_list [recast row c] = Ok b /\ edge_forward o sc vabs m b = Ok ([v], z, b').

Definition fit (c : cochain Z) : Prop := exists t, holds (recast row c) t /\ t_up t <> [] /\ t_lo t <> [] /\
  c_shb c = None /\ c_shc c = None /\ c_bidx c = None.

Lemma loop_runs ls : forall c t, holds c t -> t_up t <> [] -> t_lo t <> [] ->
  exists k u, conv_loop o sc ls c = Ok k /\ holds k u /\ length (t_x u) = length (t_x t).
Proof.
  induction ls as [|l ls IH]; intros c t H Hu Hl; cbn [conv_loop].
  - exists c, t. auto.
  - rewrite (oriented_conv_holds o sc l c t H).
    destruct (t_up t) as [|e1 r1] eqn:E1; [congruence|]. destruct (t_lo t) as [|e2 r2] eqn:E2; [congruence|]. cbn [bind].
    destruct (set_x_holds c t (tconv o sc l t) H) as (w & -> & Hw & _); [apply tconv_length|]. cbn [bind].
    destruct (IH w (set_tx t (tconv o sc l t)) Hw) as (k & u & Ek & Hk & Lk).
    + cbn [set_tx t_up]. rewrite E1. discriminate.
    + cbn [set_tx t_lo]. rewrite E2. discriminate.
    + exists k, u. split; auto. split; auto. rewrite Lk. cbn [set_tx t_x]. apply tconv_length.
Qed.

Lemma lone_exists c : om_layers m <> [] -> fit c -> exists v, lone c v.
Proof.
  intros HL (t & H & Hu & Hl & N1 & N2 & N3).
  assert (HF : Forall2 holds [recast row c] [t]) by (constructor; auto).
  destruct (from_list_ok [recast row c]) as (b & Eb); [discriminate| |].
  { intros k [<-|[]]. split; [exists t; auto|]. cbn [recast c_shb c_shc c_bidx]. auto. }
  destruct (from_list_joins _ _ _ HF Eb) as (J & B).
  assert (EO : ojoin [t] = t).
  { cbn [ojoin fold_right]. destruct t. unfold oplus; cbn. rewrite !app_nil_r. reflexivity. }
  rewrite EO in J.
  assert (Hnz : t_x t <> []).
  { destruct (t_up t) as [|[j i] r] eqn:E; [congruence|]. destruct (proj1 (proj2 (proj2 (holds_tok _ _ H))) j i) as (Hj & _).
    - rewrite E. left; auto.
    - intros E0. rewrite E0 in Hj. cbn in Hj. lia. }
  assert (P : exists c0 t0, (if om_invar m then let* x := need TypeError (c_x (cb_cochain b)) in
        set_x (cb_cochain b) (Some (map vabs x)) else Ok (cb_cochain b)) = Ok c0 /\ holds c0 t0 /\
      t_up t0 = t_up t /\ t_lo t0 = t_lo t /\ length (t_x t0) = length (t_x t)).
  { destruct (om_invar m).
    - rewrite (or_x _ _ _ _ _ _ J). cbn [need bind].
      destruct (set_x_holds (cb_cochain b) t (map vabs (t_x t)) J) as (w & -> & Hw & _); [apply map_length|].
      exists w, (set_tx t (map vabs (t_x t))). split; auto. split; auto. split; auto. split; auto. apply map_length.
    - exists (cb_cochain b), t. auto. }
  destruct P as (c0 & t0 & P0 & P1 & P2 & P3 & P4).
  destruct (loop_runs (om_layers m) c0 t0 P1) as (k & u & Q1 & Q2 & Q3); try congruence.
  set (xs := if om_invar m then t_x u else map vabs (t_x u)).
  assert (Lx : length xs = length (t_x t)) by (unfold xs; destruct (om_invar m); rewrite ?map_length; congruence).
  assert (EN : numbered 0 (map t_x [t]) = numbered 0 [xs]).
  { unfold numbered. cbn [map mapi_from]. rewrite Lx. reflexivity. }
  destruct (pool_numbered o (om_pool m) [xs]) as (s & S1 & S2); [discriminate| |].
  { constructor; auto. intros E. rewrite E in Lx. destruct (t_x t); [congruence|discriminate Lx]. }
  cbn [concat] in S2. rewrite app_nil_r in S2.
  exists (om_head m (reduce_rows o (om_pool m) xs)), b, (t_x u), (mkCBatch k (cb_batch b) (cb_ptr b)). split; auto.
  unfold edge_forward. rewrite P0. cbn [bind]. rewrite Q1. cbn [bind].
  destruct (om_layers m) as [|l ls]; [congruence|].
  rewrite (or_x _ _ _ _ _ _ Q2), B. cbn [need bind]. rewrite EN, S1. cbn [bind]. fold xs. rewrite S2. cbn [bind]. reflexivity.
Qed.

Lemma lone_det c v w : lone c v -> lone c w -> v = w.
Proof. intros (b & z & k & E1 & E2) (b' & z' & k' & E1' & E2'). congruence. Qed.

Lemma chunk_ok cs : om_layers m <> [] -> cs <> [] -> Forall fit cs ->
  exists ys, edge_predict o sc vabs row m cs = Ok ys /\ Forall2 lone cs ys.
Proof.
  intros HL Hne HF.
  destruct (from_list_ok (map (recast row) cs)) as (b & Eb).
  { destruct cs; [congruence|discriminate]. }
  { intros k Hk. apply in_map_iff in Hk as (c & <- & Hc). rewrite Forall_forall in HF.
    destruct (HF c Hc) as (t & H & _ & _ & N). split; [exists t; auto|exact N]. }
  assert (HO : forall c, In c (map (recast row) cs) -> exists x up su lo sl, oriented c x up su lo sl).
  { intros k Hk. apply in_map_iff in Hk as (c & <- & Hc). rewrite Forall_forall in HF.
    destruct (HF c Hc) as (t & H & _). do 5 eexists. exact H. }
  assert (HP : exists ps zs, length ps = length cs /\ length zs = length cs /\ Forall2 lone cs ps /\
     Forall2 (fun c pz => exists b1 b2, from_cochain_list [c] = Ok b1 /\
             edge_forward o sc vabs m b1 = Ok ([fst pz], snd pz, b2)) (map (recast row) cs) (combine ps zs)).
  { clear Hne Eb HO. induction HF as [|c cs Hc _ (ps & zs & L1 & L2 & I1 & I2)].
    - exists [], []. repeat constructor.
    - destruct (lone_exists c HL Hc) as (v & b1 & z & b2 & E1 & E2). exists (v :: ps), (z :: zs). cbn [length map combine].
      split; [lia|]. split; [lia|]. split; constructor; auto.
      + exists b1, z, b2. auto.
      + exists b1, b2. auto. }
  destruct HP as (ps & zs & L1 & L2 & HP & HQ). exists ps. split; auto.
  destruct (C05_edge_networks o sc vabs m _ b ps zs Eb HO HQ) as (b' & E); [rewrite map_length; auto|rewrite map_length; auto|].
  unfold edge_predict. rewrite Eb. cbn [bind]. rewrite E. reflexivity.
Qed.

Lemma infer_ok bs cs : om_layers m <> [] -> 1 <= bs -> cs <> [] -> Forall fit cs ->
  exists ys, edge_infer o sc vabs row m bs cs = Ok ys /\ Forall2 lone cs ys.
Proof.
  intros HL Hb Hne HF. unfold edge_infer, loader.
  destruct (Nat.eqb_spec bs 0) as [|_]; [lia|]. cbn [bind].
  set (bl := chunks (length cs) bs cs).
  assert (Hc : concat bl = cs) by (apply chunks_concat; auto).
  assert (G : exists yss, mapM (edge_predict o sc vabs row m) bl = Ok yss /\ Forall2 lone (concat bl) (concat yss) /\ length yss = length bl).
  { assert (Hn : forall c, In c bl -> c <> [] /\ Forall fit c).
    { intros c Hin. split; [eapply chunks_nonempty; eauto|]. rewrite Forall_forall in *. intros k Hk. apply HF.
      rewrite <- Hc. apply in_concat. exists c; auto. }
    clear Hc. induction bl as [|c bl IH]; [exists []; repeat constructor|].
    destruct IH as (yss & E & F & L); [intros; apply Hn; right; auto|].
    destruct (Hn c (or_introl eq_refl)) as (H1 & H2). destruct (chunk_ok c HL H1 H2) as (ys & Ey & Fy).
    exists (ys :: yss). cbn [mapM]. rewrite Ey. cbn [bind]. rewrite E. split; auto. split; [|cbn; lia].
    cbn [concat]. apply Forall2_app; auto. }
  destruct G as (yss & E & F & L). rewrite E. cbn [bind]. rewrite Hc in F.
  destruct yss as [|y yss].
  - destruct bl; [|discriminate L]. cbn in Hc. congruence.
  - exists (concat (y :: yss)). auto.
Qed.

(** The prediction for a sample does not depend on the orientation of its edges. *)
Lemma lone_reoriented (Ho : ops_ok o) (Hs : sign_ok o sc) c c' v :
  abs_ok sc vabs -> (forall s z, sign s -> sc s (row z) = row (s * z)%Z) ->
  (om_invar m = false /\ Forall (odd_layer sc) (om_layers m) \/
   om_invar m = true /\ Forall (fun l => ol_orient l = false) (om_layers m)) ->
  same_sample c c' -> lone c v -> lone c' v.
Proof.
  intros Ha Hr Hm HS (b & z & k & E1 & E2).
  destruct (C37_reoriented_dataset o sc vabs Ho Hs m row [c] [c'] b Ha Hr Hm) as (b' & E' & M); [constructor; auto|exact E1|].
  rewrite E2 in M. destruct (edge_forward o sc vabs m b') as [[[y z'] k']|] eqn:E3; [|destruct M]. subst y.
  exists b', z', k'. split; auto.
Qed.

(** Samples with upper and lower neighbours are fit. *)
Lemma built_fit n B1 B2 d x y c order T edges : build_cochain order B1 B2 T x y edges = Ok c ->
  is_flow_cochain n B1 B2 d x y c ->
  (exists lo e, c_lower c = Some lo /\ In e lo) -> (exists up e, c_upper c = Some up /\ In e up) -> fit c.
Proof.
  intros Hb Hf (lo0 & e & El & He) (up0 & e' & Eu & He').
  destruct (build_cochain_rest _ _ _ _ _ _ _ _ Hb) as (Hn & Hr).
  destruct (flow_holds sc vabs row _ _ _ _ _ _ _ Hf Hn) as (lo & slo & up & sup & _ & _ & H).
  eexists. split; [exact H|]. cbn [t_up t_lo].
  pose proof (or_up _ _ _ _ _ _ H) as U. pose proof (or_lo _ _ _ _ _ _ H) as L. cbn [recast c_upper c_lower t_up t_lo] in U, L.
  split; [|split; [|exact Hr]].
  - intros E. rewrite E in U. assert (up0 = []) by congruence. subst. destruct He'.
  - intros E. rewrite E in L. assert (lo0 = []) by congruence. subst. destruct He.
Qed.

End Members.

(** In a triangulation with a triangle there are upper and lower adjacent edges. *)
Lemma pair_neighbours R ts B1 B2 t d x y c : boundary_pair R ts B1 B2 -> distinct_tris ts -> In t ts ->
  is_flow_cochain (m_c B1) B1 B2 d x y c ->
  (exists lo e, c_lower c = Some lo /\ In e lo) /\ (exists up e, c_upper c = Some up /\ In e up).
Proof.
  intros BP HD Ht (_ & _ & _ & (lo & slo & L1 & _ & L2 & _ & L3) & (up & sup & U1 & _ & U2 & _ & U3)).
  pose proof (bp_proper _ _ _ _ BP t Ht) as Hp. destruct t as [[p q] r]. destruct Hp as (H1 & H2 & H3).
  assert (S1 : side_of ts (Nat.min p q) (Nat.max p q)).
  { split; [lia|]. exists (p, q, r). split; auto. cbn [verts In]. lia. }
  assert (S2 : side_of ts (Nat.min q r) (Nat.max q r)).
  { split; [lia|]. exists (p, q, r). split; auto. cbn [verts In]. lia. }
  destruct (bp_each _ _ _ _ BP _ _ (bp_sides _ _ _ _ BP _ _ S1)) as (e & He & Hc & _); [lia|].
  destruct (bp_each _ _ _ _ BP _ _ (bp_sides _ _ _ _ BP _ _ S2)) as (e' & He' & Hc' & _); [lia|].
  assert (Hne : e <> e').
  { intros <-. destruct (edge_col_inj _ _ _ _ _ _ Hc Hc'). lia. }
  assert (Hin : forall (l : list (nat * nat)) (s : list Z) p z, In (p, z) (combine l s) -> In p l).
  { intros l s p0 z H. eapply in_combine_l; eauto. }
  split.
  - exists lo, (e, e'). split; auto. apply (Hin lo slo (e, e') (d e * d e' * Z.sgn (gram B1 e e'))%Z). apply L3.
    do 3 (split; auto). split; auto. apply (gram_B1_share _ ts B1 B2 BP e e' _ _ _ _ He He' Hne Hc Hc').
    exists q. lia.
  - exists up, (e, e'). split; auto. apply (Hin up sup (e, e') (d e * d e' * Z.sgn (gram (mtr B2) e e'))%Z). apply U3.
    do 3 (split; auto). split; auto. apply (gram_B2_share _ ts B1 B2 BP HD e e' _ _ _ _ He He' Hne Hc Hc').
    exists (p, q, r). split; auto. unfold tri_has_edge. cbn [verts In]. lia.
Qed.

(** The jobs, one by one. *)
Lemma jobs_ok {D} (dlt : D -> D -> bool) dist np s e bo to draw coin order g B1 B2 tries num ori bits k is :
  match flow_jobs dlt dist np s e bo to draw coin order g B1 B2 tries num ori bits k is with
  | None => exists i, In i is /\ flow_job dlt dist np s e bo to draw coin order g B1 B2 tries num ori bits k i = None
  | Some (Err x) => exists i, In i is /\ flow_job dlt dist np s e bo to draw coin order g B1 B2 tries num ori bits k i = Some (Err x)
  | Some (Ok cs) => Forall2 (fun i c => flow_job dlt dist np s e bo to draw coin order g B1 B2 tries num ori bits k i = Some (Ok c)) is cs
  end.
Proof.
  induction is as [|i is IH]; cbn [flow_jobs]; [constructor|].
  destruct (flow_job dlt dist np s e bo to draw coin order g B1 B2 tries num ori bits k i) as [[c|x]|] eqn:E.
  - destruct (flow_jobs _ _ _ _ _ _ _ _ _ _ _ _ _ _ _ _ _ _ is) as [[cs|x]|].
    + constructor; auto.
    + destruct IH as (j & Hj & Ej). exists j. split; [right|]; auto.
    + destruct IH as (j & Hj & Ej). exists j. split; [right|]; auto.
  - exists i. split; [left|]; auto.
  - exists i. split; [left|]; auto.
Qed.

(** The splits are the two parts of the list. *)
Lemma items_app (a b : list (cochain Z)) tr va :
  flow_items (seq 0 (length a)) (mkFlowDs (a ++ b) tr va) = Ok a /\
  flow_items (seq (length a) (length b)) (mkFlowDs (a ++ b) tr va) = Ok b.
Proof.
  assert (G : forall (p c q : list (cochain Z)) tr va, flow_items (seq (length p) (length c)) (mkFlowDs (p ++ c ++ q) tr va) = Ok c).
  { unfold flow_items. cbn [fd_list]. intros p c q _ _. revert p. induction c as [|x c IH]; intros p; [reflexivity|].
    cbn [length seq mapM]. rewrite nth_error_app2, Nat.sub_diag by lia. cbn [app nth_error of_option bind].
    specialize (IH (p ++ [x])). rewrite app_length in IH. cbn [length] in IH. rewrite Nat.add_comm in IH. cbn [Nat.add] in IH.
    rewrite <- app_assoc in IH. cbn [app] in IH. rewrite IH. reflexivity. }
  split.
  - apply (G [] a b).
  - rewrite <- (app_nil_r b) at 2. apply (G a b []).
Qed.
