(** Properties C37 (orientation equivariance and invariance) and the oriented part of C05. *)
From Coq Require Import List Arith Lia ZArith Bool Permutation.
From Verif Require Import Base ScatterModel ScatterSpec ScatterProofs ComplexModel MPModel MPIso
  OrientModel OrientSpec OrientProofs OrientBatch FlowModel FlowSpec FlowProps.
Import ListNotations.

Section Props.
Context {V : Type} (o : ops V) (sc : Z -> V -> V) (vabs : V -> V).
Notation cochain := (cochain V).

(** C37: every oriented layer with odd activation and odd updates is equivariant: changing
    orientations (and numbers) of cells does the same to the rows of its output; it fails exactly
    when it failed before, with the same exception. *)
Theorem C37_layer_equivariance (Ho : ops_ok o) (Hs : sign_ok o sc) l p d c c' :
  odd_layer sc l -> resigned sc p d c c' ->
  match oriented_conv o sc l c, oriented_conv o sc l c' with
  | Ok y, Ok y' => moved sc p d y y'
  | Err e, Err e' => e = e'
  | _, _ => False
  end.
Proof.
  intros Hl HR. pose proof (conv_resigned o sc Ho Hs l p d c c' Hl HR) as H.
  destruct (oriented_conv o sc l c), (oriented_conv o sc l c'); auto. apply H.
Qed.

(** What a layer computes: at every cell the activation of its own row plus the signed rows of its
    upper and lower neighbours. *)
Theorem C37_layer_correct l c x up su lo sl : oriented c x up su lo sl -> up <> [] -> lo <> [] ->
  oriented_conv o sc l c = Ok (map (layer_row o sc l x up su lo sl) (seq 0 (length x))).
Proof.
  intros H Hu Hw. rewrite (oriented_conv_spec o sc l c x up su lo sl H).
  destruct up, lo; congruence.
Qed.

(** C37: the network that is not fully invariant gives the same predictions after any change of
    orientation and numbering; the cell predictions change accordingly. *)
Theorem C37_edge_orient_invariant (Ho : ops_ok o) (Hs : sign_ok o sc) m p d b b' :
  abs_ok sc vabs -> om_invar m = false -> Forall (odd_layer sc) (om_layers m) ->
  resigned_batch sc p d b b' ->
  match edge_forward o sc vabs m b, edge_forward o sc vabs m b' with
  | Ok (y, cells, _), Ok (y', cells', _) => y' = y /\ moved sc p d cells cells'
  | Err e, Err e' => e = e'
  | _, _ => False
  end.
Proof.
  intros Ha Hm HL (HR & bt & bt' & Eb & Eb' & Hlb & Hbx & Hb). unfold edge_forward. rewrite Hm. cbn [bind].
  pose proof (loop_resigned o sc Ho Hs (om_layers m) HL p d _ _ HR) as HC.
  destruct (conv_loop o sc (om_layers m) (cb_cochain b)) as [k|e], (conv_loop o sc (om_layers m) (cb_cochain b')) as [k'|e'];
    try tauto; cbn [bind]; auto.
  destruct HC as (HK & HX).
  destruct (om_layers m) as [|l ls]; [reflexivity|].
  destruct HR as (_ & x0 & up0 & su0 & lo0 & sl0 & x0' & up0' & su0' & lo0' & sl0' & H0 & _).
  destruct HK as (Hd & x & up & su & lo & sl & x' & up' & su' & lo' & sl' & H & H' & Hp & Hi & Hx & Hu & Hw).
  rewrite (or_x _ _ _ _ _ _ H), (or_x _ _ _ _ _ _ H'), Eb, Eb'. cbn [need bind].
  destruct (HX x0 (or_x _ _ _ _ _ _ H0)) as (y & Ey & Hy). rewrite (or_x _ _ _ _ _ _ H) in Ey. injection Ey as <-.
  pose proof (Hbx x0 (or_x _ _ _ _ _ _ H0)) as Hbl.
  assert (HPb : Permutation bt' bt).
  { apply (moved_vals p bt bt' (length x)); auto; try lia. intros i Hi'. apply Hb. lia. }
  rewrite (list_max_err_perm bt bt' HPb).
  destruct (list_max_err bt) as [s|e] eqn:Es; cbn [bind]; auto.
  destruct (moved_abs sc vabs p d x x' Ha Hd Hx) as (A1 & A2). rewrite map_length in A2.
  rewrite (moved_pool o Ho (om_pool m) (S s) p bt bt' (map vabs x) (map vabs x')); rewrite ?map_length; auto; try lia.
  - destruct (scatter o (om_pool m) (Some (S s)) bt (map vabs x)); cbn [bind]; auto.
  - apply Hx.
  - apply batch_bound; auto.
Qed.

(** C37: the fully invariant network (absolute values first, unsigned messages) has invariant
    predictions for all networks, odd or not. *)
Theorem C37_fully_invariant (Ho : ops_ok o) (Hs : sign_ok o sc) m p d b b' :
  abs_ok sc vabs -> om_invar m = true -> Forall (fun l => ol_orient l = false) (om_layers m) ->
  resigned_batch sc p d b b' ->
  match edge_forward o sc vabs m b, edge_forward o sc vabs m b' with
  | Ok (y, cells, _), Ok (y', cells', _) => y' = y /\ moved sc p (fun _ => 1%Z) cells cells'
  | Err e, Err e' => e = e'
  | _, _ => False
  end.
Proof.
  intros Ha Hm HL (HR & bt & bt' & Eb & Eb' & Hlb & Hbx & Hb). unfold edge_forward. rewrite Hm.
  destruct HR as (Hd & x0 & up & su & lo & sl & x0' & up' & su' & lo' & sl' & H0 & H0' & Hp & Hi & Hx & Hu & Hw).
  rewrite (or_x _ _ _ _ _ _ H0), (or_x _ _ _ _ _ _ H0'). cbn [need bind].
  destruct (set_x_oriented _ _ _ _ _ _ (map vabs x0) H0) as (k & -> & Hk & _); [apply map_length|].
  destruct (set_x_oriented _ _ _ _ _ _ (map vabs x0') H0') as (k' & -> & Hk' & _); [apply map_length|].
  cbn [bind].
  pose proof (Hbx x0 (or_x _ _ _ _ _ _ H0)) as Hbl.
  destruct (moved_abs sc vabs p d x0 x0' Ha Hd Hx) as (A1 & A2). rewrite map_length in A2.
  assert (M1 : moved sc p (fun _ => 1%Z) (map vabs x0) (map vabs x0')).
  { split; auto. intros i Hi'. rewrite map_length in Hi'. rewrite A2 by auto.
    destruct (nth_error (map vabs x0) i); cbn [option_map]; auto. rewrite (sc_one _ _ Hs). auto. }
  pose proof (loop_unsigned o sc Ho Hs (om_layers m) HL p (fun _ => 1%Z) d k k' _ up su lo sl _ up' su' lo' sl' (fun _ => eq_refl) Hk Hk') as HC.
  rewrite map_length in HC. specialize (HC Hp Hi M1 Hu Hw).
  destruct (conv_loop o sc (om_layers m) k) as [q|e], (conv_loop o sc (om_layers m) k') as [q'|e']; try tauto; cbn [bind]; auto.
  destruct (om_layers m) as [|l ls]; [reflexivity|].
  destruct HC as (y & y' & -> & -> & Hm' & Hl'). rewrite Eb, Eb'. cbn [need bind].
  assert (HPb : Permutation bt' bt).
  { apply (moved_vals p bt bt' (length x0)); auto; try lia. intros i Hi'. apply Hb. lia. }
  rewrite (list_max_err_perm bt bt' HPb).
  destruct (list_max_err bt) as [s|e] eqn:Es; cbn [bind]; auto.
  rewrite (moved_pool o Ho (om_pool m) (S s) p bt bt' y y').
  - destruct (scatter o (om_pool m) (Some (S s)) bt y); cbn [bind]; auto.
  - lia.
  - apply Hm'.
  - auto.
  - rewrite Hl'. auto.
  - rewrite Hl'. auto.
  - auto.
  - intros i Hi'. rewrite (proj2 Hm' i Hi'). destruct (nth_error y i); cbn [option_map]; auto. rewrite (sc_one _ _ Hs). auto.
  - apply batch_bound; auto.
Qed.

(** Both networks satisfy the premises: EdgeOrient and EdgeMPNN with [fully_invar] have unsigned
    layers, without it their layers are odd if the linear maps and the activation are. *)
Theorem C37_edge_orient_layers lins act pool head :
  (Forall (fun t => odd sc (fst (fst t)) /\ odd sc (snd (fst t)) /\ odd sc (snd t)) lins -> odd sc act ->
     om_invar (edge_orient false lins act pool head) = false /\
     Forall (odd_layer sc) (om_layers (edge_orient false lins act pool head))) /\
  om_invar (edge_orient true lins act pool head) = true /\
  Forall (fun l => ol_orient l = false) (om_layers (edge_orient true lins act pool head)).
Proof.
  split; [|split; auto].
  - intros HF Ha. split; auto. cbn [edge_orient om_layers]. apply Forall_map.
    eapply Forall_impl; [|exact HF]. intros t (A & B & C). split; auto.
  - cbn [edge_orient om_layers]. apply Forall_map. apply Forall_forall. auto.
Qed.

Theorem C37_edge_mpnn_layers (Hs : sign_ok o sc) lins act pool head :
  (Forall (fun t => odd sc (fst t) /\ odd sc (snd t)) lins -> odd sc act ->
     om_invar (edge_mpnn o false lins act pool head) = false /\
     Forall (odd_layer sc) (om_layers (edge_mpnn o false lins act pool head))) /\
  om_invar (edge_mpnn o true lins act pool head) = true /\
  Forall (fun l => ol_orient l = false) (om_layers (edge_mpnn o true lins act pool head)).
Proof.
  split; [|split; auto].
  - intros HF Ha. split; auto. cbn [edge_mpnn om_layers]. apply Forall_map.
    eapply Forall_impl; [|exact HF]. intros t (A & B). split; auto.
    intros v. cbn [ol_up]. symmetry. apply (sc_zero _ _ Hs). right; auto.
  - cbn [edge_mpnn om_layers]. apply Forall_map. apply Forall_forall. auto.
Qed.

(** ** C05 for the oriented convolution and the edge networks *)

(** The layer on a batch is the concatenation of the layers on its members. *)
Theorem C05_oriented_conv l cs b ys : from_cochain_list cs = Ok b ->
  (forall c, In c cs -> exists x up su lo sl, oriented c x up su lo sl) ->
  Forall2 (fun c y => oriented_conv o sc l c = Ok y) cs ys ->
  oriented_conv o sc l (cb_cochain b) = Ok (concat ys).
Proof.
  intros HB HO HY.
  assert (HF : exists ts, Forall2 holds cs ts).
  { clear HB HY. induction cs as [|c cs IH]; [exists []; constructor|].
    destruct IH as (ts & IH); [intros; apply HO; right; auto|].
    destruct (HO c (or_introl eq_refl)) as (x & up & su & lo & sl & H).
    exists (mkOData x up su lo sl :: ts). constructor; auto. }
  destruct HF as (ts & HF). destruct (from_list_joins cs ts b HF HB) as (HC & _).
  apply (conv_joins o sc l cs); auto.
  - intros ->. discriminate.
  - exists ts. auto.
Qed.

(** Oriented cochains as built for the flow data can be batched. *)
Theorem C05_oriented_batch_exists cs : cs <> [] ->
  (forall c, In c cs -> (exists x up su lo sl, oriented c x up su lo sl) /\
     c_shb c = None /\ c_shc c = None /\ c_bidx c = None) ->
  exists b : cbatch V, from_cochain_list cs = Ok b.
Proof.
  intros Hne H. apply from_list_ok; auto. intros c Hc. destruct (H c Hc) as ((x & up & su & lo & sl & HO) & HN).
  split; auto. exists (mkOData x up su lo sl). exact HO.
Qed.

(** The predictions for a batch are those for its members, in order. *)
Theorem C05_edge_networks m cs b ps zs : from_cochain_list cs = Ok b ->
  (forall c, In c cs -> exists x up su lo sl, oriented c x up su lo sl) ->
  Forall2 (fun c pz => exists b1 b2, from_cochain_list [c] = Ok b1 /\
             edge_forward o sc vabs m b1 = Ok ([fst pz], snd pz, b2)) cs (combine ps zs) ->
  length ps = length cs -> length zs = length cs ->
  exists b', edge_forward o sc vabs m b = Ok (ps, concat zs, b').
Proof.
  intros HB HO HY Hlp Hlz.
  assert (HF : exists ts, Forall2 holds cs ts).
  { clear HB HY Hlp Hlz. induction cs as [|c cs IH]; [exists []; constructor|].
    destruct IH as (ts & IH); [intros; apply HO; right; auto|].
    destruct (HO c (or_introl eq_refl)) as (x & up & su & lo & sl & H).
    exists (mkOData x up su lo sl :: ts). constructor; auto. }
  destruct HF as (ts & HF). destruct (from_list_joins cs ts b HF HB) as (HC & HBt).
  assert (Hne : cs <> []) by (intros ->; discriminate).
  set (pre := fun c : cochain => if om_invar m then
       let* x := need TypeError (c_x c) in set_x c (Some (map vabs x)) else Ok c).
  (* every member: preparation, layers, pooling *)
  assert (HM : Forall2 (fun c pz => exists c0 k, pre c = Ok c0 /\ conv_loop o sc (om_layers m) c0 = Ok k /\
      om_layers m <> [] /\ c_x k = Some (snd pz) /\ snd pz <> [] /\
      fst pz = om_head m (reduce_rows o (om_pool m) (if om_invar m then snd pz else map vabs (snd pz)))) cs (combine ps zs)).
  { clear HB HC HBt Hne Hlp Hlz HO. revert HF. revert ts. induction HY as [|c [q z] cs pz (b1 & b2 & E1 & E2) _ IH]; intros ts HF; [constructor|].
    inversion HF as [|? t ? ts' Ht HF']; subst. constructor; [|eapply IH; eauto].
    destruct (from_list_joins [c] [t] b1) as (HC1 & HB1); [constructor; auto|auto|].
    cbn [fst snd] in *.
    assert (EO : ojoin [t] = t).
    { cbn [ojoin fold_right]. destruct t. unfold oplus; cbn. rewrite !app_nil_r. reflexivity. }
    rewrite EO in HC1.
    unfold edge_forward in E2.
    (* the single batch has the same content as the member *)
    apply bind_ok in E2 as (c0 & P0 & E2). apply bind_ok in E2 as (k & P1 & E2).
    destruct (om_layers m) as [|l ls] eqn:EL; [discriminate E2|].
    apply bind_ok in E2 as (x & P2 & E2). rewrite HB1 in E2. cbn [need bind] in E2.
    apply bind_ok in E2 as (s & P3 & E2). apply bind_ok in E2 as (pooled & P4 & E2).
    injection E2 as Eq Ez _. subst z.
    assert (J : joins [c] (cb_cochain b1)).
    { exists [t]. split; [constructor; auto|]. rewrite EO; auto. }
    assert (G : exists c0' k', pre c = Ok c0' /\ conv_loop o sc (l :: ls) c0' = Ok k' /\ exists u, holds k' u /\ holds k u).
    { assert (A : exists c0', pre c = Ok c0' /\ exists u, holds c0' u /\ holds c0 u).
      { unfold pre. destruct (om_invar m).
        - rewrite (or_x _ _ _ _ _ _ Ht). rewrite (or_x _ _ _ _ _ _ HC1) in P0. cbn [need bind] in *.
          destruct (set_x_holds c t (map vabs (t_x t)) Ht) as (w & -> & Hw & _); [apply map_length|].
          destruct (set_x_holds (cb_cochain b1) t (map vabs (t_x t)) HC1) as (w' & E' & Hw' & _); [apply map_length|].
          rewrite P0 in E'. injection E' as ->. exists w. split; auto. eexists; eauto.
        - injection P0 as <-. exists c. split; auto. exists t. auto. }
      destruct A as (c0' & A1 & u & A2 & A3).
      assert (B : forall ls c0 c0' u k, holds c0' u -> holds c0 u -> conv_loop o sc ls c0 = Ok k ->
        exists k', conv_loop o sc ls c0' = Ok k' /\ exists w, holds k' w /\ holds k w).
      { clear. intros ls. induction ls as [|l ls IHl]; intros c0 c0' u k H' H E; cbn [conv_loop] in *.
        - injection E as <-. exists c0'. split; auto. exists u; auto.
        - apply bind_ok in E as (y & Ey & E). apply bind_ok in E as (w & Ew & E).
          assert (Ey' : oriented_conv o sc l c0' = Ok y).
          { rewrite (oriented_conv_holds o sc l c0' u H'). rewrite (oriented_conv_holds o sc l c0 u H) in Ey. exact Ey. }
          rewrite Ey'. cbn [bind].
          assert (Hy : length y = length (t_x u)).
          { destruct (conv_ok_inv o sc l c0 u y H Ey) as (_ & _ & ->). apply tconv_length. }
          destruct (set_x_holds c0' u y H' Hy) as (v' & -> & Hv' & _).
          destruct (set_x_holds c0 u y H Hy) as (v & E2 & Hv & _). rewrite Ew in E2. injection E2 as ->.
          cbn [bind]. apply (IHl v v' (set_tx u y)); auto. }
      destruct (B (l :: ls) c0 c0' u k A2 A3 P1) as (k' & B1 & w & B2 & B3).
      exists c0', k'. split; auto. split; auto. exists w; auto. }
    destruct G as (c0' & k' & G1 & G2 & u & G3 & G4).
    assert (Ek : c_x k = Some x). { destruct (c_x k); [injection P2 as ->; auto|discriminate P2]. }
    assert (Eu : t_x u = x). { rewrite (or_x _ _ _ _ _ _ G4) in Ek. injection Ek; auto. }
    exists c0', k'. split; auto. split; auto. split; [discriminate|].
    split; [rewrite (or_x _ _ _ _ _ _ G3), Eu; auto|].
    assert (Hxl : length x = length (t_x t)).
    { assert (B : forall ls c0 u0 k u, holds c0 u0 -> conv_loop o sc ls c0 = Ok k -> holds k u -> length (t_x u) = length (t_x u0)).
      { clear. intros ls. induction ls as [|l ls IHl]; intros c0 u0 k u H E Hk; cbn [conv_loop] in *.
        - injection E as <-. f_equal. pose proof (or_x _ _ _ _ _ _ H). pose proof (or_x _ _ _ _ _ _ Hk). congruence.
        - apply bind_ok in E as (y & Ey & E). apply bind_ok in E as (w & Ew & E).
          destruct (conv_ok_inv o sc l c0 u0 y H Ey) as (_ & _ & Hy).
          assert (Hl : length y = length (t_x u0)) by (rewrite Hy; apply tconv_length).
          destruct (set_x_holds c0 u0 y H Hl) as (v & E2 & Hv & _). rewrite Ew in E2. injection E2 as ->.
          rewrite (IHl v (set_tx u0 y) k u Hv E Hk). exact Hl. }
      rewrite <- Eu. assert (exists u0, holds c0' u0 /\ length (t_x u0) = length (t_x t)) as (u0 & U1 & U2).
      { unfold pre in G1. destruct (om_invar m).
        - rewrite (or_x _ _ _ _ _ _ Ht) in G1. cbn [need bind] in G1.
          destruct (set_x_holds c t (map vabs (t_x t)) Ht) as (w & E & Hw & _); [apply map_length|].
          rewrite G1 in E. injection E as ->. exists (set_tx t (map vabs (t_x t))). split; auto. apply map_length.
        - injection G1 as <-. exists t; auto. }
      rewrite <- U2. apply (B (l :: ls) c0' u0 k' u); auto. }
    assert (Hnz : t_x t <> []).
    { intros E. unfold numbered in P3. cbn [map mapi_from concat] in P3. rewrite E in P3. discriminate P3. }
    split; [intros E; subst x; destruct (t_x t); [congruence|]; rewrite E in Hxl; discriminate Hxl|].
    set (xs := if om_invar m then x else map vabs x) in *.
    assert (Hxs : length xs = length (t_x t)) by (unfold xs; destruct (om_invar m); rewrite ?map_length; auto).
    assert (EN : numbered 0 (map t_x [t]) = numbered 0 [xs]).
    { unfold numbered. cbn [map mapi_from]. rewrite Hxs. reflexivity. }
    rewrite EN in P3, P4.
    destruct (pool_numbered o (om_pool m) [xs]) as (s' & Q1 & Q2); [discriminate| |].
    { constructor; auto. intros E. rewrite E in Hxs. destruct (t_x t); [congruence|discriminate Hxs]. }
    rewrite P3 in Q1. injection Q1 as <-. cbn [concat] in Q2. rewrite app_nil_r in Q2. rewrite P4 in Q2. injection Q2 as Q2.
    rewrite Q2 in Eq. cbn [map] in Eq. injection Eq as ->. reflexivity. }
  (* the batch *)
  assert (HP : exists c0s C0, Forall2 (fun c c0 => pre c = Ok c0) cs c0s /\ pre (cb_cochain b) = Ok C0 /\ joins c0s C0).
  { unfold pre. destruct (om_invar m) eqn:Ei.
    - destruct (set_joins cs (cb_cochain b) (map (fun t => map vabs (t_x t)) ts)) as (ks & K & K1 & K2 & K3 & K4 & K5).
      { exists ts; auto. }
      { clear -HF. induction HF as [|c t cs ts H _ IH]; constructor; auto. exists (t_x t). split; [apply H|]. apply map_length. }
      exists ks, K. split; [|split].
      + clear - HF K1. revert ks K1. induction HF as [|c t cs ts H _ IH]; intros ks K1; inversion K1; subst; constructor; auto.
        cbn [fst snd] in *. rewrite (or_x _ _ _ _ _ _ H). cbn [need bind]. auto.
      + rewrite (or_x _ _ _ _ _ _ HC). cbn [need bind]. rewrite join_x. rewrite <- K2. do 2 f_equal.
        rewrite concat_map, map_map. reflexivity.
      + auto.
    - exists cs, (cb_cochain b). split; [|split; auto].
      + clear. induction cs; constructor; auto.
      + exists ts; auto. }
  destruct HP as (c0s & C0 & HP1 & HP2 & HP3).
  assert (HK : exists ks, Forall2 (fun c0 k => conv_loop o sc (om_layers m) c0 = Ok k) c0s ks /\
     Forall2 (fun k pz => c_x k = Some (snd pz)) ks (combine ps zs)).
  { clear - HM HP1. revert c0s HP1. induction HM as [|c pz cs pzs (c0 & k & M1 & M2 & _ & M3 & _) _ IH]; intros c0s HP1.
    - inversion HP1; subst. exists []. repeat constructor.
    - inversion HP1 as [|? c0' ? c0s' Hc HP1']; subst. rewrite M1 in Hc. injection Hc as <-.
      destruct (IH _ HP1') as (ks & I1 & I2). exists (k :: ks). split; constructor; auto. }
  destruct HK as (ks & HK1 & HK2).
  assert (Hne0 : c0s <> []). { intros ->. inversion HP1; subst. congruence. }
  destruct (loop_joins o sc (om_layers m) c0s C0 ks Hne0 HP3 HK1) as (K & EK & us & HU & HKU).
  unfold edge_forward. unfold pre in HP2. rewrite HP2. cbn [bind]. rewrite EK. cbn [bind].
  assert (HL : om_layers m <> []).
  { destruct HM as [|c pz cs' pzs (c0 & k & _ & _ & M & _) _]; [congruence|auto]. }
  destruct (om_layers m) as [|l ls] eqn:EL; [congruence|].
  rewrite (or_x _ _ _ _ _ _ HKU), HBt. cbn [need bind].
  assert (EZ : map t_x us = zs).
  { clear - HU HK2 Hlp Hlz. assert (Hl : length ps = length zs) by lia. clear Hlp Hlz. revert us HU.
    remember (combine ps zs) as pz eqn:E. revert ps zs Hl E. induction HK2 as [|k [q z] ks pzs H _ IH]; intros ps zs Hl E us HU.
    - destruct ps, zs; try discriminate. inversion HU; subst. reflexivity.
    - destruct ps as [|p ps], zs as [|z' zs]; try discriminate. injection E as -> -> E. injection Hl as Hl.
      inversion HU as [|? u ? us' Hu HU']; subst. cbn [map]. f_equal; [|eapply IH; eauto].
      pose proof (or_x _ _ _ _ _ _ Hu). cbn [snd] in H. congruence. }
  rewrite join_x, EZ.
  assert (HS : Forall2 (fun t z => length (t_x t) = length (z : list V)) ts zs).
  { (* layers keep the number of cells *)
    assert (G : forall ls cs ks us (ts : list odata), Forall2 holds cs ts -> Forall2 (fun c k => conv_loop o sc ls c = Ok k) cs ks ->
      Forall2 holds ks us -> Forall2 (fun t u => length (t_x t) = length (t_x u)) ts us).
    { clear. intros ls cs ks us ts HF. revert ks us. induction HF as [|c t cs ts H _ IH]; intros ks us HK HU.
      - inversion HK; subst. inversion HU; subst. constructor.
      - inversion HK; subst. inversion HU; subst. constructor; eauto.
        clear - H H2 H3. revert c t H H2. induction ls as [|l ls IHl]; intros c t H E; cbn [conv_loop] in *.
        + injection E as ->. pose proof (or_x _ _ _ _ _ _ H). pose proof (or_x _ _ _ _ _ _ H3). f_equal. congruence.
        + apply bind_ok in E as (z & Ez & E). apply bind_ok in E as (w & Ew & E).
          destruct (conv_ok_inv o sc l c t z H Ez) as (_ & _ & Hz).
          assert (Hl : length z = length (t_x t)) by (rewrite Hz; apply tconv_length).
          destruct (set_x_holds c t z H Hl) as (v & E2 & Hv & _). rewrite Ew in E2. injection E2 as ->.
          rewrite <- (IHl v (set_tx t z) Hv E). auto. }
    assert (HA : exists t0s, Forall2 holds c0s t0s /\ Forall2 (fun t t0 => length (t_x t) = length (t_x t0)) ts t0s).
    { clear - HF HP1. revert c0s HP1. induction HF as [|c t cs ts H _ IH]; intros c0s HP1; inversion HP1 as [|? c0 ? c0s' Hc HP1']; subst.
      - exists []. split; constructor.
      - destruct (IH _ HP1') as (t0s & I1 & I2). unfold pre in Hc. destruct (om_invar m).
        + rewrite (or_x _ _ _ _ _ _ H) in Hc. cbn [need bind] in Hc.
          destruct (set_x_holds c t (map vabs (t_x t)) H) as (w & E & Hw & _); [apply map_length|].
          rewrite Hc in E. injection E as ->. exists (set_tx t (map vabs (t_x t)) :: t0s). split; constructor; auto.
          cbn [set_tx t_x]. rewrite map_length. auto.
        + injection Hc as <-. exists (t :: t0s). split; constructor; auto. }
    destruct HA as (t0s & HA1 & HA2).
    pose proof (G _ _ _ _ _ HA1 HK1 HU) as HG.
    rewrite <- EZ. clear - HA2 HG. revert us HG. induction HA2 as [|t t0 ts t0s H _ IH]; intros us HG; inversion HG; subst; constructor; auto.
    congruence. }
  set (f := fun z : list V => if om_invar m then z else map vabs z).
  assert (EN : numbered 0 (map t_x ts) = numbered 0 (map f zs)).
  { unfold numbered. f_equal. clear - HS. generalize 0. induction HS as [|t z ts' zs' H _ IH]; intros s; [reflexivity|].
    cbn [map mapi_from]. rewrite IH. f_equal. unfold f. destruct (om_invar m); rewrite ?map_length, H; reflexivity. }
  rewrite EN.
  assert (EF : (if om_invar m then concat zs else map vabs (concat zs)) = concat (map f zs)).
  { unfold f. destruct (om_invar m).
    - rewrite map_id. reflexivity.
    - rewrite concat_map. reflexivity. }
  rewrite EF.
  destruct (pool_numbered o (om_pool m) (map f zs)) as (s & -> & E2).
  { destruct zs; [destruct cs; [congruence|discriminate]|discriminate]. }
  { clear - HM Hlp Hlz. assert (Hl : length ps = length zs) by lia. clear Hlp Hlz.
    remember (combine ps zs) as pz eqn:E. revert ps zs Hl E. induction HM as [|c [q z] cs pzs (c0 & k & _ & _ & _ & _ & M & _) _ IH]; intros ps zs Hl E.
    - destruct ps, zs; try discriminate. constructor.
    - destruct ps as [|p ps], zs as [|z' zs]; try discriminate. injection E as -> -> E. injection Hl as Hl.
      constructor; [|eapply IH; eauto]. cbn [snd] in M. unfold f. destruct (om_invar m); auto. destruct z'; [congruence|discriminate]. }
  cbn [bind]. rewrite E2. cbn [bind].
  assert (EP : map (om_head m) (map (reduce_rows o (om_pool m)) (map f zs)) = ps).
  { clear - HM Hlp Hlz. assert (Hl : length ps = length zs) by lia. clear Hlp Hlz.
    remember (combine ps zs) as pz eqn:E. revert ps zs Hl E. induction HM as [|c [q z] cs pzs (c0 & k & _ & _ & _ & _ & _ & M) _ IH]; intros ps zs Hl E.
    - destruct ps, zs; try discriminate. reflexivity.
    - destruct ps as [|p ps], zs as [|z' zs]; try discriminate. injection E as -> -> E. injection Hl as Hl.
      cbn [map]. f_equal; [|eapply IH; eauto]. cbn [fst snd] in M. rewrite M. unfold f. reflexivity. }
  rewrite EP. eexists. reflexivity.
Qed.


(** ** Re-orienting the samples of a flow data set *)

(** The integer features of a flow cochain as rows. *)
Definition recast (row : Z -> V) (c : ComplexModel.cochain Z) : cochain :=
  mkCochain (c_dim c) (option_map (map row) (c_x c)) (c_upper c) (c_lower c) (c_shb c) (c_shc c)
    (c_bidx c) (c_uor c) (c_lor c) (c_y c) (c_mask c) (c_n c) (c_nup c) (c_ndown c).

(** [c] and [c'] are built from the same flow with two orientations of the edges. *)
Definition same_sample (c c' : ComplexModel.cochain Z) : Prop :=
  exists order order' B1 B2 d d' x y edges edges',
    (forall l, Permutation (order l) l) /\ (forall l, Permutation (order' l) l) /\
    signs d /\ signs d' /\ m_r B2 = m_c B1 /\
    build_cochain order B1 B2 (diag_mat (m_c B1) d) x y edges = Ok c /\
    build_cochain order' B1 B2 (diag_mat (m_c B1) d') x y edges' = Ok c'.

Definition tflip (d : nat -> Z) (t t' : @odata V) : Prop :=
  moved sc (fun i => i) d (t_x t) (t_x t') /\
  moved_adj (fun i => i) d (t_up t) (t_su t) (t_up t') (t_su t') /\
  moved_adj (fun i => i) d (t_lo t) (t_sl t) (t_lo t') (t_sl t').

Lemma moved_adj_app n d e a s a' s' b u b' u' : length s = length a -> length s' = length a' ->
  (forall j i, In (j, i) a -> j < n /\ i < n) ->
  moved_adj (fun i => i) d a s a' s' -> moved_adj (fun i => i) e b u b' u' ->
  moved_adj (fun i => i) (fun i => if i <? n then d i else e (i - n))
    (a ++ shifted n b) (s ++ u) (a' ++ shifted n b') (s' ++ u').
Proof.
  intros Hs Hs' Hr H H'. unfold moved_adj in *. rewrite !combine_app' by auto. rewrite map_app.
  apply Permutation_app.
  - erewrite map_ext_in; [exact H|]. intros [[j i] t] He. apply in_combine_l in He. destruct (Hr j i He).
    cbn [fst snd]. rewrite !(proj2 (Nat.ltb_lt _ _)) by auto. reflexivity.
  - unfold shifted. rewrite !combine_map_fst, map_map. cbn [fst snd].
    apply (Permutation_map (fun z : nat * nat * Z => ((fst (fst z) + n, snd (fst z) + n), snd z))) in H'.
    rewrite map_map in H'. cbn [fst snd] in H'.
    eapply Permutation_trans; [exact H'|]. apply Permutation_refl'. apply map_ext. intros [[j i] t]. cbn [fst snd].
    rewrite !(proj2 (Nat.ltb_ge _ _)) by lia. rewrite !Nat.add_sub. reflexivity.
Qed.

Lemma tflip_oplus d e t t' u u' : tok t -> tok t' -> tflip d t t' -> tflip e u u' ->
  tflip (fun i => if i <? length (t_x t) then d i else e (i - length (t_x t))) (oplus t u) (oplus t' u').
Proof.
  intros (A & B & C & D) (A' & B' & C' & D') ((L1 & M1) & U1 & W1) ((L2 & M2) & U2 & W2).
  unfold tflip, oplus; cbn [t_x t_up t_su t_lo t_sl]. rewrite L1. split; [|split].
  - split; [rewrite !app_length; lia|]. intros i Hi. rewrite app_length in Hi.
    destruct (Nat.ltb_spec i (length (t_x t))).
    + rewrite !nth_error_app1 by lia. apply M1; auto.
    + rewrite !nth_error_app2 by lia. rewrite L1. apply M2. lia.
  - apply moved_adj_app; auto.
  - apply moved_adj_app; auto.
Qed.

Lemma tflip_join ts ts' : Forall2 (fun t t' => tok t /\ tok t' /\ exists d, (forall i, sign (d i)) /\ tflip d t t') ts ts' ->
  exists d, (forall i, sign (d i)) /\ tflip d (ojoin ts) (ojoin ts').
Proof.
  induction 1 as [|t t' ts ts' (Ht & Ht' & d & Hd & H) _ (e & He & IH)].
  - exists (fun _ => 1%Z). split; [left; auto|]. repeat split; try (apply Permutation_refl). intros i Hi. cbn in Hi; lia.
  - exists (fun i => if i <? length (t_x t) then d i else e (i - length (t_x t))). split.
    + intros i. destruct (i <? length (t_x t)); auto.
    + cbn [ojoin fold_right]. apply tflip_oplus; auto.
Qed.

Lemma oriented_adjacency_moved n G d d' a s a' s' : (forall i, sign (d i)) -> (forall i, sign (d' i)) ->
  oriented_adjacency n G d a s -> oriented_adjacency n G d' a' s' ->
  moved_adj (fun i => i) (fun i => (d i * d' i)%Z) a s a' s'.
Proof.
  intros Hd Hd' (L & N & H) (L' & N' & H'). unfold moved_adj.
  assert (Ef : forall (l : list (nat * nat * Z)) (g : nat * nat * Z -> Z),
     map fst (map (fun e => ((fst (fst e), snd (fst e)), g e)) l) = map fst l).
  { intros l g. rewrite map_map. apply map_ext. intros [[j i] t]. reflexivity. }
  apply NoDup_Permutation.
  - apply NoDup_map_inv with (f := fst). rewrite combine_fst'; auto.
  - apply NoDup_map_inv with (f := fst). rewrite Ef, combine_fst'; auto.
  - intros [[i j] t]. rewrite H', in_map_iff. split.
    + intros (Hi & Hj & Hne & Hg & ->). exists ((i, j), (d i * d j * Z.sgn (G i j))%Z). split.
      * cbn [fst snd]. f_equal. destruct (Hd i) as [-> | ->], (Hd j) as [-> | ->]; ring.
      * apply H. auto.
    + intros ([[i0 j0] t0] & E & Hin). cbn [fst snd] in E. injection E as -> -> <-. apply H in Hin as (Hi & Hj & Hne & Hg & ->).
      repeat split; auto. destruct (Hd i) as [-> | ->], (Hd j) as [-> | ->]; ring.
Qed.

Lemma build_cochain_rest order B1 B2 T x y edges c : build_cochain order B1 B2 T x y edges = Ok c ->
  c_n c = None /\ c_shb c = None /\ c_shc c = None /\ c_bidx c = None.
Proof.
  unfold build_cochain. intros H. apply bind_ok in H as (? & _ & H). apply bind_ok in H as (? & _ & H).
  apply bind_ok in H as (? & _ & H). apply bind_ok in H as (? & _ & H). apply bind_ok in H as (? & _ & H).
  apply bind_ok in H as (? & _ & H). injection H as <-. auto.
Qed.

Lemma flow_holds row n B1 B2 d x y c : is_flow_cochain n B1 B2 d x y c -> c_n c = None ->
  exists lo slo up sup,
    oriented_adjacency n (gram B1) d lo slo /\ oriented_adjacency n (gram (mtr B2)) d up sup /\
    holds (recast row c) (mkOData (map (fun i => row (d i * nth i x 0)%Z) (seq 0 n)) up sup lo slo).
Proof.
  intros (_ & _ & Ex & (lo & slo & L1 & L2 & L3) & (up & sup & U1 & U2 & U3)) Hn.
  exists lo, slo, up, sup. split; auto. split; auto.
  assert (G : forall Gm a s, oriented_adjacency n Gm d a s -> forall j i, In (j, i) a -> j < n /\ i < n).
  { intros Gm a s (H1 & _ & H3) j i Hji.
    assert (exists t, In (j, i, t) (combine a s)) as (t & Ht).
    { apply In_nth_error in Hji as (k & Hk).
      assert (Hl : k < length a) by (apply nth_error_Some; congruence).
      exists (nth k s 0%Z). apply nth_error_In with (n := k). rewrite nth_error_combine, Hk.
      rewrite (nth_error_nth' s 0%Z) by lia. reflexivity. }
    apply H3 in Ht. tauto. }
  split; cbn [recast c_x c_upper c_uor c_lower c_lor c_n t_x t_up t_su t_lo t_sl]; auto.
  - rewrite Ex. cbn [option_map]. rewrite map_map. reflexivity.
  - symmetry. apply U3.
  - symmetry. apply L3.
  - rewrite map_length, seq_length. eapply G; eauto.
  - rewrite map_length, seq_length. eapply G; eauto.
Qed.

Lemma same_sample_flip row c c' : (forall s z, sign s -> sc s (row z) = row (s * z)%Z) -> same_sample c c' ->
  exists t t' d, holds (recast row c) t /\ holds (recast row c') t' /\ (forall i, sign (d i)) /\ tflip d t t' /\
    c_shb c' = None /\ c_shc c' = None /\ c_bidx c' = None.
Proof.
  intros Hrow (order & order' & B1 & B2 & d & d' & x & y & edges & edges' & Ho & Ho' & Hd & Hd' & HB & E & E').
  pose proof (build_cochain_rest _ _ _ _ _ _ _ _ E) as (N & _). pose proof (build_cochain_rest _ _ _ _ _ _ _ _ E') as (N' & R').
  apply build_cochain_sound in E; auto. apply build_cochain_sound in E'; auto.
  destruct (flow_holds row _ _ _ _ _ _ _ E N) as (lo & slo & up & sup & L & U & H).
  destruct (flow_holds row _ _ _ _ _ _ _ E' N') as (lo' & slo' & up' & sup' & L' & U' & H').
  eexists. eexists. exists (fun i => (d i * d' i)%Z). split; [exact H|]. split; [exact H'|].
  split; [|split; auto].
  - intros i. destruct (Hd i) as [-> | ->], (Hd' i) as [-> | ->]; [left|right|right|left]; reflexivity.
  - split; [|split]; cbn [t_x t_up t_su t_lo t_sl].
    + split; rewrite !map_length; auto. rewrite seq_length. intros i Hi. rewrite !nth_error_map_seq.
      rewrite (proj2 (Nat.ltb_lt _ _) Hi). cbn [option_map]. rewrite Hrow.
      * do 2 f_equal. destruct (Hd i) as [-> | ->], (Hd' i) as [-> | ->]; ring.
      * destruct (Hd i) as [-> | ->], (Hd' i) as [-> | ->]; [left|right|right|left]; reflexivity.
    + eapply oriented_adjacency_moved; eauto.
    + eapply oriented_adjacency_moved; eauto.
Qed.

(** C37, end to end: batch the samples of a flow data set once with some orientations and once with
    others; the (odd) network gives the same predictions, or the same exception. *)
Theorem C37_reoriented_dataset (Ho : ops_ok o) (Hs : sign_ok o sc) m row cs cs' b :
  abs_ok sc vabs -> (forall s z, sign s -> sc s (row z) = row (s * z)%Z) ->
  (om_invar m = false /\ Forall (odd_layer sc) (om_layers m) \/
   om_invar m = true /\ Forall (fun l => ol_orient l = false) (om_layers m)) ->
  Forall2 same_sample cs cs' -> from_cochain_list (map (recast row) cs) = Ok b ->
  exists b', from_cochain_list (map (recast row) cs') = Ok b' /\
    match edge_forward o sc vabs m b, edge_forward o sc vabs m b' with
    | Ok (y, _, _), Ok (y', _, _) => y' = y
    | Err e, Err e' => e = e'
    | _, _ => False
    end.
Proof.
  intros Ha Hrow Hm HF HB.
  assert (HT : exists ts ts', Forall2 holds (map (recast row) cs) ts /\ Forall2 holds (map (recast row) cs') ts' /\
    Forall2 (fun t t' => tok t /\ tok t' /\ exists d, (forall i, sign (d i)) /\ tflip d t t') ts ts' /\
    forall c, In c (map (recast row) cs') -> (exists t, holds c t) /\ c_shb c = None /\ c_shc c = None /\ c_bidx c = None).
  { clear HB. induction HF as [|c c' cs cs' H _ (ts & ts' & I1 & I2 & I3 & I4)].
    - exists [], []. repeat constructor; inversion H.
    - destruct (same_sample_flip row c c' Hrow H) as (t & t' & d & H1 & H2 & H3 & H4 & H5).
      exists (t :: ts), (t' :: ts'). split; [constructor; auto|]. split; [constructor; auto|]. split.
      + constructor; auto. split; [eapply holds_tok; eauto|]. split; [eapply holds_tok; eauto|]. exists d; auto.
      + intros k [<-|Hk]; auto. split; [exists t'; auto|]. exact H5. }
  destruct HT as (ts & ts' & T1 & T2 & T3 & T4).
  assert (Hne : map (recast row) cs' <> []).
  { intros E. destruct HF; [discriminate HB|discriminate E]. }
  destruct (from_list_ok _ Hne T4) as (b' & HB'). exists b'. split; auto.
  destruct (from_list_joins _ _ _ T1 HB) as (J1 & J2). destruct (from_list_joins _ _ _ T2 HB') as (J1' & J2').
  destruct (tflip_join ts ts' T3) as (d & Hd & (HX & HU & HW)).
  assert (EN : numbered 0 (map t_x ts') = numbered 0 (map t_x ts)).
  { unfold numbered. f_equal. clear - T3. generalize 0. induction T3 as [|t t' ts ts' (_ & _ & d & _ & (Hl & _) & _) _ IH]; intros s; [reflexivity|].
    cbn [map mapi_from]. rewrite IH, Hl. reflexivity. }
  assert (HR : resigned_batch sc (fun i => i) d b b').
  { split.
    - split; auto. exists (t_x (ojoin ts)), (t_up (ojoin ts)), (t_su (ojoin ts)), (t_lo (ojoin ts)), (t_sl (ojoin ts)),
        (t_x (ojoin ts')), (t_up (ojoin ts')), (t_su (ojoin ts')), (t_lo (ojoin ts')), (t_sl (ojoin ts')).
      repeat (split; auto); apply HX.
    - exists (numbered 0 (map t_x ts)), (numbered 0 (map t_x ts')). split; auto. split; auto. rewrite EN. split; auto. split; auto.
      intros x Ex. rewrite (or_x _ _ _ _ _ _ J1) in Ex. injection Ex as <-. rewrite join_x. apply numbered_length. }
  destruct Hm as [(Hm & HL)|(Hm & HL)].
  - pose proof (C37_edge_orient_invariant Ho Hs m _ d b b' Ha Hm HL HR) as G.
    destruct (edge_forward o sc vabs m b) as [[[y ?] ?]|], (edge_forward o sc vabs m b') as [[[y' ?] ?]|]; auto. tauto.
  - pose proof (C37_fully_invariant Ho Hs m _ d b b' Ha Hm HL HR) as G.
    destruct (edge_forward o sc vabs m b) as [[[y ?] ?]|], (edge_forward o sc vabs m b') as [[[y' ?] ?]|]; auto. tauto.
Qed.

End Props.

(** ** Examples: integer rows of width one *)
Lemma Zsign_ok : sign_ok Zops Z.mul.
Proof. split; intros; cbn [Zops vadd vzero]; ring. Qed.
Lemma Zabs_ok : abs_ok Z.mul Z.abs.
Proof. intros s v [-> | ->]; lia. Qed.

(** A filled triangle 0-1-2 with a pendant edge 2-3: edges 01, 02, 12, 23. *)
Definition tri_up : list (nat * nat) := [(0,1); (1,0); (0,2); (2,0); (1,2); (2,1)].
Definition tri_su : list Z := [-1; -1; 1; 1; -1; -1]%Z.
Definition tri_lo : list (nat * nat) := [(0,1); (1,0); (0,2); (2,0); (1,2); (2,1); (1,3); (3,1); (2,3); (3,2)].
Definition tri_sl : list Z := [1; 1; -1; -1; 1; 1; -1; -1; -1; -1]%Z.
Definition tri_c (x : list Z) su sl : cochain Z :=
  mkCochain 1 (Some x) (Some tri_up) (Some tri_lo) None None None (Some su) (Some sl) (Some [1%Z]) None None None None.
Definition tri_d (i : nat) : Z := nth i [1; -1; 1; -1]%Z 1%Z.
Definition conj_signs (d : nat -> Z) (a : list (nat * nat)) (s : list Z) : list Z :=
  map (fun e => (d (fst (fst e)) * d (snd (fst e)) * snd e)%Z) (combine a s).
Definition tri1 := tri_c [3; -2; 5; 7]%Z tri_su tri_sl.
Definition tri2 := tri_c [3; 2; 5; -7]%Z (conj_signs tri_d tri_up tri_su) (conj_signs tri_d tri_lo tri_sl).

Lemma tri_oriented x su sl : length x = 4 -> length su = 6 -> length sl = 10 ->
  oriented (tri_c x su sl) x tri_up su tri_lo sl.
Proof.
  intros H1 H2 H3. split; auto; rewrite H1; intros j i Hi; unfold tri_up, tri_lo in Hi; simpl in Hi;
    repeat (destruct Hi as [Hi|Hi]; [injection Hi as <- <-; lia|]); destruct Hi.
Qed.

Lemma tri_resigned : resigned Z.mul (fun i => i) tri_d tri1 tri2.
Proof.
  split.
  - intros i. unfold tri_d. do 4 (destruct i as [|i]; [cbn; unfold sign; auto|]). destruct i; left; reflexivity.
  - exists [3; -2; 5; 7]%Z, tri_up, tri_su, tri_lo, tri_sl, [3; 2; 5; -7]%Z, tri_up, (conj_signs tri_d tri_up tri_su),
      tri_lo, (conj_signs tri_d tri_lo tri_sl).
    split; [apply tri_oriented; reflexivity|]. split; [apply tri_oriented; reflexivity|]. split; auto. split; auto.
    split; [|split; apply Permutation_refl]. split; auto. cbn [length]. intros i Hi.
    do 4 (destruct i as [|i]; [reflexivity|]). lia.
Qed.

(** x -> 3x, 2x, 5x are odd; the identity is the default activation of EdgeOrient. *)
Definition ex_lins : list ((Z -> Z) * (Z -> Z) * (Z -> Z)) :=
  [((fun v => 3 * v)%Z, (fun v => 2 * v)%Z, (fun v => 5 * v)%Z); ((fun v => v), (fun v => - v)%Z, (fun v => 2 * v)%Z)].
Definition ex_orient := edge_orient false ex_lins (fun v => v) RAdd (fun v => (Z.max 0 v + 1)%Z).
Definition tri_batch (c : cochain Z) : cbatch Z := mkCBatch c (Some [0; 0; 0; 0]) (Some [0; 4]).

Example C37_example : exists y cells cells' b1 b2,
  edge_forward Zops Z.mul Z.abs ex_orient (tri_batch tri1) = Ok (y, cells, b1) /\
  edge_forward Zops Z.mul Z.abs ex_orient (tri_batch tri2) = Ok (y, cells', b2) /\
  cells <> cells' /\ length y = 1.
Proof. do 5 eexists. split; [vm_compute; reflexivity|]. split; [vm_compute; reflexivity|]. split; [discriminate|reflexivity]. Qed.

Example C37_example_applies :
  om_invar ex_orient = false /\ Forall (odd_layer Z.mul) (om_layers ex_orient) /\
  resigned_batch Z.mul (fun i => i) tri_d (tri_batch tri1) (tri_batch tri2).
Proof.
  split; [reflexivity|]. split.
  - apply (C37_edge_orient_layers Z.mul); [|intros v; reflexivity].
    repeat constructor; intros v; cbn [fst snd]; ring.
  - split; [apply tri_resigned|]. do 2 eexists. split; [reflexivity|]. split; [reflexivity|].
    split; auto. split; auto. intros x Ex. injection Ex as <-. reflexivity.
Qed.

(** Biases destroy the invariance (the comment at mp/models.py:496 is right) ... *)
Definition biased := edge_orient false [((fun v => v), (fun v => v), (fun v => v + 100)%Z)] (fun v => v) RAdd (fun v => v).
Theorem C37_bias_refuted : exists b b' y y' c c' k k',
  resigned_batch Z.mul (fun i => i) tri_d b b' /\
  edge_forward Zops Z.mul Z.abs biased b = Ok (y, c, k) /\
  edge_forward Zops Z.mul Z.abs biased b' = Ok (y', c', k') /\ y <> y'.
Proof.
  exists (tri_batch tri1), (tri_batch tri2). do 6 eexists. split; [apply C37_example_applies|].
  split; [vm_compute; reflexivity|]. split; [vm_compute; reflexivity|]. discriminate.
Qed.

(** ... and so does the default activation (relu) of EdgeMPNN when it is not fully invariant. *)
Definition relu_mpnn := edge_mpnn Zops false [((fun v => v), (fun v => v))] (Z.max 0) RAdd (fun v => v).
Theorem C37_relu_refuted : exists b b' y y' c c' k k',
  resigned_batch Z.mul (fun i => i) tri_d b b' /\
  edge_forward Zops Z.mul Z.abs relu_mpnn b = Ok (y, c, k) /\
  edge_forward Zops Z.mul Z.abs relu_mpnn b' = Ok (y', c', k') /\ y <> y'.
Proof.
  exists (tri_batch tri1), (tri_batch tri2). do 6 eexists. split; [apply C37_example_applies|].
  split; [vm_compute; reflexivity|]. split; [vm_compute; reflexivity|]. discriminate.
Qed.

(** A network without layers fails on every batch: its features are never bound. *)
Theorem C37_no_layers_raises pool head b :
  edge_forward Zops Z.mul Z.abs (edge_orient false [] (fun v => v) pool head) b = Err NameError.
Proof. reflexivity. Qed.

(** A flow sample without upper adjacencies (no triangle): the layer raises on the maximum of an
    empty tensor. *)
Definition path_c : cochain Z :=
  mkCochain 1 (Some [3; 4]%Z) (Some []) (Some [(0,1); (1,0)]) None None None (Some []) (Some [1; 1]%Z) (Some [0%Z]) None None None None.
Definition ex_layer : olayer Z := mkOLayer (fun v => v) (fun v => v) (fun v => v) (fun v => v) true.
Lemma path_oriented : oriented path_c [3; 4]%Z [] [] [(0,1); (1,0)] [1; 1]%Z.
Proof.
  split; auto; intros j i Hi; [destruct Hi|]. destruct Hi as [Hi|[Hi|[]]]; injection Hi as <- <-; cbn [length]; lia.
Qed.

(** Hence the layer on a batch need not fail although it fails on a member. *)
Theorem C05_oriented_empty_refuted : exists b y,
  (forall c, In c [tri1; path_c] -> exists x up su lo sl, oriented c x up su lo sl) /\
  from_cochain_list [tri1; path_c] = Ok b /\
  oriented_conv Zops Z.mul ex_layer path_c = Err RuntimeError /\
  oriented_conv Zops Z.mul ex_layer (cb_cochain b) = Ok y.
Proof.
  do 2 eexists. split.
  - intros c [<-|[<-|[]]]; do 5 eexists; [apply tri_oriented; reflexivity|apply path_oriented].
  - split; [vm_compute; reflexivity|]. split; vm_compute; reflexivity.
Qed.

Example C05_oriented_example : exists b y1 y2,
  from_cochain_list [tri1; tri2] = Ok b /\
  oriented_conv Zops Z.mul ex_layer tri1 = Ok y1 /\ oriented_conv Zops Z.mul ex_layer tri2 = Ok y2 /\
  oriented_conv Zops Z.mul ex_layer (cb_cochain b) = Ok (y1 ++ y2) /\ length y1 = 4.
Proof. do 3 eexists. repeat (split; [vm_compute; reflexivity|]). reflexivity. Qed.

Example C05_edge_example : exists b p1 p2 z1 z2 k b1 k1 b2 k2,
  from_cochain_list [tri1; tri2] = Ok b /\ from_cochain_list [tri1] = Ok b1 /\ from_cochain_list [tri2] = Ok b2 /\
  edge_forward Zops Z.mul Z.abs ex_orient b1 = Ok ([p1], z1, k1) /\
  edge_forward Zops Z.mul Z.abs ex_orient b2 = Ok ([p2], z2, k2) /\ length z1 = 4 /\
  edge_forward Zops Z.mul Z.abs ex_orient b = Ok ([p1; p2], z1 ++ z2, k).
Proof. do 10 eexists. repeat (split; [vm_compute; reflexivity|]). vm_compute; reflexivity. Qed.

(** The same flow on the filled triangle, once with the default and once with another orientation. *)
Definition t_B1 : mat := mkMat 3 3 (fun v e => nth e (nth v [[-1; -1; 0]; [1; 0; -1]; [0; 1; 1]] []) 0)%Z.
Definition t_B2 : mat := mkMat 3 1 (fun e _ => nth e [1; -1; 1] 0)%Z.
Definition t_d (e : nat) : Z := if e =? 1 then (-1)%Z else 1%Z.
Example C37_dataset_example : exists c c' b b' y k k' z z',
  build_cochain (fun l => l) t_B1 t_B2 (diag_mat 3 (fun _ => 1%Z)) [1; 2; -1]%Z 0%Z None = Ok c /\
  build_cochain (fun l => l) t_B1 t_B2 (diag_mat 3 t_d) [1; 2; -1]%Z 0%Z None = Ok c' /\
  from_cochain_list (map (recast (fun v => v)) [c; c]) = Ok b /\
  from_cochain_list (map (recast (fun v => v)) [c'; c]) = Ok b' /\
  edge_forward Zops Z.mul Z.abs ex_orient b = Ok (y, z, k) /\
  edge_forward Zops Z.mul Z.abs ex_orient b' = Ok (y, z', k') /\ z <> z'.
Proof.
  do 9 eexists. do 6 (split; [vm_compute; reflexivity|]). discriminate.
Qed.
Example C37_dataset_example_applies c c' :
  build_cochain (fun l => l) t_B1 t_B2 (diag_mat 3 (fun _ => 1%Z)) [1; 2; -1]%Z 0%Z None = Ok c ->
  build_cochain (fun l => l) t_B1 t_B2 (diag_mat 3 t_d) [1; 2; -1]%Z 0%Z None = Ok c' -> same_sample c c'.
Proof.
  intros H H'. exists (fun l => l), (fun l => l), t_B1, t_B2, (fun _ => 1%Z), t_d, [1; 2; -1]%Z, 0%Z, None, None.
  split; [auto|]. split; [auto|]. split; [intros i; auto|].
  split; [intros i; unfold t_d; destruct (i =? 1); auto|]. split; [reflexivity|]. split; assumption.
Qed.

Print Assumptions C37_layer_equivariance.
Print Assumptions C37_layer_correct.
Print Assumptions C37_edge_orient_invariant.
Print Assumptions C37_fully_invariant.
Print Assumptions C37_edge_orient_layers.
Print Assumptions C37_edge_mpnn_layers.
Print Assumptions C37_reoriented_dataset.
Print Assumptions C37_bias_refuted.
Print Assumptions C37_relu_refuted.
Print Assumptions C37_no_layers_raises.
Print Assumptions C05_oriented_conv.
Print Assumptions C05_oriented_batch_exists.
Print Assumptions C05_edge_networks.
Print Assumptions C05_oriented_empty_refuted.
