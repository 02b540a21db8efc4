(** Running averages: specification and proofs about networks. *)
From Coq Require Import List Arith Lia Bool.
From Verif Require Import Base ScatterModel ComplexModel MPModel NormModel NormSpec.
From Verif Require Import RunModel.
Import ListNotations.

Section Spec.
Context {V St : Type} (upd : nat -> St -> St -> St).
Notation nn := (list (nn_layer V St)).

(** What a normalisation with batch statistics [st] does to its running statistics when it
    sees the rows [r]. *)
Definition sees (st : list V -> St) (r : list V) (s : St) : St :=
  match r with [] => s | _ => upd (length r) (st r) s end.

(** The network without its layers from the i-th on: what reaches the i-th layer. *)
Definition cut_cin (i : nat) (l : tcin_level V St) : tcin_level V St :=
  mkTCin (tc_up_g l) (tc_up_f l) (tc_up l) (tc_down_f l) (tc_down l) (firstn i (tc_update l)) (tc_scale l).
Definition cut_sparse (i : nat) (l : tsparse_level V St) : tsparse_level V St :=
  mkTSparse (ts_up l) (ts_bnd l) (ts_upd_up l) (ts_upd_bnd l) (ts_cat l) (firstn i (ts_comb l)) (ts_s1 l) (ts_s2 l).

Definition fits_cin (l : tcin_level V St) (s : cin_state St) : Prop :=
  length (cs_up s) = length (tc_up l) /\ length (cs_down s) = length (tc_down l) /\
  length (cs_update s) = length (tc_update l).
Definition fits_sparse (l : tsparse_level V St) (s : sparse_state St) : Prop :=
  length (ss_up s) = length (ts_upd_up l) /\ length (ss_bnd s) = length (ts_upd_bnd l) /\
  length (ss_comb s) = length (ts_comb l).
End Spec.

Section Proofs.
Context {V St : Type} (o : ops V) (upd : nat -> St -> St -> St).
Notation nn := (list (nn_layer V St)).
Notation run_nn := (run_nn upd).
Notation sees := (sees upd).

(** ** One network *)
Definition updated (ls : nn) (ss : list St) (t : list V) (ss' : list St) : Prop :=
  length ss' = length ls /\
  forall i st f s, nth_error ls i = Some (BatchNorm st f) -> nth_error ss i = Some s ->
    exists r, apply_nn (firstn i ls) t = Ok r /\ nth_error ss' i = Some (sees st r s).

Lemma run_nn_ok (ls : nn) : forall ss t, length ss = length ls ->
  match apply_nn ls t with
  | Ok out => exists ss', run_nn ls ss t = Ok (out, ss') /\ updated ls ss t ss'
  | Err e => run_nn ls ss t = Err e
  end.
Proof.
  induction ls as [|l ls IH]; intros [|s ss] t L; try discriminate L.
  - exists []. split; [reflexivity|]. split; [reflexivity|]. intros [] ? ? ? H; discriminate H.
  - injection L as L. cbn [apply_nn RunModel.run_nn]. destruct l as [f|st f]; cbn [apply_nn_layer].
    + cbn [bind]. specialize (IH ss (map f t) L).
      destruct (apply_nn ls (map f t)) as [out|e].
      * destruct IH as [ss' [E [Ln U]]]. rewrite E. cbn [bind]. exists (s :: ss').
        split; [reflexivity|]. split; [cbn; now rewrite Ln|].
        intros [|i] st g s0 Hl Hs; [discriminate Hl|]. cbn [nth_error] in *.
        destruct (U i st g s0 Hl Hs) as [r [Hr Hn]]. exists r. split; [|exact Hn].
        cbn [firstn apply_nn apply_nn_layer bind]. exact Hr.
      * now rewrite IH.
    + destruct (length t =? 1) eqn:E1; [reflexivity|]. cbn [bind].
      specialize (IH ss (map (f (st t)) t) L).
      destruct (apply_nn ls (map (f (st t)) t)) as [out|e].
      * destruct IH as [ss' [E [Ln U]]]. rewrite E. cbn [bind].
        eexists. split; [reflexivity|]. split; [cbn; now rewrite Ln|].
        intros [|i] st' g s0 Hl Hs; cbn [nth_error] in *.
        -- injection Hl as -> ->. injection Hs as ->. exists t. split; [reflexivity|].
           f_equal. unfold RunProofs.sees. destruct t; reflexivity.
        -- destruct (U i st' g s0 Hl Hs) as [r [Hr Hn]]. exists r. split; [|exact Hn].
           cbn [firstn apply_nn apply_nn_layer]. rewrite E1. cbn [bind]. exact Hr.
      * now rewrite IH.
Qed.

(** Evaluation mode is the network with fixed statistics of C71. *)
Lemma eval_nn_freezes (ls : nn) : forall ss, length ss = length ls -> freezes ls (eval_nn ls ss).
Proof.
  induction ls as [|[f|st f] ls IH]; intros [|s ss] L; try discriminate L.
  - apply fz_nil.
  - injection L as L. apply (fz_row f ls _ (IH ss L)).
  - injection L as L. apply (fz_norm st f ls _ s (IH ss L)).
Qed.

(** ** CINCochainConv *)
Lemma run_ma_ok m (ls : nn) ss index data attr n : length ss = length ls ->
  match tmessage_and_aggregate o m ls index data attr n with
  | Ok out => exists ss', run_message_and_aggregate o upd m ls ss index data attr n = Ok (out, ss') /\ length ss' = length ls
  | Err e => run_message_and_aggregate o upd m ls ss index data attr n = Err e
  end.
Proof.
  intros L. unfold tmessage_and_aggregate, run_message_and_aggregate.
  destruct (index_select data (map fst index)) as [xj|e]; [|reflexivity]. cbn [bind].
  destruct (apply_msg m xj attr) as [t|e]; [|reflexivity]. cbn [bind].
  pose proof (run_nn_ok ls ss t L) as H. destruct (apply_nn ls t) as [out|e].
  - destruct H as [ss' [E [Ln _]]]. rewrite E. cbn [bind].
    destruct (scatter o RAdd (Some n) (map snd index) out) as [r|e]; [|reflexivity].
    cbn [bind]. exists ss'. split; [reflexivity|exact Ln].
  - rewrite H. reflexivity.
Qed.

Lemma run_cin_level_ok (l : tcin_level V St) s p : fits_cin l s ->
  match tcin_forward o l p with
  | Ok out => exists s', run_cin_level o upd l s p = Ok (out, s') /\ fits_cin l s' /\
      forall i st f s0, nth_error (tc_update l) i = Some (BatchNorm st f) ->
        nth_error (cs_update s) i = Some s0 ->
        exists r, tcin_forward o (cut_cin i l) p = Ok r /\ nth_error (cs_update s') i = Some (sees st r s0)
  | Err e => run_cin_level o upd l s p = Err e
  end.
Proof.
  intros [Lu [Ld Lp]]. unfold tcin_forward, run_cin_level. cbn [cut_cin tc_up_g tc_up_f tc_up tc_down_f tc_down tc_update tc_scale].
  destruct (p_x p) as [x|]; [|reflexivity]. cbn zeta.
  set (A := match p_up p with Some u => _ | None => Ok (zeros o (length x)) end).
  set (A' := match p_up p with Some u => _ | None => Ok (zeros o (length x), cs_up s) end).
  assert (HA : match A with Ok a => exists su, A' = Ok (a, su) /\ length su = length (tc_up l) | Err e => A' = Err e end).
  { unfold A, A'. destruct (p_up p) as [u|]; [now apply run_ma_ok|]. exists (cs_up s). now split. }
  clearbody A'. destruct A as [a|e]; [|rewrite HA; reflexivity].
  destruct HA as [su [-> Hsu]]. cbn [bind].
  set (B := match p_down p with Some u => _ | None => Ok (zeros o (length x)) end).
  set (B' := match p_down p with Some u => _ | None => Ok (zeros o (length x), cs_down s) end).
  assert (HB : match B with Ok a => exists su, B' = Ok (a, su) /\ length su = length (tc_down l) | Err e => B' = Err e end).
  { unfold B, B'. destruct (p_down p) as [u|]; [now apply run_ma_ok|]. exists (cs_down s). now split. }
  clearbody B'. destruct B as [b|e]; [|rewrite HB; reflexivity].
  destruct HB as [sd [-> Hsd]]. cbn [bind].
  set (z := addt o (addt o a (map (tc_scale l) x)) (addt o b (map (tc_scale l) x))).
  pose proof (run_nn_ok (tc_update l) (cs_update s) z Lp) as H.
  destruct (apply_nn (tc_update l) z) as [out|e].
  - destruct H as [ss' [E [Ln U]]]. rewrite E. cbn [bind]. eexists. split; [reflexivity|].
    split; [repeat split; assumption|]. cbn [cs_update]. exact U.
  - rewrite H. reflexivity.
Qed.

(** The three networks of a CINConv are shared: a pass updates the statistics of the update
    network once for every dimension, in order. *)
Lemma run_cin_conv_ok (l : tcin_level V St) : forall ps s, fits_cin l s ->
  match mapM (tcin_forward o l) ps with
  | Ok outs => exists s', run_cin_conv o upd l s ps = Ok (outs, s') /\ fits_cin l s' /\
      forall i st f s0, nth_error (tc_update l) i = Some (BatchNorm st f) ->
        nth_error (cs_update s) i = Some s0 ->
        exists rs, mapM (tcin_forward o (cut_cin i l)) ps = Ok rs /\
          nth_error (cs_update s') i = Some (fold_left (fun s r => sees st r s) rs s0)
  | Err e => run_cin_conv o upd l s ps = Err e
  end.
Proof.
  induction ps as [|p ps IH]; intros s F; cbn [mapM run_cin_conv].
  - exists s. split; [reflexivity|]. split; [exact F|]. intros i st f s0 _ H. exists []. now split.
  - pose proof (run_cin_level_ok l s p F) as H. destruct (tcin_forward o l p) as [out|e]; [|rewrite H; reflexivity].
    destruct H as [s' [E [F' U]]]. rewrite E. cbn [bind]. specialize (IH s' F').
    destruct (mapM (tcin_forward o l) ps) as [outs|e]; [|rewrite IH; reflexivity].
    destruct IH as [s'' [E' [F'' U']]]. rewrite E'. cbn [bind]. exists s''.
    split; [reflexivity|]. split; [exact F''|]. intros i st f s0 Hl Hs.
    destruct (U i st f s0 Hl Hs) as [r [Hr Hn]]. destruct (U' i st f _ Hl Hn) as [rs [Hrs Hn']].
    exists (r :: rs). rewrite Hr. cbn [bind]. rewrite Hrs. split; [reflexivity|exact Hn'].
Qed.

(** The weights change from step to step, the shape of the update network does not: its i-th
    layer normalises with the statistics [st]. *)
Lemma run_cin_steps_ok i st : forall (steps : list (tcin_level V St * list (params V))) s s0 rss,
  (forall l ps, In (l, ps) steps -> fits_cin l s /\ exists f, nth_error (tc_update l) i = Some (BatchNorm st f)) ->
  Forall2 (fun lp rs => mapM (tcin_forward o (cut_cin i (fst lp))) (snd lp) = Ok rs) steps rss ->
  (forall l ps, In (l, ps) steps -> exists outs, mapM (tcin_forward o l) ps = Ok outs) ->
  nth_error (cs_update s) i = Some s0 ->
  exists s', run_cin_steps o upd steps s = Ok s' /\
    nth_error (cs_update s') i = Some (fold_left (fun s r => sees st r s) (concat rss) s0).
Proof.
  induction steps as [|[l ps] steps IH]; intros s s0 rss Hf H2 Hok Hs.
  - inversion H2; subst. exists s. now split.
  - inversion H2 as [|? rs ? rss' Hrs H2' ]; subst. cbn [fst snd] in Hrs.
    destruct (Hf l ps (or_introl eq_refl)) as [F [f Hl]].
    destruct (Hok l ps (or_introl eq_refl)) as [outs Hout].
    pose proof (run_cin_conv_ok l ps s F) as H. rewrite Hout in H.
    destruct H as [s' [E [F' U]]]. destruct (U i st f s0 Hl Hs) as [rs' [Hrs' Hn]].
    assert (rs' = rs) by congruence. subst rs'.
    assert (Hf' : forall l' ps', In (l', ps') steps -> fits_cin l' s' /\
      exists f, nth_error (tc_update l') i = Some (BatchNorm st f)).
    { intros l' ps' Hin. destruct (Hf l' ps' (or_intror Hin)) as [[A [B C]] Hf'].
      destruct F as [A' [B' C']]. destruct F' as [A'' [B'' C'']].
      split; [repeat split; congruence|exact Hf']. }
    destruct (IH s' _ rss' Hf' H2' (fun l' ps' Hin => Hok l' ps' (or_intror Hin)) Hn) as [s'' [E'' Hn'']].
    exists s''. cbn [run_cin_steps]. rewrite E. cbn [bind]. split; [exact E''|].
    cbn [concat]. rewrite fold_left_app. exact Hn''.
Qed.

(** ** SparseCINCochainConv *)
Lemma run_sparse_level_ok (l : tsparse_level V St) s p : fits_sparse l s ->
  match tsparse_forward o l p with
  | Ok out => exists s', run_sparse_level o upd l s p = Ok (out, s') /\ fits_sparse l s' /\
      forall i st f s0, nth_error (ts_comb l) i = Some (BatchNorm st f) ->
        nth_error (ss_comb s) i = Some s0 ->
        exists r, tsparse_forward o (cut_sparse i l) p = Ok r /\ nth_error (ss_comb s') i = Some (sees st r s0)
  | Err e => run_sparse_level o upd l s p = Err e
  end.
Proof.
  intros [Lu [Lb Lc]]. unfold tsparse_forward, run_sparse_level.
  cbn [cut_sparse ts_up ts_bnd ts_upd_up ts_upd_bnd ts_cat ts_comb ts_s1 ts_s2].
  destruct (propagate o _ p) as [[[up down] bnd]|e]; [|reflexivity]. cbn [bind].
  pose proof (run_nn_ok (ts_upd_up l) (ss_up s) (addt o up (map (ts_s1 l) (the_x p))) Lu) as H.
  destruct (apply_nn (ts_upd_up l) _) as [a|e]; [|rewrite H; reflexivity].
  destruct H as [s1 [E1 [L1 _]]]. rewrite E1. cbn [bind].
  pose proof (run_nn_ok (ts_upd_bnd l) (ss_bnd s) (addt o bnd (map (ts_s2 l) (the_x p))) Lb) as H.
  destruct (apply_nn (ts_upd_bnd l) _) as [b|e]; [|rewrite H; reflexivity].
  destruct H as [s2 [E2 [L2 _]]]. rewrite E2. cbn [bind].
  pose proof (run_nn_ok (ts_comb l) (ss_comb s) (zipw (ts_cat l) a b) Lc) as H.
  destruct (apply_nn (ts_comb l) _) as [out|e]; [|rewrite H; reflexivity].
  destruct H as [s3 [E3 [L3 U]]]. rewrite E3. cbn [bind]. eexists. split; [reflexivity|].
  split; [repeat split; assumption|]. exact U.
Qed.

(** Every dimension has networks of its own: a pass updates each of them once. *)
Lemma run_sparse_conv_ok : forall (lss : list (tsparse_level V St * sparse_state St)) ps outs,
  Forall (fun ls => fits_sparse (fst ls) (snd ls)) lss ->
  mapM (fun lp => tsparse_forward o (fst (fst lp)) (snd lp)) (combine lss ps) = Ok outs ->
  length ps <= length lss ->
  exists ss', run_sparse_conv o upd lss ps = Ok (outs, ss') /\ length ss' = length lss /\
    forall d l s p, nth_error lss d = Some (l, s) -> nth_error ps d = Some p ->
      exists s', nth_error ss' d = Some s' /\ fits_sparse l s' /\
        forall i st f s0, nth_error (ts_comb l) i = Some (BatchNorm st f) ->
          nth_error (ss_comb s) i = Some s0 ->
          exists r, tsparse_forward o (cut_sparse i l) p = Ok r /\
            nth_error (ss_comb s') i = Some (sees st r s0).
Proof.
  induction lss as [|[l s] lss IH]; intros [|p ps] outs HF H L; cbn [length] in L; try lia.
  - injection H as <-. exists []. split; [reflexivity|]. split; [reflexivity|]. intros [] ? ? ? H; discriminate H.
  - injection H as <-. cbn [run_sparse_conv]. eexists. split; [reflexivity|].
    split; [now rewrite map_length|]. intros [] ? ? ? _ H; discriminate H.
  - inversion HF as [|? ? F HF']; subst. cbn [fst snd] in F.
    cbn [combine mapM fst snd] in H.
    pose proof (run_sparse_level_ok l s p F) as Hl.
    destruct (tsparse_forward o l p) as [out|e]; [|discriminate H]. cbn [bind] in H.
    destruct (mapM _ (combine lss ps)) as [outs'|e] eqn:Em; [|discriminate H]. injection H as <-.
    destruct Hl as [s' [E [F' U]]]. destruct (IH ps outs' HF' Em ltac:(lia)) as [ss' [E' [Ln U']]].
    cbn [run_sparse_conv]. rewrite E. cbn [bind]. rewrite E'. cbn [bind]. exists (s' :: ss').
    split; [reflexivity|]. split; [cbn; now rewrite Ln|].
    intros [|d] l0 s0 p0 Hd Hp; cbn [nth_error] in *.
    + injection Hd as <- <-. injection Hp as <-. exists s'. split; [reflexivity|]. now split.
    + apply (U' d l0 s0 p0 Hd Hp).
Qed.
End Proofs.
