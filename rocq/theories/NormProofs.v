(** Training mode: freezing the statistics of a batch turns a training pass into an evaluation pass. *)
From Coq Require Import List Arith Lia ZArith Bool Permutation.
From Verif Require Import Base ScatterModel ScatterSpec ScatterProofs ComplexModel BatchSpec BatchSpec2
  BatchProofs BatchProofs2 MPModel MPSpec MPProofs MPEngine MPBatch MPForward MPNets BatchProps MPProps MPIso.
From Verif Require Import NormModel.
Import ListNotations.

(** ** Levels with stages *)
Section Staged.
Context {V : Type} (o : ops V).
Hypothesis Hdiv : vdivn o (vzero o) 1 = vzero o.
Context {L : Type} (rule_of : L -> rule V) (lev : L -> level V) (down : bool).
Hypothesis lev_ok : forall l, implements o (lev l) (rule_of l) true down.

(** A table of rows computed on the way: the outputs of a level, or one row per message. *)
Inductive source :=
| Cells (l : L)
| Ups (g : V -> V -> V)
| Lows (g : V -> V -> V).

Definition rows (s : source) (S : skel) (X : feats V) (d : nat) : list V :=
  match s with
  | Cells l => map (new_feature o (rule_of l) true S X d) (seq 0 (s_n S d))
  | Ups g => map (fun e => g (X d (fst (fst e))) (X (d + 1) (snd e))) (s_up S d)
  | Lows g => map (fun e => g (X d (fst (fst e))) (X (pred d) (snd e))) (s_low S d)
  end.

Inductive staged :=
| Done (l : L)
| Stage (s : source) (k : list V -> staged).

Fixpoint ran (t : staged) (S : skel) (X : feats V) (d : nat) : result (list V) :=
  match t with
  | Done l => Ok (rows (Cells l) S X d)
  | Stage s k => let T := rows s S X d in
                 if length T =? 1 then Err ValueError else ran (k T) S X d
  end.

Definition mem_rows (mems : list (skel * feats V)) (s : source) (d : nat) : list V :=
  concat (map (fun q => rows s (fst q) (snd q) d) mems).

Fixpoint resolve (t : staged) (mems : list (skel * feats V)) (d : nat) : L :=
  match t with
  | Done l => l
  | Stage s k => resolve (k (mem_rows mems s d)) mems d
  end.

Fixpoint symmetric (t : staged) : Prop :=
  match t with
  | Done _ => True
  | Stage _ k => (forall T T', Permutation T T' -> k T = k T') /\ forall T, symmetric (k T)
  end.

Definition src_size (s : source) (S : skel) (d : nat) : nat :=
  match s with Cells _ => s_n S d | Ups _ => length (s_up S d) | Lows _ => length (s_low S d) end.

Fixpoint fine (t : staged) (S : skel) (d : nat) : Prop :=
  match t with
  | Done _ => True
  | Stage s k => src_size s S d <> 1 /\ forall T, fine (k T) S d
  end.

Lemma rows_length s S X d : length (rows s S X d) = src_size s S d.
Proof. destruct s; simpl; rewrite map_length; auto. apply seq_length. Qed.

Lemma ran_resolved t S X d mems :
  symmetric t -> (forall s, Permutation (rows s S X d) (mem_rows mems s d)) -> fine t S d ->
  ran t S X d = Ok (rows (Cells (resolve t mems d)) S X d).
Proof.
  intros Hs Hp. induction t as [l|s k IH]; intros Hf; cbn [ran resolve]; auto.
  destruct Hs as [Hs1 Hs2], Hf as [Hf1 Hf2]. cbv zeta. rewrite rows_length.
  destruct (Nat.eqb_spec (src_size s S d) 1); [contradiction|].
  rewrite (Hs1 _ _ (Hp s)). apply IH; auto.
Qed.

(** Errors are ValueErrors. *)
Lemma ran_err t S X d e : ran t S X d = Err e -> e = ValueError.
Proof.
  induction t as [l|s k IH]; cbn [ran]; intros H; [discriminate|].
  cbv zeta in H. destruct (_ =? 1); [congruence|eauto].
Qed.

Definition timplements (tl : level V) (t : staged) : Prop :=
  forall S X d p, skel_ok S -> params_ok S X d true down p -> tl p = ran t S X d.

(** ** Members *)
Variable pdim : nat.
Definition after (Ls : list (layer V)) (S : skel) (X : feats V) : feats V :=
  last (history o pdim true S Ls X) X.

Definition matches (mems : list (skel * feats V)) (S : skel) (X : feats V) : Prop :=
  forall Ls s d, d <= pdim ->
    Permutation (rows s S (after Ls S X) d)
      (concat (map (fun q => rows s (fst q) (after Ls (fst q) (snd q)) d) mems)).

Lemma last_cons_dep {A} (l : list A) x y : last (x :: l) y = last l x.
Proof.
  revert x y. induction l as [|z l IH]; intros x y; auto.
  change (last (x :: z :: l) y) with (last (z :: l) y). rewrite (IH z y). symmetry; apply IH.
Qed.

Lemma after_cons lay Ls S X : after (lay :: Ls) S X = after Ls S (step o pdim true S lay X).
Proof. unfold after. cbn [history]. apply last_cons_dep. Qed.

Definition advance (lay : layer V) (mems : list (skel * feats V)) : list (skel * feats V) :=
  map (fun q => (fst q, step o pdim true (fst q) lay (snd q))) mems.

Lemma matches_now mems S X s d : matches mems S X -> d <= pdim ->
  Permutation (rows s S X d) (mem_rows mems s d).
Proof. intros H Hd. exact (H [] s d Hd). Qed.

Lemma matches_step mems S X lay : matches mems S X ->
  matches (advance lay mems) S (step o pdim true S lay X).
Proof.
  intros H Ls s d Hd. rewrite <- after_cons. unfold advance. rewrite map_map.
  rewrite (map_ext _ (fun q => rows s (fst q) (after (lay :: Ls) (fst q) (snd q)) d)).
  - apply H; auto.
  - intros q. cbn [fst snd]. rewrite after_cons. auto.
Qed.

(** ** Freezing a network *)
Definition layer_of (l : nat -> L) : layer V := mkLayer (fun d => rule_of (l d)) None.

Fixpoint frozen (mems : list (skel * feats V)) (ts : list (nat -> staged)) : list (nat -> L) :=
  match ts with
  | [] => []
  | t :: ts' => let l := fun d => resolve (t d) mems d in l :: frozen (advance (layer_of l) mems) ts'
  end.

Definition tconvs (tls : list (nat -> level V)) : list (list (level V) * option (V -> V)) :=
  map (fun tl => (map tl (seq 0 (pdim + 1)), None)) tls.
Definition econvs (ls : list (nat -> L)) : list (list (level V) * option (V -> V)) :=
  map (fun l => (map (fun d => lev (l d)) (seq 0 (pdim + 1)), None)) ls.

Lemma apply_levels_ext (tl tl' : nat -> level V) ps s n :
  (forall i p, nth_error ps i = Some p -> tl (s + i) p = tl' (s + i) p) ->
  apply_levels (map tl (seq s n)) ps = apply_levels (map tl' (seq s n)) ps.
Proof.
  revert s n; induction ps as [|p ps IH]; intros s n H; cbn [apply_levels]; auto.
  destruct n as [|n]; cbn [seq map]; auto.
  pose proof (H 0 p eq_refl) as H0. rewrite Nat.add_0_r in H0. rewrite H0.
  destruct (tl' s p); cbn [bind]; auto.
  rewrite (IH (Datatypes.S s) n); auto. intros i q Hq. specialize (H (Datatypes.S i) q Hq).
  rewrite Nat.add_succ_r in H. auto.
Qed.

Lemma econvs_ok ls : Forall2 (layer_ok o pdim pdim true down) (econvs ls) (map layer_of ls).
Proof. apply (layers_ok o pdim down (fun l d => lev (l d)) (fun l d => rule_of (l d)) ls). intros; apply lev_ok. Qed.

Lemma run_cons (ls : list (level V)) cs (K : complex V) :
  run_convs pdim pdim true down ((ls, None) :: cs) K =
  let* ps := get_all_cochain_params K pdim true down true in
  let* xs := conv_forward pdim ls ps in
  let* k' := set_xs K xs in
  let* (kf, hist) := run_convs pdim pdim true down cs k' in Ok (kf, xs :: hist).
Proof. reflexivity. Qed.

Lemma vis d : cob_visible pdim true d = true.
Proof. unfold cob_visible. apply orb_true_r. Qed.

Lemma run_frozen (tls : list (nat -> level V)) ts (K : complex V) S X mems :
  Forall2 (fun tl t => forall d, timplements (tl d) (t d) /\ symmetric (t d)) tls ts ->
  skel_ok S -> represents K S X -> matches mems S X ->
  Forall (fun t => forall d, d <= pdim -> d <= s_dim S -> fine (t d) S d) ts ->
  run_convs pdim pdim true down (tconvs tls) K = run_convs pdim pdim true down (econvs (frozen mems ts)) K.
Proof.
  intros HT HS HR HM HF. revert K X mems HR HM HF.
  induction HT as [|tl t tls ts Ht HT IH]; intros K X mems HR HM HF; [reflexivity|].
  cbn [frozen]. set (l := fun d => resolve (t d) mems d).
  change (tconvs (tl :: tls)) with ((map tl (seq 0 (pdim + 1)), @None (V -> V)) :: tconvs tls).
  change (econvs (l :: frozen (advance (layer_of l) mems) ts))
    with ((map (fun d => lev (l d)) (seq 0 (pdim + 1)), @None (V -> V)) :: econvs (frozen (advance (layer_of l) mems) ts)).
  inversion HF as [|? ? HF1 HF2]; subst.
  rewrite !run_cons. unfold get_all_cochain_params. rewrite (re_dim _ _ _ HR).
  set (N := Nat.min pdim (s_dim S) + 1).
  destruct (mapM_seq_exists (fun d => get_cochain_params K d pdim true down true)
              (fun d p => params_ok S X d true down p) N) as (ps & E & Hlp & Hps).
  { intros d Hd. destruct (params_of_rep K S X d pdim true down HR HS) as (p & E & P); [unfold N in Hd; lia|].
    rewrite vis in P. eauto. }
  rewrite E. cbn [bind]. unfold conv_forward.
  rewrite (apply_levels_ext tl (fun d => lev (l d)) ps 0 (pdim + 1)).
  2:{ intros i p Hp. cbn [Nat.add]. destruct (Ht i) as [Hi Hsym]. pose proof (Hps _ _ Hp) as HP.
      assert (i < N) by (rewrite <- Hlp; apply nth_error_Some; congruence).
      rewrite (Hi S X i p HS HP). rewrite (lev_ok (l i) S X i p HS HP).
      apply (ran_resolved (t i) S X i mems Hsym).
      - intros s. apply matches_now; auto. unfold N in *; lia.
      - apply HF1; unfold N in *; lia. }
  (* the evaluation layer alone *)
  destruct (run_convs_spec o pdim pdim true down (econvs [l]) (map layer_of [l]) K S X HS (le_n _)) as (K1 & E1 & R1);
    [apply econvs_ok|auto|].
  change (econvs [l]) with [(map (fun d => lev (l d)) (seq 0 (pdim + 1)), @None (V -> V))] in E1.
  rewrite run_cons in E1. unfold get_all_cochain_params in E1. rewrite (re_dim _ _ _ HR) in E1. fold N in E1.
  rewrite E in E1. cbn [bind] in E1. unfold conv_forward in E1.
  destruct (let* _ := assert_ (length ps <=? pdim + 1) in apply_levels (map (fun d => lev (l d)) (seq 0 (pdim + 1))) ps)
    as [xs|]; [|discriminate]. cbn [bind] in *.
  destruct (set_xs K xs) as [K2|]; [|discriminate]. cbn [bind] in *.
  change (run_convs pdim pdim true down [] K2) with (@Ok (complex V * list (list (list V))) (K2, [])) in E1.
  cbn [bind] in E1. injection E1 as <- _.
  change (last (history o pdim true S (map layer_of [l]) X) X) with (step o pdim true S (layer_of l) X) in R1.
  rewrite (IH K2 (step o pdim true S (layer_of l) X) (advance (layer_of l) mems) R1 (matches_step _ _ _ _ HM) HF2).
  reflexivity.
Qed.

(** A stage with a single row in the first layer. *)
Lemma run_raises (tl : nat -> level V) tls t (K : complex V) S X d :
  (forall e, timplements (tl e) (t e)) -> skel_ok S -> represents K S X ->
  d <= pdim -> d <= s_dim S -> ran (t d) S X d = Err ValueError ->
  run_convs pdim pdim true down (tconvs (tl :: tls)) K = Err ValueError.
Proof.
  intros Ht HS HR Hd Hd' Et.
  change (tconvs (tl :: tls)) with ((map tl (seq 0 (pdim + 1)), @None (V -> V)) :: tconvs tls).
  rewrite run_cons. unfold get_all_cochain_params. rewrite (re_dim _ _ _ HR).
  set (N := Nat.min pdim (s_dim S) + 1).
  destruct (mapM_seq_exists (fun d => get_cochain_params K d pdim true down true)
              (fun d p => params_ok S X d true down p) N) as (ps & E & Hlp & Hps).
  { intros e He. destruct (params_of_rep K S X e pdim true down HR HS) as (p & E & P); [unfold N in He; lia|].
    rewrite vis in P. eauto. }
  rewrite E. cbn [bind]. unfold conv_forward.
  destruct (Nat.leb_spec (length ps) (pdim + 1)); [|unfold N in *; lia]. cbn [bind assert_].
  assert (G : forall ps s0 n i, i < length ps -> i < n ->
     (forall j p, nth_error ps j = Some p -> exists r, tl (s0 + j) p = r /\ forall e, r = Err e -> e = ValueError) ->
     (forall p, nth_error ps i = Some p -> tl (s0 + i) p = Err ValueError) ->
     apply_levels (map tl (seq s0 n)) ps = Err ValueError).
  { clear. induction ps as [|p ps IH]; intros s0 n i Hi Hn He Hr; cbn [length] in *; [lia|].
    destruct n as [|n]; [lia|]. cbn [seq map apply_levels].
    destruct (He 0 p eq_refl) as (r & Hr0 & Hre). rewrite Nat.add_0_r in Hr0. rewrite Hr0.
    destruct r as [x|e]; cbn [bind]; [|f_equal; auto].
    destruct i as [|i].
    - specialize (Hr p eq_refl). rewrite Nat.add_0_r in Hr. congruence.
    - rewrite (IH (Datatypes.S s0) n i); auto; try lia.
      + intros j q Hq. specialize (He (Datatypes.S j) q Hq). rewrite Nat.add_succ_r in He. auto.
      + intros q Hq. specialize (Hr q Hq). rewrite Nat.add_succ_r in Hr. auto. }
  rewrite (G ps 0 (pdim + 1) d); auto; try (unfold N in *; lia).
  - intros j p Hp. eexists; split; [reflexivity|]. intros e He. cbn [Nat.add] in He.
    rewrite (Ht j S X j p HS (Hps _ _ Hp)) in He. eapply ran_err; eauto.
  - intros p Hp. cbn [Nat.add]. rewrite (Ht d S X d p HS (Hps _ _ Hp)). exact Et.
Qed.

(** ** Sequential networks as stages *)
Context {St : Type}.
Fixpoint stages (ls : list (nn_layer V St)) (src : (V -> V) -> source) (acc : V -> V)
    (fin : (V -> V) -> staged) : staged :=
  match ls with
  | [] => fin acc
  | RowFun f :: r => stages r src (fun v => f (acc v)) fin
  | BatchNorm st f :: r => Stage (src acc) (fun T => stages r src (fun v => f (st T) (acc v)) fin)
  end.

Lemma stages_ok ls src fin T0 S X d (k : list V -> result (list V)) :
  (forall a, rows (src a) S X d = map a T0) ->
  (forall a, k (map a T0) = ran (fin a) S X d) ->
  forall acc, bind (apply_nn ls (map acc T0)) k = ran (stages ls src acc fin) S X d.
Proof.
  intros Hs Hk. induction ls as [|[f|st f] ls IH]; intros acc; cbn [apply_nn stages]; [apply Hk| |].
  - cbn [apply_nn_layer bind]. rewrite map_map. apply IH.
  - cbn [apply_nn_layer ran]. cbv zeta. rewrite (Hs acc). destruct (length (map acc T0) =? 1); auto.
    cbn [bind]. rewrite map_map. apply IH.
Qed.

Definition symmetric_nn (ls : list (nn_layer V St)) : Prop :=
  Forall (fun l => match l with
                   | RowFun _ => True
                   | BatchNorm st _ => forall T T', Permutation T T' -> st T = st T'
                   end) ls.

Lemma stages_symmetric ls src fin acc :
  symmetric_nn ls -> (forall a, symmetric (fin a)) -> symmetric (stages ls src acc fin).
Proof.
  intros H Hf. revert acc. induction H as [|[f|st f] ls Hl H IH]; intros acc; cbn [stages]; auto.
  cbn [symmetric]. split; [|auto]. intros T T' HT. rewrite (Hl _ _ HT). auto.
Qed.

Lemma stages_fine ls src fin acc S d :
  (forall a, src_size (src a) S d <> 1) -> (forall a, fine (fin a) S d) -> fine (stages ls src acc fin) S d.
Proof.
  intros H Hf. revert acc. induction ls as [|[f|st f] ls IH]; intros acc; cbn [stages fine]; auto.
Qed.

Definition normalises (ls : list (nn_layer V St)) : Prop :=
  exists l, In l ls /\ match l with BatchNorm _ _ => True | RowFun _ => False end.

Lemma stages_first ls src fin acc : normalises ls ->
  exists a k, stages ls src acc fin = Stage (src a) k.
Proof.
  intros (l & Hl & Hn). revert acc. induction ls as [|[f|st f] ls IH]; intros acc; [destruct Hl| |].
  - cbn [stages]. destruct Hl as [<-|Hl]; [destruct Hn|]. apply IH; auto.
  - cbn [stages]. eauto.
Qed.

Lemma no_norm_stages ls src fin acc : ~ normalises ls ->
  exists a, stages ls src acc fin = fin a /\ forall T, apply_nn ls (map acc T) = Ok (map a T).
Proof.
  revert acc. induction ls as [|[f|st f] ls IH]; intros acc H.
  - exists acc. auto.
  - destruct (IH (fun v => f (acc v))) as (a & E & Ha). { intros (l & Hl & Hn). apply H. exists l. split; [right|]; auto. }
    exists a. split; auto. intros T. cbn [apply_nn apply_nn_layer bind]. rewrite map_map. apply Ha.
  - exfalso. apply H. exists (BatchNorm st f). split; [left|]; auto.
Qed.

End Staged.
Arguments source V L : clear implicits.
Arguments staged V L : clear implicits.
