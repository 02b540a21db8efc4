(** Equal colours of tuples give equal colours of cells, for C79. *)
From Coq Require Import List Arith Lia Bool Permutation.
From Verif Require Import Base ScatterModel ScatterSpec ScatterProofs ComplexModel BatchSpec BatchSpec2
  BatchProofs BatchProofs2 DummyModel LiftSpec LiftBase MPModel MPSpec MPProofs MPEngine MPBatch MPForward MPNets MPIso PowerSpec PowerProofs.
From Verif Require Import RedundantSpec RedundantProofs.
From Verif Require Import HierSpec HierProofs PartSpec PartProofs PartProps.
From Verif Require Import KwlSpec KwlProofs KwlBound KwlClique.
Import ListNotations.
Open Scope nat_scope.

(** ** How many tuples name a cell *)
Definition naming (m k : nat) : nat := length (filter (setb (seq 0 m)) (tuples (seq 0 m) k)).
Lemma naming_pos m k : 1 <= m <= k -> 0 < naming m k.
Proof.
  intros Hm. unfold naming. assert (H : In (seq 0 m ++ repeat 0 (k - m)) (filter (setb (seq 0 m)) (tuples (seq 0 m) k))).
  { assert (R : forall y, In y (seq 0 m ++ repeat 0 (k - m)) -> In y (seq 0 m)).
    { intros y Hy. apply in_app_or in Hy as [Hy|Hy]; [exact Hy|]. apply repeat_spec in Hy. subst y. apply in_seq. lia. }
    apply filter_In. split.
    - apply tuples_in. split; [rewrite app_length, seq_length, repeat_length; lia|]. apply Forall_forall. exact R.
    - apply setb_ok. intros y. split; [intros; apply in_or_app; auto|apply R]. }
  destruct (filter _ _); [destruct H|cbn; lia].
Qed.
Lemma naming_is s n k : NoDup s -> (forall v, In v s -> v < n) -> length (filter (setb s) (tuples (seq 0 n) k)) = naming (length s) k.
Proof.
  intros N R. set (m := length s). unfold naming.
  assert (P : Permutation (filter (setb s) (tuples (seq 0 n) k)) (map (map (fun q => nth q s 0)) (filter (setb (seq 0 m)) (tuples (seq 0 m) k)))).
  { apply NoDup_Permutation.
    - apply NoDup_filter, tuples_nodup, seq_NoDup.
    - apply NoDup_map_on; [apply NoDup_filter, tuples_nodup, seq_NoDup|]. intros a b Ha Hb E. apply filter_In in Ha as [Ha _], Hb as [Hb _]. apply tuples_in in Ha as [_ Ha], Hb as [_ Hb].
      revert b Hb E. induction Ha as [|u a Hu Ha IH]; intros [|v b] Hb E; try discriminate; [reflexivity|]. cbn in E. injection E as E1 E2. inversion Hb; subst. f_equal; [|apply IH; assumption].
      apply in_seq in Hu. match goal with H : In v (seq 0 m) |- _ => apply in_seq in H end. apply (proj1 (NoDup_nth s 0) N); [unfold m in *; lia|unfold m in *; lia|exact E1].
    - intros z. rewrite filter_In, tuples_in, setb_ok, in_map_iff. split.
      + intros [[L F] HS]. assert (exists a, map (fun q => nth q s 0) a = z /\ Forall (fun q => q < m) a) as (a & Ea & Fa).
        { clear L F. assert (I : forall y, In y z -> In y s) by (intros y; apply HS). clear HS. induction z as [|y z IH]; [exists []; auto|]. destruct IH as (a & Ea & Fa); [intros; apply I; cbn; auto|].
          destruct (In_nth s y 0 (I y (or_introl eq_refl))) as (q & Hq & Eq). exists (q :: a). cbn. split; [congruence|]. constructor; assumption. }
        exists a. split; [exact Ea|]. rewrite <- Ea, map_length in L. apply filter_In. split; [apply tuples_in; split; [exact L|]; eapply Forall_impl; [|exact Fa]; intros q Hq; cbv beta in Hq; apply in_seq; lia|].
        apply setb_ok. rewrite Forall_forall in Fa. intros q. split; [|intros Hq; apply in_seq; specialize (Fa q Hq); cbv beta in Fa; lia].
        intros Hq. apply in_seq in Hq. assert (In (nth q s 0) z) as Hz by (apply HS, nth_In; unfold m in *; lia). rewrite <- Ea in Hz. apply in_map_iff in Hz as (p & Ep & Hp).
        apply (proj1 (NoDup_nth s 0) N) in Ep; [subst p; exact Hp|exact (Fa p Hp)|unfold m in *; lia].
      + intros (a & <- & Ha). apply filter_In in Ha as [Ha HS]. apply tuples_in in Ha as [L F]. apply setb_ok in HS. rewrite Forall_forall in F. rewrite map_length.
        assert (I : forall y, In y (map (fun q => nth q s 0) a) -> In y s). { intros y Hy. apply in_map_iff in Hy as (q & <- & Hq). apply nth_In. apply F, in_seq in Hq. unfold m in *. lia. }
        split; [split; [exact L|]|].
        * apply Forall_forall. intros y Hy. apply in_seq. specialize (R y (I y Hy)). lia.
        * intros y. split; [|apply I]. intros Hy. destruct (In_nth s y 0 Hy) as (q & Hq & <-). apply in_map_iff. exists q. split; [reflexivity|]. apply HS, in_seq. unfold m. lia. }
  rewrite (Permutation_length P), map_length. reflexivity.
Qed.
Lemma repeats_perm {A} (f : A -> nat) {B} (g : B -> nat) N l l' : 0 < N ->
  Permutation (flat_map (fun a => repeat (f a) N) l) (flat_map (fun b => repeat (g b) N) l') -> Permutation (map f l) (map g l').
Proof.
  intros HN P. apply (Permutation_count_occ Nat.eq_dec). intros y. pose proof (proj1 (Permutation_count_occ Nat.eq_dec _ _) P y) as Q.
  assert (X : forall T (h : T -> nat) s, count_occ Nat.eq_dec (flat_map (fun a => repeat (h a) N) s) y = N * count_occ Nat.eq_dec (map h s) y).
  { intros T h s. induction s as [|a s IH]; cbn [flat_map map]; [cbn; lia|]. rewrite count_occ_app, IH. cbn [count_occ]. destruct (Nat.eq_dec (h a) y) as [E|E].
    - rewrite E, count_occ_repeat_eq by reflexivity. lia.
    - rewrite count_occ_repeat_neq by auto. lia. }
  rewrite !X in Q. nia.
Qed.
(** Tuples with one more entry, split. *)
Definition grown (n k : nat) : list (list nat) := flat_map (fun a => map (fun w => w :: a) (seq 0 n)) (tuples (seq 0 n) k).
Lemma grown_perm n k : Permutation (grown n k) (tuples (seq 0 n) (S k)).
Proof.
  apply NoDup_Permutation.
  - apply NoDup_flat_map; [apply tuples_nodup, seq_NoDup| |].
    + intros a _. apply FinFun.Injective_map_NoDup; [intros u v E; congruence|apply seq_NoDup].
    + intros a a' b _ _ H H'. apply in_map_iff in H as (w & <- & _), H' as (w' & E & _). congruence.
  - apply tuples_nodup, seq_NoDup.
  - intros z. unfold grown. rewrite in_flat_map, tuples_in. split.
    + intros (a & Ha & H). apply tuples_in in Ha as [L F]. apply in_map_iff in H as (w & <- & Hw). cbn. split; [lia|]. constructor; assumption.
    + intros [L F]. destruct z as [|w a]; [discriminate|]. injection L as L. inversion F; subst. exists a. split; [apply tuples_in; auto|]. apply in_map_iff. eauto.
Qed.
(** The tuples naming cells of dimension [d]. *)
Definition spansb (es : list (nat * nat)) (d : nat) (z : list nat) : bool :=
  (length (distinct z) =? d + 1) && forallb (fun u => forallb (fun v => (u =? v) || joined es u v) z) z.
Section Hist.
Context {W U : Type} (es : list (nat * nat)) (n M : nat) (x : nat -> W) (phi : nat -> list W -> U) (G : skel) (X : feats U) (cell : nat -> nat -> list nat).
Hypothesis NC : named_cells es n M x phi G X cell.
Lemma spansb_iff d z : (forall v, In v z -> v < n) -> (spansb es d z = true <-> spans es n d z).
Proof.
  intros R. unfold spansb, spans. rewrite andb_true_iff, Nat.eqb_eq, forallb_forall. split.
  - intros [H1 H2]. split; [exact H1|]. split; [exact R|]. intros u v Hu Hv N. specialize (H2 u Hu). rewrite forallb_forall in H2. specialize (H2 v Hv).
    apply orb_true_iff in H2 as [Q|Q]; [apply Nat.eqb_eq in Q; congruence|exact Q].
  - intros (H1 & _ & H3). split; [exact H1|]. intros u Hu. apply forallb_forall. intros v Hv. apply orb_true_iff. destruct (Nat.eqb_spec u v) as [Q|Q]; [now left|right]. auto.
Qed.
Lemma hist d k (f : nat -> nat) : d <= M -> Permutation (map (fun z => f (fc G cell d z)) (filter (spansb es d) (tuples (seq 0 n) k))) (flat_map (fun i => repeat (f i) (naming (d + 1) k)) (seq 0 (s_n G d))).
Proof.
  intros Hd. set (Z := tuples (seq 0 n) k). assert (RZ : forall z v, In z Z -> In v z -> v < n).
  { intros z v Hz Hv. apply tuples_in in Hz as [_ F]. rewrite Forall_forall in F. apply F, in_seq in Hv. lia. }
  assert (P : Permutation (filter (spansb es d) Z) (flat_map (fun i => filter (setb (cell d i)) Z) (seq 0 (s_n G d)))).
  { apply NoDup_Permutation.
    - apply NoDup_filter, tuples_nodup, seq_NoDup.
    - apply NoDup_flat_map; [apply seq_NoDup|intros; apply NoDup_filter, tuples_nodup, seq_NoDup|].
      intros i j z Hi Hj H H'. apply in_seq in Hi, Hj. apply filter_In in H as [_ H], H' as [_ H']. apply setb_ok in H, H'. apply (nc_inj _ _ _ _ _ _ _ _ NC d); [lia|lia|]. intros v. rewrite (H v), (H' v). tauto.
    - intros z. rewrite filter_In, in_flat_map. split.
      + intros [Hz Hs]. apply spansb_iff in Hs; [|intros v; apply RZ; exact Hz]. destruct (fc_at es n M x phi G X cell NC d z Hd Hs) as [F1 F2]. exists (fc G cell d z). split; [apply in_seq; lia|].
        apply filter_In. split; [exact Hz|]. apply setb_ok. exact F2.
      + intros (i & Hi & H). apply in_seq in Hi. apply filter_In in H as [Hz H]. apply setb_ok in H. split; [exact Hz|]. apply spansb_iff; [intros v; apply RZ; exact Hz|].
        apply (cell_spans _ _ _ _ _ _ _ _ NC d i); [lia|exact H]. }
  rewrite (Permutation_map _ P). clear P. assert (LE : s_n G d <= s_n G d) by lia. revert LE. generalize (s_n G d) at 1 3 4. intros q Hq. 
  assert (L : forall i, In i (seq 0 q) -> i < s_n G d) by (intros i Hi; apply in_seq in Hi; lia). revert L. generalize (seq 0 q). clear Hq q. intros l L.
  induction l as [|i l IH]; cbn [flat_map map]; [constructor|]. rewrite map_app. apply Permutation_app; [|apply IH; intros; apply L; cbn; auto].
  specialize (L i (or_introl eq_refl)).
  rewrite <- (nc_len _ _ _ _ _ _ _ _ NC d i L), <- (naming_is (cell d i) n k (nc_once _ _ _ _ _ _ _ _ NC d i L) (fun v => nc_range _ _ _ _ _ _ _ _ NC d i v L)). fold Z.
  assert (Q : forall z, In z (filter (setb (cell d i)) Z) -> fc G cell d z = i).
  { intros z Hz. apply filter_In in Hz as [_ Hz]. apply setb_ok in Hz. exact (fc_is _ _ _ _ _ _ _ _ NC d i z L Hz). }
  revert Q. generalize (filter (setb (cell d i)) Z). intros zs Q. induction zs as [|z zs IHz]; cbn; [constructor|]. rewrite (Q z (or_introl eq_refl)). constructor. apply IHz. intros; apply Q; cbn; auto.
Qed.
End Hist.

Section Two.
Context {W U C C2 : Type} (init : list W * list bool * list bool -> C) (hash : C -> list (list C) -> C).
Hypothesis faithful : kwl_faithful init hash.
Context (col0 : nat -> U -> C2) (chash : C2 -> list (C2 * C2) -> list C2 -> C2).
Hypothesis chash_perm : forall c u b u' b', Permutation u u' -> Permutation b b' -> chash c u b = chash c u' b'.
Variables (es es' : list (nat * nat)) (n n' : nat) (x x' : nat -> W) (K M : nat) (phi : nat -> list W -> U)
  (G G' : skel) (X X' : feats U) (cell cell' : nat -> nat -> list nat) (down down' : bool).
Hypothesis HK : 2 <= K.
Hypothesis HM : M <= K.
Hypothesis NC : named_cells es n M x phi G X cell.
Hypothesis NC' : named_cells es' n' M x' phi G' X' cell'.
Hypothesis RG : regular down G.
Hypothesis RG' : regular down' G'.
Notation col := (colour col0 chash G X).
Notation col' := (colour col0 chash G' X').
Notation E := (E init hash es es' n n' x x').
Notation EE := (EE init hash es es' n n' x x' K).
Notation tup := (tup K).
Notation look := (look es es' x x').

Lemma EE_le l m a a' w w' : tup a a' -> l <= m -> EE m a a' w w' -> EE l a a' w w'.
Proof.
  intros T L [H1 H2]. split; [exact (E_le init hash faithful es es' n n' x x' K l m _ _ T L H1)|]. intros j Hj.
  exact (E_le init hash faithful es es' n n' x x' K l m _ _ (tup_replace K a a' j w w' Hj T) L (H2 j Hj)).
Qed.
Lemma E_self l a a' u u' : tup a a' -> Forall (fun v => v < n) a -> E (S l) a a' -> In (u, u') (combine a a') -> EE l a a' u u'.
Proof.
  intros T F H Hu. split; [eapply E_le; [exact faithful|exact T| |exact H]; lia|]. intros j Hj. eapply E_assign; eauto.
Qed.
(** Tuples looking alike have as many different entries. *)
Lemma look_pairs z z' : look z z' -> Forall2 (fun u u' => In (u, u') (combine z z')) (distinct z) (distinct z').
Proof. intros L. apply look_nodup. split; [exact (lk_len _ _ _ _ _ _ L)|exact (lk_eq _ _ _ _ _ _ L)]. Qed.
Lemma forall2_imp {A B} (R Q : A -> B -> Prop) l l' : (forall a b, In a l -> In b l' -> R a b -> Q a b) -> Forall2 R l l' -> Forall2 Q l l'.
Proof. intros H F. induction F as [|a b l l' HR F IH]; constructor; [apply H; cbn; auto|]. apply IH. intros; apply H; cbn; auto. Qed.

Definition rounds (l : nat) : nat := l * (K + 2).
Lemma cells_alike l : forall d i i' a a' w w', i < s_n G d -> i' < s_n G' d -> tup a a' -> same_set (cell d i) (w :: a) -> same_set (cell' d i') (w' :: a') ->
  EE (rounds l) a a' w w' -> col l d i = col' l d i'.
Proof.
  induction l as [|l IH]; intros d i i' a a' w w' Hi Hi' T HS HS' H.
  - cbn [colour]. f_equal. assert (LK : look (w :: a) (w' :: a')) by (eapply EE_look; eauto).
    rewrite (nc_row _ _ _ _ _ _ _ _ NC d i (distinct (w :: a)) Hi (NoDup_nodup _ _)) by (intros v; rewrite nodup_In; apply HS).
    rewrite (nc_row _ _ _ _ _ _ _ _ NC' d i' (distinct (w' :: a')) Hi' (NoDup_nodup _ _)) by (intros v; rewrite nodup_In; apply HS').
    f_equal. pose proof (look_pairs _ _ LK) as F. revert F. generalize (distinct (w :: a)) (distinct (w' :: a')). intros s s' F.
    induction F as [|u u' s s' Hu F IHF]; [reflexivity|]. cbn. f_equal; [apply (lk_lab _ _ _ _ _ _ LK _ _ Hu)|exact IHF].
  - assert (LK : look (w :: a) (w' :: a')) by (eapply EE_look; eauto).
    pose proof (cell_spans _ _ _ _ _ _ _ _ NC _ _ _ Hi HS) as SP. pose proof (cell_spans _ _ _ _ _ _ _ _ NC' _ _ _ Hi' HS') as SP'.
    assert (FA : Forall (fun y => y < n) (w :: a)) by (apply Forall_forall; apply SP).
    assert (RR : rounds (S l) = K + (rounds l + 1) + 1) by (unfold rounds; lia).
    rewrite !colour_next. rewrite (IH d i i' a a' w w' Hi Hi' T HS HS') by (eapply EE_le; [exact T| |exact H]; lia). apply chash_perm.
    + (* upper neighbours *)
      destruct (le_dec (d + 1) M) as [Hd|Hd].
      2:{ rewrite (up_none es n M x phi G X cell down NC RG d i Hi Hd), (up_none es' n' M x' phi G' X' cell' down' NC' RG' d i' Hi' Hd). constructor. }
      destruct (EE_small init hash faithful es es' n n' x x' K HK (rounds (S l)) a a' w w' T FA H) as (b & b' & TB & FB & HB & IB & IB').
      { destruct SP as (L & _). rewrite L. lia. }
      assert (SB : same_set (cell d i) b) by (intros y; rewrite (HS y), (IB y); tauto).
      assert (SB' : same_set (cell' d i') b') by (intros y; rewrite (HS' y), (IB' y); tauto).
      rewrite (Permutation_map _ (up_perm es n M x phi G X cell down NC RG d i b Hi Hd SB)).
      rewrite (Permutation_map _ (up_perm es' n' M x' phi G' X' cell' down' NC' RG' d i' b' Hi' Hd SB')).
      pose proof (cell_spans _ _ _ _ _ _ _ _ NC _ _ _ Hi SB) as SPB. pose proof (cell_spans _ _ _ _ _ _ _ _ NC' _ _ _ Hi' SB') as SPB'.
      apply (matched_map (fun e e' => col l d (fst (fst e)) = col' l d (fst (fst e')) /\ col l (d + 1) (snd e) = col' l (d + 1) (snd e'))); [intros e e' [E1 E2]; congruence|].
      apply (matched_flat (fun w w' => EE (K + (rounds l + 1)) b b' w w' /\ w < n /\ w' < n' /\ ext es b w = true /\ ext es' b' w' = true)).
      * intros v v' (Hv & Rv & Rv' & Xv & Xv'). pose proof (EE_look init hash faithful es es' n n' x x' K HK _ _ _ _ _ TB Hv) as LB.
        assert (LBB : look b b') by (eapply E_look; eauto).
        assert (FV : Forall (fun y => y < n) (v :: b)) by (constructor; assumption).
        apply matched_mapped, matched_forall. cbn [fst snd]. pose proof (look_pairs _ _ LBB) as F. revert F. apply forall2_imp. intros u u' Hu Hu' Huu. apply nodup_In in Hu, Hu'.
        pose proof (proj1 (ext_iff _ _ _) Xv) as [Nv _]. pose proof (proj1 (ext_iff _ _ _) Xv') as [Nv' _].
        split.
        -- destruct (EE_face init hash faithful es es' n n' x x' K HK (rounds l + 1) b b' v v' u u' v v' TB FV Hv) as (g & g' & TG & FG & HG & IG & IG').
           { right. exact Huu. } { left. reflexivity. } { intros ->. auto. }
           assert (Sg : same_set (v :: without u b) g).
           { intros y. rewrite (IG y). cbn [In]. rewrite without_in. split; [intros [<-|Q]; [split; [auto|intros ->; auto]|tauto]|tauto]. }
           assert (Sg' : same_set (v' :: without u' b') g').
           { intros y. rewrite (IG' y). cbn [In]. rewrite without_in. split; [intros [<-|Q]; [split; [auto|intros ->; auto]|tauto]|tauto]. }
           destruct (fc_at es n M x phi G X cell NC d (v :: without u b)) as [F1 F2]; [lia| |].
           { apply (spans_ext _ _ d (without u (v :: b))); [|apply spans_without; [apply spans_ext_cons; assumption|now right]].
             intros y. rewrite without_in. cbn [In]. rewrite without_in. split; [tauto|intros [<-|Q]; [split; [auto|intros ->; auto]|tauto]]. }
           destruct (fc_at es' n' M x' phi G' X' cell' NC' d (v' :: without u' b')) as [F1' F2']; [lia| |].
           { apply (spans_ext _ _ d (without u' (v' :: b'))); [|apply spans_without; [apply spans_ext_cons; assumption|now right]].
             intros y. rewrite without_in. cbn [In]. rewrite without_in. split; [tauto|intros [<-|Q]; [split; [auto|intros ->; auto]|tauto]]. }
           assert (exists u0 u0', In (u0, u0') (combine g g')) as (u0 & u0' & H0).
           { destruct TG as [TG TG']. destruct g as [|u0 g]; [cbn in TG; lia|]. destruct g' as [|u0' g']; [cbn in TG'; lia|]. exists u0, u0'. now left. }
           apply (IH d _ _ g g' u0 u0' F1 F1' TG).
           ++ intros y. rewrite (F2 y), (Sg y). cbn [In]. pose proof (in_combine_l _ _ _ _ H0). split; [auto|]. intros [<-|Q]; auto.
           ++ intros y. rewrite (F2' y), (Sg' y). cbn [In]. pose proof (in_combine_r _ _ _ _ H0). split; [auto|]. intros [<-|Q]; auto.
           ++ apply E_self; auto. replace (S (rounds l)) with (rounds l + 1) by lia. exact HG.
        -- destruct (fc_at es n M x phi G X cell NC (d + 1) (v :: b) Hd) as [F1 F2]; [apply spans_ext_cons; assumption|].
           destruct (fc_at es' n' M x' phi G' X' cell' NC' (d + 1) (v' :: b') Hd) as [F1' F2']; [apply spans_ext_cons; assumption|].
           apply (IH (d + 1) _ _ b b' v v' F1 F1' TB F2 F2'). eapply EE_le; [exact TB| |exact Hv]. lia.
      * rewrite RR in HB. replace (K + (rounds l + 1) + 1) with (S (K + (rounds l + 1))) in HB by lia.
        pose proof (E_all init hash faithful es es' n n' x x' K _ _ _ TB HB) as MA.
        assert (MF : matched (EE (K + (rounds l + 1)) b b') (filter (ext es b) (seq 0 n)) (filter (ext es' b') (seq 0 n'))).
        { apply matched_filter; [|exact MA]. intros v v' Hv. pose proof (EE_look init hash faithful es es' n n' x x' K HK _ _ _ _ _ TB Hv) as LB. destruct TB as [TB TB'].
          apply eq_true_iff_eq. rewrite !ext_iff. split; intros [N J]; split.
          - intros Q. destruct (combine_right b b' v' ltac:(congruence) Q) as (q & Hq). apply N. rewrite (proj2 (lk_eq _ _ _ _ _ _ LB v v' q v' (or_introl eq_refl) (or_intror Hq)) eq_refl). eapply in_combine_l; exact Hq.
          - intros u' Hu'. destruct (combine_right b b' u' ltac:(congruence) Hu') as (q & Hq). rewrite <- (lk_adj _ _ _ _ _ _ LB v v' q u' (or_introl eq_refl) (or_intror Hq)). apply J. eapply in_combine_l; exact Hq.
          - intros Q. destruct (combine_left b b' v ltac:(congruence) Q) as (q & Hq). apply N. rewrite (proj1 (lk_eq _ _ _ _ _ _ LB v v' v q (or_introl eq_refl) (or_intror Hq)) eq_refl). eapply in_combine_r; exact Hq.
          - intros u Hu. destruct (combine_left b b' u ltac:(congruence) Hu) as (q & Hq). rewrite (lk_adj _ _ _ _ _ _ LB v v' u q (or_introl eq_refl) (or_intror Hq)). apply J. eapply in_combine_r; exact Hq. }
        revert MF. apply matched_imp. intros v v' Hv Hv' HE. apply filter_In in Hv as [Hv Xv], Hv' as [Hv' Xv']. apply in_seq in Hv, Hv'. split; [exact HE|]. repeat apply conj; auto; lia.
    + (* boundaries *)
      destruct d as [|d].
      { unfold bnd_at. rewrite (nc_bnd0 _ _ _ _ _ _ _ _ NC), (nc_bnd0 _ _ _ _ _ _ _ _ NC'). constructor. }
      replace (S d) with (d + 1) in * by lia. replace (pred (d + 1)) with d by lia. pose proof (nc_dim _ _ _ _ _ _ _ _ NC _ _ Hi) as Hd.
      rewrite <- (map_map fst (col l d)), <- (map_map fst (col' l d)).
      change (map fst (bnd_at G (d + 1) i)) with (bnds G (d + 1) i). change (map fst (bnd_at G' (d + 1) i')) with (bnds G' (d + 1) i').
      rewrite (Permutation_map _ (bnds_perm es n M x phi G X cell down NC RG d i _ Hi HS)), (Permutation_map _ (bnds_perm es' n' M x' phi G' X' cell' down' NC' RG' d i' _ Hi' HS')).
      rewrite !map_map. apply (matched_map (fun u u' => col l d (fc G cell d (without u (w :: a))) = col' l d (fc G' cell' d (without u' (w' :: a'))))); [auto|].
      apply matched_forall. pose proof (look_pairs _ _ LK) as F. revert F. apply forall2_imp. intros u u' Hu Hu' Huu. apply nodup_In in Hu, Hu'.
      assert (exists t, In t (w :: a) /\ t <> u) as (t & Ht & Nt).
      { destruct (Forall_Exists_dec (fun t => t = u) (fun t => Nat.eq_dec t u) (w :: a)) as [Q|Q].
        - exfalso. rewrite Forall_forall in Q. destruct SP as (L & _). assert (length (distinct (w :: a)) <= length [u]); [|cbn [length] in *; lia].
          apply NoDup_incl_length; [apply NoDup_nodup|]. intros y Hy. apply nodup_In in Hy. left. symmetry. auto.
        - apply Exists_exists in Q. exact Q. }
      destruct (combine_left (w :: a) (w' :: a') t (lk_len _ _ _ _ _ _ LK) Ht) as (t' & Htt).
      destruct (EE_face init hash faithful es es' n n' x x' K HK (rounds l + 1) a a' w w' u u' t t' T FA) as (g & g' & TG & FG & HG & IG & IG'); auto.
      { eapply EE_le; [exact T| |exact H]. lia. }
      destruct (fc_at es n M x phi G X cell NC d (without u (w :: a))) as [F1 F2]; [lia|apply spans_without; assumption|].
      destruct (fc_at es' n' M x' phi G' X' cell' NC' d (without u' (w' :: a'))) as [F1' F2']; [lia|apply spans_without; assumption|].
      assert (exists u0 u0', In (u0, u0') (combine g g')) as (u0 & u0' & H0).
      { destruct TG as [TG TG']. destruct g as [|u0 g]; [cbn in TG; lia|]. destruct g' as [|u0' g']; [cbn in TG'; lia|]. exists u0, u0'. now left. }
      apply (IH d _ _ g g' u0 u0' F1 F1' TG).
      * intros y. rewrite (F2 y), without_in, <- (IG y). cbn [In]. pose proof (in_combine_l _ _ _ _ H0). split; [auto|]. intros [<-|Q]; auto.
      * intros y. rewrite (F2' y), without_in, <- (IG' y). cbn [In]. pose proof (in_combine_r _ _ _ _ H0). split; [auto|]. intros [<-|Q]; auto.
      * apply E_self; auto. replace (S (rounds l)) with (rounds l + 1) by lia. exact HG.
Qed.
End Two.

(** Equal colours of the tuples: equal colours of the cells. *)
Section Hist2.
Context {W U C : Type} (init : list W * list bool * list bool -> C) (hash : C -> list (list C) -> C).
Hypothesis faithful : kwl_faithful init hash.
Context (col0 : nat -> U -> nat) (chash : nat -> list (nat * nat) -> list nat -> nat).
Hypothesis chash_perm : forall c u b u' b', Permutation u u' -> Permutation b b' -> chash c u b = chash c u' b'.
Variables (es es' : list (nat * nat)) (n n' : nat) (x x' : nat -> W) (K M : nat) (phi : nat -> list W -> U)
  (G G' : skel) (X X' : feats U) (cell cell' : nat -> nat -> list nat) (down down' : bool).
Hypothesis HK : 2 <= K.
Hypothesis HM : M <= K.
Hypothesis NC : named_cells es n M x phi G X cell.
Hypothesis NC' : named_cells es' n' M x' phi G' X' cell'.
Hypothesis RG : regular down G.
Hypothesis RG' : regular down' G'.
Lemma hist_alike l d : Permutation (kwl_colours init hash es x n K (rounds K l + 1)) (kwl_colours init hash es' x' n' K (rounds K l + 1)) ->
  Permutation (map (colour col0 chash G X l d) (seq 0 (s_n G d))) (map (colour col0 chash G' X' l d) (seq 0 (s_n G' d))).
Proof.
  intros P. destruct (le_dec d M) as [Hd|Hd].
  2:{ assert (E : s_n G d = 0) by (destruct (s_n G d) as [|q] eqn:Eq; [reflexivity|]; exfalso; apply Hd, (nc_dim _ _ _ _ _ _ _ _ NC d 0); lia).
      assert (E' : s_n G' d = 0) by (destruct (s_n G' d) as [|q] eqn:Eq; [reflexivity|]; exfalso; apply Hd, (nc_dim _ _ _ _ _ _ _ _ NC' d 0); lia). rewrite E, E'. constructor. }
  apply (repeats_perm _ _ (naming (d + 1) (S K))); [apply naming_pos; lia|].
  rewrite <- (hist es n M x phi G X cell NC d (S K) (colour col0 chash G X l d) Hd), <- (hist es' n' M x' phi G' X' cell' NC' d (S K) (colour col0 chash G' X' l d) Hd).
  assert (PF : forall (p : list nat -> bool) l l', Permutation l l' -> Permutation (filter p l) (filter p l')).
  { intros p s s' Q. induction Q; cbn; auto; [destruct (p x0); auto|destruct (p x0), (p y); auto; constructor|etransitivity; eauto]. }
  rewrite <- (Permutation_map _ (PF _ _ _ (grown_perm n K))), <- (Permutation_map _ (PF _ _ _ (grown_perm n' K))).
  unfold kwl_colours in P. apply matched_of_map in P. replace (rounds K l + 1) with (S (rounds K l)) in P by lia.
  set (R := fun z z' => exists a a' w w', z = w :: a /\ z' = w' :: a' /\ tup K a a' /\ (forall v, In v z -> v < n) /\ (forall v, In v z' -> v < n') /\ EE init hash es es' n n' x x' K (rounds K l) a a' w w').
  assert (MG : matched R (grown n K) (grown n' K)).
  { apply (matched_flat (fun a a' => E init hash es es' n n' x x' (S (rounds K l)) a a' /\ In a (tuples (seq 0 n) K) /\ In a' (tuples (seq 0 n') K))).
    - intros a a' (H & Ha & Ha'). apply tuples_in in Ha as [L F], Ha' as [L' F']. rewrite Forall_forall in F, F'. assert (T : tup K a a') by (split; assumption). apply matched_mapped.
      pose proof (E_all init hash faithful es es' n n' x x' K _ _ _ T H) as MA. revert MA. apply matched_imp. intros w w' Hw Hw' HE. apply in_seq in Hw, Hw'. exists a, a', w, w'.
      split; [reflexivity|]. split; [reflexivity|]. split; [exact T|]. split; [|split; [|exact HE]]; intros v [<-|Hv]; try lia; [apply F, in_seq in Hv|apply F', in_seq in Hv]; lia.
    - revert P. apply matched_imp. intros a a' Ha Ha' HE. split; [exact HE|auto]. }
  apply (matched_map (fun z z' => R z z' /\ spansb es d z = true /\ spansb es' d z' = true)).
  - intros z z' ((a & a' & w & w' & -> & -> & T & F & F' & HE) & Hs & Hs'). apply (spansb_iff es n d _ F) in Hs. apply (spansb_iff es' n' d _ F') in Hs'.
    destruct (fc_at es n M x phi G X cell NC d _ Hd Hs) as [F1 F2], (fc_at es' n' M x' phi G' X' cell' NC' d _ Hd Hs') as [F1' F2'].
    exact (cells_alike init hash faithful col0 chash chash_perm es es' n n' x x' K M phi G G' X X' cell cell' down down' HK HM NC NC' RG RG' l d _ _ a a' w w' F1 F1' T F2 F2' HE).
  - assert (MF : matched R (filter (spansb es d) (grown n K)) (filter (spansb es' d) (grown n' K))).
    { apply matched_filter; [|exact MG]. intros z z' (a & a' & w & w' & -> & -> & T & F & F' & HE). pose proof (EE_look init hash faithful es es' n n' x x' K HK _ _ _ _ _ T HE) as LK.
      pose proof (look_pairs _ _ _ _ _ _ LK) as FP. apply eq_true_iff_eq. rewrite (spansb_iff es n d _ F), (spansb_iff es' n' d _ F'). unfold spans.
      assert (EL : length (distinct (w :: a)) = length (distinct (w' :: a'))) by (clear -FP; induction FP; cbn; congruence).
      pose proof (lk_len _ _ _ _ _ _ LK) as LL. split; intros (H1 & _ & H3); (split; [congruence|]); (split; [assumption|]).
      - intros u' v' Hu Hv N. destruct (combine_right _ _ u' LL Hu) as (u & Iu), (combine_right _ _ v' LL Hv) as (v & Iv). rewrite <- (lk_adj _ _ _ _ _ _ LK _ _ _ _ Iu Iv).
        apply H3; [eapply in_combine_l; exact Iu|eapply in_combine_l; exact Iv|]. intros Q. apply N. apply (lk_eq _ _ _ _ _ _ LK _ _ _ _ Iu Iv). exact Q.
      - intros u v Hu Hv N. destruct (combine_left _ _ u LL Hu) as (u' & Iu), (combine_left _ _ v LL Hv) as (v' & Iv). rewrite (lk_adj _ _ _ _ _ _ LK _ _ _ _ Iu Iv).
        apply H3; [eapply in_combine_r; exact Iu|eapply in_combine_r; exact Iv|]. intros Q. apply N. apply (lk_eq _ _ _ _ _ _ LK _ _ _ _ Iu Iv). exact Q. }
    revert MF. apply matched_imp. intros z z' Hz Hz' HR. apply filter_In in Hz as [_ Hz], Hz' as [_ Hz']. auto.
Qed.
End Hist2.
