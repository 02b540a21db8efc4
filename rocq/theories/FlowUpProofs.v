(** Networks without coboundary features: information flows from faces to cells only. *)
From Coq Require Import List Arith Lia ZArith Bool Permutation.
From Verif Require Import Base ScatterModel ScatterSpec ScatterProofs ComplexModel BatchSpec BatchSpec2 BatchProofs BatchProofs2
  LiftModel LiftSpec LiftBase MPModel MPSpec MPProofs MPEngine MPBatch MPForward MPNets MPIso
  GraphNetModel GraphNetSpec GraphNetProofs PowerSpec PowerProofs WLSpec WLProofs FlowUpSpec.
Import ListNotations.

Section Up.
Context {V : Type} (o : ops V).

(** A rule that ignores coboundary features and has no lower messages. *)
Definition flat (r : rule V) : Prop := (forall x a a', r_up r x a = r_up r x a') /\ r_low r = None.

Lemma map_filter_fst {A B} (f : A -> B) (p : B -> bool) l : map f (filter (fun e => p (f e)) l) = filter p (map f l).
Proof. induction l as [|a l IH]; auto. cbn. destruct (p (f a)); cbn; rewrite IH; auto. Qed.

Section Two.
Variables (d : nat) (S S' : skel).
Hypothesis Hup : forall e, e <= d -> map fst (s_up S e) = map fst (s_up S' e).
Hypothesis Hbnd : forall e, e <= d -> s_bnd S e = s_bnd S' e.

Lemma new_feature_flat r cob cob' X X' e i : flat r -> e <= d -> (forall e i, e <= d -> X e i = X' e i) ->
  new_feature o r cob S X e i = new_feature o r cob' S' X' e i.
Proof.
  intros [HU HL] He HX. unfold new_feature. f_equal; auto.
  - unfold agg_up. f_equal. pose (g := fun p : nat * nat => r_up r (X e (fst p)) None).
    transitivity (map g (map fst (up_at S e i))).
    { rewrite map_map. apply map_ext. intros q. apply HU. }
    transitivity (map g (map fst (up_at S' e i))).
    { f_equal. unfold up_at. rewrite !(map_filter_fst fst (fun p : nat * nat => snd p =? i)). rewrite Hup; auto. }
    rewrite map_map. apply map_ext. intros q. unfold g. rewrite HX by auto. apply HU.
  - unfold agg_low. rewrite HL. auto.
  - unfold agg_bnd. destruct (r_bnd r) as [f|]; auto. f_equal. unfold bnd_at. rewrite Hbnd by auto. apply map_ext. intros q. rewrite HX; auto. lia.
Qed.

Lemma step_flat pdim top top' L X X' : (forall e, e <= d -> flat (l_rule L e)) -> (forall e i, e <= d -> X e i = X' e i) ->
  forall e i, e <= d -> step o pdim top S L X e i = step o pdim top' S' L X' e i.
Proof.
  intros HL HX e i He. unfold step. destruct (e <=? pdim); [apply new_feature_flat; auto|].
  destruct (l_top L); [destruct (e =? 2); [f_equal|]|]; auto.
Qed.

Lemma history_flat pdim top top' Ls : (forall L, In L Ls -> forall e, e <= d -> flat (l_rule L e)) -> forall X X', (forall e i, e <= d -> X e i = X' e i) ->
  forall e i, e <= d -> map (fun Y : feats V => Y e i) (history o pdim top S Ls X) = map (fun Y : feats V => Y e i) (history o pdim top' S' Ls X').
Proof.
  induction Ls as [|L Ls IH]; intros HL X X' HX e i He; auto. cbn [history map].
  assert (HS : forall e i, e <= d -> step o pdim top S L X e i = step o pdim top' S' L X' e i) by (apply step_flat; auto; apply HL; left; auto).
  f_equal; auto. apply IH; auto. intros L' H'. apply HL. right; auto.
Qed.

Lemma final_flat jump pdim top top' Ls X X' : (forall L, In L Ls -> forall e, e <= d -> flat (l_rule L e)) -> (forall e i, e <= d -> X e i = X' e i) ->
  forall e i, e <= d -> final_feats jump (history o pdim top S Ls X) X e i = final_feats jump (history o pdim top' S' Ls X') X' e i.
Proof.
  intros HL HX e i He. pose proof (history_flat pdim top top' Ls HL X X' HX e i He) as H. destruct jump as [j|]; cbn [final_feats]; [f_equal; auto|].
  rewrite <- (last_map (fun Y : feats V => Y e i) (history o pdim top S Ls X) X), <- (last_map (fun Y : feats V => Y e i) (history o pdim top' S' Ls X') X'), H.
  f_equal. auto.
Qed.

Lemma predict_flat (a : arch V) X X' : (forall L, In L (a_layers a) -> forall e, e <= d -> flat (l_rule L e)) -> (forall e, In e (a_dims a) -> e <= d) ->
  (forall e, e <= d -> s_n S e = s_n S' e) -> (forall e i, e <= d -> X e i = X' e i) -> predict o a S X = predict o a S' X'.
Proof.
  intros HL HD HN HX. unfold predict, combine_dims. cbv zeta.
  match goal with |- context [map ?f (a_dims a)] => match goal with |- _ = ?r => match r with context [map ?g (a_dims a)] => assert (E : map f (a_dims a) = map g (a_dims a)) end end end.
  { apply map_ext_in. intros e He. f_equal. destruct (e <=? a_pdim a); auto. f_equal. rewrite HN by auto. apply map_ext. intros i. apply final_flat; auto. }
  rewrite E. auto.
Qed.
End Two.
End Up.

(** ** Complexes that agree *)
Section Agree.
Context {V : Type} (o : ops V).

Lemma map_fst_combine {A B} (l : list A) (l' : list B) : length l' = length l -> map fst (combine l l') = l.
Proof. revert l'. induction l as [|a l IH]; intros [|b l'] H; try discriminate; auto. cbn. f_equal. apply IH. cbn in H. lia. Qed.

Lemma skel_up D (k : complex V) sz e : wf_complex k sz -> e < D -> map fst (s_up (skel_of D k sz) e) = content (attr c_upper e k).
Proof.
  intros W He. unfold skel_of. cbn [s_up]. unfold attr. destruct (nth_error (k_cochains k) e) as [c|] eqn:Ec.
  - pose proof (wf_upper _ _ _ _ (wfk_each _ _ W e c Ec)) as U. destruct (Nat.ltb_spec e (Nat.min (k_dim k) D)).
    + apply map_fst_combine. destruct (c_upper c) as [u|]; cbn [content]; [|rewrite U; auto]. destruct U as (_ & _ & s & -> & E & _). auto.
    + destruct (c_upper c); auto. lia.
  - destruct (_ <? _); auto.
Qed.
Lemma skel_bnd D (k : complex V) sz e : wf_complex k sz -> e <= D -> s_bnd (skel_of D k sz) e = content (attr c_bidx e k).
Proof. apply skel_of_bnd. Qed.

Lemma agree_sizes d (k k' : complex V) sz sz' D D' : wf_complex k sz -> wf_complex k' sz' -> has_features D k -> has_features D' k' -> d <= D -> d <= D' ->
  agree_up_to d k k' -> forall e, e <= d -> sz e = sz' e.
Proof.
  intros W W' HF HF' HD HD' HA e He. pose proof (ag_x _ _ _ HA e He) as E.
  assert (P : forall (q : complex V) s Q, wf_complex q s -> has_features Q q -> e <= Q -> match attr c_x e q with Some x => length x = s e | None => s e = 0 end).
  { intros q s Q Wq Fq Hq. unfold attr. destruct (nth_error (k_cochains q) e) as [c|] eqn:Ec.
    - pose proof (wf_x _ _ _ _ (wfk_each _ _ Wq e c Ec)) as X. pose proof (Fq e c Hq Ec). destruct (c_x c); [auto|congruence].
    - apply (wfk_above _ _ Wq). apply nth_error_None in Ec. rewrite (wfk_len _ _ Wq) in Ec. lia. }
  pose proof (P k sz D W HF ltac:(lia)) as P1. pose proof (P k' sz' D' W' HF' ltac:(lia)) as P2. rewrite E in P1. destruct (attr c_x e k'); lia.
Qed.

Lemma predict_agree d (a : arch V) (k k' : complex V) sz sz' D D' :
  (forall L, In L (a_layers a) -> forall e, e <= d -> flat (l_rule L e)) -> (forall e, In e (a_dims a) -> e <= d) ->
  wf_complex k sz -> wf_complex k' sz' -> has_features D k -> has_features D' k' -> d < D -> d < D' -> agree_up_to d k k' ->
  predict o a (skel_of D k sz) (feats_of o k) = predict o a (skel_of D' k' sz') (feats_of o k').
Proof.
  intros HL HD W W' HF HF' Hd Hd' HA. apply (predict_flat o d); auto.
  - intros e He. rewrite !skel_up by (auto; lia). apply (ag_up _ _ _ HA); auto.
  - intros e He. rewrite !skel_bnd by (auto; lia). apply (ag_bnd _ _ _ HA); auto.
  - intros e He. rewrite !skel_of_n by (auto; lia). apply (agree_sizes d k k' sz sz' D D'); auto; lia.
  - intros e i He. unfold feats_of. rewrite (ag_x _ _ _ HA e He). auto.
Qed.
End Agree.

(** ** Vertices *)
Section Vertices.
Context {V : Type} (o : ops V) (Ho : ops_ok o).

(** The feature of a vertex depends on its own feature and those of its neighbours. *)
Lemma vertex_feature (r : rule V) cob (S : skel) (es : list (nat * nat)) X i : flat r -> (forall a, r_aup r = a -> a = RAdd) -> s_bnd S 0 = [] ->
  Permutation (map (fun e => fst (fst e)) (up_at S 0 i)) (map fst (into es i)) ->
  new_feature o r cob S X 0 i =
  r_upd r (X 0 i) (reduce_rows o RAdd (map (fun e => r_up r (X 0 (fst e)) None) (into es i))) (vzero o)
    (match r_bnd r with Some _ => reduce_rows o (r_abnd r) [] | None => vzero o end).
Proof.
  intros [HU HL] HR HB HP. unfold new_feature. f_equal.
  - unfold agg_up. rewrite (HR _ eq_refl). rewrite <- (map_map fst (fun u => r_up r (X 0 u) None) (into es i)).
    rewrite <- (reduce_rows_perm o Ho RAdd _ _ (Permutation_map (fun u => r_up r (X 0 u) None) HP)). rewrite map_map. f_equal. apply map_ext. intros q. apply HU.
  - unfold agg_low. rewrite HL. auto.
  - unfold agg_bnd, bnd_at. rewrite HB. cbn. auto.
Qed.
End Vertices.

Section History.
Context {V : Type} (o : ops V) (Ho : ops_ok o).
Definition adds (r : rule V) : Prop := r_aup r = RAdd.

Lemma history_wl {W C} (init : W -> C) hash (es es' : list (nat * nat)) n n' (X X' : nat -> W) (S S' : skel) pdim top :
  wl_faithful init hash -> graph_ok es n -> graph_ok es' n' -> s_bnd S 0 = [] -> s_bnd S' 0 = [] ->
  (forall i, Permutation (map (fun e => fst (fst e)) (up_at S 0 i)) (map fst (into es i))) ->
  (forall i, Permutation (map (fun e => fst (fst e)) (up_at S' 0 i)) (map fst (into es' i))) ->
  forall Ls, (forall L, In L Ls -> flat (l_rule L 0) /\ adds (l_rule L 0)) -> forall a (Y Y' : feats V),
  (forall i i', i < n -> i' < n' -> wl_colour init hash es X a i = wl_colour init hash es' X' a i' -> Y 0 i = Y' 0 i') ->
  forall i i', i < n -> i' < n' -> wl_colour init hash es X (a + length Ls) i = wl_colour init hash es' X' (a + length Ls) i' ->
  map (fun Z : feats V => Z 0 i) (history o pdim top S Ls Y) = map (fun Z : feats V => Z 0 i') (history o pdim top S' Ls Y').
Proof.
  intros HF HG HG' HB HB' HP HP'. induction Ls as [|L Ls IH]; intros HL a Y Y' HY i i' Hi Hi' H; auto. cbn [history map length] in *.
  destruct (HL L (or_introl eq_refl)) as [HFl HA].
  assert (HS : forall i i', i < n -> i' < n' -> wl_colour init hash es X (1 + a) i = wl_colour init hash es' X' (1 + a) i' ->
    step o pdim top S L Y 0 i = step o pdim top S' L Y' 0 i').
  { clear i i' Hi Hi' H. intros i i' Hi Hi' H. cbn [Nat.add wl_colour] in H. apply HF in H as [Hc Hu]. unfold step. cbn [Nat.leb].
    unfold adds in HA. rewrite (vertex_feature o Ho (l_rule L 0) _ S es), (vertex_feature o Ho (l_rule L 0) _ S' es') by (auto; intros; congruence).
    rewrite (HY i i') by auto. f_equal. apply (reduce_rows_perm o Ho).
    revert Hu. apply perm_transfer. intros [u v] [u' v'] Hin Hin' E. apply filter_In in Hin as [Hin _]. apply filter_In in Hin' as [Hin' _].
    cbn [fst] in *. f_equal. apply HY; auto; [apply (HG u v)|apply (HG' u' v')]; auto. }
  f_equal.
  - apply HS; auto. apply (wl_down init hash HF es es' X X' (a + Datatypes.S (length Ls))); auto. lia.
  - apply (IH (fun L' H' => HL L' (or_intror H')) (1 + a)); auto. replace (1 + a + length Ls) with (a + Datatypes.S (length Ls)) by lia. auto.
Qed.

Lemma history_gin (es : list (nat * nat)) (S : skel) pdim top : s_bnd S 0 = [] ->
  (forall i, Permutation (map (fun e => fst (fst e)) (up_at S 0 i)) (map fst (into es i))) ->
  forall ls layers, Forall2 (fun l s => imitates l (s 0)) ls layers -> forall (Y : feats V) (Z : nat -> V), (forall i, Y 0 i = Z i) ->
  forall i, map (fun F : feats V => F 0 i) (history o pdim top S (sparse_layers o layers) Y) = map (fun F : nat -> V => F i) (gin_history o ls es Z).
Proof.
  intros HB HP ls layers HI. induction HI as [|l s ls layers I HI IH]; intros Y Z HY i; auto. cbn [sparse_layers map history gin_history].
  assert (HS : forall i, step o pdim top S (mkLayer (fun d => sparse_rule o (s d)) None) Y 0 i = gin_step o l es Z i).
  { clear i. intros i. unfold step. cbn [Nat.leb l_rule].
    rewrite (vertex_feature o Ho _ _ S es); auto.
    - cbn [sparse_rule cfg_rule sparse_cfg r_upd r_up r_bnd g_msg_up g_bnd]. rewrite (im_out _ _ I), (im_scale _ _ I). unfold gin_step. rewrite HY, (im_msg _ _ I).
      do 3 f_equal. f_equal. apply map_ext. intros e. cbn [msg_fun]. apply HY.
    - split; auto. cbn. rewrite (im_msg _ _ I). auto. }
  f_equal; [apply HS|]. apply (IH (step o pdim top S (mkLayer (fun d => sparse_rule o (s d)) None) Y)); auto.
Qed.
End History.
