(** The tensor model of message passing computes the cell-wise specification. *)
From Coq Require Import List Arith Lia ZArith Bool.
From Verif Require Import Base ScatterModel ScatterSpec ScatterProofs ComplexModel BatchSpec BatchSpec2
  BatchProofs BatchProofs2 MPModel MPSpec.
Import ListNotations.

Lemma map_nth_seq {A} (l : list A) (z : A) : map (fun i => nth i l z) (seq 0 (length l)) = l.
Proof.
  apply nth_error_ext. intros i. rewrite nth_error_map_seq.
  destruct (Nat.ltb_spec i (length l)).
  - symmetry; apply nth_error_nth'; auto.
  - symmetry; apply nth_error_None; auto.
Qed.

Lemma index_select_map {A} (f : nat -> A) n idx :
  Forall (fun i => i < n) idx -> index_select (map f (seq 0 n)) idx = Ok (map f idx).
Proof.
  unfold index_select. induction 1 as [|i idx Hi _ IH]; simpl; auto.
  rewrite IH. unfold get. rewrite nth_error_map_seq.
  destruct (Nat.ltb_spec i n); [|lia]. reflexivity.
Qed.

Lemma zipw_map {A B C D} (f : B -> C -> D) (g : A -> B) (h : A -> C) l :
  zipw f (map g l) (map h l) = map (fun a => f (g a) (h a)) l.
Proof.
  unfold zipw. induction l as [|a l IH]; simpl; auto. f_equal; auto.
Qed.

Lemma filter_combine_map {A B C} (g : A -> B) (h : A -> C) (P : B -> bool) l :
  map snd (filter (fun p => P (fst p)) (combine (map g l) (map h l))) =
  map h (filter (fun a => P (g a)) l).
Proof.
  induction l as [|a l IH]; simpl; auto. destruct (P (g a)); simpl; rewrite IH; auto.
Qed.

Lemma repeat_map_seq {A} (a : A) n : repeat a n = map (fun _ => a) (seq 0 n).
Proof.
  apply nth_error_ext. intros i. rewrite nth_error_repeat', nth_error_map_seq. auto.
Qed.

Section MP.
Context {V : Type} (o : ops V).
Hypothesis Hdiv : vdivn o (vzero o) 1 = vzero o.
Notation params := (params V).
Notation complex := (complex V).
Notation cochain := (cochain V).
Notation feats := (feats V).

Lemma reduce_nil r : reduce_rows o r [] = vzero o.
Proof. apply reduce_rows_nil; auto. Qed.

(** ** Messages *)
Definition msg_fun (m : msg V) (x : V) (a : option V) : V :=
  match m with
  | MsgFst f => f x
  | MsgCat f => match a with Some a => f x a | None => vzero o end
  | MsgOpt g f => match a with Some a => f x a | None => g x end
  end.
Definition msg_needs (m : msg V) : bool := match m with MsgCat _ => true | _ => false end.

Lemma zip_checked_map {A} (f : V -> V -> V) (g h : A -> V) l :
  zip_checked f (map g l) (map h l) = Ok (map (fun a => f (g a) (h a)) l).
Proof. unfold zip_checked. rewrite !map_length, Nat.eqb_refl, zipw_map. auto. Qed.

Lemma apply_msg_map {A} (m : msg V) (x : A -> V) (attr : option (A -> V)) l :
  (msg_needs m = true -> attr <> None) ->
  apply_msg m (map x l) (option_map (fun f => map f l) attr) =
  Ok (map (fun e => msg_fun m (x e) (option_map (fun f => f e) attr)) l).
Proof.
  intros H. destruct m as [f|f|g f]; destruct attr as [h|]; simpl in *;
    rewrite ?zip_checked_map, ?map_map; auto.
  destruct H; auto.
Qed.

Lemma maa_spec {A} (m : msg V) r (src tgt : A -> nat) (E : list A) (x : nat -> V) ns n
    (attr : option (A -> V)) :
  (msg_needs m = true -> attr <> None) ->
  (forall e, In e E -> src e < ns /\ tgt e < n) ->
  message_and_aggregate o m r (map (fun e => (src e, tgt e)) E) (map x (seq 0 ns))
    (option_map (fun f => map f E) attr) n =
  Ok (map (fun i => reduce_rows o r
        (map (fun e => msg_fun m (x (src e)) (option_map (fun f => f e) attr))
             (filter (fun e => tgt e =? i) E))) (seq 0 n)).
Proof.
  intros Hn Hr. unfold message_and_aggregate. rewrite !map_map. simpl.
  rewrite index_select_map.
  2:{ apply Forall_forall. intros i Hi. apply in_map_iff in Hi as (e & <- & He). apply Hr; auto. }
  simpl. rewrite map_map, apply_msg_map by auto. simpl.
  rewrite scatter_correct.
  - f_equal. apply map_ext. intros i. f_equal. unfold messages_to.
    apply (filter_combine_map tgt _ (fun j => j =? i)).
  - apply Forall_forall. intros i Hi. apply in_map_iff in Hi as (e & <- & He). apply Hr; auto.
  - rewrite !map_length; auto.
Qed.

(** ** Parameters of one dimension *)
Record params_ok (S : skel) (X : feats) (d : nat) (cob down : bool) (p : params) : Prop := {
  po_x : p_x p = Some (map (X d) (seq 0 (s_n S d)));
  po_up : match p_up p with
          | Some u => u = map fst (s_up S d) /\
                      p_up_attr p = if cob then Some (map (fun e => X (d + 1) (snd e)) (s_up S d)) else None
          | None => s_up S d = []
          end;
  po_low : down = true ->
           match p_down p with
           | Some u => u = map fst (s_low S d) /\
                       p_down_attr p = Some (map (fun e => X (pred d) (snd e)) (s_low S d))
           | None => s_low S d = []
           end;
  po_bnd : match p_bidx p with
           | Some b => b = s_bnd S d /\
                       p_battr p = Some (map (X (pred d)) (seq 0 (s_n S (pred d))))
           | None => s_bnd S d = [] /\ p_battr p = None
           end
}.

Record rep_cochain (S : skel) (X : feats) (d : nat) (c : cochain) : Prop := {
  rc_n : num_cells c = Ok (Some (s_n S d));
  rc_x : c_x c = Some (map (X d) (seq 0 (s_n S d)));
  rc_up : d < s_dim S ->
          match c_upper c with
          | Some u => u = map fst (s_up S d) /\ c_shc c = Some (map snd (s_up S d))
          | None => s_up S d = []
          end;
  rc_low : match c_lower c with
           | Some u => 0 < d /\ u = map fst (s_low S d) /\ c_shb c = Some (map snd (s_low S d))
           | None => s_low S d = []
           end;
  rc_bnd : match c_bidx c with
           | Some b => 0 < d /\ b = s_bnd S d
           | None => s_bnd S d = []
           end
}.

(** The same without the features. *)
Record rep_shape (S : skel) (d : nat) (c : cochain) : Prop := {
  rs_n : num_cells c = Ok (Some (s_n S d));
  rs_up : d < s_dim S ->
          match c_upper c with
          | Some u => u = map fst (s_up S d) /\ c_shc c = Some (map snd (s_up S d))
          | None => s_up S d = []
          end;
  rs_low : match c_lower c with
           | Some u => 0 < d /\ u = map fst (s_low S d) /\ c_shb c = Some (map snd (s_low S d))
           | None => s_low S d = []
           end;
  rs_bnd : match c_bidx c with
           | Some b => 0 < d /\ b = s_bnd S d
           | None => s_bnd S d = []
           end
}.

(** The complex [K] stores the skeleton [S] and the features [X]. *)
Record represents (K : complex) (S : skel) (X : feats) : Prop := {
  re_dim : k_dim K = s_dim S;
  re_len : length (k_cochains K) = s_dim S + 1;
  re_at : forall d c, nth_error (k_cochains K) d = Some c -> rep_cochain S X d c
}.

Lemma rep_get K S X d : represents K S X -> d <= s_dim S ->
  exists c, nth_error (k_cochains K) d = Some c /\ rep_cochain S X d c.
Proof.
  intros HR Hd. destruct (nth_error (k_cochains K) d) as [c|] eqn:E.
  - exists c. split; auto. eapply re_at; eauto.
  - apply nth_error_None in E. pose proof (re_len _ _ _ HR). lia.
Qed.

Lemma rep_none K S X d : represents K S X -> s_dim S < d -> nth_error (k_cochains K) d = None.
Proof. intros HR Hd. apply nth_error_None. rewrite (re_len _ _ _ HR). lia. Qed.

Lemma params_of_rep K S X d pdim top down :
  represents K S X -> skel_ok S -> d <= s_dim S ->
  exists p, get_cochain_params K d pdim top down true = Ok p /\
            params_ok S X d (cob_visible pdim top d) down p.
Proof.
  intros HR HS Hd. destruct (rep_get _ _ _ d HR Hd) as (c & Hc & Rc).
  unfold get_cochain_params. rewrite Hc.
  destruct Rc as [Rn Rx Ru Rl Rb].
  (* upper *)
  match goal with |- exists p, bind ?u _ = _ /\ _ =>
    assert (Hup : exists q, u = Ok q /\
      match fst q with
      | Some w => w = map fst (s_up S d) /\
          snd q = if cob_visible pdim top d then Some (map (fun e => X (d + 1) (snd e)) (s_up S d)) else None
      | None => s_up S d = [] end) end.
  { destruct (Nat.lt_ge_cases d (s_dim S)) as [Hlt|Hge].
    - specialize (Ru Hlt). destruct (c_upper c) as [u|].
      + destruct Ru as [-> Hs].
        destruct (rep_get _ _ _ (Datatypes.S d) HR) as (a & Ha & [_ Ax _ _ _]); [lia|].
        rewrite Ha, Ax. fold (cob_visible pdim top d).
        destruct (cob_visible pdim top d).
        * rewrite Hs. rewrite index_select_map.
          2:{ apply Forall_forall. intros i Hi. apply in_map_iff in Hi as ([[j t] q] & <- & He).
              apply (so_up _ HS) in He. rewrite Nat.add_1_r in He. simpl. tauto. }
          simpl. eexists; split; [reflexivity|]. simpl. split; auto. rewrite map_map, Nat.add_1_r. auto.
        * eexists; split; [reflexivity|]. simpl. auto.
      + eexists; split; [reflexivity|]. simpl. auto.
    - rewrite (rep_none _ _ _ (Datatypes.S d) HR) by lia.
      assert (s_up S d = []).
      { destruct (s_up S d) as [|[[j i] q] l] eqn:E; auto.
        assert (In (j, i, q) (s_up S d)) as Hin by (rewrite E; left; auto).
        apply (so_up _ HS) in Hin. lia. }
      destruct (c_upper c); eexists; (split; [reflexivity|]); simpl; auto. }
  destruct Hup as ([qu qa] & -> & Hup). simpl bind at 1.
  (* the features below *)
  assert (Hbx : forall d', d = Datatypes.S d' ->
            match nth_error (k_cochains K) d' with Some below => c_x below | None => None end
            = Some (map (X d') (seq 0 (s_n S d')))).
  { intros d' ->. destruct (rep_get _ _ _ d' HR) as (b & -> & Rb'); [lia|]. apply Rb'. }
  match goal with |- exists p, bind ?u _ = _ /\ _ =>
    assert (Hlo : exists q, u = Ok q /\ (down = true ->
      match fst q with
      | Some w => w = map fst (s_low S d) /\
          snd q = Some (map (fun e => X (pred d) (snd e)) (s_low S d))
      | None => s_low S d = [] end)) end.
  { destruct down; [|eexists; split; [reflexivity|discriminate]].
    destruct (c_lower c) as [l|]; [|eexists; split; [reflexivity|auto]].
    destruct Rl as (Hd0 & -> & Hs). destruct d as [|d']; [lia|].
    rewrite Hbx by auto. rewrite Hs. rewrite index_select_map.
    2:{ apply Forall_forall. intros i Hi. apply in_map_iff in Hi as ([[j t] q] & <- & He).
        apply (so_low _ HS) in He. simpl in *. tauto. }
    simpl. eexists; split; [reflexivity|]. simpl. rewrite map_map. auto. }
  destruct Hlo as ([ql qla] & -> & Hlo). simpl.
  eexists; split; [reflexivity|]. split; simpl; auto.
  destruct (c_bidx c) as [b|]; simpl; auto.
  destruct Rb as [Hd0 ->]. split; auto. destruct d as [|d']; [lia|]. simpl. apply Hbx; auto.
Qed.

(** ** [propagate] *)
Definition cfg_rule (c : mpcfg V) (u : V -> V -> V -> V -> V) : rule V :=
  mkRule (msg_fun (g_msg_up c))
         (if g_down c then Some (fun x a => msg_fun (g_msg_down c) x (Some a)) else None)
         (if g_bnd c then Some (g_msg_bnd c) else None)
         (g_aggr_up c) (g_aggr_down c) (g_aggr_bnd c) u.

Lemma zeros_map n : zeros o n = map (fun _ => vzero o) (seq 0 n).
Proof. apply repeat_map_seq. Qed.

Lemma eta_cols {A B C} (E : list ((A * B) * C)) : map fst E = map (fun e => (fst (fst e), snd (fst e))) E.
Proof. apply map_ext. intros [[a b] c]; auto. Qed.
Lemma eta_pairs {A B} (E : list (A * B)) : E = map (fun e => (fst e, snd e)) E.
Proof. rewrite <- map_id at 1. apply map_ext. intros [a b]; auto. Qed.

Lemma propagate_spec (c : mpcfg V) upd S X d cob down p :
  skel_ok S -> params_ok S X d cob down p ->
  (msg_needs (g_msg_up c) = true -> cob = true) -> (g_down c = true -> down = true) ->
  propagate o c p =
  Ok (map (agg_up o (cfg_rule c upd) cob S X d) (seq 0 (s_n S d)),
      map (agg_low o (cfg_rule c upd) S X d) (seq 0 (s_n S d)),
      map (agg_bnd o (cfg_rule c upd) S X d) (seq 0 (s_n S d))).
Proof.
  intros HS [Px Pu Pl Pb] Hneed Hdown. unfold propagate. rewrite Px, map_length, seq_length.
  set (n := s_n S d) in *.
  match goal with |- bind ?u _ = _ =>
    assert (Hup : u = Ok (map (agg_up o (cfg_rule c upd) cob S X d) (seq 0 n))) end.
  { destruct (p_up p) as [u|].
    - destruct Pu as [-> ->]. rewrite eta_cols.
      pose proof (maa_spec (g_msg_up c) (g_aggr_up c) (fun e => fst (fst e)) (fun e => snd (fst e))
        (s_up S d) (X d) n n (if cob then Some (fun e => X (d + 1) (snd e)) else None)) as H.
      replace (if cob then Some (map (fun e => X (d + 1) (snd e)) (s_up S d)) else None)
        with (option_map (fun f => map f (s_up S d)) (if cob then Some (fun e => X (d + 1) (snd e)) else None))
        by (destruct cob; auto).
      rewrite H.
      + f_equal. apply map_ext. intros i. unfold agg_up, up_at. f_equal. apply map_ext.
        intros e. simpl. destruct cob; auto.
      + intros Hm. rewrite Hneed by auto. discriminate.
      + intros [[j t] q] He. apply (so_up _ HS) in He. simpl. tauto.
    - rewrite zeros_map. f_equal. apply map_ext. intros i. unfold agg_up, up_at. rewrite Pu. simpl.
      rewrite reduce_nil; auto. }
  rewrite Hup. simpl bind at 1. clear Hup Pu.
  match goal with |- bind ?u _ = _ =>
    assert (Hlo : u = Ok (map (agg_low o (cfg_rule c upd) S X d) (seq 0 n))) end.
  { unfold agg_low, cfg_rule; simpl r_low. destruct (g_down c); [|rewrite zeros_map; auto].
    specialize (Pl (Hdown eq_refl)). destruct (p_down p) as [u|].
    - destruct Pl as [-> ->]. rewrite eta_cols.
      pose proof (maa_spec (g_msg_down c) (g_aggr_down c) (fun e => fst (fst e)) (fun e => snd (fst e))
        (s_low S d) (X d) n n (Some (fun e => X (pred d) (snd e)))) as H.
      simpl option_map in H at 1. rewrite H.
      + auto.
      + discriminate.
      + intros [[j t] q] He. apply (so_low _ HS) in He. simpl. tauto.
    - rewrite zeros_map. f_equal. apply map_ext. intros i. unfold low_at. rewrite Pl. simpl.
      rewrite reduce_nil; auto. }
  rewrite Hlo. simpl bind at 1. clear Hlo Pl.
  match goal with |- bind ?u _ = _ =>
    assert (Hbo : u = Ok (map (agg_bnd o (cfg_rule c upd) S X d) (seq 0 n))) end.
  { unfold agg_bnd, cfg_rule; simpl r_bnd. destruct (g_bnd c); [|rewrite zeros_map; auto].
    destruct (p_bidx p) as [b|].
    - destruct Pb as [-> ->]. rewrite (eta_pairs (s_bnd S d)).
      pose proof (maa_spec (MsgFst (g_msg_bnd c)) (g_aggr_bnd c) fst snd
        (s_bnd S d) (X (pred d)) (s_n S (pred d)) n None) as H.
      simpl option_map in H at 1. rewrite H.
      + auto.
      + discriminate.
      + intros [f t] He. apply (so_bnd _ HS) in He. simpl. tauto.
    - destruct Pb as [Pb ->]. rewrite zeros_map. f_equal. apply map_ext. intros i.
      unfold bnd_at. rewrite Pb. simpl. rewrite reduce_nil; auto. }
  rewrite Hbo. reflexivity.
Qed.

(** ** Layers *)
Definition implements (l : level V) (rl : rule V) (cob down : bool) : Prop :=
  forall S X d p, skel_ok S -> params_ok S X d cob down p ->
    l p = Ok (map (new_feature o rl cob S X d) (seq 0 (s_n S d))).

Definition dummy_rule (use_bnd use_down : bool) : rule V :=
  cfg_rule (dummy_cfg o use_bnd use_down)
    (fun x u l b => vadd o (vadd o (vadd o x u) l) b).

Lemma the_x_ok S X d cob down p :
  params_ok S X d cob down p -> the_x p = map (X d) (seq 0 (s_n S d)).
Proof. intros P. unfold the_x. rewrite (po_x _ _ _ _ _ _ P). auto. Qed.

Lemma dummy_implements use_bnd use_down :
  implements (dummy_forward o use_bnd use_down) (dummy_rule use_bnd use_down) true true.
Proof.
  intros S X d p HS HP. unfold dummy_forward.
  rewrite (propagate_spec _ (fun x u l b => vadd o (vadd o (vadd o x u) l) b) S X d true true) by auto.
  simpl bind. rewrite (the_x_ok _ _ _ _ _ _ HP). unfold addt. rewrite !zipw_map. reflexivity.
Qed.

Definition cin_rule (l : cin_level V) : rule V :=
  cfg_rule (cin_cfg l)
    (fun x u w _ => ci_update l (vadd o (vadd o u (ci_scale l x)) (vadd o w (ci_scale l x)))).

Lemma cin_implements l cob : implements (cin_forward o l) (cin_rule l) cob true.
Proof.
  intros S X d p HS HP. unfold cin_forward.
  rewrite (propagate_spec _ (fun x u w _ => ci_update l (vadd o (vadd o u (ci_scale l x)) (vadd o w (ci_scale l x))))
             S X d cob true) by (auto; discriminate).
  simpl bind. rewrite (the_x_ok _ _ _ _ _ _ HP). unfold addt. rewrite !map_map, !zipw_map, map_map. reflexivity.
Qed.

Definition sparse_rule (l : sparse_level V) : rule V :=
  cfg_rule (sparse_cfg l)
    (fun x u _ b => sp_comb l (sp_upd_up l (vadd o u (sp_s1 l x))) (sp_upd_bnd l (vadd o b (sp_s2 l x)))).

Lemma sparse_implements l cob down :
  (msg_needs (sp_up l) = true -> cob = true) ->
  implements (sparse_forward o l) (sparse_rule l) cob down.
Proof.
  intros Hn S X d p HS HP. unfold sparse_forward.
  rewrite (propagate_spec _ (fun x u _ b => sp_comb l (sp_upd_up l (vadd o u (sp_s1 l x))) (sp_upd_bnd l (vadd o b (sp_s2 l x))))
             S X d cob down) by (auto; discriminate).
  simpl bind. rewrite (the_x_ok _ _ _ _ _ _ HP). unfold addt.
  rewrite !map_map, !zipw_map, !map_map, !zipw_map. reflexivity.
Qed.

Definition cinpp_rule (l : cinpp_level V) : rule V :=
  cfg_rule (cinpp_cfg l)
    (fun x u w b => pp_comb l (pp_upd_up l (vadd o u (pp_s1 l x))) (pp_upd_down l (vadd o w (pp_s2 l x)))
                              (pp_upd_bnd l (vadd o b (pp_s3 l x)))).

Lemma combine_map_same {A B C} (g : A -> B) (h : A -> C) l :
  combine (map g l) (map h l) = map (fun a => (g a, h a)) l.
Proof. induction l; simpl; congruence. Qed.

Lemma cinpp_implements l cob down :
  (msg_needs (pp_up l) = true -> cob = true) ->
  implements (cinpp_forward o l) (cinpp_rule l) cob down.
Proof.
  intros Hn S X d p HS HP. unfold cinpp_forward.
  rewrite (propagate_spec _ (r_upd (cinpp_rule l)) S X d cob down) by (auto; discriminate).
  simpl bind. rewrite (the_x_ok _ _ _ _ _ _ HP). unfold addt.
  rewrite !map_map, !zipw_map, !map_map, combine_map_same, zipw_map. reflexivity.
Qed.

(** ** Convolution layers *)
Definition layer_ok (max_dim pdim : nat) (top down : bool)
    (cl : list (level V) * option (V -> V)) (L : layer V) : Prop :=
  (forall d, d <= pdim -> exists l, nth_error (fst cl) d = Some l /\
     implements l (l_rule L d) (cob_visible pdim top d) down) /\
  snd cl = l_top L /\ (l_top L <> None -> pdim = 1).

Lemma apply_levels_ok (ls : list (level V)) ps outs :
  length ps = length outs ->
  (forall d p x, nth_error ps d = Some p -> nth_error outs d = Some x ->
     exists l, nth_error ls d = Some l /\ l p = Ok x) ->
  apply_levels ls ps = Ok outs.
Proof.
  revert ls outs; induction ps as [|p ps IH]; intros ls [|x outs] Hl H; simpl in *; try discriminate; auto.
  destruct (H 0 p x eq_refl eq_refl) as (l & Hn & Hx).
  destruct ls as [|l' ls]; [discriminate|]. simpl in Hn. inversion Hn; subst l'.
  rewrite Hx. simpl. rewrite (IH ls outs); auto.
  intros d q y Hq Hy. apply (H (Datatypes.S d) q y Hq Hy).
Qed.

Lemma mapM_seq_exists {B} (f : nat -> result B) (P : nat -> B -> Prop) n :
  (forall d, d < n -> exists b, f d = Ok b /\ P d b) ->
  exists bs, mapM f (seq 0 n) = Ok bs /\ length bs = n /\
    forall d b, nth_error bs d = Some b -> P d b.
Proof.
  intros H. destruct (mapM_exists f P (seq 0 n)) as (bs & E & F).
  { intros d Hd. apply in_seq in Hd. apply H; lia. }
  exists bs. split; auto. pose proof (Forall2_length F) as Hl. rewrite seq_length in Hl.
  split; auto. intros d b Hb. destruct (Forall2_nth_error _ _ _ F _ _ Hb) as (d' & Hd' & HP).
  assert (d < n) by (rewrite Hl; apply nth_error_Some; congruence).
  rewrite (nth_error_nth' _ 0) in Hd' by (rewrite seq_length; auto).
  rewrite seq_nth in Hd' by auto. inversion Hd'; subst; auto.
Qed.

(** Storing new features. *)
Lemma set_x_ok (c : cochain) n x :
  num_cells c = Ok (Some n) -> length x = n -> set_x c (Some x) = Ok (set_x_raw c (Some x)).
Proof. intros H1 H2. unfold set_x. rewrite H1. simpl. rewrite H2, Nat.eqb_refl. auto. Qed.

Lemma num_cells_set_x (c : cochain) n x :
  num_cells c = Ok (Some n) -> length x = n -> num_cells (set_x_raw c (Some x)) = Ok (Some n).
Proof.
  intros H1 H2. unfold num_cells in *. simpl. destruct (c_n c); auto. congruence.
Qed.

Lemma set_xs_loop_ok (cs : list cochain) xs (n : nat -> nat) :
  length xs <= length cs ->
  (forall d c, nth_error cs d = Some c -> num_cells c = Ok (Some (n d))) ->
  (forall d x, nth_error xs d = Some x -> length x = n d) ->
  exists cs', set_xs_loop cs xs = Ok cs' /\ length cs' = length cs /\
    forall d c, nth_error cs d = Some c ->
      nth_error cs' d = Some (match nth_error xs d with Some x => set_x_raw c (Some x) | None => c end).
Proof.
  revert cs n; induction xs as [|x xs IH]; intros [|c cs] n Hl Hc Hx; cbn [length set_xs_loop] in *; try lia.
  - exists []. split; [auto|]. split; [auto|]. intros [|d] c Hd; discriminate.
  - exists (c :: cs). split; [auto|]. split; [auto|]. intros d c' Hd. destruct d; auto.
  - rewrite (set_x_ok c (n 0) x) by (auto using (Hc 0), (Hx 0)). cbn [bind].
    destruct (IH cs (fun d => n (S d))) as (cs' & E & Hl' & H').
    + lia.
    + intros d c' Hd. apply (Hc (S d)); auto.
    + intros d x' Hd. apply (Hx (S d)); auto.
    + rewrite E. cbn [bind]. eexists; split; [reflexivity|]. split; [simpl; congruence|].
      intros [|d] c' Hd; simpl in *; [inversion Hd; subst; auto|]. apply H'; auto.
Qed.

Lemma rep_cochain_set S X X' d c :
  rep_cochain S X d c ->
  rep_cochain S X' d (set_x_raw c (Some (map (X' d) (seq 0 (s_n S d))))).
Proof.
  intros [A B C D E]. split; simpl; auto.
  apply num_cells_set_x; auto. rewrite map_length, seq_length; auto.
Qed.

Lemma rep_cochain_ext S X X' d c :
  rep_cochain S X d c -> (forall i, X d i = X' d i) -> rep_cochain S X' d c.
Proof.
  intros [A B C D E] H. split; simpl; auto. rewrite B. f_equal. apply map_ext; auto.
Qed.

Lemma set_xs_rep K S X X' xs :
  represents K S X -> length xs <= s_dim S + 1 ->
  (forall d x, nth_error xs d = Some x -> x = map (X' d) (seq 0 (s_n S d))) ->
  (forall d i, length xs <= d -> X' d i = X d i) ->
  exists K', set_xs K xs = Ok K' /\ represents K' S X'.
Proof.
  intros HR Hl Hx Hr. unfold set_xs. rewrite (re_dim _ _ _ HR).
  destruct (Nat.leb_spec (length xs) (s_dim S + 1)); [|lia]. simpl.
  destruct (set_xs_loop_ok (k_cochains K) xs (s_n S)) as (cs' & -> & Hl' & H').
  - rewrite (re_len _ _ _ HR). auto.
  - intros d c Hc. apply (re_at _ _ _ HR) in Hc. apply Hc.
  - intros d x Hd. rewrite (Hx _ _ Hd), map_length, seq_length. auto.
  - simpl. eexists; split; [reflexivity|]. split; simpl.
    + auto.
    + rewrite Hl'. apply HR.
    + intros d c' Hc'.
      assert (Hd : d < length (k_cochains K)) by (rewrite <- Hl'; apply nth_error_Some; congruence).
      destruct (nth_error (k_cochains K) d) as [c|] eqn:Ec; [|apply nth_error_None in Ec; lia].
      rewrite (H' _ _ Ec) in Hc'. inversion Hc'; subst c'; clear Hc'.
      pose proof (re_at _ _ _ HR _ _ Ec) as Rc.
      destruct (nth_error xs d) as [x|] eqn:Ex.
      * rewrite (Hx _ _ Ex). apply rep_cochain_set with (X := X); auto.
      * apply rep_cochain_ext with (X := X); auto. intros i. symmetry; apply Hr.
        apply nth_error_None; auto.
Qed.

(** All features are replaced. *)
Lemma set_xs_shape K S X' xs :
  k_dim K = s_dim S -> length (k_cochains K) = s_dim S + 1 ->
  (forall d c, nth_error (k_cochains K) d = Some c -> rep_shape S d c) ->
  length xs = s_dim S + 1 ->
  (forall d x, nth_error xs d = Some x -> x = map (X' d) (seq 0 (s_n S d))) ->
  exists K', set_xs K xs = Ok K' /\ represents K' S X'.
Proof.
  intros HD HL HR Hl Hx. unfold set_xs. rewrite HD.
  destruct (Nat.leb_spec (length xs) (s_dim S + 1)); [|lia]. cbn [bind assert_].
  destruct (set_xs_loop_ok (k_cochains K) xs (s_n S)) as (cs' & -> & Hl' & H').
  - lia.
  - intros d c Hc. apply (HR d c Hc).
  - intros d x Hd. rewrite (Hx _ _ Hd), map_length, seq_length. auto.
  - cbn [bind]. eexists; split; [reflexivity|]. split; simpl; [auto|congruence|].
    intros d c' Hc'.
    assert (Hd : d < length (k_cochains K)) by (rewrite <- Hl'; apply nth_error_Some; congruence).
    destruct (nth_error (k_cochains K) d) as [c|] eqn:Ec; [|apply nth_error_None in Ec; lia].
    rewrite (H' _ _ Ec) in Hc'. destruct (HR d c Ec) as [A B C E].
    destruct (nth_error xs d) as [x|] eqn:Ex; [|apply nth_error_None in Ex; lia].
    inversion Hc'; subst c'; clear Hc'. rewrite (Hx _ _ Ex).
    split; simpl; auto. apply num_cells_set_x; auto. rewrite map_length, seq_length; auto.
Qed.

(** The outputs of a layer, as the list of the feature matrices of the processed dimensions. *)
Definition matrices (S : skel) (pdim : nat) (X : feats) : list (list V) :=
  map (fun d => map (X d) (seq 0 (s_n S d))) (seq 0 (Nat.min pdim (s_dim S) + 1)).

Lemma matrices_nth S pdim X d x : nth_error (matrices S pdim X) d = Some x ->
  d <= Nat.min pdim (s_dim S) /\ x = map (X d) (seq 0 (s_n S d)).
Proof.
  unfold matrices. rewrite nth_error_map_seq. destruct (Nat.ltb_spec d (Nat.min pdim (s_dim S) + 1)); [|discriminate].
  intros E; inversion E; split; auto. lia.
Qed.

Lemma run_convs_spec max_dim pdim top down cs Ls K S X :
  skel_ok S -> pdim <= max_dim -> Forall2 (layer_ok max_dim pdim top down) cs Ls ->
  represents K S X ->
  exists K', run_convs max_dim pdim top down cs K =
               Ok (K', map (matrices S pdim) (history o pdim top S Ls X)) /\
             represents K' S (last (history o pdim top S Ls X) X).
Proof.
  intros HS Hmd HL. revert K X. induction HL as [|[ls ut] L cs Ls (Hlev & Hut & Htop) HL IH]; intros K X HR.
  { simpl. eexists; split; [reflexivity|]. auto. }
  simpl in Hut, Hlev. subst ut. cbn [run_convs].
  set (N := Nat.min pdim (s_dim S) + 1).
  unfold get_all_cochain_params. rewrite (re_dim _ _ _ HR). fold N.
  destruct (mapM_seq_exists (fun d => get_cochain_params K d pdim top down true)
              (fun d p => params_ok S X d (cob_visible pdim top d) down p) N) as (ps & -> & Hlp & Hps).
  { intros d Hd. apply params_of_rep; auto. unfold N in Hd; lia. }
  cbn [bind assert_]. unfold conv_forward.
  destruct (Nat.leb_spec (length ps) (max_dim + 1)); [|unfold N in Hlp; lia]. cbn [bind assert_].
  set (X1 := step o pdim top S L X).
  assert (Hal : apply_levels ls ps = Ok (matrices S pdim X1)).
  { apply apply_levels_ok.
    - unfold matrices. rewrite map_length, seq_length. auto.
    - intros d p x Hp Hx. apply matrices_nth in Hx as [Hd ->].
      destruct (Hlev d) as (l & Hl & Himp); [lia|]. exists l. split; auto.
      rewrite (Himp S X d p HS (Hps _ _ Hp)). f_equal. apply map_ext. intros i.
      unfold X1, step. destruct (Nat.leb_spec d pdim); [auto|lia]. }
  rewrite Hal. cbn [bind assert_].
  assert (Hml : length (matrices S pdim X1) = N) by (unfold matrices; rewrite map_length, seq_length; auto).
  match goal with |- context [bind ?u (fun xs' => bind (set_xs K xs') _)] =>
    assert (Hu : exists xs', u = Ok xs' /\ exists K1, set_xs K xs' = Ok K1 /\ represents K1 S X1) end.
  { destruct (l_top L) as [f|] eqn:Ef.
    - assert (pdim = 1) by (apply Htop; congruence). subst pdim.
      destruct (Nat.le_gt_cases 2 (s_dim S)) as [H2|H2].
      + destruct (rep_get _ _ _ 2 HR H2) as (c2 & Hc2 & Rc2). rewrite Hc2, (rc_x _ _ _ _ Rc2).
        eexists; split; [reflexivity|]. apply set_xs_rep with (X := X); auto.
        * rewrite app_length, Hml. unfold N. cbn [length]. lia.
        * intros d x Hd. destruct (Nat.lt_ge_cases d N) as [Hlt|Hge].
          -- rewrite nth_error_app1 in Hd by lia. apply matrices_nth in Hd. tauto.
          -- rewrite nth_error_app2 in Hd by lia. rewrite Hml in Hd.
             assert (N = 2) by (unfold N; lia). replace N with 2 in *.
             destruct (d - 2) as [|e] eqn:Ed; [|destruct e; discriminate]. simpl in Hd.
             inversion Hd; subst x. assert (d = 2) by lia. subst d.
             rewrite map_map. apply map_ext. intros i. unfold X1, step. rewrite Ef. reflexivity.
        * intros d i Hd. rewrite app_length, Hml in Hd. cbn [length] in Hd. unfold N in Hd.
          unfold X1, step. destruct (Nat.leb_spec d 1); [lia|]. rewrite Ef.
          destruct (Nat.eqb_spec d 2); [lia|]. auto.
      + rewrite (rep_none _ _ _ 2 HR) by lia. eexists; split; [reflexivity|].
        destruct (set_xs_rep K S X (fun d i => if d <? N then X1 d i else X d i) (matrices S 1 X1))
          as (K1 & E1 & R1); auto.
        * rewrite Hml. unfold N; lia.
        * intros d x Hd. apply matrices_nth in Hd as [Hd ->]. apply map_ext. intros i.
          destruct (Nat.ltb_spec d N); auto. unfold N in *; lia.
        * intros d i Hd. rewrite Hml in Hd. destruct (Nat.ltb_spec d N); auto. lia.
        * exists K1. split; auto. destruct R1 as [A B C]. split; auto.
          intros d c Hc. apply rep_cochain_ext with (1 := C _ _ Hc). intros i.
          destruct (Nat.ltb_spec d N); auto.
          assert (d < length (k_cochains K1)) by (apply nth_error_Some; congruence).
          unfold N in *. lia.
    - eexists; split; [reflexivity|].
      destruct (set_xs_rep K S X (fun d i => if d <? N then X1 d i else X d i) (matrices S pdim X1))
          as (K1 & E1 & R1); auto.
      + rewrite Hml. unfold N; lia.
      + intros d x Hd. apply matrices_nth in Hd as [Hd ->]. apply map_ext. intros i.
        destruct (Nat.ltb_spec d N); auto. unfold N in *; lia.
      + intros d i Hd. rewrite Hml in Hd. destruct (Nat.ltb_spec d N); auto. lia.
      + exists K1. split; auto. destruct R1 as [A B C]. split; auto.
        intros d c Hc. apply rep_cochain_ext with (1 := C _ _ Hc). intros i.
        destruct (Nat.ltb_spec d N); auto.
        assert (d < length (k_cochains K1)) by (apply nth_error_Some; congruence).
        unfold X1, step. destruct (Nat.leb_spec d pdim); [unfold N in *; lia|]. rewrite Ef. auto. }
  destruct Hu as (xs' & -> & K1 & HK1 & R1). simpl. rewrite HK1. simpl.
  destruct (IH K1 X1 R1) as (Kf & Ef & Rf). fold X1. rewrite Ef. simpl.
  eexists; split; [reflexivity|].
  replace (match history o pdim top S Ls X1 with [] => X1 | _ :: _ => last (history o pdim top S Ls X1) X end)
    with (last (history o pdim top S Ls X1) X1); auto.
  clear. generalize (history o pdim top S Ls X1). intros [|y l]; auto.
  revert y. induction l as [|z l IHl]; intros y; auto.
  change (last (y :: z :: l) X1) with (last (z :: l) X1).
  change (last (y :: z :: l) X) with (last (z :: l) X). auto.
Qed.

Lemma jump_rows_spec (j : list V -> V) (h : list feats) S d :
  h <> [] ->
  jump_rows o j (map (fun X => map (X d) (seq 0 (s_n S d))) h) =
  map (fun i => j (map (fun X => X d i) h)) (seq 0 (s_n S d)).
Proof.
  intros Hh. unfold jump_rows.
  replace (length (hd [] (map (fun X => map (X d) (seq 0 (s_n S d))) h))) with (s_n S d)
    by (destruct h; [congruence|]; simpl; rewrite map_length, seq_length; auto).
  apply map_ext_in. intros i Hi. apply in_seq in Hi. f_equal. rewrite map_map. apply map_ext.
  intros X. rewrite nth_indep with (d' := X d 0) by (rewrite map_length, seq_length; lia).
  rewrite map_nth with (d := 0). rewrite seq_nth by lia. auto.
Qed.

Lemma final_xs_spec jump S pdim (h : list feats) X0 :
  h <> [] ->
  final_xs o jump (map (matrices S pdim) h) = Ok (matrices S pdim (final_feats jump h X0)).
Proof.
  intros Hh. unfold final_xs. rewrite <- map_rev.
  destruct (rev h) as [|l r] eqn:E.
  { apply (f_equal (@rev _)) in E. rewrite rev_involutive in E. simpl in E. congruence. }
  simpl. assert (Hlast : last h X0 = l).
  { rewrite <- (rev_involutive h), E. simpl. apply last_last. }
  destruct jump as [j|]; simpl; [|rewrite Hlast; auto].
  f_equal. unfold matrices at 3.
  replace (length (hd [] (map (matrices S pdim) h))) with (Nat.min pdim (s_dim S) + 1)
    by (destruct h; [congruence|]; simpl; unfold matrices; rewrite map_length, seq_length; auto).
  apply map_ext_in. intros d Hd. apply in_seq in Hd. rewrite map_map.
  rewrite <- jump_rows_spec by auto. f_equal. apply map_ext. intros X.
  unfold matrices.
  rewrite nth_indep with (d' := map (X 0) (seq 0 (s_n S 0))) by (rewrite map_length, seq_length; lia).
  rewrite (map_nth (fun d => map (X d) (seq 0 (s_n S d)))) with (d := 0).
  rewrite seq_nth by lia. auto.
Qed.

End MP.
