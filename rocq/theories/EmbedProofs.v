(** The embedding of a batch computes the specified initial features. *)
From Coq Require Import List Arith Lia ZArith Bool Permutation.
From Verif Require Import Base ScatterModel ScatterSpec ScatterProofs ComplexModel BatchSpec BatchSpec2
  BatchProofs BatchProofs2 MPModel MPSpec MPProofs MPEngine MPBatch MPForward MPNets MPParams EmbedModel EmbedSpec.
Import ListNotations.

Section Proofs.
Context {V : Type} (o : ops V).
Notation complex := (complex V).
Notation cochain := (cochain V).

Lemma list_max_attained l n : (forall i, In i l -> i < n) -> (exists i, In i l /\ S i = n) ->
  list_max_err l = Ok (n - 1).
Proof.
  intros Hr (i & Hi & Hn). unfold list_max_err. destruct l as [|a l]; [destruct Hi|]. f_equal.
  apply Nat.le_antisymm.
  - apply list_max_le. apply Forall_forall. intros j Hj. apply Hr in Hj. lia.
  - apply list_max_in_le in Hi. lia.
Qed.

Lemma init_reduce_spec r (f : nat -> V) ns n B :
  (forall p, In p B -> fst p < ns /\ snd p < n) -> (exists p, In p B /\ S (snd p) = n) ->
  init_reduce o r (map f (seq 0 ns)) B =
  Ok (map (fun i => reduce_rows o r (map (fun p => f (fst p)) (filter (fun p => snd p =? i) B))) (seq 0 n)).
Proof.
  intros Hr Hl. unfold init_reduce. rewrite index_select_map.
  2:{ apply Forall_forall. intros i Hi. apply in_map_iff in Hi as (p & <- & Hp). apply Hr; auto. }
  cbn [bind]. rewrite (list_max_attained _ n).
  2:{ intros i Hi. apply in_map_iff in Hi as (p & <- & Hp). apply Hr; auto. }
  2:{ destruct Hl as (p & Hp & E). exists (snd p). split; auto. apply in_map; auto. }
  cbn [bind]. destruct Hl as (p & Hp & E). replace (S (n - 1)) with n by lia.
  rewrite scatter_correct.
  - f_equal. apply map_ext. intros i. f_equal. unfold messages_to.
    clear. induction B as [|[a b] B IH]; simpl; auto. destruct (b =? i); simpl; congruence.
  - apply Forall_forall. intros i Hi. apply in_map_iff in Hi as (q & <- & Hq). apply Hr; auto.
  - rewrite !map_length. auto.
Qed.

(** ** Agreement of embedded features on related cells *)
Section Agree.
Variable R : forall A : Type, list A -> list A -> Prop.
Hypothesis R_map : forall (A B : Type) (f : A -> B) l l', R A l l' -> R B (map f l) (map f l').
Hypothesis R_reduce : forall r l l', R V l l' -> reduce_rows o r l = reduce_rows o r l'.
Variables (S S' : skel) (rho : nat -> nat -> nat -> Prop).
Hypothesis Hb : forall d i i', 0 < d <= 2 -> rho d i i' ->
  matched R (fun p p' : nat * nat => rho (pred d) (fst p) (fst p')) (bnd_at S d i) (bnd_at S' d i').

Lemma endpoints_agree ev r X X' i i' :
  (forall j j', rho 0 j j' -> X 0 j = X' 0 j') ->
  rho 1 i i' -> from_endpoints o ev r S X i = from_endpoints o ev r S' X' i'.
Proof.
  intros H0 Hi. unfold from_endpoints.
  apply (matched_reduce o R R_map R_reduce (fun p p' : nat * nat => rho 0 (fst p) (fst p'))).
  - apply (Hb 1); auto.
  - intros p p' Hp. f_equal. auto.
Qed.

Lemma embed_agree ev ee r h h' X X' d i i' :
  (forall j j', rho 0 j j' -> X 0 j = X' 0 j') ->
  (forall j j', rho 1 j j' -> h = h' /\ (h = true -> X 1 j = X' 1 j')) ->
  rho d i i' -> embed_feats o ev ee r h S X d i = embed_feats o ev ee r h' S' X' d i'.
Proof.
  intros H0 H1 Hi. destruct d as [|[|[|d]]]; simpl; auto.
  - f_equal. auto.
  - destruct (H1 _ _ Hi) as [<- Hx]. destruct h; [f_equal; auto|]. apply endpoints_agree; auto.
  - f_equal. apply (matched_reduce o R R_map R_reduce (fun p p' : nat * nat => rho 1 (fst p) (fst p'))).
    + apply (Hb 2); auto.
    + intros p p' Hp. apply endpoints_agree; auto.
Qed.
End Agree.

(** ** The embedding of a complex with a given skeleton *)
Lemma params_of_shape (K : complex) (Sk : skel) d md c :
  nth_error (k_cochains K) d = Some c -> skel_ok Sk -> d <= s_dim Sk ->
  length (k_cochains K) = s_dim Sk + 1 ->
  (forall d c, nth_error (k_cochains K) d = Some c -> rep_shape Sk d c) ->
  (forall d c x, nth_error (k_cochains K) d = Some c -> c_x c = Some x -> length x = s_n Sk d) ->
  exists p, get_cochain_params K d md true false true = Ok p /\ p_x p = c_x c /\ p_bidx p = c_bidx c.
Proof.
  intros Hc HS Hd Hlen Hrep Hx. unfold get_cochain_params. rewrite Hc.
  destruct (Hrep d c Hc) as [Rn Ru Rl Rb].
  match goal with |- exists p, bind ?u _ = _ /\ _ => assert (E : exists q, u = Ok q) end.
  { destruct (c_upper c) as [u|]; [|destruct (nth_error (k_cochains K) (S d)); eauto].
    destruct (nth_error (k_cochains K) (S d)) as [ab|] eqn:Eab; [|eauto].
    destruct (c_x ab) as [xa|] eqn:Exa; [|eauto]. rewrite orb_true_r.
    assert (Hlt : d < s_dim Sk).
    { assert (S d < length (k_cochains K)) by (apply nth_error_Some; congruence). lia. }
    destruct (Ru Hlt) as [_ ->].
    rewrite (index_select_nth xa _ (vzero o)); [cbn [bind]; eauto|].
    apply Forall_forall. intros i Hi. apply in_map_iff in Hi as ([[a b] c'] & <- & He).
    apply (so_up _ HS) in He. rewrite (Hx _ _ _ Eab Exa). simpl. replace (S d) with (d + 1) by lia. tauto. }
  destruct E as [q ->]. cbn [bind]. eexists; split; [reflexivity|]. cbn [p_x p_bidx]. split; auto.
  destruct (c_bidx c); auto.
Qed.

Lemma mapM_seq_each {B} (f : nat -> result B) n (g : nat -> B -> Prop) :
  (forall d, d < n -> exists b, f d = Ok b /\ g d b) ->
  exists bs, mapM f (seq 0 n) = Ok bs /\ length bs = n /\ forall d, d < n -> exists b, nth_error bs d = Some b /\ g d b.
Proof.
  intros H. destruct (mapM_seq_exists f g n H) as (bs & E & Hl & Hb). exists bs. split; auto. split; auto.
  intros d Hd. destruct (nth_error bs d) as [b|] eqn:Eb; [eauto|]. apply nth_error_None in Eb. lia.
Qed.

(** [has_e], [X]: the features of [K] itself. *)
Lemma embed_ve_spec (e : embedder V) (K : complex) (Sk : skel) (X : feats V) (has_e : bool) md :
  skel_ok Sk -> k_dim K = s_dim Sk -> length (k_cochains K) = s_dim Sk + 1 ->
  (forall d c, nth_error (k_cochains K) d = Some c -> rep_shape Sk d c) ->
  (forall d c x, nth_error (k_cochains K) d = Some c -> c_x c = Some x -> length x = s_n Sk d) ->
  (forall c, nth_error (k_cochains K) 0 = Some c -> c_x c = Some (map (X 0) (seq 0 (s_n Sk 0)))) ->
  (forall c, nth_error (k_cochains K) 1 = Some c ->
     c_x c = if has_e then Some (map (X 1) (seq 0 (s_n Sk 1))) else None) ->
  (forall d, 0 < d <= s_dim Sk -> exists p, In p (s_bnd Sk d) /\ S (snd p) = s_n Sk d) ->
  md <= 2 -> (has_e = true -> em_e e <> None) ->
  exists ps, get_all_cochain_params K md true false true = Ok ps /\
    embed_ve o e ps = Ok (matrices Sk md (embed_feats o (em_v e)
       (match em_e e with Some f => f | None => fun v => v end) (em_red e) has_e Sk X)).
Proof.
  intros HS HD Hlen Hrep Hx H0 H1 Hlast Hmd He. unfold get_all_cochain_params. rewrite HD.
  set (N := Nat.min md (s_dim Sk) + 1).
  set (F := embed_feats _ _ _ _ _ _ _).
  assert (Hat : forall d, d < N -> exists c, nth_error (k_cochains K) d = Some c).
  { intros d Hd. destruct (nth_error (k_cochains K) d) eqn:E; eauto. apply nth_error_None in E. unfold N in Hd. lia. }
  destruct (mapM_seq_each (fun d => get_cochain_params K d md true false true) N
    (fun d p => exists c, nth_error (k_cochains K) d = Some c /\ p_x p = c_x c /\ p_bidx p = c_bidx c))
    as (ps & -> & Hl & Hps).
  { intros d Hd. destruct (Hat d Hd) as [c Hc].
    destruct (params_of_shape K Sk d md c Hc HS) as (p & Hp & Hpx & Hpb); auto.
    { unfold N in Hd; lia. }
    exists p. split; auto. exists c. auto. }
  exists ps. split; auto. unfold embed_ve. rewrite Hl.
  destruct (Nat.leb_spec 1 N); [|unfold N in *; lia]. destruct (Nat.leb_spec N 3); [|unfold N in *; lia].
  cbn [andb assert_ bind].
  destruct (Hps 0) as (p0 & Hp0 & c0 & Hc0 & Px0 & _); [unfold N; lia|].
  destruct ps as [|p0' rest]; [discriminate|]. simpl in Hp0. inversion Hp0; subst p0'; clear Hp0.
  rewrite Px0, (H0 c0 Hc0), map_map.
  assert (Hm : forall n, N = n -> matrices Sk md F = map (fun d => map (F d) (seq 0 (s_n Sk d))) (seq 0 n)).
  { intros n <-. unfold matrices. f_equal. }
  destruct rest as [|p1 rest].
  { rewrite (Hm 1 (eq_sym Hl)). reflexivity. }
  assert (HN1 : 1 < N) by (rewrite <- Hl; simpl; lia).
  destruct (Hps 1) as (p1' & Hp1 & c1 & Hc1 & Px1 & Pb1); auto.
  simpl in Hp1. inversion Hp1; subst p1'; clear Hp1. rewrite Pb1.
  assert (Hbnd : forall d c, nth_error (k_cochains K) d = Some c -> 0 < d < N -> c_bidx c = Some (s_bnd Sk d)).
  { intros d c Hc Hd. pose proof (rs_bnd _ _ _ (Hrep d c Hc)) as Rb.
    destruct (c_bidx c) as [b|]; [destruct Rb as [_ ->]; auto|].
    destruct (Hlast d) as (p & Hp & _); [unfold N in Hd; lia|]. rewrite Rb in Hp. destruct Hp. }
  rewrite (Hbnd 1 c1 Hc1) by lia.
  rewrite (init_reduce_spec (em_red e) (fun i => em_v e (X 0 i)) (s_n Sk 0) (s_n Sk 1)).
  2:{ intros [f t] Hp. apply (so_bnd _ HS) in Hp. simpl in *. tauto. }
  2:{ apply Hlast. unfold N in HN1; lia. }
  cbn [bind]. rewrite Px1, (H1 c1 Hc1).
  match goal with |- bind ?u _ = _ => assert (Eu : u = Ok (map (F 1) (seq 0 (s_n Sk 1)))) end.
  { unfold F, embed_feats. destruct has_e; auto. destruct (em_e e) as [f|]; [|elim (He eq_refl); auto].
    rewrite map_map. auto. }
  rewrite Eu. cbn [bind].
  destruct rest as [|p2 rest].
  { rewrite (Hm 2 (eq_sym Hl)). reflexivity. }
  destruct rest as [|p3 rest]; [|simpl in Hl; unfold N in *; lia].
  assert (HN2 : 2 < N) by (rewrite <- Hl; simpl; lia).
  destruct (Hps 2) as (p2' & Hp2 & c2 & Hc2 & _ & Pb2); auto.
  simpl in Hp2. inversion Hp2; subst p2'; clear Hp2. rewrite Pb2, (Hbnd 2 c2 Hc2) by lia.
  rewrite (init_reduce_spec (em_red e) (fun i => from_endpoints o (em_v e) (em_red e) Sk X i) (s_n Sk 1) (s_n Sk 2)).
  2:{ intros [f t] Hp. apply (so_bnd _ HS) in Hp. simpl in *. tauto. }
  2:{ apply Hlast. unfold N in HN2; lia. }
  cbn [bind]. rewrite (Hm 3 (eq_sym Hl)), map_map. reflexivity.
Qed.

(** ** Dimensions the network does not read *)

(** Two complexes that differ at most in the features above dimension [E]. *)
Definition upto_x (c c' : cochain) : Prop :=
  c' = set_x_raw c (c_x c') /\ forall x, c_x c = Some x -> exists x', c_x c' = Some x' /\ length x' = length x.

Definition same_below (E : nat) (K K' : complex) : Prop :=
  exists pre post post', k_cochains K = pre ++ post /\ k_cochains K' = pre ++ post' /\
    length pre <= E + 1 /\ (post <> [] -> length pre = E + 1) /\
    Forall2 upto_x post post' /\ k_dim K' = k_dim K /\ k_y K' = k_y K.

Definition set_up_attr (p : params V) (a : option (list V)) : params V :=
  mkParams (p_x p) (p_up p) (p_down p) a (p_down_attr p) (p_battr p) (p_bidx p).

Lemma index_select_len (x x' : list V) s r : length x = length x' ->
  index_select x' s = Ok r -> exists r', index_select x s = Ok r'.
Proof.
  intros Hl. unfold index_select. revert r; induction s as [|i s IH]; intros r H; simpl in *; eauto.
  unfold get in *. destruct (nth_error x' i) eqn:E'; [|discriminate].
  destruct (nth_error x i) eqn:E; [|apply nth_error_None in E; assert (i < length x') by (apply nth_error_Some; congruence); lia].
  cbn [bind] in *. destruct (mapM _ s) as [r0|] eqn:Er; [|discriminate].
  destruct (IH r0 eq_refl) as [r' ->]. cbn [bind]. eexists; reflexivity.
Qed.

(** Parameters up to dimension [E] agree, except for the coboundary features of dimension [E]. *)
Lemma same_below_params E (K K' : complex) d md top down p' :
  same_below E K K' -> d <= E -> get_cochain_params K' d md top down true = Ok p' ->
  exists p, get_cochain_params K d md top down true = Ok p /\
    (d < E -> p = p') /\ exists a, p' = set_up_attr p a.
Proof.
  intros (pre & post & post' & E1 & E2 & Hl & Hl2 & HF & _) Hd.
  assert (Heq : forall e, e <= E -> nth_error (k_cochains K) e = nth_error (k_cochains K') e).
  { intros e He. rewrite E1, E2. destruct (Nat.lt_ge_cases e (length pre)) as [H|H].
    - rewrite !nth_error_app1; auto.
    - destruct post as [|c post]; [inversion HF; subst; auto|]. rewrite Hl2 in H by discriminate. lia. }
  destruct (Nat.eq_dec d E) as [->|Hne].
  2:{ intros Hp. exists p'. assert (Hg : get_cochain_params K d md top down true = get_cochain_params K' d md top down true).
      { unfold get_cochain_params. rewrite (Heq d), (Heq (S d)) by lia.
        destruct d as [|d]; auto. rewrite (Heq d) by lia. auto. }
      rewrite Hg. split; auto. split; auto. exists (p_up_attr p'). destruct p'; auto. }
  unfold get_cochain_params. rewrite (Heq E) by auto.
  assert (Hbel : match E with 0 => None | S d' => match nth_error (k_cochains K) d' with Some b => c_x b | None => None end end
    = match E with 0 => None | S d' => match nth_error (k_cochains K') d' with Some b => c_x b | None => None end end).
  { destruct E; auto. rewrite Heq by lia. auto. }
  rewrite Hbel. destruct (nth_error (k_cochains K') E) as [c|] eqn:Ec; [|discriminate].
  assert (Hab : match nth_error (k_cochains K) (S E), nth_error (k_cochains K') (S E) with
                | Some a, Some a' => upto_x a a' | None, None => True | _, _ => False end).
  { rewrite E1, E2. assert (HE : length pre <= S E) by lia. rewrite !nth_error_app2 by lia.
    destruct (nth_error post (S E - length pre)) as [a|] eqn:Ea.
    - destruct (Forall2_nth_error_l _ _ _ HF _ _ Ea) as (a' & -> & H). auto.
    - destruct (nth_error post' (S E - length pre)) as [a'|] eqn:Ea'; auto.
      destruct (Forall2_nth_error _ _ _ HF _ _ Ea') as (a & Ha & _). congruence. }
  match goal with |- (bind ?u' _ = _ -> _) -> _ => idtac | |- bind ?u' _ = Ok _ -> exists p, bind ?u _ = _ /\ _ =>
    assert (Hu : forall q', u' = Ok q' -> exists q, u = Ok q /\ fst q = fst q') end.
  { intros q' Hq'. destruct (nth_error (k_cochains K) (S E)) as [a|], (nth_error (k_cochains K') (S E)) as [a'|]; try tauto.
    2:{ destruct (c_upper c); eexists; split; try reflexivity; inversion Hq'; auto. }
    destruct (c_upper c) as [u|]; [|inversion Hq'; subst; eexists; split; [reflexivity|auto]].
    destruct Hab as [Ha Hx]. destruct (c_x a) as [x|].
    - destruct (Hx x eq_refl) as (x' & Ex' & Hlx). rewrite Ex' in Hq'. destruct ((E <? md) || top).
      + destruct (c_shc c) as [s|]; [|discriminate]. destruct (index_select x' s) as [r|] eqn:Er; [|discriminate].
        destruct (index_select_len x x' s r) as [r' ->]; auto. cbn [bind] in *. inversion Hq'. eexists; split; [reflexivity|auto].
      + inversion Hq'. eexists; split; [reflexivity|auto].
    - eexists; split; [reflexivity|]. destruct (c_x a'); [|inversion Hq'; auto].
      destruct ((E <? md) || top); [|inversion Hq'; auto]. destruct (c_shc c); [|discriminate].
      destruct (index_select l l0); inversion Hq'; auto. }
  match goal with |- bind ?u' _ = Ok _ -> _ => destruct u' as [q'|] eqn:Eq'; [|discriminate] end.
  destruct (Hu q' eq_refl) as (q & -> & Hq). cbn [bind].
  match goal with |- bind ?u' _ = Ok _ -> _ => destruct u' as [w|]; [|discriminate] end. cbn [bind].
  intros Hp'. inversion Hp'; subst p'; clear Hp'. eexists; split; [reflexivity|]. split; [lia|].
  exists (snd q'). unfold set_up_attr. cbn [p_x p_up p_down p_down_attr p_battr p_bidx]. rewrite Hq. auto.
Qed.

(** Levels insensitive to coboundary features. *)
Definition ignores_up_attr (l : level V) : Prop := forall p a, l (set_up_attr p a) = l p.

Lemma set_xs_loop_app (pre post : list cochain) xs : length xs <= length pre ->
  set_xs_loop (pre ++ post) xs = let* r := set_xs_loop pre xs in Ok (r ++ post).
Proof.
  revert pre; induction xs as [|x xs IH]; intros pre Hl.
  { assert (G : forall cs : list cochain, set_xs_loop cs [] = Ok cs) by (intros [|]; reflexivity). rewrite !G. reflexivity. }
  destruct pre as [|c pre]; cbn [set_xs_loop app length] in *; [lia|].
  destruct (set_x c (Some x)); cbn [bind]; auto. rewrite IH by lia.
  destruct (set_xs_loop pre xs); cbn [bind]; auto.
Qed.

Lemma set_xs_loop_length (cs cs' : list cochain) xs : set_xs_loop cs xs = Ok cs' -> length cs' = length cs.
Proof.
  revert cs cs'; induction xs as [|x xs IH]; intros [|c cs] cs' H; cbn [set_xs_loop] in *; try (inversion H; auto; fail).
  destruct (set_x c (Some x)); [|discriminate]. cbn [bind] in H.
  destruct (set_xs_loop cs xs) eqn:E; [|discriminate]. cbn [bind] in H. inversion H. simpl. f_equal. eauto.
Qed.

Lemma same_below_set_xs E (K K' K1' : complex) xs :
  same_below E K K' -> length xs <= E + 1 -> set_xs K' xs = Ok K1' ->
  exists K1, set_xs K xs = Ok K1 /\ same_below E K1 K1'.
Proof.
  intros (pre & post & post' & E1 & E2 & Hl & Hl2 & HF & HD & HY) Hxs. unfold set_xs. rewrite HD, HY, E1, E2.
  destruct (length xs <=? k_dim K + 1) eqn:El; [|discriminate]. cbn [assert_ bind].
  destruct post as [|c post].
  - inversion HF; subst. destruct (set_xs_loop (pre ++ []) xs) as [cs|] eqn:Ec; [|discriminate]. cbn [bind].
    intros H; inversion H; subst. eexists; split; [reflexivity|].
    exists cs, [], []. apply set_xs_loop_length in Ec. rewrite app_nil_r in *. simpl. repeat split; auto; try lia; try congruence.
  - specialize (Hl2 ltac:(discriminate)). rewrite !set_xs_loop_app by lia.
    destruct (set_xs_loop pre xs) as [cs|] eqn:Ec; [|discriminate]. cbn [bind].
    intros H; inversion H; subst. eexists; split; [reflexivity|].
    apply set_xs_loop_length in Ec. exists cs, (c :: post), post'. simpl. repeat split; auto; try lia.
Qed.

Lemma apply_levels_sim (E : nat) (ls : list (level V)) ps ps' outs :
  length ps = length ps' ->
  (forall d p p', nth_error ps d = Some p -> nth_error ps' d = Some p' ->
     (d < E -> p = p') /\ exists a, p' = set_up_attr p a) ->
  (forall d l, nth_error ls d = Some l -> E <= d -> d < length ps -> ignores_up_attr l) ->
  apply_levels ls ps' = Ok outs -> apply_levels ls ps = Ok outs.
Proof.
  revert E ps ps' outs. induction ls as [|l ls IH]; intros E [|p ps] [|p' ps'] outs Hl Hp Hi H; simpl in *; try discriminate; auto.
  destruct (l p') as [x|] eqn:Ex; [|discriminate]. cbn [bind] in H.
  destruct (apply_levels ls ps') as [xs|] eqn:Exs; [|discriminate]. cbn [bind] in H. inversion H; subst.
  destruct (Hp 0 p p' eq_refl eq_refl) as [Hlt [a Ha]].
  assert (El : l p = Ok x).
  { destruct E as [|E].
    - rewrite <- Ex, Ha. symmetry. apply (Hi 0); auto; lia.
    - rewrite Hlt by lia. auto. }
  rewrite El. cbn [bind]. rewrite (IH (pred E) ps ps' xs); auto.
  - intros d q q' Hq Hq'. destruct (Hp (S d) q q' Hq Hq') as [A B]. split; auto. intros; apply A; lia.
  - intros d l' Hl' Hd Hdp. apply (Hi (S d)); auto; lia.
Qed.

Lemma run_convs_sim E max_dim pdim top down cs K K' K1' h :
  same_below E K K' -> pdim <= E ->
  (forall ls ut, In (ls, ut) cs -> ut = None /\
     (pdim = E -> forall l, nth_error ls pdim = Some l -> ignores_up_attr l)) ->
  run_convs max_dim pdim top down cs K' = Ok (K1', h) ->
  exists K1, run_convs max_dim pdim top down cs K = Ok (K1, h) /\ same_below E K1 K1'.
Proof.
  intros HS Hpd. revert K K' h HS. induction cs as [|[ls ut] cs IH]; intros K K' h HS Hcs H.
  { simpl in *. inversion H; subst. exists K. auto. }
  cbn [run_convs] in *. destruct (Hcs ls ut (or_introl eq_refl)) as [-> Hig].
  destruct (get_all_cochain_params K' pdim top down true) as [ps'|] eqn:Ep'; [|discriminate]. cbn [bind] in H.
  assert (Hps : exists ps, get_all_cochain_params K pdim top down true = Ok ps /\ length ps = length ps' /\
     length ps' <= pdim + 1 /\
     forall d p p', nth_error ps d = Some p -> nth_error ps' d = Some p' ->
     (d < E -> p = p') /\ exists a, p' = set_up_attr p a).
  { unfold get_all_cochain_params in *. destruct HS as (pre & post & post' & E1 & E2 & Hl & Hl2 & HF & HD & HY).
    rewrite HD in Ep'. set (N := Nat.min pdim (k_dim K) + 1) in *.
    assert (G : forall l, (forall d, In d l -> d <= E) -> forall ps', mapM (fun d => get_cochain_params K' d pdim top down true) l = Ok ps' ->
       exists ps, mapM (fun d => get_cochain_params K d pdim top down true) l = Ok ps /\ length ps = length ps' /\ length ps' = length l /\
       forall i d p p', nth_error l i = Some d -> nth_error ps i = Some p -> nth_error ps' i = Some p' -> (d < E -> p = p') /\ exists a, p' = set_up_attr p a).
    { induction l as [|d l IHl]; intros Hle qs Hq; simpl in *.
      - inversion Hq; subst. exists []. split; [auto|]. split; [auto|]. split; [auto|]. intros [|i]; discriminate.
      - destruct (get_cochain_params K' d pdim top down true) as [p'|] eqn:Ed; [|discriminate]. cbn [bind] in Hq.
        destruct (mapM (fun d0 => get_cochain_params K' d0 pdim top down true) l) as [ps0|] eqn:El; [|discriminate]. cbn [bind] in Hq.
        inversion Hq; subst.
        destruct (same_below_params E K K' d pdim top down p') as (p & Hp & A & B); auto.
        { exists pre, post, post'. repeat split; auto. }
        destruct (IHl ltac:(intros; apply Hle; auto) ps0 eq_refl) as (ps & -> & L1 & L2 & Hall).
        rewrite Hp. cbn [bind]. eexists; split; [reflexivity|]. simpl. split; [lia|]. split; [lia|].
        intros [|i] d' q q' Hd' Hq1 Hq2; simpl in *; [inversion Hd'; inversion Hq1; inversion Hq2; subst; auto|]. eauto. }
    destruct (G (seq 0 N)) with (ps' := ps') as (ps & Hm & L1 & L2 & Hall); auto.
    { intros d Hd. apply in_seq in Hd. unfold N in Hd. lia. }
    exists ps. split; auto. split; auto. split; [rewrite L2, seq_length; unfold N; lia|].
    intros d p p' H1 H2. apply (Hall d d p p'); auto.
    assert (d < length ps) by (apply nth_error_Some; congruence).
    rewrite L1, L2, seq_length in H0. rewrite (nth_error_nth' _ 0) by (rewrite seq_length; auto).
    rewrite seq_nth by auto. auto. }
  destruct Hps as (ps & -> & Hlp & Hle & Hpp). cbn [bind].
  unfold conv_forward in *. rewrite Hlp. destruct (length ps' <=? max_dim + 1); [|discriminate]. cbn [assert_ bind] in *.
  destruct (apply_levels ls ps') as [xs|] eqn:Exs; [|discriminate].
  rewrite (apply_levels_sim E ls ps ps' xs); auto.
  2:{ intros d l Hl Hd Hdl. assert (d = pdim) by lia. subst d. apply Hig; auto. lia. }
  cbn [bind] in *. destruct (set_xs K' xs) as [K2'|] eqn:E2'; [|discriminate]. cbn [bind] in H.
  assert (Hxl : length xs = length ps').
  { clear -Exs. revert ps' xs Exs. induction ls as [|l ls IHl]; intros [|p ps'] xs H; simpl in *; try (inversion H; auto; fail).
    destruct (l p); [|discriminate]. cbn [bind] in H. destruct (apply_levels ls ps') eqn:E; [|discriminate].
    cbn [bind] in H. inversion H. simpl. f_equal. eauto. }
  destruct (same_below_set_xs E K K' K2' xs HS) as (K2 & -> & HS2); auto; [lia|]. cbn [bind].
  destruct (run_convs max_dim pdim top down cs K2') as [[Kf h0]|] eqn:Er; [|discriminate]. cbn [bind] in H.
  inversion H; subst.
  destruct (IH K2 K2' h0 HS2) as (K1 & -> & HS1); auto.
  { intros ls' ut' Hin. apply Hcs. right; auto. }
  cbn [bind]. eauto.
Qed.

End Proofs.
