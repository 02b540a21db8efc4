(** C04: the message-passing inputs of a batch are the concatenated inputs of its members. *)
From Coq Require Import List Arith Lia ZArith Bool.
From Verif Require Import Base ScatterModel ScatterProofs ComplexModel BatchSpec BatchSpec2
  BatchProofs BatchProofs2 DummyModel MPBatch MPNets BatchProps.
Import ListNotations.

Section Params.
Context {V : Type}.
Notation complex := (complex V).
Notation cochain := (cochain V).

Definition sel (x : option (list V)) (s : option (list nat)) : option (list V) :=
  match x, s with
  | Some x, Some s => match index_select x s with Ok r => Some r | Err _ => None end
  | _, _ => None
  end.

Definition guard {A} (b : bool) (a : option A) : option A := if b then a else None.

Lemma params_formula (k : complex) d md top down bnd c :
  nth_error (k_cochains k) d = Some c ->
  (c_upper c = None <-> c_shc c = None) -> (c_lower c = None <-> c_shb c = None) ->
  (forall x s, attr c_x (S d) k = Some x -> c_shc c = Some s -> exists r, index_select x s = Ok r) ->
  (forall x s, attr c_x (pred d) k = Some x -> c_shb c = Some s -> exists r, index_select x s = Ok r) ->
  (c_lower c <> None -> 0 < d) -> (c_bidx c <> None -> 0 < d) ->
  exists q, get_cochain_params k d md top down bnd = Ok q /\
    p_x q = attr c_x d k /\
    p_up q = guard (isSome (nth_error (k_cochains k) (S d))) (attr c_upper d k) /\
    p_up_attr q = guard ((d <? md) || top) (sel (attr c_x (S d) k) (attr c_shc d k)) /\
    p_down q = guard down (attr c_lower d k) /\
    p_down_attr q = guard down (sel (attr c_x (pred d) k) (attr c_shb d k)) /\
    p_bidx q = guard bnd (attr c_bidx d k) /\
    p_battr q = guard bnd (guard (isSome (attr c_bidx d k)) (attr c_x (pred d) k)).
Proof.
  intros Hc Hu Hl Hxu Hxl Hld Hbd. unfold get_cochain_params, attr in *. rewrite Hc in *.
  match goal with |- exists q, bind ?e _ = _ /\ _ => assert (E : exists a, e = Ok (guard (isSome (nth_error (k_cochains k) (S d))) (c_upper c), a) /\
     a = guard ((d <? md) || top) (sel (attr c_x (S d) k) (c_shc c))) end.
  { unfold attr. destruct (c_upper c) as [u|] eqn:Eu.
    - destruct (nth_error (k_cochains k) (S d)) as [ab|]; simpl.
      + destruct (c_shc c) as [s|] eqn:Es; [|destruct Hu as [_ Hu]; discriminate (Hu eq_refl)].
        destruct (c_x ab) as [x|].
        * destruct ((d <? md) || top); simpl; [|eauto].
          destruct (Hxu x s eq_refl eq_refl) as [r Hr]. rewrite Hr. simpl. eauto.
        * simpl. destruct ((d <? md) || top); eauto.
      + exists None. split; auto. destruct ((d <? md) || top); auto.
    - rewrite (proj1 Hu eq_refl). exists None. split.
      + destruct (nth_error (k_cochains k) (S d)); reflexivity.
      + unfold guard, sel. destruct ((d <? md) || top); auto.
        destruct (nth_error (k_cochains k) (S d)) as [ab|]; auto. destruct (c_x ab); auto. }
  destruct E as (a & -> & ->). cbn [bind].
  match goal with |- context [bind (match (if down then c_lower c else None) with Some _ => _ | None => _ end) _] => idtac end.
  match goal with |- exists q, bind ?e _ = _ /\ _ => assert (E : exists a, e = Ok (guard down (c_lower c), a) /\
     a = guard down (sel (attr c_x (pred d) k) (c_shb c))) end.
  { unfold attr. destruct down; simpl; [|eauto]. destruct (c_lower c) as [u|] eqn:Eu.
    - destruct (c_shb c) as [s|] eqn:Es; [|destruct Hl as [_ Hl]; discriminate (Hl eq_refl)].
      destruct d as [|d]; [exfalso; assert (0 < 0) by (apply Hld; discriminate); lia|]. simpl in *.
      destruct (nth_error (k_cochains k) d) as [be|]; simpl; [|eauto].
      destruct (c_x be) as [x|]; simpl; [|eauto].
      destruct (Hxl x s eq_refl eq_refl) as [r Hr]. rewrite Hr. simpl. eauto.
    - rewrite (proj1 Hl eq_refl). exists None. split; auto.
      unfold sel. destruct (nth_error (k_cochains k) (pred d)) as [ab|]; auto. destruct (c_x ab); auto. }
  destruct E as (a & -> & ->). cbn [bind].
  eexists; split; [reflexivity|]. cbn [p_x p_up p_up_attr p_down p_down_attr p_bidx p_battr fst snd].
  assert (Hb : match d with 0 => None | S d' => match nth_error (k_cochains k) d' with Some b => c_x b | None => None end end
     = if 0 <? d then match nth_error (k_cochains k) (pred d) with Some b => c_x b | None => None end else None).
  { destruct d; auto. }
  repeat split; auto.
  - destruct bnd; auto. simpl. destruct (c_bidx c); auto.
  - rewrite Hb. destruct bnd; auto. simpl. destruct (c_bidx c) as [bi|]; simpl; auto.
    destruct (Nat.ltb_spec 0 d); auto. exfalso. assert (0 < d) by (apply Hbd; discriminate). lia.
Qed.

Lemma mapM_app {A B} (f : A -> result B) l l' r r' :
  mapM f l = Ok r -> mapM f l' = Ok r' -> mapM f (l ++ l') = Ok (r ++ r').
Proof.
  revert r; induction l as [|a l IH]; simpl; intros r H H'.
  - inversion H; subst; auto.
  - destruct (f a) as [b|]; [|discriminate]. simpl in *.
    destruct (mapM f l) as [bs|]; [|discriminate]. simpl in H. inversion H; subst.
    rewrite (IH bs eq_refl H'). reflexivity.
Qed.

Lemma mapM_concat {A B} (f : A -> result B) ls rs :
  Forall2 (fun l r => mapM f l = Ok r) ls rs -> mapM f (concat ls) = Ok (concat rs).
Proof. induction 1; simpl; auto. apply mapM_app; auto. Qed.

Section Join.
Variable ks : list complex.
Variable szs : list (nat -> nat).
Hypothesis HW : Forall2 wf_complex ks szs.

Lemma row_at e i k sz j :
  (forall k c, In k ks -> nth_error (k_cochains k) e = Some c -> c_x c <> None) ->
  nth_error ks i = Some k -> nth_error szs i = Some sz -> j < sz e ->
  nth_error (content (joined (fun _ v => v) (map (attr c_x e) ks))) (j + off szs i e) =
  nth_error (content (attr c_x e k)) j.
Proof.
  intros Hx Hk Hs Hj. rewrite <- (joined_rows ks szs e i k sz HW Hx Hk Hs). unfold rows_of.
  rewrite nth_error_firstn_lt by auto.
  assert (G2 : forall A (l : list A) n j, nth_error (skipn n l) j = nth_error l (j + n)).
  { clear. intros A l n; revert l; induction n as [|n IH]; intros l j.
    - rewrite Nat.add_0_r; auto.
    - rewrite Nat.add_succ_r. destruct l as [|a l]; simpl; auto. destruct j; auto. }
  symmetry. apply G2.
Qed.

Lemma sel_joined (getr : cochain -> option (list nat)) d e :
  ((forall k c, In k ks -> nth_error (k_cochains k) e = Some c -> c_x c <> None) \/
   (forall k c, In k ks -> nth_error (k_cochains k) e = Some c -> c_x c = None)) ->
  (forall k sz s, In k ks -> wf_complex k sz -> attr getr d k = Some s ->
     e <= k_dim k /\ forall j, In j s -> j < sz e) ->
  sel (joined (fun _ v => v) (map (attr c_x e) ks))
      (joined (fun i j => j + off szs i e) (map (attr getr d) ks)) =
  joined (fun _ v => v) (map (fun k => sel (attr c_x e k) (attr getr d k)) ks) /\
  forall x s, joined (fun _ v => v) (map (attr c_x e) ks) = Some x ->
    joined (fun i j => j + off szs i e) (map (attr getr d) ks) = Some s ->
    exists r, index_select x s = Ok r.
Proof.
  intros Huni Hr. destruct Huni as [Hall|Hnone].
  2:{ rewrite (joined_None _ (map (attr c_x e) ks)).
      - split; [|discriminate]. simpl. symmetry. apply joined_None. intros l Hl.
        apply in_map_iff in Hl as (k & E & Hk). unfold attr at 1 in E.
        destruct (nth_error (k_cochains k) e) as [c|] eqn:Ec; [|discriminate].
        rewrite (Hnone k c Hk Ec) in E. discriminate.
      - intros l Hl. apply in_map_iff in Hl as (k & E & Hk). unfold attr in E.
        destruct (nth_error (k_cochains k) e) as [c|] eqn:Ec; [|discriminate].
        rewrite (Hnone k c Hk Ec) in E. discriminate. }
  assert (Hmem : forall i k s, nth_error ks i = Some k -> attr getr d k = Some s ->
    exists sz x r, nth_error szs i = Some sz /\ attr c_x e k = Some x /\ index_select x s = Ok r /\
      index_select (content (joined (fun _ v => v) (map (attr c_x e) ks))) (map (fun j => j + off szs i e) s) = Ok r).
  { intros i k s Hk Hs. destruct (Forall2_nth_error_l _ _ _ HW _ _ Hk) as (sz & Esz & W).
    assert (Hin : In k ks) by (eapply nth_error_In; eauto).
    destruct (Hr k sz s Hin W Hs) as [He Hj].
    assert (exists c, nth_error (k_cochains k) e = Some c) as [c Hc].
    { destruct (nth_error (k_cochains k) e) eqn:E; eauto. apply nth_error_None in E.
      rewrite (wfk_len _ _ W) in E. lia. }
    pose proof (Hall k c Hin Hc) as Hx. destruct (c_x c) as [x|] eqn:Ex; [|congruence].
    assert (Hax : attr c_x e k = Some x) by (unfold attr; rewrite Hc; auto).
    pose proof (wf_x _ _ _ _ (wfk_each _ _ W _ _ Hc)) as Hlen. rewrite Ex in Hlen.
    assert (exists r, index_select x s = Ok r) as [r Hsel].
    { clear -Hj Hlen. induction s as [|j s IH]; [exists []; auto|].
      destruct IH as [r IH]; [intros; apply Hj; right; auto|].
      destruct (nth_error x j) as [v|] eqn:Ev.
      - exists (v :: r). unfold index_select in *. simpl. unfold get at 1. rewrite Ev. simpl. rewrite IH. auto.
      - apply nth_error_None in Ev. specialize (Hj j (or_introl eq_refl)). lia. }
    exists sz, x, r. repeat split; auto.
    rewrite <- Hsel. clear Hsel. unfold index_select. clear Hs.
    induction s as [|j s IH]; simpl; auto.
    rewrite IH by (intros; apply Hj; right; auto). f_equal. unfold get. f_equal.
    rewrite (row_at e i k sz j Hall Hk Esz) by (apply Hj; left; auto). rewrite Hax. auto. }
  set (X := joined (fun _ v => v) (map (attr c_x e) ks)) in *.
  destruct (existsb isSome (map (attr getr d) ks)) eqn:Ex.
  2:{ assert (Hn : forall k, In k ks -> attr getr d k = None).
      { intros k Hk. destruct (attr getr d k) as [s|] eqn:E; auto.
        assert (Ht : existsb isSome (map (attr getr d) ks) = true).
        { apply existsb_exists. exists (Some s). split; auto. apply in_map_iff; eauto. }
        congruence. }
      assert (HJ : joined (fun i j => j + off szs i e) (map (attr getr d) ks) = None)
        by (unfold joined; rewrite Ex; auto).
      rewrite HJ. split; [|discriminate].
      transitivity (@None (list V)); [destruct X; auto|]. symmetry. apply joined_None.
      intros l Hl. apply in_map_iff in Hl as (k & E & Hk). rewrite (Hn k Hk) in E.
      unfold sel in E. destruct (attr c_x e k); discriminate. }
  apply existsb_exists in Ex as ([s0|] & Hin0 & Hs0); [|discriminate]. clear Hs0.
  apply in_map_iff in Hin0 as (k0 & E0 & Hk0). apply In_nth_error in Hk0 as [i0 Hi0].
  destruct (Hmem i0 k0 s0 Hi0 E0) as (sz0 & x0 & r0 & _ & Hx0 & Hr0 & _).
  assert (HX : exists x, X = Some x).
  { unfold X. rewrite joined_Some; eauto. exists x0. apply in_map_iff. exists k0.
    split; auto. eapply nth_error_In; eauto. }
  destruct HX as [x HX]. rewrite HX in *. cbn [content] in Hmem.
  rewrite (joined_Some (fun i j => j + off szs i e)).
  2:{ exists s0. apply in_map_iff. exists k0. split; auto. eapply nth_error_In; eauto. }
  assert (Hok : index_select x (concat (mapi (fun i o => match o with Some l => map (fun j => j + off szs i e) l | None => [] end)
             (map (attr getr d) ks))) =
     Ok (concat (mapi (fun (_ : nat) o => match o with Some l => map (fun v : V => v) l | None => [] end)
             (map (fun k => sel (attr c_x e k) (attr getr d k)) ks)))).
  { apply mapM_concat. rewrite !mapi_map. unfold mapi.
    assert (G : forall l s, (forall i k, nth_error l i = Some k -> nth_error ks (s + i) = Some k) ->
      Forall2 (fun a r => mapM (get x) a = Ok r)
        (mapi_from (fun i k => match attr getr d k with Some l => map (fun j => j + off szs i e) l | None => [] end) s l)
        (mapi_from (fun (_ : nat) k => match sel (attr c_x e k) (attr getr d k) with Some l => map (fun v : V => v) l | None => [] end) s l)).
    { induction l as [|k l IH]; intros s Hsub; simpl; constructor.
      - specialize (Hsub 0 k eq_refl). rewrite Nat.add_0_r in Hsub.
        destruct (attr getr d k) as [sl|] eqn:Es.
        + destruct (Hmem s k sl Hsub Es) as (sz & xk & r & _ & Hxk & Hrk & Hbig).
          rewrite Hxk. simpl. rewrite Hrk, map_id. exact Hbig.
        + unfold sel. destruct (attr c_x e k); auto.
      - apply IH. intros i k' Hi. replace (S s + i) with (s + S i) by lia. apply Hsub; auto. }
    apply G. auto. }
  split.
  - unfold sel at 1. rewrite Hok. symmetry. apply joined_Some.
    exists r0. apply in_map_iff. exists k0. split; [|eapply nth_error_In; eauto].
    rewrite Hx0, E0. simpl. rewrite Hr0. auto.
  - intros x' s' E1 E2. inversion E1; inversion E2; subst. eauto.
Qed.

End Join.

(** The parameters of dimension [d] of a member, if it has this dimension. *)
Definition has_params (D d md : nat) (top down bnd : bool) (k : complex) (q : option (params V)) : Prop :=
  if d <=? k_dim k then exists p, q = Some p /\ get_cochain_params (truncate D k) d md top down bnd = Ok p
  else q = None.

Definition field {T} (f : params V -> option (list T)) (q : option (params V)) : option (list T) :=
  match q with Some p => f p | None => None end.

Theorem C04_params_of_batch (ks : list complex) szs max_dim b d md top down bnd :
  ks <> [] -> Forall2 wf_complex ks szs -> uniform_x ks (dims ks max_dim) ->
  from_complex_list ks max_dim = Ok b -> d <= dims ks max_dim ->
  exists p qs,
    get_cochain_params (kb_complex b) d md top down bnd = Ok p /\
    Forall2 (has_params (dims ks max_dim) d md top down bnd) ks qs /\
    p_x p = joined (fun _ v => v) (map (field p_x) qs) /\
    p_up p = joined (fun i e => (fst e + off szs i d, snd e + off szs i d)) (map (field p_up) qs) /\
    p_up_attr p = joined (fun _ v => v) (map (field p_up_attr) qs) /\
    p_down p = joined (fun i e => (fst e + off szs i d, snd e + off szs i d)) (map (field p_down) qs) /\
    p_down_attr p = joined (fun _ v => v) (map (field p_down_attr) qs) /\
    p_bidx p = joined (fun i e => (fst e + off szs i (pred d), snd e + off szs i d)) (map (field p_bidx) qs) /\
    (* the boundary features of a batch are those of all members, also of members without
       d-cells, which the shifted boundary index skips over *)
    p_battr p = if isSome (p_bidx p) then joined (fun _ v => v) (map (attr c_x (pred d)) ks) else None.
Proof.
  intros Hne HW Huni Hb Hd. set (D := dims ks max_dim) in *.
  destruct (from_complex_list_is_batch ks szs max_dim Hne HW Huni) as (b' & Hb' & HB & _).
  fold (dims ks max_dim) in HB. fold D in HB. assert (b' = b) by congruence. subst b'.
  pose proof (ib_complex _ _ _ _ HB) as HU. set (K := kb_complex b) in *. clear HB Hb' Hb.
  assert (Hwf : forall k, In k ks -> exists sz, wf_complex k sz).
  { intros k Hk. apply In_nth_error in Hk as [i Hi].
    destruct (Forall2_nth_error_l _ _ _ HW _ _ Hi) as (sz & _ & W); eauto. }
  assert (Hatt : forall T (get : cochain -> option (list T)) k e, e <= D -> attr get e (truncate D k) = attr get e k).
  { intros T get k e He. unfold attr, truncate. simpl. rewrite nth_error_firstn_lt by lia. auto. }
  assert (Hpred : pred d <= D) by lia.
  assert (Hshc : forall k sz s, In k ks -> wf_complex k sz -> attr c_shc d k = Some s ->
            S d <= k_dim k /\ forall j, In j s -> j < sz (S d)).
  { intros k sz s Hk W. unfold attr. destruct (nth_error (k_cochains k) d) as [c|] eqn:Ec; [|discriminate].
    intros Es. pose proof (wf_upper _ _ _ _ (wfk_each _ _ W _ _ Ec)) as Hu.
    destruct (c_upper c); [|congruence]. destruct Hu as (Hd' & _ & s' & Es' & _ & Hj).
    assert (s = s') by congruence. subst. split; auto. }
  assert (Hshb : forall k sz s, In k ks -> wf_complex k sz -> attr c_shb d k = Some s ->
            pred d <= k_dim k /\ forall j, In j s -> j < sz (pred d)).
  { intros k sz s Hk W. unfold attr. destruct (nth_error (k_cochains k) d) as [c|] eqn:Ec; [|discriminate].
    intros Es. pose proof (wf_lower _ _ _ _ (wfk_each _ _ W _ _ Ec)) as Hu.
    destruct (c_lower c); [|congruence]. destruct Hu as (Hd' & _ & s' & Es' & _ & Hj).
    assert (s = s') by congruence. subst. split; auto.
    assert (d < length (k_cochains k)) by (apply nth_error_Some; congruence). rewrite (wfk_len _ _ W) in *. lia. }
  assert (Hul : forall k, In k ks -> (attr c_upper d k = None <-> attr c_shc d k = None) /\
                                     (attr c_lower d k = None <-> attr c_shb d k = None)).
  { intros k Hk. destruct (Hwf k Hk) as [sz W]. unfold attr.
    destruct (nth_error (k_cochains k) d) as [c|] eqn:Ec; [|tauto].
    pose proof (wf_upper _ _ _ _ (wfk_each _ _ W _ _ Ec)) as Hu.
    pose proof (wf_lower _ _ _ _ (wfk_each _ _ W _ _ Ec)) as Hl. split.
    - destruct (c_upper c); [|tauto]. destruct Hu as (_ & _ & s & -> & _). split; discriminate.
    - destruct (c_lower c); [|tauto]. destruct Hl as (_ & _ & s & -> & _). split; discriminate. }
  (* formulas for the members *)
  set (Fup := fun k : complex => guard (d <? D) (attr c_upper d k)).
  set (Fua := fun k : complex => guard (d <? D) (guard ((d <? md) || top) (sel (attr c_x (S d) k) (attr c_shc d k)))).
  set (Fda := fun k : complex => guard down (sel (attr c_x (pred d) k) (attr c_shb d k))).
  assert (Hq : forall k, In k ks -> exists q, has_params D d md top down bnd k q /\
     field p_x q = attr c_x d k /\ field p_up q = Fup k /\ field p_up_attr q = Fua k /\
     field p_down q = guard down (attr c_lower d k) /\ field p_down_attr q = Fda k /\
     field p_bidx q = guard bnd (attr c_bidx d k)).
  { intros k Hk. destruct (Hwf k Hk) as [sz W]. unfold has_params.
    destruct (Nat.leb_spec d (k_dim k)) as [Hdk|Hdk].
    2:{ exists None. split; auto. simpl. unfold Fup, Fua, Fda.
        rewrite !(attr_none_above _ k sz d W) by auto.
        assert (Hs : forall x, sel x None = None) by (intros [?|]; auto).
        rewrite !Hs. unfold guard. destruct (d <? D), ((d <? md) || top), down, bnd; repeat split; auto. }
    destruct (nth_error (k_cochains k) d) as [c|] eqn:Ec.
    2:{ apply nth_error_None in Ec. rewrite (wfk_len _ _ W) in Ec. lia. }
    pose proof (wfk_each _ _ W _ _ Ec) as Wc.
    assert (Ec' : nth_error (k_cochains (truncate D k)) d = Some c).
    { simpl. rewrite nth_error_firstn_lt by lia. auto. }
    assert (HatS : attr c_x (S d) (truncate D k) = guard (d <? D) (attr c_x (S d) k)).
    { destruct (Nat.ltb_spec d D); [apply Hatt; lia|]. unfold guard. unfold attr, truncate. cbn [k_cochains].
      destruct (nth_error (firstn (D + 1) (k_cochains k)) (S d)) eqn:E; auto.
      assert (S d < length (firstn (D + 1) (k_cochains k))) by (apply nth_error_Some; congruence).
      rewrite firstn_length in *. lia. }
    assert (Hsel : forall e x s, attr c_x e k = Some x -> (forall j, In j s -> j < sz e) ->
               exists r, index_select x s = Ok r).
    { intros e x s Hx Hj. unfold attr in Hx. destruct (nth_error (k_cochains k) e) as [c'|] eqn:E'; [|discriminate].
      pose proof (wf_x _ _ _ _ (wfk_each _ _ W _ _ E')) as Hlen. rewrite Hx in Hlen.
      clear -Hj Hlen. induction s as [|j s IH]; [exists []; auto|].
      destruct IH as [r IH]; [intros; apply Hj; right; auto|].
      destruct (nth_error x j) as [v|] eqn:Ev.
      - exists (v :: r). unfold index_select in *. simpl. unfold get at 1. rewrite Ev. simpl. rewrite IH. auto.
      - apply nth_error_None in Ev. specialize (Hj j (or_introl eq_refl)). lia. }
    assert (Hac : forall T (get : cochain -> option (list T)), attr get d k = get c).
    { intros. unfold attr. rewrite Ec. auto. }
    destruct (Hul k Hk) as [Hu1 Hl1]. rewrite !Hac in Hu1, Hl1.
    destruct (params_formula (truncate D k) d md top down bnd c Ec' Hu1 Hl1) as (q & Hq & F1 & F2 & F3 & F4 & F5 & F6 & F7).
    - intros x s Hx Hs. rewrite HatS in Hx. destruct (d <? D); [|discriminate]. simpl in Hx.
      eapply Hsel; eauto. apply (Hshc k sz s Hk W). rewrite Hac; auto.
    - intros x s Hx Hs. rewrite Hatt in Hx by auto.
      eapply Hsel; eauto. apply (Hshb k sz s Hk W). rewrite Hac; auto.
    - intros Hn. pose proof (wf_lower _ _ _ _ Wc) as H. destruct (c_lower c); [apply H|congruence].
    - intros Hn. pose proof (wf_bidx _ _ _ _ Wc) as H. destruct (c_bidx c); [apply H|congruence].
    - exists (Some q). split; [exists q; auto|]. cbn [field].
      rewrite F1, F2, F3, F4, F5, F6.
      rewrite (Hatt _ c_x k d), (Hatt _ c_x k (pred d)), (Hatt _ c_upper), (Hatt _ c_lower), (Hatt _ c_shb), (Hatt _ c_shc), (Hatt _ c_bidx) by auto.
      repeat split; auto.
      + unfold Fup. rewrite Hac. destruct (Nat.ltb_spec d D) as [HdD|HdD].
        * destruct (c_upper c) as [u|] eqn:Eu.
          -- pose proof (wf_upper _ _ _ _ Wc) as H. rewrite Eu in H. destruct H as (H & _).
             destruct (nth_error (k_cochains (truncate D k)) (S d)) eqn:E; auto.
             apply nth_error_None in E. simpl in E. rewrite firstn_length, (wfk_len _ _ W) in E. lia.
          -- destruct (isSome _); auto.
        * destruct (nth_error (k_cochains (truncate D k)) (S d)) eqn:E; auto.
          assert (S d < length (k_cochains (truncate D k))) by (apply nth_error_Some; congruence).
          simpl in *. rewrite firstn_length in *. lia.
      + unfold Fua. rewrite HatS. unfold guard. destruct (d <? D), ((d <? md) || top); auto. }
  assert (Hqs : exists qs, Forall2 (has_params D d md top down bnd) ks qs /\
     map (field p_x) qs = map (attr c_x d) ks /\ map (field p_up) qs = map Fup ks /\
     map (field p_up_attr) qs = map Fua ks /\
     map (field p_down) qs = map (fun k => guard down (attr c_lower d k)) ks /\
     map (field p_down_attr) qs = map Fda ks /\
     map (field p_bidx) qs = map (fun k => guard bnd (attr c_bidx d k)) ks).
  { clear -Hq. clearbody D. induction ks as [|k l IH].
    - exists []. repeat split; auto.
    - destruct IH as (qs & H1 & H2 & H3 & H4 & H5 & H6 & H7); [intros; apply Hq; right; auto|].
      destruct (Hq k (or_introl eq_refl)) as (q & G1 & G2 & G3 & G4 & G5 & G6 & G7).
      exists (q :: qs). simpl. rewrite G2, G3, G4, G5, G6, G7, H2, H3, H4, H5, H6, H7. repeat split; auto. }
  destruct Hqs as (qs & H1 & H2 & H3 & H4 & H5 & H6 & H7).
  (* formulas for the batch *)
  destruct (nth_error (k_cochains K) d) as [c|] eqn:Ec.
  2:{ apply nth_error_None in Ec. rewrite (uc_len _ _ _ _ HU) in Ec. lia. }
  pose proof (uc_each _ _ _ _ HU _ _ Ec) as U.
  assert (Hjn : forall T (sh : nat -> T -> T) (g : complex -> option (list T)),
     joined sh (map g ks) = None <-> forall k, In k ks -> g k = None).
  { intros T sh g. unfold joined. destruct (existsb isSome (map g ks)) eqn:E.
    - split; [discriminate|]. intros H. apply existsb_exists in E as ([l|] & Hin & Hs); [|discriminate].
      apply in_map_iff in Hin as (k & E & Hk). rewrite (H k Hk) in E. discriminate.
    - split; auto. intros _ k Hk. destruct (g k) as [l|] eqn:Eg; auto.
      assert (Ht : existsb isSome (map g ks) = true).
      { apply existsb_exists. exists (Some l). split; auto. apply in_map_iff; eauto. }
      congruence. }
  assert (HaK : forall e, e <= D -> attr c_x e K = joined (fun _ v => v) (map (attr c_x e) ks)).
  { intros e He. unfold attr at 1. destruct (nth_error (k_cochains K) e) as [ce|] eqn:Ee.
    - apply (un_x _ _ _ _ _ (uc_each _ _ _ _ HU _ _ Ee)).
    - apply nth_error_None in Ee. rewrite (uc_len _ _ _ _ HU) in Ee. lia. }
  assert (Hac : forall T (get : cochain -> option (list T)), attr get d K = get c).
  { intros. unfold attr. rewrite Ec. auto. }
  assert (HaS : attr c_x (S d) K = guard (d <? D) (joined (fun _ v => v) (map (attr c_x (S d)) ks))).
  { destruct (Nat.ltb_spec d D); [apply HaK; lia|]. unfold guard, attr.
    destruct (nth_error (k_cochains K) (S d)) eqn:E; auto.
    assert (S d < length (k_cochains K)) by (apply nth_error_Some; congruence).
    rewrite (uc_len _ _ _ _ HU) in *. lia. }
  assert (Hsu : d < D -> sel (attr c_x (S d) K) (c_shc c) =
                  joined (fun _ v => v) (map (fun k => sel (attr c_x (S d) k) (attr c_shc d k)) ks) /\
                forall x s, attr c_x (S d) K = Some x -> c_shc c = Some s -> exists r, index_select x s = Ok r).
  { intros HdD. rewrite HaK by lia. rewrite (un_shc _ _ _ _ _ U).
    apply sel_joined; auto. }
  assert (Hsd : sel (attr c_x (pred d) K) (c_shb c) =
                  joined (fun _ v => v) (map (fun k => sel (attr c_x (pred d) k) (attr c_shb d k)) ks) /\
                forall x s, attr c_x (pred d) K = Some x -> c_shb c = Some s -> exists r, index_select x s = Ok r).
  { rewrite HaK by lia. rewrite (un_shb _ _ _ _ _ U).
    apply sel_joined; auto. }
  destruct (params_formula K d md top down bnd c Ec) as (p & Hp & F1 & F2 & F3 & F4 & F5 & F6 & F7).
  - rewrite (un_upper _ _ _ _ _ U), (un_shc _ _ _ _ _ U), !Hjn.
    split; intros H k Hk; apply (Hul k Hk); auto.
  - rewrite (un_lower _ _ _ _ _ U), (un_shb _ _ _ _ _ U), !Hjn.
    split; intros H k Hk; apply (Hul k Hk); auto.
  - destruct (Nat.lt_ge_cases d D) as [HdD|HdD]; [apply Hsu; auto|].
    intros x s Hx. rewrite HaS in Hx. destruct (Nat.ltb_spec d D); [lia|discriminate].
  - apply Hsd.
  - intros Hn. rewrite (un_lower _ _ _ _ _ U), Hjn in Hn. destruct (Nat.eq_dec d 0) as [->|]; [|lia].
    exfalso. apply Hn. intros k Hk. destruct (Hwf k Hk) as [sz W]. unfold attr.
    destruct (nth_error (k_cochains k) 0) as [c0|] eqn:E0; auto.
    pose proof (wf_lower _ _ _ _ (wfk_each _ _ W _ _ E0)) as H. destruct (c_lower c0); auto. lia.
  - intros Hn. rewrite (un_bidx _ _ _ _ _ U), Hjn in Hn. destruct (Nat.eq_dec d 0) as [->|]; [|lia].
    exfalso. apply Hn. intros k Hk. destruct (Hwf k Hk) as [sz W]. unfold attr.
    destruct (nth_error (k_cochains k) 0) as [c0|] eqn:E0; auto.
    pose proof (wf_bidx _ _ _ _ (wfk_each _ _ W _ _ E0)) as H. destruct (c_bidx c0); auto. lia.
  - exists p, qs. split; auto. split; auto.
    assert (Hg : forall T (sh : nat -> T -> T) bb (g : complex -> option (list T)),
              guard bb (joined sh (map g ks)) = joined sh (map (fun k => guard bb (g k)) ks)).
    { intros T sh [|] g; simpl; auto. symmetry. apply Hjn. auto. }
    rewrite F1, F2, F3, F4, F5, F6, F7, H2, H3, H4, H5, H6, H7, !Hac.
    rewrite (un_x _ _ _ _ _ U). split; auto.
    assert (HS : isSome (nth_error (k_cochains K) (S d)) = (d <? D)).
    { destruct (Nat.ltb_spec d D).
      - destruct (nth_error (k_cochains K) (S d)) eqn:E; auto. apply nth_error_None in E.
        rewrite (uc_len _ _ _ _ HU) in E. lia.
      - destruct (nth_error (k_cochains K) (S d)) eqn:E; auto.
        assert (S d < length (k_cochains K)) by (apply nth_error_Some; congruence).
        rewrite (uc_len _ _ _ _ HU) in *. lia. }
    rewrite HS. split; [rewrite (un_upper _ _ _ _ _ U); apply Hg|].
    split.
    { unfold Fua. rewrite <- Hg, <- Hg. destruct (Nat.ltb_spec d D) as [HdD|HdD]; simpl.
      - rewrite (proj1 (Hsu HdD)). auto.
      - rewrite HaS. destruct (Nat.ltb_spec d D); [lia|]. simpl. destruct ((d <? md) || top); auto. }
    split; [rewrite (un_lower _ _ _ _ _ U); apply Hg|].
    split; [unfold Fda; rewrite <- Hg, (proj1 Hsd); auto|].
    split; [rewrite (un_bidx _ _ _ _ _ U); apply Hg|].
    destruct bnd; simpl; auto. destruct (c_bidx c); simpl; auto.
Qed.

End Params.

Example C04_trio : exists b p, from_complex_list trio 2 = Ok b /\
  get_cochain_params (kb_complex b) 1 2 true true true = Ok p /\
  p_up_attr p = Some [1;1;1;1;1;1]%Z /\ p_battr p = Some [1;2;3;4;5;42;7;8;9]%Z.
Proof. eexists _, _. split; [reflexivity|]. split; [reflexivity|]. split; reflexivity. Qed.

Print Assumptions C04_params_of_batch.
