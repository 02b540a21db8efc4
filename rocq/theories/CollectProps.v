(** C60: the arguments that message, aggregate and update functions receive are those promised by the
    documentation, for any layer; and for the layers of the project the machinery computes what
    MPModel says. *)
From Coq Require Import String List Arith Lia ZArith Bool Permutation.
From Verif Require Import Base ScatterModel ScatterSpec ComplexModel MPModel CollectModel CollectSpec CollectProofs.
Import ListNotations.
Open Scope nat_scope.

(** ** Names *)
Lemma append_assoc a b c : ((a ++ b) ++ c)%string = (a ++ b ++ c)%string.
Proof. induction a; cbn; congruence. Qed.
Lemma length_append a b : String.length (a ++ b) = String.length a + String.length b.
Proof. induction a; cbn; auto. Qed.
Lemma substring_skip p : forall n s, substring (String.length p) n (p ++ s) = substring 0 n s.
Proof. induction p; intros n s; cbn; auto. Qed.
Lemma substring_take m : forall t, substring 0 (String.length m) (m ++ t) = m.
Proof. induction m as [|c m IH]; intros t; cbn; [destruct t; reflexivity|]. rewrite IH. reflexivity. Qed.
Lemma prefix_app p s : String.prefix p (p ++ s) = true.
Proof. induction p as [|c p IH]; cbn; [destruct s; reflexivity|]. destruct (Ascii.ascii_dec c c); congruence. Qed.

Lemma append_nil_r s : (s ++ "")%string = s.
Proof. induction s; cbn; congruence. Qed.

Section Names.
Variables (p f e : string).
Hypothesis He : String.length e = 2.
Lemma last2_asks : last2 (asks p f e) = e.
Proof.
  unfold last2, asks. assert (E : (p ++ "_" ++ f ++ e)%string = ((p ++ "_" ++ f) ++ e)%string) by (rewrite !append_assoc; reflexivity).
  rewrite E. rewrite !length_append, He. replace (_ + 2 - 2) with (String.length (p ++ "_" ++ f)) by (rewrite !length_append; lia).
  rewrite substring_skip, <- He. rewrite <- (append_nil_r e) at 2. apply substring_take.
Qed.
Lemma starts_asks : starts (p ++ "_") (asks p f e) = true.
Proof. unfold starts, asks. replace (p ++ "_" ++ f ++ e)%string with ((p ++ "_") ++ f ++ e)%string by (rewrite append_assoc; reflexivity). apply prefix_app. Qed.
Lemma slice_asks : slice (String.length p + 1) (asks p f e) = f.
Proof.
  unfold slice, asks. replace (p ++ "_" ++ f ++ e)%string with ((p ++ "_") ++ f ++ e)%string by (rewrite append_assoc; reflexivity).
  rewrite !length_append, He. cbn [String.length]. replace (String.length p + 1 + (String.length f + 2) - 2 - (String.length p + 1)) with (String.length f) by lia.
  replace (String.length p + 1) with (String.length (p ++ "_")) by (rewrite length_append; reflexivity). rewrite substring_skip. apply substring_take.
Qed.
End Names.

Section Any.
Context {V : Type}.
Implicit Types (kwargs d : dict V) (L : layer V).

Lemma put_same d k (v : pyval V) : put d k v k = v.
Proof. unfold put. rewrite String.eqb_refl. reflexivity. Qed.
Lemma put_other d k (v : pyval V) n : n <> k -> put d k v n = d n.
Proof. intros H. unfold put. destruct (String.eqb_spec n k); congruence. Qed.

Lemma not_special_neq n : not_special n = true -> forall s, In s special_args -> n <> s.
Proof.
  unfold not_special. intros H s Hs ->. apply negb_true_iff in H.
  assert (E : existsb (String.eqb s) special_args = true) by (apply existsb_exists; exists s; split; [auto|apply String.eqb_refl]). congruence.
Qed.

Lemma row_receiver (forth : bool) ix : row (if forth then 1 else 0) ix = map (receiver forth) ix.
Proof. unfold row, receiver. destruct forth; reflexivity. Qed.
Lemma row_sender (forth : bool) ix : row (if forth then 0 else 1) ix = map (sender forth) ix.
Proof. unfold row, sender. destruct forth; reflexivity. Qed.

Lemma select_rows {A} (l : list A) cells r : index_select l cells = Ok r <-> rows_at l cells r.
Proof.
  unfold index_select, rows_at. rewrite mapM_ok_iff. split; intros H.
  - induction H as [|c v cs vs E H IH]; constructor; auto. unfold get, of_option in E. destruct (nth_error l c); congruence.
  - induction H as [|c v cs vs E H IH]; constructor; auto. unfold get. rewrite E. reflexivity.
Qed.

Lemma plan_i forth ix a kwargs f l : kwargs f = PRows l ->
  plan_of forth (Some ix) a kwargs (asks (adj_name a) f "_i") = Lift l ix (if forth then 1 else 0) (PRows l) 1.
Proof.
  intros E. unfold plan_of. rewrite !last2_asks by reflexivity. destruct forth, a; cbn [String.eqb Ascii.eqb Bool.eqb orb negb Nat.eqb adj_name].
  all: rewrite ?(starts_asks "up"), ?(starts_asks "down"), ?(starts_asks "boundary").
  all: rewrite ?(slice_asks "up" f "_i" eq_refl : slice 3 _ = _), ?(slice_asks "down" f "_i" eq_refl : slice 5 _ = _), ?(slice_asks "boundary" f "_i" eq_refl : slice 9 _ = _), E; reflexivity.
Qed.
Lemma plan_j forth ix a kwargs f l : a <> Bnd -> kwargs f = PRows l ->
  plan_of forth (Some ix) a kwargs (asks (adj_name a) f "_j") = Lift l ix (if forth then 0 else 1) (PRows l) 0.
Proof.
  intros Ha E. unfold plan_of. rewrite !last2_asks by reflexivity. destruct forth, a; try congruence; cbn [String.eqb Ascii.eqb Bool.eqb orb negb Nat.eqb adj_name].
  all: rewrite ?(starts_asks "up"), ?(starts_asks "down").
  all: rewrite ?(slice_asks "up" f "_j" eq_refl : slice 3 _ = _), ?(slice_asks "down" f "_j" eq_refl : slice 5 _ = _), E; reflexivity.
Qed.
Lemma plan_bj forth ix kwargs f l : kwargs "boundary_attr"%string = PRows l ->
  plan_of forth (Some ix) Bnd kwargs (asks "boundary" f "_j") = Lift l ix (if forth then 0 else 1) (kwargs f) 0.
Proof.
  intros E. unfold plan_of. rewrite !last2_asks by reflexivity. destruct forth; cbn [String.eqb Ascii.eqb Bool.eqb orb negb Nat.eqb].
  all: rewrite (starts_asks "boundary"), (slice_asks "boundary" f "_j" eq_refl : slice 9 _ = _), E; reflexivity.
Qed.
Definition plain (n : string) : Prop := last2 n <> "_i"%string /\ last2 n <> "_j"%string.
Lemma plan_plain forth index a kwargs n : plain n -> plan_of forth index a kwargs n = Store (kwargs n).
Proof.
  intros [H1 H2]. unfold plan_of. destruct forth. all: apply String.eqb_neq in H1, H2; rewrite H1, H2; reflexivity.
Qed.

(** The dict after the loop. *)
Definition extras (forth : bool) (index : option (list (nat * nat))) (size : sizes) (a : adjacency) (n : string) : option (pyval V) :=
  let i := if forth then 1 else 0 in let j := if forth then 0 else 1 in let nm := adj_name a in
  if String.eqb n (nm ++ "_dim_size") then Some (of_size (py_or (snd size) (fst size))) else
  if String.eqb n (nm ++ "_size_j") then Some (of_size (py_or (fst size) (snd size))) else
  if String.eqb n (nm ++ "_size_i") then Some (of_size (py_or (snd size) (fst size))) else
  if String.eqb n (nm ++ "_size") then Some (PSize (fst size) (snd size)) else
  match index with
  | None => None
  | Some ix =>
  if String.eqb n ("agg_" ++ nm ++ "_index") then Some (PVec (row i ix)) else
  if String.eqb n (nm ++ "_index_j") then Some (PVec (row j ix)) else
  if String.eqb n (nm ++ "_index_i") then Some (PVec (row i ix)) else
  if String.eqb n (nm ++ "_index") then Some (PIndex ix) else
  if String.eqb n (nm ++ "_ptr") then Some PNone else
  if String.eqb n (nm ++ "_adj_t") then Some PNone else None
  end.
Lemma collect_inv forth args index size a kwargs d s : collect forth args index size a kwargs = Ok (d, s) ->
  exists d0, foldM (collect_arg forth index a kwargs) (no_keys, size) args = Ok (d0, s) /\
    forall n, d n = match extras forth index s a n with Some v => v | None => d0 n end.
Proof.
  unfold collect. intros H. destruct forth.
  all: apply bind_ok in H as ((d0 & s0) & H1 & H2); injection H2 as <- <-; exists d0; split; auto.
  all: intros n; unfold extras, put; cbn [append]; destruct index as [ix|];
    repeat match goal with |- context [String.eqb n ?k] => destruct (String.eqb n k); [reflexivity|] end; reflexivity.
Qed.
Lemma collect_ok forth args index size a kwargs d0 s : foldM (collect_arg forth index a kwargs) (no_keys, size) args = Ok (d0, s) ->
  exists d, collect forth args index size a kwargs = Ok (d, s) /\
    forall n, d n = match extras forth index s a n with Some v => v | None => d0 n end.
Proof.
  intros H. destruct (collect forth args index size a kwargs) as [[d s']|e] eqn:E.
  - destruct (collect_inv _ _ _ _ _ _ _ _ E) as (d1 & H1 & H2). rewrite H in H1. injection H1 as <- <-. exists d. auto.
  - unfold collect in E. destruct forth; rewrite H in E; discriminate.
Qed.
Lemma collect_err forth args index size a kwargs e : foldM (collect_arg forth index a kwargs) (no_keys, size) args = Err e ->
  collect forth args index size a kwargs = Err e.
Proof. intros H. unfold collect. destruct forth; rewrite H; reflexivity. Qed.

Lemma special_in a s : In s (special_of (adj_name a)) -> In s special_args.
Proof. intros H. unfold special_args. rewrite !in_app_iff. destruct a; auto. Qed.
Lemma extras_user forth index s a n : not_special n = true -> extras forth index s a n = None.
Proof.
  intros H. pose proof (not_special_neq n H) as N. pose proof (fun x Hx => N x (special_in a x Hx)) as N'. clear N.
  unfold special_of in N'. unfold extras.
  repeat match goal with |- context [String.eqb n ?k] =>
    let E := fresh in assert (E : n <> k) by (apply N'; cbn [map In]; tauto); apply String.eqb_neq in E; rewrite E; clear E end.
  destruct index; [|reflexivity].
  repeat match goal with |- context [String.eqb n ?k] =>
    let E := fresh in assert (E : n <> k) by (apply N'; cbn [map In]; tauto); apply String.eqb_neq in E; rewrite E; clear E end.
  reflexivity.
Qed.

Lemma collected forth args index size a kwargs d s n : collect forth args index size a kwargs = Ok (d, s) ->
  not_special n = true -> In n args -> stored forth index a kwargs n PEmpty (d n).
Proof.
  intros H Hs Hn. destruct (collect_inv _ _ _ _ _ _ _ _ H) as (d0 & H1 & H2). rewrite H2, extras_user by auto.
  exact (proj1 (loop_stored _ _ _ _ _ _ _ _ _ H1 n) Hn).
Qed.

Definition given (p : param V) (v : pyval V) : pyval V := match v with PEmpty => pdefault p | _ => v end.
Lemma distribute_in sig d kw : distribute sig d = Ok kw ->
  map fst kw = map pname sig /\ forall n v, In (n, v) kw -> exists p, In p sig /\ pname p = n /\ v = given p (d n) /\ v <> PEmpty.
Proof.
  unfold distribute. rewrite mapM_ok_iff. induction 1 as [|p nv ps nvs E H IH]; [split; [reflexivity|intros ? ? []]|].
  destruct IH as [I1 I2].
  assert (Q : nv = (pname p, given p (d (pname p))) /\ given p (d (pname p)) <> PEmpty).
  { unfold given. destruct (d (pname p)); [destruct (pdefault p)| | | | | | |]; try discriminate; injection E as <-; split; congruence. }
  destruct Q as [-> Q]. split; [cbn [map fst]; congruence|].
  intros n v [Hn|Hn]; [injection Hn as <- <-; exists p; split; [left|]; auto|].
  destruct (I2 _ _ Hn) as (q & Hq & Hr). exists q. split; [right|]; auto.
Qed.
Lemma distribute_ext sig d d' : (forall n, d n = d' n) -> distribute sig d = distribute sig d'.
Proof. intros H. unfold distribute. apply mapM_ext. intros p _. rewrite H. reflexivity. Qed.

Section Order.
Variable order : list string -> list string.
Hypothesis Hord : forall l, Permutation (order l) l.

Lemma in_user_args L a n : In n (map pname (l_msg_sig L a)) \/ In n (map pname (l_agg_sig L a)) -> not_special n = true ->
  In n (user_args order L).
Proof.
  intros H Hs. unfold user_args. eapply Permutation_in; [symmetry; apply Hord|]. apply filter_In. split; auto.
  unfold keys. apply nodup_In. cbn [concat]. rewrite !map_app, !in_app_iff. destruct H, a; tauto.
Qed.
Lemma user_args_in L n : In n (user_args order L) ->
  not_special n = true /\ exists a, In n (map pname (l_msg_sig L a)) \/ In n (map pname (l_agg_sig L a)).
Proof.
  unfold user_args. intros H. eapply Permutation_in in H; [|apply Hord]. apply filter_In in H as [H Hs]. split; auto.
  unfold keys in H. apply nodup_In in H. cbn [concat] in H. rewrite !map_app, !in_app_iff in H.
  destruct H as [H|[H|[H|[H|[H|[H|[]]]]]]]; [exists Up|exists Down|exists Bnd|exists Up|exists Down|exists Bnd]; auto.
Qed.

(** What the parameter [n] of a message or aggregate function along [a] may hold. *)
Record promised (forth : bool) (ix : list (nat * nat)) (a : adjacency) (kwargs : dict V) (sig : list (param V)) (n : string) (v : pyval V) : Prop := {
  pr_i : forall f l, n = asks (adj_name a) f "_i" -> not_special n = true -> kwargs f = PRows l ->
         exists r, v = PRows r /\ rows_at l (map (receiver forth) ix) r;
  pr_j : forall f l, a <> Bnd -> n = asks (adj_name a) f "_j" -> not_special n = true -> kwargs f = PRows l ->
         exists r, v = PRows r /\ rows_at l (map (sender forth) ix) r;
  pr_bj : forall f l, a = Bnd -> n = asks "boundary" f "_j" -> not_special n = true -> kwargs "boundary_attr"%string = PRows l ->
         exists r, v = PRows r /\ rows_at l (map (sender forth) ix) r;
  pr_plain : plain n -> not_special n = true -> kwargs n <> PEmpty -> v = kwargs n;
  pr_default : plain n -> not_special n = true -> kwargs n = PEmpty -> In (mkParam n v) sig;
  pr_agg : n = ("agg_" ++ adj_name a ++ "_index")%string -> v = PVec (map (receiver forth) ix);
  pr_index : n = (adj_name a ++ "_index")%string -> v = PIndex ix;
  pr_index_i : n = (adj_name a ++ "_index_i")%string -> v = PVec (map (receiver forth) ix);
  pr_index_j : n = (adj_name a ++ "_index_j")%string -> v = PVec (map (sender forth) ix)
}.

Lemma promised_ok L ix a size kwargs d s sig kw n v :
  collect (l_forth L) (user_args order L) (Some ix) size a kwargs = Ok (d, s) ->
  (sig = l_msg_sig L a \/ sig = l_agg_sig L a) -> distribute sig d = Ok kw -> In (n, v) kw ->
  promised (l_forth L) ix a kwargs sig n v.
Proof.
  intros HC Hsig HD Hin. destruct (distribute_in _ _ _ HD) as [_ HD2]. destruct (HD2 _ _ Hin) as (p & Hp & Hpn & Hv & Hne). clear HD2.
  assert (Hu : not_special n = true -> stored (l_forth L) (Some ix) a kwargs n PEmpty (d n)).
  { intros Hs. eapply collected; eauto. apply (in_user_args L a); auto. rewrite <- Hpn. destruct Hsig as [<-|<-]; [left|right]; apply in_map; auto. }
  destruct (collect_inv _ _ _ _ _ _ _ _ HC) as (d0 & _ & HE). unfold stored in Hu. split.
  - intros f l Ef Hs Hk. specialize (Hu Hs). rewrite Ef, (plan_i _ _ _ _ _ _ Hk) in Hu. destruct Hu as (r & Hr & Ed).
    exists r. rewrite Ef in Hv. rewrite Hv, Ed. split; [reflexivity|]. apply select_rows. rewrite <- row_receiver. exact Hr.
  - intros f l Ha Ef Hs Hk. specialize (Hu Hs). rewrite Ef, (plan_j _ _ _ _ _ _ Ha Hk) in Hu. destruct Hu as (r & Hr & Ed).
    exists r. rewrite Ef in Hv. rewrite Hv, Ed. split; [reflexivity|]. apply select_rows. rewrite <- row_sender. exact Hr.
  - intros f l Ha Ef Hs Hk. subst a. specialize (Hu Hs). rewrite Ef, (plan_bj _ _ _ _ _ Hk) in Hu. destruct Hu as (r & Hr & Ed).
    exists r. rewrite Ef in Hv. rewrite Hv, Ed. split; [reflexivity|]. apply select_rows. rewrite <- row_sender. exact Hr.
  - intros Hpl Hs Hk. specialize (Hu Hs). rewrite (plan_plain _ _ _ _ _ Hpl) in Hu. rewrite Hv, Hu. unfold given. destruct (kwargs n); congruence.
  - intros Hpl Hs Hk. specialize (Hu Hs). rewrite (plan_plain _ _ _ _ _ Hpl) in Hu. rewrite Hu, Hk in Hv. cbn [given] in Hv.
    subst v n. destruct p. exact Hp.
  - intros ->. rewrite Hv, HE, <- row_receiver. destruct a, (l_forth L); reflexivity.
  - intros ->. rewrite Hv, HE. destruct a; reflexivity.
  - intros ->. rewrite Hv, HE, <- row_receiver. destruct a, (l_forth L); reflexivity.
  - intros ->. rewrite Hv, HE, <- row_sender. destruct a, (l_forth L); reflexivity.
Qed.

(** For any layer: if message passing along an adjacency succeeds then the message function and the
    aggregate function were called with exactly their parameters, and every parameter got what was
    promised for its name. *)
Theorem C60_message_arguments L ix a size kwargs r s :
  message_and_aggregate_kw order L (Some ix) a size kwargs = Ok (r, s) ->
  exists mk out ak,
    l_msg L a mk = Ok out /\ l_agg L a out ak = Ok r /\
    map fst mk = map pname (l_msg_sig L a) /\ map fst ak = map pname (l_agg_sig L a) /\
    (forall n v, In (n, v) mk -> promised (l_forth L) ix a kwargs (l_msg_sig L a) n v) /\
    (forall n v, In (n, v) ak -> promised (l_forth L) ix a kwargs (l_agg_sig L a) n v).
Proof.
  unfold message_and_aggregate_kw. intros H. apply bind_ok in H as ((d & s1) & HC & H). apply bind_ok in H as (mk & HM & H).
  apply bind_ok in H as (out & HO & H). apply bind_ok in H as (ak & HA & H). apply bind_ok in H as (r' & HR & H).
  injection H as -> ->. exists mk, out, ak. split; [exact HO|]. split; [exact HR|].
  split; [apply (distribute_in _ _ _ HM)|]. split; [apply (distribute_in _ _ _ HA)|]. split; intros n v Hin.
  - eapply promised_ok; eauto.
  - eapply promised_ok; eauto.
Qed.

(** The number of aggregated rows, for a layer that asks for x only. *)
Definition only_x L : Prop := forall n, In n (user_args order L) -> plain n \/ exists b e, n = asks (adj_name b) "x" e /\ (e = "_i" \/ e = "_j")%string.

Lemma lift_x forth ix a kwargs x b e data ix' r sd dim : kwargs "x"%string = PRows x -> (e = "_i" \/ e = "_j")%string ->
  plan_of forth (Some ix) a kwargs (asks (adj_name b) "x" e) = Lift data ix' r sd dim -> sd = PRows x.
Proof.
  intros Hx [->| ->] H; destruct forth, a, b; cbn in H; try discriminate; rewrite ?Hx in H.
  all: try (injection H as <- <- <- <- <-; reflexivity).
  all: destruct (kwargs "boundary_attr"%string); try discriminate; injection H as <- <- <- <- <-; reflexivity.
Qed.

Theorem C60_output_rows L ix a kwargs x r s :
  message_and_aggregate_kw order L (Some ix) a (None, None) kwargs = Ok (r, s) ->
  kwargs "x"%string = PRows x -> only_x L ->
  (a = Bnd -> exists l, kwargs "boundary_attr"%string = PRows l) ->
  (In (asks (adj_name a) "x" "_i") (user_args order L) /\ x <> [] \/ In (asks (adj_name a) "x" "_j") (user_args order L)) ->
  exists mk out ak, l_msg L a mk = Ok out /\ l_agg L a out ak = Ok r /\
    forall v, In ((adj_name a ++ "_dim_size")%string, v) ak -> v = PNat (List.length x).
Proof.
  unfold message_and_aggregate_kw. intros H Hx Ho Hb Hask. apply bind_ok in H as ((d & s1) & HC & H). apply bind_ok in H as (mk & HM & H).
  apply bind_ok in H as (out & HO & H). apply bind_ok in H as (ak & HA & H). apply bind_ok in H as (r' & HR & H).
  injection H as -> ->. exists mk, out, ak. split; [exact HO|]. split; [exact HR|]. intros v Hin.
  destruct (distribute_in _ _ _ HA) as [_ HD]. destruct (HD _ _ Hin) as (p & Hp & Hpn & Hv & _). clear HD.
  destruct (collect_inv _ _ _ _ _ _ _ _ HC) as (d0 & HF & HE).
  assert (E : py_or (snd s) (fst s) = Some (List.length x)).
  { assert (HL : forall n dim k, In n (user_args order L) -> lifts (l_forth L) (Some ix) a kwargs n dim k -> k = List.length x).
    { intros n dim k Hn (data & ix' & q & l & Hpl & ->). destruct (Ho n Hn) as [Hpn'|(b & e & -> & He)].
      - rewrite (plan_plain _ _ _ _ _ Hpn') in Hpl. discriminate.
      - pose proof (lift_x _ _ _ _ _ _ _ _ _ _ _ _ Hx He Hpl) as Q. injection Q as ->. reflexivity. }
    destruct (loop_inv _ _ _ _ _ _ _ _ _ HF) as (FI & LI & _).
    destruct (loop_ok (l_forth L) (Some ix) a kwargs (user_args order L) no_keys (None, None) FI) as (d2 & s2 & E2 & HS).
    { intros n dim k Hn Hl. apply (LI n dim k Hn Hl). }
    { intros n m dim k k' Hn Hm Hl Hl'. rewrite (HL _ _ _ Hn Hl), (HL _ _ _ Hm Hl'). reflexivity. }
    rewrite HF in E2. injection E2 as <- <-.
    assert (Q : forall dim, dim < 2 -> size_at s dim = Some (List.length x) \/ size_at s dim = None).
    { intros dim Hd. destruct (HS dim Hd) as (A & B & _). destruct (exists_lift_dec (l_forth L) (Some ix) a kwargs (user_args order L) dim) as [(n & k & Hn & Hl)|Hno].
      - left. rewrite (A _ _ Hn Hl). f_equal. eauto.
      - right. rewrite B; auto. destruct dim as [|[|]]; try lia; reflexivity. }
    assert (W : exists dim, dim < 2 /\ size_at s dim = Some (List.length x) /\ (dim = 1 -> x <> [])).
    { destruct Hask as [[Hi He]|Hj].
      - exists 1. split; [lia|]. split; [|auto]. apply (LI _ _ _ Hi). unfold lifts. rewrite (plan_i _ _ _ _ _ _ Hx). eauto 8.
      - exists 0. split; [lia|]. split; [|discriminate]. apply (LI _ _ _ Hj). unfold lifts. destruct a.
        + rewrite (plan_j _ _ Up _ _ _ ltac:(discriminate) Hx). eauto 8.
        + rewrite (plan_j _ _ Down _ _ _ ltac:(discriminate) Hx). eauto 8.
        + destruct (Hb eq_refl) as (l & El). cbn [adj_name]. rewrite (plan_bj _ _ _ _ _ El), Hx. eauto 8. }
    pose proof (Q 0 ltac:(lia)) as Q0. pose proof (Q 1 ltac:(lia)) as Q1. destruct s as [s0 s1']. cbn [size_at Nat.eqb fst snd] in *.
    destruct W as ([|[|]] & Hd & W & Hne); try lia; cbn in W; subst; unfold py_or.
    - destruct Q1 as [->| ->]; [destruct (List.length x)|]; reflexivity.
    - destruct x; [elim (Hne eq_refl); reflexivity|]. reflexivity. }
  rewrite Hv, HE. unfold extras. rewrite String.eqb_refl, E. reflexivity.
Qed.
Lemma in_update_args L n : In n (map pname (l_upd_sig L)) -> not_special n = true -> In n (update_args order L).
Proof.
  intros H Hs. unfold update_args. eapply Permutation_in; [symmetry; apply Hord|]. apply filter_In. split; auto.
  unfold keys. apply nodup_In. cbn [concat]. now rewrite app_nil_r.
Qed.
Lemma update_args_user L n : In n (update_args order L) -> not_special n = true.
Proof. unfold update_args. intros H. eapply Permutation_in in H; [|apply Hord]. now apply filter_In in H. Qed.

(** The number of cells recorded after collecting for an adjacency. *)
Lemma collect_sizes forth args ix size a kwargs d s f l : collect forth args (Some ix) size a kwargs = Ok (d, s) ->
  kwargs f = PRows l -> In (asks (adj_name a) f "_i") args \/ snd size = Some (List.length l) -> snd s = Some (List.length l).
Proof.
  intros H Hk Hor. destruct (collect_inv _ _ _ _ _ _ _ _ H) as (d0 & HF & _).
  destruct (loop_inv _ _ _ _ _ _ _ _ _ HF) as (_ & LI & K). change (snd s) with (size_at s 1). destruct Hor as [Hin|Hs].
  - apply (LI _ 1 _ Hin). unfold lifts. rewrite (plan_i _ _ _ _ _ _ Hk). eauto 8.
  - apply K; [lia|exact Hs].
Qed.
Lemma message_sizes L ix a size kwargs r s f l : message_and_aggregate_kw order L (Some ix) a size kwargs = Ok (r, s) ->
  kwargs f = PRows l -> In (asks (adj_name a) f "_i") (user_args order L) -> snd s = Some (List.length l).
Proof.
  unfold message_and_aggregate_kw. intros H Hk Hin. apply bind_ok in H as ((d & s1) & HC & H). apply bind_ok in H as (mk & HM & H).
  apply bind_ok in H as (out & HO & H). apply bind_ok in H as (ak & HA & H). apply bind_ok in H as (r' & HR & H).
  injection H as -> ->. eapply collect_sizes; eauto.
Qed.

Lemma skipped forth index a b kwargs f e : (e = "_i" \/ e = "_j")%string -> a <> Bnd -> b <> Bnd -> a <> b ->
  plan_of forth index a kwargs (asks (adj_name b) f e) = Skip.
Proof.
  intros He Ha Hb Hab. unfold plan_of. rewrite last2_asks by (destruct He as [->| ->]; reflexivity).
  destruct forth. all: destruct He as [->| ->]; cbn [String.eqb Ascii.eqb Bool.eqb orb negb]; destruct index; try reflexivity;
    destruct a, b; try congruence; reflexivity.
Qed.

(** For any layer: if [propagate] succeeds then the update function was called with exactly its
    parameters; tensors asked for along the upper or the lower adjacency are the rows at the receiving
    or sending cells of that adjacency, plain names are what was passed, and the number of cells
    along an adjacency is that of a tensor asked for along it. *)
Theorem C60_update_arguments L up down bnd us ds bs kwargs r :
  propagate_kw order L up down bnd us ds bs kwargs = Ok r ->
  exists uo do bo uk, l_upd L uo do bo uk = Ok r /\ map fst uk = map pname (l_upd_sig L) /\
    (uo = None <-> up = None) /\ (do = None <-> down = None \/ l_use_down L = false) /\
    (forall a ix n v, (a = Up /\ up = Some ix) \/ (a = Down /\ down = Some ix) -> In (n, v) uk ->
       (forall f l, n = asks (adj_name a) f "_i" -> not_special n = true -> kwargs f = PRows l ->
          exists r, v = PRows r /\ rows_at l (map (receiver (l_forth L)) ix) r) /\
       (forall f l, n = asks (adj_name a) f "_j" -> not_special n = true -> kwargs f = PRows l ->
          exists r, v = PRows r /\ rows_at l (map (sender (l_forth L)) ix) r) /\
       (forall f l, n = (adj_name a ++ "_dim_size")%string -> kwargs f = PRows l -> l <> [] ->
          In (asks (adj_name a) f "_i") (update_args order L) \/
          (In (asks (adj_name a) f "_i") (user_args order L) /\ (a = Down -> l_use_down L = true)) ->
          v = PNat (List.length l))) /\
    (forall n v, In (n, v) uk -> plain n -> not_special n = true -> kwargs n <> PEmpty -> v = kwargs n).
Proof.
  unfold propagate_kw. intros H. apply bind_ok in H as (t & _ & H). clear t.
  apply bind_ok in H as ((uo & us') & H1 & H). apply bind_ok in H as ((do & ds') & H2 & H). apply bind_ok in H as (bo & H3 & H).
  apply bind_ok in H as ((d1 & s1) & H4 & H). apply bind_ok in H as ((d2 & s2) & H5 & H). apply bind_ok in H as (uk & H6 & H).
  exists uo, do, bo, uk. split; [exact H|]. clear H H3. destruct (distribute_in _ _ _ H6) as [HD HD2].
  split; [exact HD|]. split; [|split; [|split]].
  - destruct up; [apply bind_ok in H1 as (x & _ & H1); destruct x; injection H1 as <- <-|injection H1 as <- <-]; split; congruence.
  - destruct down; [destruct (l_use_down L); [apply bind_ok in H2 as (x & _ & H2); destruct x|]|]; injection H2 as <- <-;
      split; try congruence; auto; intros [Q|Q]; congruence.
  - intros a ix n v Hw Hin. destruct (HD2 _ _ Hin) as (p & Hp & Hpn & Hv & Hne).
    assert (Hu : not_special n = true -> In n (update_args order L)).
    { intros Hs. apply in_update_args; auto. rewrite <- Hpn. now apply in_map. }
    (* the value of a tensor parameter *)
    assert (T : forall f e data r sd dim, (e = "_i" \/ e = "_j")%string -> n = asks (adj_name a) f e -> not_special n = true ->
                plan_of (l_forth L) (Some ix) a kwargs n = Lift data ix r sd dim ->
                exists l, lift data ix r = Ok l /\ match d2 n with PEmpty => d1 n | w => w end = PRows l).
    { intros f e data r0 sd dim He Ef Hs Hpl. specialize (Hu Hs).
      pose proof (collected _ _ _ _ _ _ _ _ _ H4 Hs Hu) as S1. pose proof (collected _ _ _ _ _ _ _ _ _ H5 Hs Hu) as S2.
      unfold stored in S1, S2. destruct Hw as [[-> ->]|[-> ->]].
      - rewrite Hpl in S1. rewrite Ef in S2. rewrite (skipped _ _ Down Up) in S2; try congruence; try exact He. rewrite <- Ef in S2. rewrite S2. exact S1.
      - rewrite Hpl in S2. destruct S2 as (l & E & ->). eauto. }
    split; [|split].
    + intros f l Ef Hs Hk. pose proof (plan_i (l_forth L) ix a kwargs f l Hk) as Pl. rewrite <- Ef in Pl.
      destruct (T f "_i"%string _ _ _ _ (or_introl eq_refl) Ef Hs Pl) as (r' & Hr & Ed).
      rewrite Ed in Hv. exists r'. split; [exact Hv|]. apply select_rows. rewrite <- row_receiver. exact Hr.
    + intros f l Ef Hs Hk.
      assert (Ha : a <> Bnd) by (destruct Hw as [[-> _]|[-> _]]; discriminate).
      pose proof (plan_j (l_forth L) ix a kwargs f l Ha Hk) as Pl. rewrite <- Ef in Pl.
      destruct (T f "_j"%string _ _ _ _ (or_intror eq_refl) Ef Hs Pl) as (r' & Hr & Ed).
      rewrite Ed in Hv. exists r'. split; [exact Hv|]. apply select_rows. rewrite <- row_sender. exact Hr.
    + intros f l Ef Hk Hl Hor.
      assert (Hpy : forall x, py_or (Some (List.length l)) x = Some (List.length l)) by (destruct l; [congruence|reflexivity]).
      assert (Hsp : ~ In n (update_args order L)).
      { intros Q. apply update_args_user in Q. apply (not_special_neq _ Q n); [|reflexivity]. clear -Ef Hw.
        destruct Hw as [[-> _]|[-> _]]; cbn [adj_name append] in Ef; subst n; vm_compute; auto 40. }
      destruct (collect_inv _ _ _ _ _ _ _ _ H4) as (d01 & F1 & X1). destruct (collect_inv _ _ _ _ _ _ _ _ H5) as (d02 & F2 & X2).
      destruct Hw as [[-> ->]|[-> ->]].
      * assert (S : snd s1 = Some (List.length l)).
        { eapply collect_sizes; [exact H4|exact Hk|]. destruct Hor as [Hor|[Hor _]]; [left; exact Hor|right].
          apply bind_ok in H1 as ((r1 & s0) & H1 & H1'). injection H1' as _ <-. eapply message_sizes; eauto. }
        rewrite Hv, X2. clear Hpn. subst n. cbn [adj_name append] in *. cbn [extras adj_name append String.eqb Ascii.eqb Bool.eqb].
        rewrite (proj2 (loop_stored _ _ _ _ _ _ _ _ _ F2 _) Hsp). cbn [no_keys]. rewrite X1. cbn [extras adj_name append String.eqb Ascii.eqb Bool.eqb].
        rewrite S, Hpy. destruct down; reflexivity.
      * assert (S : snd s2 = Some (List.length l)).
        { eapply collect_sizes; [exact H5|exact Hk|]. destruct Hor as [Hor|[Hor Hd]]; [left; exact Hor|right].
          rewrite (Hd eq_refl) in H2. apply bind_ok in H2 as ((r1 & s0) & H2 & H2'). injection H2' as _ <-. eapply message_sizes; eauto. }
        rewrite Hv, X2. clear Hpn. subst n. cbn [adj_name append] in *. cbn [extras adj_name append String.eqb Ascii.eqb Bool.eqb]. rewrite S, Hpy. reflexivity.
  - intros n v Hin Hpl Hs Hk. destruct (HD2 _ _ Hin) as (p & Hp & Hpn & Hv & Hne).
    assert (Hu : In n (update_args order L)) by (apply in_update_args; auto; rewrite <- Hpn; now apply in_map).
    pose proof (collected _ _ _ _ _ _ _ _ _ H5 Hs Hu) as S2. unfold stored in S2. rewrite (plan_plain _ _ _ _ _ Hpl) in S2.
    rewrite Hv, S2. unfold given. destruct (kwargs n); congruence.
Qed.
End Order.

(** The iteration order of the sets of names does not matter. *)
Lemma collect_order forth args args' index size a kwargs d s : (forall n, In n args <-> In n args') ->
  collect forth args index size a kwargs = Ok (d, s) ->
  exists d', collect forth args' index size a kwargs = Ok (d', s) /\ forall n, d' n = d n.
Proof.
  intros HI H. destruct (collect_inv _ _ _ _ _ _ _ _ H) as (d0 & H1 & H2).
  destruct (loop_order _ _ _ _ _ _ _ _ _ _ HI H1) as (d1 & H3 & H4). destruct (collect_ok _ _ _ _ _ _ _ _ H3) as (d' & H5 & H6).
  exists d'. split; auto. intros n. rewrite H6, H2, H4. reflexivity.
Qed.

Section Orders.
Variables order order' : list string -> list string.
Hypothesis Hord : forall l, Permutation (order l) l.
Hypothesis Hord' : forall l, Permutation (order' l) l.

Lemma same_set l n : In n (order l) <-> In n (order' l).
Proof. split; apply Permutation_in; rewrite Hord, Hord'; reflexivity. Qed.

Lemma message_order L index a size kwargs r : message_and_aggregate_kw order L index a size kwargs = Ok r ->
  message_and_aggregate_kw order' L index a size kwargs = Ok r.
Proof.
  unfold message_and_aggregate_kw. intros H. apply bind_ok in H as ((d & s1) & HC & H).
  destruct (collect_order _ _ (user_args order' L) _ _ _ _ _ _ (same_set _) HC) as (d' & HC' & HE). rewrite HC'. cbn [bind].
  rewrite !(distribute_ext _ d' d HE). exact H.
Qed.

Lemma propagate_order L up down bnd us ds bs kwargs r : propagate_kw order L up down bnd us ds bs kwargs = Ok r ->
  propagate_kw order' L up down bnd us ds bs kwargs = Ok r.
Proof.
  unfold propagate_kw. intros H. apply bind_ok in H as (t & H0 & H). rewrite H0. cbn [bind]. clear H0 t.
  apply bind_ok in H as ((uo & us') & H1 & H). apply bind_ok in H as ((do & ds') & H2 & H). apply bind_ok in H as (bo & H3 & H).
  apply bind_ok in H as ((d1 & s1) & H4 & H). apply bind_ok in H as ((d2 & s2) & H5 & H).
  match goal with |- bind ?m _ = _ => assert (E : m = Ok (uo, us')) end.
  { destruct up; [|exact H1]. apply bind_ok in H1 as (x & H1 & H1'). rewrite (message_order _ _ _ _ _ _ H1). exact H1'. }
  rewrite E. cbn [bind]. clear E H1.
  match goal with |- bind ?m _ = _ => assert (E : m = Ok (do, ds')) end.
  { destruct down; [|exact H2]. destruct (l_use_down L); [|exact H2]. apply bind_ok in H2 as (x & H2 & H2'). rewrite (message_order _ _ _ _ _ _ H2). exact H2'. }
  rewrite E. cbn [bind]. clear E H2.
  match goal with |- bind ?m _ = _ => assert (E : m = Ok bo) end.
  { destruct (l_use_bnd L); [|exact H3]. destruct (kwargs "boundary_attr"%string); try exact H3.
    all: apply bind_ok in H3 as (x & H3 & H3'); rewrite (message_order _ _ _ _ _ _ H3); exact H3'. }
  rewrite E. cbn [bind]. clear E H3.
  destruct (collect_order _ _ (update_args order' L) _ _ _ _ _ _ (same_set _) H4) as (d1' & HC1 & HE1). rewrite HC1. cbn [bind].
  destruct (collect_order _ _ (update_args order' L) _ _ _ _ _ _ (same_set _) H5) as (d2' & HC2 & HE2). rewrite HC2. cbn [bind].
  rewrite <- H. f_equal. apply distribute_ext. intros n. rewrite HE1, HE2. reflexivity.
Qed.
End Orders.

Theorem C60_set_order order order' L up down bnd us ds bs kwargs r :
  (forall l, Permutation (order l) l) -> (forall l, Permutation (order' l) l) ->
  propagate_kw order L up down bnd us ds bs kwargs = Ok r <-> propagate_kw order' L up down bnd us ds bs kwargs = Ok r.
Proof. intros H H'. split; apply propagate_order; auto. Qed.

(** An argument that cannot be selected. *)
Lemma loop_err forth index a kwargs b data ix r l dim e : plan_of forth index a kwargs b = Lift data ix r (PRows l) dim ->
  lift data ix r = Err e -> forall args d s, In b args ->
  (forall n, In n args -> n <> b -> plan_of forth index a kwargs n = Skip \/ exists v, plan_of forth index a kwargs n = Store v) ->
  compat s dim (List.length l) -> foldM (collect_arg forth index a kwargs) (d, s) args = Err e.
Proof.
  intros HP HL. induction args as [|n args IH]; intros d s Hb Ho Hc; [destruct Hb|]. cbn [foldM]. rewrite collect_arg_plan.
  destruct (string_dec n b) as [->|Hn].
  - rewrite HP. cbn [run_plan snd]. destruct (set_size_ok s dim l (lift_dim _ _ _ _ _ _ _ _ _ _ HP) Hc) as (s' & -> & _). cbn [bind]. rewrite HL. reflexivity.
  - destruct Hb as [Hb|Hb]; [congruence|]. destruct (Ho n (or_introl eq_refl) Hn) as [->|(v & ->)]; cbn [run_plan bind fst snd]; apply IH; auto.
    all: intros m Hm; apply Ho; right; auto.
Qed.
End Any.

(** ** The layers of the project *)
Section Project.
Context {V : Type} (o : ops V) (order : list string -> list string) (c : mpcfg V).
Hypothesis Hord : forall l, Permutation (order l) l.
Implicit Types kwargs : dict V.
Notation L := (std_layer o c).

Lemma std_user_args n : In n (user_args order L) <-> In n ["up_x_j"; "up_attr"; "down_x_j"; "down_attr"; "boundary_x_j"]%string.
Proof.
  assert (E : filter not_special (keys [l_msg_sig L Up; l_msg_sig L Down; l_msg_sig L Bnd; l_agg_sig L Up; l_agg_sig L Down; l_agg_sig L Bnd]) =
              ["up_x_j"; "up_attr"; "down_x_j"; "down_attr"; "boundary_x_j"]%string) by (vm_compute; reflexivity).
  unfold user_args. rewrite E. split; apply Permutation_in; rewrite Hord; reflexivity.
Qed.
Lemma std_update_args : update_args order L = ["x"%string].
Proof.
  assert (E : filter not_special (keys [l_upd_sig L]) = ["x"%string]) by (vm_compute; reflexivity).
  unfold update_args. rewrite E. apply Permutation_length_1_inv. symmetry. apply Hord.
Qed.

Definition src (a : adjacency) : string := match a with Bnd => "boundary_attr" | _ => "x" end.
Definition attr_of (a : adjacency) : string := match a with Up => "up_attr" | _ => "down_attr" end.
Definition msg_of (a : adjacency) : msg V := match a with Up => g_msg_up c | Down => g_msg_down c | Bnd => MsgFst (g_msg_bnd c) end.
Definition red_of (a : adjacency) : reduce := match a with Up => g_aggr_up c | Down => g_aggr_down c | Bnd => g_aggr_bnd c end.

Lemma std_message ix a kwargs x data attr :
  kwargs "x"%string = PRows x -> kwargs (src a) = PRows data ->
  (a = Bnd -> attr = None) -> (a <> Bnd -> kwargs (attr_of a) = val attr) ->
  message_and_aggregate_kw order L (Some ix) a (None, None) kwargs =
    let* r := message_and_aggregate o (msg_of a) (red_of a) ix data attr (List.length x) in Ok (PRows r, (Some (List.length x), None)).
Proof.
  intros Hx Hd Hb Ha. unfold message_and_aggregate_kw, message_and_aggregate.
  set (me := (adj_name a ++ "_x_j")%string).
  assert (HP : plan_of true (Some ix) a kwargs me = Lift data ix 0 (PRows x) 0).
  { unfold me. destruct a; cbn in Hd |- *; rewrite ?Hx, ?Hd in *; try congruence; reflexivity. }
  assert (HO : forall n, In n (user_args order L) -> n <> me ->
      plan_of true (Some ix) a kwargs n = Skip \/ exists v, plan_of true (Some ix) a kwargs n = Store v).
  { intros n Hn Hne. apply std_user_args in Hn. unfold me in Hne.
    destruct Hn as [<-|[<-|[<-|[<-|[<-|[]]]]]]; destruct a; cbn in Hne |- *; try congruence; eauto. }
  assert (HI : In me (user_args order L)) by (apply std_user_args; destruct a; cbn; tauto).
  cbn [l_forth std_layer]. change (row 0 ix) with (map fst ix). destruct (index_select data (map fst ix)) as [rs|e] eqn:ES.
  2:{ rewrite (collect_err _ _ _ _ _ _ e); [reflexivity|]. eapply loop_err; [exact HP|exact ES|exact HI|exact HO|left; reflexivity]. }
  destruct (loop_ok true (Some ix) a kwargs (user_args order L) no_keys (None, None)) as (d0 & s & HF & HS).
  { intros n Hn. unfold fine. destruct (string_dec n me) as [->|Hne]; [rewrite HP; split; [eauto|]; exists rs; exact ES|].
    destruct (HO n Hn Hne) as [->|(v & ->)]; exact I. }
  { intros n [|[|dim]] k Hn (? & ? & ? & ? & E & _); left; reflexivity. }
  { assert (W : forall n dim k, In n (user_args order L) -> lifts true (Some ix) a kwargs n dim k -> k = List.length x).
    { intros n dim k Hn (? & ? & ? & ? & E & ->). destruct (string_dec n me) as [->|Hne]; [rewrite HP in E; injection E as <- <- <- <- <-; reflexivity|].
      destruct (HO n Hn Hne) as [E'|(v & E')]; congruence. }
    intros n m dim k k' Hn Hm Hl Hl'. rewrite (W _ _ _ Hn Hl), (W _ _ _ Hm Hl'). reflexivity. }
  assert (Es : s = (Some (List.length x), None)).
  { apply sizes_eq. intros [|[|dim]] Hdim; [| |lia].
    - apply (proj1 (HS 0 Hdim) me); auto. unfold lifts. rewrite HP. eauto 8.
    - apply (proj1 (proj2 (HS 1 Hdim))). intros n k Hn (? & ? & ? & ? & E & _). destruct (string_dec n me) as [->|Hne]; [rewrite HP in E; discriminate|].
      destruct (HO n Hn Hne) as [E'|(v & E')]; congruence. }
  subst s. destruct (collect_ok _ _ _ _ _ _ _ _ HF) as (d & HC & HE). rewrite HC. cbn [bind].
  assert (D1 : d me = PRows rs).
  { pose proof (collected _ _ _ _ _ _ _ _ me HC ltac:(destruct a; reflexivity) HI) as Q. unfold stored in Q. rewrite HP in Q.
    destruct Q as (l & El & ->). unfold lift in El. change (row 0 ix) with (map fst ix) in El. congruence. }
  assert (D2 : a <> Bnd -> d (attr_of a) = val attr).
  { intros Hn. rewrite <- (Ha Hn).
    pose proof (collected _ _ _ _ _ _ _ _ (attr_of a) HC ltac:(destruct a; reflexivity) ltac:(apply std_user_args; destruct a; cbn; tauto)) as Q.
    unfold stored in Q. rewrite plan_plain in Q; [exact Q|]. destruct a; split; cbn; discriminate. }
  assert (D3 : d ("agg_" ++ adj_name a ++ "_index")%string = PVec (map snd ix)) by (rewrite HE; destruct a; reflexivity).
  assert (D4 : d (adj_name a ++ "_ptr")%string = PNone) by (rewrite HE; destruct a; reflexivity).
  assert (D5 : d (adj_name a ++ "_dim_size")%string = PNat (List.length x)).
  { rewrite HE. destruct a; reflexivity. }
  assert (M : distribute (l_msg_sig L a) d = Ok ((me, PRows rs) :: match a with Bnd => [] | _ => [(attr_of a, val attr)] end)).
  { unfold me in *. unfold distribute. destruct a; cbn [l_msg_sig std_layer std_msg_sig mapM pname req adj_name append attr_of] in *; rewrite D1; cbn [bind];
      try (rewrite D2 by discriminate; destruct attr; reflexivity). reflexivity. }
  rewrite M. cbn [bind].
  assert (M2 : l_msg L a ((me, PRows rs) :: match a with Bnd => [] | _ => [(attr_of a, val attr)] end) =
          let* out := apply_msg (msg_of a) rs attr in Ok (PRows out)).
  { unfold me. destruct a; cbn; destruct attr; try reflexivity. all: rewrite Hb by reflexivity; reflexivity. }
  rewrite M2. destruct (apply_msg (msg_of a) rs attr) as [out|e]; [|reflexivity]. cbn [bind].
  assert (M3 : distribute (l_agg_sig L a) d =
     Ok [("agg_" ++ adj_name a ++ "_index", PVec (map snd ix)); (adj_name a ++ "_ptr", PNone); (adj_name a ++ "_dim_size", PNat (List.length x))]%string).
  { unfold distribute. cbn [l_agg_sig std_layer std_agg_sig mapM pname req opt]. rewrite D3, D4, D5. reflexivity. }
  rewrite M3. cbn [bind].
  assert (M4 : l_agg L a (PRows out) [("agg_" ++ adj_name a ++ "_index", PVec (map snd ix)); (adj_name a ++ "_ptr", PNone); (adj_name a ++ "_dim_size", PNat (List.length x))]%string
     = let* r := scatter o (red_of a) (Some (List.length x)) (map snd ix) out in Ok (PRows r)).
  { destruct a; reflexivity. }
  rewrite M4. destruct (scatter _ _ _ _ _); reflexivity.
Qed.

Lemma std_no_boundary kwargs size : message_and_aggregate_kw order L None Bnd size kwargs = Err TypeError.
Proof.
  unfold message_and_aggregate_kw. destruct (collect (l_forth L) (user_args order L) None size Bnd kwargs) as [[d s]|e] eqn:HC; cbn [bind].
  - pose proof (collected _ _ _ _ _ _ _ _ "boundary_x_j"%string HC eq_refl ltac:(apply std_user_args; cbn; tauto)) as Q. cbn in Q.
    cbn [l_msg_sig std_layer std_msg_sig]. unfold distribute. cbn [mapM pname req]. rewrite Q. reflexivity.
  - exfalso. assert (F : exists d' s', foldM (collect_arg (l_forth L) None Bnd kwargs) (no_keys, size) (user_args order L) = Ok (d', s') /\ True).
    { assert (NL : forall n, In n (user_args order L) -> plan_of (l_forth L) None Bnd kwargs n = Skip \/ exists v, plan_of (l_forth L) None Bnd kwargs n = Store v).
      { intros n Hn. apply std_user_args in Hn. destruct Hn as [<-|[<-|[<-|[<-|[<-|[]]]]]]; cbn; eauto. }
      destruct (loop_ok (l_forth L) None Bnd kwargs (user_args order L) no_keys size) as (d' & s' & E & _); eauto.
      - intros n Hn. unfold fine. destruct (NL n Hn) as [->|(v & ->)]; exact I.
      - intros n dim k Hn (? & ? & ? & ? & E & _). destruct (NL n Hn) as [E'|(v & E')]; congruence.
      - intros n m dim k k' Hn _ (? & ? & ? & ? & E & _). destruct (NL n Hn) as [E'|(v & E')]; congruence. }
    destruct F as (d' & s' & F & _). destruct (collect_ok _ _ _ _ _ _ _ _ F) as (d & HC' & _). congruence.
Qed.

(** The machinery, driven by parameter names, computes what MPModel says; errors included. *)
Theorem C60_refines p x pass_down pass_bnd :
  p_x p = Some x ->
  (g_down c = true -> pass_down = true \/ p_down p = None) -> (g_bnd c = true -> pass_bnd = true) ->
  call_propagate o order c pass_down pass_bnd p = let* (u, d, b) := propagate o c p in Ok (PRows u, PRows d, PRows b).
Proof.
  intros Hx Hd Hb. unfold call_propagate, propagate_kw, propagate. rewrite Hx.
  set (kw := kwargs_of pass_down pass_bnd p).
  assert (K1 : kw "x"%string = PRows x) by (unfold kw, kwargs_of; rewrite Hx; destruct pass_down, pass_bnd; reflexivity).
  assert (K2 : kw "up_attr"%string = val (p_up_attr p)) by (unfold kw, kwargs_of; destruct pass_down, pass_bnd; reflexivity).
  assert (K3 : pass_down = true -> kw "down_attr"%string = val (p_down_attr p)) by (intros ->; unfold kw, kwargs_of; destruct pass_bnd; reflexivity).
  assert (K4 : kw "boundary_attr"%string = if pass_bnd then val (p_battr p) else PEmpty) by (unfold kw, kwargs_of; destruct pass_down, pass_bnd; reflexivity).
  assert (CS : forall i, check_separately i None = (None, None)) by (intros [|]; reflexivity). rewrite !CS.
  match goal with |- bind ?m _ = _ => replace m with (Ok tt : result unit) by (destruct (p_up p), (p_down p); reflexivity) end. cbn [bind].
  cbn [l_use_down l_use_bnd std_layer]. rewrite K4.
  assert (FIN : forall us ds uo do bo (U D B : list V),
    (match uo with Some r => r | None => PRows (zeros o (List.length x)) end = PRows U) ->
    (match do with Some r => r | None => PRows (zeros o (List.length x)) end = PRows D) ->
    (match bo with Some r => r | None => PRows (zeros o (List.length x)) end = PRows B) ->
    (let* (d1, _) := collect (l_forth L) (update_args order L) (p_up p) us Up kw in
     let* (d2, _) := collect (l_forth L) (update_args order L) (p_down p) ds Down kw in
     let d := fun n => match d2 n with PEmpty => d1 n | v => v end in
     let* uk := distribute (l_upd_sig L) d in l_upd L uo do bo uk) = Ok (PRows U, PRows D, PRows B)).
  { intros us ds uo do bo U D B E1 E2 E3. rewrite std_update_args. unfold collect. cbn [l_forth std_layer].
    assert (CA : forall ix a s, foldM (collect_arg true ix a kw) (no_keys, s) ["x"%string] = Ok (put no_keys "x"%string (kw "x"%string), s)).
    { intros ix a s. reflexivity. }
    rewrite !CA. cbn [bind]. unfold distribute. cbn [l_upd_sig std_layer mapM pname req].
    destruct (p_up p), (p_down p); cbn; rewrite K1; cbn; rewrite E1, E2, E3; reflexivity. }
  set (fill := fun v : option (pyval V) => match v with Some r => r | None => PRows (zeros o (List.length x)) end).
  match goal with |- bind ?code _ = bind (bind ?model _) _ =>
    assert (SU : (exists e, model = Err e /\ code = Err e) \/ (exists U uo us, model = Ok U /\ code = Ok (uo, us) /\ fill uo = PRows U)) end.
  { destruct (p_up p) as [ui|] eqn:Eu; [|right; do 3 eexists; repeat split; reflexivity].
    rewrite (std_message ui Up kw x x (p_up_attr p) K1 K1); [|discriminate|intros _; exact K2]. cbn [msg_of red_of].
    destruct (message_and_aggregate _ _ _ _ _ _ _); [right; do 3 eexists; repeat split; reflexivity|left; eauto]. }
  destruct SU as [(e & -> & ->)|(U & uo & us & -> & -> & FU)]; [reflexivity|]. cbn [bind].
  match goal with |- bind ?code _ = bind (bind ?model _) _ =>
    assert (SD : (exists e, model = Err e /\ code = Err e) \/ (exists U uo us, model = Ok U /\ code = Ok (uo, us) /\ fill uo = PRows U)) end.
  { destruct (g_down c) eqn:Eg; [|right; destruct (p_down p); do 3 eexists; repeat split; reflexivity].
    destruct (p_down p) as [ui|] eqn:Eu; [|right; do 3 eexists; repeat split; reflexivity].
    destruct (Hd eq_refl) as [Hp|]; [|discriminate].
    rewrite (std_message ui Down kw x x (p_down_attr p) K1 K1); [|discriminate|intros _; exact (K3 Hp)]. cbn [msg_of red_of].
    destruct (message_and_aggregate _ _ _ _ _ _ _); [right; do 3 eexists; repeat split; reflexivity|left; eauto]. }
  destruct SD as [(e & -> & ->)|(D & do & ds & -> & -> & FD)]; [reflexivity|]. cbn [bind].
  match goal with |- bind ?code _ = bind (bind ?model _) _ =>
    assert (SB : (exists e, model = Err e /\ code = Err e) \/ (exists U uo, model = Ok U /\ code = Ok uo /\ fill uo = PRows U)) end.
  { destruct (g_bnd c) eqn:Eg; [|right; do 2 eexists; repeat split; reflexivity]. rewrite (Hb eq_refl) in *.
    destruct (p_battr p) as [ba|] eqn:Ea; cbn [val] in *; [|right; do 2 eexists; repeat split; reflexivity].
    destruct (p_bidx p) as [bi|]; [|left; rewrite std_no_boundary; eexists; split; reflexivity].
    rewrite (std_message bi Bnd kw x ba None K1 K4); [|reflexivity|congruence]. cbn [msg_of red_of].
    destruct (message_and_aggregate _ _ _ _ _ _ _); [right; do 2 eexists; repeat split; reflexivity|left; eauto]. }
  destruct SB as [(e & -> & ->)|(B & bo & -> & -> & FB)]; [reflexivity|]. cbn [bind].
  apply FIN; auto.
Qed.
End Project.

(** Every layer class of mp/layers.py, with the keyword arguments its [forward] passes. *)
Section Classes.
Context {V : Type} (o : ops V) (order : list string -> list string).
Hypothesis Hord : forall l, Permutation (order l) l.

Definition as_rows (r : result (list V * list V * list V)) : result (pyval V * pyval V * pyval V) :=
  let* (u, d, b) := r in Ok (PRows u, PRows d, PRows b).

Theorem C60_layer_classes p x : p_x p = Some x ->
  (forall use_bnd use_down, call_propagate o order (dummy_cfg o use_bnd use_down) true true p = as_rows (propagate o (dummy_cfg o use_bnd use_down) p)) /\
  (forall l, call_propagate o order (cin_cfg l) true false p = as_rows (propagate o (cin_cfg l) p)) /\
  (forall l, call_propagate o order (sparse_cfg l) false true p = as_rows (propagate o (sparse_cfg l) p)) /\
  (forall l, call_propagate o order (cinpp_cfg l) false true p = as_rows (propagate o (cinpp_cfg l) p)).
Proof.
  intros Hx. split; [|split; [|split]]; intros.
  - apply C60_refines with x; auto.
  - apply C60_refines with x; auto.
  - apply C60_refines with x; auto; discriminate.
  - apply C60_refines with x; auto; discriminate.
Qed.

(** CIN++ never passes [down_attr] to [propagate] (mp/layers.py:244-247), so a CIN++ layer that did
    ask for lower messages would fail on every complex that has a lower adjacency. *)
Theorem C60_cinpp_lower_messages c pass_bnd p x di : g_down c = true -> p_x p = Some x -> p_up p = None -> p_down p = Some di ->
  (forall col, In col di -> fst col < List.length x) ->
  call_propagate o order c false pass_bnd p = Err TypeError.
Proof.
  intros Hg Hx Hu Hd Hin. unfold call_propagate, propagate_kw. rewrite Hu, Hd. cbn [check_separately check_together bind].
  cbn [l_use_down std_layer]. rewrite Hg. set (kw := kwargs_of false pass_bnd p).
  assert (K1 : kw "x"%string = PRows x) by (unfold kw, kwargs_of; rewrite Hx; destruct pass_bnd; reflexivity).
  assert (K3 : kw "down_attr"%string = PEmpty) by (unfold kw, kwargs_of; destruct pass_bnd; reflexivity).
  replace (message_and_aggregate_kw order (std_layer o c) (Some di) Down (None, None) kw) with (Err TypeError : result (pyval V * sizes)); [reflexivity|].
  symmetry. unfold message_and_aggregate_kw. destruct (collect _ _ (Some di) (None, None) Down kw) as [[d s]|e] eqn:HC; cbn [bind].
  - pose proof (collected _ _ _ _ _ _ _ _ "down_attr"%string HC eq_refl ltac:(apply std_user_args; auto; cbn; tauto)) as Q.
    unfold stored in Q. rewrite plan_plain in Q by (split; discriminate). rewrite K3 in Q.
    unfold distribute. cbn [l_msg_sig std_layer std_msg_sig mapM pname req]. rewrite Q.
    destruct (d "down_x_j"%string); reflexivity.
  - exfalso. destruct (index_select x (map fst di)) as [rs|e'] eqn:ES.
    2:{ destruct x as [|v0 x0]; [|rewrite index_select_nth with (d := v0) in ES; [discriminate|]].
        - destruct di as [|col di]; [discriminate|]. specialize (Hin col (or_introl eq_refl)). cbn in Hin. lia.
        - apply Forall_forall. intros i Hi. apply in_map_iff in Hi as (col & <- & Hc). auto. }
    assert (NL : forall n, In n (user_args order (std_layer o c)) -> n <> "down_x_j"%string ->
       plan_of true (Some di) Down kw n = Skip \/ exists v, plan_of true (Some di) Down kw n = Store v).
    { intros n Hn Hne. apply std_user_args in Hn; auto. destruct Hn as [<-|[<-|[<-|[<-|[<-|[]]]]]]; try congruence; cbn; eauto. }
    assert (HP : plan_of true (Some di) Down kw "down_x_j" = Lift x di 0 (PRows x) 0) by (cbn; rewrite K1; reflexivity).
    destruct (loop_ok true (Some di) Down kw (user_args order (std_layer o c)) no_keys (None, None)) as (d' & s' & E & _).
    + intros n Hn. unfold fine. destruct (string_dec n "down_x_j") as [->|Hne]; [rewrite HP; split; [eauto|exists rs; exact ES]|].
      destruct (NL n Hn Hne) as [->|(v & ->)]; exact I.
    + intros n [|[|dim]] k Hn _; left; reflexivity.
    + assert (W : forall n dim k, In n (user_args order (std_layer o c)) -> lifts true (Some di) Down kw n dim k -> k = List.length x).
      { intros n dim k Hn (? & ? & ? & ? & E & ->). destruct (string_dec n "down_x_j") as [->|Hne]; [rewrite HP in E; injection E as <- <- <- <- <-; reflexivity|].
        destruct (NL n Hn Hne) as [E'|(v & E')]; congruence. }
      intros n m dim k k' Hn Hm Hl Hl'. rewrite (W _ _ _ Hn Hl), (W _ _ _ Hm Hl'). reflexivity.
    + destruct (collect_ok _ _ _ _ _ _ _ _ E) as (d & HC' & _). cbn [l_forth std_layer] in HC. congruence.
Qed.
End Classes.

(** ** Where the documentation is wrong *)
Section Wrong.
(** A layer that asks for [y] along the boundary adjacency and returns what it got. *)
Definition spy (forth : bool) (n : string) : layer Z :=
  mkLayer (fun a => match a with Bnd => [req n] | _ => [] end)
          (fun a kw => Ok (kwarg kw n))
          (fun _ => []) (fun _ m _ => Ok m) [] (fun u d b _ => Ok (PNone, PNone, match b with Some v => v | None => PNone end))
          forth false true.
Definition spied : dict Z :=
  put (put (put no_keys "x" (PRows [7]%Z)) "y" (PRows [9]%Z)) "boundary_attr" (PRows [1; 2]%Z).

(** "tensors passed to propagate can be mapped to the respective cells i and j by appending _i or
    _j" (mp/cell_mp.py:414-420).  Along the boundary adjacency every tensor asked for with _j is
    replaced by [boundary_attr]: a message that asks for y and returns it gives the rows of
    [boundary_attr], which are not the rows of y at any cells. *)
Theorem C60_boundary_j_refuted :
  exists q s, message_and_aggregate_kw (fun l => l) (spy true "boundary_y_j") (Some [(0, 0); (1, 0)]) Bnd (None, None) spied = Ok (PRows q, s) /\
    rows_at [1; 2]%Z [0; 1] q /\ spied "y"%string = PRows [9]%Z /\ forall cells, ~ rows_at [9]%Z cells q.
Proof.
  do 2 eexists. split; [vm_compute; reflexivity|]. split; [repeat constructor|]. split; [reflexivity|].
  intros cells H. inversion H as [|c v cs vs E _ E1 E2]; subst. destruct c as [|[|c]]; discriminate.
Qed.

(** With flow='target_to_source', which __init__ accepts (mp/cell_mp.py:107-108), the parents are the
    senders of a boundary message, but the message gets rows of [boundary_attr] at the numbers of the
    parents: neither the rows of x at the parents nor those of [boundary_attr] at the boundaries. *)
Theorem C60_reverse_flow_refuted :
  exists q s, message_and_aggregate_kw (fun l => l) (spy false "boundary_x_j") (Some [(0, 0); (1, 0)]) Bnd (None, None) spied = Ok (PRows q, s) /\
    ~ rows_at [7]%Z (map (sender false) [(0, 0); (1, 0)]) q /\ ~ rows_at [1; 2]%Z (map fst [(0, 0); (1, 0)]) q.
Proof.
  do 2 eexists. split; [vm_compute; reflexivity|]. split; intros H.
  - inversion H as [|c v cs vs E _]; subst. discriminate.
  - inversion H as [|c v cs vs E H']; subst. inversion H' as [|c' v' cs' vs' E']; subst. discriminate.
Qed.

(** An explicit size (n, 0) passed to [propagate]: [size[1] or size[0]] (mp/cell_mp.py:279-281) takes the
    number of senders for the number of receivers. *)
Definition counts : layer Z :=
  mkLayer (fun _ => [req "up_x_j"]) (fun _ _ => Ok PNone) (fun _ => [req "up_dim_size"]) (fun _ _ kw => Ok (kwarg kw "up_dim_size"))
          [] (fun u d b _ => Ok (PNone, PNone, PNone)) true false false.
Theorem C60_zero_receivers_refuted :
  exists s, message_and_aggregate_kw (fun l => l) counts (Some []) Up (Some 3, Some 0) (put no_keys "x" (PRows [1; 2; 3]%Z)) = Ok (PNat 3, s).
Proof. eexists. vm_compute. reflexivity. Qed.
End Wrong.

(** ** Cases *)
Section Cases.
Let x : list Z := [1; 2; 3]%Z.
Let p : params Z := mkParams (Some x) (Some [(0, 1); (1, 0); (1, 2); (2, 1)]) (Some [(0, 2)]) (Some [10; 10; 20; 20]%Z) (Some [5]%Z) (Some [4; 6]%Z) (Some [(0, 0); (1, 2)]).

Example call_dummy : call_propagate Zops (@rev _) (dummy_cfg Zops true true) true true p =
  Ok (PRows [12; 34; 22]%Z, PRows [0; 0; 6]%Z, PRows [4; 0; 6]%Z).
Proof. vm_compute. reflexivity. Qed.
Example call_dummy_bad : call_propagate Zops (@rev _) (dummy_cfg Zops true true) true true
  (mkParams (Some x) (Some [(0, 3)]) None (Some [10]%Z) None None None) = Err IndexError /\
  call_propagate Zops (@rev _) (dummy_cfg Zops true true) true true (mkParams (Some x) (Some [(3, 0)]) None (Some [10]%Z) None None None) = Err IndexError.
Proof. split; vm_compute; reflexivity. Qed.
Example call_refines : call_propagate Zops (@rev _) (dummy_cfg Zops true true) true true p = as_rows (propagate Zops (dummy_cfg Zops true true) p).
Proof. exact (proj1 (C60_layer_classes Zops (@rev _) (fun l => Permutation_sym (Permutation_rev l)) p x eq_refl) true true). Qed.
Example call_lower : call_propagate Zops (@rev _) (mkCfg true true RAdd RAdd RAdd (MsgFst (fun v => v)) (MsgFst (fun v => v)) (fun v => v)) false true
  (mkParams (Some x) None (Some [(0, 2)]) None (Some [5]%Z) None None) = Err TypeError.
Proof.
  eapply C60_cinpp_lower_messages; try reflexivity. { intros l. apply Permutation_sym, Permutation_rev. }
  intros col [<-|[]]. cbn. lia.
Qed.
(** A layer whose messages use both ends. *)
Definition both : layer Z :=
  mkLayer (fun a => match a with Up => [req "up_x_i"; req "up_x_j"; opt "weight"] | _ => [] end)
    (fun _ kw => match kwarg kw "up_x_i", kwarg kw "up_x_j" with PRows a, PRows b => Ok (PRows (zipw Z.sub a b)) | _, _ => Err TypeError end)
    (fun a => match a with Up => std_agg_sig Up | _ => [] end) (std_agg Zops (dummy_cfg Zops true true)) [req "x"] (std_upd Zops) true false false.
Example both_runs : message_and_aggregate_kw (@rev _) both (Some [(0, 1); (2, 1)]) Up (None, None) (put no_keys "x" (PRows x)) = Ok (PRows [0; 0; 0]%Z, (Some 3, Some 3)).
Proof. vm_compute. reflexivity. Qed.
Example both_receives : exists mk out ak, l_msg both Up mk = Ok out /\ l_agg both Up out ak = Ok (PRows [0; 0; 0]%Z) /\
  forall v, In ("up_dim_size"%string, v) ak -> v = PNat 3.
Proof.
  apply (C60_output_rows (@rev _) both [(0, 1); (2, 1)] Up (put no_keys "x" (PRows x)) x _ _ both_runs); auto.
  - intros n Hn. vm_compute in Hn. destruct Hn as [<-|[<-|[<-|[]]]]; [left; split; vm_compute; discriminate|right; exists Up, "_j"%string|right; exists Up, "_i"%string]; auto.
  - discriminate.
  - right. vm_compute. tauto.
Qed.
(** A layer whose update looks along both adjacencies and asks for the number of cells. *)
Definition asker : layer Z :=
  mkLayer (fun _ => []) (fun _ _ => Ok PNone) (fun _ => []) (fun _ _ _ => Ok PNone)
    [req "up_x_j"; req "down_x_i"; req "down_dim_size"]
    (fun _ _ _ kw => Ok (kwarg kw "up_x_j", kwarg kw "down_x_i", kwarg kw "down_dim_size")) true false false.
Example asker_runs : propagate_kw (@rev _) asker (Some [(0, 1); (2, 1)]) (Some [(1, 2)]) None None None None (put no_keys "x" (PRows x)) =
  Ok (PRows (map (fun k => nth k x 0%Z) [0; 2]), PRows (map (fun k => nth k x 0%Z) [2]), PNat 3).
Proof. vm_compute. reflexivity. Qed.
End Cases.

Print Assumptions C60_message_arguments.
Print Assumptions C60_update_arguments.
Print Assumptions C60_output_rows.
Print Assumptions C60_set_order.
Print Assumptions C60_refines.
Print Assumptions C60_layer_classes.
Print Assumptions C60_cinpp_lower_messages.
Print Assumptions C60_boundary_j_refuted.
Print Assumptions C60_reverse_flow_refuted.
Print Assumptions C60_zero_receivers_refuted.
