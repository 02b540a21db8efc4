(** Proofs about trajectories. *)
From Coq Require Import List Arith Lia ZArith Bool.
From Verif Require Import Base ComplexModel FlowModel FlowSpec FlowProofs FlowProofs2.
Import ListNotations.

(** ** Walks and nets *)

Lemma net_snoc p u v a b : net (p ++ [u; v]) a b = (net (p ++ [u]) a b + step u v a b)%Z.
Proof.
  induction p as [|c p IH]; simpl; [lia|].
  destruct p as [|d p]; simpl in *; [lia|]. rewrite IH. lia.
Qed.

Lemma net_absent p a b : ~ In a p \/ ~ In b p -> net p a b = 0%Z.
Proof.
  induction p as [|c [|d p] IH]; intros H; simpl; auto.
  assert (E : step c d a b = 0%Z).
  { unfold step. simpl in H. nateqb; simpl; subst; try lia; tauto. }
  rewrite E. simpl in IH. rewrite IH; auto. simpl in H. tauto.
Qed.

Lemma walk_snoc R p u v : walk_along R (p ++ [u]) -> R u v -> walk_along R (p ++ [u; v]).
Proof.
  induction p as [|c p IH]; simpl; intros H HR; [auto|].
  destruct p as [|d p]; simpl in *; [tauto|]. tauto.
Qed.

Lemma walk_along_impl (R S : nat -> nat -> Prop) p : (forall a b, R a b -> S a b) ->
  walk_along R p -> walk_along S p.
Proof.
  intros H. induction p as [|c [|d p] IH]; simpl; auto. intros [? HW]. split; auto. apply IH. exact HW.
Qed.

Section Walk.
Context {D : Type} (dlt : D -> D -> bool) (dist : nat -> nat -> D).
Context (npoints : nat) (draw : nat -> nat -> nat) (coin : nat -> bool) (g : tgraph).
Hypothesis GI : graph_inv g.

Definition joined_in (u v : nat) : Prop := u <> v /\ In (edge_key u v) (g_edges g).

(** Edge [e] of the graph carries the net flow of the path. *)
Definition carries (x : list Z) (p : list nat) : Prop :=
  length x = length (g_edges g) /\
  (forall e a b, nth_error (g_edges g) e = Some (a, b) -> a < b -> nth e x 0%Z = net p a b) /\
  (forall z, In z x -> z = (-1)%Z \/ z = 0%Z \/ z = 1%Z).

Lemma neighbors_in v ns u : neighbors g v = Ok ns -> In u ns -> In (edge_key v u) (g_edges g).
Proof.
  unfold neighbors. destruct (mem_nat v (g_nodes g)); [|discriminate]. intros H Hu. injection H as <-.
  apply in_flat_map in Hu as ([a b] & Hi & Hu). cbn [fst snd] in Hu.
  pose proof (gi_ends _ GI _ _ Hi) as (Hle & _). unfold edge_key.
  destruct (Nat.eqb_spec a v) as [->|].
  - destruct Hu as [<-|[]]. rewrite Nat.min_l, Nat.max_r by lia. auto.
  - destruct (Nat.eqb_spec b v) as [->|]; [|destruct Hu].
    destruct Hu as [<-|[]]. rewrite Nat.min_r, Nat.max_l by lia. auto.
Qed.

Lemma upd_nth {A} (l : list A) i f r d : upd l i f = Ok r ->
  i < length l /\ length r = length l /\
  (forall j, nth j r d = if j =? i then f (nth j l d) else nth j l d) /\
  (forall z, In z r -> In z l \/ exists y, z = f y).
Proof.
  revert i r; induction l as [|a l IH]; intros i r H; [destruct i; discriminate|].
  destruct i as [|i]; simpl in H.
  - injection H as <-. simpl. split; [lia|]. split; auto. split.
    + intros [|j]; auto.
    + intros z [<-|?]; eauto.
  - apply bind_ok in H as (r' & H & E). injection E as <-.
    destruct (IH i r' H) as (H1 & H2 & H3 & H4). simpl. split; [lia|]. split; [lia|]. split.
    + intros [|j]; simpl; auto.
    + intros z [<-|Hz]; auto. destruct (H4 z Hz) as [?|?]; auto.
Qed.

Lemma set_flow_spec x p u v x' : carries x (p ++ [u]) -> ~ In v (p ++ [u]) ->
  set_flow g x u v = Ok x' -> carries x' (p ++ [u; v]).
Proof.
  intros (HL & HN & HZ) Hv H.
  assert (Hne : u <> v) by (intros ->; apply Hv; apply in_app_iff; right; left; auto).
  assert (G : exists e s, nth_error (g_edges g) e = Some (edge_key u v) /\
                upd x e (fun _ => s) = Ok x' /\ s = if u <? v then 1%Z else (-1)%Z).
  { unfold set_flow in H. destruct (Nat.ltb_spec u v).
    - apply bind_ok in H as (e & He & H). apply lookup_ok in He. exists e, 1%Z.
      unfold edge_key. rewrite Nat.min_l, Nat.max_r by lia. auto.
    - apply bind_ok in H as (e & He & H). apply lookup_ok in He. exists e, (-1)%Z.
      unfold edge_key. rewrite Nat.min_r, Nat.max_l by lia. auto. }
  destruct G as (e0 & s & He0 & Hu & Es).
  destruct (upd_nth x e0 (fun _ => s) x' 0%Z Hu) as (Hlt & HL' & Hn & Hin).
  split; [congruence|]. split.
  - intros e a b He Hab. rewrite Hn, net_snoc.
    destruct (Nat.eqb_spec e e0) as [->|Hne0].
    + rewrite He in He0. unfold edge_key in He0. injection He0 as Ea Eb.
      rewrite net_absent.
      * rewrite Es. unfold step. destruct (Nat.ltb_spec u v); nateqb; simpl; lia.
      * destruct (Nat.lt_total u v) as [L|[?|L]]; [right|lia|left]; replace b with (Nat.max u v) by auto;
          replace a with (Nat.min u v) by auto; [rewrite Nat.max_r by lia|rewrite Nat.min_r by lia]; auto.
    + rewrite (HN e a b He Hab).
      assert (Ek : (a, b) <> edge_key u v).
      { intros E. apply Hne0. apply (proj1 (NoDup_nth_error _) (gi_edges _ GI)).
        - apply nth_error_Some; congruence.
        - congruence. }
      unfold edge_key in Ek. unfold step.
      nateqb; simpl; try lia; subst; exfalso; apply Ek; f_equal; lia.
  - intros z Hz. destruct (Hin z Hz) as [?|(y & ->)]; auto. subst s. destruct (u <? v); auto.
Qed.

(** One round of the loop. *)
Lemma walk_round fuel k goal ckpt vertex explored reached path x : vertex <> goal ->
  let r := walk dlt dist npoints draw coin g (S fuel) k goal ckpt vertex explored reached path x in
  (exists e, r = Raised e) \/ r = Stuck k \/
  exists ns v x1, neighbors g vertex = Ok ns /\ In v ns /\ ~ In v (vertex :: explored) /\
    set_flow g x vertex v = Ok x1 /\
    r = walk dlt dist npoints draw coin g fuel (S (S k)) goal ckpt v (vertex :: explored)
          (reached || (vertex =? ckpt)) (v :: path) x1.
Proof.
  intros Hg r. subst r. cbn [walk]. apply Nat.eqb_neq in Hg. rewrite Hg.
  destruct (neighbors g vertex) as [ns|e] eqn:En; [|eauto].
  assert (Hnv : forall v, In v (filter (fun v => negb (mem_nat v (vertex :: explored))) ns) ->
                  In v ns /\ ~ In v (vertex :: explored)).
  { intros v Hv. apply filter_In in Hv as [Hv Hf]. apply negb_true_iff, mem_nat_false in Hf. auto. }
  destruct (filter _ ns) as [|w0 nv0]; [auto|].
  destruct (forallb _ (w0 :: nv0)); [|eauto].
  destruct (get (w0 :: nv0) _) as [v|e] eqn:Ev; [|eauto].
  destruct (set_flow g x vertex v) as [x1|e] eqn:Ex; [|eauto].
  apply get_ok, nth_error_In in Ev. apply Hnv in Ev as [? ?].
  right. right. exists ns, v, x1. auto.
Qed.

Lemma walk_spec fuel : forall k goal ckpt vertex explored reached x x' path,
  NoDup (vertex :: explored) ->
  carries x (rev (vertex :: explored)) ->
  walk_along joined_in (rev (vertex :: explored)) ->
  walk dlt dist npoints draw coin g fuel k goal ckpt vertex explored reached (vertex :: explored) x
    = Found x' path ->
  exists more, path = rev (vertex :: explored) ++ more /\ NoDup path /\ ends path goal /\
    carries x' path /\ walk_along joined_in path.
Proof.
  induction fuel as [|fuel IH]; intros k goal ckpt vertex explored reached x x' path Hnd Hc Hw H;
    destruct (Nat.eq_dec vertex goal) as [Eg|Hg].
  1,3: cbn [walk] in H; apply Nat.eqb_eq in Eg as Eg'; rewrite Eg' in H;
       injection H as <- <-; exists []; simpl rev; rewrite app_nil_r;
       (split; [auto|]); (split; [change (rev explored ++ [vertex]) with (rev (vertex :: explored)); apply NoDup_rev; auto|]);
       (split; [unfold ends; rewrite rev_app_distr; simpl; congruence|auto]).
  - cbn [walk] in H. apply Nat.eqb_neq in Hg. rewrite Hg in H. discriminate.
  - destruct (walk_round fuel k goal ckpt vertex explored reached (vertex :: explored) x Hg)
      as [(e & E)|[E|(ns & v & x1 & En & Hvn & Hvf & Ex & E)]]; rewrite E in H; try discriminate.
    assert (Hvr : ~ In v (rev explored ++ [vertex])).
    { change (rev explored ++ [vertex]) with (rev (vertex :: explored)). rewrite <- in_rev. auto. }
    simpl rev in Hc, Hw.
    pose proof (set_flow_spec x (rev explored) vertex v x1 Hc Hvr Ex) as Hc1.
    assert (Er : rev (v :: vertex :: explored) = rev explored ++ [vertex; v]).
    { simpl. rewrite <- app_assoc. auto. }
    destruct (IH (S (S k)) goal ckpt v (vertex :: explored) (reached || (vertex =? ckpt)) x1 x' path) with (4 := H) as (more & Hp & Hrest).
    + constructor; auto.
    + rewrite Er. auto.
    + rewrite Er. apply walk_snoc; auto. split; [intros ->; apply Hvf; left; auto|].
      apply (neighbors_in vertex ns v En Hvn).
    + exists (v :: more). split; auto. rewrite Hp. simpl. rewrite <- !app_assoc. auto.
Qed.

(** Fuel one larger than the number of nodes is enough. *)
Lemma walk_no_fuel fuel : forall k goal ckpt vertex explored reached path x,
  NoDup (vertex :: explored) -> incl explored (g_nodes g) ->
  fuel + length explored = S (length (g_nodes g)) ->
  walk dlt dist npoints draw coin g fuel k goal ckpt vertex explored reached path x <> Fuel.
Proof.
  induction fuel as [|fuel IH]; intros k goal ckpt vertex explored reached path x Hnd Hin Hf H;
    destruct (Nat.eq_dec vertex goal) as [Eg|Hg].
  1,3: cbn [walk] in H; apply Nat.eqb_eq in Eg as Eg'; rewrite Eg' in H; discriminate.
  - inversion Hnd as [|? ? _ H3]; subst. pose proof (NoDup_incl_length H3 Hin). lia.
  - destruct (walk_round fuel k goal ckpt vertex explored reached path x Hg)
      as [(e & E)|[E|(ns & v & x1 & En & Hvn & Hvf & Ex & E)]]; rewrite E in H; try discriminate.
    revert H. apply IH.
    + constructor; auto.
    + intros u [<-|Hu]; auto. unfold neighbors in En.
      destruct (mem_nat vertex (g_nodes g)) eqn:Em; [|discriminate]. apply mem_nat_iff; auto.
    + simpl. lia.
Qed.

(** With valid random draws and all nodes being points, nothing is raised. *)
Lemma argmin_from_lt l : forall best at_ i, at_ < i -> argmin_from dlt best at_ i l < i + length l.
Proof.
  induction l as [|d l IH]; intros best at_ i H; simpl; [lia|].
  destruct (dlt d best).
  - specialize (IH d i (S i)). lia.
  - specialize (IH best at_ (S i)). lia.
Qed.
Lemma argmin_lt l : l <> [] -> argmin dlt l < length l.
Proof.
  destruct l as [|d l]; [congruence|]. intros _. simpl. pose proof (argmin_from_lt l d 0 1). lia.
Qed.

Hypothesis Hdraw : forall k n, 0 < n -> draw k n < n.
Hypothesis Hnodes : forall v, In v (g_nodes g) -> v < npoints.

Lemma walk_no_raise fuel : forall k goal ckpt vertex explored reached path x e,
  In vertex (g_nodes g) -> length x = length (g_edges g) ->
  walk dlt dist npoints draw coin g fuel k goal ckpt vertex explored reached path x <> Raised e.
Proof.
  induction fuel as [|fuel IH]; intros k goal ckpt vertex explored reached path x e0 Hv Hx H;
    cbn [walk] in H; destruct (vertex =? goal); try discriminate.
  destruct (neighbors g vertex) as [ns|e] eqn:En.
  2:{ unfold neighbors in En. apply mem_nat_iff in Hv. rewrite Hv in En. discriminate. }
  assert (Hnv : forall v, In v (filter (fun v => negb (mem_nat v (vertex :: explored))) ns) ->
            v <> vertex /\ In (edge_key vertex v) (g_edges g) /\ In v (g_nodes g)).
  { intros v Hi. apply filter_In in Hi as [Hi Hf].
    apply negb_true_iff, mem_nat_false in Hf. pose proof (neighbors_in vertex ns v En Hi) as Hk.
    split; [intros ->; apply Hf; left; auto|]. split; auto.
    unfold edge_key in Hk. apply (gi_ends _ GI) in Hk as (_ & H1 & H2).
    destruct (Nat.le_ge_cases vertex v); [rewrite Nat.max_r in H2 by lia|rewrite Nat.min_r in H1 by lia]; auto. }
  destruct (filter _ ns) as [|w0 nv0]; [discriminate|].
  remember (w0 :: nv0) as nv eqn:Env'.
  destruct (forallb (fun v => v <? npoints) nv) eqn:Ef.
  2:{ assert (Ht : forallb (fun v => v <? npoints) nv = true); [|congruence].
      apply forallb_forall. intros v Hi. apply Nat.ltb_lt, Hnodes, Hnv; auto. }
  match type of H with context [get nv ?p] => destruct (get nv p) as [v|e] eqn:Ev end.
  2:{ exfalso.
      revert Ev. match goal with |- get nv ?p = _ -> _ => assert (L : p < length nv) end.
      { rewrite <- (map_length (fun v => dist v (if reached || (vertex =? ckpt) then goal else ckpt)) nv).
        destruct (coin k); [apply Hdraw|apply argmin_lt]; rewrite Env'; simpl; [lia|discriminate]. }
      rewrite (get_nth nv _ 0 L). discriminate. }
  apply get_ok, nth_error_In in Ev. destruct (Hnv v Ev) as (Hne & Hk & Hvn).
  destruct (set_flow g x vertex v) as [x1|e] eqn:Ex.
  - revert H. apply IH; auto. unfold set_flow in Ex.
    destruct (vertex <? v); apply bind_ok in Ex as (e & _ & Ex);
      apply (upd_nth _ _ _ _ 0%Z) in Ex; destruct Ex as (_ & -> & _); auto.
  - exfalso. unfold set_flow in Ex. unfold edge_key in Hk. destruct (Nat.ltb_spec vertex v).
    + rewrite Nat.min_l, Nat.max_r in Hk by lia. destruct (lookup_in _ _ Hk) as (e1 & He1).
      rewrite He1 in Ex. cbn [bind] in Ex. apply lookup_ok in He1.
      destruct (upd_ok x e1 (fun _ => 1%Z)) as (r & Er & _); [|congruence].
      rewrite Hx. apply nth_error_Some. congruence.
    + rewrite Nat.min_r, Nat.max_l in Hk by lia. destruct (lookup_in _ _ Hk) as (e1 & He1).
      rewrite He1 in Ex. cbn [bind] in Ex. apply lookup_ok in He1.
      destruct (upd_ok x e1 (fun _ => (-1)%Z)) as (r & Er & _); [|congruence].
      rewrite Hx. apply nth_error_Some. congruence.
Qed.

End Walk.

Section Trajectory.
Context {D : Type} (dlt : D -> D -> bool) (dist : nat -> nat -> D).
Context (npoints : nat) (in_start in_end in_ckpt : nat -> bool).
Context (draw : nat -> nat -> nat) (coin : nat -> bool) (g : tgraph).

Lemma sample_ok inside k v : sample npoints draw inside k = Ok v -> v < npoints /\ inside v = true.
Proof.
  unfold sample. intros H. assert (Hi : In v (filter inside (seq 0 npoints))).
  { destruct (filter inside (seq 0 npoints)); [discriminate|]. apply get_ok, nth_error_In in H. auto. }
  apply filter_In in Hi as [Hi ?]. apply in_seq in Hi. split; [lia|auto].
Qed.

Lemma nth_repeat0 n e : nth e (repeat 0%Z n) 0%Z = 0%Z.
Proof. revert e; induction n as [|n IH]; intros [|e]; simpl; auto. Qed.

Lemma trajectory_spec tries : forall k x path, graph_inv g ->
  trajectory dlt dist npoints in_start in_end in_ckpt draw coin g tries k = Some (Ok (x, path)) ->
  exists s t, s < npoints /\ t < npoints /\ in_start s = true /\ in_end t = true /\
    starts path s /\ ends path t /\ NoDup path /\ walk_along (joined_in g) path /\ carries g x path.
Proof.
  induction tries as [|tries IH]; intros k x path GI H; [discriminate|]. cbn [trajectory] in H.
  destruct (let* s := sample npoints draw in_start k in _) as [[[s t] c]|e] eqn:Es; [|discriminate].
  apply bind_ok in Es as (s' & Hs & Es). apply bind_ok in Es as (t' & Ht & Es).
  apply bind_ok in Es as (c' & _ & Es). injection Es as -> -> ->.
  destruct (walk _ _ _ _ _ _ _ _ _ _ _ _ _ _ _) as [x1 p1|k1| |e] eqn:Ew; try discriminate.
  - injection H as -> ->. apply sample_ok in Hs as [? ?], Ht as [? ?].
    destruct (walk_spec dlt dist npoints draw coin g GI (S (length (g_nodes g))) (k + 3) t c s [] false
      (repeat 0%Z (length (g_edges g))) x path) with (4 := Ew)
      as (more & Hp & Hnd & He & Hc & Hw).
    + repeat constructor. intros [].
    + split; [apply repeat_length|]. split.
      * intros. simpl. apply nth_repeat0.
      * intros z Hz. apply repeat_spec in Hz. auto.
    + simpl. auto.
    + exists s, t. rewrite Hp in *. simpl in *. repeat split; auto; apply Hc.
  - apply (IH k1); auto.
Qed.

Lemma trajectory_no_raise tries : forall k e, graph_inv g ->
  (forall k n, 0 < n -> draw k n < n) -> (forall v, In v (g_nodes g) <-> v < npoints) ->
  (exists v, v < npoints /\ in_start v = true) -> (exists v, v < npoints /\ in_end v = true) ->
  (exists v, v < npoints /\ in_ckpt v = true) ->
  trajectory dlt dist npoints in_start in_end in_ckpt draw coin g tries k <> Some (Err e).
Proof.
  induction tries as [|tries IH]; intros k e GI Hd Hn H1 H2 H3 H; [discriminate|]. cbn [trajectory] in H.
  assert (HS : forall inside j, (exists v, v < npoints /\ inside v = true) ->
     exists v, sample npoints draw inside j = Ok v).
  { intros inside j (v & Hv & Hi). unfold sample.
    assert (HI : In v (filter inside (seq 0 npoints))) by (apply filter_In; rewrite in_seq; split; [lia|auto]).
    destruct (filter inside (seq 0 npoints)) as [|a l] eqn:Ef; [destruct HI|]. rewrite <- Ef in *.
    rewrite (get_nth _ _ 0); [eauto|]. apply Hd. rewrite Ef. simpl. lia. }
  destruct (HS in_start k H1) as (s & Es), (HS in_end (k + 1) H2) as (t & Et), (HS in_ckpt (k + 2) H3) as (c & Ec).
  rewrite Es, Et, Ec in H. cbn [bind] in H.
  destruct (walk _ _ _ _ _ _ _ _ _ _ _ _ _ _ _) as [x1 p1|k1| |e1] eqn:Ew; try discriminate.
  - apply (IH k1 e) in H; auto.
  - revert Ew. apply walk_no_raise; auto.
    + intros v; apply Hn.
    + apply Hn. apply sample_ok in Es. tauto.
    + apply repeat_length.
Qed.

End Trajectory.
