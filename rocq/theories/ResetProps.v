(** C86: [reset_parameters]. *)
From Coq Require Import List Arith Bool Lia.
From Verif Require Import Base.
From Verif Require Import ResetModel.
Import ListNotations.

(** * Specification *)

(** The call succeeds and sets every parameter of the modules [ms]. *)
Definition resets_all {N} (r : result (list N)) (ms : list (tmod N)) : Prop :=
  exists l, r = Ok l /\ forall p m, In m ms -> In p (tparams m) -> In p l.

(** A sequential network of linear layers, norms and activations. *)
Definition flat {N} (mlp : list (tmod N)) : Prop := forall m, In m mlp -> is_plain m = true.
Definition leaf {N} (m : tmod N) : Prop := is_leaf m = true.

Section Proofs.
  Context {N : Type}.
  Implicit Types (m c : tmod N) (ms cs : list (tmod N)).

  Lemma tcalls_err : forall pre m post,
    (forall c, In c pre -> thas c = true) -> thas m = false ->
    tcalls (pre ++ m :: post) = Err (A := list N) AttributeError.
  Proof.
    intros pre m post Hpre Hm. unfold tcalls.
    assert (E : mapM (tcall (N := N)) (pre ++ m :: post) = Err AttributeError).
    { induction pre as [|c pre IH]; cbn [app mapM].
      - unfold tcall at 1. rewrite Hm. reflexivity.
      - unfold tcall at 1. rewrite (Hpre c (or_introl eq_refl)). cbn [bind].
        rewrite IH by (intros; apply Hpre; now right). reflexivity. }
    rewrite E. reflexivity.
  Qed.

  (** Every module has the method and it sets all its parameters. *)
  Definition good m : Prop := thas m = true /\ incl (tparams m) (tset m).

  Lemma tcalls_ok : forall ms, (forall m, In m ms -> good m) -> resets_all (tcalls ms) ms.
  Proof.
    intros ms H. unfold tcalls.
    assert (E : exists l, mapM tcall ms = Ok l /\
      forall p m, In m ms -> In p (tparams m) -> In p (concat l)).
    { induction ms as [|c ms IH].
      - exists []. split; [reflexivity|]. intros p m [].
      - destruct IH as [l [El Hl]]; [intros; apply H; now right|].
        destruct (H c (or_introl eq_refl)) as [Hh Hi].
        exists (tset c :: l). cbn [mapM]. unfold tcall at 1. rewrite Hh. cbn [bind]. rewrite El.
        split; [reflexivity|]. intros p m [<-|Hm] Hp; cbn [concat]; apply in_or_app.
        + left. now apply Hi.
        + right. eapply Hl; eauto. }
    destruct E as [l [E Hl]]. rewrite E. exists (concat l). split; [reflexivity|exact Hl].
  Qed.

  Lemma good_leaf : forall m, leaf m -> good m.
  Proof. intros [] H; try discriminate H. split; [reflexivity|apply incl_refl]. Qed.

  Lemma plain_set : forall m, is_plain m = true -> tparams m = tset m.
  Proof. intros [] H; try discriminate H; reflexivity. Qed.

  Lemma flat_set : forall mlp, flat mlp -> flat_map tparams mlp = flat_map (@tset N) mlp.
  Proof.
    induction mlp as [|m mlp IH]; intros H; [reflexivity|]. cbn [flat_map].
    rewrite (plain_set m) by (apply H; now left). rewrite IH by (intros x Hx; apply H; now right).
    reflexivity.
  Qed.

  Lemma good_gin : forall mlp eps, flat mlp -> good (gin_conv mlp eps).
  Proof.
    intros mlp eps H. split; [reflexivity|]. intros p Hp.
    cbn [gin_conv tparams flat_map] in Hp. rewrite app_nil_r in Hp.
    cbn [gin_conv tset flat_map]. rewrite !app_nil_r in *.
    rewrite (flat_set mlp H) in Hp. destruct mlp; exact Hp.
  Qed.

  Lemma good_level : forall (nets : list (tmod N)) eps,
    (forall n, In n nets -> exists mlp, n = TGroup mlp /\ flat mlp \/ n = TBare) ->
    good (level nets eps).
  Proof.
    intros nets eps H. split; [reflexivity|]. intros p Hp. cbn [level tparams tset] in *. rewrite app_nil_r in Hp.
    apply in_app_or in Hp. apply in_or_app. destruct Hp as [Hp|Hp]; [left|now right].
    apply in_flat_map in Hp. destruct Hp as [n [Hn Hp]]. apply in_flat_map. exists n. split; auto.
    destruct (H n Hn) as [mlp [[-> Hf]| ->]]; [|contradiction].
    cbn [tparams] in Hp. rewrite (flat_set mlp Hf) in Hp. destruct mlp; exact Hp.
  Qed.

  Lemma good_oriented : forall up down own, is_plain up = true -> leaf down -> leaf own ->
    good (oriented_conv up down own).
  Proof.
    intros up down own Hu Hd Ho. split; [reflexivity|].
    destruct up; try discriminate Hu; destruct down; try discriminate Hd;
      destruct own; try discriminate Ho; cbn; apply incl_refl.
  Qed.

  Lemma good_jump : forall jump m, In m (jump_mod jump) -> good m.
  Proof.
    intros [] m H; [destruct H as [<-|[]]|destruct H]. split; [reflexivity|apply incl_refl].
  Qed.

  Lemma good_embed : forall v e, leaf v -> (forall x, e = Some x -> leaf x) ->
    good (embed_init v e).
  Proof.
    intros v e Hv He. split; [reflexivity|]. destruct v; try discriminate Hv.
    destruct e as [x|]; [specialize (He x eq_refl); destruct x; try discriminate He|];
      cbn; apply incl_refl.
  Qed.

  (** ** The networks that can be reset *)

  Theorem C86_graph_networks_reset : forall (conv1 : tmod N) convs jump (lin1 lin2 : tmod N),
    (forall c, In c (conv1 :: convs) -> exists mlp eps, c = gin_conv mlp eps /\ flat mlp) ->
    leaf lin1 -> leaf lin2 ->
    resets_all (gin_reset conv1 convs jump lin1 lin2) (conv1 :: convs ++ [lin1; lin2]).
  Proof.
    intros conv1 convs jump lin1 lin2 Hc H1 H2. unfold gin_reset.
    destruct (tcalls_ok ([conv1] ++ convs ++ jump_mod jump ++ [lin1; lin2])) as [l [E Hl]].
    - intros m Hm. cbn [app] in Hm. destruct Hm as [<-|Hm].
      { destruct (Hc conv1 (or_introl eq_refl)) as [mlp [eps [-> Hf]]]. now apply good_gin. }
      apply in_app_or in Hm. destruct Hm as [Hm|Hm].
      { destruct (Hc m (or_intror Hm)) as [mlp [eps [-> Hf]]]. now apply good_gin. }
      apply in_app_or in Hm. destruct Hm as [Hm|[<-|[<-|[]]]];
        [now apply good_jump with jump|now apply good_leaf|now apply good_leaf].
    - exists l. split; [exact E|]. intros p m Hm Hp. apply (Hl p m); auto. cbn [app].
      destruct Hm as [<-|Hm]; [now left|]. right. apply in_app_or in Hm. apply in_or_app.
      destruct Hm as [Hm|Hm]; [now left|right]. apply in_or_app. now right.
  Qed.

  Theorem C86_ring_gin_reset : forall (init conv1 : tmod N) convs (lin1 : tmod N),
    leaf init -> (forall c, In c (conv1 :: convs) -> exists mlp eps, c = gin_conv mlp eps /\ flat mlp) ->
    leaf lin1 ->
    resets_all (ring_gin_reset init conv1 convs lin1) (init :: conv1 :: convs ++ [lin1]).
  Proof.
    intros init conv1 convs lin1 H0 Hc H1. unfold ring_gin_reset. apply tcalls_ok.
    intros m [<-|[<-|Hm]].
    - now apply good_leaf.
    - destruct (Hc conv1 (or_introl eq_refl)) as [mlp [eps [-> Hf]]]. now apply good_gin.
    - apply in_app_or in Hm. destruct Hm as [Hm|[<-|[]]]; [|now apply good_leaf].
      destruct (Hc m (or_intror Hm)) as [mlp [eps [-> Hf]]]. now apply good_gin.
  Qed.

  Theorem C86_embed_gin_reset : forall convs (v : tmod N) e (lin1 lin2 : tmod N),
    (forall c, In c convs -> exists mlp eps, c = gin_conv mlp eps /\ flat mlp) ->
    leaf v -> (forall x, e = Some x -> leaf x) -> leaf lin1 -> leaf lin2 ->
    resets_all (embed_gin_reset convs (embed_init v e) lin1 lin2)
      (convs ++ [embed_init v e; lin1; lin2]).
  Proof.
    intros convs v e lin1 lin2 Hc Hv He H1 H2. unfold embed_gin_reset. apply tcalls_ok.
    intros m Hm. apply in_app_or in Hm. destruct Hm as [Hm|[<-|[<-|[<-|[]]]]].
    - destruct (Hc m Hm) as [mlp [eps [-> Hf]]]. now apply good_gin.
    - now apply good_embed.
    - now apply good_leaf.
    - now apply good_leaf.
  Qed.

  Theorem C86_edge_networks_reset : forall convs jump (lin1 lin2 : tmod N),
    (forall c, In c convs -> exists up down own,
       c = oriented_conv up down own /\ is_plain up = true /\ leaf down /\ leaf own) ->
    leaf lin1 -> leaf lin2 ->
    resets_all (edge_reset convs jump lin1 lin2) (convs ++ [lin1; lin2]).
  Proof.
    intros convs jump lin1 lin2 Hc H1 H2. unfold edge_reset.
    destruct (tcalls_ok (convs ++ jump_mod jump ++ [lin1; lin2])) as [l [E Hl]].
    - intros m Hm. apply in_app_or in Hm. destruct Hm as [Hm|Hm].
      { destruct (Hc m Hm) as [up [down [own [-> [Hu [Hd Ho]]]]]]. now apply good_oriented. }
      apply in_app_or in Hm. destruct Hm as [Hm|[<-|[<-|[]]]];
        [now apply good_jump with jump|now apply good_leaf|now apply good_leaf].
    - exists l. split; [exact E|]. intros p m Hm Hp. apply (Hl p m); auto.
      apply in_app_or in Hm. apply in_or_app. destruct Hm as [Hm|Hm]; [now left|right].
      apply in_or_app. now right.
  Qed.

  Theorem C86_parameter_free_networks_reset : forall (lin0s : list (tmod N)) (lin1 lin2 lin : tmod N),
    (forall m, In m lin0s -> leaf m) -> leaf lin1 -> leaf lin2 -> leaf lin ->
    resets_all (agnostic_reset lin0s lin1 lin2) (lin0s ++ [lin1; lin2]) /\
    resets_all (dummy_reset lin) [lin].
  Proof.
    intros lin0s lin1 lin2 lin H0 H1 H2 H3. split; apply tcalls_ok; intros m Hm.
    - apply in_app_or in Hm. destruct Hm as [Hm|[<-|[<-|[]]]]; apply good_leaf; auto.
    - destruct Hm as [<-|[]]. now apply good_leaf.
  Qed.

  (** ** The cellular networks cannot *)

  (** A level of a convolution can be reset (its constructor does so); the
      convolution around the levels has no such method. *)
  Theorem C86_levels_reset : forall (nets : list (tmod N)) eps,
    (forall n, In n nets -> exists mlp, n = TGroup mlp /\ flat mlp \/ n = TBare) ->
    resets_all (tcall (level nets eps)) [level nets eps].
  Proof.
    intros nets eps H. destruct (good_level nets eps H) as [Hh Hi].
    exists (tset (level nets eps)). split; [reflexivity|].
    intros p m [<-|[]] Hp. now apply Hi.
  Qed.

  (** The method of a CIN++ level is inherited: the networks for lower messages and
      [eps3] keep their values. *)
  Theorem C86_cinpp_level_refuted : forall (nets downs : list (tmod N)) eps eps3,
    (forall n, In n nets -> exists mlp, n = TGroup mlp /\ flat mlp \/ n = TBare) ->
    exists l, tcall (cinpp_level nets downs eps eps3) = Ok l /\
      (forall p, In p l <-> In p eps \/ exists n, In n nets /\ In p (tparams n)) /\
      (forall p, In p (tparams (cinpp_level nets downs eps eps3)) <->
                 In p l \/ In p eps3 \/ exists n, In n downs /\ In p (tparams n)).
  Proof.
    intros nets downs eps eps3 H. exists (tset (level nets eps)). split; [reflexivity|].
    assert (E : forall p, In p (tset (level nets eps)) <-> In p eps \/ exists n, In n nets /\ In p (tparams n)).
    { intros p. cbn [level tset]. rewrite in_app_iff, in_flat_map. split.
      - intros [[n [Hn Hp]]|Hp]; [right|now left]. exists n. split; auto.
        destruct (H n Hn) as [mlp [[-> Hf]| ->]]; [|contradiction].
        cbn [tparams]. rewrite (flat_set mlp Hf). destruct mlp; exact Hp.
      - intros [Hp|[n [Hn Hp]]]; [now right|left]. exists n. split; auto.
        destruct (H n Hn) as [mlp [[-> Hf]| ->]]; [|contradiction].
        cbn [tparams] in Hp. rewrite (flat_set mlp Hf) in Hp. destruct mlp; exact Hp. }
    split; [exact E|]. intros p. rewrite E. cbn [cinpp_level tparams].
    rewrite !in_app_iff, !in_flat_map. firstorder.
  Qed.

  Theorem C86_cellular_networks_refuted : forall (levels rest : list (tmod N)) jump lin1 lin2 lin1s tops init,
    leaf init ->
    let convs := cell_conv levels :: rest in
    cin0_reset convs jump lin1 lin2 = Err (A := list N) AttributeError /\
    edge_cin0_reset convs jump lin1 lin2 tops = Err (A := list N) AttributeError /\
    sparse_reset convs jump lin1s lin2 = Err (A := list N) AttributeError /\
    (forall i, embed_reset convs jump i lin1s lin2 = Err (A := list N) AttributeError) /\
    ring_reset init convs lin1 = Err (A := list N) AttributeError.
  Proof.
    intros levels rest jump lin1 lin2 lin1s tops init Hi convs.
    repeat split.
    assert (E : thas init = true) by (apply good_leaf; exact Hi).
    apply (tcalls_err [init] (cell_conv levels)); [|reflexivity].
    intros c [<-|[]]. exact E.
  Qed.

  (** Not even without layers: [self.lin1s] is a ModuleList. *)
  Theorem C86_module_list_refuted : forall jump (lin1s : list (tmod N)) lin2 v e,
    sparse_reset [] jump lin1s lin2 = Err (A := list N) AttributeError /\
    embed_reset [] jump (embed_init v e) lin1s lin2 = Err (A := list N) AttributeError.
  Proof. intros [] lin1s lin2 v e; split; reflexivity. Qed.

  (** CIN0 and RingSparseCIN without layers can be reset. *)
  Theorem C86_no_layers_reset : forall jump (init lin1 lin2 : tmod N),
    leaf init -> leaf lin1 -> leaf lin2 ->
    resets_all (cin0_reset [] jump lin1 lin2) [lin1; lin2] /\
    resets_all (ring_reset init [] lin1) [init; lin1].
  Proof.
    intros jump init lin1 lin2 H0 H1 H2. split.
    - unfold cin0_reset. destruct (tcalls_ok ([] ++ jump_mod jump ++ [lin1; lin2])) as [l [E Hl]].
      + intros m Hm. cbn [app] in Hm. apply in_app_or in Hm.
        destruct Hm as [Hm|[<-|[<-|[]]]];
          [now apply good_jump with jump|now apply good_leaf|now apply good_leaf].
      + exists l. split; [exact E|]. intros p m Hm Hp. apply (Hl p m); auto. cbn [app].
        apply in_or_app. now right.
    - apply tcalls_ok. intros m [<-|[<-|[]]]; now apply good_leaf.
  Qed.

  (** The encoders of OGB would be passed over: the method of [init_conv] succeeds
      and sets nothing. *)
  Theorem C86_ogb_encoders_skipped : forall atoms bonds : list (tmod N),
    tcall (embed_init (ogb_encoder atoms) (Some (ogb_encoder bonds))) = Ok (@nil N).
  Proof. reflexivity. Qed.
End Proofs.

Print Assumptions C86_graph_networks_reset.
Print Assumptions C86_ring_gin_reset.
Print Assumptions C86_embed_gin_reset.
Print Assumptions C86_edge_networks_reset.
Print Assumptions C86_parameter_free_networks_reset.
Print Assumptions C86_levels_reset.
Print Assumptions C86_cinpp_level_refuted.
Print Assumptions C86_cellular_networks_refuted.
Print Assumptions C86_module_list_refuted.
Print Assumptions C86_no_layers_reset.
Print Assumptions C86_ogb_encoders_skipped.

(** * Examples *)
Definition ex_mlp (k : nat) : list (tmod nat) :=
  [TLeaf [k; k + 1]; TLeaf [k + 2; k + 3]; TBare; TLeaf [k + 4; k + 5]; TLeaf [k + 6; k + 7]; TBare].

Lemma ex_mlp_flat : forall k, flat (ex_mlp k).
Proof. intros k m H. repeat (destruct H as [<-|H]; [reflexivity|]). destruct H. Qed.

(** GIN with two convolutions: 18 tensors in the convolutions, 4 in the linear layers. *)
Example C86_ex_gin :
  gin_reset (gin_conv (ex_mlp 0) [100]) [gin_conv (ex_mlp 10) [101]] true (TLeaf [200; 201]) (TLeaf [202; 203])
  = Ok ([0; 1; 2; 3; 4; 5; 6; 7; 100] ++ [10; 11; 12; 13; 14; 15; 16; 17; 101] ++ [200; 201; 202; 203]).
Proof. vm_compute. reflexivity. Qed.

Example C86_ex_edge_mpnn :
  edge_reset [oriented_conv TBare (TLeaf [1]) (TLeaf [2])] false (TLeaf [3; 4]) (TLeaf [5; 6])
  = Ok [1; 2; 3; 4; 5; 6].
Proof. vm_compute. reflexivity. Qed.

(** A level sets its networks and its eps; the network around it raises. *)
Example C86_ex_sparse :
  let l := level [TBare; TBare; TGroup (ex_mlp 0); TGroup (ex_mlp 10); TGroup (ex_mlp 20)] [100; 101] in
  tcall l = Ok ([0; 1; 2; 3; 4; 5; 6; 7] ++ [10; 11; 12; 13; 14; 15; 16; 17] ++
                [20; 21; 22; 23; 24; 25; 26; 27] ++ [100; 101]) /\
  sparse_reset [cell_conv [l]] false [TLeaf [200]] (TLeaf [201; 202]) = Err AttributeError.
Proof. vm_compute. split; reflexivity. Qed.

(** The lower networks (30 to 37) and the third eps of a CIN++ level stay. *)
Example C86_ex_cinpp :
  tcall (cinpp_level [TGroup (ex_mlp 0); TGroup (ex_mlp 10)] [TGroup (ex_mlp 30)] [100; 101] [102])
  = Ok ([0; 1; 2; 3; 4; 5; 6; 7] ++ [10; 11; 12; 13; 14; 15; 16; 17] ++ [100; 101]).
Proof. vm_compute. reflexivity. Qed.

(** The hypotheses of the theorems hold of the networks above. *)
Example C86_ex_hypotheses :
  flat (ex_mlp 3) /\ leaf (TLeaf [1; 2]) /\ is_plain (TBare (N := nat)) = true.
Proof. repeat split. apply ex_mlp_flat. Qed.
