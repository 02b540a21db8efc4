(** The table of LaunchSpec against the model of the start of an experiment. *)
From Coq Require Import String Ascii List ZArith Lia Bool Btauto.
From Verif Require Import Base LaunchModel LaunchSpec.
Import ListNotations.
Open Scope string_scope.

Definition ok {A} (r : result A) : bool := match r with Ok _ => true | Err _ => false end.

Lemma ok_bind_unit {B} (m : result unit) (k : unit -> result B) :
  ok (bind m k) = ok m && ok (k tt).
Proof. destruct m as [[]|e]; reflexivity. Qed.

Lemma ok_assert b : ok (assert_ b) = b.
Proof. destruct b; reflexivity. Qed.

Lemma ok_iff {A} (r : result A) : ok r = true <-> exists s, r = Ok s.
Proof.
  destruct r; cbn; split; intros H; try discriminate; eauto. destruct H; discriminate.
Qed.

Lemma among_In s l : among s l = true <-> In s l.
Proof.
  unfold among. rewrite existsb_exists. split.
  - intros (x & Hx & E). apply String.eqb_eq in E. now subst.
  - intros H. exists s. split; [easy|apply String.eqb_refl].
Qed.

Lemma startswith_iff s p : startswith s p = true <-> exists rest, s = p ++ rest.
Proof.
  unfold startswith. revert s. induction p as [|c p IH]; intros s.
  - cbn. destruct s; split; eauto.
  - destruct s as [|d s]; cbn.
    + split; [discriminate|]. intros (rest & E). discriminate.
    + destruct (ascii_dec c d) as [->|N].
      * rewrite IH. split; intros (rest & E); exists rest; [now rewrite E|now injection E].
      * split; [discriminate|]. intros (rest & E). injection E. congruence.
Qed.

Lemma ok_nonlin s : ok (get_nonlinearity s) = among s ["relu"; "elu"; "id"; "sigmoid"; "tanh"].
Proof. unfold get_nonlinearity, among. cbn. repeat (destruct (s =? _); [reflexivity|]). reflexivity. Qed.
Lemma ok_pool s : ok (get_pooling_fn s) = among s ["sum"; "mean"].
Proof. unfold get_pooling_fn, among. cbn. repeat (destruct (s =? _); [reflexivity|]). reflexivity. Qed.
Lemma ok_norm s : ok (get_graph_norm s) = among s ["bn"; "ln"; "id"].
Proof. unfold get_graph_norm, among. cbn. repeat (destruct (s =? _); [reflexivity|]). reflexivity. Qed.
Lemma ok_orient s : ok (check_orient s) = among s ["default"; "random"].
Proof. unfold check_orient. destruct (among s _); reflexivity. Qed.
Lemma ok_init s : ok (check_init s) = among s reductions.
Proof. unfold check_init, scatter_known, reductions. destruct (among s _); reflexivity. Qed.
Lemma ok_eval w s :
  ok (evaluator w s) =
  among s ["isomorphism"; "accuracy"; "ap"; "mae"] || (startswith s "ogbg-mol" && w_ogb w s).
Proof.
  unfold evaluator, among. cbn [existsb].
  repeat (destruct (s =? _); [reflexivity|]). cbn [orb].
  destruct (startswith s _); [|reflexivity]. destruct (w_ogb w s); reflexivity.
Qed.
Definition jumpb (j : option string) : bool :=
  match j with None => true | Some m => among (lower m) ["cat"; "lstm"; "max"] && negb (m =? "lstm") end.
Lemma ok_jump j : ok (jumping j) = jumpb j.
Proof. destruct j as [m|]; [|reflexivity]. cbn [jumping jumpb]. now rewrite ok_bind_unit, !ok_assert. Qed.
Lemma ok_sched a : ok (scheduler a) = among (a_sched a) ["ReduceLROnPlateau"; "StepLR"; "None"].
Proof. unfold scheduler, among. cbn. repeat (destruct (a_sched a =? _); [reflexivity|]). reflexivity. Qed.

(** Boolean versions of the table. *)
Definition fold_belowb (n : Z) (a : args) : bool :=
  match a_fold a with Some k => (0 <=? k)%Z && (k <? n)%Z | None => false end.
Definition rocb (a : args) : bool :=
  among (a_init a) reductions &&
  match a_ring a with
  | Some k => (3 <? k)%Z && Nat.eqb (a_max_dim a) 2
  | None => Nat.leb 1 (a_max_dim a)
  end.
Definition graphsb (a : args) : bool := among (a_model a) graph_nets.
Definition orientb (a : args) : bool :=
  among (a_train_orient a) ["default"; "random"] && among (a_test_orient a) ["default"; "random"].
Definition data_okb (w : world) (a : args) (f : family) : bool :=
  match f with
  | TU _ _ => fold_belowb 10 a && (graphsb a || rocb a)
  | SR => rocb a
  | CSL => fold_belowb 5 a && isSome (a_ring a)
  | Transfer | Lookup => gt3 (a_ring a)
  | Zinc => isSome (a_ring a)
  | Mol _ => isSome (a_ring a) && among (a_init a) reductions
  | Flow => ok (w_flow w) && orientb a
  | Ocean => orientb a
  | Toy _ => true
  | Pep _ => if graphsb a then ok (w_pep w) else isSome (a_ring a) && among (a_init a) reductions
  end.
Definition net_okb (a : args) : bool :=
  (implb (among (a_model a)
     ["cin"; "sparse_cin"; "cin++"; "dummy"; "edge_orient"; "edge_mpnn"; "embed_gin"; "gin"; "gin_jk"])
     (among (a_readout a) ["sum"; "mean"])) &&
  (implb (among (a_model a)
     ["sparse_cin"; "cin++"; "ring_sparse_cin"; "gin_ring"; "embed_sparse_cin";
      "embed_cin++"; "embed_sparse_cin_no_rings"; "ogb_embed_sparse_cin"; "ogb_embed_cin++"])
     (among (a_norm a) ["bn"; "ln"; "id"])) &&
  (implb (among (a_model a)
     ["cin"; "sparse_cin"; "cin++"; "embed_sparse_cin"; "embed_cin++";
      "ogb_embed_sparse_cin"; "ogb_embed_cin++"]) (jumpb (a_jump a))) &&
  (implb (negb (a_model a =? "dummy") &&
          implb (among (a_model a) ["edge_orient"; "edge_mpnn"]) (negb (Nat.eqb (a_layers a) 0)))
     (among (a_nonlin a) ["relu"; "elu"; "id"; "sigmoid"; "tanh"])) &&
  (graphsb a || negb (a_tune a)).
Definition mol_metricb (a : args) : bool :=
  existsb (fun p => (a_dataset a =? fst p) && (a_metric a =? snd p)) metrics_of_ogb.
Definition policyb (a : args) (f : family) : bool :=
  match f with
  | TU _ _ | Toy _ | Pep _ => true
  | CSL => (a_task a =? "classification") && negb (a_minimize a) && (a_metric a =? "accuracy") &&
           (a_sched a =? "ReduceLROnPlateau") && negb (a_simple a) && (a_norm a =? "ln")
  | Transfer | Lookup =>
      (a_task a =? "classification") && negb (a_minimize a) && (a_metric a =? "accuracy") &&
      (a_sched a =? "None") && negb (a_simple a) && negb (isSome (a_fold a)) &&
      (a_norm a =? (if a_model a =? "gin_ring" then "bn" else "id"))
  | Zinc => (a_task a =? "regression") && a_minimize a && (a_metric a =? "mae") &&
            (a_sched a =? "ReduceLROnPlateau") && negb (a_simple a) &&
            implb (a_model a =? "embed_cin++") (a_down a)
  | Mol cost =>
      mol_metricb a && negb (isSome (a_jump a)) && Bool.eqb (a_minimize a) cost &&
      (a_task a =? (if cost then "mse_regression" else "bin_classification")) &&
      implb (a_model a =? "ogb_embed_cin++") (a_down a)
  | SR => (a_task a =? "isomorphism") && (a_metric a =? "isomorphism") && negb (isSome (a_jump a)) &&
          a_drop0 a && a_untrained a && (a_nonlin a =? "elu") && (a_readout a =? "sum") &&
          (a_final a =? "sum") && negb (a_simple a)
  | Flow | Ocean =>
      (a_task a =? "classification") && negb (a_minimize a) && (a_metric a =? "accuracy") &&
      negb (isSome (a_jump a)) && a_drop0 a && negb (a_untrained a) && negb (a_simple a)
  end.
Definition is_sr (f : family) : bool := match f with SR => true | _ => false end.
Definition commonb (w : world) (a : args) (f : family) : bool :=
  (among (a_metric a) ["isomorphism"; "accuracy"; "ap"; "mae"] ||
   (startswith (a_metric a) "ogbg-mol" && w_ogb w (a_metric a))) &&
  among (a_sched a) ["ReduceLROnPlateau"; "StepLR"; "None"] &&
  implb (a_task a =? "isomorphism") (is_sr f).
Definition rowb (w : world) (a : args) (f : family) : bool :=
  among (a_model a) (nets_of f) && data_okb w a f && net_okb a && policyb a f && commonb w a f.
Definition row (w : world) (a : args) (f : family) : Prop :=
  In (a_model a) (nets_of f) /\ data_ok w a f /\ net_ok a /\ policy a f /\ common w a f.

Lemma implb_iff b c (P Q : Prop) :
  (b = true <-> P) -> (c = true <-> Q) -> (implb b c = true <-> (P -> Q)).
Proof. destruct b, c; cbn; intuition congruence. Qed.
Lemma andb_iff b c (P Q : Prop) :
  (b = true <-> P) -> (c = true <-> Q) -> (b && c = true <-> P /\ Q).
Proof. destruct b, c; cbn; intuition congruence. Qed.
Lemma orb_iff b c (P Q : Prop) :
  (b = true <-> P) -> (c = true <-> Q) -> (b || c = true <-> P \/ Q).
Proof. destruct b, c; cbn; intuition congruence. Qed.
Lemma negb_iff b (P : Prop) : (b = true <-> P) -> (negb b = true <-> ~ P).
Proof. destruct b; cbn; intuition congruence. Qed.
Lemma orb_imp b c (P Q : Prop) :
  (b = true <-> P) -> (c = true <-> Q) -> (b || c = true <-> (~ P -> Q)).
Proof. destruct b, c; cbn; intuition congruence. Qed.
Lemma isSome_iff {A} (o : option A) : isSome o = true <-> o <> None.
Proof. destruct o; cbn; intuition congruence. Qed.
Lemma isNone_iff {A} (o : option A) : negb (isSome o) = true <-> o = None.
Proof. destruct o; cbn; intuition congruence. Qed.
Lemma negb_eq b : negb b = true <-> b = false.
Proof. destruct b; cbn; intuition congruence. Qed.
Lemma ok_tt (r : result unit) : ok r = true <-> r = Ok tt.
Proof. destruct r as [[]|]; cbn; intuition congruence. Qed.

Lemma fold_iff n a : fold_belowb n a = true <-> fold_below n a.
Proof.
  unfold fold_belowb, fold_below. destruct (a_fold a) as [k|].
  - rewrite andb_true_iff, Z.leb_le, Z.ltb_lt. split; [eauto|]. intros (k' & E & H). injection E as <-. easy.
  - split; [discriminate|]. intros (k' & E & _). discriminate.
Qed.
Lemma gt3_iff o : gt3 o = true <-> exists k, o = Some k /\ (3 < k)%Z.
Proof.
  destruct o as [k|]; cbn [gt3].
  - rewrite Z.ltb_lt. split; [eauto|]. intros (k' & E & H). now injection E as <-.
  - split; [discriminate|]. intros (k' & E & _). discriminate.
Qed.
Lemma roc_iff a : rocb a = true <-> rings_or_cliques a.
Proof.
  unfold rocb, rings_or_cliques. rewrite andb_true_iff, among_In.
  destruct (a_ring a) as [k|].
  - rewrite andb_true_iff, Z.ltb_lt, Nat.eqb_eq. split.
    + intros (H & H1 & H2). split; [easy|]. left. eauto.
    + intros (H & [(k' & E & H1 & H2)|(E & _)]); [|discriminate]. injection E as <-. auto.
  - rewrite Nat.leb_le. split.
    + intros (H & H1). auto.
    + intros (H & [(k' & E & _)|(_ & H1)]); [discriminate|]. auto.
Qed.
Lemma lower_char_spells c d : (97 <= nat_of_ascii d <= 122)%nat ->
  lower_char c = d <-> (c = d \/ (nat_of_ascii c + 32 = nat_of_ascii d)%nat).
Proof.
  intros Hd. unfold lower_char.
  destruct ((65 <=? nat_of_ascii c) && (nat_of_ascii c <=? 90))%nat eqn:E.
  - apply andb_true_iff in E as [E1 E2]. apply Nat.leb_le in E1, E2. split.
    + intros <-. right. now rewrite nat_ascii_embedding by lia.
    + intros [->|H]; [lia|]. rewrite H. apply ascii_nat_embedding.
  - split; [auto|]. intros [->|H]; [reflexivity|]. exfalso.
    apply andb_false_iff in E. rewrite !Nat.leb_gt in E. lia.
Qed.
Fixpoint small (t : string) : Prop :=
  match t with EmptyString => True | String d t => (97 <= nat_of_ascii d <= 122)%nat /\ small t end.
Lemma lower_spells t : small t -> forall m, lower m = t <-> spells m t.
Proof.
  induction t as [|d t IH]; intros Hs [|c m]; cbn [lower spells]; try (split; [discriminate|tauto]); [tauto|].
  destruct Hs as [Hd Hs]. rewrite <- (lower_char_spells c d Hd), <- (IH Hs m). split.
  - intros H. injection H. auto.
  - intros [-> ->]. reflexivity.
Qed.
Lemma jump_iff j : jumpb j = true <-> forall m, j = Some m ->
  (spells m "cat" \/ spells m "lstm" \/ spells m "max") /\ m <> "lstm".
Proof.
  destruct j as [m|]; cbn [jumpb].
  - rewrite andb_true_iff, among_In, negb_eq, String.eqb_neq.
    assert (Q : In (lower m) ["cat"; "lstm"; "max"] <-> lower m = "cat" \/ lower m = "lstm" \/ lower m = "max")
      by (cbn [In]; intuition congruence).
    rewrite (lower_spells "cat"), (lower_spells "lstm"), (lower_spells "max") in Q by (cbn; lia).
    rewrite Q. split.
    + intros H m' E. injection E as <-. exact H.
    + intros H. exact (H m eq_refl).
  - split; [|easy]. intros _ m E. discriminate.
Qed.
Lemma metric_iff a : mol_metricb a = true <-> In (a_dataset a, a_metric a) metrics_of_ogb.
Proof.
  unfold mol_metricb. rewrite existsb_exists. split.
  - intros ([n m] & Hin & E). rewrite andb_true_iff, !String.eqb_eq in E. cbn in E.
    destruct E as [-> ->]. exact Hin.
  - intros H. exists (a_dataset a, a_metric a). split; [easy|]. cbn. now rewrite !String.eqb_refl.
Qed.

Lemma orient_iff a : orientb a = true <->
  In (a_train_orient a) ["default"; "random"] /\ In (a_test_orient a) ["default"; "random"].
Proof. unfold orientb. apply andb_iff; apply among_In. Qed.

Lemma data_iff w a f : data_okb w a f = true <-> data_ok w a f.
Proof.
  destruct f; cbn [data_okb data_ok]; try exact (roc_iff a); try exact (isSome_iff _);
    try exact (gt3_iff _); try exact (orient_iff a).
  - apply andb_iff; [apply fold_iff|]. apply orb_imp; [apply among_In|apply roc_iff].
  - apply andb_iff; [apply fold_iff|apply isSome_iff].
  - apply andb_iff; [apply isSome_iff|apply among_In].
  - apply andb_iff; [apply ok_tt|apply orient_iff].
  - easy.
  - unfold on_graphs. rewrite <- (among_In (a_model a)). change (among (a_model a) graph_nets) with (graphsb a).
    destruct (graphsb a).
    + rewrite ok_tt. intuition congruence.
    + rewrite andb_true_iff, isSome_iff, among_In. intuition congruence.
Qed.

Lemma net_iff a : net_okb a = true <-> net_ok a.
Proof.
  unfold net_okb, net_ok. rewrite <- !and_assoc.
  repeat apply andb_iff.
  - apply implb_iff; apply among_In.
  - apply implb_iff; apply among_In.
  - apply implb_iff; [apply among_In|apply jump_iff].
  - rewrite (implb_iff _ _ (a_model a <> "dummy" /\ (In (a_model a) ["edge_orient"; "edge_mpnn"] -> a_layers a <> 0))
      (In (a_nonlin a) ["relu"; "elu"; "id"; "sigmoid"; "tanh"])).
    + tauto.
    + apply andb_iff.
      * apply negb_iff. apply String.eqb_eq.
      * apply implb_iff; [apply among_In|]. apply negb_iff. apply Nat.eqb_eq.
    + apply among_In.
  - apply orb_imp; [apply among_In|apply negb_eq].
Qed.

Lemma policy_iff a f : policyb a f = true <-> policy a f.
Proof.
  destruct f; cbn [policyb policy]; try (split; easy); rewrite <- ?and_assoc;
    repeat apply andb_iff; try apply String.eqb_eq; try apply negb_eq; try apply isNone_iff;
    try apply metric_iff; try reflexivity;
    try (apply implb_iff; [apply String.eqb_eq|reflexivity]).
  apply Bool.eqb_true_iff.
Qed.

Lemma common_iff w a f : commonb w a f = true <-> common w a f.
Proof.
  unfold commonb, common. rewrite <- !and_assoc. repeat apply andb_iff.
  - apply orb_iff; [apply among_In|]. apply andb_iff; [apply startswith_iff|reflexivity].
  - apply among_In.
  - apply implb_iff; [apply String.eqb_eq|]. destruct f; cbn; intuition congruence.
Qed.

Lemma row_iff w a f : rowb w a f = true <-> row w a f.
Proof.
  unfold rowb, row. rewrite !andb_true_iff, among_In, data_iff, net_iff, policy_iff, common_iff. tauto.
Qed.

(** ** One family at a time *)
Definition known_nets : list string := plain_nets ++ graph_nets ++ embed_nets ++ ogb_nets.

Ltac norm :=
  cbn [bind]; rewrite ?ok_bind_unit, ?ok_assert, ?ok_nonlin, ?ok_pool, ?ok_norm, ?ok_orient, ?ok_init,
    ?ok_eval, ?ok_jump, ?ok_sched.

Lemma implb_false_r b : implb b false = negb b.
Proof. destruct b; reflexivity. Qed.
Lemma implb_true_r b : implb b true = true.
Proof. destruct b; reflexivity. Qed.

Ltac consts :=
  repeat match goal with
  | |- context [among (String ?c ?s) ?l] =>
      let v := eval vm_compute in (among (String c s) l) in
      change (among (String c s) l) with v
  | |- context [String ?c ?s =? String ?c' ?s'] =>
      let v := eval vm_compute in (String c s =? String c' s') in
      change (String c s =? String c' s') with v
  end.
Ltac bools :=
  repeat match goal with
  | |- context [among ?x ?l] => destruct (among x l)
  | |- context [isSome ?x] => destruct (isSome x)
  end;
  repeat match goal with
  | |- context [jumpb ?x] => destruct (jumpb x)
  | |- context [?x =? ?y] => destruct (x =? y)
  end; try reflexivity.

Ltac consts2 :=
  repeat match goal with
  | |- context [startswith (String ?c ?s) ?l] =>
      let v := eval vm_compute in (startswith (String c s) l) in
      match v with true => idtac | false => idtac end;
      change (startswith (String c s) l) with v
  end; consts.

Ltac close :=
  cbn [andb orb negb implb Bool.eqb isSome gt3 ok is_sr ring_size of_option bind assert_]; norm;
  cbn [andb orb negb implb ok]; rewrite ?implb_false_r, ?implb_true_r; try btauto.


Section Fam.
Variable w : world.
Variable a : args.

(** The end of [setup], once the data is there. *)
Definition finish (d : dsinfo) : result session :=
  let* _ := splits a d in
  let* _ := evaluator w (a_metric a) in
  let* n := match build_net w a d with Some r => r | None => Err ValueError end in
  let* s := scheduler a in
  Ok (mkSession n s (i_test d) (Some (i_lift d))).
Definition gfinish (test : bool) (feats : nat) (classes : option nat) : result session :=
  let* _ := evaluator w (a_metric a) in
  let* n := match build_gin a feats classes with Some r => r | None => Err ValueError end in
  let* s := scheduler a in
  Ok (mkSession n s test None).

Lemma ok_end {A} (r : result A) (k : A -> option string -> session) :
  ok (let* n := r in let* s := scheduler a in Ok (k n s)) = ok r && ok (scheduler a).
Proof. destruct r as [n|e]; cbn; [|reflexivity]. destruct (scheduler a); reflexivity. Qed.

Definition buildb (d : dsinfo) : bool :=
  among (a_model a) (plain_nets ++ embed_nets ++ ogb_nets) &&
  implb (among (a_model a) (firstn 6 plain_nets)) (i_complexes d) &&
  implb (among (a_model a) embed_nets) (isSome (i_node_types d) && isSome (i_edge_types d)) &&
  implb (among (a_model a) ogb_nets) (isSome (i_tasks d)) &&
  implb (among (a_model a) (plain_nets ++ embed_nets)) (isSome (i_classes d)).

Lemma ok_build d :
  a_tune a = false ->
  ok (match build_net w a d with Some r => r | None => Err ValueError end) = buildb d && net_okb a.
Proof.
  intros Ht. unfold buildb, net_okb, graphsb. rewrite Ht. unfold build_net.
  unfold num_features0, linear_out, attr, embed_reads, of_option.
  repeat match goal with
  | |- context [if a_model a =? ?m then _ else _] =>
    destruct (String.eqb_spec (a_model a) m) as [E|];
    [ rewrite ?E; consts; cbv iota; cbn [negb implb andb orb];
      repeat match goal with
      | |- context [i_complexes d] => destruct (i_complexes d)
      | |- context [i_classes d] => destruct (i_classes d) as [o|]
      | |- context [i_node_types d] => destruct (i_node_types d)
      | |- context [i_edge_types d] => destruct (i_edge_types d)
      | |- context [i_tasks d] => destruct (i_tasks d)
      | |- context [a_layers a] => destruct (a_layers a)
      end;
      cbn [bind isSome Nat.eqb negb implb andb orb]; norm; cbn [ok andb]; now bools
    | ]
  end.
  cbn [ok]. unfold among at 1. cbn [plain_nets embed_nets ogb_nets app existsb].
  rewrite !(fun m => proj2 (String.eqb_neq (a_model a) m)) by assumption. reflexivity.
Qed.

Lemma ok_gin feats classes :
  ok (match build_gin a feats classes with Some r => r | None => Err ValueError end) =
  among (a_model a) graph_nets && isSome classes && net_okb a.
Proof.
  unfold net_okb, graphsb, build_gin, linear_out, of_option.
  repeat match goal with
  | |- context [if a_model a =? ?m then _ else _] =>
    destruct (String.eqb_spec (a_model a) m) as [E|];
    [ rewrite ?E; consts; cbv iota; cbn [negb implb andb orb]; destruct classes as [o|];
      cbn [bind isSome Nat.eqb negb implb andb orb]; norm; cbn [ok andb]; now bools
    | ]
  end.
  cbn [ok]. unfold among at 1. cbn [graph_nets existsb].
  rewrite !(fun m => proj2 (String.eqb_neq (a_model a) m)) by assumption. reflexivity.
Qed.

Definition evalb : bool :=
  among (a_metric a) ["isomorphism"; "accuracy"; "ap"; "mae"] ||
  (startswith (a_metric a) "ogbg-mol" && w_ogb w (a_metric a)).
Definition schedb : bool := among (a_sched a) ["ReduceLROnPlateau"; "StepLR"; "None"].

Lemma among_app s l1 l2 : among s (l1 ++ l2) = among s l1 || among s l2.
Proof. apply existsb_app. Qed.
Lemma disjoint_false s l1 l2 :
  (forall x, In x l1 -> among x l2 = false) -> among s l1 = true -> among s l2 = false.
Proof. intros H E. apply H. now apply among_In. Qed.

Lemma ok_finish d :
  ok (finish d) = negb (a_dataset a =? "CLUSTER") && evalb && buildb d && net_okb a && schedb.
Proof.
  unfold finish, splits, readable. destruct (a_tune a) eqn:Ht.
  - cbn [bind ok]. destruct (buildb d) eqn:Eb; [|now rewrite andb_false_r].
    unfold buildb in Eb. rewrite !andb_true_iff in Eb. destruct Eb as ((((Eb & _) & _) & _) & _).
    assert (G : graphsb a = false).
    { unfold graphsb. refine (disjoint_false _ _ _ _ Eb).
      intros x Hx. cbn in Hx. repeat (destruct Hx as [<-|Hx]; [reflexivity|]). destruct Hx. }
    unfold net_okb. rewrite G, Ht. cbn [negb orb]. now rewrite !andb_false_r.
  - rewrite !ok_bind_unit, ok_end, ok_eval, ok_sched, (ok_build _ Ht). fold evalb schedb.
    destruct (a_dataset a =? "CLUSTER"); cbn [ok negb andb]; [reflexivity|].
    now rewrite !andb_assoc.
Qed.

Lemma ok_gfinish test feats classes :
  ok (gfinish test feats classes) =
  evalb && among (a_model a) graph_nets && isSome classes && net_okb a && schedb.
Proof.
  unfold gfinish. rewrite !ok_bind_unit, ok_end, ok_eval, ok_sched, ok_gin. fold evalb schedb.
  now rewrite !andb_assoc.
Qed.

Definition isob : bool := implb (a_task a =? "isomorphism") (startswith (a_dataset a) "sr").

Lemma setup_split :
  setup w a =
  let* _ := if a_task a =? "isomorphism" then assert_ (startswith (a_dataset a) "sr") else Ok tt in
  if startswith (a_model a) "gin" then
    let* (test, classes) := load_graph_dataset w a in
    gfinish test (if startswith (a_dataset a) "sr" then 1 else w_gwidth w)
      (if startswith (a_dataset a) "sr" then Some (a_emb a) else classes)
  else
    let* d := load_dataset w a in finish d.
Proof.
  unfold setup. destruct (if a_task a =? "isomorphism" then _ else _); [|reflexivity].
  cbn [bind]. destruct (startswith (a_model a) "gin"); [|reflexivity].
  destruct (load_graph_dataset w a) as [[t c]|]; [|reflexivity]. cbn [bind].
  destruct (startswith (a_dataset a) "sr"); reflexivity.
Qed.

Lemma ok_iso :
  ok (if a_task a =? "isomorphism" then assert_ (startswith (a_dataset a) "sr") else Ok tt) = isob.
Proof. unfold isob. destruct (a_task a =? "isomorphism"); cbn [implb]; [apply ok_assert|reflexivity]. Qed.

(** A network that is not on the list is never started. *)
Lemma setup_known : ok (setup w a) = true -> In (a_model a) known_nets.
Proof.
  rewrite setup_split, ok_bind_unit, ok_iso, andb_true_iff. intros (_ & H).
  destruct (startswith (a_model a) "gin").
  - destruct (load_graph_dataset w a) as [[t c]|]; cbn [bind] in H; [|discriminate].
    rewrite ok_gfinish, !andb_true_iff in H. destruct H as ((((_ & H) & _) & _) & _).
    apply among_In in H. unfold known_nets. rewrite !in_app_iff. auto.
  - destruct (load_dataset w a) as [d|]; cbn [bind] in H; [|discriminate].
    rewrite ok_finish, !andb_true_iff in H. destruct H as (((_ & H) & _) & _).
    unfold buildb in H. rewrite !andb_true_iff in H. destruct H as ((((H & _) & _) & _) & _).
    apply among_In in H. unfold known_nets. rewrite !in_app_iff in *. tauto.
Qed.

Lemma nets_known f : incl (nets_of f) known_nets.
Proof.
  intros x Hx. destruct f; cbn in Hx;
    repeat (destruct Hx as [<-|Hx]; [apply among_In; reflexivity|]); destruct Hx.
Qed.

Definition starts_gin : bool := startswith (a_model a) "gin".
Lemma gin_known : In (a_model a) known_nets -> starts_gin = graphsb a.
Proof.
  unfold starts_gin, graphsb. intros H. cbn in H.
  repeat (destruct H as [<-|H]; [reflexivity|]). destruct H.
Qed.

Lemma ok_tu c md down :
  ok (let* d := tu_dataset c md (a_fold a) (a_init a) (a_ring a) down in finish d) =
  among (a_init a) reductions &&
  match a_ring a with
  | Some k => (3 <? k)%Z && Nat.eqb md 2
  | None => Nat.leb 1 md
  end && fold_belowb 10 a && negb (a_dataset a =? "CLUSTER") && evalb &&
  among (a_model a) plain_nets && net_okb a && schedb.
Proof.
  assert (B : forall m t u k l, buildb (mkDs m (Some c) None None None t u k l) =
                among (a_model a) plain_nets && implb (among (a_model a) (firstn 6 plain_nets)) k).
  { intros. unfold buildb. cbn [i_complexes i_classes i_node_types i_edge_types i_tasks isSome andb].
    rewrite !among_app.
    destruct (among (a_model a) embed_nets) eqn:E1; [|destruct (among (a_model a) ogb_nets) eqn:E2].
    - cbn [implb]. rewrite andb_false_r. cbn [andb].
      rewrite (disjoint_false _ embed_nets plain_nets); [reflexivity| |easy].
      intros x Hx. cbn in Hx. repeat (destruct Hx as [<-|Hx]; [reflexivity|]). destruct Hx.
    - cbn [implb]. rewrite andb_false_r. cbn [andb].
      rewrite (disjoint_false _ ogb_nets plain_nets); [reflexivity| |easy].
      intros x Hx. cbn in Hx. repeat (destruct Hx as [<-|Hx]; [reflexivity|]). destruct Hx.
    - cbn [implb orb]. rewrite !orb_false_r, !andb_true_r.
      destruct (among (a_model a) plain_nets); cbn [implb andb]; rewrite ?andb_true_r; reflexivity. }
  assert (F : ok (tu_fold (a_fold a)) = fold_belowb 10 a).
  { unfold tu_fold, fold_belowb. destruct (a_fold a); [apply ok_assert|reflexivity]. }
  unfold tu_dataset. destruct (a_ring a) as [k|].
  - destruct (3 <? k)%Z; cbn [assert_ bind ok andb]; [|now rewrite andb_false_r].
    destruct (Nat.eqb md 2); cbn [assert_ bind ok andb]; [|now rewrite andb_false_r].
    rewrite <- ok_init, <- F.
    destruct (check_init (a_init a)) as [[]|]; cbn [bind ok andb]; [|reflexivity].
    destruct (tu_fold (a_fold a)) as [[]|]; cbn [bind ok andb]; [|reflexivity].
    rewrite ok_finish, B. cbn [implb]. destruct (among (a_model a) (firstn 6 plain_nets)); cbn [implb];
      now rewrite andb_true_r.
  - rewrite <- ok_init, <- F. cbn [assert_ bind].
    destruct (check_init (a_init a)) as [[]|]; cbn [bind ok andb]; [|reflexivity].
    destruct md as [|md]; cbn [clique_lift bind ok andb Nat.leb]; [reflexivity|].
    destruct (tu_fold (a_fold a)) as [[]|]; cbn [bind ok andb]; [|reflexivity].
    rewrite ok_finish, B. cbn [implb]. destruct (among (a_model a) (firstn 6 plain_nets)); cbn [implb];
      now rewrite andb_true_r.
Qed.

Lemma run_tu name c l :
  In (name, TU c l) catalogue -> a_dataset a = name -> In (a_model a) known_nets ->
  ok (run_exp w a) = rowb w a (TU c l).
Proof.
  intros Hn E Hm. unfold run_exp. rewrite ok_bind_unit, setup_split, ok_bind_unit, ok_iso.
  pose proof (gin_known Hm) as G. unfold starts_gin in G. rewrite G.
  assert (V : validate_args a = Ok tt).
  { unfold validate_args. rewrite E. cbn in Hn.
    repeat (destruct Hn as [Hn|Hn]; [try discriminate; injection Hn as <- <- <-; reflexivity|]). destruct Hn. }
  assert (S : startswith (a_dataset a) "sr" = false /\ (a_dataset a =? "CLUSTER") = false).
  { rewrite E. cbn in Hn.
    repeat (destruct Hn as [Hn|Hn]; [try discriminate; injection Hn as <- <- <-; split; reflexivity|]). destruct Hn. }
  destruct S as [S SC].
  assert (Lg : load_graph_dataset w a = let* _ := tu_fold (a_fold a) in Ok (false, Some c)).
  { unfold load_graph_dataset. rewrite E. cbn in Hn.
    repeat (destruct Hn as [Hn|Hn]; [try discriminate; injection Hn as <- <- <-; reflexivity|]). destruct Hn. }
  assert (Ld : load_dataset w a = tu_dataset c (a_max_dim a) (a_fold a) (a_init a) (a_ring a)
                                    (if l then a_down a else false)).
  { unfold load_dataset. rewrite E. cbn in Hn.
    repeat (destruct Hn as [Hn|Hn]; [try discriminate; injection Hn as <- <- <-; reflexivity|]). destruct Hn. }
  assert (F : ok (tu_fold (a_fold a)) = fold_belowb 10 a).
  { unfold tu_fold, fold_belowb. destruct (a_fold a); [apply ok_assert|reflexivity]. }
  rewrite V, Lg, Ld. unfold rowb, commonb, data_okb, policyb, isob. fold evalb schedb. rewrite S.
  cbn [ok andb is_sr]. destruct (graphsb a) eqn:Gr.
  - assert (X : among (a_model a) (nets_of (TU c l)) = true).
    { cbn [nets_of]. rewrite among_app. unfold graphsb in Gr. rewrite Gr. apply orb_true_r. }
    rewrite X. rewrite <- F. destruct (tu_fold (a_fold a)) as [[]|]; cbn [bind ok andb orb]; [|btauto].
    rewrite ok_gfinish. unfold graphsb in Gr. rewrite Gr. cbn [isSome]. btauto.
  - rewrite ok_tu, SC. cbn [nets_of orb negb]. rewrite among_app. unfold graphsb in Gr. rewrite Gr.
    unfold rocb. destruct (a_ring a); btauto.
Qed.
End Fam.
