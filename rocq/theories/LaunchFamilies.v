(** The table of LaunchSpec against the model, for the families other than TU, and the result for
    every choice of options. *)
From Coq Require Import String Ascii List ZArith Lia Bool Btauto.
From Verif Require Import Base LaunchModel LaunchSpec LaunchProofs.
Import ListNotations.
Open Scope string_scope.

Section Fam.
Variable w : world.
Variable a : args.

(** Start of the other families: split into checks of the options, data and network. *)
Lemma run_split :
  ok (run_exp w a) =
  ok (validate_args a) && isob a &&
  ok (if startswith (a_model a) "gin" then
        let* (test, classes) := load_graph_dataset w a in
        gfinish w a test (if startswith (a_dataset a) "sr" then 1 else w_gwidth w)
          (if startswith (a_dataset a) "sr" then Some (a_emb a) else classes)
      else let* d := load_dataset w a in finish w a d).
Proof. unfold run_exp. now rewrite ok_bind_unit, setup_split, ok_bind_unit, ok_iso, andb_assoc. Qed.

Ltac models Hm :=
  let M := fresh "M" in
  cbn in Hm;
  repeat (destruct Hm as [M|Hm]; [symmetry in M|]); [..|destruct Hm].

Ltac fields := cbn [i_max_dim i_classes i_node_types i_edge_types i_tasks i_test i_tune i_complexes i_lift].

Ltac run_start E :=
  rewrite run_split; unfold rowb, commonb, data_okb, policyb, isob; fold (evalb w a) (schedb a);
  unfold validate_args, load_graph_dataset, load_dataset; rewrite ?E.
(** A network not among those of the family: both sides are false. *)
Ltac other_net :=
  cbn [nets_of]; unfold among; cbn [existsb];
  repeat match goal with
  | H : a_model a <> ?m |- _ => rewrite ?(proj2 (String.eqb_neq (a_model a) m) H); clear H
  end; close.

Lemma run_csl :
  a_dataset a = "CSL" -> ok (run_exp w a) = rowb w a CSL.
Proof.
  intros E. run_start E.
  destruct (String.eqb_spec (a_model a) "embed_sparse_cin") as [M|M].
  - rewrite M. consts2. cbv iota. norm. unfold csl_dataset, fold_belowb.
    destruct (a_ring a) as [k|]; [|close]. destruct (a_fold a) as [fd|]; [|close].
    cbn [ring_size of_option bind]. replace (fd <? 5)%Z with (fd <=? 4)%Z by (destruct (Z.leb_spec fd 4), (Z.ltb_spec fd 5); lia).
    destruct ((0 <=? fd)%Z && (fd <=? 4)%Z); [|cbn [assert_ bind]; close].
    cbn [assert_ bind]. rewrite ok_finish, E. consts2. unfold buildb. rewrite M. fields. consts2.
    close.
  - consts2. cbv iota. norm. other_net.
Qed.

Lemma run_transfer :
  a_dataset a = "RING-TRANSFER" -> ok (run_exp w a) = rowb w a Transfer.
Proof.
  intros E. run_start E.
  destruct (String.eqb_spec (a_model a) "ring_sparse_cin") as [M|M];
    [|destruct (String.eqb_spec (a_model a) "gin_ring") as [M'|M']].
  - rewrite M. consts2. cbv iota. norm. unfold ringtransfer_dataset.
    destruct (a_ring a) as [k|]; [|close]. cbn [of_option bind].
    rewrite ok_finish, E. unfold buildb. rewrite M. fields. consts2. close.
  - rewrite M'. consts2. cbv iota. norm. close.
  - consts2. cbv iota. norm. other_net.
Qed.

Lemma run_lookup :
  a_dataset a = "RING-LOOKUP" -> ok (run_exp w a) = rowb w a Lookup.
Proof.
  intros E. run_start E.
  destruct (String.eqb_spec (a_model a) "ring_sparse_cin") as [M|M];
    [|destruct (String.eqb_spec (a_model a) "gin_ring") as [M'|M']].
  - rewrite M. consts2. cbv iota. norm. unfold ringlookup_dataset.
    destruct (a_ring a) as [k|]; [|close]. cbn [of_option bind].
    rewrite ok_finish, E. unfold buildb. rewrite M. fields. consts2. close.
  - rewrite M'. consts2. cbv iota. norm.
    destruct (a_ring a) as [k|]; [|close]. cbn [of_option bind].
    rewrite ok_gfinish, M'. consts2. close.
  - consts2. cbv iota. norm. other_net.
Qed.

Lemma run_zinc :
  a_dataset a = "ZINC" \/ a_dataset a = "ZINC-FULL" -> In (a_model a) known_nets ->
  ok (run_exp w a) = rowb w a Zinc.
Proof.
  intros [E|E] Hm; run_start E; models Hm; rewrite M; consts2; cbv iota; norm; consts2; try (close; fail);
    unfold zinc_dataset;
    (destruct (a_ring a) as [k|]; [|close]); cbn [ring_size of_option bind];
    rewrite ok_finish, E; unfold buildb; rewrite M; fields; consts2; close.
Qed.

Lemma run_flow :
  a_dataset a = "FLOW" -> ok (run_exp w a) = rowb w a Flow.
Proof.
  intros E. run_start E.
  destruct (String.eqb_spec (a_model a) "edge_orient") as [M|M];
    [|destruct (String.eqb_spec (a_model a) "edge_mpnn") as [M'|M']].
  1, 2: rewrite ?M, ?M'; consts2; cbv iota; norm; unfold flow_dataset, orientb;
    rewrite <- !ok_orient; destruct (w_flow w) as [[]|]; [|close];
    destruct (check_orient (a_train_orient a)) as [[]|]; [|close];
    destruct (check_orient (a_test_orient a)) as [[]|]; [|close];
    cbn [bind]; rewrite ok_finish, E; unfold buildb; rewrite ?M, ?M'; fields; consts2; close.
  consts2. cbv iota. norm. other_net.
Qed.

Lemma run_ocean :
  a_dataset a = "OCEAN" -> ok (run_exp w a) = rowb w a Ocean.
Proof.
  intros E. run_start E.
  destruct (String.eqb_spec (a_model a) "edge_orient") as [M|M];
    [|destruct (String.eqb_spec (a_model a) "edge_mpnn") as [M'|M']].
  1, 2: rewrite ?M, ?M'; consts2; cbv iota; norm; unfold ocean_dataset, orientb;
    rewrite <- !ok_orient;
    destruct (check_orient (a_train_orient a)) as [[]|]; [|close];
    destruct (check_orient (a_test_orient a)) as [[]|]; [|close];
    cbn [bind]; rewrite ok_finish, E; unfold buildb; rewrite ?M, ?M'; fields; consts2; close.
  consts2. cbv iota. norm. other_net.
Qed.

Lemma run_toy name n :
  In (name, Toy n) catalogue -> a_dataset a = name -> In (a_model a) known_nets ->
  ok (run_exp w a) = rowb w a (Toy n).
Proof.
  intros Hn E Hm.
  assert (N : name = "DUMMY" \/ name = "DUMMYM").
  { cbn in Hn. repeat (destruct Hn as [Hn|Hn]; [try discriminate; injection Hn as <- <-; auto|]). destruct Hn. }
  clear Hn. destruct N as [->| ->]; run_start E; models Hm; rewrite M; consts2; cbv iota; norm; consts2;
    try (close; fail); unfold dummy_dataset, dummym_dataset;
    rewrite ok_finish, E; unfold buildb; rewrite M; fields; consts2; close.
Qed.

Lemma run_pep name n :
  In (name, Pep n) catalogue -> a_dataset a = name -> In (a_model a) known_nets ->
  ok (run_exp w a) = rowb w a (Pep n).
Proof.
  intros Hn E Hm.
  assert (N : (name = "PEPTIDES-F" /\ n = 10) \/ (name = "PEPTIDES-S" /\ n = 11)).
  { cbn in Hn. repeat (destruct Hn as [Hn|Hn]; [try discriminate; injection Hn as <- <-; auto|]). destruct Hn. }
  clear Hn. destruct N as [[-> ->]|[-> ->]]; run_start E; unfold graphsb; models Hm; rewrite M; consts2; cbv iota; norm;
    consts2; cbn [orb negb]; try (close; fail); unfold pep_dataset;
    try (destruct (w_pep w) as [[]|]; [|close]; cbn [bind]; rewrite ok_gfinish, M; consts2; close; fail);
    (destruct (a_ring a) as [k|]; [|close]); cbn [ring_size of_option bind];
    rewrite <- ok_init; (destruct (check_init (a_init a)) as [[]|]; [|close]); cbn [bind];
    rewrite ok_finish, E; unfold buildb; rewrite M; fields; consts2; close.
Qed.

Lemma ok_ogb :
  ok (let* d := ogb_dataset w (a_ring a) (a_edge a) (a_down a) (a_init a) in finish w a d) =
  isSome (a_ring a) && among (a_init a) reductions && negb (a_dataset a =? "CLUSTER") && evalb w a &&
  among (a_model a) ogb_nets && net_okb a && schedb a.
Proof.
  unfold ogb_dataset. destruct (a_ring a) as [k|]; [|reflexivity].
  cbn [ring_size of_option bind isSome andb]. rewrite <- ok_init.
  destruct (check_init (a_init a)) as [[]|]; cbn [bind ok andb]; [|reflexivity].
  rewrite ok_finish. unfold buildb. fields. cbn [isSome andb]. rewrite !among_app.
  destruct (among (a_model a) ogb_nets) eqn:E2.
  - assert (F1 : among (a_model a) plain_nets = false).
    { refine (disjoint_false _ _ _ _ E2). intros x Hx. cbn in Hx.
      repeat (destruct Hx as [<-|Hx]; [reflexivity|]). destruct Hx. }
    assert (F2 : among (a_model a) embed_nets = false).
    { refine (disjoint_false _ _ _ _ E2). intros x Hx. cbn in Hx.
      repeat (destruct Hx as [<-|Hx]; [reflexivity|]). destruct Hx. }
    assert (F3 : among (a_model a) (firstn 6 plain_nets) = false).
    { refine (disjoint_false _ _ _ _ E2). intros x Hx. cbn in Hx.
      repeat (destruct Hx as [<-|Hx]; [reflexivity|]). destruct Hx. }
    rewrite F1, F2, F3. cbn [orb andb implb]. btauto.
  - cbn [implb orb]. rewrite !orb_false_r.
    destruct (among (a_model a) plain_nets || among (a_model a) embed_nets); cbn [andb implb];
      rewrite ?andb_false_r; reflexivity.
Qed.


Lemma run_mol name c :
  In (name, Mol c) catalogue -> a_dataset a = name -> In (a_model a) known_nets ->
  ok (run_exp w a) = rowb w a (Mol c).
Proof.
  intros Hn E Hm. rewrite run_split. unfold rowb, commonb, data_okb, policyb, isob. fold (evalb w a) (schedb a).
  assert (Ld : load_dataset w a = ogb_dataset w (a_ring a) (a_edge a) (a_down a) (a_init a)).
  { unfold load_dataset. rewrite E. cbn in Hn.
    repeat (destruct Hn as [Hn|Hn]; [try discriminate; injection Hn as <- <-; reflexivity|]). destruct Hn. }
  assert (S : startswith (a_dataset a) "sr" = false /\ (a_dataset a =? "CLUSTER") = false).
  { rewrite E. cbn in Hn.
    repeat (destruct Hn as [Hn|Hn]; [try discriminate; injection Hn as <- <-; split; reflexivity|]). destruct Hn. }
  destruct S as [S SC].
  assert (V : ok (validate_args a) =
    among (a_model a) ogb_nets && implb (a_model a =? "ogb_embed_cin++") (a_down a) &&
    mol_metricb a && negb (isSome (a_jump a)) && Bool.eqb (a_minimize a) c &&
    (a_task a =? (if c then "mse_regression" else "bin_classification"))).
  { unfold validate_args, mol_metricb. rewrite E. cbn in Hn.
    repeat (destruct Hn as [Hn|Hn];
      [try discriminate; injection Hn as <- <-;
       cbn [metrics_of_ogb existsb fst snd];
       match goal with |- context ["ogbg-" ++ lower ?s] =>
         let v := eval vm_compute in ("ogbg-" ++ lower s) in change ("ogbg-" ++ lower s) with v end;
       consts2; cbv iota; norm;
       unfold among, ogb_nets; cbn [existsb andb orb];
       destruct (a_model a =? "ogb_embed_cin++"); norm; cbn [implb ok andb orb];
       rewrite ?orb_false_r;
       destruct (a_minimize a); cbn [Bool.eqb negb]; try btauto|]); [..|destruct Hn]. }
  rewrite V, Ld, S. cbn [is_sr nets_of]. rewrite implb_false_r.
  destruct (among (a_model a) ogb_nets) eqn:Eo; [|reflexivity].
  assert (G : startswith (a_model a) "gin" = false).
  { apply among_In in Eo. cbn in Eo. repeat (destruct Eo as [<-|Eo]; [reflexivity|]). destruct Eo. }
  rewrite G, ok_ogb, SC, Eo. cbn [negb]. btauto.
Qed.

Lemma run_sr rest :
  a_dataset a = String "s" (String "r" rest) -> ok (run_exp w a) = rowb w a SR.
Proof.
  intros E. run_start E.
  assert (S : startswith (String "s" (String "r" rest)) "sr" = true) by (destruct rest; reflexivity).
  rewrite !S. clear S.
  destruct (String.eqb_spec (a_model a) "sparse_cin") as [M|M];
    [|destruct (String.eqb_spec (a_model a) "mp_agnostic") as [M'|M']].
  1, 2: rewrite ?M, ?M'; consts2; cbn [orb]; cbv iota; norm; unfold sr_dataset, rocb;
    rewrite <- ok_init;
    destruct (check_init (a_init a)) as [[]|];
    destruct (a_ring a) as [k|];
    try (destruct (3 <? k)%Z; [|close]);
    try (destruct (Nat.eqb (a_max_dim a) 2); [|close]);
    try (destruct (a_max_dim a));
    cbn [assert_ bind clique_lift Nat.leb]; try (close; fail);
    rewrite ok_finish, E; unfold buildb; rewrite ?M, ?M'; fields; consts2; cbn [Nat.leb]; close.
  consts2. cbv iota. norm. other_net.
Qed.

(** Names outside the catalogue are never started. *)
Lemma setup_belongs : ok (setup w a) = true -> exists f, belongs (a_dataset a) f.
Proof.
  rewrite setup_split, ok_bind_unit, andb_true_iff. intros (_ & H). revert H.
  destruct (startswith (a_dataset a) "sr") eqn:S.
  { intros _. exists SR. right. split; [reflexivity|]. now apply startswith_iff. }
  destruct (existsb (fun p => a_dataset a =? fst p) catalogue) eqn:K.
  { intros _. apply existsb_exists in K. destruct K as ([n f] & Hin & Hn).
    apply String.eqb_eq in Hn. cbn [fst] in Hn. subst n. exists f. now left. }
  cbn [catalogue existsb fst] in K. rewrite !orb_false_iff in K.
  assert (C : (a_dataset a =? "CLUSTER") = true \/ (a_dataset a =? "CLUSTER") = false)
    by (destruct (a_dataset a =? "CLUSTER"); auto).
  unfold load_graph_dataset, load_dataset, among. rewrite S. cbn [mol_names existsb].
  repeat match goal with H : _ /\ _ |- _ => destruct H end.
  destruct C as [C|C]; rewrite ?C;
  repeat match goal with H : (a_dataset a =? ?n) = false |- _ => rewrite ?H; clear H end;
  cbn [orb bind ok]; destruct (startswith (a_model a) "gin"); try discriminate.
  rewrite ok_finish, C. discriminate.
Qed.

Lemma run_family f :
  belongs (a_dataset a) f -> In (a_model a) known_nets -> ok (run_exp w a) = rowb w a f.
Proof.
  intros [Hin|(-> & rest & E)] Hm; [|exact (run_sr rest E)].
  remember (a_dataset a) as name eqn:En. symmetry in En.
  destruct f.
  - exact (run_tu w a name _ _ Hin En Hm).
  - cbn in Hin. repeat (destruct Hin as [Hin|Hin]; [discriminate|]). destruct Hin.
  - apply run_csl. rewrite En. cbn in Hin.
    repeat (destruct Hin as [Hin|Hin]; [try discriminate; now injection Hin as <-|]). destruct Hin.
  - apply run_transfer. rewrite En. cbn in Hin.
    repeat (destruct Hin as [Hin|Hin]; [try discriminate; now injection Hin as <-|]). destruct Hin.
  - apply run_lookup. rewrite En. cbn in Hin.
    repeat (destruct Hin as [Hin|Hin]; [try discriminate; now injection Hin as <-|]). destruct Hin.
  - apply run_zinc; [|exact Hm]. rewrite En. cbn in Hin.
    repeat (destruct Hin as [Hin|Hin]; [try discriminate; injection Hin as <-; auto|]). destruct Hin.
  - exact (run_mol name _ Hin En Hm).
  - apply run_flow. rewrite En. cbn in Hin.
    repeat (destruct Hin as [Hin|Hin]; [try discriminate; now injection Hin as <-|]). destruct Hin.
  - apply run_ocean. rewrite En. cbn in Hin.
    repeat (destruct Hin as [Hin|Hin]; [try discriminate; now injection Hin as <-|]). destruct Hin.
  - exact (run_toy name _ Hin En Hm).
  - exact (run_pep name _ Hin En Hm).
Qed.

Theorem run_startable : (exists s, run_exp w a = Ok s) <-> startable w a.
Proof.
  rewrite <- ok_iff. unfold startable. split.
  - intros H. pose proof H as H2. unfold run_exp in H2. rewrite ok_bind_unit, andb_true_iff in H2.
    destruct H2 as (_ & H2). pose proof (setup_known _ _ H2) as Hm.
    destruct (setup_belongs H2) as (f & Hf). exists f. split; [exact Hf|].
    rewrite (run_family f Hf Hm) in H. exact (proj1 (row_iff _ _ _) H).
  - intros (f & Hf & Hr). pose proof (nets_known f _ (proj1 Hr)) as Hm.
    rewrite (run_family f Hf Hm). exact (proj2 (row_iff _ _ _) Hr).
Qed.
End Fam.
